(** C81, continued: where the directories are, and which error loading gives. *)
From Coq Require Import List Bool String Ascii Arith Lia.
From Verif Require Import Base FilesModel FilesSpec FilesProofs FilesRunProofs PlacesSpec.
Import ListNotations.

Lemma split_pieces : forall pieces, pieces <> [] -> (forall x, In x pieces -> without "/" x) -> split_slash (String.concat "/" pieces) "" = pieces.
Proof.
  induction pieces as [|x [|y r] IH]; intros N W; [contradiction| |].
  - cbn [String.concat]. rewrite <- (str_nil_r x) at 1. rewrite split_app by (apply W; left; reflexivity). reflexivity.
  - change (String.concat "/" (x :: y :: r)) with (x ++ String "/" (String.concat "/" (y :: r)))%string. rewrite split_app by (apply W; left; reflexivity).
    change (split_slash (String "/" (String.concat "/" (y :: r))) ("" ++ x)) with (x :: split_slash (String.concat "/" (y :: r)) ""). rewrite IH; [reflexivity|discriminate|]. intros z Hz. apply W. right. exact Hz.
Qed.
Lemma spelled : forall s names, spells s names -> p_parts (parse_path s) = names.
Proof.
  intros s names (pieces & N & -> & W & ->). unfold parse_path. cbn [p_parts]. rewrite (split_pieces _ N W). apply filter_ext. intros x. unfold kept_name. apply negb_orb.
Qed.
Lemma not_rooted : forall s, ~ rooted s -> p_abs (parse_path s) = false.
Proof. intros [|c s] H; [reflexivity|]. cbn. destruct (Ascii.eqb_spec c "/"); [subst c; exfalso; apply H; exists s; reflexivity|reflexivity]. Qed.
Lemma join_relative : forall p s names, spells s names -> ~ rooted s -> p_parts (join_path p (parse_path s)) = p_parts p ++ names.
Proof. intros p s names S H. unfold join_path. rewrite (not_rooted s H). cbn [p_parts]. rewrite (spelled s names S). reflexivity. Qed.
Lemma join_rooted : forall p s names, spells s names -> rooted s -> p_parts (join_path p (parse_path s)) = names.
Proof. intros p s names S (r & E). unfold join_path. assert (A : p_abs (parse_path s) = true) by (rewrite E; reflexivity). rewrite A. exact (spelled s names S). Qed.

(* the base directory is asope_data beside the parent of the working directory, or in there, or where an absolute name says.  The directory chosen for
   saving or loading depends on the base and the name alone, whatever was chosen before *)
Theorem C81_places : forall bytes (f : fsys bytes) cwd up x y dir io s names, p_parts cwd = up ++ [x; y] -> spells s names -> used (bytes := bytes) (init_io cwd dir) io ->
  let base := p_parts (io_path (init_io cwd dir)) in
  (dir = None -> base = up ++ ["asope_data"%string]) /\
  (forall d dn, dir = Some d -> spells d dn -> (~ rooted d -> base = up ++ "asope_data"%string :: dn) /\ (rooted d -> base = dn)) /\
  (~ rooted s -> p_parts (io_save (fst (init_save_dir f io (Some s) None))) = base ++ names /\ p_parts (io_load (fst (init_load_dir f io (Some s)))) = base ++ names) /\
  (rooted s -> p_parts (io_save (fst (init_save_dir f io (Some s) None))) = names /\ p_parts (io_load (fst (init_load_dir f io (Some s)))) = names) /\
  p_parts (io_save (fst (init_save_dir f io None None))) = base /\ p_parts (io_load (fst (init_load_dir f io None))) = base /\
  (forall sub id, io_load (fst (init_save_dir f io sub id)) = io_load io /\ io_save (fst (init_load_dir f io sub)) = io_save io).
Proof.
  intros bytes f cwd up x y dir io s names C S U base.
  assert (P : io_path io = io_path (init_io cwd dir)). { clear - U. induction U as [|g io sub id U IH|g io sub U IH]; [reflexivity|exact IH|exact IH]. }
  assert (G : p_parts (parent_path (parent_path cwd)) = up).
  { unfold parent_path. cbn [p_parts]. rewrite C. change (up ++ [x; y]) with (up ++ [x] ++ [y]). rewrite app_assoc, !removelast_last. reflexivity. }
  assert (D : p_parts (join_path (parent_path (parent_path cwd)) (parse_path "asope_data")) = up ++ ["asope_data"%string]) by (unfold join_path; cbn [p_abs parse_path is_abs Ascii.eqb Bool.eqb p_parts]; rewrite G; reflexivity).
  split; [intros ->; exact D|]. split.
  { intros d dn -> Sd. unfold base, init_io. cbn [io_path]. split; intros H.
    - assert (A : is_abs d = false) by exact (not_rooted d H). rewrite A. rewrite (join_relative _ d dn Sd H), D, <- app_assoc. reflexivity.
    - destruct H as (r & E). assert (A : is_abs d = true) by (rewrite E; reflexivity). rewrite A. exact (spelled d dn Sd). }
  unfold init_save_dir, init_load_dir, save_dir. cbn [fst io_save io_load]. rewrite P. fold base. split; [intros H; split; apply (join_relative _ s names S H)|].
  split; [intros H; split; apply (join_rooted _ s names S H)|]. split; [reflexivity|]. split; [reflexivity|]. intros; split; reflexivity.
Qed.
Print Assumptions C81_places.

(* what cannot be loaded, and why; and loading what is there *)
Theorem C81_missing : forall obj bytes (load : reader obj bytes) f io name, tree f -> let l := p_parts (join_to_load_path io name) in plain l ->
  ((exists q, strictly_above q l /\ holds_file f q) -> load_object load f io name = inr (OS NotADirectoryError)) /\
  (f l = Some Dir -> load_object load f io name = inr (OS IsADirectoryError)) /\
  (f l = None -> (forall q, strictly_above q l -> ~ holds_file f q) -> load_object load f io name = inr (OS FileNotFoundError)) /\
  (forall b, f l = Some (File b) -> load_object load f io name = load b).
Proof.
  intros obj bytes load f io name T l P. unfold load_object, read_file, open_read. fold l.
  assert (Up : forall s k, f (k ++ s) <> None -> s <> [] -> f k = Some Dir).
  { intros s. induction s as [|x s IHs] using rev_ind; intros k K Ns; [contradiction|]. rewrite app_assoc in K. pose proof (proj2 T _ _ K) as U. destruct s as [|y s]; [rewrite app_nil_r in U; exact U|]. apply IHs; [congruence|discriminate]. }
  assert (W : f l <> None -> walk f [] l = inl l). { intros N. apply (proj1 (walk_plain f l [] P)). intros q r E Nr. cbn. apply (Up r); [rewrite <- E; exact N|exact Nr]. }
  split; [|split; [|split]].
  - intros (q & (r & Nr & E) & F). rewrite (walk_file f T l [] P); [reflexivity|rewrite (proj1 T); discriminate|]. exists q, r. auto.
  - intros E. rewrite W, E by congruence. reflexivity.
  - intros E NF. destruct (walk_plain_root f T l P) as [[(q & r & Eq & Nr & F) _]|[[_ ->]|(_ & _ & ->)]]; [|rewrite E; reflexivity|reflexivity]. exfalso. apply (NF q); [exists r; auto|exact F].
  - intros b E. rewrite W, E by congruence. reflexivity.
Qed.
Print Assumptions C81_missing.

(* a directory to load from is refused exactly if nothing is there; a file is accepted *)
Theorem C81_load_dir : forall bytes (f : fsys bytes) io sub, tree f -> let io' := fst (init_load_dir f io sub) in plain (p_parts (io_load io')) ->
  (f (p_parts (io_load io')) <> None -> snd (init_load_dir f io sub) = inl tt) /\
  (f (p_parts (io_load io')) = None -> snd (init_load_dir f io sub) = inr (OS FileExistsError)).
Proof.
  intros bytes f io sub T io' P. unfold io', init_load_dir in *. cbn [fst snd io_load] in *. set (p := match sub with Some _ => _ | None => _ end) in *. unfold exists_path.
  assert (Up : forall s k, f (k ++ s) <> None -> s <> [] -> f k = Some Dir).
  { intros s. induction s as [|x s IHs] using rev_ind; intros k K Ns; [contradiction|]. rewrite app_assoc in K. pose proof (proj2 T _ _ K) as U. destruct s as [|y s]; [rewrite app_nil_r in U; exact U|]. apply IHs; [congruence|discriminate]. }
  split.
  - intros N. rewrite (proj1 (walk_plain f (p_parts p) [] P)) by (intros q r E Nr; cbn; apply (Up r); [rewrite <- E; exact N|exact Nr]). cbn [app]. destruct (f (p_parts p)); [reflexivity|contradiction].
  - intros N. destruct (walk_plain_root f T (p_parts p) P) as [[_ ->]|[[_ ->]|(_ & _ & ->)]]; [reflexivity|rewrite N; reflexivity|reflexivity].
Qed.
Print Assumptions C81_load_dir.

(* dots and doubled slashes in the name, after another directory had been chosen *)
Example C81_places_case : let cwd := {| p_abs := true; p_parts := ["home"; "u"; "aesop"; "scripts"]%string |} in
  let nothing : fsys string := fun _ => None in
  spells "a/.//b/" ["a"; "b"]%string /\ ~ rooted "a/.//b/" /\ rooted "/a" /\
  exists io, used (bytes := string) (init_io cwd (Some "results/today"%string)) io /\ p_parts (io_save io) <> p_parts (io_path io) /\
    p_parts (io_save (fst (init_save_dir nothing io (Some "a/.//b/"%string) None))) = ["home"; "u"; "asope_data"; "results"; "today"; "a"; "b"]%string.
Proof.
  cbv zeta. assert (W : forall s, forallb (fun c => negb (Ascii.eqb c "/")) (list_ascii_of_string s) = true -> without "/" s).
  { induction s as [|c s IH]; intros H i z E; [destruct i; discriminate|]. cbn in H. apply andb_prop in H as [H1 H2]. destruct i as [|i]; [injection E as <-; apply negb_true_iff, Ascii.eqb_neq in H1; exact H1|exact (IH H2 i z E)]. }
  split; [exists ["a"; "."; ""; "b"; ""]%string; split; [discriminate|]; split; [reflexivity|]; split; [|reflexivity]; intros x Hx; apply W; repeat (destruct Hx as [<-|Hx]; [reflexivity|]); destruct Hx|].
  split; [intros (r & E); discriminate|]. split; [eexists; reflexivity|].
  exists (fst (init_save_dir ((fun _ => None) : fsys string) (init_io {| p_abs := true; p_parts := ["home"; "u"; "aesop"; "scripts"]%string |} (Some "results/today"%string)) (Some "first"%string) None)).
  split; [apply used_save, used_new|]. split; [discriminate|reflexivity].
Qed.
