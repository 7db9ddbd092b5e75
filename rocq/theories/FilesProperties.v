(** C81: saving and loading files.  C82: the log of the printed text. *)
From Coq Require Import List Bool String Ascii Arith Lia.
From Verif Require Import Base FilesModel FilesSpec FilesProofs FilesRunProofs TeeProofs.
Import ListNotations.

(* what was saved under a name is what loading the name gives *)
Theorem C81_roundtrip : forall obj bytes (dump : writer obj bytes) (load : reader obj bytes) f io io' o name f', io_load io' = io_save io ->
  (save_object dump f io o name = (f', inl tt) -> load_object load f' io' name = load (fst (dump o))) /\
  (save_json dump f io o name = (f', inl tt) -> load_json load f' io' name = load (fst (dump o))).
Proof. intros obj bytes dump load f io io' o name f' E. split; intros H; [exact (save_load_object _ _ _ _ _ _ _ _ H E)|exact (save_load_json _ _ _ _ _ _ _ _ H E)]. Qed.
Print Assumptions C81_roundtrip.

(* which saves succeed; successful or not, no directory and no file disappears *)
Theorem C81_exact : forall obj bytes (dump : writer obj bytes) f io o name, tree f -> plain (target io name) ->
  (snd (save_object dump f io o name) = inl tt <->
   snd (dump o) = None /\ f (target io name) <> Some Dir /\ forall q, strictly_above q (target io name) -> ~ holds_file f q) /\
  (snd (save_json dump f io o name) = inl tt <->
   snd (dump o) = None /\ f (target io name) <> Some Dir /\ forall q, strictly_above q (target io name) -> f q = Some Dir) /\
  (forall f' r, save_object dump f io o name = (f', r) \/ save_json dump f io o name = (f', r) -> tree f' /\ grows f f').
Proof.
  intros obj bytes dump f io o name T P. split; [apply save_object_exact; assumption|]. split; [apply save_json_exact; assumption|].
  intros f' r [H|H]; [destruct (save_object_grows _ _ _ _ _ _ _ H)|destruct (write_grows _ _ _ _ _ _ H)]; auto.
Qed.
Print Assumptions C81_exact.

(* an object that cannot be written destroys what was saved before under the name *)
Theorem C81_lost : forall obj bytes (dump : writer obj bytes) (load : reader obj bytes) f io io' o name old e, tree f -> plain (target io name) -> io_load io' = io_save io ->
  f (target io name) = Some (File old) -> snd (dump o) = Some e ->
  exists f1 f2, save_object dump f io o name = (f1, inr e) /\ load_object load f1 io' name = load (fst (dump o)) /\
                save_json dump f io o name = (f2, inr e) /\ load_json load f2 io' name = load (fst (dump o)).
Proof.
  intros obj bytes dump load f io io' o name old e T P E F S.
  assert (Up : forall q, strictly_above q (target io name) -> f q = Some Dir).
  { intros q (r & N & Er). assert (K : forall s l, f (l ++ s) <> None -> s <> [] -> f l = Some Dir).
    { intros s. induction s as [|x s IHs] using rev_ind; intros l K Ns; [contradiction|]. rewrite app_assoc in K. pose proof (proj2 T _ _ K) as U. destruct s as [|y s]; [rewrite app_nil_r in U; exact U|]. apply IHs; [congruence|discriminate]. }
    apply (K r); [rewrite <- Er; congruence|exact N]. }
  assert (W : forall g, tree g -> (forall q, strictly_above q (target io name) -> g q = Some Dir) -> g (target io name) = Some (File old) ->
    exists g', write_file dump g (join_to_save_path io name) o = (g', inr e) /\ load_object load g' io' name = load (fst (dump o))).
  { intros g Tg Ug Fg. assert (O : open_write g (join_to_save_path io name) = inl (target io name)) by (apply open_write_plain; auto; change (p_parts (join_to_save_path io name)) with (target io name); congruence).
    destruct (write_file dump g (join_to_save_path io name) o) as [g' r] eqn:H. exists g'. split.
    - unfold write_file in H. rewrite O in H. destruct (dump o) as [b e']. cbn in S. subst e'. injection H as <- <-. reflexivity.
    - unfold load_object, join_to_load_path. rewrite E. exact (read_after_write _ _ _ _ _ _ _ _ H O). }
  destruct (W f T Up F) as (f2 & J & L2).
  destruct (mkdirs_plain f (parent_path (join_to_save_path io name)) T) as (g & M & Dg & Og & Tg).
  { apply plain_removelast. exact P. }
  { intros q A [b Fb]. destruct (p_parts (join_to_save_path io name)) eqn:Ep; [destruct A as [s A]; cbn in A; rewrite Ep in A; symmetry in A; apply app_eq_nil in A; destruct A as [-> _]; destruct T; congruence|].
    rewrite (Up q) in Fb; [discriminate|]. apply strictly_above_parent. change (target io name) with (p_parts (join_to_save_path io name)). split; [rewrite Ep; discriminate|exact A]. }
  assert (Nn : target io name <> []) by (intros K; rewrite K in F; destruct T; congruence).
  assert (Fg : g (target io name) = Some (File old)) by (exact (only_dirs_file _ _ _ _ (proj1 (mkdirs_only _ _ _ _ M)) F)).
  destruct (W g Tg) as (f1 & O1 & L1); [intros q A; apply Dg; apply strictly_above_parent in A; exact (proj2 A)|exact Fg|].
  exists f1, f2. split; [unfold save_object; rewrite M; exact O1|]. auto.
Qed.
Print Assumptions C81_lost.

(* relative names without double dots stay below the save directory *)
Theorem C81_inside : forall obj bytes (dump : writer obj bytes) f io o name f' r, tree f -> p_abs (to_path name) = false -> p_parts (to_path name) <> [] -> plain (target io name) ->
  f (p_parts (io_save io)) = Some Dir -> save_object dump f io o name = (f', r) -> forall l, f' l <> f l -> strictly_above (p_parts (io_save io)) l.
Proof. intros obj bytes dump f io o name f' r T A N P D H. exact (save_object_inside dump f io o name f' r T A P N D H). Qed.
Print Assumptions C81_inside.

(* a later process finds what an earlier one saved, whatever else was saved in between under other names *)
Theorem C81_reload : forall obj bytes (pickle json : writer obj bytes) (load : reader obj bytes) f cwd dir sub o name io1 f1 f2 ops, tree f ->
  init_save_dir f (init_io cwd dir) sub None = (io1, (f1, inl tt)) -> plain (target io1 name) -> save_object pickle f1 io1 o name = (f2, inl tt) ->
  (forall c, In c ops -> op_plain c /\ ~ op_targets c (target io1 name)) ->
  exists io2, init_load_dir (fold_left (do_op pickle json) ops f2) (init_io cwd dir) sub = (io2, inl tt) /\
    load_object load (fold_left (do_op pickle json) ops f2) io2 name = load (fst (pickle o)).
Proof.
  intros obj bytes pickle json load f cwd dir sub o name io1 f1 f2 ops T I P S H. unfold init_save_dir in I. injection I as <- I. cbn [io_save] in I.
  set (io := init_io cwd dir) in *. set (f3 := fold_left (do_op pickle json) ops f2).
  assert (T1 : tree f1) by exact (proj2 (mkdirs_only _ _ _ _ I) T). destruct (save_object_grows _ _ _ _ _ _ _ S) as [G2 T2]. destruct (do_ops_grows pickle json ops f2) as [G3 T3].
  assert (D3 : is_dir f3 (p_parts (save_dir io sub None)) = true) by (apply (is_dir_kept f2); [exact G3|]; apply (is_dir_kept f1); [exact G2|exact (mkdirs_is_dir _ _ _ I)]).
  unfold init_load_dir. eexists. split.
  - replace (match sub with Some s => join_path (io_path io) (parse_path s) | None => io_path io end) with (save_dir io sub None) by (destruct sub; reflexivity).
    replace (exists_path f3 (save_dir io sub None)) with true; [reflexivity|]. symmetry. apply is_dir_iff in D3. destruct D3 as (l & W & D). unfold exists_path. rewrite W, D. reflexivity.
  - destruct (save_object_split _ _ _ _ _ _ _ S) as [(e & K & _)|(f1' & M & W)]; [discriminate|]. destruct (write_success _ _ _ _ _ W) as (l & Wl & _ & E2). destruct (open_write_plain_inv _ _ _ P Wl) as (-> & _ & _).
    assert (F2 : f2 (target {| io_path := io_path io; io_save := save_dir io sub None; io_load := io_load io |} name) = Some (File (fst (pickle o)))) by (rewrite E2; apply set_same).
    pose proof (do_ops_file pickle json ops f2 _ _ H F2) as F3. unfold load_object, join_to_load_path. cbn [io_load].
    unfold target, join_to_save_path in P, F3. cbn [io_save] in P, F3.
    replace (match sub with Some s => join_path (io_path io) (parse_path s) | None => io_path io end) with (save_dir io sub None) by (destruct sub; reflexivity).
    apply read_plain; [exact P|auto|exact F3].
Qed.
Print Assumptions C81_reload.

(* directories with different drawn identifiers share nothing, whatever their names *)
Theorem C81_apart : forall io s s' id id' l, drawn_id id -> drawn_id id' -> id <> id' ->
  strictly_above (p_parts (io_path io)) (p_parts (save_dir io s (Some id))) /\
  (above (p_parts (save_dir io s (Some id))) l -> ~ above (p_parts (save_dir io s' (Some id'))) l).
Proof.
  intros io s s' id id' l D D' N. split; [|apply ids_apart; assumption]. destruct (save_dir_id io s id D) as (h & t & _ & E). rewrite E. eexists. split; [|reflexivity]. discriminate.
Qed.
Print Assumptions C81_apart.

(* where the description of the machine goes *)
Theorem C81_metadata : forall obj bytes (dump : writer obj bytes) f io m, tree f ->
  (forall sub, save_machine_metadata dump f io sub None = (f, inr (Py TypeError))) /\
  (forall s, is_abs s = true -> save_machine_metadata dump f io (Some (Text s)) (Some m) = (f, inr (Py AttributeError))) /\
  (forall sub p, (sub = None /\ p = io_path io \/ sub = Some (APath p) /\ p_abs p = true \/ (exists a, sub = Some a /\ arg_abs a = false /\ p = join_to_save_path io a)) -> plain_path p ->
     (snd (save_machine_metadata dump f io sub (Some m)) = inl tt <->
        snd (dump m) = None /\ f (p_parts p ++ ["metadata.json"%string]) <> Some Dir /\ forall q, above q (p_parts p) -> ~ holds_file f q) /\
     forall f', save_machine_metadata dump f io sub (Some m) = (f', inl tt) -> f' (p_parts p ++ ["metadata.json"%string]) = Some (File (fst (dump m)))).
Proof.
  intros obj bytes dump f io m T. split; [reflexivity|]. split; [intros s A; unfold save_machine_metadata; cbn [arg_abs]; rewrite A; reflexivity|].
  intros sub p S P.
  assert (E : save_machine_metadata dump f io sub (Some m) = save_object dump f {| io_path := p; io_save := p; io_load := p |} m (Text "metadata.json")).
  { unfold save_object, join_to_save_path, save_machine_metadata. cbn [io_save to_path].
    assert (Pp : parent_path (join_path p (parse_path "metadata.json")) = p) by (destruct p as [a parts]; unfold parent_path, join_path; cbn [p_abs p_parts]; f_equal; change (p_parts (parse_path "metadata.json")) with ["metadata.json"%string]; apply removelast_app1).
    rewrite Pp. destruct S as [[-> ->]|[[-> A]|(a & -> & A & ->)]]; [reflexivity|cbn [arg_abs]; rewrite A; reflexivity|rewrite A; reflexivity]. }
  set (io2 := {| io_path := p; io_save := p; io_load := p |}) in *. assert (Tg : target io2 (Text "metadata.json") = p_parts p ++ ["metadata.json"%string]) by reflexivity.
  assert (Pt : plain (target io2 (Text "metadata.json"))) by (rewrite Tg; apply plain_app; split; [exact P|intros [K|[]]; discriminate]).
  rewrite E. split.
  - rewrite (save_object_exact dump f io2 m (Text "metadata.json") T Pt), Tg.
    assert (Q : forall q, strictly_above q (p_parts p ++ ["metadata.json"%string]) <-> above q (p_parts p)).
    { intros q. rewrite strictly_above_parent, removelast_app1. split; [tauto|]. intros A. split; [destruct (p_parts p); discriminate|exact A]. }
    split; intros (A & B & C); (repeat split; [exact A|exact B|]); intros q Hq; apply C, Q, Hq.
  - intros f' H. destruct (save_object_split _ _ _ _ _ _ _ H) as [(e & K & _)|(f1 & M & W)]; [discriminate|]. destruct (write_success _ _ _ _ _ W) as (l & Wl & _ & ->). destruct (open_write_plain_inv _ _ _ Pt Wl) as (-> & _ & _). apply set_same.
Qed.
Print Assumptions C81_metadata.

(* the files of the populations of an optimisation *)
Theorem C81_generations : forall obj bytes (dump : writer obj bytes) (load : reader obj bytes) f io io' sub prefix pops, tree f -> without "/" prefix -> plain (p_parts (join_to_save_path io (Text sub))) -> io_load io' = io_save io ->
  ((forall q, above q (p_parts (join_to_save_path io (Text sub))) -> ~ holds_file f q) ->
   (forall g pop k o, nth_error pops g = Some pop -> nth_error pop k = Some (Some o) -> snd (dump o) = None /\ f (target io (pop_name sub prefix g k)) <> Some Dir) ->
   exists f', save_run dump f io sub prefix pops = (f', inl tt)) /\
  (forall f', save_run dump f io sub prefix pops = (f', inl tt) ->
   (forall g pop k o, nth_error pops g = Some pop -> nth_error pop k = Some (Some o) -> load_json load f' io' (pop_name sub prefix g k) = load (fst (dump o))) /\
   (forall l, ~ above l (p_parts (join_to_save_path io (Text sub))) ->
      (forall g pop k o, nth_error pops g = Some pop -> nth_error pop k = Some (Some o) -> l <> target io (pop_name sub prefix g k)) -> f' l = f l)).
Proof.
  intros obj bytes dump load f io io' sub prefix pops T W P E. split.
  - intros NB H. exact (save_run_total dump f io sub prefix pops T W P NB H).
  - intros f' H. exact (save_run_files dump load f io io' sub prefix pops f' T W P E H).
Qed.
Print Assumptions C81_generations.

(** Cases.  Objects are texts; the text "bad" cannot be written to its end. *)
Definition ex_dump : writer string string := fun o => if String.eqb o "bad" then ("ba"%string, Some (Py TypeError)) else (o, None).
Definition ex_load : reader string string := fun b => if String.eqb b "ba" then inr (Py ValueError) else inl b.
Definition ex_dirs : list place := [[]; ["home"]; ["home"; "u"]; ["home"; "u"; "aesop"]; ["home"; "u"; "aesop"; "scripts"]]%string.
Definition ex_fs : fsys string := fun l => if in_dec (list_eq_dec string_dec) l ex_dirs then Some Dir else None.
Definition ex_cwd : path := {| p_abs := true; p_parts := ["home"; "u"; "aesop"; "scripts"]%string |}.
Definition ex_io : inout := init_io ex_cwd (Some "results"%string).

Lemma ex_tree : tree ex_fs.
Proof.
  split; [reflexivity|]. intros l n H. unfold ex_fs in H. destruct (in_dec (list_eq_dec string_dec) (l ++ [n]) ex_dirs) as [I|]; [|congruence]. clear H.
  repeat (destruct I as [E|I]; [apply (f_equal (@removelast string)) in E; rewrite removelast_app1 in E; subst l; reflexivity|]). destruct I.
Qed.

(* the relative directory lies beside the working directory's parent, and saving makes all directories *)
Example C81_case : p_parts (io_path ex_io) = ["home"; "u"; "asope_data"; "results"]%string /\
  exists f1, save_object ex_dump ex_fs ex_io "graph"%string (Text "a/./b//g.pkl") = (f1, inl tt) /\
    load_object ex_load f1 ex_io (APath (parse_path "a/b/g.pkl")) = inl "graph"%string /\ f1 ["home"; "u"; "asope_data"]%string = Some Dir /\
    snd (save_json ex_dump ex_fs ex_io "graph"%string (Text "g.json")) = inr (OS FileNotFoundError) /\
    snd (save_json ex_dump f1 ex_io "graph"%string (Text "a/g.json")) = inl tt /\
    snd (save_object ex_dump f1 ex_io "graph"%string (Text "a/b/g.pkl/x")) = inr (OS FileExistsError) /\
    snd (save_object ex_dump f1 ex_io "graph"%string (Text "a/b/g.pkl/x/y")) = inr (OS NotADirectoryError) /\
    snd (save_object ex_dump f1 ex_io "graph"%string (Text "a")) = inr (OS IsADirectoryError).
Proof. split; [reflexivity|]. eexists. split; [reflexivity|]. vm_compute. repeat split; reflexivity. Qed.

(* the earlier contents are gone after a failed save *)
Example C81_lost_case : exists f1 f2, save_object ex_dump ex_fs ex_io "graph"%string (Text "g.pkl") = (f1, inl tt) /\ load_object ex_load f1 ex_io (Text "g.pkl") = inl "graph"%string /\
  save_object ex_dump f1 ex_io "bad"%string (Text "g.pkl") = (f2, inr (Py TypeError)) /\ load_object ex_load f2 ex_io (Text "g.pkl") = inr (Py ValueError).
Proof. do 2 eexists. split; [reflexivity|]. split; [reflexivity|]. split; reflexivity. Qed.

(* names with double dots and absolute names reach outside *)
Example C81_outside_refuted : exists name name' f1 f2, p_abs (to_path name) = false /\ save_object ex_dump ex_fs ex_io "x"%string name = (f1, inl tt) /\ f1 ["home"; "u"; "x"]%string = Some (File "x"%string) /\
  save_object ex_dump ex_fs ex_io "x"%string name' = (f2, inl tt) /\ f2 ["home"; "y"]%string = Some (File "x"%string) /\ f2 (p_parts (io_save ex_io)) = None.
Proof. exists (Text "../../x"), (Text "/home/y"). do 2 eexists. repeat split; reflexivity. Qed.

(* with a drawn identifier the name alone finds nothing; without one it does *)
Example C81_reload_case : drawn_id "20210101_aB3f" /\
  (let '(io1, (f1, r1)) := init_save_dir ex_fs ex_io (Some "run"%string) (Some "20210101_aB3f"%string) in
   r1 = inl tt /\ p_parts (io_save io1) = ["home"; "u"; "asope_data"; "results"; "20210101_aB3f_run"]%string /\ snd (init_load_dir f1 ex_io (Some "run"%string)) = inr (OS FileExistsError)) /\
  (let '(io1, (f1, r1)) := init_save_dir ex_fs ex_io (Some "run"%string) None in r1 = inl tt /\ snd (init_load_dir f1 ex_io (Some "run"%string)) = inl tt) /\
  p_parts (save_dir ex_io (Some "/abs/run"%string) (Some "20210101_aB3f"%string)) = ["home"; "u"; "asope_data"; "results"; "20210101_aB3f_"; "abs"; "run"]%string /\
  p_parts (save_dir ex_io (Some "/abs/run"%string) None) = ["abs"; "run"]%string.
Proof.
  split.
  - exists "20210101"%string, "aB3f"%string.
    assert (K : forall s, (forall c, In c (list_ascii_of_string s) -> hex_char c) -> all_chars hex_char s).
    { intros s K i c E. apply K. revert i E. induction s as [|x s IH]; intros i E; [destruct i; discriminate|]. destruct i as [|i]; cbn in E; [left; congruence|right]. apply (IH (fun c I => K c (or_intror I)) i E). }
    assert (K' : forall s, (forall c, In c (list_ascii_of_string s) -> decimal_char c) -> all_chars decimal_char s).
    { intros s K' i c E. apply K'. revert i E. induction s as [|x s IH]; intros i E; [destruct i; discriminate|]. destruct i as [|i]; cbn in E; [left; congruence|right]. apply (IH (fun c I => K' c (or_intror I)) i E). }
    split; [reflexivity|]. split; [reflexivity|]. split; [|split; [reflexivity|]].
    + apply K'. intros c H. unfold decimal_char. cbn in H. repeat (destruct H as [<-|H]; [cbn; lia|]). destruct H.
    + apply K. intros c H. unfold hex_char, decimal_char. cbn in H. repeat (destruct H as [<-|H]; [cbn; lia|]). destruct H.
  - vm_compute. repeat split; reflexivity.
Qed.

(* without an argument the description goes to the base directory, not to the save directory *)
Example C81_metadata_case : let '(io1, (f1, _)) := init_save_dir ex_fs ex_io (Some "run"%string) None in
  (exists f2, save_machine_metadata ex_dump f1 io1 None (Some "m"%string) = (f2, inl tt) /\ f2 ["home"; "u"; "asope_data"; "results"; "metadata.json"]%string = Some (File "m"%string) /\ f2 ["home"; "u"; "asope_data"; "results"; "run"; "metadata.json"]%string = None) /\
  (exists f2, save_machine_metadata ex_dump f1 io1 (Some (APath (io_save io1))) (Some "m"%string) = (f2, inl tt) /\ f2 ["home"; "u"; "asope_data"; "results"; "run"; "metadata.json"]%string = Some (File "m"%string)) /\
  (exists f2, save_machine_metadata ex_dump f1 io1 (Some (Text "test")) (Some "m"%string) = (f2, inl tt) /\ f2 ["home"; "u"; "asope_data"; "results"; "run"; "test"; "metadata.json"]%string = Some (File "m"%string)).
Proof. cbn. repeat split; eexists; repeat split; reflexivity. Qed.

(* a shorter second run in the same directory leaves files of the first *)
Example C81_generations_case : exists f1 f2, save_run ex_dump ex_fs ex_io "reduced_graphs" "graph_" [[Some "s"]; [Some "a"; None; Some "b"]; [Some "c"]]%string = (f1, inl tt) /\
  save_run ex_dump f1 ex_io "reduced_graphs" "graph_" [[Some "t"]; [Some "u"]]%string = (f2, inl tt) /\
  load_json ex_load f2 ex_io (pop_name "reduced_graphs" "graph_" 1 0) = inl "u"%string /\ load_json ex_load f2 ex_io (pop_name "reduced_graphs" "graph_" 1 2) = inl "b"%string /\
  load_json ex_load f2 ex_io (pop_name "reduced_graphs" "graph_" 2 0) = inl "c"%string /\ load_json ex_load f2 ex_io (pop_name "reduced_graphs" "graph_" 1 1) = inr (OS FileNotFoundError) /\
  load_json ex_load f2 ex_io (Text "reduced_graphs/graph_gen2_ind0.json") = inl "c"%string.
Proof. do 2 eexists. split; [vm_compute; reflexivity|]. split; [vm_compute; reflexivity|]. vm_compute. repeat split; reflexivity. Qed.

(* C82: every print reaches the terminal and the open logs in use; what is closed stops it *)
Theorem C82_print : forall s m, sound s -> exists s' r, print_to s m = (s', r) /\ s_terminal s' = s_terminal s ++ [m] /\
  (forall k l, log_of s k = Some l -> in_use s k -> (forall j, passes s (TeeOf k) j -> is_open s j) -> log_of s' k = Some (l ++ [m])) /\
  (forall k, ~ (in_use s k /\ forall j, passes s (TeeOf k) j -> is_open s j) -> log_of s' k = log_of s k) /\
  (r = inl tt <-> forall j, in_use s j -> is_open s j) /\ (r <> inl tt -> r = inr (Py ValueError)).
Proof.
  intros s m S. destruct (print_effect s m S) as (s' & r & H & T & _ & _ & A & B & R). exists s', r. split; [exact H|]. split; [exact T|]. split.
  { intros k l L U C. unfold log_of in *. destruct (nth_error (s_tees s) k) as [t|] eqn:E; [|discriminate]. cbn in L. injection L as <-. rewrite (A k t E U C). reflexivity. }
  split. { intros k N. unfold log_of. rewrite (B k N). reflexivity. }
  destruct R as [[-> O]|[-> (j & U & C)]]; (split; [split|]); auto; try congruence. intros K. exfalso. exact (C (K j U)).
Qed.
Print Assumptions C82_print.

(* a logged session: the log has exactly the printed text, the terminal and the outer logs have it too, and closing restores the output *)
Theorem C82_session : forall s ms, sound s -> (forall j, in_use s j -> is_open s j) -> exists s1 k s2, init_logging s = (s1, k) /\ prints s1 ms = (s2, inl tt) /\
  s_terminal s2 = s_terminal s ++ ms /\ log_of s k = None /\ log_of s2 k = Some ms /\
  (forall j l, in_use s j -> log_of s j = Some l -> log_of s2 j = Some (l ++ ms)) /\ (forall j, j <> k -> ~ in_use s j -> log_of s2 j = log_of s j) /\
  (let s3 := close_logging s2 k in sound s3 /\ s_stdout s3 = s_stdout s /\ s_terminal s3 = s_terminal s2 /\ (forall j, log_of s3 j = log_of s2 j) /\ ~ is_open s3 k /\
     (forall j, in_use s3 j <-> in_use s j) /\ forall j, in_use s3 j -> is_open s3 j).
Proof.
  intros s ms S Op. pose proof (session s ms S Op) as H. destruct (init_logging s) as [s1 k] eqn:I. destruct H as (s2 & P & S2 & T2 & O2 & L2 & A & B & U2 & Op2 & Sh & N1).
  destruct (init_logging_sound s s1 k S I) as (S1 & T1 & O1 & Ek & _ & _ & Nj & U1 & Len).
  exists s1, k, s2. split; [reflexivity|]. split; [exact P|]. split; [exact T2|]. split; [unfold log_of; rewrite (proj2 (nth_error_None _ _)) by lia; reflexivity|]. split; [exact L2|]. split; [exact A|]. split; [exact B|].
  destruct (proj2 (proj2 Sh) k _ N1) as (t & E & Bt & Ot). cbn [t_behind t_open] in Bt, Ot. unfold close_logging. rewrite E, Bt.
  set (s2' := {| s_terminal := s_terminal s2; s_tees := s_tees s2; s_stdout := s_stdout s |}).
  destruct (flush_effect s2' k t E) as (Ft & Fo & Fk & Fj & Fl & Fp). cbv zeta.
  assert (Kn : ~ in_use s k) by (intros U; assert (k < List.length (s_tees s)) by (exact (passes_older s (proj2 S) _ _ U _ (proj1 S))); lia).
  assert (Pas : forall w n j, older n w -> n <= k -> (passes s2' w j <-> passes s w j)).
  { assert (P2 : forall w j, passes s2' w j <-> passes s1 w j).
    { intros w j. assert (X : forall w j, passes s2' w j <-> passes s2 w j) by (intros w' j'; split; intros Q; induction Q as [i Li|i u j'' Ei Q IH]; [apply PassHere; exact Li|exact (PassBehind s2 i u j'' Ei IH)|apply PassHere; exact Li|exact (PassBehind s2' i u j'' Ei IH)]).
      rewrite X. split; intros Q; [exact (shape_passes s2 s1 (shape_sym _ _ Sh) w j Q)|exact (shape_passes s1 s2 Sh w j Q)]. }
    intros w n j. rewrite P2. revert w j. induction n as [n IHn] using lt_wf_ind. intros [|i] j Oi Ln; [split; intros Q; inversion Q|]. cbn in Oi.
    destruct (nth_error (s_tees s) i) as [u|] eqn:Ei; [|apply nth_error_None in Ei; lia]. assert (Ei1 : nth_error (s_tees s1) i = Some u) by (rewrite Nj by lia; exact Ei).
    rewrite (passes_tee s i u j Ei), (passes_tee s1 i u j Ei1), (IHn i Oi (t_behind u) j (proj2 S i u Ei)) by lia. tauto. }
  assert (Use : forall j, in_use (flush_tee s2' k) j <-> in_use s j).
  { intros j. unfold in_use. rewrite Fo, Fp. cbn [s_stdout s2']. apply (Pas _ k j); [rewrite Ek; exact (proj1 S)|lia]. }
  split. { apply flush_sound. split; [|exact (proj2 S2)]. cbn [s_stdout s_tees s2']. rewrite (proj1 (proj2 Sh)), Len. destruct S as [So _]. revert So. rewrite <- Ek. destruct (s_stdout s); cbn; [auto|lia]. }
  split; [exact Fo|]. split; [exact Ft|]. split.
  { intros j. unfold log_of. destruct (Nat.eq_dec j k) as [->|D]; [rewrite Fk, E; reflexivity|rewrite Fj by exact D; reflexivity]. }
  split. { intros (u & Eu & Ou). rewrite Fk in Eu. injection Eu as <-. discriminate. }
  split; [exact Use|]. intros j U. apply Use in U. assert (D : j <> k) by (intros ->; contradiction). destruct (Op2 j (proj2 (U2 j) (or_intror U))) as (u & Eu & Ou). exists u. rewrite Fj by exact D. auto.
Qed.
Print Assumptions C82_session.

(* flushing the output closes the log: later prints reach the terminal and raise, and the log never gets more *)
Theorem C82_flush : forall s ms m, sound s -> (forall j, in_use s j -> is_open s j) -> exists s1 k s2, init_logging s = (s1, k) /\ prints s1 ms = (s2, inl tt) /\
  exists s4, print_to (flush_stdout s2) m = (s4, inr (Py ValueError)) /\ s_terminal s4 = s_terminal s ++ ms ++ [m] /\ log_of s4 k = Some ms /\ s_stdout s4 = TeeOf k.
Proof.
  intros s ms m S Op. pose proof (session s ms S Op) as H. destruct (init_logging s) as [s1 k] eqn:I. destruct H as (s2 & P & S2 & T2 & O2 & L2 & A & B & U2 & Op2 & Sh & N1).
  exists s1, k, s2. split; [reflexivity|]. split; [exact P|]. unfold flush_stdout. rewrite O2. destruct (proj2 (proj2 Sh) k _ N1) as (t & E & _ & _).
  destruct (flush_effect s2 k t E) as (Ft & Fo & Fk & Fj & Fl & Fp). destruct (print_effect (flush_tee s2 k) m (flush_sound s2 k S2)) as (s4 & r & W & T4 & O4 & _ & A4 & B4 & R4).
  assert (Uk : in_use (flush_tee s2 k) k) by (unfold in_use; rewrite Fo, Fp; apply U2; left; reflexivity).
  assert (Nk : ~ is_open (flush_tee s2 k) k) by (intros (u & Eu & Ou); rewrite Fk in Eu; injection Eu as <-; discriminate).
  exists s4. destruct R4 as [[_ K]|[-> _]]; [exfalso; exact (Nk (K k Uk))|]. split; [exact W|]. split; [rewrite T4, Ft, T2, <- app_assoc; reflexivity|]. split.
  - unfold log_of. rewrite B4.
    + rewrite Fk. unfold log_of in L2. rewrite E in L2. exact L2.
    + intros [_ C]. apply Nk, C. apply PassHere. apply nth_error_Some. rewrite Fk. discriminate.
  - rewrite O4, Fo. exact O2.
Qed.
Print Assumptions C82_flush.

(* an optimisation which raises leaves its log in use: it gets the text of the next one and everything after it *)
Theorem C82_unclosed : forall s a b c, sound s -> (forall j, in_use s j -> is_open s j) -> exists s1 k1 s2 s3 k2 s4 s5, init_logging s = (s1, k1) /\ prints s1 a = (s2, inl tt) /\
  init_logging s2 = (s3, k2) /\ prints s3 b = (s4, inl tt) /\ prints (close_logging s4 k2) c = (s5, inl tt) /\
  log_of s5 k1 = Some (a ++ b ++ c) /\ log_of s5 k2 = Some b /\ s_stdout s5 = TeeOf k1 /\ s_terminal s5 = s_terminal s ++ a ++ b ++ c.
Proof.
  intros s a b c S Op. pose proof (session s a S Op) as H. destruct (init_logging s) as [s1 k1] eqn:I. destruct H as (s2 & P & S2 & T2 & O2 & L2 & _ & _ & U2 & Op2 & _ & _).
  destruct (C82_session s2 b S2 Op2) as (s3 & k2 & s4 & I2 & P2 & T4 & Ln & L4 & A4 & B4 & S5 & O5 & T5 & L5 & _ & U5 & Op5).
  assert (Uk : in_use s2 k1) by (apply U2; left; reflexivity).
  destruct (prints_effect c (close_logging s4 k2) S5 Op5) as (s6 & P6 & T6 & Sh6 & A6 & B6).
  exists s1, k1, s2, s3, k2, s4, s6. split; [reflexivity|]. split; [exact P|]. split; [exact I2|]. split; [exact P2|]. split; [exact P6|]. split.
  - rewrite (A6 k1 (a ++ b)); [rewrite <- app_assoc; reflexivity|rewrite L5; apply A4; assumption|apply U5, Uk].
  - split; [rewrite B6; [rewrite L5; exact L4|]|].
    + intros U. apply U5 in U. pose proof (passes_older s2 (proj2 S2) _ _ U _ (proj1 S2)) as K. unfold log_of in Ln. destruct (nth_error (s_tees s2) k2) eqn:E; [discriminate|]. apply nth_error_None in E. lia.
    + split; [rewrite (proj1 Sh6), O5, O2; reflexivity|]. rewrite T6, T5, T4, T2, <- !app_assoc. reflexivity.
Qed.
Print Assumptions C82_unclosed.

Definition screen0 : screen := {| s_terminal := []; s_tees := []; s_stdout := Terminal |}.
Lemma screen0_sound : sound screen0 /\ forall j, in_use screen0 j -> is_open screen0 j.
Proof. split; [split; [exact I|intros [|k] t E; discriminate]|intros j U; inversion U]. Qed.

(* two optimisations, the first raising after "a" *)
Example C82_case : let '(s1, k1) := init_logging screen0 in let '(s2, _) := prints s1 ["a"]%string in let '(s3, k2) := init_logging s2 in let '(s4, _) := prints s3 ["b"; "c"]%string in
  let '(s5, r) := prints (close_logging s4 k2) ["d"]%string in
  r = inl tt /\ log_of s5 k1 = Some ["a"; "b"; "c"; "d"]%string /\ log_of s5 k2 = Some ["b"; "c"]%string /\ s_terminal s5 = ["a"; "b"; "c"; "d"]%string /\ s_stdout s5 = TeeOf k1 /\
  prints (flush_stdout s5) ["e"]%string = ({| s_terminal := ["a"; "b"; "c"; "d"; "e"]%string; s_tees := s_tees (flush_stdout s5); s_stdout := TeeOf k1 |}, inr (Py ValueError)).
Proof. vm_compute. repeat split; reflexivity. Qed.
