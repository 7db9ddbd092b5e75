(** Proofs about the identifiers of save directories and the files of populations (FilesModel.v). *)
From Coq Require Import List Bool String Ascii Arith Lia Decimal DecimalString DecimalNat.
From Verif Require Import Base FilesModel FilesSpec FilesProofs.
Import ListNotations.

(* texts *)
Lemma str_assoc : forall a b c, ((a ++ b) ++ c)%string = (a ++ (b ++ c))%string.
Proof. induction a as [|x a IH]; intros b c; [reflexivity|]. cbn. rewrite IH. reflexivity. Qed.

Lemma str_nil_r : forall a, (a ++ "")%string = a.
Proof. induction a as [|x a IH]; [reflexivity|]. cbn. rewrite IH. reflexivity. Qed.

Lemma str_length : forall a b, String.length (a ++ b) = String.length a + String.length b.
Proof. induction a as [|x a IH]; intros b; [reflexivity|]. cbn. rewrite IH. reflexivity. Qed.

Lemma str_prefix : forall a b c d, (a ++ c)%string = (b ++ d)%string -> String.length a = String.length b -> a = b /\ c = d.
Proof.
  induction a as [|x a IH]; intros [|y b] c d E L; cbn in *; try discriminate; [split; [reflexivity|exact E]|].
  injection E as -> E. injection L as L. destruct (IH _ _ _ E L) as [-> ->]. auto.
Qed.

Lemma all_chars_cons : forall P c s, all_chars P (String c s) <-> P c /\ all_chars P s.
Proof.
  intros P c s. split.
  - intros H. split; [apply (H 0); reflexivity|]. intros i d E. apply (H (S i)). exact E.
  - intros [A B] i d E. destruct i as [|i]; cbn in E; [injection E as <-; exact A|exact (B i d E)].
Qed.

Lemma all_chars_app : forall P a b, all_chars P (a ++ b) <-> all_chars P a /\ all_chars P b.
Proof.
  intros P a. induction a as [|x a IH]; intros b; cbn [append].
  - split; [intros H; split; [intros i c E; destruct i; discriminate|exact H]|tauto].
  - rewrite !all_chars_cons, IH. tauto.
Qed.

(* the first separator *)
Lemma str_sep : forall c a b x y, without c a -> without c b -> (a ++ String c x)%string = (b ++ String c y)%string -> a = b /\ x = y.
Proof.
  intros c. unfold without. induction a as [|p a IH]; intros [|q b] x y A B E; cbn in E.
  - injection E as ->. auto.
  - injection E as -> _. apply all_chars_cons in B. tauto.
  - injection E as -> _. apply all_chars_cons in A. tauto.
  - injection E as -> E. apply all_chars_cons in A. apply all_chars_cons in B. destruct (IH b x y (proj2 A) (proj2 B) E) as [-> ->]. auto.
Qed.

(* splitting at slashes *)
Lemma split_app : forall a s cur, without "/" a -> split_slash (a ++ s) cur = split_slash s (cur ++ a)%string.
Proof.
  induction a as [|x a IH]; intros s cur W; cbn [append split_slash]; [rewrite str_nil_r; reflexivity|]. apply all_chars_cons in W. destruct W as [N W].
  replace (Ascii.eqb x "/") with false by (symmetry; apply Ascii.eqb_neq; exact N). rewrite IH by exact W. rewrite str_assoc. reflexivity.
Qed.

Lemma split_head : forall s, exists h t, forall cur, split_slash s cur = (cur ++ h)%string :: t.
Proof.
  induction s as [|x s (h & t & IH)]; [exists ""%string, []; intros cur; cbn; rewrite str_nil_r; reflexivity|]. cbn [split_slash]. destruct (Ascii.eqb x "/") eqn:E.
  - exists ""%string, (split_slash s ""). intros cur. rewrite str_nil_r. reflexivity.
  - exists (String x h), t. intros cur. rewrite IH, str_assoc. reflexivity.
Qed.

Lemma kept_long : forall s, 3 <= String.length s -> kept_name s = true /\ s <> ".."%string.
Proof. intros [|a [|b [|c s]]] L; cbn in L; try lia. split; [unfold kept_name; destruct (String.eqb_spec (String a (String b (String c s))) "."); [discriminate|reflexivity]|discriminate]. Qed.

(* a text beginning with a long slash-free piece *)
Lemma parse_long : forall a s, without "/" a -> 3 <= String.length a -> exists h t, parse_path (a ++ s) = {| p_abs := false; p_parts := (a ++ h)%string :: t |} /\ (s = ""%string -> h = ""%string /\ t = []).
Proof.
  intros a s W L. unfold parse_path. rewrite split_app by exact W. cbn [append]. destruct (split_head s) as (h & t & E). rewrite (E a). cbn [filter].
  assert (K : kept_name (a ++ h) = true) by (apply kept_long; rewrite str_length; lia). rewrite K.
  assert (A : is_abs (a ++ s) = false).
  { destruct a as [|x a]; [cbn in L; lia|]. cbn. apply all_chars_cons in W. apply Ascii.eqb_neq. tauto. }
  rewrite A. exists h, (filter kept_name t). split; [reflexivity|]. intros ->. specialize (E ""%string). cbn in E. injection E as <- <-. auto.
Qed.

Lemma drawn_facts : forall id, drawn_id id -> String.length id = 13 /\ without "/" id.
Proof.
  intros id (date & digits & -> & L & D & L2 & H). unfold unique_id. split; [rewrite !str_length; cbn; lia|]. unfold without. rewrite !all_chars_app.
  assert (K : forall c : ascii, c = "/"%char -> nat_of_ascii c = 47) by (intros c ->; reflexivity).
  repeat split.
  - intros i c E N. specialize (D i c E). unfold decimal_char in D. rewrite (K c N) in D. lia.
  - intros i c E N. subst c. destruct i as [|[|i]]; discriminate.
  - intros i c E N. specialize (H i c E). unfold hex_char, decimal_char in H. rewrite (K c N) in H. lia.
Qed.

(* the directory of a drawn identifier: one below the base whose name begins with it *)
Lemma save_dir_id : forall io sub id, drawn_id id -> exists h t, p_abs (save_dir io sub (Some id)) = p_abs (io_path io) /\ p_parts (save_dir io sub (Some id)) = p_parts (io_path io) ++ (id ++ h)%string :: t.
Proof.
  intros io sub id D. destruct (drawn_facts id D) as [L W]. unfold save_dir. destruct sub as [s|].
  - destruct (parse_long id ("_" ++ s) W ltac:(lia)) as (h & t & E & _). exists h, t. rewrite E. split; reflexivity.
  - destruct (parse_long id "" W ltac:(lia)) as (h & t & E & _). rewrite str_nil_r in E. exists h, t. rewrite E. split; reflexivity.
Qed.

Lemma ids_apart : forall io s s' id id' l, drawn_id id -> drawn_id id' -> id <> id' ->
  above (p_parts (save_dir io s (Some id))) l -> ~ above (p_parts (save_dir io s' (Some id'))) l.
Proof.
  intros io s s' id id' l D D' N A B. destruct (save_dir_id io s id D) as (h & t & _ & E), (save_dir_id io s' id' D') as (h' & t' & _ & E'). rewrite E in A. rewrite E' in B.
  destruct A as [r ->], B as [r' B]. rewrite <- !app_assoc in B. apply app_inv_head in B. injection B as B _. apply N.
  apply (str_prefix id id' h h' B). rewrite (proj1 (drawn_facts _ D)), (proj1 (drawn_facts _ D')). reflexivity.
Qed.

(* decimal numbers *)
Lemma uint_chars : forall d, all_chars decimal_char (NilEmpty.string_of_uint d).
Proof. induction d as [|d IH|d IH|d IH|d IH|d IH|d IH|d IH|d IH|d IH|d IH]; [intros i c E; destruct i; discriminate| | | | | | | | | |]; cbn [NilEmpty.string_of_uint]; apply all_chars_cons; (split; [unfold decimal_char; cbn; lia|exact IH]). Qed.

Lemma num_chars : forall n c, nat_of_ascii c < 48 \/ 57 < nat_of_ascii c -> without c (num n).
Proof. intros n c H i d E ->. pose proof (uint_chars (Nat.to_uint n) i c E) as K. unfold decimal_char in K. lia. Qed.

Lemma num_inj : forall m n, num m = num n -> m = n.
Proof.
  intros m n H. unfold num in H. apply (f_equal NilEmpty.uint_of_string) in H. rewrite !NilEmpty.usu in H. injection H as H. exact (Unsigned.to_uint_inj _ _ H).
Qed.

Definition pop_file (prefix : string) (gen ind : nat) : string := (prefix ++ "gen" ++ num gen ++ "_ind" ++ num ind ++ ".json")%string.

Lemma pop_file_inj : forall prefix g i g' i', pop_file prefix g i = pop_file prefix g' i' -> g = g' /\ i = i'.
Proof.
  intros prefix g i g' i' H. unfold pop_file in H. apply str_prefix in H; [|reflexivity]. destruct H as [_ H]. apply str_prefix in H; [|reflexivity]. destruct H as [_ H].
  apply (str_sep "_" (num g) (num g') ("ind" ++ num i ++ ".json") ("ind" ++ num i' ++ ".json")) in H; [|apply num_chars; cbn; lia|apply num_chars; cbn; lia].
  destruct H as [Hg H]. apply num_inj in Hg. apply str_prefix in H; [|reflexivity]. destruct H as [_ H].
  apply (str_sep "." (num i) (num i') "json" "json") in H; [|apply num_chars; cbn; lia|apply num_chars; cbn; lia]. split; [exact Hg|apply num_inj; tauto].
Qed.

Lemma pop_file_parse : forall prefix g i, without "/" prefix -> parse_path (pop_file prefix g i) = {| p_abs := false; p_parts := [pop_file prefix g i] |} /\ pop_file prefix g i <> ".."%string.
Proof.
  intros prefix g i W. assert (Wf : without "/" (pop_file prefix g i)).
  { assert (N : forall n, all_chars (fun x => x <> "/"%char) (num n)) by (intros n; apply num_chars; cbn; lia).
    unfold pop_file, without. rewrite !all_chars_app. repeat split; auto; intros k c E ->; do 5 (destruct k as [|k]; [discriminate|try discriminate]). }
  assert (L : 3 <= String.length (pop_file prefix g i)) by (unfold pop_file; rewrite !str_length; cbn; lia).
  destruct (parse_long _ "" Wf L) as (h & t & E & K). rewrite str_nil_r in E. destruct (K eq_refl) as [-> ->]. rewrite str_nil_r in E. split; [exact E|]. apply kept_long. exact L.
Qed.

Section P.
Context {obj bytes : Type}.
Implicit Types (f : fsys bytes) (l : place) (dump : writer obj bytes) (load : reader obj bytes) (o : obj).

Definition pop_dir (io : inout) (subfolder : string) : place := p_parts (join_to_save_path io (Text subfolder)).

Lemma pop_target : forall io sub prefix g i, without "/" prefix -> target io (pop_name sub prefix g i) = pop_dir io sub ++ [pop_file prefix g i].
Proof.
  intros io sub prefix g i W. unfold target, pop_name, pop_dir, join_to_save_path. cbn [to_path]. fold (pop_file prefix g i). rewrite (proj1 (pop_file_parse prefix g i W)).
  generalize (parse_path sub). intros [[|] parts]; unfold join_path; cbn [p_abs p_parts]; [reflexivity|apply app_assoc].
Qed.

Lemma pop_target_plain : forall io sub prefix g i, without "/" prefix -> plain (pop_dir io sub) -> plain (target io (pop_name sub prefix g i)).
Proof.
  intros io sub prefix g i W P. rewrite pop_target by exact W. apply plain_app. split; [exact P|]. intros [E|[]]. exact (proj2 (pop_file_parse prefix g i W) E).
Qed.

Lemma pop_place_inj : forall (D : place) prefix g i g' i', D ++ [pop_file prefix g i] = D ++ [pop_file prefix g' i'] -> g = g' /\ i = i'.
Proof. intros D prefix g i g' i' E. apply app_inv_head in E. injection E as E. exact (pop_file_inj _ _ _ _ _ E). Qed.

(* one file of a population *)
Lemma save_json_step : forall dump f io o name f', plain (target io name) -> save_json dump f io o name = (f', inl tt) ->
  f' (target io name) = Some (File (fst (dump o))) /\ (forall l, l <> target io name -> f' l = f l) /\ (tree f -> tree f').
Proof.
  intros dump f io o name f' P H. destruct (write_success _ _ _ _ _ H) as (l & W & _ & ->). destruct (open_write_plain_inv _ _ _ P W) as (-> & _ & _).
  split; [apply set_same|]. split; [intros k N; apply set_other, N|]. exact (proj2 (write_grows _ _ _ _ _ _ H)).
Qed.

Lemma save_pop_files : forall dump io sub prefix g, without "/" prefix -> plain (pop_dir io sub) -> forall pop f ind f', save_pop dump f io sub prefix g ind pop = (f', inl tt) ->
  (forall k o, nth_error pop k = Some (Some o) -> f' (pop_dir io sub ++ [pop_file prefix g (ind + k)]) = Some (File (fst (dump o)))) /\
  (forall l, (forall k o, nth_error pop k = Some (Some o) -> l <> pop_dir io sub ++ [pop_file prefix g (ind + k)]) -> f' l = f l) /\ (tree f -> tree f').
Proof.
  intros dump io sub prefix g W P pop. induction pop as [|x pop IH]; intros f ind f' H; cbn [save_pop] in H.
  - injection H as <-. split; [|auto]. intros k o E. destruct k; discriminate.
  - assert (Sh : forall k, ind + S k = S ind + k) by (intros; lia). destruct x as [o|].
    + destruct (save_json dump f io o (pop_name sub prefix g ind)) as [f1 [[]|e]] eqn:J; [|discriminate].
      destruct (save_json_step _ _ _ _ _ _ (pop_target_plain io sub prefix g ind W P) J) as (A & B & T1). rewrite (pop_target io sub prefix g ind W) in A, B.
      destruct (IH f1 (S ind) f' H) as (A2 & B2 & T2). split; [|split; [|auto]].
      * intros k o' E. destruct k as [|k]; cbn in E; [|rewrite Sh; apply A2; exact E]. injection E as <-. rewrite Nat.add_0_r. rewrite B2; [exact A|].
        intros k o' E2 K. apply pop_place_inj in K. lia.
      * intros l N. rewrite B2; [apply B|]; [intros ->; apply (N 0 o eq_refl); rewrite Nat.add_0_r; reflexivity|]. intros k o' E. rewrite <- Sh. apply (N (S k) o'). exact E.
    + destruct (IH f (S ind) f' H) as (A2 & B2 & T2). split; [|split; [|exact T2]].
      * intros k o' E. destruct k as [|k]; cbn in E; [discriminate|]. rewrite Sh. apply A2. exact E.
      * intros l N. apply B2. intros k o' E. rewrite <- Sh. apply (N (S k) o'). exact E.
Qed.

Lemma save_pop_total : forall dump io sub prefix g, without "/" prefix -> plain (pop_dir io sub) -> forall pop f ind, tree f -> (forall q, above q (pop_dir io sub) -> f q = Some Dir) ->
  (forall k o, nth_error pop k = Some (Some o) -> snd (dump o) = None /\ f (pop_dir io sub ++ [pop_file prefix g (ind + k)]) <> Some Dir) ->
  exists f', save_pop dump f io sub prefix g ind pop = (f', inl tt).
Proof.
  intros dump io sub prefix g W P pop. induction pop as [|x pop IH]; intros f ind T D H; cbn [save_pop]; [eexists; reflexivity|].
  assert (Sh : forall k, ind + S k = S ind + k) by (intros; lia). destruct x as [o|].
  - destruct (save_json dump f io o (pop_name sub prefix g ind)) as [f1 r] eqn:J. destruct (H 0 o eq_refl) as [S0 N0]. rewrite Nat.add_0_r in N0.
    assert (R : r = inl tt).
    { change r with (snd (f1, r)). rewrite <- J. apply (save_json_exact dump f io o _ T (pop_target_plain io sub prefix g ind W P)). rewrite (pop_target io sub prefix g ind W). repeat split; auto.
      intros q (s & Ns & E). apply D. destruct (@exists_last _ s Ns) as (s' & m & ->). rewrite app_assoc in E. apply app_inj_tail in E. exists s'. tauto. }
    subst r. destruct (save_json_step _ _ _ _ _ _ (pop_target_plain io sub prefix g ind W P) J) as (A & B & T1). rewrite (pop_target io sub prefix g ind W) in A, B.
    apply IH; [auto| |].
    + intros q [s E]. rewrite B; [apply D; exists s; exact E|]. intros ->. apply (f_equal (@List.length string)) in E. rewrite !app_length in E. cbn in E. lia.
    + intros k o' E. destruct (H (S k) o' E) as [S1 N1]. split; [exact S1|]. rewrite Sh in N1. rewrite B; [exact N1|]. intros K. apply pop_place_inj in K. lia.
  - apply IH; [exact T|exact D|]. intros k o' E. rewrite <- Sh. apply (H (S k) o'). exact E.
Qed.

Lemma save_pops_files : forall dump io sub prefix, without "/" prefix -> plain (pop_dir io sub) -> forall pops f g f', save_pops dump f io sub prefix g pops = (f', inl tt) ->
  (forall j pop k o, nth_error pops j = Some pop -> nth_error pop k = Some (Some o) -> f' (pop_dir io sub ++ [pop_file prefix (g + j) k]) = Some (File (fst (dump o)))) /\
  (forall l, (forall j pop k o, nth_error pops j = Some pop -> nth_error pop k = Some (Some o) -> l <> pop_dir io sub ++ [pop_file prefix (g + j) k]) -> f' l = f l) /\ (tree f -> tree f').
Proof.
  intros dump io sub prefix W P pops. induction pops as [|pop pops IH]; intros f g f' H; cbn [save_pops] in H.
  - injection H as <-. split; [|auto]. intros j p k o E. destruct j; discriminate.
  - destruct (save_pop dump f io sub prefix g 0 pop) as [f1 [[]|e]] eqn:S; [|discriminate].
    destruct (save_pop_files dump io sub prefix g W P pop f 0 f1 S) as (A & B & T1). destruct (IH f1 (Datatypes.S g) f' H) as (A2 & B2 & T2).
    assert (Sh : forall j, g + Datatypes.S j = Datatypes.S g + j) by (intros; lia). split; [|split; [|auto]].
    + intros j p k o Ej Ek. destruct j as [|j]; cbn in Ej; [|rewrite Sh; exact (A2 j p k o Ej Ek)]. injection Ej as <-. rewrite Nat.add_0_r. rewrite B2; [exact (A k o Ek)|].
      intros j p' k' o' _ _ K. apply pop_place_inj in K. lia.
    + intros l N. rewrite B2; [apply B|]; [intros k o Ek; specialize (N 0 pop k o eq_refl Ek); rewrite Nat.add_0_r in N; exact N|].
      intros j p k o Ej Ek. rewrite <- Sh. exact (N (Datatypes.S j) p k o Ej Ek).
Qed.

Lemma save_pops_total : forall dump io sub prefix, without "/" prefix -> plain (pop_dir io sub) -> forall pops f g, tree f -> (forall q, above q (pop_dir io sub) -> f q = Some Dir) ->
  (forall j pop k o, nth_error pops j = Some pop -> nth_error pop k = Some (Some o) -> snd (dump o) = None /\ f (pop_dir io sub ++ [pop_file prefix (g + j) k]) <> Some Dir) ->
  exists f', save_pops dump f io sub prefix g pops = (f', inl tt).
Proof.
  intros dump io sub prefix W P pops. induction pops as [|pop pops IH]; intros f g T D H; cbn [save_pops]; [eexists; reflexivity|].
  assert (Sh : forall j, g + S j = S g + j) by (intros; lia).
  destruct (save_pop_total dump io sub prefix g W P pop f 0 T D) as [f1 S1].
  { intros k o E. specialize (H 0 pop k o eq_refl E). rewrite Nat.add_0_r in H. exact H. }
  rewrite S1. destruct (save_pop_files dump io sub prefix g W P pop f 0 f1 S1) as (A & B & T1). apply IH; [auto| |].
  - intros q [s E]. rewrite B; [apply D; exists s; exact E|]. intros k o _ ->. apply (f_equal (@List.length string)) in E. rewrite !app_length in E. cbn in E. lia.
  - intros j p k o Ej Ek. destruct (H (S j) p k o Ej Ek) as [S2 N2]. split; [exact S2|]. rewrite Sh in N2. rewrite B; [exact N2|]. intros k' o' _ K. apply pop_place_inj in K. lia.
Qed.

(* a whole run: every individual of every generation can be loaded, all else is as before *)
Lemma save_run_files : forall dump load f io io' sub prefix pops f', tree f -> without "/" prefix -> plain (pop_dir io sub) -> io_load io' = io_save io ->
  save_run dump f io sub prefix pops = (f', inl tt) ->
  (forall g pop k o, nth_error pops g = Some pop -> nth_error pop k = Some (Some o) -> load_json load f' io' (pop_name sub prefix g k) = load (fst (dump o))) /\
  (forall l, ~ above l (pop_dir io sub) -> (forall g pop k o, nth_error pops g = Some pop -> nth_error pop k = Some (Some o) -> l <> target io (pop_name sub prefix g k)) -> f' l = f l).
Proof.
  intros dump load f io io' sub prefix pops f' T W P E H. unfold save_run in H. destruct (mkdirs f (join_to_save_path io (Text sub))) as [f1 [[]|e]] eqn:M; [|discriminate].
  destruct (mkdirs_only _ _ _ _ M) as [O T1].
  assert (NB : forall q, above q (pop_dir io sub) -> ~ holds_file f q).
  { intros q A F. destruct (mkdirs_blocked f (join_to_save_path io (Text sub)) T P (ex_intro _ q (conj A F))) as [K|K]; rewrite K in M; discriminate. }
  destruct (mkdirs_plain f (join_to_save_path io (Text sub)) T P NB) as (f2 & M2 & D2 & O2 & T2). rewrite M in M2. injection M2 as <-.
  destruct (save_pops_files dump io sub prefix W P pops f1 0 f' H) as (A & B & T3). split.
  - intros g pop k o Eg Ek. unfold load_json, load_object, join_to_load_path. rewrite E. apply read_plain; [exact (pop_target_plain io sub prefix g k W P)|auto|].
    fold (join_to_save_path io (pop_name sub prefix g k)). fold (target io (pop_name sub prefix g k)). rewrite pop_target by exact W. exact (A g pop k o Eg Ek).
  - intros l Na Nt. rewrite B; [apply O2, Na|]. intros g pop k o Eg Ek. rewrite <- (pop_target io sub prefix (0 + g) k W). exact (Nt g pop k o Eg Ek).
Qed.

Lemma save_run_total : forall dump f io sub prefix pops, tree f -> without "/" prefix -> plain (pop_dir io sub) ->
  (forall q, above q (pop_dir io sub) -> ~ holds_file f q) ->
  (forall g pop k o, nth_error pops g = Some pop -> nth_error pop k = Some (Some o) -> snd (dump o) = None /\ f (target io (pop_name sub prefix g k)) <> Some Dir) ->
  exists f', save_run dump f io sub prefix pops = (f', inl tt).
Proof.
  intros dump f io sub prefix pops T W P NB H. unfold save_run. destruct (mkdirs_plain f (join_to_save_path io (Text sub)) T P NB) as (f1 & -> & D1 & O1 & T1).
  apply save_pops_total; [exact W|exact P|exact T1|exact D1|]. intros j pop k o Ej Ek. destruct (H j pop k o Ej Ek) as [S N]. split; [exact S|]. rewrite (pop_target io sub prefix j k W) in N. cbn [Nat.add]. rewrite O1; [exact N|].
  intros [r E]. change (p_parts (join_to_save_path io (Text sub))) with (pop_dir io sub) in E. apply (f_equal (@List.length string)) in E. rewrite !app_length in E. cbn in E. lia.
Qed.
End P.
