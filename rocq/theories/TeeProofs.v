(** Proofs about the log of the printed text (second part of FilesModel.v). *)
From Coq Require Import List Bool String Arith Lia.
From Verif Require Import Base FilesModel FilesSpec.
Import ListNotations.

Lemma set_tee_same : forall l k t, k < List.length l -> nth_error (set_tee k t l) k = Some t.
Proof. induction l as [|a l IH]; intros [|k] t L; cbn in *; try lia; [reflexivity|]. apply IH. lia. Qed.

Lemma set_tee_other : forall l k j t, j <> k -> nth_error (set_tee k t l) j = nth_error l j.
Proof. induction l as [|a l IH]; intros [|k] [|j] t N; cbn; try reflexivity; try lia. apply IH. lia. Qed.

Lemma set_tee_length : forall l k t, List.length (set_tee k t l) = List.length l.
Proof. induction l as [|a l IH]; intros [|k] t; cbn; try reflexivity. rewrite IH. reflexivity. Qed.

Definition wf_tees (s : screen) : Prop := forall k t, nth_error (s_tees s) k = Some t -> older k (t_behind t).

Lemma passes_older : forall s, wf_tees s -> forall w j, passes s w j -> forall n, older n w -> j < n.
Proof.
  intros s W w j P. induction P as [k L|k t j E P IH]; intros n O; cbn in O; [exact O|]. pose proof (IH k (W k t E)). lia.
Qed.

Lemma passes_tee : forall s k t j, nth_error (s_tees s) k = Some t -> (passes s (TeeOf k) j <-> j = k \/ passes s (t_behind t) j).
Proof.
  intros s k t j E. split.
  - intros P. inversion P as [k' L|k' t' j' E' P']; subst; [left; reflexivity|right]. rewrite E in E'. injection E' as <-. exact P'.
  - intros [->|P]; [apply PassHere; apply nth_error_Some; congruence|exact (PassBehind s k t j E P)].
Qed.

Definition clean (s : screen) (k : nat) : Prop := forall j, passes s (TeeOf k) j -> is_open s j.

Lemma open_dec : forall s k, is_open s k \/ ~ is_open s k.
Proof. intros s k. unfold is_open. destruct (nth_error (s_tees s) k) as [t|]; [destruct (t_open t) eqn:E; [left; eauto|right; intros (t' & E' & O); congruence]|right; intros (t' & E' & _); discriminate]. Qed.

(* one message *)
Lemma write_effect : forall fuel s w n m, wf_tees s -> older n w -> n <= List.length (s_tees s) -> n <= fuel ->
  exists s' r, write_stream fuel s w m = (s', r) /\ s_terminal s' = s_terminal s ++ [m] /\ s_stdout s' = s_stdout s /\ List.length (s_tees s') = List.length (s_tees s) /\
    (forall k t, nth_error (s_tees s) k = Some t -> passes s w k -> clean s k -> nth_error (s_tees s') k = Some {| t_behind := t_behind t; t_log := t_log t ++ [m]; t_open := t_open t |}) /\
    (forall k, ~ (passes s w k /\ clean s k) -> nth_error (s_tees s') k = nth_error (s_tees s) k) /\
    (r = inl tt /\ (forall j, passes s w j -> is_open s j) \/ r = inr (Py ValueError) /\ exists j, passes s w j /\ ~ is_open s j).
Proof.
  induction fuel as [|fuel IH]; intros s w n m W O Ln Lf.
  - destruct w as [|k]; [|cbn in O; lia]. eexists; eexists. split; [reflexivity|]. cbn. repeat split; auto; [intros k t E P; inversion P|left; split; [reflexivity|intros j P; inversion P]].
  - destruct w as [|k].
    + eexists; eexists. split; [reflexivity|]. cbn. repeat split; auto; [intros k t E P; inversion P|left; split; [reflexivity|intros j P; inversion P]].
    + cbn in O. cbn [write_stream]. destruct (nth_error (s_tees s) k) as [t|] eqn:E; [|apply nth_error_None in E; lia].
      destruct (IH s (t_behind t) k m W (W k t E)) as (s1 & r1 & -> & T1 & O1 & L1 & A1 & B1 & R1); [lia|lia|].
      assert (Nk : ~ passes s (t_behind t) k) by (intros P; pose proof (passes_older s W _ _ P k (W k t E)); lia).
      destruct R1 as [[-> Op]|[-> (j & Pj & Cj)]].
      * destruct (t_open t) eqn:Ot.
        -- assert (Ck : clean s k).
           { intros j P. apply (passes_tee s k t j E) in P. destruct P as [->|P]; [exists t; auto|exact (Op j P)]. }
           eexists; eexists. split; [reflexivity|]. cbn [s_terminal s_stdout s_tees]. rewrite set_tee_length. repeat split; auto.
           ++ intros j u Ej P C. destruct (Nat.eq_dec j k) as [->|D].
              ** rewrite set_tee_same by lia. rewrite E in Ej. injection Ej as <-. rewrite Ot. reflexivity.
              ** rewrite set_tee_other by exact D. apply A1; [exact Ej| |exact C]. apply (passes_tee s k t j E) in P. tauto.
           ++ intros j N. destruct (Nat.eq_dec j k) as [->|D]; [exfalso; apply N; split; [apply (passes_tee s k t k E); left; reflexivity|exact Ck]|].
              rewrite set_tee_other by exact D. apply B1. intros [P C]. apply N. split; [apply (passes_tee s k t j E); right; exact P|exact C].
        -- assert (Nc : ~ is_open s k) by (intros (u & Eu & Ou); congruence).
           assert (Pk : passes s (TeeOf k) k) by (apply (passes_tee s k t k E); left; reflexivity).
           eexists; eexists. split; [reflexivity|]. repeat split; auto.
           ++ intros j u Ej P C. apply A1; [exact Ej| |exact C]. apply (passes_tee s k t j E) in P. destruct P as [->|P]; [exfalso; apply Nc, C, Pk|exact P].
           ++ intros j N. apply B1. intros [P C]. apply N. split; [apply (passes_tee s k t j E); right; exact P|exact C].
           ++ right. split; [reflexivity|]. exists k. auto.
      * eexists; eexists. split; [reflexivity|]. repeat split; auto.
        -- intros i u Ei P C. apply A1; [exact Ei| |exact C]. apply (passes_tee s k t i E) in P. destruct P as [->|P]; [|exact P].
           exfalso. apply Cj, C. apply (passes_tee s k t j E). right. exact Pj.
        -- intros i N. apply B1. intros [P C]. apply N. split; [apply (passes_tee s k t i E); right; exact P|exact C].
        -- right. split; [reflexivity|]. exists j. split; [apply (passes_tee s k t j E); right; exact Pj|exact Cj].
Qed.

Lemma print_effect : forall s m, sound s -> exists s' r, print_to s m = (s', r) /\ s_terminal s' = s_terminal s ++ [m] /\ s_stdout s' = s_stdout s /\ List.length (s_tees s') = List.length (s_tees s) /\
  (forall k t, nth_error (s_tees s) k = Some t -> in_use s k -> clean s k -> nth_error (s_tees s') k = Some {| t_behind := t_behind t; t_log := t_log t ++ [m]; t_open := t_open t |}) /\
  (forall k, ~ (in_use s k /\ clean s k) -> nth_error (s_tees s') k = nth_error (s_tees s) k) /\
  (r = inl tt /\ (forall j, in_use s j -> is_open s j) \/ r = inr (Py ValueError) /\ exists j, in_use s j /\ ~ is_open s j).
Proof. intros s m [O W]. unfold print_to, in_use. apply (write_effect _ s (s_stdout s) (List.length (s_tees s)) m W O); lia. Qed.

(* what a print does not change *)
Definition same_shape (s s' : screen) : Prop :=
  s_stdout s' = s_stdout s /\ List.length (s_tees s') = List.length (s_tees s) /\
  forall k t, nth_error (s_tees s) k = Some t -> exists t', nth_error (s_tees s') k = Some t' /\ t_behind t' = t_behind t /\ t_open t' = t_open t.

Lemma shape_refl : forall s, same_shape s s.
Proof. intros s. repeat split; auto. intros k t E. exists t. auto. Qed.

Lemma shape_trans : forall a b c, same_shape a b -> same_shape b c -> same_shape a c.
Proof.
  intros a b c (A1 & A2 & A3) (B1 & B2 & B3). repeat split; try congruence. intros k t E. destruct (A3 k t E) as (t1 & E1 & X1 & Y1). destruct (B3 k t1 E1) as (t2 & E2 & X2 & Y2). exists t2. repeat split; congruence.
Qed.

Lemma shape_back : forall s s' k t, same_shape s s' -> nth_error (s_tees s') k = Some t -> exists t0, nth_error (s_tees s) k = Some t0 /\ t_behind t = t_behind t0 /\ t_open t = t_open t0.
Proof.
  intros s s' k t (_ & L & K) E. destruct (nth_error (s_tees s) k) as [t0|] eqn:E0.
  - destruct (K k t0 E0) as (t' & E' & A & B). rewrite E in E'. injection E' as <-. exists t0. auto.
  - apply nth_error_None in E0. assert (k < List.length (s_tees s')) by (apply nth_error_Some; congruence). lia.
Qed.

Lemma shape_sym : forall s s', same_shape s s' -> same_shape s' s.
Proof.
  intros s s' H. pose proof H as (A & L & K). repeat split; try congruence. intros k t E. destruct (shape_back s s' k t H E) as (t0 & E0 & B & O). exists t0. repeat split; congruence.
Qed.

Lemma shape_passes : forall s s', same_shape s s' -> forall w j, passes s w j -> passes s' w j.
Proof.
  intros s s' (A & L & K) w j P. induction P as [k Lk|k t j E P IH]; [apply PassHere; lia|]. destruct (K k t E) as (t' & E' & B & _). apply (PassBehind s' k t' j E'). rewrite B. exact IH.
Qed.

Lemma shape_in_use : forall s s' j, same_shape s s' -> (in_use s j <-> in_use s' j).
Proof.
  intros s s' j H. unfold in_use. rewrite (proj1 H). split; apply shape_passes; [exact H|apply shape_sym, H].
Qed.

Lemma shape_open : forall s s' j, same_shape s s' -> is_open s j -> is_open s' j.
Proof. intros s s' j (_ & _ & K) (t & E & O). destruct (K j t E) as (t' & E' & _ & O'). exists t'. split; congruence. Qed.

Lemma shape_sound : forall s s', same_shape s s' -> sound s -> sound s'.
Proof.
  intros s s' H [O W]. pose proof H as (A & L & K). split; [rewrite A, L; exact O|]. intros k t E. destruct (shape_back s s' k t H E) as (t0 & E0 & B & _). rewrite B. exact (W k t0 E0).
Qed.

Lemma passes_trans : forall s w k j, passes s w k -> passes s (TeeOf k) j -> passes s w j.
Proof. intros s w k j U. induction U as [k L|k t i E U IH]; intros P; [exact P|]. exact (PassBehind s k t j E (IH P)). Qed.

Lemma in_use_clean : forall s, (forall j, in_use s j -> is_open s j) -> forall k, in_use s k -> clean s k.
Proof. intros s H k U j P. apply H. exact (passes_trans s _ k j U P). Qed.

(* several messages with everything open *)
Lemma prints_effect : forall ms s, sound s -> (forall j, in_use s j -> is_open s j) -> exists s', prints s ms = (s', inl tt) /\ s_terminal s' = s_terminal s ++ ms /\ same_shape s s' /\
  (forall k l, log_of s k = Some l -> in_use s k -> log_of s' k = Some (l ++ ms)) /\ (forall k, ~ in_use s k -> log_of s' k = log_of s k).
Proof.
  induction ms as [|m ms IH]; intros s S Op; cbn [prints].
  - exists s. rewrite app_nil_r. repeat split; auto; [apply shape_refl|]. intros k l E _. rewrite app_nil_r. exact E.
  - destruct (print_effect s m S) as (s1 & r1 & -> & T1 & O1 & L1 & A1 & B1 & [[-> _]|[_ (j & U & C)]]); [|exfalso; apply C, Op, U].
    assert (Sh : same_shape s s1).
    { repeat split; auto. intros k t E. destruct (nth_error (s_tees s1) k) as [t1|] eqn:E1; [|apply nth_error_None in E1; assert (k < List.length (s_tees s)) by (apply nth_error_Some; congruence); lia].
      exists t1. split; [reflexivity|].
      assert (D : in_use s k \/ ~ in_use s k).
      { unfold in_use. destruct S as [So W]. revert So. generalize (s_stdout s) (List.length (s_tees s)). intros w n. revert w. induction n as [n IHn] using lt_wf_ind. intros [|i] Oi; [right; intros P; inversion P|]. cbn in Oi.
        destruct (nth_error (s_tees s) i) as [u|] eqn:Ei; [|right; intros P; inversion P as [a La|a b c d]; subst; [apply nth_error_None in Ei; lia|congruence]].
        rewrite (passes_tee s i u k Ei). destruct (Nat.eq_dec k i) as [->|D]; [left; left; reflexivity|]. destruct (IHn i Oi (t_behind u) (W i u Ei)) as [Y|N]; [left; right; exact Y|right; intros [->|Y]; [apply D; reflexivity|apply N, Y]]. }
      destruct D as [U|N].
      - rewrite (A1 k t E U (in_use_clean s Op k U)) in E1. injection E1 as <-. auto.
      - rewrite (B1 k (fun H => N (proj1 H))), E in E1. injection E1 as <-. auto. }
    assert (Op1 : forall j, in_use s1 j -> is_open s1 j) by (intros j U; apply (shape_open s s1 j Sh), Op, (shape_in_use s s1 j Sh), U).
    destruct (IH s1 (shape_sound s s1 Sh S) Op1) as (s2 & -> & T2 & Sh2 & A2 & B2). exists s2. split; [reflexivity|]. split; [rewrite T2, T1, <- app_assoc; reflexivity|]. split; [exact (shape_trans _ _ _ Sh Sh2)|]. split.
    + intros k l El U. assert (L2 : log_of s1 k = Some (l ++ [m])).
      { unfold log_of in El |- *. destruct (nth_error (s_tees s) k) as [t|] eqn:E; [|discriminate]. cbn in El. injection El as <-. rewrite (A1 k t E U (in_use_clean s Op k U)). reflexivity. }
      rewrite (A2 k (l ++ [m]) L2 (proj1 (shape_in_use s s1 k Sh) U)), <- app_assoc. reflexivity.
    + intros k N. rewrite B2 by (intros U; apply N, (shape_in_use s s1 k Sh), U). unfold log_of. rewrite (B1 k (fun H => N (proj1 H))). reflexivity.
Qed.

(* a new Tee *)
Lemma init_logging_sound : forall s s1 k, sound s -> init_logging s = (s1, k) ->
  sound s1 /\ s_terminal s1 = s_terminal s /\ s_stdout s1 = TeeOf k /\ k = List.length (s_tees s) /\ log_of s1 k = Some [] /\ nth_error (s_tees s1) k = Some {| t_behind := s_stdout s; t_log := []; t_open := true |} /\
  (forall j, j <> k -> nth_error (s_tees s1) j = nth_error (s_tees s) j) /\ (forall j, in_use s1 j <-> j = k \/ in_use s j) /\ List.length (s_tees s1) = S k.
Proof.
  intros s s1 k [O W] H. unfold init_logging in H. injection H as <- <-. cbn [s_terminal s_stdout s_tees].
  assert (Ek : nth_error (s_tees s ++ [{| t_behind := s_stdout s; t_log := []; t_open := true |}]) (List.length (s_tees s)) = Some {| t_behind := s_stdout s; t_log := []; t_open := true |}) by (rewrite nth_error_app2, Nat.sub_diag by lia; reflexivity).
  assert (Eo : forall j, j <> List.length (s_tees s) -> nth_error (s_tees s ++ [{| t_behind := s_stdout s; t_log := []; t_open := true |}]) j = nth_error (s_tees s) j).
  { intros j N. destruct (le_lt_dec (List.length (s_tees s)) j) as [L|L]; [|apply nth_error_app1, L]. transitivity (@None tee); [apply nth_error_None; rewrite app_length; cbn; lia|symmetry; apply nth_error_None; lia]. }
  set (s1 := {| s_terminal := s_terminal s; s_tees := s_tees s ++ [{| t_behind := s_stdout s; t_log := []; t_open := true |}]; s_stdout := TeeOf (List.length (s_tees s)) |}).
  assert (Pa : forall w n j, older n w -> n <= List.length (s_tees s) -> (passes s1 w j <-> passes s w j)).
  { intros w n. revert w. induction n as [n IHn] using lt_wf_ind. intros [|i] j Oi Ln; [split; intros P; inversion P|]. cbn in Oi.
    destruct (nth_error (s_tees s) i) as [u|] eqn:Ei; [|apply nth_error_None in Ei; lia].
    assert (Ei1 : nth_error (s_tees s1) i = Some u) by (unfold s1; cbn [s_tees]; rewrite Eo by lia; exact Ei).
    rewrite (passes_tee s i u j Ei), (passes_tee s1 i u j Ei1), (IHn i Oi (t_behind u) j (W i u Ei)) by lia. tauto. }
  split; [split|].
  - cbn. rewrite app_length. cbn. lia.
  - intros j t E. cbn [s_tees s1] in E. destruct (Nat.eq_dec j (List.length (s_tees s))) as [->|D]; [rewrite Ek in E; injection E as <-; exact O|]. rewrite Eo in E by exact D. exact (W j t E).
  - repeat split; auto.
    + unfold log_of. cbn [s_tees s1]. rewrite Ek. reflexivity.
    + intros U. unfold in_use in U. cbn [s_stdout s1] in U. apply (passes_tee s1 _ _ j Ek) in U. destruct U as [U|U]; [left; exact U|right]. cbn [t_behind] in U. apply (Pa _ (List.length (s_tees s)) j O) in U; [exact U|lia].
    + intros U. unfold in_use. cbn [s_stdout s1]. apply (passes_tee s1 _ _ j Ek). destruct U as [U|U]; [left; exact U|right]. cbn [t_behind]. apply (Pa _ (List.length (s_tees s)) j O); [lia|exact U].
    + cbn [s_tees s1]. rewrite app_length. cbn. lia.
Qed.

(* a session with logging *)
Lemma session : forall s ms, sound s -> (forall j, in_use s j -> is_open s j) ->
  let '(s1, k) := init_logging s in
  exists s2, prints s1 ms = (s2, inl tt) /\ sound s2 /\ s_terminal s2 = s_terminal s ++ ms /\ s_stdout s2 = TeeOf k /\ log_of s2 k = Some ms /\
    (forall j l, in_use s j -> log_of s j = Some l -> log_of s2 j = Some (l ++ ms)) /\ (forall j, j <> k -> ~ in_use s j -> log_of s2 j = log_of s j) /\
    (forall j, in_use s2 j <-> j = k \/ in_use s j) /\ (forall j, in_use s2 j -> is_open s2 j) /\ same_shape s1 s2 /\ nth_error (s_tees s1) k = Some {| t_behind := s_stdout s; t_log := []; t_open := true |}.
Proof.
  intros s ms S Op. destruct (init_logging s) as [s1 k] eqn:I. destruct (init_logging_sound s s1 k S I) as (S1 & T1 & O1 & Ek & L1 & N1 & Nj & U1 & Len).
  assert (Op1 : forall j, in_use s1 j -> is_open s1 j).
  { intros j U. destruct (Nat.eq_dec j k) as [->|D]; [eexists; split; [exact N1|reflexivity]|]. apply U1 in U. destruct U as [U|U]; [contradiction|]. destruct (Op j U) as (t & E & O). exists t. rewrite Nj by exact D. auto. }
  destruct (prints_effect ms s1 S1 Op1) as (s2 & P & T2 & Sh & A & B). exists s2. split; [exact P|]. split; [exact (shape_sound _ _ Sh S1)|]. split; [congruence|]. split; [rewrite (proj1 Sh); exact O1|].
  split; [rewrite (A k [] L1); [reflexivity|apply U1; left; reflexivity]|]. split.
  { intros j l U El. assert (D : j <> k) by (intros ->; unfold log_of in El; rewrite (proj2 (nth_error_None _ _)) in El by lia; discriminate).
    apply A; [unfold log_of; rewrite Nj by exact D; exact El|apply U1; right; exact U]. }
  split. { intros j D N. rewrite B; [unfold log_of; rewrite Nj by exact D; reflexivity|]. intros U. apply U1 in U. tauto. }
  split. { intros j. rewrite <- (shape_in_use s1 s2 j Sh). apply U1. }
  split. { intros j U. apply (shape_open s1 s2 j Sh), Op1, (shape_in_use s1 s2 j Sh), U. }
  split; [exact Sh|exact N1].
Qed.

Lemma flush_effect : forall s k t, nth_error (s_tees s) k = Some t -> s_terminal (flush_tee s k) = s_terminal s /\ s_stdout (flush_tee s k) = s_stdout s /\
  nth_error (s_tees (flush_tee s k)) k = Some {| t_behind := t_behind t; t_log := t_log t; t_open := false |} /\ (forall j, j <> k -> nth_error (s_tees (flush_tee s k)) j = nth_error (s_tees s) j) /\
  List.length (s_tees (flush_tee s k)) = List.length (s_tees s) /\ (forall w j, passes (flush_tee s k) w j <-> passes s w j).
Proof.
  intros s k t E. unfold flush_tee. rewrite E. cbn [s_terminal s_stdout s_tees]. assert (L : k < List.length (s_tees s)) by (apply nth_error_Some; congruence).
  repeat split; auto using set_tee_same, set_tee_other, set_tee_length.
  - intros P. induction P as [i Li|i u j Ei P IH]; [apply PassHere; cbn [s_tees] in Li; rewrite set_tee_length in Li; exact Li|]. cbn [s_tees] in Ei.
    destruct (Nat.eq_dec i k) as [->|D]; [rewrite set_tee_same in Ei by exact L; injection Ei as <-; cbn [t_behind] in *; exact (PassBehind s k t j E IH)|]. rewrite set_tee_other in Ei by exact D. exact (PassBehind s i u j Ei IH).
  - intros P. induction P as [i Li|i u j Ei P IH]; [apply PassHere; cbn [s_tees]; rewrite set_tee_length; exact Li|].
    destruct (Nat.eq_dec i k) as [->|D].
    + rewrite E in Ei. injection Ei as <-. apply (PassBehind _ k {| t_behind := t_behind t; t_log := t_log t; t_open := false |} j); [apply set_tee_same, L|exact IH].
    + apply (PassBehind _ i u j); [cbn [s_tees]; rewrite set_tee_other by exact D; exact Ei|exact IH].
Qed.

Lemma flush_sound : forall s k, sound s -> sound (flush_tee s k).
Proof.
  intros s k [O W]. destruct (nth_error (s_tees s) k) as [t|] eqn:E; [|unfold flush_tee; rewrite E; split; assumption].
  destruct (flush_effect s k t E) as (_ & So & Ek & Ej & L & _). split; [rewrite So, L; exact O|]. intros j u Eu. destruct (Nat.eq_dec j k) as [->|D]; [rewrite Ek in Eu; injection Eu as <-; exact (W k t E)|]. rewrite Ej in Eu by exact D. exact (W j u Eu).
Qed.
