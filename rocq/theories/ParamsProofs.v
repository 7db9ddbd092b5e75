(** Parameter vector: alignment, round trips, frame (C15). *)
From Coq Require Import List Arith Bool Lia ZArith QArith Permutation.
From Verif Require Import Base GraphModel GraphSpec GraphProofs ParamsModel ParamsSpec.
Import ListNotations.
Local Open Scope nat_scope.

Lemma bind_ok : forall {A B} (r : res A) (f : A -> res B) b, bind r f = Ok b <-> exists a, r = Ok a /\ f a = Ok b.
Proof.
  intros A B [a|e] f b; simpl; split; intros H.
  - exists a; auto.
  - destruct H as (a' & E & H); injection E as <-; exact H.
  - discriminate.
  - destruct H as (a' & E & _); discriminate.
Qed.

Lemma of_option_ok : forall {A} e (o : option A) a, of_option e o = Ok a <-> o = Some a.
Proof. intros A e [x|] a; simpl; split; congruence. Qed.

Lemma fold_res_app : forall {A S} (f : S -> A -> res S) l l' s,
  fold_res f (l ++ l') s = bind (fold_res f l s) (fold_res f l').
Proof.
  induction l as [|a r IH]; intros l' s; simpl; [reflexivity|]. destruct (f s a); simpl; [apply IH|reflexivity].
Qed.

Lemma get_obj_ok : forall s i o, get_obj s i = Ok o <-> assoc i (s_objs s) = Some o.
Proof. intros; apply of_option_ok. Qed.
Lemma get_list_ok : forall s i o, get_list s i = Ok o <-> assoc i (s_lists s) = Some o.
Proof. intros; apply of_option_ok. Qed.
Lemma at_ok : forall {A} (l : list A) i a, at_ l i = Ok a <-> nth_error l i = Some a.
Proof. intros; apply of_option_ok. Qed.

(** ** Slots: one row of the extracted table *)

Record slot := mkSlot { sl_v : pval; sl_lo : pval; sl_hi : pval; sl_t : dtype; sl_st : option Q; sl_m : nat; sl_k : nat; sl_p : place }.
Definition table (ss : list slot) : extracted :=
  mkX (map sl_v ss) (map sl_lo ss) (map sl_hi ss) (map sl_t ss) (map sl_st ss) (map sl_m ss) (map sl_k ss) (map sl_p ss).

Definition slot_of (s : store) (m : comp * place) (sl : slot) : Prop :=
  exists o ps, has s (cid (fst m)) o ps /\ free o (sl_k sl) /\ sl_m sl = cid (fst m) /\ sl_p sl = snd m /\
    nth_error ps (sl_k sl) = Some (sl_v sl) /\ nth_error (o_lo o) (sl_k sl) = Some (sl_lo sl) /\
    nth_error (o_hi o) (sl_k sl) = Some (sl_hi sl) /\ nth_error (o_types o) (sl_k sl) = Some (sl_t sl) /\
    nth_error (o_steps o) (sl_k sl) = Some (sl_st sl).

Lemma table_app1 : forall ss v lo hi t st m k p,
  mkX (x_params (table ss) ++ [v]) (x_lo (table ss) ++ [lo]) (x_hi (table ss) ++ [hi]) (x_types (table ss) ++ [t])
      (x_steps (table ss) ++ [st]) (x_models (table ss) ++ [m]) (x_index (table ss) ++ [k]) (x_place (table ss) ++ [p])
  = table (ss ++ [mkSlot v lo hi t st m k p]).
Proof. intros; unfold table; rewrite !map_app; reflexivity. Qed.

(* the unlocked indices of a lock list, counted from i *)
Fixpoint open_idx (locks : list bool) (i : nat) : list nat :=
  match locks with [] => [] | true :: r => open_idx r (S i) | false :: r => i :: open_idx r (S i) end.

Lemma open_idx_In : forall locks i k, In k (open_idx locks i) <-> i <= k /\ nth_error locks (k - i) = Some false.
Proof.
  induction locks as [|b r IH]; intros i k; simpl.
  - split; [tauto|]. intros [_ H]; destruct (k - i); discriminate.
  - assert (Step : In k (open_idx r (S i)) <-> S i <= k /\ nth_error (b :: r) (k - i) = Some false).
    { rewrite IH; split; intros [H1 H2]; (split; [exact H1|]);
        replace (k - i) with (S (k - S i)) in * by lia; exact H2. }
    destruct b.
    + rewrite Step; split; intros [H1 H2]; split; try lia; try exact H2.
      destruct (Nat.eq_dec i k) as [->|]; [rewrite Nat.sub_diag in H2; discriminate|lia].
    + simpl; rewrite Step; split.
      * intros [->|[H1 H2]]; [split; [lia|rewrite Nat.sub_diag; reflexivity]|split; [lia|exact H2]].
      * intros [H1 H2]; destruct (Nat.eq_dec i k); [left; assumption|right; split; [lia|exact H2]].
Qed.

Lemma open_idx_sorted : forall locks i k, In k (open_idx locks i) -> i <= k.
Proof. intros locks i k H; apply open_idx_In in H; tauto. Qed.
Lemma open_idx_NoDup : forall locks i, NoDup (open_idx locks i).
Proof.
  induction locks as [|b r IH]; intros i; simpl; [constructor|]. destruct b; [apply IH|constructor; [|apply IH]].
  intros H; apply open_idx_sorted in H; lia.
Qed.

Lemma extract_one_ok : forall s m ss k x', extract_one s m (table ss) k = Ok x' ->
  exists sl o ps, x' = table (ss ++ [sl]) /\ sl_k sl = k /\ sl_m sl = cid (fst m) /\ sl_p sl = snd m /\
    has s (cid (fst m)) o ps /\
    nth_error ps k = Some (sl_v sl) /\ nth_error (o_lo o) k = Some (sl_lo sl) /\
    nth_error (o_hi o) k = Some (sl_hi sl) /\ nth_error (o_types o) k = Some (sl_t sl) /\
    nth_error (o_steps o) k = Some (sl_st sl).
Proof.
  intros s m ss k x' H; unfold extract_one in H.
  repeat (apply bind_ok in H; destruct H as (? & ? & H)).
  rewrite get_obj_ok in *. rewrite get_list_ok in *. rewrite !at_ok in *. injection H as <-.
  eexists (mkSlot _ _ _ _ _ _ _ _); do 2 eexists. split; [unfold table; rewrite !map_app; reflexivity|]. cbn [sl_k sl_m sl_p sl_v sl_lo sl_hi sl_t sl_st].
  unfold has. repeat (split; [first [reflexivity|eassumption|split; eassumption]|]). eassumption.
Qed.

Lemma extract_locks_ok : forall s m locks i ss x', extract_locks s m locks i (table ss) = Ok x' ->
  exists new, x' = table (ss ++ new) /\ map sl_k new = open_idx locks i /\
    forall sl, In sl new -> exists o ps, sl_m sl = cid (fst m) /\ sl_p sl = snd m /\
      has s (cid (fst m)) o ps /\
      nth_error ps (sl_k sl) = Some (sl_v sl) /\ nth_error (o_lo o) (sl_k sl) = Some (sl_lo sl) /\
      nth_error (o_hi o) (sl_k sl) = Some (sl_hi sl) /\ nth_error (o_types o) (sl_k sl) = Some (sl_t sl) /\
      nth_error (o_steps o) (sl_k sl) = Some (sl_st sl).
Proof.
  induction locks as [|b r IH]; intros i ss x' H; simpl in H.
  - injection H as <-. exists []. rewrite app_nil_r. split; [reflexivity|]. split; [reflexivity|]. intros sl [].
  - destruct b; [apply IH in H; exact H|].
    apply bind_ok in H; destruct H as (x1 & H1 & H2).
    apply extract_one_ok in H1; destruct H1 as (sl & o & ps & -> & Ek & Em & Ep & Hh & R).
    apply IH in H2; destruct H2 as (new & -> & Kn & Hn).
    exists (sl :: new). rewrite <- app_assoc. split; [reflexivity|]. split; [simpl; rewrite Ek, Kn; reflexivity|].
    intros sl' [<-|Hin]; [|apply Hn; exact Hin]. exists o, ps. rewrite Ek. tauto.
Qed.

Lemma extract_model_ok : forall s m ss x', extract_model s (table ss) m = Ok x' ->
  exists new o, x' = table (ss ++ new) /\ assoc (cid (fst m)) (s_objs s) = Some o /\
    map sl_k new = (if o_lock o then [] else open_idx (o_locks o) 0) /\ forall sl, In sl new -> slot_of s m sl.
Proof.
  intros s m ss x' H; unfold extract_model in H. apply bind_ok in H; destruct H as (o & Ho & H).
  apply get_obj_ok in Ho. destruct (o_lock o) eqn:L.
  - injection H as <-. exists [], o. rewrite app_nil_r, L. repeat (split; [first [reflexivity|assumption]|]). intros sl [].
  - apply extract_locks_ok in H; destruct H as (new & -> & Kn & Hn). exists new, o. rewrite L.
    repeat (split; [first [reflexivity|assumption]|]). intros sl Hin.
    destruct (Hn sl Hin) as (o' & ps & Em & Ep & [Ha Hl] & R).
    assert (o' = o) by congruence; subst o'. exists o, ps. split; [split; assumption|]. split.
    + split; [exact L|]. assert (Hk : In (sl_k sl) (open_idx (o_locks o) 0)) by (rewrite <- Kn; apply in_map; exact Hin).
      apply open_idx_In in Hk; rewrite Nat.sub_0_r in Hk; tauto.
    + tauto.
Qed.

Definition model_slots (s : store) (m : comp * place) (ks : list nat) : Prop :=
  exists o, assoc (cid (fst m)) (s_objs s) = Some o /\ ks = (if o_lock o then [] else open_idx (o_locks o) 0).

(* the whole table is the concatenation, model by model, of its rows *)
Inductive rows (s : store) : list (comp * place) -> list slot -> Prop :=
| rows_nil : rows s [] []
| rows_cons : forall m ms new ss o, assoc (cid (fst m)) (s_objs s) = Some o ->
    map sl_k new = (if o_lock o then [] else open_idx (o_locks o) 0) ->
    (forall sl, In sl new -> slot_of s m sl) -> rows s ms ss -> rows s (m :: ms) (new ++ ss).

Lemma extract_fold_ok : forall s ms ss x', fold_res (extract_model s) ms (table ss) = Ok x' ->
  exists new, x' = table (ss ++ new) /\ rows s ms new.
Proof.
  induction ms as [|m ms IH]; intros ss x' H; simpl in H.
  - injection H as <-. exists []. rewrite app_nil_r. split; [reflexivity|constructor].
  - apply bind_ok in H; destruct H as (x1 & H1 & H2).
    apply extract_model_ok in H1; destruct H1 as (new & o & -> & Ho & Kn & Hn).
    apply IH in H2; destruct H2 as (ss' & -> & R). exists (new ++ ss'). rewrite app_assoc. split; [reflexivity|].
    econstructor; eassumption.
Qed.

Lemma extract_rows : forall g s x, extract g s = Ok x -> exists ss, x = table ss /\ rows s (get_models g) ss.
Proof.
  intros g s x H; unfold extract in H. change x_empty with (table []) in H.
  apply extract_fold_ok in H; destruct H as (ss & E & R). exists ss; auto.
Qed.

Lemma rows_In : forall s ms ss sl, rows s ms ss -> In sl ss -> exists m, In m ms /\ slot_of s m sl.
Proof.
  intros s ms ss sl R; induction R as [|m ms new ss o Ho Kn Hn R IH]; intros H; [destruct H|].
  apply in_app_or in H; destruct H as [H|H]; [exists m; split; [left; reflexivity|apply Hn; exact H]|].
  destruct (IH H) as (m' & Hm & Hs); exists m'; split; [right; exact Hm|exact Hs].
Qed.

Lemma rows_complete : forall s ms ss m o k, rows s ms ss -> In m ms -> assoc (cid (fst m)) (s_objs s) = Some o -> free o k ->
  exists sl, In sl ss /\ slot_of s m sl /\ sl_k sl = k.
Proof.
  intros s ms ss m o k R; induction R as [|m0 ms new ss o0 Ho Kn Hn R IH]; intros H Ha F; [destruct H|].
  destruct H as [->|H].
  - assert (o0 = o) by congruence; subst o0. destruct F as [L F]. rewrite L in Kn.
    assert (Hk : In k (map sl_k new)) by (rewrite Kn; apply open_idx_In; rewrite Nat.sub_0_r; split; [lia|exact F]).
    apply in_map_iff in Hk; destruct Hk as (sl & E & Hs). exists sl; split; [apply in_or_app; left; exact Hs|]. auto.
  - destruct (IH H Ha F) as (sl & Hs & R1); exists sl; split; [apply in_or_app; right; exact Hs|exact R1].
Qed.

(** ** get_models *)

Lemma get_models_In : forall g c pl, wf g -> (In (c, pl) (get_models g) <-> sits g c pl).
Proof.
  intros g c pl W; unfold get_models; rewrite in_app_iff, !in_map_iff; split.
  - intros [([n d] & E & H)|(e & E & H)]; injection E as <- <-; simpl.
    + exists d; auto.
    + apply (In_edges_view g e W) in H. exists e; auto.
  - destruct pl as [n|i]; simpl.
    + intros (d & H & <-); left; exists (n, d); auto.
    + intros (e & H & <- & <-); right; exists e; split; [reflexivity|apply In_edges_view; assumption].
Qed.

Lemma NoDup_app_intro : forall {A} (l l' : list A), NoDup l -> NoDup l' -> (forall x, In x l -> ~ In x l') -> NoDup (l ++ l').
Proof.
  induction l as [|a r IH]; intros l' H1 H2 D; [exact H2|]. inversion H1; subst. simpl; constructor.
  - rewrite in_app_iff; intros [H|H]; [contradiction|]. apply (D a); [left; reflexivity|exact H].
  - apply IH; [assumption|assumption|]. intros x Hx; apply D; right; exact Hx.
Qed.

Lemma get_models_places : forall g, wf g -> NoDup (map snd (get_models g)).
Proof.
  intros g W; unfold get_models; rewrite map_app, !map_map; simpl. apply NoDup_app_intro.
  - change (fun x : nat * ndata => PNode (fst x)) with (fun x : nat * ndata => PNode (fst x)).
    rewrite <- (map_map fst PNode). apply FinFun.Injective_map_NoDup; [intros a b E; injection E; auto|exact (wf_nodes g W)].
  - rewrite <- (map_map e_id PEdge). apply FinFun.Injective_map_NoDup; [intros a b E; injection E; auto|].
    eapply Permutation_NoDup; [apply Permutation_map, Permutation_sym, edges_view_perm; exact W|exact (wf_keys g W)].
  - intros pl H1 H2. apply in_map_iff in H1; apply in_map_iff in H2.
    destruct H1 as (a & <- & _); destruct H2 as (b & E & _); discriminate.
Qed.

(** ** Alignment *)

Lemma nth_table : forall ss i sl, nth_error ss i = Some sl ->
  nth_error (x_params (table ss)) i = Some (sl_v sl) /\ nth_error (x_lo (table ss)) i = Some (sl_lo sl) /\
  nth_error (x_hi (table ss)) i = Some (sl_hi sl) /\ nth_error (x_types (table ss)) i = Some (sl_t sl) /\
  nth_error (x_steps (table ss)) i = Some (sl_st sl) /\ nth_error (x_models (table ss)) i = Some (sl_m sl) /\
  nth_error (x_index (table ss)) i = Some (sl_k sl) /\ nth_error (x_place (table ss)) i = Some (sl_p sl).
Proof. intros ss i sl H; simpl; repeat split; apply map_nth_error; exact H. Qed.

Lemma extract_aligned : forall g s x, wf g -> extract g s = Ok x ->
  let n := length (x_params x) in
  length (x_lo x) = n /\ length (x_hi x) = n /\ length (x_models x) = n /\ length (x_index x) = n /\
  length (x_types x) = n /\ length (x_steps x) = n /\ length (x_place x) = n /\
  forall i, i < n -> exists c pl k o ps v lo hi t st,
    sits g c pl /\ has s (cid c) o ps /\ free o k /\
    nth_error (x_models x) i = Some (cid c) /\ nth_error (x_place x) i = Some pl /\ nth_error (x_index x) i = Some k /\
    nth_error (x_params x) i = Some v /\ nth_error ps k = Some v /\
    nth_error (x_lo x) i = Some lo /\ nth_error (o_lo o) k = Some lo /\
    nth_error (x_hi x) i = Some hi /\ nth_error (o_hi o) k = Some hi /\
    nth_error (x_types x) i = Some t /\ nth_error (o_types o) k = Some t /\
    nth_error (x_steps x) i = Some st /\ nth_error (o_steps o) k = Some st.
Proof.
  intros g s x W H. apply extract_rows in H; destruct H as (ss & -> & R). simpl. rewrite !map_length.
  repeat (split; [reflexivity|]). intros i Hi.
  destruct (nth_error ss i) as [sl|] eqn:E; [|apply nth_error_None in E; lia].
  destruct (rows_In s _ ss sl R (nth_error_In _ _ E)) as ([c pl] & Hm & o & ps & Hh & F & Em & Ep & N1 & N2 & N3 & N4 & N5).
  apply (get_models_In g c pl W) in Hm. cbn [fst snd] in *.
  pose proof (nth_table ss i sl E) as (T1 & T2 & T3 & T4 & T5 & T6 & T7 & T8). simpl in *. rewrite Em in T6. rewrite Ep in T8.
  exists c, pl, (sl_k sl), o, ps, (sl_v sl), (sl_lo sl), (sl_hi sl), (sl_t sl), (sl_st sl). tauto.
Qed.

Lemma extract_complete : forall g s x c pl o k, wf g -> extract g s = Ok x -> sits g c pl ->
  assoc (cid c) (s_objs s) = Some o -> free o k ->
  exists i, nth_error (x_models x) i = Some (cid c) /\ nth_error (x_index x) i = Some k /\ nth_error (x_place x) i = Some pl.
Proof.
  intros g s x c pl o k W H Hs Ho F. apply extract_rows in H; destruct H as (ss & -> & R).
  apply (get_models_In g c pl W) in Hs.
  destruct (rows_complete s _ ss (c, pl) o k R Hs Ho F) as (sl & Hin & (o' & ps & _ & _ & Em & Ep & _) & Ek).
  destruct (In_nth_error _ _ Hin) as (i & E). exists i. pose proof (nth_table ss i sl E) as (_ & _ & _ & _ & _ & T6 & T7 & T8).
  simpl in *. rewrite Em in T6; rewrite Ep in T8; rewrite Ek in T7. auto.
Qed.

(** ** Reading never fails on readable components *)

Lemma nth_lt : forall {A} (l : list A) k, k < length l -> exists a, nth_error l k = Some a.
Proof. intros A l k H; destruct (nth_error l k) as [a|] eqn:E; [exists a; reflexivity|apply nth_error_None in E; lia]. Qed.

Lemma extract_total : forall g s, wf g -> all_readable g s -> exists x, extract g s = Ok x.
Proof.
  intros g s W A. unfold extract.
  assert (Hm : forall m, In m (get_models g) -> readable s (cid (fst m))).
  { intros [c pl] H; apply (get_models_In g c pl W) in H. apply A; exists c, pl; auto. }
  revert Hm. generalize (get_models g) as ms, x_empty as x.
  induction ms as [|m ms IH]; intros x Hm; simpl; [eexists; reflexivity|].
  destruct (Hm m (or_introl eq_refl)) as (o & ps & (Ho & Hl) & B).
  assert (E : exists x', extract_model s x m = Ok x').
  { unfold extract_model. rewrite (proj2 (get_obj_ok s _ o) Ho); simpl. destruct (o_lock o) eqn:L; [eexists; reflexivity|].
    assert (B' : forall k, In k (open_idx (o_locks o) 0) -> k < length ps /\ k < length (o_lo o) /\ k < length (o_hi o) /\ k < length (o_types o) /\ k < length (o_steps o)).
    { intros k Hk; apply B; split; [exact L|]. apply open_idx_In in Hk; rewrite Nat.sub_0_r in Hk; tauto. }
    revert B'. generalize (o_locks o) as locks, 0 as i, x as y. induction locks as [|b r IHl]; intros i y B'; simpl; [eexists; reflexivity|].
    destruct b; [apply IHl; exact B'|].
    destruct (B' i (or_introl eq_refl)) as (B1 & B2 & B3 & B4 & B5).
    destruct (nth_lt ps i B1) as (a1 & E1). destruct (nth_lt _ i B2) as (a2 & E2). destruct (nth_lt _ i B3) as (a3 & E3).
    destruct (nth_lt _ i B4) as (a4 & E4). destruct (nth_lt _ i B5) as (a5 & E5).
    unfold extract_one. rewrite (proj2 (get_obj_ok s _ o) Ho); simpl. rewrite (proj2 (get_list_ok s _ ps) Hl); simpl.
    unfold at_; rewrite E1, E2, E3, E4, E5; simpl. apply IHl. intros k Hk; apply B'; right; exact Hk. }
  destruct E as (x' & ->); simpl. apply IH. intros m' H'; apply Hm; right; exact H'.
Qed.

(** ** Writing back what was read *)

Lemma set_nth_same : forall {A} (l : list A) k v, nth_error l k = Some v -> set_nth k v l = Some l.
Proof.
  induction l as [|a r IH]; intros [|k] v H; simpl in *; try discriminate; [congruence|]. rewrite (IH k v H); reflexivity.
Qed.

Lemma set_assoc_id : forall {A} n (d : A) l, assoc n l = Some d -> set_assoc n d l = l.
Proof.
  intros A n d l; induction l as [|[m x] r IH]; simpl; [discriminate|].
  destruct (Nat.eqb_spec n m) as [->|Hne]; intros H; [injection H as ->; reflexivity|rewrite IH; auto].
Qed.

Lemma write_same : forall s i o ps k v, has s i o ps -> nth_error ps k = Some v -> write_param s i k v = Ok s.
Proof.
  intros s i o ps k v [Ho Hl] N; unfold write_param. rewrite (proj2 (get_obj_ok s i o) Ho); simpl.
  rewrite (proj2 (get_list_ok s _ ps) Hl); simpl. rewrite (set_nth_same ps k v N); simpl.
  rewrite (set_assoc_id _ ps _ Hl). destruct s; reflexivity.
Qed.

Lemma read_write_back : forall g s x, extract g s = Ok x -> distribute (x_params x) (x_models x) (x_index x) s = Ok s.
Proof.
  intros g s x H; apply extract_rows in H; destruct H as (ss & -> & R). simpl.
  assert (A : forall sl, In sl ss -> exists m, slot_of s m sl).
  { intros sl Hs; destruct (rows_In s _ ss sl R Hs) as (m & _ & Hm); exists m; exact Hm. }
  clear R; induction ss as [|sl ss IH]; simpl; [reflexivity|].
  destruct (A sl (or_introl eq_refl)) as (m & o & ps & Hh & _ & Em & _ & N & _).
  rewrite Em, (write_same s _ o ps _ _ Hh N); simpl. apply IH. intros sl' H'; apply A; right; exact H'.
Qed.

(** ** Writing a vector *)

Lemma set_nth_some : forall {A} (l : list A) k v, k < length l -> exists l', set_nth k v l = Some l' /\ length l' = length l /\
  nth_error l' k = Some v /\ forall j, j <> k -> nth_error l' j = nth_error l j.
Proof.
  induction l as [|a r IH]; intros [|k] v H; simpl in *; try lia.
  - exists (v :: r); repeat split; try reflexivity. intros [|j] Hj; [congruence|reflexivity].
  - destruct (IH k v ltac:(lia)) as (l' & -> & L & N & F). exists (a :: l'); simpl; repeat split; [lia|exact N|].
    intros [|j] Hj; [reflexivity|apply F; lia].
Qed.

Lemma set_nth_spec : forall {A} (l : list A) k v l', set_nth k v l = Some l' -> k < length l /\ length l' = length l /\
  nth_error l' k = Some v /\ forall j, j <> k -> nth_error l' j = nth_error l j.
Proof.
  intros A l k v l' H. assert (K : k < length l).
  { revert k l' H; induction l as [|a r IH]; intros [|k] l' H; simpl in *; try discriminate; [lia|].
    destruct (set_nth k v r) as [r'|] eqn:E; [|discriminate]. apply IH in E; lia. }
  split; [exact K|]. destruct (set_nth_some l k v K) as (l'' & E & R). rewrite E in H; injection H as <-. exact R.
Qed.

(* one write, described by its effect on the lists *)
Lemma write_spec : forall s i k v s', write_param s i k v = Ok s' ->
  exists o ps ps', has s i o ps /\ set_nth k v ps = Some ps' /\
    s' = mkStore (s_objs s) (set_assoc (o_list o) ps' (s_lists s)).
Proof.
  intros s i k v s' H; unfold write_param in H. repeat (apply bind_ok in H; destruct H as (? & ? & H)).
  rewrite get_obj_ok in *. rewrite get_list_ok in *. rewrite of_option_ok in *. injection H as <-.
  do 3 eexists. split; [split; eassumption|]. split; [eassumption|reflexivity].
Qed.

Lemma assoc_In_fst : forall {A} n (d : A) l, assoc n l = Some d -> In n (map fst l).
Proof. intros A n d l H; apply assoc_In in H. change n with (fst (n, d)); apply in_map; exact H. Qed.

Lemma assoc_set : forall {A} n m (d d0 : A) l, assoc n l = Some d0 ->
  assoc m (set_assoc n d l) = if Nat.eqb m n then Some d else assoc m l.
Proof.
  intros A n m d d0 l H. rewrite assoc_set_assoc by (eapply assoc_In_fst; eassumption). reflexivity.
Qed.

(* distribution, seen on the lists: position (l,k) ends up with the last value written to it *)
Lemma distribute_frame : forall vs ms ks s s', distribute vs ms ks s = Ok s' ->
  s_objs s' = s_objs s /\ map fst (s_lists s') = map fst (s_lists s) /\
  forall l ps, assoc l (s_lists s) = Some ps -> exists ps', assoc l (s_lists s') = Some ps' /\ length ps' = length ps /\
    forall k, (forall j m o, nth_error ms j = Some m -> nth_error ks j = Some k -> assoc m (s_objs s) = Some o -> o_list o <> l) ->
      nth_error ps' k = nth_error ps k.
Proof.
  induction vs as [|v vs IH]; intros ms ks s s' H; simpl in H.
  - injection H as <-. split; [reflexivity|]. split; [reflexivity|]. intros l ps E; exists ps; auto.
  - destruct ms as [|m ms]; [injection H as <-; split; [reflexivity|]; split; [reflexivity|]; intros l ps E; exists ps; auto|].
    destruct ks as [|k ks]; [injection H as <-; split; [reflexivity|]; split; [reflexivity|]; intros l ps E; exists ps; auto|].
    apply bind_ok in H; destruct H as (s1 & H1 & H2). apply write_spec in H1; destruct H1 as (o & ps0 & ps1 & [Ho Hl] & Hs & ->).
    apply IH in H2; cbn [s_objs s_lists] in H2; destruct H2 as (E1 & E2 & E3). split; [exact E1|].
    split; [rewrite E2; apply set_assoc_fst|]. intros l ps E.
    apply set_nth_spec in Hs; destruct Hs as (K & Len & N & Fr).
    destruct (Nat.eq_dec l (o_list o)) as [->|Ne].
    + destruct (E3 (o_list o) ps1) as (ps' & A' & L' & F'); [rewrite (assoc_set _ _ ps1 ps0 _ Hl), Nat.eqb_refl; reflexivity|].
      assert (ps0 = ps) by congruence; subst ps0. exists ps'; split; [exact A'|]. split; [lia|]. intros j Hj.
      rewrite F' by (intros j' m' o' B1 B2 B3; apply (Hj (S j') m' o' B1 B2 B3)).
      apply Fr. intros ->. apply (Hj 0 m o eq_refl eq_refl Ho eq_refl).
    + destruct (E3 l ps) as (ps' & A' & L' & F'); [rewrite (assoc_set _ _ ps1 ps0 _ Hl); destruct (Nat.eqb_spec l (o_list o)); [contradiction|exact E]|].
      exists ps'; split; [exact A'|]. split; [exact L'|]. intros j Hj. apply F'. intros j' m' o' B1 B2 B3; apply (Hj (S j') m' o' B1 B2 B3).
Qed.

Lemma distribute_frame_graph : forall g s x vs s', wf g -> extract g s = Ok x ->
  distribute vs (x_models x) (x_index x) s = Ok s' -> same_except_free g s s'.
Proof.
  intros g s x vs s' W Hx H. apply distribute_frame in H; destruct H as (E1 & E2 & E3).
  split; [exact E1|]. split; [exact E2|]. intros l ps E. destruct (E3 l ps E) as (ps' & A & L & F).
  exists ps'; split; [exact A|]. split; [exact L|]. intros k Hk. apply F. intros j m o Hm Hkj Ho.
  pose proof (extract_aligned g s x W Hx) as (_ & _ & LM & _ & _ & _ & _ & Al).
  assert (Hj : j < length (x_params x)) by (rewrite <- LM; apply nth_error_Some; congruence).
  destruct (Al j Hj) as (c & pl & k' & o' & qs & v & lo & hi & t & st & Hs & Hh & Fr & M1 & M2 & M3 & _).
  assert (m = cid c) by congruence. assert (k' = k) by congruence. subst m k'.
  assert (o' = o) by (destruct Hh; congruence). subst o'. apply (Hk (cid c) o qs); [exists c, pl; auto|exact Hh|exact Fr].
Qed.

(* writes at pairwise different positions are all visible at the end *)
Definition addr (s : store) (m k : nat) (a : nat * nat) : Prop :=
  exists o, assoc m (s_objs s) = Some o /\ a = (o_list o, k).

Lemma distribute_values : forall vs ms ks s, length vs = length ms -> length vs = length ks ->
  (forall j m k, nth_error ms j = Some m -> nth_error ks j = Some k -> exists o ps, has s m o ps /\ k < length ps) ->
  (forall i j m m' k o o', nth_error ms i = Some m -> nth_error ms j = Some m' -> nth_error ks i = Some k -> nth_error ks j = Some k ->
     assoc m (s_objs s) = Some o -> assoc m' (s_objs s) = Some o' -> o_list o = o_list o' -> i = j) ->
  exists s', distribute vs ms ks s = Ok s' /\
    forall j v m k, nth_error vs j = Some v -> nth_error ms j = Some m -> nth_error ks j = Some k -> value s' m k v.
Proof.
  induction vs as [|v vs IH]; intros ms ks s L1 L2 Ad Inj; simpl.
  - exists s; split; [reflexivity|]. intros [|j] v m k H; discriminate.
  - destruct ms as [|m ms]; [discriminate|]. destruct ks as [|k ks]; [discriminate|]. simpl in L1, L2.
    destruct (Ad 0 m k eq_refl eq_refl) as (o & ps & [Ho Hl] & K).
    destruct (set_nth_some ps k v K) as (ps1 & Es & Len & N & Fr).
    assert (Ew : write_param s m k v = Ok (mkStore (s_objs s) (set_assoc (o_list o) ps1 (s_lists s)))).
    { unfold write_param. rewrite (proj2 (get_obj_ok s m o) Ho); simpl. rewrite (proj2 (get_list_ok s _ ps) Hl); simpl.
      rewrite Es; reflexivity. }
    rewrite Ew; simpl. set (s1 := mkStore (s_objs s) (set_assoc (o_list o) ps1 (s_lists s))).
    assert (H1 : forall m' o' ps', has s m' o' ps' -> exists ps'', has s1 m' o' ps'' /\ length ps'' = length ps').
    { intros m' o' ps' [Ho' Hl']. unfold has, s1; cbn [s_objs s_lists]. rewrite (assoc_set _ _ ps1 ps _ Hl).
      destruct (Nat.eqb_spec (o_list o') (o_list o)) as [E|E]; [exists ps1; split; [auto|]|exists ps'; auto].
      rewrite E in Hl'; congruence. }
    destruct (IH ms ks s1) as (s' & Ed & Vals).
    + congruence.
    + congruence.
    + intros j m' k' A1 A2. destruct (Ad (S j) m' k' A1 A2) as (o' & ps' & Hh & K').
      destruct (H1 m' o' ps' Hh) as (ps'' & Hh' & L'). exists o', ps''; split; [exact Hh'|lia].
    + intros i j m1 m2 k1 o1 o2 A1 A2 A3 A4 A5 A6 A7. assert (S i = S j) by (eapply Inj; eassumption). lia.
    + exists s'; split; [exact Ed|]. intros [|j] v' m' k' B1 B2 B3; [|apply (Vals j); assumption].
      injection B1 as <-; injection B2 as <-; injection B3 as <-.
      apply distribute_frame in Ed; destruct Ed as (E1 & _ & E3). cbn [s1 s_objs s_lists] in E1, E3.
      destruct (E3 (o_list o) ps1) as (ps' & A' & L' & F'); [rewrite (assoc_set _ _ ps1 ps _ Hl), Nat.eqb_refl; reflexivity|].
      exists o, ps'. split; [split; [rewrite E1; exact Ho|exact A']|]. rewrite F'; [exact N|].
      intros j m' o' C1 C2 C3 C4. assert (0 = S j) by (eapply Inj; [reflexivity|exact C1|reflexivity|exact C2|exact Ho|exact C3|congruence]). lia.
Qed.

Lemma rows_NoDup : forall s ms ss, rows s ms ss -> NoDup (map snd ms) -> NoDup (map (fun sl => (sl_p sl, sl_k sl)) ss).
Proof.
  intros s ms ss R; induction R as [|m ms new ss o Ho Kn Hn R IH]; intros ND; [constructor|].
  simpl in ND; inversion ND as [|? ? Hni ND']; subst. rewrite map_app. apply NoDup_app_intro.
  - apply NoDup_map_inv with (f := snd). rewrite map_map. change (NoDup (map sl_k new)). rewrite Kn. destruct (o_lock o); [constructor|apply open_idx_NoDup].
  - apply IH; exact ND'.
  - intros [p k] H1 H2. apply in_map_iff in H1; destruct H1 as (sl & E & H1). apply in_map_iff in H2; destruct H2 as (sl' & E' & H2).
    injection E as <- <-; injection E' as E' _.
    destruct (Hn sl H1) as (_ & _ & _ & _ & _ & Ep & _).
    destruct (rows_In s ms ss sl' R H2) as (m' & Hm' & (_ & _ & _ & _ & _ & Ep' & _)).
    apply Hni. rewrite <- Ep, <- E', Ep'. apply in_map; exact Hm'.
Qed.

Lemma extract_ext : forall g s s' x, wf g -> extract g s = Ok x -> s_objs s' = s_objs s ->
  (forall l ps, assoc l (s_lists s) = Some ps -> exists ps', assoc l (s_lists s') = Some ps' /\ length ps' = length ps) ->
  exists x', extract g s' = Ok x' /\ x_lo x' = x_lo x /\ x_hi x' = x_hi x /\ x_types x' = x_types x /\ x_steps x' = x_steps x /\
    x_models x' = x_models x /\ x_index x' = x_index x /\ x_place x' = x_place x.
Proof.
  intros g s s' x W H Eo El. unfold extract in *.
  assert (Gen : forall ms y y' z, fold_res (extract_model s) ms y = Ok z ->
    x_lo y' = x_lo y /\ x_hi y' = x_hi y /\ x_types y' = x_types y /\ x_steps y' = x_steps y /\ x_models y' = x_models y /\
    x_index y' = x_index y /\ x_place y' = x_place y ->
    exists z', fold_res (extract_model s') ms y' = Ok z' /\
    x_lo z' = x_lo z /\ x_hi z' = x_hi z /\ x_types z' = x_types z /\ x_steps z' = x_steps z /\ x_models z' = x_models z /\
    x_index z' = x_index z /\ x_place z' = x_place z).
  { induction ms as [|m ms IH]; intros y y' z Hf Ey; simpl in Hf.
    - injection Hf as <-. exists y'; split; [reflexivity|exact Ey].
    - apply bind_ok in Hf; destruct Hf as (y1 & Hm & Hf). simpl.
      assert (M : exists y1', extract_model s' y' m = Ok y1' /\
        x_lo y1' = x_lo y1 /\ x_hi y1' = x_hi y1 /\ x_types y1' = x_types y1 /\ x_steps y1' = x_steps y1 /\
        x_models y1' = x_models y1 /\ x_index y1' = x_index y1 /\ x_place y1' = x_place y1).
      { unfold extract_model in *. apply bind_ok in Hm; destruct Hm as (o & Ho & Hm). apply get_obj_ok in Ho.
        assert (Ho' : get_obj s' (cid (fst m)) = Ok o) by (apply get_obj_ok; rewrite Eo; exact Ho). rewrite Ho'; simpl.
        destruct (o_lock o); [injection Hm as <-; exists y'; auto|].
        revert Hm Ey. generalize (o_locks o) as locks, 0 as i. intros locks; revert y y'.
        induction locks as [|b r IHl]; intros y y' i Hm Ey; simpl in Hm.
        - injection Hm as <-; exists y'; auto.
        - destruct b; simpl; [apply (IHl y); assumption|].
          apply bind_ok in Hm; destruct Hm as (y2 & H2 & Hm).
          unfold extract_one in H2. repeat (apply bind_ok in H2; destruct H2 as (? & ? & H2)).
          injection H2 as <-. unfold extract_one. rewrite Ho'; simpl.
          rewrite get_obj_ok in *. match goal with Hx : assoc _ (s_objs s) = Some ?q |- _ => assert (q = o) by congruence; subst q end.
          rewrite get_list_ok in *. match goal with Hl : assoc (o_list o) (s_lists s) = Some _ |- _ => destruct (El _ _ Hl) as (ps' & Hl' & Len) end.
          rewrite (proj2 (get_list_ok s' _ ps') Hl'); simpl. rewrite !at_ok in *.
          match goal with Hp : nth_error ?q i = Some ?a, HL : length ps' = length ?q |- _ =>
            destruct (nth_lt ps' i) as (a' & Ha'); [rewrite HL; apply nth_error_Some; congruence|] end.
          rewrite (proj2 (at_ok _ _ _) Ha'); simpl.
          repeat match goal with Hn : nth_error _ i = Some _ |- _ => rewrite (proj2 (at_ok _ _ _) Hn); simpl; clear Hn end.
          eapply IHl; [exact Hm|]. simpl. destruct Ey as (Q1 & Q2 & Q3 & Q4 & Q5 & Q6 & Q7). rewrite Q1, Q2, Q3, Q4, Q5, Q6, Q7. repeat split. }
      destruct M as (y1' & -> & Ey1); simpl. eapply IH; eassumption. }
  destruct (Gen (get_models g) x_empty x_empty x H) as (z' & Hz & R); [repeat split|]. exists z'; auto.
Qed.

Lemma nth_ext_eq : forall {A} (l l' : list A), (forall i, nth_error l i = nth_error l' i) -> l = l'.
Proof.
  induction l as [|a r IH]; intros [|b r'] H; [reflexivity|discriminate (H 0)|discriminate (H 0)|].
  f_equal; [injection (H 0); auto|apply IH; intros i; exact (H (S i))].
Qed.

Lemma write_read : forall g s x vs, wf g -> extract g s = Ok x -> unshared g s -> length vs = length (x_params x) ->
  exists s' x', distribute vs (x_models x) (x_index x) s = Ok s' /\ extract g s' = Ok x' /\ x_params x' = vs /\
    x_lo x' = x_lo x /\ x_hi x' = x_hi x /\ x_types x' = x_types x /\ x_steps x' = x_steps x /\
    x_models x' = x_models x /\ x_index x' = x_index x /\ x_place x' = x_place x.
Proof.
  intros g s x vs W H U L.
  pose proof (extract_aligned g s x W H) as (_ & _ & LM & LI & _ & _ & LP & Al).
  destruct (extract_rows g s x H) as (ss & Ex & R).
  assert (NDp : forall i j p k, nth_error (x_place x) i = Some p -> nth_error (x_place x) j = Some p ->
                  nth_error (x_index x) i = Some k -> nth_error (x_index x) j = Some k -> i = j).
  { intros i j p k P1 P2 K1 K2. pose proof (rows_NoDup s _ ss R (get_models_places g W)) as ND.
    assert (X : forall i, nth_error (x_place x) i = Some p -> nth_error (x_index x) i = Some k ->
                 nth_error (map (fun sl => (sl_p sl, sl_k sl)) ss) i = Some (p, k)).
    { intros i0 Q1 Q2. rewrite Ex in Q1, Q2; simpl in Q1, Q2. destruct (nth_error ss i0) as [sl|] eqn:E.
      - rewrite (map_nth_error _ _ _ E) in Q1. rewrite (map_nth_error _ _ _ E) in Q2. erewrite map_nth_error by exact E. congruence.
      - apply nth_error_None in E. assert (nth_error (map sl_p ss) i0 = None) by (apply nth_error_None; rewrite map_length; exact E). congruence. }
    apply (proj1 (NoDup_nth_error _) ND); [rewrite <- nth_error_Some, X by assumption; discriminate|]. rewrite !X by assumption; reflexivity. }
  destruct (distribute_values vs (x_models x) (x_index x) s) as (s' & Ed & Vals).
  - congruence.
  - congruence.
  - intros j m k Hm Hk. assert (Hj : j < length (x_params x)) by (rewrite <- LM; apply nth_error_Some; congruence).
    destruct (Al j Hj) as (c & pl & k' & o & ps & v & lo & hi & t & st & _ & Hh & _ & M1 & _ & M3 & _ & M4 & _).
    assert (m = cid c) by congruence; assert (k' = k) by congruence; subst. exists o, ps; split; [exact Hh|]. apply nth_error_Some; congruence.
  - intros i j m m' k o o' A1 A2 A3 A4 A5 A6 A7.
    assert (Hi : i < length (x_params x)) by (rewrite <- LM; apply nth_error_Some; congruence).
    assert (Hj : j < length (x_params x)) by (rewrite <- LM; apply nth_error_Some; congruence).
    destruct (Al i Hi) as (c & pl & k1 & o1 & ps1 & v1 & lo1 & hi1 & t1 & st1 & Hs1 & Hh1 & _ & M1 & P1 & I1 & _).
    destruct (Al j Hj) as (c' & pl' & k2 & o2 & ps2 & v2 & lo2 & hi2 & t2 & st2 & Hs2 & Hh2 & _ & M2 & P2 & I2 & _).
    assert (m = cid c) by congruence; assert (m' = cid c') by congruence. subst m m'.
    assert (o1 = o) by (destruct Hh1; congruence). assert (o2 = o') by (destruct Hh2; congruence). subst o1 o2.
    assert (pl = pl') by (eapply U; eassumption). subst pl'. exact (NDp i j pl k P1 P2 A3 A4).
  - pose proof (distribute_frame _ _ _ _ _ Ed) as (E1 & _ & E3).
    destruct (extract_ext g s s' x W H E1) as (x' & Hx' & Q1 & Q2 & Q3 & Q4 & Q5 & Q6 & Q7).
    { intros l ps E; destruct (E3 l ps E) as (ps' & A & B & _); exists ps'; auto. }
    exists s', x'. split; [exact Ed|]. split; [exact Hx'|].
    split; [|repeat (split; [assumption|]); assumption].
    pose proof (extract_aligned g s' x' W Hx') as (_ & _ & LM' & _ & _ & _ & _ & Al').
    apply nth_ext_eq. intros i. destruct (Nat.lt_ge_cases i (length vs)) as [Hi|Hi].
    + destruct (Al' i) as (c & pl & k & o & ps & v & lo & hi & t & st & _ & Hh & _ & M1 & _ & M3 & M4 & M5 & _);
        [rewrite <- LM', Q5, LM; lia|].
      rewrite M4. destruct (nth_error vs i) as [w|] eqn:Ew; [|apply nth_error_None in Ew; lia].
      destruct (Vals i w (cid c) k Ew) as (o' & ps' & Hh' & N'); [rewrite <- Q5; exact M1|rewrite <- Q6; exact M3|].
      destruct Hh as [Ho Hl]; destruct Hh' as [Ho' Hl']. assert (o' = o) by congruence; subst o'. congruence.
    + rewrite (proj2 (nth_error_None vs i) Hi). apply nth_error_None. rewrite <- LM', Q5, LM. lia.
Qed.
