(** C84: the propagator as an object whose attributes are assigned, and graphs simulated with it. *)
From Coq Require Import Reals Qreals List Arith ZArith QArith Lia Lra Bool Permutation.
From Verif Require Import Base GraphModel GraphSpec OperatorsModel OperatorsSpec InitProofs ParamsModel EvolverModel PropagateModel
  Complex ArrayModel ComponentModel ComponentProofs OpticsModel OpticsSpec PropagatorModel PropagatorSpec PropagatorProofs EvolutionExamples EvolverExamples OpticsProperties.
Import ListNotations.
Local Open Scope nat_scope.

(** ** What assignments leave behind *)
Theorem C84_history : forall n w c p0 l, new_propagator (Whole (Z.of_nat n)) w c = Ok p0 -> let p := assign_all p0 l in
  (pr_window p = w /\ pr_central_wl p = c /\ pr_central_frequency p = (speed_of_light / c)%R /\ pr_wl p = pr_wl p0) /\
  (none_of sets_samples l -> pr_count p = Whole (Z.of_nat n)) /\ (forall m, last_of sets_samples l (SetSamples m) -> pr_count p = m) /\
  (none_of sets_proper l -> shows p n) /\ (forall k, last_of sets_proper l (SetSamples (Whole (Z.of_nat k))) -> shows p k) /\
  (none_of sets_state l -> pr_state p = repeat C0 n) /\ (forall x, last_of sets_state l (SetState (Some x)) -> pr_state p = x).
Proof.
  intros n w c p0 l H p. destruct (new_ok _ _ _ _ H) as (Hc & Hw & k & Ek & Sh & Ec & Ew & Ewl & Ef & _ & Es). injection Ek as Ek. apply Nat2Z.inj in Ek. subst k.
  assert (Kp : forall l', pr_window (assign_all p0 l') = w /\ pr_central_wl (assign_all p0 l') = c).
  { intros l'. destruct (assign_all_kept l' p0) as (A & B & _ & _). rewrite A, B. auto. }
  destruct (assign_all_kept l p0) as (A & B & C & D). fold p in A, B, C, D.
  split; [rewrite A, B, C, D; auto|]. split; [intros N; unfold p; rewrite count_kept by exact N; exact Ec|].
  split; [|split; [|split; [|split]]].
  - intros m (l1 & l2 & -> & _ & N). unfold p. rewrite assign_all_app. change (SetSamples m :: l2) with ([SetSamples m] ++ l2). rewrite assign_all_app, count_kept by exact N. cbn. destruct (arrays m _) as [(((t & f) & dt) & df)|e]; reflexivity.
  - intros N. apply (shows_arrays p p0 n); [exact (arrays_kept l p0 N)|congruence|congruence|exact Sh].
  - intros k (l1 & l2 & -> & _ & N). unfold p in *. rewrite assign_all_app in *. change (SetSamples (Whole (Z.of_nat k)) :: l2) with ([SetSamples (Whole (Z.of_nat k))] ++ l2) in *. rewrite assign_all_app in *.
    set (q := assign_all p0 l1) in *. destruct (Kp l1) as (Kw & Kc). fold q in Kw, Kc. cbn [assign_all fold_left] in *.
    destruct (assign_all_kept l2 (fst (assign q (SetSamples (Whole (Z.of_nat k)))))) as (A' & B' & _ & _).
    apply (shows_arrays _ (fst (assign q (SetSamples (Whole (Z.of_nat k)))))); [exact (arrays_kept l2 _ N)|exact A'|exact B'|]. apply assign_shows. rewrite Kw. exact Hw.
  - intros N. unfold p. rewrite state_kept by exact N. exact Es.
  - intros x (l1 & l2 & -> & _ & N). unfold p. rewrite assign_all_app. change (SetState (Some x) :: l2) with ([SetState (Some x)] ++ l2). rewrite assign_all_app, state_kept by exact N. reflexivity.
Qed.
Print Assumptions C84_history.

(* 8 samples; the window is refused, 4 samples are accepted, half a sample is refused and kept *)
Example C84_history_case : exists p0, new_propagator (Whole 8) 2 1 = Ok p0 /\
  let p := assign_all p0 [SetWindow 3; SetSamples (Whole 4); SetState None; SetSamples NotWhole; SetReadOnly] in
  pr_window p = 2%R /\ pr_count p = NotWhole /\ pr_t p = grid_t (mkGrid 4 2 1) /\ length (pr_t p) = 4 /\ length (pr_wl p) = 8 /\ pr_state p = repeat C0 8.
Proof.
  destruct (new_propagator (Whole (Z.of_nat 8)) 2 1) as [p0|e] eqn:E.
  2: { exfalso. unfold new_propagator in E. destruct (Req_EM_T 1 0) as [Q|_]; [apply R1_neq_R0 in Q; exact Q|]. rewrite arrays_proper in E by lra. discriminate. }
  exists p0. split; [exact E|]. cbv zeta. set (l := [_; _; _; _; _]). destruct (C84_history 8 2 1 p0 l E) as ((Hw & Hc & _ & Hl) & _ & Hn & _ & Hk & Hs & _). cbv zeta in *.
  destruct (new_ok _ _ _ _ E) as (_ & _ & k & Ek & _ & _ & _ & _ & _ & El & _). injection Ek as Ek. assert (k = 8) by lia. subst k. clear Ek.
  split; [exact Hw|]. split.
  { apply Hn. exists [SetWindow 3; SetSamples (Whole 4); SetState None], [SetReadOnly]. split; [reflexivity|]. split; [eexists; reflexivity|]. intros b [<-|[]] (m & Hm). discriminate Hm. }
  assert (St : shows (assign_all p0 l) 4).
  { apply Hk. exists [SetWindow 3], [SetState None; SetSamples NotWhole; SetReadOnly]. split; [reflexivity|]. split; [exists (Whole 4); split; [reflexivity|exists 4; reflexivity]|].
    intros b [<-|[<-|[<-|[]]]] (m & Hm & (k & Hk')); try discriminate Hm. injection Hm as <-. discriminate Hk'. }
  destruct St as (Ht & _). rewrite Hw, Hc in Ht. split; [exact Ht|]. split; [rewrite Ht; apply (grid_t_length (mkGrid 4 2 1))|]. split.
  { rewrite Hl, El, map_length. apply (grid_f_length (mkGrid 8 2 1)). }
  apply Hs. intros b Hb (x & Hx). subst b. cbn in Hb. repeat destruct Hb as [Hb|Hb]; try discriminate Hb. exact Hb.
Qed.

(* which assignments are accepted, and what the others raise *)
Theorem C84_outcome : forall p a, pr_window p <> 0%R ->
  (snd (assign p a) = Ok tt <-> sets_proper a \/ sets_state a) /\
  (forall w, snd (assign p (SetWindow w)) = Err ValueError /\ fst (assign p (SetWindow w)) = p) /\
  (snd (assign p (SetState None)) = Err TypeError /\ fst (assign p (SetState None)) = p) /\
  (forall z, (z < 0)%Z -> snd (assign p (SetSamples (Whole z))) = Err ValueError) /\ snd (assign p (SetSamples NotWhole)) = Err TypeError /\
  (forall n e, snd (assign p (SetSamples n)) = Err e -> let q := fst (assign p (SetSamples n)) in
     pr_count q = n /\ pr_t q = pr_t p /\ pr_f q = pr_f p /\ pr_dt q = pr_dt p /\ pr_df q = pr_df p /\ pr_state q = pr_state p).
Proof.
  intros p a Hw. split; [|split; [|split; [|split; [|split]]]].
  - destruct a as [n|w|[x|]|]; cbn [assign snd].
    + destruct (proper_dec n) as [(k & ->)|N].
      * rewrite (arrays_proper k _ Hw). cbn [snd]. split; [intros _; left; eexists; split; [reflexivity|exists k; reflexivity]|reflexivity].
      * destruct (arrays_improper n (pr_window p) N) as (e & ->). cbn [snd]. split; [discriminate|]. intros [(m & Hm & Pm)|(x & Hx)]; [injection Hm as <-; contradiction|discriminate].
    + split; [discriminate|]. intros [(m & Hm & Pm)|(x & Hx)]; discriminate.
    + split; [intros _; right; exists x; reflexivity|reflexivity].
    + split; [discriminate|]. intros [(m & Hm & Pm)|(x & Hx)]; discriminate.
    + split; [discriminate|]. intros [(m & Hm & Pm)|(x & Hx)]; discriminate.
  - intros w. split; reflexivity.
  - split; reflexivity.
  - intros z Hz. cbn. destruct (Z.ltb_spec z 0); [reflexivity|lia].
  - reflexivity.
  - intros n e H. cbn [assign] in *. destruct (arrays n (pr_window p)) as [(((t & f) & dt) & df)|e']; [discriminate|]. repeat split; reflexivity.
Qed.
Print Assumptions C84_outcome.
Example C84_outcome_case : forall p, pr_window p = 2%R -> snd (assign p (SetSamples (Whole 4))) = Ok tt /\ snd (assign p (SetSamples (Whole (-1)))) = Err ValueError /\ snd (assign p SetReadOnly) = Err AttributeError.
Proof.
  intros p Hw. assert (N : pr_window p <> 0%R) by (rewrite Hw; lra). split; [|split; [|reflexivity]].
  - apply (C84_outcome p _ N). left. exists (Whole 4). split; [reflexivity|exists 4; reflexivity].
  - apply (C84_outcome p SetReadOnly N). lia.
Qed.

(* a propagator whose number of samples was changed is not one that was made with that number: the wavelengths and the state stay *)
Theorem C84_fresh : forall n k w c p0 p q, new_propagator (Whole (Z.of_nat n)) w c = Ok p0 -> assign p0 (SetSamples (Whole (Z.of_nat k))) = (p, Ok tt) ->
  new_propagator (Whole (Z.of_nat k)) w c = Ok q ->
  pr_count p = pr_count q /\ pr_t p = pr_t q /\ pr_f p = pr_f q /\ pr_dt p = pr_dt q /\ pr_df p = pr_df q /\
  length (pr_wl p) = n /\ length (pr_state p) = n /\ length (pr_wl q) = k /\ length (pr_state q) = k /\ (p = q <-> k = n).
Proof.
  intros n k w c p0 p q H0 Ha Hq. destruct (new_ok _ _ _ _ H0) as (Hc & Hw & n' & En & S0 & E1 & E2 & E3 & E4 & E5 & E6). injection En as En. apply Nat2Z.inj in En. subst n'.
  destruct (new_ok _ _ _ _ Hq) as (_ & _ & k' & Ek & Sq & F1 & F2 & F3 & F4 & F5 & F6). injection Ek as Ek. apply Nat2Z.inj in Ek. subst k'.
  assert (Ep : p = fst (assign p0 (SetSamples (Whole (Z.of_nat k))))) by (rewrite Ha; reflexivity).
  destruct (assign_shows p0 k) as (Sp & _); [rewrite E2; exact Hw|]. rewrite <- Ep in Sp.
  destruct (assign_kept p0 (SetSamples (Whole (Z.of_nat k)))) as (A & B & C & D). rewrite <- Ep in A, B, C, D.
  assert (Cp : pr_count p = Whole (Z.of_nat k)). { rewrite Ep. cbn [assign]. destruct (arrays _ _) as [(((t & f) & dt) & df)|e]; reflexivity. }
  assert (Tp : pr_state p = pr_state p0). { rewrite Ep. cbn [assign]. destruct (arrays _ _) as [(((t & f) & dt) & df)|e]; reflexivity. }
  destruct Sp as (P1 & P2 & P3 & P4), Sq as (Q1 & Q2 & Q3 & Q4). rewrite A, B, E2, E3 in *. rewrite F2, F3 in *.
  assert (Ls : length (pr_wl p) = n /\ length (pr_state p) = n /\ length (pr_wl q) = k /\ length (pr_state q) = k).
  { rewrite D, E5, Tp, E6, F5, F6, !map_length, !repeat_length. pose proof (grid_f_length (mkGrid n w c)). pose proof (grid_f_length (mkGrid k w c)). auto. }
  assert (Dd : pr_dt p = pr_dt q /\ pr_df p = pr_df q).
  { destruct (le_lt_dec 2 k) as [L|L]; [destruct (P3 L) as (-> & ->), (Q3 L) as (-> & ->)|destruct (P4 L) as (-> & ->), (Q4 L) as (-> & ->)]; auto. }
  destruct Dd as (D1 & D2). destruct Ls as (L1 & L2 & L3 & L4).
  split; [congruence|]. split; [congruence|]. split; [congruence|]. split; [exact D1|]. split; [exact D2|]. split; [exact L1|]. split; [exact L2|]. split; [exact L3|]. split; [exact L4|]. split.
  - intros ->. congruence.
  - intros ->. destruct p, q. cbn in *. f_equal; congruence.
Qed.
Print Assumptions C84_fresh.

(** ** Simulations after the number of samples was changed *)
Lemma seen_after : forall n k w c p0 p q, new_propagator (Whole (Z.of_nat n)) w c = Ok p0 -> assign p0 (SetSamples (Whole (Z.of_nat k))) = (p, Ok tt) ->
  new_propagator (Whole (Z.of_nat k)) w c = Ok q -> seen_grid p = mkGrid k w c /\ seen_grid q = mkGrid k w c /\ length (pr_state p) = n /\ length (pr_state q) = k.
Proof.
  intros n k w c p0 p q H0 Ha Hq. destruct (C84_fresh n k w c p0 p q H0 Ha Hq) as (Ec & _ & _ & _ & _ & _ & L1 & _ & L2 & _).
  destruct (new_ok _ _ _ _ H0) as (_ & _ & _ & _ & _ & _ & E2 & E3 & _). destruct (new_ok _ _ _ _ Hq) as (_ & _ & _ & _ & _ & F1 & F2 & F3 & _).
  destruct (assign_kept p0 (SetSamples (Whole (Z.of_nat k)))) as (A & B & _ & _). rewrite Ha in A, B. cbn [fst] in A, B.
  unfold seen_grid. rewrite Ec, F1, A, B, E2, E3, F2, F3, Nat2Z.id. auto.
Qed.

(* graphs fed by sources that make their own samples do not notice, and neither does any graph once a state with the new
   number of entries, whatever they are, was assigned *)
Theorem C84_resized : forall n k w c p0 p q st g old, new_propagator (Whole (Z.of_nat n)) w c = Ok p0 -> assign p0 (SetSamples (Whole (Z.of_nat k))) = (p, Ok tt) ->
  new_propagator (Whole (Z.of_nat k)) w c = Ok q -> wf g -> typed g -> connected_starts g ->
  (fed_by makes_samples g -> simulate_with st p g old = simulate_with st q g old) /\
  (forall x, length x = k -> simulate_with st (fst (assign p (SetState (Some x)))) g old = simulate_with st q g old).
Proof.
  intros n k w c p0 p q st g old H0 Ha Hq W T Cs. destruct (seen_after n k w c p0 p q H0 Ha Hq) as (Sp & Sq & Lp & Lq). split.
  - intros F. unfold simulate_with. rewrite Sp, Sq. apply (simulate_same st (mkGrid k w c) g _ _ W T Cs). intros e ps He Ni. apply maker_ignores. exact (F e He Ni).
  - intros x Lx. unfold simulate_with. cbn [assign fst pr_state]. change (seen_grid (mkPropagator _ _ _ _ _ _ _ _ _ _)) with (seen_grid p). rewrite Sp, Sq.
    apply (simulate_same st (mkGrid k w c) g _ _ W T Cs). intros e ps He Ni. apply source_length_only; [exact (ty_edge_source g T e He Ni)|congruence].
Qed.
Print Assumptions C84_resized.

(* graphs fed by sources that copy the state keep simulating the old number of samples, and raise if any component uses the grid *)
Theorem C84_stale : forall n k w c p0 p st g old, new_propagator (Whole (Z.of_nat n)) w c = Ok p0 -> assign p0 (SetSamples (Whole (Z.of_nat k))) = (p, Ok tt) ->
  wf g -> typed g -> fed_by copies_state g -> 2 <= n ->
  let outcome := simulate_with st p g old in
  (forall q s, saved (fst outcome) q = Some s -> length s = n) /\
  (2 <= k -> k <> n -> (exists e, In e (g_edges g) /\ on_grid (ccls (e_model (e_dat e)))) -> snd outcome <> Ok tt).
Proof.
  intros n k w c p0 p st g old H0 Ha W T F Hn outcome.
  destruct (new_ok _ _ _ _ H0) as (Hc & Hw & n' & En & _ & _ & E2 & E3 & _ & _ & Es). injection En as En. apply Nat2Z.inj in En. subst n'.
  assert (Cp : pr_count p = Whole (Z.of_nat k) /\ pr_state p = pr_state p0).
  { assert (Ep : p = fst (assign p0 (SetSamples (Whole (Z.of_nat k))))) by (rewrite Ha; reflexivity). rewrite Ep. cbn [assign]. destruct (arrays _ _) as [(((t & f) & dt) & df)|e]; split; reflexivity. }
  destruct Cp as (Cp & Tp). assert (Lp : length (pr_state p) = n) by (rewrite Tp, Es; apply repeat_length).
  destruct outcome as (sv, r) eqn:Eo. unfold outcome, simulate_with in Eo.
  destruct (simulate_even st (seen_grid p) g (pr_state p) W ltac:(lia) (no_maker_of g T F) old sv r Eo) as (X & Y). cbn [fst snd]. rewrite Lp in *. split; [exact X|].
  intros Hk Nk (e & He & Hg) Hr. unfold seen_grid in Y. rewrite Cp, Nat2Z.id in Y. cbn [n_samples] in Y. specialize (Y Hr e He Hg Hk). congruence.
Qed.
Print Assumptions C84_stale.

(* laser, amplifier, detector: with 8 samples it can be simulated, after n_samples = 4 it cannot; a state of four ones repairs it *)
Lemma ga_wf : wf ga /\ typed ga.
Proof.
  assert (I : init_graph nodes0 amp_edges = Some ga) by (vm_compute; reflexivity). pose proof (proj1 (init_graph_some nodes0 amp_edges ga nodes0_nodup I)) as W.
  split; [exact W|apply typedb_typed; [exact W|vm_compute; reflexivity]].
Qed.
Lemma wa_graph : w_graph wa = ga.
Proof. vm_compute. reflexivity. Qed.
Example C84_case : exists p8 p4 q4, new_propagator (Whole 8) (8 * / 10 ^ 12) (2 * 10 ^ 14) = Ok p8 /\ assign p8 (SetSamples (Whole 4)) = (p4, Ok tt) /\ new_propagator (Whole 4) (8 * / 10 ^ 12) (2 * 10 ^ 14) = Ok q4 /\
  snd (simulate_with (w_store wa) p8 ga []) = Ok tt /\ snd (simulate_with (w_store wa) p4 ga []) <> Ok tt /\
  simulate_with (w_store wa) (fst (assign p4 (SetState (Some (repeat C1 4))))) ga [] = simulate_with (w_store wa) q4 ga [].
Proof.
  set (w := (8 * / 10 ^ 12)%R). set (c := (2 * 10 ^ 14)%R).
  assert (Hw : w <> 0%R) by (unfold w; assert (10 ^ 12 <> 0)%R by (apply pow_nonzero; lra); apply Rmult_integral_contrapositive_currified; [lra|apply Rinv_neq_0_compat; assumption]).
  assert (Hc : c <> 0%R) by (unfold c; assert (10 ^ 14 <> 0)%R by (apply pow_nonzero; lra); apply Rmult_integral_contrapositive_currified; [lra|assumption]).
  assert (N : forall k, exists p, new_propagator (Whole (Z.of_nat k)) w c = Ok p).
  { intros k. unfold new_propagator. destruct (Req_EM_T c 0); [contradiction|]. rewrite (arrays_proper k w Hw). eexists. reflexivity. }
  destruct (N 8) as (p8 & E8). destruct (N 4) as (q4 & E4). destruct (new_ok _ _ _ _ E8) as (_ & _ & k & Ek & _ & F1 & F2 & F3 & _ & _ & F6). injection Ek as Ek. assert (k = 8) by lia. subst k. clear Ek.
  destruct (assign p8 (SetSamples (Whole (Z.of_nat 4)))) as (p4, r) eqn:Ea. assert (r = Ok tt). { destruct (assign_shows p8 4) as (_ & X); [rewrite F2; exact Hw|]. rewrite Ea in X. exact X. } subst r.
  exists p8, p4, q4. split; [exact E8|]. split; [exact Ea|]. split; [exact E4|]. destruct ga_wf as (W & T). split; [|split].
  - destruct C66_case as (K & _ & _ & _ & X & _). rewrite wa_graph in X. unfold simulate_with, seen_grid. rewrite F1, F2, F3, F6. exact X.
  - assert (F : fed_by copies_state ga). { intros e He Ni. apply no_in_ga in Ni. vm_compute in He. destruct He as [<-|[<-|[<-|[]]]]; try discriminate Ni. left. reflexivity. }
    destruct (C84_stale 8 4 w c p8 p4 (w_store wa) ga [] E8 Ea W T F ltac:(lia)) as (_ & X). apply X; [lia|lia|]. exists amp_edge. split; [vm_compute; auto|]. unfold on_grid. cbn. tauto.
  - apply (C84_resized 8 4 w c p8 p4 q4 (w_store wa) ga [] E8 Ea E4 W T); [|reflexivity]. intros n Ni No. apply no_in_ga in Ni. apply no_out_ga in No. congruence.
Qed.
