(** Properties C08-C11, C15, C16, C44-C46: evolvers, parameters, sampling. *)
From Coq Require Import List Arith Bool ZArith QArith Permutation Lia.
From Verif Require Import Base GraphModel GraphSpec OperatorsModel OperatorsSpec ParamsModel ParamsSpec EvolverModel EvolverSpec EvolveSpec
  ParamsProofs SamplingProofs ChoiceProofs EvolveProofs LineageProofs HessianEvolverProofs BuildProofs EvolutionExamples EvolverExamples.
Import ListNotations.
Local Open Scope nat_scope.

(** ** C08 *)
Theorem C08_default_evolver_uniform : forall L ops g s hs sh, wf g -> acyclic g -> NoDup ops -> n_choices L ops g <> 0 ->
  (forall o l, In o ops -> offers L g o l -> probability (pick L ops Lookup g s hs sh) (l, o) (1 / Qnat (n_choices L ops g))) /\
  (forall u, (0 <= u)%Q -> (u < 1)%Q -> exists o l, In o ops /\ offers L g o l /\ pick L ops Lookup g s hs sh u = Ok (l, o)).
Proof. exact lookup_choice. Qed.
Print Assumptions C08_default_evolver_uniform.

Theorem C08_nothing_offered_raises : forall L ops g s hs sh, wf g -> acyclic g -> NoDup ops -> forall ev u, n_choices L ops g = 0 ->
  pick L ops ev g s hs sh u = Err RuntimeWarning.
Proof. intros L ops g s hs sh W A N ev u H. unfold pick. rewrite (no_choice L ops g s hs sh W A N ev H). reflexivity. Qed.
Print Assumptions C08_nothing_offered_raises.

Theorem C08_weighted_evolver : forall L ops g s hs sh, wf g -> acyclic g -> NoDup ops -> forall w,
  ~ (weight_sum L ops g w == 0)%Q -> (forall o, In o ops -> applicable L g o -> 0 <= w o / weight_sum L ops g w)%Q ->
  (forall o l, In o ops -> offers L g o l ->
     probability (pick L ops (OpBased w) g s hs sh) (l, o) (w o / weight_sum L ops g w / Qnat (length (places L g o)))) /\
  (forall u, (0 <= u)%Q -> (u < 1)%Q ->
     exists o l, In o ops /\ offers L g o l /\ ~ (w o == 0)%Q /\ pick L ops (OpBased w) g s hs sh u = Ok (l, o)).
Proof. exact op_choice. Qed.
Print Assumptions C08_weighted_evolver.

Theorem C08_hessian_evolver : forall L ops g s hs sh, wf g -> acyclic g -> NoDup ops -> (forall l, Permutation (sh l) l) ->
  (Z.of_nat (n_choices L ops g) < 100000000)%Z -> forall w sc, In Remove ops -> all_edge_scores g s hs = Ok sc ->
  ~ (weight_sum L ops g w == 0)%Q -> (forall o, In o ops -> applicable L g o -> 0 <= w o / weight_sum L ops g w)%Q ->
  (forall o l, In o ops -> o <> Remove -> offers L g o l ->
     probability (pick L ops (Hessian w) g s hs sh) (l, o) (w o / weight_sum L ops g w / Qnat (length (places L g o)))) /\
  (applicable L g Remove -> exists best chosen,
     probability (pick L ops (Hessian w) g s hs sh) (best, Remove) (w Remove / weight_sum L ops g w) /\
     NoDup chosen /\ about_half (length (places L g Remove)) (length chosen) /\
     (forall l, In l chosen -> offers L g Remove l) /\ In best chosen /\
     (forall l v v', In l chosen -> scored sc best v -> scored sc l v' -> v <= v')%Q) /\
  (forall u, (0 <= u)%Q -> (u < 1)%Q ->
     exists o l, In o ops /\ offers L g o l /\ ~ (w o == 0)%Q /\ pick L ops (Hessian w) g s hs sh u = Ok (l, o)).
Proof. exact hessian_choice. Qed.
Print Assumptions C08_hessian_evolver.

Example C08_case : n_choices default_library evo_op_list g0 = 11 /\
  pick default_library evo_op_list Lookup g0 (w_store w0) None (fun l => l) (1 # 2) = Ok (LIface 1 (1, 2, 1), AddSeries) /\
  pick default_library evo_op_list (Hessian (hessian_weight (1 # 2))) (w_graph whess) (w_store whess) (w_hess whess) (fun l => l) (1 # 2) = Ok (LEdge (1, 2, 0), Swap).
Proof. split; [vm_compute; reflexivity|]. split; vm_compute; reflexivity. Qed.

(** ** C09 *)
Theorem C09_one_call : forall L ops w c w' r, do_call L ops w c = (w', r) ->
  (exists o, r = Ok o /\ w_cur w' = ch_uuid (c_ch c) /\ w_parent w' = w_cur w /\ w_mut w' = Some o) \/
  (exists e, r = Err e /\ w_cur w' = w_cur w /\ w_parent w' = w_parent w /\ w_mut w' = w_mut w).
Proof. exact evolve_ids. Qed.
Print Assumptions C09_one_call.

Theorem C09_chain : forall L ops w h w', calls L ops w h w' -> NoDup (w_cur w :: uuids h) ->
  forall h1 a c o b h2, h = h1 ++ (a, c, Ok o, b) :: h2 ->
    w_parent b = w_cur a /\ w_mut b = Some o /\ w_cur b <> w_cur a /\ w_cur b <> w_cur w /\
    forall a' c' r' b', In (a', c', r', b') h1 -> w_cur b <> w_cur a'.
Proof. exact calls_fresh. Qed.
Print Assumptions C09_chain.

Theorem C09_history_is_a_run : forall L ops w h w', NoDup ops -> calls L ops w h w' -> wf (w_graph w) -> acyclic (w_graph w) ->
  (forall a c r b, In (a, c, r, b) h -> fair L ops a c) ->
  exists os, incl os ops /\ evo_run L (w_graph w) os (w_graph w').
Proof. exact calls_run. Qed.
Print Assumptions C09_history_is_a_run.

Theorem C09_failed_assertion_changes_graph : exists w c w', wf (w_graph w) /\ acyclic (w_graph w) /\ typed (w_graph w) /\
  fair default_library evo_op_list w c /\ do_call default_library evo_op_list w c = (w', Err AssertionError) /\
  w_graph w' <> w_graph w /\ w_cur w' = w_cur w /\ w_parent w' = w_parent w /\ w_mut w' = w_mut w.
Proof. exact assertion_fires. Qed.
Print Assumptions C09_failed_assertion_changes_graph.

(* random_graph is a sequence of calls with the step number as generation: a caught AssertionError
   continues with the modified graph, any other exception ends it *)
Theorem C09_random_graph : forall L ops ev chs w n w' r, random_graph L ops ev w chs n = (w', r) ->
  exists h, calls L ops w h w' /\ length h <= length chs /\
    (forall i a c x b, nth_error h i = Some (a, c, x, b) ->
       c = mkCall ev (Some (inject_Z (Z.of_nat (n + i)))) (c_ch c) /\ nth_error chs i = Some (c_ch c)) /\
    ((r = Ok tt /\ length h = length chs /\ forall a c x b, In (a, c, x, b) h -> x = Err AssertionError \/ exists o, x = Ok o) \/
     (exists e h' a c, r = Err e /\ h = h' ++ [(a, c, Err e, w')] /\ e <> AssertionError)).
Proof. exact random_graph_calls. Qed.
Print Assumptions C09_random_graph.

Example C09_case : exists o1 o2, calls default_library evo_op_list w0 [(w0, call1, Ok o1, w1); (w1, call2, Ok o2, w2)] w2 /\
  [w_cur w0; w_cur w1; w_cur w2] = [1; 20; 21] /\ [w_parent w1; w_parent w2] = [1; 20] /\ w_mut w1 = Some o1 /\ w_mut w2 = Some o2 /\
  w_graph w1 <> w_graph w0 /\ w_graph w2 <> w_graph w1.
Proof. exact two_calls. Qed.

(** ** C10 *)
Theorem C10_bounds_kept : forall L ops w h w', lib_ok L -> NoDup ops -> calls L ops w h w' -> sound w ->
  (forall a c r b, In (a, c, r, b) h -> fair L ops a c) ->
  sound w' /\ forall a c r b, In (a, c, r, b) h -> sound b /\ r <> Err AssertionError.
Proof. exact calls_within. Qed.
Print Assumptions C10_bounds_kept.

Theorem C10_one_call : forall L ops w c w' r, lib_ok L -> NoDup ops -> sound w -> fair L ops w c -> do_call L ops w c = (w', r) ->
  sound w' /\
  ((exists o, r = Ok o /\ In o ops /\ evo_step L (w_graph w) o (w_graph w')) \/
   (w' = w /\ (r = Err RuntimeWarning \/ r = Err ValueError))).
Proof. exact evolve_within. Qed.
Print Assumptions C10_one_call.

Theorem C10_assertion_complete_refuted : exists w c w' o, wf (w_graph w) /\ acyclic (w_graph w) /\ typed (w_graph w) /\
  fair default_library evo_op_list w c /\ do_call default_library evo_op_list w c = (w', Ok o) /\
  ~ all_within (w_graph w) (w_store w) /\ ~ all_within (w_graph w') (w_store w').
Proof. exact assertion_misses. Qed.
Print Assumptions C10_assertion_complete_refuted.

(* What the assertion does see: the first free parameter, in the order of extraction, that is not at its lower bound and is below
   it, or that is not at its upper bound and is above it *)
Definition first_differs (a b : list pval) (k : nat) (x y : Q) : Prop :=
  nth_error a k = Some (Num x) /\ nth_error b k = Some (Num y) /\ ~ (x == y)%Q /\
  forall j, j < k -> exists u v, nth_error a j = Some (Num u) /\ nth_error b j = Some (Num v) /\ (u == v)%Q.
Definition numbers (l : list pval) : Prop := forall v, In v l -> exists q, v = Num q.
Definition seen (x : extracted) : Prop := exists k u v, (v < u)%Q /\ (first_differs (x_lo x) (x_params x) k u v \/ first_differs (x_params x) (x_hi x) k u v).

Lemma list_le_exact : forall a b, numbers a -> numbers b -> length a = length b ->
  (list_le a b = Ok false /\ exists k u v, first_differs a b k u v /\ (v < u)%Q) \/
  (list_le a b = Ok true /\ forall k u v, first_differs a b k u v -> (u <= v)%Q).
Proof.
  induction a as [|x r IH]; intros [|y q] Na Nb Len; try discriminate Len.
  - right. split; [reflexivity|]. intros [|k] u v (E & _); discriminate E.
  - destruct (Na x) as (u & ->); [left; reflexivity|]. destruct (Nb y) as (v & ->); [left; reflexivity|]. cbn [list_le py_eq py_le]. destruct (Qeq_bool u v) eqn:E.
    + apply Qeq_bool_eq in E. destruct (IH q) as [(E1 & k & a & b & F & L)|(E1 & F)]; [intros z I; apply Na; right; exact I|intros z I; apply Nb; right; exact I|cbn in Len; congruence| |].
      * left. split; [exact E1|]. exists (S k), a, b. split; [|exact L]. destruct F as (F1 & F2 & F3 & F4). repeat split; [exact F1|exact F2|exact F3|]. intros [|j] J; [exists u, v; auto|]. apply (F4 j). lia.
      * right. split; [exact E1|]. intros [|k] a b (F1 & F2 & F3 & F4).
        -- cbn in F1, F2. injection F1 as <-. injection F2 as <-. contradiction.
        -- apply (F k). repeat split; [exact F1|exact F2|exact F3|]. intros j J. apply (F4 (S j)). lia.
    + apply Qeq_bool_neq in E. destruct (Qle_bool u v) eqn:Le; [right|left]; split; try reflexivity.
      * apply Qle_bool_iff in Le. intros [|k] a b (F1 & F2 & F3 & F4).
        -- cbn in F1, F2. injection F1 as <-. injection F2 as <-. exact Le.
        -- destruct (F4 0) as (a0 & b0 & G1 & G2 & G3); [lia|]. cbn in G1, G2. injection G1 as <-. injection G2 as <-. contradiction.
      * exists 0, u, v. split; [repeat split; [exact E|]; intros j J; lia|]. apply Qnot_le_lt. intros N. apply Qle_bool_iff in N. congruence.
Qed.
Theorem C10_assertion_exact : forall x, numbers (x_params x) -> numbers (x_lo x) -> numbers (x_hi x) ->
  length (x_lo x) = length (x_params x) -> length (x_hi x) = length (x_params x) ->
  (bounds_assertion x = Err AssertionError <-> seen x) /\ (bounds_assertion x = Ok tt <-> ~ seen x).
Proof.
  intros x Np Nl Nh Ll Lh. unfold bounds_assertion, seen.
  destruct (list_le_exact (x_lo x) (x_params x) Nl Np Ll) as [(-> & k & u & v & F & L)|(-> & F)]; destruct (list_le_exact (x_params x) (x_hi x) Np Nh (eq_sym Lh)) as [(-> & k' & u' & v' & F' & L')|(-> & F')]; cbn.
  1-3: split; split; try discriminate; try reflexivity; try (intros _; eauto 8; fail); intros N; exfalso; apply N; eauto 8.
  split; split; try discriminate; try reflexivity.
  - intros (k & u & v & L & [D|D]); [apply F in D|apply F' in D]; exfalso; apply (Qlt_not_le _ _ L); exact D.
  - intros _ (k & u & v & L & [D|D]); [apply F in D|apply F' in D]; apply (Qlt_not_le _ _ L); exact D.
Qed.
Print Assumptions C10_assertion_exact.
Example C10_assertion_case : let at_ ps := mkX ps [Num 0; Num 0] [Num 1; Num 1] [] [] [] [] [] in
  seen (at_ [Num 0; Num (-1)]) /\ seen (at_ [Num 1; Num (3 # 2)]) /\ ~ seen (at_ [Num (1 # 2); Num 5]).
Proof.
  cbv zeta. repeat split.
  1-2: apply C10_assertion_exact; try reflexivity; intros v I; cbn in I; decompose [or] I; subst; eauto; contradiction.
  apply C10_assertion_exact; try reflexivity; intros v I; cbn in I; decompose [or] I; subst; eauto; contradiction.
Qed.
(* a call that returns has passed it *)
Theorem C10_passed : forall L ops w c w' o, do_call L ops w c = (w', Ok o) -> forall x, extract (w_graph w') (w_store w') = Ok x ->
  numbers (x_params x) -> numbers (x_lo x) -> numbers (x_hi x) -> length (x_lo x) = length (x_params x) -> length (x_hi x) = length (x_params x) -> ~ seen x.
Proof.
  intros L ops w c w' o H x X Np Nl Nh Ll Lh. apply (C10_assertion_exact x Np Nl Nh Ll Lh). revert H. unfold do_call, evolve_graph.
  destruct (create_matrix _ _ _ _ _ _ _) as [(rows & m)|]; [|discriminate]. destruct (sample_matrix _ _ _ _) as [(l & o')|]; [|discriminate]. destruct (apply_op _ _ _ _ _) as [g'|]; [|discriminate].
  destruct (update_graph _ _) as [s2|]; [|discriminate]. destruct (extract g' s2) as [x'|] eqn:E; [|discriminate]. cbn [bind]. destruct (bounds_assertion x') as [[]|] eqn:B; [|discriminate].
  intros H. injection H as <- <-. cbn [w_graph w_store] in X. rewrite E in X. injection X as <-. exact B.
Qed.
Print Assumptions C10_passed.

Example C10_case : sound w0 /\ fair default_library evo_op_list w0 call1.
Proof. exact (conj (proj1 w0_healthy) call1_fair). Qed.

(** ** C11 *)
Theorem C11_succeeds : forall L ops g s hs sh, wf g -> acyclic g -> NoDup ops -> (forall l, Permutation (sh l) l) ->
  forall q, (0 <= q)%Q -> (q <= 1)%Q -> (exists sc, all_edge_scores g s hs = Ok sc) ->
  (exists o, In o ops /\ applicable L g o /\ 0 < hessian_weight q o)%Q ->
  forall u, (0 <= u)%Q -> (u < 1)%Q ->
    exists o l, In o ops /\ offers L g o l /\ pick L ops (Hessian (hessian_weight q)) g s hs sh u = Ok (l, o).
Proof. exact hessian_gen_ok. Qed.
Print Assumptions C11_succeeds.

(* the chances at a generation ratio: growth 1 - q, removal 2 q, swap 1, shared among the operators that apply *)
Theorem C11_chances : forall L ops g s hs sh, wf g -> acyclic g -> NoDup ops -> (forall l, Permutation (sh l) l) ->
  (Z.of_nat (n_choices L ops g) < 100000000)%Z -> forall sc, In Remove ops -> all_edge_scores g s hs = Ok sc ->
  forall q, (0 <= q)%Q -> (q <= 1)%Q ->
  let total := weight_sum L ops g (fun o => match o with Remove => 2 * q | Swap => 1 | AddSeries | AddParallel => 1 - q end)%Q in
  (0 < total)%Q -> forall w,
  let choose := pick L ops (prepare (Hessian w) (Some q)) g s hs sh in
  (forall o l, In o ops -> is_growth o -> offers L g o l -> probability choose (l, o) ((1 - q) / total / Qnat (length (places L g o)))) /\
  (forall l, In Swap ops -> offers L g Swap l -> probability choose (l, Swap) (1 / total / Qnat (length (places L g Swap)))) /\
  (applicable L g Remove -> exists best, offers L g Remove best /\ probability choose (best, Remove) (2 * q / total)).
Proof.
  intros L ops g s hs sh W A N P B sc R S q Q0 Q1 total T w choose.
  destruct (hessian_choice L ops g s hs sh W A N P B (hessian_weight q) sc R S) as (H1 & H2 & _).
  - intros E. change (weight_sum L ops g (hessian_weight q)) with total in E. rewrite E in T. exact (Qlt_irrefl 0 T).
  - intros o _ _. change (weight_sum L ops g (hessian_weight q)) with total. apply Qle_shift_div_l; [exact T|]. rewrite Qmult_0_l. exact (weights_in_unit q o Q0 Q1).
  - change (weight_sum L ops g (hessian_weight q)) with total in *. split; [|split].
    + intros o l Ho [-> | ->] Hl; [exact (H1 AddSeries l Ho ltac:(discriminate) Hl)|exact (H1 AddParallel l Ho ltac:(discriminate) Hl)].
    + intros l Ho Hl. exact (H1 Swap l Ho ltac:(discriminate) Hl).
    + intros Ap. destruct (H2 Ap) as (best & chosen & Pb & _ & _ & O & I & _). exists best. split; [exact (O best I)|exact Pb].
Qed.
Print Assumptions C11_chances.

(* and of a new evolver that is not told a generation: removal 4, everything else 1 *)
Theorem C11_chances_new : forall L ops g s hs sh, wf g -> acyclic g -> NoDup ops -> (forall l, Permutation (sh l) l) ->
  (Z.of_nat (n_choices L ops g) < 100000000)%Z -> forall sc, In Remove ops -> all_edge_scores g s hs = Ok sc -> (exists o, In o ops /\ applicable L g o) ->
  let total := weight_sum L ops g (fun o => match o with Remove => 4 | _ => 1 end)%Q in
  let choose := pick L ops (prepare (Hessian hessian_initial) None) g s hs sh in
  (forall o l, In o ops -> o <> Remove -> offers L g o l -> probability choose (l, o) (1 / total / Qnat (length (places L g o)))) /\
  (applicable L g Remove -> exists best, offers L g Remove best /\ probability choose (best, Remove) (4 / total)).
Proof.
  intros L ops g s hs sh W A N P B sc R S Nc total choose.
  assert (T : (0 < total)%Q).
  { destruct Nc as (o & Ho & Ap).
    apply (weight_sum_pos L g hessian_initial ops o Ho Ap); [destruct o; reflexivity|]. intros x _ _. destruct x; discriminate. }
  destruct (hessian_choice L ops g s hs sh W A N P B hessian_initial sc R S) as (H1 & H2 & _).
  - intros E. change (weight_sum L ops g hessian_initial) with total in E. rewrite E in T. exact (Qlt_irrefl 0 T).
  - intros o _ _. change (weight_sum L ops g hessian_initial) with total. apply Qle_shift_div_l; [exact T|]. rewrite Qmult_0_l. destruct o; discriminate.
  - change (weight_sum L ops g hessian_initial) with total in *. split.
    + intros o l Ho No Hl. pose proof (H1 o l Ho No Hl) as H. destruct o; [exact H|exact H|congruence|exact H].
    + intros Ap. destruct (H2 Ap) as (best & chosen & Pb & _ & _ & O & I & _). exists best. split; [exact (O best I)|exact Pb].
Qed.
Print Assumptions C11_chances_new.

Theorem C11_last_generation_raises : forall L ops g s hs sh, wf g -> acyclic g -> NoDup ops -> (forall l, Permutation (sh l) l) ->
  forall u, (exists sc, all_edge_scores g s hs = Ok sc) ->
  (forall o, In o ops -> applicable L g o -> is_growth o) ->
  pick L ops (Hessian (hessian_weight 1)) g s hs sh u = Err RuntimeWarning.
Proof. exact hessian_last_fails. Qed.
Print Assumptions C11_last_generation_raises.

Theorem C11_minimal_system_refuted : wf (w_graph wmin) /\ acyclic (w_graph wmin) /\ typed (w_graph wmin) /\
  map (fun o => length (places default_library (w_graph wmin) o)) evo_op_list = [2; 0; 0; 0] /\
  forall u, pick default_library evo_op_list (Hessian (hessian_weight 1)) (w_graph wmin) (w_store wmin) (w_hess wmin) (fun l => l) u = Err RuntimeWarning.
Proof. exact (conj (proj1 wmin_ok) (conj (proj1 (proj2 wmin_ok)) (conj (proj1 (proj2 (proj2 wmin_ok))) (conj (proj2 (proj2 (proj2 wmin_ok))) wmin_last)))). Qed.
Print Assumptions C11_minimal_system_refuted.

Theorem C11_late_step_raises : forall L ops g s hs sh, wf g -> acyclic g -> NoDup ops -> (forall l, Permutation (sh l) l) ->
  forall n u, 2 <= n -> (exists sc, all_edge_scores g s hs = Ok sc) ->
  (exists o, In o ops /\ applicable L g o /\ is_growth o) -> (exists o, In o ops /\ applicable L g o /\ ~ is_growth o) ->
  pick L ops (Hessian (hessian_weight (Qnat n))) g s hs sh u = Err RuntimeWarning.
Proof. exact hessian_late_fails. Qed.
Print Assumptions C11_late_step_raises.

Theorem C11_late_step_growth_only : forall L ops g s hs sh, wf g -> acyclic g -> NoDup ops -> (forall l, Permutation (sh l) l) ->
  forall n, 2 <= n -> (exists sc, all_edge_scores g s hs = Ok sc) ->
  n_choices L ops g <> 0 -> (forall o, In o ops -> applicable L g o -> is_growth o) ->
  forall u, (0 <= u)%Q -> (u < 1)%Q ->
    exists o l, In o ops /\ offers L g o l /\ pick L ops (Hessian (hessian_weight (Qnat n))) g s hs sh u = Ok (l, o).
Proof. exact hessian_late_grows. Qed.
Print Assumptions C11_late_step_growth_only.

(* the same through the calls: the graph object is not changed and the error reaches the caller *)
Theorem C11_evolve_last_raises : forall L ops wt w ch, wf (w_graph w) -> acyclic (w_graph w) -> NoDup ops -> (forall l, Permutation (ch_shuffle ch l) l) ->
  (exists sc, all_edge_scores (w_graph w) (w_store w) (w_hess w) = Ok sc) ->
  (forall o, In o ops -> applicable L (w_graph w) o -> is_growth o) ->
  evolve_graph L ops (Hessian wt) (Some 1%Q) w ch = (w, Err RuntimeWarning).
Proof. exact evolve_last_fails. Qed.
Print Assumptions C11_evolve_last_raises.

Theorem C11_random_graph_raises : forall L ops wt w ch chs n, wf (w_graph w) -> acyclic (w_graph w) -> NoDup ops -> (forall l, Permutation (ch_shuffle ch l) l) ->
  2 <= n -> (exists sc, all_edge_scores (w_graph w) (w_store w) (w_hess w) = Ok sc) ->
  (exists o, In o ops /\ applicable L (w_graph w) o /\ is_growth o) -> (exists o, In o ops /\ applicable L (w_graph w) o /\ ~ is_growth o) ->
  random_graph L ops (Hessian wt) w (ch :: chs) n = (w, Err RuntimeWarning).
Proof. exact random_graph_fails. Qed.
Print Assumptions C11_random_graph_raises.

(* two places for a series element and two for a swap at a quarter of the generations: each swap has 2/7, each addition 3/14 *)
Example C11_chances_case : map (fun o => length (places default_library (w_graph whess) o)) evo_op_list = [2; 0; 0; 2] /\
  (weight_sum default_library evo_op_list (w_graph whess) (hessian_weight (1 # 4)) == 7 # 4)%Q /\
  (weight_sum default_library evo_op_list (w_graph w0) (hessian_weight (1 # 4)) == 9 # 4)%Q /\
  (weight_sum default_library evo_op_list (w_graph w0) hessian_initial == 6)%Q /\
  map (fun u => pick default_library evo_op_list (prepare (Hessian hessian_initial) (Some (1 # 4)%Q)) (w_graph whess) (w_store whess) (w_hess whess) (fun l => l) u) [28 # 100; 29 # 100; 57 # 100; 58 # 100]%Q =
    [Ok (LEdge (0, 1, 0), Swap); Ok (LEdge (1, 2, 0), Swap); Ok (LEdge (1, 2, 0), Swap); Ok (LIface 1 (1, 2, 0), AddSeries)].
Proof. split; [vm_compute; reflexivity|]. split; [vm_compute; reflexivity|]. split; [vm_compute; reflexivity|]. split; vm_compute; reflexivity. Qed.

Example C11_case : (exists sc, all_edge_scores (w_graph whess) (w_store whess) (w_hess whess) = Ok sc /\ length sc = 2) /\
  map (fun n => match pick default_library evo_op_list (Hessian (hessian_weight (Qnat n))) (w_graph whess) (w_store whess) (w_hess whess) (fun l => l) (9 # 10) with
                | Ok (_, o) => Some o | Err _ => None end) [0; 1; 2; 3] = [Some AddSeries; Some Swap; None; None].
Proof. split; [eexists; split; vm_compute; reflexivity|vm_compute; reflexivity]. Qed.

(** ** C15 *)
Theorem C15_aligned : forall g s x, wf g -> extract g s = Ok x ->
  let n := length (x_params x) in
  length (x_lo x) = n /\ length (x_hi x) = n /\ length (x_models x) = n /\ length (x_index x) = n /\
  length (x_types x) = n /\ length (x_steps x) = n /\ length (x_place x) = n /\
  forall i, i < n -> exists c pl k o ps v lo hi t st,
    sits g c pl /\ has s (cid c) o ps /\ free o k /\
    nth_error (x_models x) i = Some (cid c) /\ nth_error (x_place x) i = Some pl /\ nth_error (x_index x) i = Some k /\
    nth_error (x_params x) i = Some v /\ nth_error ps k = Some v /\
    nth_error (x_lo x) i = Some lo /\ nth_error (o_lo o) k = Some lo /\
    nth_error (x_hi x) i = Some hi /\ nth_error (o_hi o) k = Some hi /\
    nth_error (x_types x) i = Some t /\ nth_error (o_types o) k = Some t /\
    nth_error (x_steps x) i = Some st /\ nth_error (o_steps o) k = Some st.
Proof. exact extract_aligned. Qed.
Print Assumptions C15_aligned.

Theorem C15_complete : forall g s x c pl o k, wf g -> extract g s = Ok x -> sits g c pl ->
  assoc (cid c) (s_objs s) = Some o -> free o k ->
  exists i, nth_error (x_models x) i = Some (cid c) /\ nth_error (x_index x) i = Some k /\ nth_error (x_place x) i = Some pl.
Proof. exact extract_complete. Qed.
Print Assumptions C15_complete.

Theorem C15_never_raises : forall g s, wf g -> all_readable g s -> exists x, extract g s = Ok x.
Proof. exact extract_total. Qed.
Print Assumptions C15_never_raises.

Theorem C15_read_then_write : forall g s x, extract g s = Ok x -> distribute (x_params x) (x_models x) (x_index x) s = Ok s.
Proof. exact read_write_back. Qed.
Print Assumptions C15_read_then_write.

Theorem C15_write_then_read : forall g s x vs, wf g -> extract g s = Ok x -> unshared g s -> length vs = length (x_params x) ->
  exists s' x', distribute vs (x_models x) (x_index x) s = Ok s' /\ extract g s' = Ok x' /\ x_params x' = vs /\
    x_lo x' = x_lo x /\ x_hi x' = x_hi x /\ x_types x' = x_types x /\ x_steps x' = x_steps x /\
    x_models x' = x_models x /\ x_index x' = x_index x /\ x_place x' = x_place x.
Proof. exact write_read. Qed.
Print Assumptions C15_write_then_read.

Theorem C15_rest_untouched : forall g s x vs s', wf g -> extract g s = Ok x ->
  distribute vs (x_models x) (x_index x) s = Ok s' -> same_except_free g s s'.
Proof. exact distribute_frame_graph. Qed.
Print Assumptions C15_rest_untouched.

Theorem C15_shared_object_refuted : exists g s x vs s' x', wf g /\ all_readable g s /\ extract g s = Ok x /\ length vs = length (x_params x) /\
  distribute vs (x_models x) (x_index x) s = Ok s' /\ extract g s' = Ok x' /\ x_params x' <> vs.
Proof. exact shared_object. Qed.
Print Assumptions C15_shared_object_refuted.

Example C15_case : all_readable g0 (w_store w0) /\ unshared g0 (w_store w0) /\
  exists x, extract g0 (w_store w0) = Ok x /\ length (x_params x) = 35 /\ nth_error (x_place x) 3 = Some (PEdge (1, 2, 0)).
Proof.
  destruct w0_healthy as ((_ & _ & _ & R & _) & _ & U & _). rewrite w0_graph in *. split; [exact R|]. split; [exact U|].
  eexists; split; [vm_compute; reflexivity|split; vm_compute; reflexivity].
Qed.

(** ** C16 *)
Theorem C16_samples_in_bounds : forall d g s rs, wf g -> all_readable g s -> unshared g s -> all_sampleable g s -> d <> Triangle -> frac_ok rs ->
  exists s', sample_parameters d g s rs = Ok s' /\ all_within g s' /\ same_except_free g s s'.
Proof. exact sample_ok. Qed.
Print Assumptions C16_samples_in_bounds.

Theorem C16_one_value : forall d lo hi st t r, d <> Triangle -> sampleable lo hi st t -> (0 <= r_frac r)%Q -> (r_frac r < 1)%Q ->
  exists v a b, sample_one d lo hi st t r = Ok (Num v) /\ lo = Num a /\ hi = Num b /\ (a <= v)%Q /\ (v <= b)%Q.
Proof. exact sample_one_ok. Qed.
Print Assumptions C16_one_value.

Theorem C16_library_classes : forall c, class_sampleable c.
Proof. exact every_class_sampleable. Qed.
Print Assumptions C16_library_classes.

Theorem C16_triangle_raises : forall g s rs i o k, wf g -> all_readable g s -> used g i -> assoc i (s_objs s) = Some o -> free o k ->
  sample_parameters Triangle g s rs = Err TypeError.
Proof. exact sample_triangle_raises. Qed.
Print Assumptions C16_triangle_raises.

Theorem C16_nothing_free : forall d g s rs, wf g -> all_readable g s -> (forall i o k, used g i -> assoc i (s_objs s) = Some o -> ~ free o k) ->
  sample_parameters d g s rs = Ok s.
Proof. exact sample_no_free. Qed.
Print Assumptions C16_nothing_free.

Theorem C16_rounding_refuted : exists low up st r, (low <= up)%Q /\ (0 < st)%Q /\ (0 <= r_frac r)%Q /\ (r_frac r < 1)%Q /\
  exists v, uniform_sample (Num low) (Num up) (Some st) DFloat r = Ok (Num v) /\ (v < low)%Q.
Proof. exact rounding_leaves. Qed.
Print Assumptions C16_rounding_refuted.

Example C16_case : all_sampleable g0 (w_store w0) /\
  exists s', sample_parameters Uniform g0 (w_store w0) (fun i => mkRnd (1 # 3) 5) = Ok s' /\ s' <> w_store w0.
Proof.
  split; [rewrite <- w0_graph; exact (proj2 (proj2 (proj2 w0_healthy)))|]. eexists; split; [vm_compute; reflexivity|]. vm_compute; congruence.
Qed.

(** ** C44 *)
Theorem C44_hessian_random_graph_raises : forall L ops w0 w chs n x, NoDup ops -> In Remove ops -> wf (w_graph w) -> acyclic (w_graph w) ->
  n_choices L ops (w_graph w) <> 0 -> w_hess w = None -> extract (w_graph w) (w_store w) = Ok x -> x_params x <> [] -> chs <> [] ->
  random_graph L ops (Hessian w0) w chs n = (w, Err ValueError).
Proof. exact random_graph_missing. Qed.
Print Assumptions C44_hessian_random_graph_raises.

Example C44_case : random_graph default_library evo_op_list (Hessian hessian_initial) w0 [ch0 (1 # 2) 20] 0 = (w0, Err ValueError) /\
  snd (random_graph default_library evo_op_list Lookup w0 [ch0 (1 # 2) 20] 0) = Ok tt.
Proof. split; vm_compute; reflexivity. Qed.

(** ** C45 *)
Theorem C45_evolution_resets_splitters : forall L ops w c w' o, lib_ok L -> NoDup ops -> sound w -> distinct_objects (w_graph w) -> fair L ops w c ->
  do_call L ops w c = (w', Ok o) ->
  distinct_objects (w_graph w') /\
  (forall n d, In (n, d) (g_nodes (w_graph w')) -> family_of (ccls (n_model d)) = MultiPath ->
     exists ob, has (w_store w') (cid (n_model d)) ob (split_default (pred (departures (w_graph w') n)))) /\
  (forall cm pl ob ps, sits (w_graph w) cm pl -> has (w_store w) (cid cm) ob ps ->
     (forall n d, In (n, d) (g_nodes (w_graph w')) -> family_of (ccls (n_model d)) = MultiPath -> cid (n_model d) <> cid cm) ->
     has (w_store w') (cid cm) ob ps).
Proof. exact evolve_resets. Qed.
Print Assumptions C45_evolution_resets_splitters.

(* a splitter tuned to 0.3 is back at 1/2 although the operation was elsewhere *)
Example C45_case : let w := write_at w0 102 0 (3 # 10) in
  params_of (w_store w) 102 = [Num (3 # 10)] /\
  params_of (w_store (fst (do_call default_library evo_op_list w call1))) 102 = [Num (1 # 2)] /\
  snd (do_call default_library evo_op_list w call1) = Ok AddSeries.
Proof. split; [vm_compute; reflexivity|]. split; vm_compute; reflexivity. Qed.

(** ** C46 *)
Theorem C46_new_graph_healthy : forall nodes edges cur parent, NoDup (map fst nodes) ->
  forall g, init_graph nodes edges = Some g -> typed g -> NoDup (map (fun p => cid (snd p)) nodes ++ map (fun p => cid (snd p)) edges) ->
  exists w, new_world nodes edges cur parent = Ok w /\ w_graph w = g /\ w_cur w = cur /\ w_parent w = parent /\ w_mut w = None /\ w_hess w = None /\
    healthy w.
Proof. exact new_healthy. Qed.
Print Assumptions C46_new_graph_healthy.

Theorem C46_session_healthy : forall L ops nodes edges cur parent g w0 w, lib_ok L -> NoDup ops -> NoDup (map fst nodes) ->
  NoDup (map (fun p => cid (snd p)) nodes ++ map (fun p => cid (snd p)) edges) ->
  init_graph nodes edges = Some g -> typed g -> new_world nodes edges cur parent = Ok w0 -> session L ops w0 w ->
  healthy w /\ exists os, incl os ops /\ evo_run L g os (w_graph w).
Proof. exact session_healthy. Qed.
Print Assumptions C46_session_healthy.

Example C46_case : new_world nodes0 edges0 1 2 = Ok w0 /\ session default_library evo_op_list w0 w2.
Proof.
  split; [exact w0_built|]. eapply ses_evolve; [|exact call2_fair|apply surjective_pairing].
  eapply ses_evolve; [|exact call1_fair|apply surjective_pairing]. apply ses_start.
Qed.
