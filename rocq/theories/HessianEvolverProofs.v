(** When the Hessian evolver succeeds and fails (C11, C44). *)
From Coq Require Import List Arith Bool Lia ZArith QArith Qabs Qround Lqa Permutation.
From Verif Require Import Base GraphModel GraphSpec GraphProofs TopoProofs OperatorsModel OperatorsSpec OperatorsProofs EvolutionProofs
  TypingProofs EffectsProofs ParamsModel ParamsSpec EvolverModel EvolverSpec EvolveSpec ParamsProofs MatrixProofs EvolverProofs HessianProofs
  ChoiceProofs EvolveProofs LineageProofs.
Import ListNotations.
Local Open Scope nat_scope.

Section Signs.
Variables (L : library) (g : graph) (w : op -> Q).

Lemma weight_sum_nonneg : forall ops, (forall o, In o ops -> applicable L g o -> 0 <= w o)%Q -> (0 <= weight_sum L ops g w)%Q.
Proof.
  induction ops as [|o r IH]; intros H; unfold weight_sum; cbn [fold_right]; [lra|]. fold (weight_sum L r g w).
  specialize (IH (fun x Hx => H x (or_intror Hx))). pose proof (H o (or_introl eq_refl)) as Ho. unfold applicable in Ho.
  destruct (places L g o); [lra|]. specialize (Ho ltac:(discriminate)). lra.
Qed.

Lemma weight_sum_pos : forall ops o, In o ops -> applicable L g o -> (0 < w o)%Q ->
  (forall o, In o ops -> applicable L g o -> 0 <= w o)%Q -> (0 < weight_sum L ops g w)%Q.
Proof.
  induction ops as [|x r IH]; intros o Ho Ap P H; [destruct Ho|]. unfold weight_sum; cbn [fold_right]; fold (weight_sum L r g w).
  pose proof (weight_sum_nonneg r (fun y Hy => H y (or_intror Hy))) as NN. destruct Ho as [->|Ho].
  - unfold applicable in Ap. destruct (places L g o); [congruence|]. lra.
  - specialize (IH o Ho Ap P (fun y Hy => H y (or_intror Hy))). pose proof (H x (or_introl eq_refl)) as Hx. unfold applicable in Hx.
    destruct (places L g x); [lra|]. specialize (Hx ltac:(discriminate)). lra.
Qed.

Lemma weight_sum_zero : forall ops, (forall o, In o ops -> applicable L g o -> w o == 0)%Q -> (weight_sum L ops g w == 0)%Q.
Proof.
  induction ops as [|o r IH]; intros H; unfold weight_sum; cbn [fold_right]; [reflexivity|]. fold (weight_sum L r g w).
  specialize (IH (fun x Hx => H x (or_intror Hx))). pose proof (H o (or_introl eq_refl)) as Ho. unfold applicable in Ho.
  destruct (places L g o); [lra|]. specialize (Ho ltac:(discriminate)). lra.
Qed.
End Signs.

Section Fails.
Variables (L : library) (ops : list op) (g : graph) (s : store) (hs : option matrix) (sh : list nat -> list nat).
Hypothesis W : wf g.
Hypothesis A : acyclic g.
Hypothesis OND : NoDup ops.
Hypothesis shP : forall l, Permutation (sh l) l.

Lemma hessian_succeeds : forall w, (exists sc, all_edge_scores g s hs = Ok sc) -> ~ (weight_sum L ops g w == 0)%Q ->
  (forall o, In o ops -> applicable L g o -> 0 <= w o / weight_sum L ops g w)%Q ->
  forall u, (0 <= u)%Q -> (u < 1)%Q -> exists o l, In o ops /\ offers L g o l /\ pick L ops (Hessian w) g s hs sh u = Ok (l, o).
Proof.
  intros w Sc NZ Pos u U U1. pose proof (weighted_positive_choice L ops g w NZ) as N. destruct (toposort_some g W A) as (ord & T & _).
  destruct (hessian_good L ops g s hs sh W A OND shP ord T N (fun _ => Sc)) as (h & GS).
  destruct (pick_cases L ops g s hs sh W A OND shP (Hessian w) u U U1) as [(l & o & E & Ho & Of)|(e & E & _)]; [exists o, l; auto|].
  exfalso. unfold pick in E. rewrite (hessian_unfold L ops g s hs sh W A OND w ord T N) in E.
  rewrite (weigh_ok L ops g ord W A OND T w _ _ GS N NZ Pos) in E. cbn [bind fst snd] in E.
  destruct (sample_some (row_list g ord) ops OND (final L ops g ord w h) u
    (final_nonneg L ops g ord W A OND T w _ _ GS N NZ Pos) (final_total L ops g ord W A OND T w _ _ GS N NZ) U U1) as (l & o & _ & _ & _ & E').
  rewrite E' in E. discriminate.
Qed.

Lemma hessian_fails_any : forall w, (exists sc, all_edge_scores g s hs = Ok sc) ->
  (weight_sum L ops g w == 0)%Q \/ (exists o, In o ops /\ applicable L g o /\ w o / weight_sum L ops g w < 0)%Q ->
  create_matrix L ops (Hessian w) g s hs sh = Err RuntimeWarning.
Proof.
  intros w Sc H. destruct (Nat.eq_dec (n_choices L ops g) 0) as [N|N]; [apply no_choice; assumption|].
  destruct (toposort_some g W A) as (ord & T & _). rewrite (hessian_unfold L ops g s hs sh W A OND w ord T N).
  destruct (hessian_good L ops g s hs sh W A OND shP ord T N (fun _ => Sc)) as (h & GS).
  destruct (Qeq_dec (weight_sum L ops g w) 0) as [Z|NZ].
  - rewrite (weigh_zero L ops g ord W A OND T w _ _ GS N Z). reflexivity.
  - destruct H as [H|(o & Ho & P & Neg)]; [contradiction|].
    rewrite (weigh_negative L ops g ord W A OND T w _ _ GS N o Ho P NZ Neg). reflexivity.
Qed.

Lemma weights_in_unit : forall q o, (0 <= q)%Q -> (q <= 1)%Q -> (0 <= hessian_weight q o)%Q.
Proof. intros q [] Q0 Q1; unfold hessian_weight; lra. Qed.

Lemma hessian_gen_ok : forall q, (0 <= q)%Q -> (q <= 1)%Q -> (exists sc, all_edge_scores g s hs = Ok sc) ->
  (exists o, In o ops /\ applicable L g o /\ 0 < hessian_weight q o)%Q ->
  forall u, (0 <= u)%Q -> (u < 1)%Q ->
    exists o l, In o ops /\ offers L g o l /\ pick L ops (Hessian (hessian_weight q)) g s hs sh u = Ok (l, o).
Proof.
  intros q Q0 Q1 Sc (o & Ho & Ap & P) u U U1.
  pose proof (weight_sum_pos L g (hessian_weight q) ops o Ho Ap P (fun x _ _ => weights_in_unit q x Q0 Q1)) as WP.
  apply hessian_succeeds; [exact Sc|intros Z; lra| |exact U|exact U1].
  intros x _ _. apply Qle_shift_div_l; [exact WP|]. pose proof (weights_in_unit q x Q0 Q1). lra.
Qed.

Definition is_growth (o : op) : Prop := o = AddSeries \/ o = AddParallel.

Lemma hessian_last_fails : forall u, (exists sc, all_edge_scores g s hs = Ok sc) ->
  (forall o, In o ops -> applicable L g o -> is_growth o) ->
  pick L ops (Hessian (hessian_weight 1)) g s hs sh u = Err RuntimeWarning.
Proof.
  intros u Sc H. unfold pick. rewrite (hessian_fails_any (hessian_weight 1) Sc); [reflexivity|]. left.
  apply weight_sum_zero. intros o Ho Ap. destruct (H o Ho Ap) as [->| ->]; reflexivity.
Qed.

Lemma hessian_late_fails : forall n u, 2 <= n -> (exists sc, all_edge_scores g s hs = Ok sc) ->
  (exists o, In o ops /\ applicable L g o /\ is_growth o) -> (exists o, In o ops /\ applicable L g o /\ ~ is_growth o) ->
  pick L ops (Hessian (hessian_weight (Qnat n))) g s hs sh u = Err RuntimeWarning.
Proof.
  intros n u N2 Sc (o1 & H1 & A1 & G1) (o2 & H2 & A2 & G2).
  assert (Nq : (2 <= Qnat n)%Q). { unfold Qnat. change 2%Q with (inject_Z 2). rewrite <- Zle_Qle. lia. }
  assert (W1 : (hessian_weight (Qnat n) o1 < 0)%Q) by (destruct G1 as [->| ->]; unfold hessian_weight; lra).
  assert (W2 : (0 < hessian_weight (Qnat n) o2)%Q) by (destruct o2; unfold hessian_weight, is_growth in *; solve [tauto|lra]).
  unfold pick. rewrite (hessian_fails_any (hessian_weight (Qnat n)) Sc); [reflexivity|].
  destruct (Qlt_le_dec 0 (weight_sum L ops g (hessian_weight (Qnat n)))) as [P|P].
  - right. exists o1. split; [exact H1|]. split; [exact A1|]. apply Qlt_shift_div_r; [exact P|]. lra.
  - destruct (Qlt_le_dec (weight_sum L ops g (hessian_weight (Qnat n))) 0) as [P'|P'].
    + right. exists o2. split; [exact H2|]. split; [exact A2|].
      setoid_replace (hessian_weight (Qnat n) o2 / weight_sum L ops g (hessian_weight (Qnat n)))%Q
        with ((- hessian_weight (Qnat n) o2) / (- weight_sum L ops g (hessian_weight (Qnat n))))%Q by (field; lra).
      apply Qlt_shift_div_r; lra.
    + left. lra.
Qed.

Lemma hessian_late_grows : forall n, 2 <= n -> (exists sc, all_edge_scores g s hs = Ok sc) ->
  n_choices L ops g <> 0 -> (forall o, In o ops -> applicable L g o -> is_growth o) ->
  forall u, (0 <= u)%Q -> (u < 1)%Q ->
    exists o l, In o ops /\ offers L g o l /\ pick L ops (Hessian (hessian_weight (Qnat n))) g s hs sh u = Ok (l, o).
Proof.
  intros n N2 Sc NC H u U U1.
  assert (Nq : (2 <= Qnat n)%Q). { unfold Qnat. change 2%Q with (inject_Z 2). rewrite <- Zle_Qle. lia. }
  assert (E : exists o, In o ops /\ applicable L g o).
  { clear - NC. induction ops as [|o r IH]; [simpl in NC; congruence|]. unfold n_choices in NC; cbn [fold_right] in NC. fold (n_choices L r g) in NC.
    destruct (places L g o) eqn:E; [|exists o; split; [left; reflexivity|unfold applicable; rewrite E; discriminate]].
    destruct (IH NC) as (o' & Ho & Ap). exists o'; split; [right; exact Ho|exact Ap]. }
  destruct E as (o0 & H0 & A0). set (w := hessian_weight (Qnat n)). set (w' := fun o => (- w o)%Q).
  assert (Neg : forall os, (weight_sum L os g w == - weight_sum L os g w')%Q).
  { induction os as [|o r IH]; unfold weight_sum; cbn [fold_right]; [reflexivity|]. fold (weight_sum L r g w) (weight_sum L r g w'). rewrite IH.
    destruct (places L g o); unfold w'; ring. }
  assert (P' : (0 < weight_sum L ops g w')%Q).
  { assert (X : forall o, In o ops -> applicable L g o -> (0 < w' o)%Q). { intros o Ho Ap. destruct (H o Ho Ap) as [->| ->]; unfold w', w, hessian_weight; lra. }
    apply (weight_sum_pos L g w' ops o0 H0 A0 (X o0 H0 A0)). intros o Ho Ap. specialize (X o Ho Ap). lra. }
  specialize (Neg ops). apply hessian_succeeds; [exact Sc|intros Z; lra| |exact U|exact U1].
  intros o Ho Ap. setoid_replace (w o / weight_sum L ops g w)%Q with (w' o / weight_sum L ops g w')%Q.
  - apply Qle_shift_div_l; [exact P'|]. destruct (H o Ho Ap) as [->| ->]; unfold w', w, hessian_weight; lra.
  - rewrite Neg. change (w' o) with (- w o)%Q. generalize (w o). generalize dependent (weight_sum L ops g w'). intros y _ P0 z. field. repeat split; intros X; lra.
Qed.

(* with free parameters but no Hessian nothing can be picked *)
Lemma hessian_missing : forall w x, In Remove ops -> n_choices L ops g <> 0 -> hs = None -> extract g s = Ok x -> x_params x <> [] ->
  forall u, pick L ops (Hessian w) g s hs sh u = Err ValueError.
Proof.
  intros w x HR N Hn Ex Ne u. unfold pick.
  rewrite (hessian_no_scores L ops g s hs sh W A OND w ValueError HR N); [reflexivity|].
  unfold all_edge_scores. rewrite Ex. cbn [bind]. destruct (x_params x); [congruence|]. rewrite Hn. reflexivity.
Qed.

(* a Hessian of another size, the same *)
Lemma hessian_mismatch : forall w x h, In Remove ops -> n_choices L ops g <> 0 -> hs = Some h -> extract g s = Ok x -> x_params x <> [] ->
  length h <> length (x_params x) -> forall u, pick L ops (Hessian w) g s hs sh u = Err ValueError.
Proof.
  intros w x h HR N Hn Ex Ne Len u. unfold pick.
  rewrite (hessian_no_scores L ops g s hs sh W A OND w ValueError HR N); [reflexivity|].
  unfold all_edge_scores. rewrite Ex. cbn [bind]. destruct (x_params x) as [|v r] eqn:Ep; [congruence|]. rewrite Hn.
  destruct (Nat.eqb_spec (length (v :: r)) (length h)) as [C|C]; [congruence|reflexivity].
Qed.

End Fails.

Lemma random_graph_missing : forall L ops w0 w chs n x, NoDup ops -> In Remove ops -> wf (w_graph w) -> acyclic (w_graph w) ->
  n_choices L ops (w_graph w) <> 0 -> w_hess w = None -> extract (w_graph w) (w_store w) = Ok x -> x_params x <> [] -> chs <> [] ->
  random_graph L ops (Hessian w0) w chs n = (w, Err ValueError).
Proof.
  intros L ops w0 w chs n x OND HR W A N Hn Ex Ne Nc. destruct chs as [|ch chs]; [congruence|]. cbn [random_graph].
  rewrite evolve_pick. cbn [prepare]. 
  rewrite (hessian_missing L ops (w_graph w) (w_store w) (w_hess w) (ch_shuffle ch) W A OND _ x HR N Hn Ex Ne). reflexivity.
Qed.

(** ** Through evolve_graph and random_graph *)
Lemma pick_fails_evolve : forall L ops ev gen w ch e,
  pick L ops (prepare ev gen) (w_graph w) (w_store w) (w_hess w) (ch_shuffle ch) (ch_u ch) = Err e ->
  evolve_graph L ops ev gen w ch = (w, Err e).
Proof.
  intros L ops ev gen w ch e H. unfold pick, bind in H. unfold evolve_graph.
  destruct (create_matrix L ops (prepare ev gen) (w_graph w) (w_store w) (w_hess w) (ch_shuffle ch)) as [[rows m]|x].
  - cbn [fst snd] in H. destruct (sample_matrix rows ops m (ch_u ch)) as [[l o]|x]; [discriminate|injection H as ->; reflexivity].
  - injection H as ->; reflexivity.
Qed.

Lemma evolve_last_fails : forall L ops wt w ch, wf (w_graph w) -> acyclic (w_graph w) -> NoDup ops -> (forall l, Permutation (ch_shuffle ch l) l) ->
  (exists sc, all_edge_scores (w_graph w) (w_store w) (w_hess w) = Ok sc) ->
  (forall o, In o ops -> applicable L (w_graph w) o -> is_growth o) ->
  evolve_graph L ops (Hessian wt) (Some 1%Q) w ch = (w, Err RuntimeWarning).
Proof. intros. apply pick_fails_evolve. apply hessian_last_fails; assumption. Qed.

Lemma random_graph_fails : forall L ops wt w ch chs n, wf (w_graph w) -> acyclic (w_graph w) -> NoDup ops -> (forall l, Permutation (ch_shuffle ch l) l) ->
  2 <= n -> (exists sc, all_edge_scores (w_graph w) (w_store w) (w_hess w) = Ok sc) ->
  (exists o, In o ops /\ applicable L (w_graph w) o /\ is_growth o) -> (exists o, In o ops /\ applicable L (w_graph w) o /\ ~ is_growth o) ->
  random_graph L ops (Hessian wt) w (ch :: chs) n = (w, Err RuntimeWarning).
Proof.
  intros L ops wt w ch chs n Wf Ac Nd Sh Hn Sc Gr Ng. cbn [random_graph].
  rewrite (pick_fails_evolve L ops (Hessian wt) (Some (inject_Z (Z.of_nat n))) w ch RuntimeWarning); [reflexivity|].
  exact (hessian_late_fails L ops (w_graph w) (w_store w) (w_hess w) (ch_shuffle ch) Wf Ac Nd Sh n (ch_u ch) Hn Sc Gr Ng).
Qed.
