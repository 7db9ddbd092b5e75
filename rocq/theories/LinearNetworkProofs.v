(** How the fields of a graph depend on the phase of one phase shifter. *)
From Coq Require Import Reals Qreals List Arith ZArith QArith Lia Lra Bool Permutation Relations Classical_Prop.
From Verif Require Import Base GraphModel GraphSpec GraphProofs TopoProofs OperatorsSpec OperatorsProofs EvolutionProofs EffectsProofs TypingProofs InitProofs ParamsModel ParamsSpec PropagateModel PropagateSpec PropagateProofs SessionSaveProofs FlowSpec FlowProofs
  Complex ArrayModel ComponentModel ComponentSpec DetectorModel MoreComponentsModel MoreComponentsSpec FilterProofs ComponentProofs GridProofs SplitterProofs ShaperProofs DetectorProofs MoreComponentsProofs OpticsModel OpticsSpec OpticsComponentProofs OpticsProofs ButterworthProofs PhaseModel PhaseSpec LinearProofs.
Import ListNotations.
Local Open Scope nat_scope.

(* connections in the order of the light *)
Lemma edge_induction : forall g (P : edge -> Prop), wf g -> acyclic g ->
  (forall e, In e (g_edges g) -> (forall e', In e' (g_edges g) -> e_dst e' = e_src e -> P e') -> P e) -> forall e, In e (g_edges g) -> P e.
Proof.
  intros g P W A H. destruct (toposort_some g W A) as (o & _ & V). destruct (valid_closed g W o V) as (_ & Mem & Cl).
  assert (G : forall r D, closed g D r -> (forall e, In e (g_edges g) -> In (e_src e) D -> P e) -> forall e, In e (g_edges g) -> In (e_src e) (D ++ r) -> P e).
  { induction r as [|n r IH]; intros D C HD e H1 H2; [rewrite app_nil_r in H2; apply HD; assumption|].
    apply (IH (D ++ [n])); [| |exact H1|rewrite <- app_assoc; exact H2].
    - intros l1 m l2 e' E H3 H4. rewrite <- app_assoc. simpl. apply (C (n :: l1) m l2 e'); [rewrite E; reflexivity|exact H3|exact H4].
    - clear e H1 H2. intros e H1 H2. apply in_app_or in H2 as [H2|[H2|[]]]; [apply HD; assumption|]. subst n. apply H; [exact H1|]. intros e' H3 H4.
      apply HD; [exact H3|]. specialize (C [] (e_src e) r e' eq_refl H3 H4). rewrite app_nil_r in C. exact C. }
  intros e He. apply (G o [] Cl); [intros e' _ []|exact He|]. apply Mem. apply (wf_ends g W e He).
Qed.

(** ** The power of two superposed fields *)
Section Fringe.
Local Open Scope R_scope.
Definition weight (sign x : R) : C := Cmul (RtoC (1 / 2)) (Cadd C1 (Cmul (RtoC sign) (cis x))).
Definition amount (s : list C) : R := fold_right Rplus 0 (power_ s).
Lemma weight_sum : forall x, Cadd (weight 1 x) (weight (-1) x) = C1.
Proof. intros x. unfold weight, cis. cplx. f_equal; field. Qed.
Lemma weight_cis : forall x, cis x = Cadd (Cmul (weight 1 x) (cis 0)) (Cmul (weight (-1) x) (cis PI)).
Proof. intros x. unfold weight. rewrite cis_0, cis_pi. unfold cis. cplx. f_equal; field. Qed.
Lemma disc_sum : forall a b c a' b' c', 0 <= a -> 0 <= a' -> b * b + c * c <= a * a -> b' * b' + c' * c' <= a' * a' -> (b + b') * (b + b') + (c + c') * (c + c') <= (a + a') * (a + a').
Proof.
  intros a b c a' b' c' P P' H H'. assert (K : b * b' + c * c' <= a * a').
  { assert (Q : (b * b' + c * c') * (b * b' + c * c') <= (a * a') * (a * a')).
    { apply Rle_trans with ((b * b + c * c) * (b' * b' + c' * c')); [pose proof (Rle_0_sqr (b * c' - c * b')) as X; unfold Rsqr in X; lra|].
      replace (a * a' * (a * a')) with ((a * a) * (a' * a')) by ring. apply Rmult_le_compat; try assumption; [pose proof (Rle_0_sqr b); pose proof (Rle_0_sqr c)|pose proof (Rle_0_sqr b'); pose proof (Rle_0_sqr c')]; unfold Rsqr in *; lra. }
    assert (N : 0 <= a * a') by (apply Rmult_le_pos; assumption). destruct (Rle_or_lt (b * b' + c * c') (a * a')) as [L|L]; [exact L|]. exfalso. nra. }
  lra.
Qed.
Lemma fringe_power : forall s1 s2, length s1 = length s2 -> exists a b c, 0 <= a /\ b * b + c * c <= a * a /\
  forall x s3, mixes (weight 1 x) (weight (-1) x) s1 s2 s3 -> amount s3 = a + b * cos x + c * sin x.
Proof.
  induction s1 as [|u s1 IH]; intros [|v s2] L; try discriminate L.
  - exists 0, 0, 0. split; [lra|]. split; [lra|]. intros x s3 (L1 & _). destruct s3; [|discriminate L1]. unfold amount. cbn. ring.
  - injection L as L. destruct (IH s2 L) as (a & b & c & Pa & D & H).
    destruct u as [u1 u2], v as [v1 v2].
    set (a' := ((u1 + v1) * (u1 + v1) + (u2 + v2) * (u2 + v2) + (u1 - v1) * (u1 - v1) + (u2 - v2) * (u2 - v2)) / 4).
    set (b' := ((u1 + v1) * (u1 - v1) + (u2 + v2) * (u2 - v2)) / 2). set (c' := ((u1 + v1) * (u2 - v2) - (u2 + v2) * (u1 - v1)) / - 2).
    assert (Pa' : 0 <= a').
    { unfold a'. pose proof (Rle_0_sqr (u1 + v1)). pose proof (Rle_0_sqr (u2 + v2)). pose proof (Rle_0_sqr (u1 - v1)). pose proof (Rle_0_sqr (u2 - v2)). unfold Rsqr in *. lra. }
    assert (D' : b' * b' + c' * c' <= a' * a').
    { unfold a', b', c'. pose proof (Rle_0_sqr ((u1 + v1) * (u1 + v1) + (u2 + v2) * (u2 + v2) - (u1 - v1) * (u1 - v1) - (u2 - v2) * (u2 - v2))) as X. unfold Rsqr in X. lra. }
    exists (a' + a), (b' + b), (c' + c). split; [lra|]. split; [apply disc_sum; assumption|].
    intros x s3 (L1 & L2 & Hn). destruct s3 as [|w s3]; [discriminate L1|].
    assert (Tl : amount s3 = a + b * cos x + c * sin x) by (apply (H x); split; [injection L1 as L1; exact L1|]; split; [injection L2 as L2; exact L2|]; intros i; exact (Hn (S i))).
    assert (Ew : w = Cadd (Cmul (weight 1 x) (u1, u2)) (Cmul (weight (-1) x) (v1, v2))) by exact (Hn O).
    unfold amount in *. cbn [power_ map fold_right]. unfold power_ in Tl. rewrite Tl. assert (Cs : sin x * sin x = 1 - cos x * cos x) by (pose proof (sin2_cos2 x) as Q; unfold Rsqr in Q; lra).
    assert (G : Cnorm2 w = a' + b' * cos x + c' * sin x); [|rewrite G; ring].
    rewrite Ew. unfold weight, cis, Cnorm2, Cmul, Cadd, RtoC, C1, a', b', c'. cbn [fst snd re im]. clear - Cs. revert Cs. generalize (sin x), (cos x). intros sx cx Cs. unfold re, im. cbn [fst snd].
    match goal with |- ?l = ?r => replace l with (r + (sx * sx - (1 - cx * cx)) * (((u1 - v1) * (u1 - v1) + (u2 - v2) * (u2 - v2)) / 4)) by field end. rewrite Cs. ring.
Qed.
End Fringe.

Section Interferometer.
Variable st : store.
Variable p : grid.
Variable g : graph.
Variable src : list C.
Variable n0 : nat.
Hypothesis W : wf g.
Hypothesis A : acyclic g.
Hypothesis T : typed g.
Hypothesis Fu : furnished g st.
Hypothesis U : usable (n_samples p) (window_t p).
Hypothesis Ls : length src = n_samples p.
Hypothesis Hn : bin_spans (n_samples p) (window_t p) n0.
Variable e0 : edge.
Hypothesis He0 : In e0 (g_edges g).
Hypothesis Hc0 : ccls (e_model (e_dat e0)) = PhaseShifter.
Hypothesis only : forall e, In e (g_edges g) -> cid (e_model (e_dat e)) = cid (e_model (e_dat e0)) -> e = e0.

Definition shifted (x : R) : behaviour (list C) unit := phase_optics st p (just (cid (e_model (e_dat e0))) x).
Lemma shifted_other : forall x e s, In e (g_edges g) -> e <> e0 -> edge_act (shifted x) (e_model (e_dat e)) s tt = edge_act (optics st p) (e_model (e_dat e)) s tt.
Proof.
  intros x e s He Ne. unfold shifted, phase_optics. cbn [edge_act]. unfold just. destruct (Nat.eqb_spec (cid (e_model (e_dat e))) (cid (e_model (e_dat e0)))) as [E|E]; [exfalso; apply Ne, only; assumption|reflexivity].
Qed.
Lemma shifted_here : forall x s, edge_act (shifted x) (e_model (e_dat e0)) s tt = (tt, phase_shifter x p s).
Proof. intros x s. unfold shifted, phase_optics. cbn [edge_act]. unfold just. rewrite Nat.eqb_refl. reflexivity. Qed.
Lemma edge_dec : forall e, In e (g_edges g) -> e = e0 \/ e <> e0.
Proof.
  intros e He. destruct (Nat.eq_dec (cid (e_model (e_dat e))) (cid (e_model (e_dat e0)))) as [E|E]; [left; apply only; assumption|right; intros ->; apply E; reflexivity].
Qed.
Lemma shifted_phased : forall x, phased st p g (shifted x).
Proof.
  intros x. split; [reflexivity|]. intros e s He. destruct (edge_dec e He) as [-> |Ne]; [right; split; [exact Hc0|]; exists x; apply shifted_here|left; apply shifted_other; assumption].
Qed.

Lemma link : forall e, In e (g_edges g) -> exists c i, model_at g (e_src e) c /\ nth_error (leaving g (e_src e)) i = Some e /\
  forall x val out, solves (shifted x) tt g src val out -> exists states s, snd (node_act (optics st p) c (received g src val (e_src e)) (arrivals g (e_src e)) (departures g (e_src e)) tt) = Ok states /\
    nth_error states i = Some s /\ length s = n_samples p /\ snd (edge_act (shifted x) (e_model (e_dat e)) s tt) = Ok (val e).
Proof.
  intros e He. destruct (wf_ends g W e He) as [Ns _]. destruct (node_data_ex g _ Ns) as (d & Ed).
  assert (M : model_at g (e_src e) (n_model d)) by (exists d; split; [apply (node_data_iff g _ d W); exact Ed|reflexivity]).
  assert (Il : In e (leaving g (e_src e))) by (apply In_leaving; auto). apply In_nth_error in Il as (i & Hi). exists (n_model d), i. split; [exact M|]. split; [exact Hi|].
  intros x val out Sol. pose proof (run_lengths st p g src n0 W A T Fu U Ls Hn (shifted x) (shifted_phased x) val out Sol) as Lv.
  destruct (Sol _ _ M) as (states & E1 & _ & E3). destruct (E3 i e Hi) as (s & Es & Ea). exists states, s. split; [exact E1|]. split; [exact Es|]. split; [|exact Ea].
  assert (Lr : forall s, In s (received g src val (e_src e)) -> length s = n_samples p) by (apply (received_kind g src W (fun s => length s = n_samples p) Ls val (e_src e)); intros e' He' _; exact (Lv e' He')).
  pose proof (node_works st p g src W T Fu U Ls (optics st p) (phased_optics st p g) _ _ (received g src val (e_src e)) M (received_length g src W _ _ W) Lr) as K1.
  destruct (outputs_of g (e_src e)); [|destruct K1 as (er & K1); change (node_act (shifted x)) with (node_act (optics st p)) in E1; rewrite K1 in E1; discriminate].
  destruct K1 as (states' & K1 & _ & K2). change (node_act (shifted x)) with (node_act (optics st p)) in E1. rewrite K1 in E1. injection E1 as ->. apply K2. exact (nth_error_In _ _ Es).
Qed.

Definition behind (n : node) : Prop := path g (e_dst e0) n.
Lemma path_edge : forall e m, In e (g_edges g) -> path g m (e_src e) -> path g m (e_dst e).
Proof. intros e m He H. apply rt_trans with (e_src e); [exact H|]. apply rt_step. exists e. auto. Qed.
Lemma upstream : forall x y val out val' out', solves (shifted x) tt g src val out -> solves (shifted y) tt g src val' out' ->
  forall e, In e (g_edges g) -> e <> e0 -> ~ behind (e_src e) -> val e = val' e.
Proof.
  intros x y val out val' out' S1 S2. apply (edge_induction g (fun e => e <> e0 -> ~ behind (e_src e) -> val e = val' e) W A). intros e He IH Ne Nb.
  destruct (link e He) as (c & i & M & Hi & K). destruct (K x val out S1) as (st1 & s1 & A1 & A2 & _ & A3). destruct (K y val' out' S2) as (st2 & s2 & B1 & B2 & _ & B3).
  assert (Er : received g src val (e_src e) = received g src val' (e_src e)).
  { apply (received_ext g src W). intros e' H1 H2. apply IH; [exact H1|exact H2| |].
    - intros ->. apply Nb. rewrite <- H2. apply rt_refl.
    - intros B. apply Nb. rewrite <- H2. apply path_edge; assumption. }
  rewrite Er in A1. assert (Es : st1 = st2) by congruence. subst st2. assert (Eq : s1 = s2) by congruence. subst s2. rewrite shifted_other in A3, B3 by assumption. congruence.
Qed.
Lemma not_behind : forall e, In e (g_edges g) -> e_dst e = e_src e0 -> e <> e0 /\ ~ behind (e_src e).
Proof.
  assert (N : ~ behind (e_src e0)).
  { intros B. apply (A (e_src e0)). apply path1_step_path. exists (e_dst e0). split; [exists e0; auto|exact B]. }
  intros e He Ed. split.
  - intros ->. apply N. unfold behind. rewrite Ed. apply rt_refl.
  - intros B. apply N. rewrite <- Ed. apply path_edge; assumption.
Qed.
Lemma entry_received : forall x y val out val' out', solves (shifted x) tt g src val out -> solves (shifted y) tt g src val' out' -> received g src val (e_src e0) = received g src val' (e_src e0).
Proof.
  intros x y val out val' out' S1 S2. apply (received_ext g src W). intros e He Ed. destruct (not_behind e He Ed) as [H1 H2]. exact (upstream x y val out val' out' S1 S2 e He H1 H2).
Qed.
Lemma e0_inner : ~ no_input g (e_src e0) /\ ~ no_output g (e_dst e0).
Proof.
  assert (N : ~ no_input g (e_src e0)) by (intros H; pose proof (ty_edge_source g T e0 He0 H) as F; rewrite Hc0 in F; discriminate F).
  split; [exact N|]. intros H. pose proof (ty_edge_sink g T e0 He0 N H) as F. rewrite Hc0 in F. discriminate F.
Qed.
Lemma input_dec : forall n, is_node g n -> no_input g n \/ ~ no_input g n.
Proof.
  intros n Nn. destruct (arriving g n) as [|e l] eqn:E.
  - left. split; [exact Nn|]. intros e He Ed. assert (X : In e (arriving g n)) by (apply (In_arriving g n e W); auto). rewrite E in X. contradiction.
  - right. intros [_ H]. assert (X : In e (arriving g n)) by (rewrite E; left; reflexivity). apply (In_arriving g n e W) in X as [X1 X2]. exact (H e X1 X2).
Qed.
Lemma received_arriving : forall val n, is_node g n -> ~ no_input g n -> received g src val n = map val (arriving g n).
Proof.
  intros val n Nn Ni. unfold received. destruct (arriving g n) as [|e l] eqn:E; [|reflexivity]. exfalso. apply Ni. split; [exact Nn|]. intros e He Ed. assert (X : In e (arriving g n)) by (apply (In_arriving g n e W); auto). rewrite E in X. contradiction.
Qed.
Lemma received_mixes : forall a b v1 v2 v3 n, is_node g n -> ~ no_input g n -> (forall e, In e (g_edges g) -> e_dst e = n -> mixes a b (v1 e) (v2 e) (v3 e)) ->
  mixesL a b (received g src v1 n) (received g src v2 n) (received g src v3 n).
Proof.
  intros a b v1 v2 v3 n Nn Ni H. rewrite !received_arriving by assumption. unfold mixesL. rewrite !map_length. split; [reflexivity|]. split; [reflexivity|]. intros i.
  destruct (Nat.lt_ge_cases i (length (arriving g n))) as [Hi|Hi].
  - rewrite (nth_indep (map v1 _) [] (v1 e0)), (nth_indep (map v2 _) [] (v2 e0)), (nth_indep (map v3 _) [] (v3 e0)) by (rewrite map_length; exact Hi). rewrite !map_nth. assert (X : In (nth i (arriving g n) e0) (arriving g n)) by (apply nth_In; exact Hi). apply (In_arriving g n _ W) in X as [X1 X2]. apply H; assumption.
  - rewrite !nth_overflow by (rewrite map_length; exact Hi). split; [reflexivity|]. split; [reflexivity|]. intros [|j]; cbn [nth]; ring.
Qed.
Lemma source_values : forall x y val out val' out', solves (shifted x) tt g src val out -> solves (shifted y) tt g src val' out' -> forall e, In e (g_edges g) -> no_input g (e_src e) -> val e = val' e.
Proof.
  intros x y val out val' out' S1 S2 e He Ni. apply (upstream x y val out val' out' S1 S2 e He).
  - intros ->. exact (proj1 e0_inner Ni).
  - intros B. apply path_cases in B as [B|B].
    + destruct Ni as [_ Ni]. exact (Ni e0 He0 B).
    + apply Operators_Properties.clos_trans_tn1 in B. destruct Ni as [_ Ni]. inversion B; subst; match goal with H : connects g _ (e_src e) |- _ => destruct H as (e' & H1 & _ & H2); exact (Ni e' H1 H2) end.
Qed.

(* no component on an inner connection amplifies *)
Hypothesis Na : ~ contains g OpticalAmplifier.
(* the output of a node, when its inputs are mixtures *)
Lemma node_mixes_at : forall a b v1 v2 v3 e c i t1 t2 t3 s1 s2 s3, In e (g_edges g) -> ~ no_input g (e_src e) -> (forall e', In e' (g_edges g) -> e_dst e' = e_src e -> mixes a b (v1 e') (v2 e') (v3 e')) ->
  model_at g (e_src e) c ->
  snd (node_act (optics st p) c (received g src v1 (e_src e)) (arrivals g (e_src e)) (departures g (e_src e)) tt) = Ok t1 -> nth_error t1 i = Some s1 ->
  snd (node_act (optics st p) c (received g src v2 (e_src e)) (arrivals g (e_src e)) (departures g (e_src e)) tt) = Ok t2 -> nth_error t2 i = Some s2 ->
  snd (node_act (optics st p) c (received g src v3 (e_src e)) (arrivals g (e_src e)) (departures g (e_src e)) tt) = Ok t3 -> nth_error t3 i = Some s3 -> mixes a b s1 s2 s3.
Proof.
  intros a b v1 v2 v3 e c i t1 t2 t3 s1 s2 s3 He Ni H M A1 A2 B1 B2 C1' C2.
  pose proof (received_mixes a b v1 v2 v3 (e_src e) (proj1 (wf_ends g W e He)) Ni H) as R.
  destruct (proj2 Fu _ _ M) as (o' & ps & Hh & _). apply has_params in Hh. cbn [node_act optics snd] in A1, B1, C1'. rewrite Hh in A1, B1, C1'. cbn [bind] in A1, B1, C1'.
  destruct (connector_linear (ccls c) ps p (arrivals g (e_src e)) (departures g (e_src e)) a b _ _ _ t1 t2 R A1 B1) as (t3' & E3 & _ & _ & Mx). cbn beta in E3. rewrite C1' in E3. injection E3 as <-.
  specialize (Mx i). rewrite (nth_error_nth _ _ [] A2), (nth_error_nth _ _ [] B2), (nth_error_nth _ _ [] C2) in Mx. exact Mx.
Qed.
Lemma node_mixes : forall a b x y z v1 o1 v2 o2 v3 o3, solves (shifted x) tt g src v1 o1 -> solves (shifted y) tt g src v2 o2 -> solves (shifted z) tt g src v3 o3 ->
  forall e, In e (g_edges g) -> ~ no_input g (e_src e) -> (forall e', In e' (g_edges g) -> e_dst e' = e_src e -> mixes a b (v1 e') (v2 e') (v3 e')) ->
  exists s1 s2 s3, mixes a b s1 s2 s3 /\ length s1 = n_samples p /\ length s2 = n_samples p /\ length s3 = n_samples p /\
    snd (edge_act (shifted x) (e_model (e_dat e)) s1 tt) = Ok (v1 e) /\ snd (edge_act (shifted y) (e_model (e_dat e)) s2 tt) = Ok (v2 e) /\ snd (edge_act (shifted z) (e_model (e_dat e)) s3 tt) = Ok (v3 e).
Proof.
  intros a b x y z v1 o1 v2 o2 v3 o3 S1 S2 S3 e He Ni H. destruct (link e He) as (c & i & M & Hi & K).
  destruct (K x v1 o1 S1) as (t1 & s1 & A1 & A2 & A3 & A4). destruct (K y v2 o2 S2) as (t2 & s2 & B1 & B2 & B3 & B4). destruct (K z v3 o3 S3) as (t3 & s3 & C1' & C2 & C3 & C4).
  exists s1, s2, s3. split; [|repeat split; assumption]. exact (node_mixes_at a b v1 v2 v3 e c i t1 t2 t3 s1 s2 s3 He Ni H M A1 A2 B1 B2 C1' C2).
Qed.
Lemma mixing : forall a b x y z v1 o1 v2 o2 v3 o3, Cadd a b = C1 -> cis z = Cadd (Cmul a (cis x)) (Cmul b (cis y)) ->
  solves (shifted x) tt g src v1 o1 -> solves (shifted y) tt g src v2 o2 -> solves (shifted z) tt g src v3 o3 ->
  forall e, In e (g_edges g) -> ~ no_output g (e_dst e) -> mixes a b (v1 e) (v2 e) (v3 e).
Proof.
  intros a b x y z v1 o1 v2 o2 v3 o3 Hab Hz S1 S2 S3. apply (edge_induction g (fun e => ~ no_output g (e_dst e) -> mixes a b (v1 e) (v2 e) (v3 e)) W A).
  intros e He IH No. destruct (input_dec (e_src e) (proj1 (wf_ends g W e He))) as [Ni|Ni].
  - rewrite (source_values x z v1 o1 v3 o3 S1 S3 e He Ni), (source_values y z v2 o2 v3 o3 S2 S3 e He Ni). apply mixes_same. exact Hab.
  - assert (IH' : forall e', In e' (g_edges g) -> e_dst e' = e_src e -> mixes a b (v1 e') (v2 e') (v3 e')).
    { intros e' H1 H2. apply IH; [exact H1|exact H2|]. rewrite H2. intros [_ Q]. exact (Q e He eq_refl). }
    destruct (edge_dec e He) as [-> |Ne].
    + destruct (link e0 He0) as (c & i & M & Hi & K).
      destruct (K x v1 o1 S1) as (t1 & s1 & A1 & A2 & A3 & A4). destruct (K y v2 o2 S2) as (t2 & s2 & B1 & B2 & B3 & B4). destruct (K z v3 o3 S3) as (t3 & s3 & C1' & C2 & C3 & C4).
      rewrite (entry_received x z v1 o1 v3 o3 S1 S3) in A1. rewrite (entry_received y z v2 o2 v3 o3 S2 S3) in B1.
      assert (t1 = t3) by congruence. assert (t2 = t3) by congruence. subst t1 t2. assert (s1 = s3) by congruence. assert (s2 = s3) by congruence. subst s1 s2.
      rewrite shifted_here in A4, B4, C4. cbn [snd] in A4, B4, C4. rewrite (phase_shifter_exact x p s3 U C3) in A4. rewrite (phase_shifter_exact y p s3 U C3) in B4. rewrite (phase_shifter_exact z p s3 U C3) in C4. injection A4 as <-. injection B4 as <-. injection C4 as <-.
      apply mixes_nth_lt; rewrite !map_length; try reflexivity. intros j _. rewrite (map_nth_d (Cmul (cis x)) s3 j C0 C0), (map_nth_d (Cmul (cis y)) s3 j C0 C0), (map_nth_d (Cmul (cis z)) s3 j C0 C0) by ring. rewrite Hz. ring.
    + destruct (node_mixes a b x y z v1 o1 v2 o2 v3 o3 S1 S2 S3 e He Ni IH') as (s1 & s2 & s3 & Mx & _ & _ & _ & E1 & E2 & E3).
      rewrite shifted_other in E1, E2, E3 by assumption. destruct (edge_values st p g n0 Fu e He) as (o' & ps & Hh & Al & G & _).
      cbn [edge_act optics snd] in E1, E2, E3. rewrite G in E1, E2, E3. cbn [bind] in E1, E2, E3.
      assert (Ncl : ccls (e_model (e_dat e)) <> OpticalAmplifier) by (intros Ec; apply Na; exists e; auto).
      destruct (component_linear _ ps p (ty_edge_inner g T e He Ni No) Ncl a b s1 s2 s3 _ _ Mx E1 E2) as (w & Ew & Mw). rewrite E3 in Ew. injection Ew as <-. exact Mw.
Qed.

(* light that reaches the places behind the phase shifter only through it *)
Definition confined : Prop := PhaseSpec.confined g e0.
Lemma behind_input : forall n, behind n -> ~ no_input g n.
Proof.
  intros n B [_ Ni]. apply path_cases in B as [<-|B]; [exact (Ni e0 He0 eq_refl)|].
  apply Operators_Properties.clos_trans_tn1 in B. inversion B; subst; match goal with H : connects g _ n |- _ => destruct H as (e' & H1 & _ & H2); exact (Ni e' H1 H2) end.
Qed.
Lemma turned : confined -> forall x y v1 o1 v2 o2, solves (shifted x) tt g src v1 o1 -> solves (shifted y) tt g src v2 o2 ->
  forall e, In e (g_edges g) -> ~ no_output g (e_dst e) -> e = e0 \/ behind (e_src e) -> mixes (cis (y - x)) C0 (v1 e) (v1 e) (v2 e).
Proof.
  intros Cf x y v1 o1 v2 o2 S1 S2. apply (edge_induction g (fun e => ~ no_output g (e_dst e) -> e = e0 \/ behind (e_src e) -> mixes (cis (y - x)) C0 (v1 e) (v1 e) (v2 e)) W A).
  intros e He IH No Be. destruct (edge_dec e He) as [-> |Ne].
  - destruct (link e0 He0) as (c & i & M & Hi & K). destruct (K x v1 o1 S1) as (t1 & s1 & A1 & A2 & A3 & A4). destruct (K y v2 o2 S2) as (t2 & s2 & B1 & B2 & B3 & B4).
    rewrite (entry_received x y v1 o1 v2 o2 S1 S2) in A1. assert (t1 = t2) by congruence. subst t1. assert (s1 = s2) by congruence. subst s1.
    rewrite shifted_here in A4, B4. cbn [snd] in A4, B4. rewrite (phase_shifter_exact x p s2 U B3) in A4. rewrite (phase_shifter_exact y p s2 U B3) in B4. injection A4 as <-. injection B4 as <-.
    apply mixes_nth_lt; rewrite !map_length; try reflexivity. intros j _. rewrite (map_nth_d (Cmul (cis x)) s2 j C0 C0), (map_nth_d (Cmul (cis y)) s2 j C0 C0) by ring.
    replace (cis y) with (Cmul (cis (y - x)) (cis x)) by (rewrite <- cis_add; f_equal; ring). ring.
  - destruct Be as [Be|Be]; [contradiction|]. assert (Ni := behind_input _ Be).
    assert (IH' : forall e', In e' (g_edges g) -> e_dst e' = e_src e -> mixes (cis (y - x)) C0 (v1 e') (v1 e') (v2 e')).
    { intros e' H1 H2. assert (No' : ~ no_output g (e_dst e')) by (rewrite H2; intros [_ Q]; exact (Q e He eq_refl)). apply IH; [exact H1|exact H2|exact No'|].
      destruct (edge_dec e' H1) as [E|E]; [left; exact E|right]. apply Cf; [exact H1|exact E|exact No'|]. rewrite H2. exact Be. }
    destruct (node_mixes _ C0 x x y v1 o1 v1 o1 v2 o2 S1 S1 S2 e He Ni IH') as (s1 & s2 & s3 & Mx & _ & _ & _ & E1 & E2 & E3).
    rewrite shifted_other in E1, E2, E3 by assumption. destruct (edge_values st p g n0 Fu e He) as (o' & ps & Hh & Al & G & _).
    cbn [edge_act optics snd] in E1, E2, E3. rewrite G in E1, E2, E3. cbn [bind] in E1, E2, E3.
    assert (Ncl : ccls (e_model (e_dat e)) <> OpticalAmplifier) by (intros Ec; apply Na; exists e; auto).
    destruct (component_linear _ ps p (ty_edge_inner g T e He Ni No) Ncl _ _ s1 s2 s3 _ _ Mx E1 E2) as (w & Ew & Mw). rewrite E3 in Ew. injection Ew as <-. exact Mw.
Qed.

(** ** What is measured *)
Variable sink : node.
Hypothesis Hs : no_output g sink.
Hypothesis Hi : ~ no_input g sink.
Hypothesis Md : forall e, In e (g_edges g) -> e_dst e = sink -> ccls (e_model (e_dat e)) = MeasurementDevice.
Lemma reading : exists e1, In e1 (g_edges g) /\ e_dst e1 = sink /\ ~ no_input g (e_src e1) /\ forall x val out, solves (shifted x) tt g src val out -> out sink = val e1.
Proof.
  assert (Nn := proj1 Hs). destruct (arriving g sink) as [|e1 l] eqn:E.
  { exfalso. apply Hi. split; [exact Nn|]. intros e He Ed. assert (X : In e (arriving g sink)) by (apply (In_arriving g sink e W); auto). rewrite E in X. contradiction. }
  assert (X : In e1 (arriving g sink)) by (rewrite E; left; reflexivity). apply (In_arriving g sink e1 W) in X as [X1 X2]. exists e1. split; [exact X1|]. split; [exact X2|]. split.
  { intros N. pose proof (ty_edge_source g T e1 X1 N) as F. rewrite (Md e1 X1 X2) in F. discriminate F. }
  intros x val out Sol. destruct (node_data_ex g sink Nn) as (d & Ed). assert (M : model_at g sink (n_model d)) by (exists d; split; [apply (node_data_iff g sink d W); exact Ed|reflexivity]).
  destruct (Sol _ _ M) as (states & E1 & E2 & _). assert (Dp : departures g sink = 0) by (apply (no_output_dep g sink Nn); exact Hs). specialize (E2 Dp).
  change (node_act (shifted x)) with (node_act (optics st p)) in E1. destruct (proj2 Fu _ _ M) as (o' & ps & Hh & _). apply has_params in Hh. cbn [node_act optics snd] in E1. rewrite Hh in E1. cbn [bind] in E1.
  rewrite (ty_sink g T sink _ Hi Hs M) in E1. cbn [connector] in E1. injection E1 as <-. rewrite (received_arriving val sink Nn Hi), E in E2. cbn [map nth_error] in E2. congruence.
Qed.


Hypothesis Sf : single_feed g.
Hypothesis Nb : ~ blocked g st.
Hypothesis Sh : contains g WaveShaper -> shapeable (n_samples p) n0.
Lemma solution : forall x old, exists val out sv, solves (shifted x) tt g src val out /\ propagate (shifted x) g src tt old = (tt, sv, Ok tt) /\ records g sv val out.
Proof.
  intros x old. destruct (proj2 (proj1 (run_exact st p g src n0 W A T Fu U Ls Hn (shifted x) (shifted_phased x) old)) (conj Sf (conj Nb Sh))) as (sv & E).
  destruct (proj1 (propagate_solution (shifted x) g src W tt old (kind_steady (shifted x) g) A) tt sv E) as (_ & val & out & Sol & Rc). exists val, out, sv. auto.
Qed.
Lemma sink_edge : forall e1 x val out s, In e1 (g_edges g) -> e_dst e1 = sink -> snd (edge_act (shifted x) (e_model (e_dat e1)) s tt) = Ok (val e1) -> out sink = val e1 -> length s = n_samples p ->
  mean_value (out sink) = (amount s / INR (n_samples p))%R.
Proof.
  intros e1 x val out s H1 H2 E Eo L. assert (Ne : e1 <> e0) by (intros ->; rewrite (Md e0 H1 H2) in Hc0; discriminate Hc0).
  rewrite (shifted_other x e1 s H1 Ne) in E. destruct (edge_values st p g n0 Fu e1 H1) as (o' & ps & Hh & Al & G & _). cbn [edge_act optics snd] in E. rewrite G in E. cbn [bind] in E.
  rewrite (Md e1 H1 H2) in E. cbn [component] in E. injection E as E. rewrite Eo, <- E. unfold mean_value, measurement_device, amount. rewrite map_map. unfold power_. rewrite !map_length, L. do 2 f_equal. rewrite map_id. reflexivity.
Qed.
Local Open Scope R_scope.
Lemma fringe_law : exists a b c, 0 <= a /\ b * b + c * c <= a * a /\ forall x val out, solves (shifted x) tt g src val out -> mean_value (out sink) = a + b * cos x + c * sin x.
Proof.
  destruct reading as (e1 & H1 & H2 & Ni & Rd). destruct (solution 0 []) as (v1 & o1 & sv1 & S1 & _). destruct (solution PI []) as (v2 & o2 & sv2 & S2 & _).
  assert (Ne : e1 <> e0) by (intros ->; rewrite (Md e0 H1 H2) in Hc0; discriminate Hc0).
  assert (No : forall e', In e' (g_edges g) -> e_dst e' = e_src e1 -> ~ no_output g (e_dst e')) by (intros e' Q1 Q2; rewrite Q2; intros [_ Q]; exact (Q e1 H1 eq_refl)).
  destruct (link e1 H1) as (c & i & M & Hj & K). destruct (K 0 v1 o1 S1) as (t1 & s1 & A1 & A2 & A3 & A4). destruct (K PI v2 o2 S2) as (t2 & s2 & B1 & B2 & B3 & B4).
  assert (L12 : length s1 = length s2) by lia. destruct (fringe_power s1 s2 L12) as (a & b & d & Pa & D & F).
  assert (Np : 0 < INR (n_samples p)) by (apply lt_0_INR; destruct U; lia).
  exists (a / INR (n_samples p)), (b / INR (n_samples p)), (d / INR (n_samples p)). split; [apply Rmult_le_pos; [exact Pa|left; apply Rinv_0_lt_compat; exact Np]|]. split.
  { replace (b / INR (n_samples p) * (b / INR (n_samples p)) + d / INR (n_samples p) * (d / INR (n_samples p))) with ((b * b + d * d) * (/ INR (n_samples p) * / INR (n_samples p))) by (unfold Rdiv; ring).
    replace (a / INR (n_samples p) * (a / INR (n_samples p))) with ((a * a) * (/ INR (n_samples p) * / INR (n_samples p))) by (unfold Rdiv; ring). apply Rmult_le_compat_r; [|exact D]. apply Rinv_0_lt_compat in Np. nra. }
  intros x val out Sol.
  destruct (K x val out Sol) as (t3 & s3 & C1' & C2 & C3 & C4).
  assert (Mx : mixes (weight 1 x) (weight (-1) x) s1 s2 s3).
  { apply (node_mixes_at _ _ v1 v2 val e1 c i t1 t2 t3 s1 s2 s3 H1 Ni); try assumption. intros e' Q1 Q2. apply (mixing _ _ 0 PI x v1 o1 v2 o2 val out (weight_sum x) (weight_cis x) S1 S2 Sol e' Q1 (No e' Q1 Q2)). }
  rewrite (sink_edge e1 x val out s3 H1 H2 C4 (Rd x val out Sol) C3), (F x s3 Mx). field. lra.
Qed.
Lemma amount_turned : forall t s1 s2 s3, mixes (cis t) C0 s1 s2 s3 -> amount s3 = amount s1.
Proof.
  intros t. induction s1 as [|u s1 IH]; intros s2 s3 (L1 & L2 & H).
  - destruct s3; [reflexivity|discriminate L1].
  - destruct s3 as [|w s3]; [discriminate L1|]. destruct s2 as [|v s2]; [discriminate L2|]. unfold amount in *. cbn [power_ map fold_right]. 
    f_equal; [|apply (IH s2 s3); split; [injection L1 as L1; exact L1|]; split; [injection L2 as L2; exact L2|]; intros i; exact (H (S i))].
    assert (E : w = Cadd (Cmul (cis t) u) (Cmul C0 v)) by exact (H O). rewrite E. replace (Cadd (Cmul (cis t) u) (Cmul C0 v)) with (Cmul (cis t) u) by ring. rewrite Cnorm2_mul, cis_norm. ring.
Qed.
Lemma flat_law : confined -> forall x y v1 o1 v2 o2, solves (shifted x) tt g src v1 o1 -> solves (shifted y) tt g src v2 o2 -> mean_value (o1 sink) = mean_value (o2 sink).
Proof.
  intros Cf x y v1 o1 v2 o2 S1 S2. destruct reading as (e1 & H1 & H2 & Ni & Rd). assert (Ne : e1 <> e0) by (intros ->; rewrite (Md e0 H1 H2) in Hc0; discriminate Hc0).
  assert (No : forall e', In e' (g_edges g) -> e_dst e' = e_src e1 -> ~ no_output g (e_dst e')) by (intros e' Q1 Q2; rewrite Q2; intros [_ Q]; exact (Q e1 H1 eq_refl)).
  destruct (classic (behind (e_src e1))) as [B|B].
  - destruct (node_mixes (cis (y - x)) C0 x x y v1 o1 v1 o1 v2 o2 S1 S1 S2 e1 H1 Ni) as (s1 & s2 & s3 & Mx & L1 & L2 & L3 & E1 & E2 & E3).
    { intros e' Q1 Q2. apply (turned Cf x y v1 o1 v2 o2 S1 S2 e' Q1 (No e' Q1 Q2)). destruct (edge_dec e' Q1) as [Q|Q]; [left; exact Q|right]. apply Cf; [exact Q1|exact Q|exact (No e' Q1 Q2)|]. rewrite Q2. exact B. }
    rewrite (sink_edge e1 x v1 o1 s1 H1 H2 E1 (Rd x v1 o1 S1) L1), (sink_edge e1 y v2 o2 s3 H1 H2 E3 (Rd y v2 o2 S2) L3), (amount_turned (y - x) s1 s2 s3 Mx). reflexivity.
  - rewrite (Rd x v1 o1 S1), (Rd y v2 o2 S2), (upstream x y v1 o1 v2 o2 S1 S2 e1 H1 Ne B). reflexivity.
Qed.
End Interferometer.
