(** The noise switch (C19) and the noise vectors (C20). *)
From Coq Require Import List Arith Bool Lia Permutation.
From Verif Require Import Base GraphModel GraphSpec ParamsModel PropagateModel PropagateSpec SimulateModel SimulateSpec GraphProofs TopoProofs PropagateProofs.
Import ListNotations.

(** ** Propagation and its surroundings, any components *)
Section Surroundings.
Context {S X : Type}.
Variable B : behaviour S X.
Variable g : graph.
Variable src : S.

(* a property kept by every component is kept by the whole run *)
Lemma send_keeps : forall (P : X -> Prop), (forall c s x, P x -> P (fst (edge_act B c s x))) ->
  forall es i states x sv, P x -> P (fst (fst (send B es i states x sv))).
Proof.
  intros P Hp. induction es as [|e es IH]; intros i states x sv H; simpl; [exact H|]. destruct (nth_error states i) as [s|]; [|exact H].
  pose proof (Hp (e_model (e_dat e)) s x H) as K. destruct (edge_act B (e_model (e_dat e)) s x) as [x' [s'|er]]; simpl in K; [apply IH; exact K|exact K].
Qed.
Lemma visit_keeps : forall (P : X -> Prop), (forall c s x, P x -> P (fst (edge_act B c s x))) -> (forall c ss i o x, P x -> P (fst (node_act B c ss i o x))) ->
  forall n x sv, P x -> P (fst (fst (visit B g src n x sv))).
Proof.
  intros P He Hn n x sv H. unfold visit. destruct (node_inputs g src sv n) as [ins|]; [|exact H]. destruct (node_data g n) as [nd|]; [|exact H].
  pose proof (Hn (n_model nd) ins (in_degree g n) (out_degree g n) x H) as K.
  destruct (node_act B (n_model nd) ins (in_degree g n) (out_degree g n) x) as [x' [states|er]]; simpl in K; [|exact K].
  destruct (get_out_degree g n =? 0); [destruct states; [exact K|]|]; apply send_keeps; assumption.
Qed.
Lemma visit_all_keeps : forall (P : X -> Prop), (forall c s x, P x -> P (fst (edge_act B c s x))) -> (forall c ss i o x, P x -> P (fst (node_act B c ss i o x))) ->
  forall r x sv, P x -> P (fst (fst (visit_all B g src r x sv))).
Proof.
  intros P He Hn. induction r as [|n r IH]; intros x sv H; simpl; [exact H|]. pose proof (visit_keeps P He Hn n x sv H) as K.
  destruct (visit B g src n x sv) as [[x' sv'] [u|er]]; simpl in K; [apply IH; exact K|exact K].
Qed.
Lemma propagate_keeps : forall (P : X -> Prop), (forall c s x, P x -> P (fst (edge_act B c s x))) -> (forall c ss i o x, P x -> P (fst (node_act B c ss i o x))) ->
  forall x old, P x -> P (fst (fst (propagate B g src x old))).
Proof. intros P He Hn x old H. unfold propagate. destruct (topological_sort g); [unfold propagate_along; apply visit_all_keeps; assumption|exact H]. Qed.

Hypothesis W : wf g.

(* steady components leave everything as it is, also when the run fails *)
Lemma send_steady : forall es i states x sv, steady B g x -> incl es (g_edges g) -> fst (fst (send B es i states x sv)) = x.
Proof.
  induction es as [|e es IH]; intros i states x sv St In1; simpl; [reflexivity|]. destruct (nth_error states i) as [s|]; [|reflexivity].
  pose proof (proj2 St e (In1 e (or_introl eq_refl)) s) as K. destruct (edge_act B (e_model (e_dat e)) s x) as [x' [s'|er]]; simpl in K; subst x'; [|reflexivity].
  apply IH; [exact St|]. intros a Ha; apply In1; right; exact Ha.
Qed.
Lemma out_edges_incl : forall n, incl (get_out_edges g n) (g_edges g).
Proof.
  intros n e He. unfold get_out_edges in He. apply filter_In in He as [He _]. unfold edges_view in He. apply in_flat_map in He as (m & _ & He).
  unfold nx_out_edges in He. apply filter_In in He. tauto.
Qed.
Lemma visit_steady : forall n x sv, steady B g x -> fst (fst (visit B g src n x sv)) = x.
Proof.
  intros n x sv St. unfold visit. destruct (node_inputs g src sv n) as [ins|]; [|reflexivity]. destruct (node_data g n) as [nd|] eqn:E; [|reflexivity].
  pose proof (proj1 St n (n_model nd) (data_model_at g W n nd E) ins (in_degree g n) (out_degree g n)) as K.
  destruct (node_act B (n_model nd) ins (in_degree g n) (out_degree g n) x) as [x' [states|er]]; simpl in K; subst x'; [|reflexivity].
  destruct (get_out_degree g n =? 0); [destruct states; [reflexivity|]|]; apply send_steady; solve [assumption|apply out_edges_incl].
Qed.
Lemma visit_all_steady : forall r x sv, steady B g x -> fst (fst (visit_all B g src r x sv)) = x.
Proof.
  induction r as [|n r IH]; intros x sv St; simpl; [reflexivity|]. pose proof (visit_steady n x sv St) as K.
  destruct (visit B g src n x sv) as [[x' sv'] [u|er]]; simpl in K; subst x'; [apply IH; exact St|reflexivity].
Qed.
Lemma propagate_steady : forall x old, steady B g x -> fst (fst (propagate B g src x old)) = x.
Proof. intros x old St. unfold propagate. destruct (topological_sort g); [unfold propagate_along; apply visit_all_steady; exact St|reflexivity]. Qed.

(* replay: once the surroundings have reached x', the same run gives the same states *)
Variable le : X -> X -> Prop.
Hypothesis le_trans : forall a b c, le a b -> le b c -> le a c.
Hypothesis le_refl : forall a, le a a.
Hypothesis edge_le : forall e s x x1 v, In e (g_edges g) -> edge_act B (e_model (e_dat e)) s x = (x1, Ok v) ->
  le x x1 /\ forall x2, le x1 x2 -> edge_act B (e_model (e_dat e)) s x2 = (x2, Ok v).
Hypothesis node_le : forall c ss i o x x1 v, node_act B c ss i o x = (x1, Ok v) ->
  le x x1 /\ forall x2, le x1 x2 -> node_act B c ss i o x2 = (x2, Ok v).

Lemma send_replay : forall es i states x sv x1 sv1, incl es (g_edges g) -> send B es i states x sv = (x1, sv1, Ok tt) ->
  le x x1 /\ forall x2, le x1 x2 -> send B es i states x2 sv = (x2, sv1, Ok tt).
Proof.
  induction es as [|e es IH]; intros i states x sv x1 sv1 In1 H; simpl in H.
  - injection H as <- <-. split; [apply le_refl|]. intros x2 _. reflexivity.
  - simpl. destruct (nth_error states i) as [s|]; [|discriminate]. destruct (edge_act B (e_model (e_dat e)) s x) as [xa [s'|er]] eqn:Ea; [|discriminate].
    destruct (edge_le e s x xa s' (In1 e (or_introl eq_refl)) Ea) as [L1 L2].
    destruct (IH _ _ _ _ _ _ (fun a Ha => In1 a (or_intror Ha)) H) as [M1 M2]. split; [exact (le_trans _ _ _ L1 M1)|].
    intros x2 H2. rewrite (L2 x2 (le_trans _ _ _ M1 H2)). apply M2; exact H2.
Qed.
Lemma visit_replay : forall n x sv x1 sv1, visit B g src n x sv = (x1, sv1, Ok tt) ->
  le x x1 /\ forall x2, le x1 x2 -> visit B g src n x2 sv = (x2, sv1, Ok tt).
Proof.
  intros n x sv x1 sv1 H. unfold visit in *. destruct (node_inputs g src sv n) as [ins|]; [|discriminate]. destruct (node_data g n) as [nd|]; [|discriminate].
  destruct (node_act B (n_model nd) ins (in_degree g n) (out_degree g n) x) as [xa [states|er]] eqn:Ea; [|discriminate].
  destruct (node_le _ _ _ _ _ _ _ Ea) as [L1 L2].
  destruct (get_out_degree g n =? 0).
  - destruct states as [|s0 rest]; [discriminate|]. destruct (send_replay _ _ _ _ _ _ _ (out_edges_incl n) H) as [M1 M2].
    split; [exact (le_trans _ _ _ L1 M1)|]. intros x2 H2. rewrite (L2 x2 (le_trans _ _ _ M1 H2)). apply M2; exact H2.
  - destruct (send_replay _ _ _ _ _ _ _ (out_edges_incl n) H) as [M1 M2].
    split; [exact (le_trans _ _ _ L1 M1)|]. intros x2 H2. rewrite (L2 x2 (le_trans _ _ _ M1 H2)). apply M2; exact H2.
Qed.
Lemma visit_all_replay : forall r x sv x1 sv1, visit_all B g src r x sv = (x1, sv1, Ok tt) ->
  le x x1 /\ forall x2, le x1 x2 -> visit_all B g src r x2 sv = (x2, sv1, Ok tt).
Proof.
  induction r as [|n r IH]; intros x sv x1 sv1 H; simpl in H.
  - injection H as <- <-. split; [apply le_refl|]. reflexivity.
  - destruct (visit B g src n x sv) as [[xa sva] [[]|er]] eqn:Ea; [|discriminate]. destruct (visit_replay n x sv xa sva Ea) as [L1 L2].
    destruct (IH _ _ _ _ H) as [M1 M2]. split; [exact (le_trans _ _ _ L1 M1)|].
    intros x2 H2. simpl. rewrite (L2 x2 (le_trans _ _ _ M1 H2)). apply M2; exact H2.
Qed.
Lemma propagate_replay : forall x old x1 sv1, propagate B g src x old = (x1, sv1, Ok tt) ->
  le x x1 /\ forall x2 old2, le x1 x2 -> propagate B g src x2 old2 = (x2, sv1, Ok tt).
Proof.
  intros x old x1 sv1 H. unfold propagate in *. destruct (topological_sort g) as [o|]; [|discriminate]. unfold propagate_along in *.
  destruct (visit_all_replay _ _ _ _ _ H) as [L1 L2]. split; [exact L1|]. intros x2 _ H2. apply L2; exact H2.
Qed.

(* every edge has had its turn *)
Variable done : edge -> X -> Prop.
Hypothesis edge_done : forall e s x x1 v, In e (g_edges g) -> edge_act B (e_model (e_dat e)) s x = (x1, Ok v) -> done e x1.
Hypothesis done_le : forall e x x1, In e (g_edges g) -> done e x -> le x x1 -> done e x1.

Lemma send_done : forall es i states x sv x1 sv1, incl es (g_edges g) -> send B es i states x sv = (x1, sv1, Ok tt) -> forall e, In e es -> done e x1.
Proof.
  induction es as [|e es IH]; intros i states x sv x1 sv1 In1 H e' He; [contradiction|]. simpl in H.
  destruct (nth_error states i) as [s|]; [|discriminate]. destruct (edge_act B (e_model (e_dat e)) s x) as [xa [s'|er]] eqn:Ea; [|discriminate].
  assert (In2 : incl es (g_edges g)) by (intros a Ha; apply In1; right; exact Ha).
  destruct He as [<-|He]; [|exact (IH _ _ _ _ _ _ In2 H e' He)].
  apply (done_le e xa); [apply In1; left; reflexivity|exact (edge_done e s x xa s' (In1 e (or_introl eq_refl)) Ea)|]. exact (proj1 (send_replay _ _ _ _ _ _ _ In2 H)).
Qed.
Lemma visit_done : forall n x sv x1 sv1, is_node g n -> visit B g src n x sv = (x1, sv1, Ok tt) -> forall e, In e (g_edges g) -> e_src e = n -> done e x1.
Proof.
  intros n x sv x1 sv1 Hn H e H1 H2. unfold visit in H. destruct (node_inputs g src sv n) as [ins|]; [|discriminate]. destruct (node_data g n) as [nd|]; [|discriminate].
  destruct (node_act B (n_model nd) ins (in_degree g n) (out_degree g n) x) as [xa [states|er]] eqn:Ea; [|discriminate].
  assert (He : In e (get_out_edges g n)) by (rewrite (out_edges_leaving g n W Hn); apply In_leaving; tauto).
  destruct (get_out_degree g n =? 0); [destruct states; [discriminate|]|]; exact (send_done _ _ _ _ _ _ _ (out_edges_incl n) H e He).
Qed.
Lemma visit_all_done : forall r x sv x1 sv1, (forall n, In n r -> is_node g n) -> visit_all B g src r x sv = (x1, sv1, Ok tt) ->
  forall e, In e (g_edges g) -> In (e_src e) r -> done e x1.
Proof.
  induction r as [|n r IH]; intros x sv x1 sv1 Hn H e H1 H2; [contradiction|]. simpl in H.
  destruct (visit B g src n x sv) as [[xa sva] [[]|er]] eqn:Ea; [|discriminate].
  destruct H2 as [H2|H2].
  - apply (done_le e xa); [exact H1| |exact (proj1 (visit_all_replay _ _ _ _ _ H))]. apply (visit_done n x sv xa sva (Hn n (or_introl eq_refl)) Ea e H1). congruence.
  - exact (IH _ _ _ _ (fun m Hm => Hn m (or_intror Hm)) H e H1 H2).
Qed.
Lemma propagate_done : forall x old x1 sv1, propagate B g src x old = (x1, sv1, Ok tt) -> forall e, In e (g_edges g) -> done e x1.
Proof.
  intros x old x1 sv1 H e He. unfold propagate in H. pose proof (topological_sort_spec g W) as T. destruct (topological_sort g) as [o|]; [|discriminate].
  destruct (valid_closed g W o T) as (_ & Mem & _). unfold propagate_along in H.
  apply (visit_all_done o x [] x1 sv1); [intros n Hn; apply Mem; exact Hn|exact H|exact He|]. apply Mem. apply (wf_ends g W e He).
Qed.
End Surroundings.

(** ** The concrete components *)
Lemma assoc_set_same : forall {A} i (d : A) l, assoc i l <> None -> assoc i (set_assoc i d l) = Some d.
Proof.
  induction l as [|[j a] l IH]; intro H; simpl in *; [contradiction|]. destruct (i =? j) eqn:E; simpl; rewrite E; [reflexivity|apply IH; exact H].
Qed.
Lemma assoc_set_other : forall {A} i j (d : A) l, j <> i -> assoc j (set_assoc i d l) = assoc j l.
Proof.
  induction l as [|[k a] l IH]; intro H; simpl; [reflexivity|]. destruct (i =? k) eqn:E; simpl.
  - apply Nat.eqb_eq in E. subst k. destruct (Nat.eqb_spec j i); [contradiction|reflexivity].
  - destruct (j =? k); [reflexivity|apply IH; exact H].
Qed.
Lemma set_assoc_id : forall {A} i (d : A) l, assoc i l = Some d -> set_assoc i d l = l.
Proof.
  induction l as [|[j a] l IH]; intro H; simpl in *; [discriminate|]. destruct (i =? j) eqn:E; [injection H as ->; reflexivity|rewrite (IH H); reflexivity].
Qed.

Section Noise.
Context {S V R : Type}.
Variable ph : physics S V R.
Variable st : store.

Lemma attach_prop : forall p m r m' r', attach ph p m r = (m', r') -> nm_prop m' = Some p /\ nm_on m' = nm_on m /\ nm_seed m' = nm_seed m.
Proof.
  intros p m r m' r' H. unfold attach in H. destruct (same_propagator p m) eqn:E.
  - injection H as <- <-. unfold same_propagator in E. destruct (nm_prop m) as [q|]; [|discriminate]. apply Nat.eqb_eq in E. subst q. tauto.
  - unfold resample in H. cbn [negb nm_prop nm_seed nm_on nm_sources] in H. destruct (draw_all ph p (nm_sources m)) as [ss r1]. injection H as <- <-. tauto.
Qed.
Lemma attach_same : forall p m r, nm_prop m = Some p -> attach ph p m r = (m, r).
Proof. intros p m r H. unfold attach, same_propagator. rewrite H, Nat.eqb_refl. reflexivity. Qed.

(* what a run on p may do to the noise models *)
Definition le (p : nat) (x x' : noise V R) : Prop :=
  n_switch x' = n_switch x /\ forall i, match assoc i (n_models x) with
    | None => assoc i (n_models x') = None
    | Some m => exists m', assoc i (n_models x') = Some m' /\ nm_on m' = nm_on m /\ (nm_prop m = Some p -> m' = m)
    end.
Lemma le_refl : forall p x, le p x x.
Proof. intros p x. split; [reflexivity|]. intro i. destruct (assoc i (n_models x)) as [m|]; [exists m; tauto|reflexivity]. Qed.
Lemma le_trans : forall p a b c, le p a b -> le p b c -> le p a c.
Proof.
  intros p a b c [A1 A2] [B1 B2]. split; [congruence|]. intro i. specialize (A2 i). specialize (B2 i). destruct (assoc i (n_models a)) as [m|].
  - destruct A2 as (m1 & E1 & F1 & G1). rewrite E1 in B2. destruct B2 as (m2 & E2 & F2 & G2). exists m2. split; [exact E2|]. split; [congruence|].
    intro Q. specialize (G1 Q). subst m1. apply G2; exact Q.
  - rewrite A2 in B2. exact B2.
Qed.

(* after a touch: the model is attached to p *)
Lemma touch_le : forall p i m m' r' x, assoc i (n_models x) = Some m -> attach ph p m (n_rng x) = (m', r') ->
  le p x (set_model i m' r' x) /\ assoc i (n_models (set_model i m' r' x)) = Some m' /\ nm_prop m' = Some p /\ nm_on m' = nm_on m.
Proof.
  intros p i m m' r' x Hi Ha. destruct (attach_prop _ _ _ _ _ Ha) as (P1 & P2 & P3).
  assert (E : assoc i (n_models (set_model i m' r' x)) = Some m') by (simpl; apply assoc_set_same; rewrite Hi; discriminate).
  split; [|tauto]. split; [reflexivity|]. intro j. destruct (Nat.eq_dec j i) as [->|Ne].
  - rewrite Hi, E. exists m'. split; [reflexivity|]. split; [exact P2|]. intro Q. rewrite (attach_same p m (n_rng x) Q) in Ha. congruence.
  - simpl. rewrite assoc_set_other by exact Ne. destruct (assoc j (n_models x)) as [mj|]; [exists mj; tauto|reflexivity].
Qed.

Lemma set_model_same : forall p i m x, assoc i (n_models x) = Some m -> nm_prop m = Some p ->
  attach ph p m (n_rng x) = (m, n_rng x) /\ set_model i m (n_rng x) x = x.
Proof.
  intros p i m x Hi Hp. split; [apply attach_same; exact Hp|]. unfold set_model. rewrite set_assoc_id by exact Hi. destruct x; reflexivity.
Qed.

Lemma with_noise_le : forall p c ps sin sout x x1 v, with_noise ph c ps p sin sout x = (x1, Ok v) ->
  le p x x1 /\ forall x2, le p x1 x2 -> with_noise ph c ps p sin sout x2 = (x2, Ok v).
Proof.
  intros p c ps sin sout x x1 v H. unfold with_noise in H. destruct (assoc (cid c) (n_models x)) as [m|] eqn:Em.
  - destruct (negb (nm_on m) || negb (n_switch x)) eqn:Eo.
    + injection H as <- <-. split; [apply le_refl|]. intros x2 [L1 L2]. specialize (L2 (cid c)). rewrite Em in L2. destruct L2 as (m2 & E2 & F2 & _).
      unfold with_noise. rewrite E2, F2, L1, Eo. reflexivity.
    + destruct (attach ph p m (n_rng x)) as [m' r'] eqn:Ea. destruct (touch_le p _ m m' r' x Em Ea) as (T1 & T2 & T3 & T4).
      destruct (drawn (nm_sources m')) eqn:Ed; [|discriminate]. injection H as <- <-. split; [exact T1|].
      intros x2 [L1 L2]. specialize (L2 (cid c)). rewrite T2 in L2. destruct L2 as (m2 & E2 & F2 & G2). specialize (G2 T3). subst m2.
      unfold with_noise. rewrite E2, T4, L1. cbn [n_switch set_model]. rewrite Eo. destruct (set_model_same p _ m' x2 E2 T3) as [-> ->]. rewrite Ed. reflexivity.
  - injection H as <- <-. split; [apply le_refl|]. intros x2 [L1 L2]. specialize (L2 (cid c)). rewrite Em in L2. unfold with_noise. rewrite L2. reflexivity.
Qed.

Lemma phase_noise_le : forall p c x x1 v, phase_noise ph c p x = (x1, Ok v) ->
  le p x x1 /\ forall x2, le p x1 x2 -> phase_noise ph c p x2 = (x2, Ok v).
Proof.
  intros p c x x1 v H. unfold phase_noise in H. destruct (assoc (cid c) (n_models x)) as [m|] eqn:Em; [|discriminate].
  destruct (negb (n_switch x)) eqn:Eo.
  - injection H as <- <-. split; [apply le_refl|]. intros x2 [L1 L2]. specialize (L2 (cid c)). rewrite Em in L2. destruct L2 as (m2 & E2 & F2 & _).
    unfold phase_noise. rewrite E2, L1, Eo. reflexivity.
  - destruct (attach ph p m (n_rng x)) as [m' r'] eqn:Ea. destruct (touch_le p _ m m' r' x Em Ea) as (T1 & T2 & T3 & T4).
    destruct (find (fun s => is_phase (so_type s)) (nm_sources m')) as [s|] eqn:Ef; [|discriminate]. destruct (so_vec s) as [u|] eqn:Ev; [|discriminate].
    injection H as <- <-. split; [exact T1|].
    intros x2 [L1 L2]. specialize (L2 (cid c)). rewrite T2 in L2. destruct L2 as (m2 & E2 & F2 & G2). specialize (G2 T3). subst m2.
    unfold phase_noise. rewrite E2, L1. cbn [n_switch set_model]. rewrite Eo. destruct (set_model_same p _ m' x2 E2 T3) as [-> ->]. rewrite Ef, Ev. reflexivity.
Qed.

Lemma edge_step_le : forall p c s x x1 v, edge_step ph st p c s x = (x1, Ok v) ->
  le p x x1 /\ forall x2, le p x1 x2 -> edge_step ph st p c s x2 = (x2, Ok v).
Proof.
  intros p c s x x1 v H. unfold edge_step in *.
  assert (Norm : forall o, match get_params st (cid c) with Err e => (x, Err e) | Ok ps => match transform ph c ps p s with Err e => (x, Err e) | Ok s' => with_noise ph c ps p s s' x end end = (x1, Ok o) ->
    le p x x1 /\ forall x2, le p x1 x2 -> match get_params st (cid c) with Err e => (x2, Err e) | Ok ps => match transform ph c ps p s with Err e => (x2, Err e) | Ok s' => with_noise ph c ps p s s' x2 end end = (x2, Ok o)).
  { intros o K. destruct (get_params st (cid c)) as [ps|]; [|discriminate]. destruct (transform ph c ps p s) as [s'|]; [|discriminate]. exact (with_noise_le _ _ _ _ _ _ _ _ K). }
  destruct (ccls c); try (exact (Norm v H)); try discriminate; try (exact (with_noise_le _ _ _ _ _ _ _ _ H)).
  destruct (get_params st (cid c)) as [ps|]; [|discriminate]. destruct (phase_noise ph c p x) as [xa [u|er]] eqn:Ep; [|discriminate].
  destruct (phase_noise_le _ _ _ _ _ Ep) as [L1 L2]. destruct (with_noise_le _ _ _ _ _ _ _ _ H) as [M1 M2].
  split; [exact (le_trans p _ _ _ L1 M1)|]. intros x2 H2. rewrite (L2 x2 (le_trans p _ _ _ M1 H2)). apply M2; exact H2.
Qed.

Lemma node_step_same : forall c ss i o x, node_step ph st c ss i o x = (x, snd (node_step ph st c ss i o x)).
Proof.
  intros c ss i o x. unfold node_step. destruct (ccls c); try reflexivity; destruct (get_params st (cid c)); try reflexivity.
  destruct (broadcast _ o); [|reflexivity]. destruct (length ss =? i); reflexivity.
Qed.
Lemma node_step_result : forall c ss i o x y, snd (node_step ph st c ss i o x) = snd (node_step ph st c ss i o y).
Proof.
  intros c ss i o x y. unfold node_step. destruct (ccls c); try reflexivity; destruct (get_params st (cid c)); try reflexivity.
  destruct (broadcast _ o); [|reflexivity]. destruct (length ss =? i); reflexivity.
Qed.
Lemma node_step_le : forall p c ss i o x x1 v, node_step ph st c ss i o x = (x1, Ok v) ->
  le p x x1 /\ forall x2, le p x1 x2 -> node_step ph st c ss i o x2 = (x2, Ok v).
Proof.
  intros p c ss i o x x1 v H. rewrite node_step_same in H. injection H as <- H. split; [apply le_refl|]. intros x2 _. rewrite node_step_same, (node_step_result c ss i o x2 x), H. reflexivity.
Qed.

(** *** settled: nothing is left to draw *)

Lemma calm_le : forall p c x x1, calm p c x -> le p x x1 -> calm p c x1.
Proof.
  intros p c x x1 Hc [_ L] m1 E1 U. specialize (L (cid c)). destruct (assoc (cid c) (n_models x)) as [m|] eqn:Em; [|congruence].
  destruct L as (m' & E' & F' & G'). assert (m' = m1) by congruence. subst m'. assert (K : nm_prop m = Some p) by (apply Hc; [exact Em|unfold uses_noise in *; rewrite <- F'; exact U]).
  rewrite (G' K). exact K.
Qed.

Lemma with_noise_fst : forall p c ps sin sout x, calm p c x \/ n_switch x = false -> fst (with_noise ph c ps p sin sout x) = x.
Proof.
  intros p c ps sin sout x H. unfold with_noise. destruct (assoc (cid c) (n_models x)) as [m|] eqn:Em; [|reflexivity].
  destruct (negb (nm_on m) || negb (n_switch x)) eqn:Eo; [reflexivity|]. apply orb_false_iff in Eo as [O1 O2]. apply negb_false_iff in O1. apply negb_false_iff in O2.
  destruct H as [H|H]; [|congruence]. destruct (set_model_same p _ m x Em (H m Em (or_introl O1))) as [-> ->]. destruct (drawn (nm_sources m)); reflexivity.
Qed.
Lemma phase_noise_fst : forall p c x, ccls c = PhaseModulator -> calm p c x \/ n_switch x = false -> fst (phase_noise ph c p x) = x.
Proof.
  intros p c x Hc H. unfold phase_noise. destruct (assoc (cid c) (n_models x)) as [m|] eqn:Em; [|reflexivity].
  destruct (negb (n_switch x)) eqn:Eo; [reflexivity|]. apply negb_false_iff in Eo.
  destruct H as [H|H]; [|congruence]. destruct (set_model_same p _ m x Em (H m Em (or_intror Hc))) as [-> ->].
  destruct (find _ _) as [s|]; [|reflexivity]. destruct (so_vec s); reflexivity.
Qed.
Lemma edge_step_fst : forall p c s x, calm p c x \/ n_switch x = false -> fst (edge_step ph st p c s x) = x.
Proof.
  intros p c s x H. unfold edge_step.
  assert (Norm : fst (match get_params st (cid c) with Err e => (x, Err e) | Ok ps => match transform ph c ps p s with Err e => (x, Err e) | Ok s' => with_noise ph c ps p s s' x end end) = x).
  { destruct (get_params st (cid c)) as [ps|]; [|reflexivity]. destruct (transform ph c ps p s) as [s'|]; [|reflexivity]. apply with_noise_fst; exact H. }
  destruct (ccls c) eqn:Ec; try exact Norm; try reflexivity; try (apply with_noise_fst; exact H).
  destruct (get_params st (cid c)) as [ps|]; [|reflexivity]. pose proof (phase_noise_fst p c x Ec H) as K.
  destruct (phase_noise ph c p x) as [xa [u|er]]; simpl in K; subst xa; [|reflexivity]. apply with_noise_fst; exact H.
Qed.


Lemma settled_steady : forall p g x, settled p g x \/ n_switch x = false -> steady (parts ph st p) g x.
Proof.
  intros p g x H. split.
  - intros n c _ ss i o. simpl. rewrite node_step_same. reflexivity.
  - intros e He s. simpl. apply edge_step_fst. destruct H as [H|H]; [left; apply H; exact He|right; exact H].
Qed.

Lemma with_noise_calm : forall p c ps sin sout x x1 v, ccls c <> PhaseModulator -> n_switch x = true -> with_noise ph c ps p sin sout x = (x1, Ok v) -> calm p c x1.
Proof.
  intros p c ps sin sout x x1 v Hc Hs H m1 E1 U. unfold with_noise in H. destruct (assoc (cid c) (n_models x)) as [m|] eqn:Em; [|injection H as <- _; congruence].
  destruct (negb (nm_on m) || negb (n_switch x)) eqn:Eo.
  - injection H as <- _. rewrite Hs, orb_false_r in Eo. apply negb_true_iff in Eo. destruct U as [U|U]; [congruence|contradiction].
  - destruct (attach ph p m (n_rng x)) as [m' r'] eqn:Ea. destruct (touch_le p _ m m' r' x Em Ea) as (T1 & T2 & T3 & T4).
    destruct (drawn (nm_sources m')); [|discriminate]. injection H as <- _. congruence.
Qed.
Lemma phase_noise_calm : forall p c x x1 v, n_switch x = true -> phase_noise ph c p x = (x1, Ok v) -> forall m, assoc (cid c) (n_models x1) = Some m -> nm_prop m = Some p.
Proof.
  intros p c x x1 v Hs H m1 E1. unfold phase_noise in H. destruct (assoc (cid c) (n_models x)) as [m|] eqn:Em; [|discriminate]. rewrite Hs in H. cbn [negb] in H.
  destruct (attach ph p m (n_rng x)) as [m' r'] eqn:Ea. destruct (touch_le p _ m m' r' x Em Ea) as (T1 & T2 & T3 & T4).
  destruct (find _ _) as [s|]; [|discriminate]. destruct (so_vec s); [|discriminate]. injection H as <- _. congruence.
Qed.
Lemma edge_step_calm : forall p c s x x1 v, n_switch x = true -> edge_step ph st p c s x = (x1, Ok v) -> calm p c x1.
Proof.
  intros p c s x x1 v Hs H. unfold edge_step in H.
  assert (Norm : ccls c <> PhaseModulator -> match get_params st (cid c) with Err e => (x, Err e) | Ok ps => match transform ph c ps p s with Err e => (x, Err e) | Ok s' => with_noise ph c ps p s s' x end end = (x1, Ok v) -> calm p c x1).
  { intros Ne K. destruct (get_params st (cid c)) as [ps|]; [|discriminate]. destruct (transform ph c ps p s) as [s'|]; [|discriminate]. exact (with_noise_calm _ _ _ _ _ _ _ _ Ne Hs K). }
  destruct (ccls c) eqn:Ec; try (apply Norm; [discriminate|exact H]); try discriminate;
    try (apply (with_noise_calm p c [] s s x x1 v); [rewrite Ec; discriminate|exact Hs|exact H]).
  destruct (get_params st (cid c)) as [ps|]; [|discriminate]. destruct (phase_noise ph c p x) as [xa [u|er]] eqn:Ep; [|discriminate].
  assert (Ca : calm p c xa) by (intros m Em _; exact (phase_noise_calm p c x xa u Hs Ep m Em)).
  exact (calm_le p c xa x1 Ca (proj1 (with_noise_le _ _ _ _ _ _ _ _ H))).
Qed.

(** *** whole runs *)
Variable g : graph.
Hypothesis W : wf g.

Lemma run_switch_noise : forall p src x old, n_switch (fst (fst (propagate (parts ph st p) g src x old))) = n_switch x.
Proof.
  intros p src x old. apply (propagate_keeps (parts ph st p) g src (fun y => n_switch y = n_switch x)); [| |reflexivity].
  - intros c s y Hy. rewrite <- Hy. cbn [edge_act parts]. unfold edge_step.
    assert (A : forall ps sin sout z, n_switch (fst (with_noise ph c ps p sin sout z)) = n_switch z).
    { intros ps sin sout z. unfold with_noise. destruct (assoc (cid c) (n_models z)) as [m|]; [|reflexivity]. destruct (negb (nm_on m) || negb (n_switch z)); [reflexivity|].
      destruct (attach ph p m (n_rng z)) as [m' r']. destruct (drawn (nm_sources m')); reflexivity. }
    assert (Bp : forall z, n_switch (fst (phase_noise ph c p z)) = n_switch z).
    { intros z. unfold phase_noise. destruct (assoc (cid c) (n_models z)) as [m|]; [|reflexivity]. destruct (negb (n_switch z)); [reflexivity|].
      destruct (attach ph p m (n_rng z)) as [m' r']. destruct (find _ _) as [s0|]; [|reflexivity]. destruct (so_vec s0); reflexivity. }
    destruct (ccls c); try reflexivity; try apply A; try (destruct (get_params st (cid c)) as [ps|]; [|reflexivity]; destruct (transform ph c ps p s) as [s'|]; [apply A|reflexivity]).
    destruct (get_params st (cid c)) as [ps|]; [|reflexivity]. specialize (Bp y). destruct (phase_noise ph c p y) as [xa [u|er]]; simpl in Bp; [rewrite A; exact Bp|exact Bp].
  - intros c ss i o y Hy. simpl. rewrite node_step_same. exact Hy.
Qed.

Lemma noisy_run_settles : forall p src x old x1 sv1, n_switch x = true -> propagate (parts ph st p) g src x old = (x1, sv1, Ok tt) ->
  settled p g x1 /\ le p x x1 /\ forall x2 old2, le p x1 x2 -> propagate (parts ph st p) g src x2 old2 = (x2, sv1, Ok tt).
Proof.
  intros p src x old x1 sv1 Hs H.
  pose (lt := fun a b : noise V R => le p a b).
  assert (EL : forall e s a a1 v, In e (g_edges g) -> edge_act (parts ph st p) (e_model (e_dat e)) s a = (a1, Ok v) ->
     le p a a1 /\ forall a2, le p a1 a2 -> edge_act (parts ph st p) (e_model (e_dat e)) s a2 = (a2, Ok v)) by (intros e s a a1 v _ K; exact (edge_step_le p _ s a a1 v K)).
  assert (NL : forall c ss i o a a1 v, node_act (parts ph st p) c ss i o a = (a1, Ok v) ->
     le p a a1 /\ forall a2, le p a1 a2 -> node_act (parts ph st p) c ss i o a2 = (a2, Ok v)) by (intros c ss i o a a1 v K; exact (node_step_le p c ss i o a a1 v K)).
  destruct (propagate_replay (parts ph st p) g src (le p) (le_trans p) (le_refl p) EL NL x old x1 sv1 H) as [L1 L2].
  split; [|split; [exact L1|exact L2]].
  (* done: the switch is on and the edge is calm, or the switch is off *)
  intros e He.
  assert (D : n_switch x1 = true -> calm p (e_model (e_dat e)) x1).
  { refine (propagate_done (parts ph st p) g src W (le p) (le_trans p) (le_refl p) EL NL (fun e x => n_switch x = true -> calm p (e_model (e_dat e)) x) _ _ x old x1 sv1 H e He).
    - intros e0 s a a1 v H0 Ha Sw. apply (edge_step_calm p _ s a a1 v); [|exact Ha]. rewrite <- (proj1 (proj1 (EL e0 s a a1 v H0 Ha))). exact Sw.
    - intros e0 a b H0 Ha Lab Sw. apply (calm_le p _ a b); [apply Ha; rewrite <- (proj1 Lab); exact Sw|exact Lab]. }
  apply D. rewrite (proj1 L1). exact Hs.
Qed.
End Noise.
