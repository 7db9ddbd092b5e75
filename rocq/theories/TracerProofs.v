(** Where tracers can be: proofs. *)
From Coq Require Import ZArith List Arith Bool Lia Permutation.
From Verif Require Import Base GraphModel GraphSpec GraphProofs TopoProofs ParamsModel ParamsSpec ParamsProofs PropagateModel PropagateSpec PropagateProofs EvolveSpec EvolveProofs PhaseModel TracerModel TracerSpec.
Import ListNotations.
Local Open Scope nat_scope.

(** ** Simulations *)
Section Levels.
Variable P : nat -> Prop.
Definition ok (a : mark) : Prop := forall l, In l a -> P l.
Definition ok_saves (sv : saves mark) : Prop := forall p a, saved sv p = Some a -> ok a.
Definition ok_gain (x : list (nat * mark)) (i : nat) : Prop := forall a, assoc i x = Some a -> ok a.

Variables (N : numerics) (g : graph) (w : world).
Hypothesis W : wf g.
Hypothesis NN : makes_none N.
Hypothesis params_ok : forall i k a, used g i -> entry w i k a -> ok a.

Lemma param_marks_ok : forall c ps, used g (cid c) -> param_marks w c = Ok ps -> forall a, In a ps -> ok a.
Proof.
  intros c ps U H a Ha. unfold param_marks in H. apply bind_ok in H. destruct H as (o & Ho & H). apply bind_ok in H. destruct H as (qs & Hq & H).
  injection H as <-. apply in_map_iff in Ha. destruct Ha as (k & <- & Hk). apply in_seq in Hk. apply (params_ok (cid c) k); [exact U|].
  exists o, qs. apply get_obj_ok in Ho. apply get_list_ok in Hq. repeat split; try assumption; lia.
Qed.
Lemma used_edge : forall e, In e (g_edges g) -> used g (cid (e_model (e_dat e))).
Proof. intros e He. exists (e_model (e_dat e)), (PEdge (e_id e)). split; [exists e; repeat split; exact He|reflexivity]. Qed.
Lemma used_node : forall n nd, node_data g n = Some nd -> used g (cid (n_model nd)).
Proof. intros n nd H. exists (n_model nd), (PNode n). split; [exact (data_model_at g W n nd H)|reflexivity]. Qed.
Lemma ok_save : forall p a sv, ok a -> ok_saves sv -> ok_saves (save p a sv).
Proof.
  intros p a sv Ha Hs q b H. destruct (place_eqb q p) eqn:E.
  - apply place_eqb_eq in E. subst q. rewrite saved_same in H. injection H as <-. exact Ha.
  - rewrite saved_other in H; [exact (Hs q b H)|]. intros ->. rewrite (proj2 (place_eqb_eq p p) eq_refl) in E. discriminate.
Qed.

Notation B := (simulator N w).
Lemma send_levels : forall es i states x sv x' sv' r, incl es (g_edges g) -> (forall a, In a states -> ok a) -> ok_saves sv ->
  send B es i states x sv = (x', sv', r) ->
  ok_saves sv' /\ (forall j, ok_gain x j -> ok_gain x' j) /\
  (r = Ok tt -> forall e, In e es -> ccls (e_model (e_dat e)) = OpticalAmplifier -> ok_gain x' (cid (e_model (e_dat e)))).
Proof.
  induction es as [|e es IH]; intros i states x sv x' sv' r Hin Hs Hv H; cbn [send] in H.
  { injection H as <- <- <-. split; [exact Hv|]. split; [auto|intros _ e []]. }
  destruct (nth_error states i) as [s|] eqn:Es; [|injection H as <- <- <-; split; [exact Hv|split; [auto|discriminate]]].
  cbn [edge_act simulator] in H. destruct (param_marks w (e_model (e_dat e))) as [ps|er] eqn:Ep; [|injection H as <- <- <-; split; [exact Hv|split; [auto|discriminate]]].
  assert (Hp : forall a, In a (s :: ps) -> ok a).
  { intros a [<-|Ha]; [apply Hs; eapply nth_error_In; exact Es|]. eapply param_marks_ok; [|exact Ep|exact Ha]. apply used_edge, Hin. left; reflexivity. }
  set (x1 := if cls_eqb (ccls (e_model (e_dat e))) OpticalAmplifier then put (cid (e_model (e_dat e))) (nm_gain N (e_model (e_dat e)) ps s) x else x) in *.
  assert (G : ok (nm_gain N (e_model (e_dat e)) ps s)) by (intros l Hl; destruct (proj2 (proj2 NN) _ _ _ _ Hl) as (b & Hb & Hlb); exact (Hp b Hb l Hlb)).
  assert (K : forall j, ok_gain x j -> ok_gain x1 j).
  { intros j Hj a Ha. unfold x1 in Ha. destruct (cls_eqb _ _); [|exact (Hj a Ha)]. rewrite assoc_put in Ha.
    destruct (Nat.eqb j (cid (e_model (e_dat e)))); [injection Ha as <-; exact G|exact (Hj a Ha)]. }
  assert (K1 : ccls (e_model (e_dat e)) = OpticalAmplifier -> ok_gain x1 (cid (e_model (e_dat e)))).
  { intros Hc a Ha. unfold x1 in Ha. rewrite Hc in Ha. unfold cls_eqb in Ha. destruct (cls_eq_dec OpticalAmplifier OpticalAmplifier) as [_|n]; [|congruence].
    rewrite assoc_put, Nat.eqb_refl in Ha. injection Ha as <-. exact G. }
  destruct (nm_edge N (e_model (e_dat e)) ps s) as [s'|er] eqn:Ee; [|injection H as <- <- <-; split; [exact Hv|split; [exact K|discriminate]]].
  assert (Hs' : ok s') by (intros l Hl; destruct (proj1 (proj2 NN) _ _ _ _ _ Ee Hl) as (b & Hb & Hlb); exact (Hp b Hb l Hlb)).
  destruct (IH _ _ _ _ _ _ _ (fun a Ha => Hin a (or_intror Ha)) Hs (ok_save _ _ _ Hs' Hv) H) as (I1 & I2 & I3).
  split; [exact I1|]. split; [auto|]. intros Hr e' [<-|He'] Hc; [apply I2, K1, Hc|exact (I3 Hr e' He' Hc)].
Qed.
Lemma out_edges_incl : forall n, is_node g n -> incl (get_out_edges g n) (g_edges g).
Proof. intros n Hn e He. rewrite (out_edges_leaving g n W Hn) in He. apply In_leaving in He. tauto. Qed.
Lemma map_res_ok_in : forall {A C} (f : A -> res C) l r b, map_res f l = Ok r -> In b r -> exists a, In a l /\ f a = Ok b.
Proof.
  intros A C f. induction l as [|a l IH]; intros r b H Hb; cbn [map_res] in H; [injection H as <-; destruct Hb|].
  apply bind_ok in H. destruct H as (c & Hc & H). apply bind_ok in H. destruct H as (cs & Hcs & H). injection H as <-.
  destruct Hb as [<-|Hb]; [exists a; split; [left; reflexivity|exact Hc]|]. destruct (IH cs b Hcs Hb) as (a' & I1 & I2). exists a'. split; [right; exact I1|exact I2].
Qed.
Lemma visit_levels : forall n x sv x' sv' r, is_node g n -> ok_saves sv -> visit B g ([] : mark) n x sv = (x', sv', r) ->
  ok_saves sv' /\ (forall j, ok_gain x j -> ok_gain x' j) /\
  (r = Ok tt -> forall e, In e (g_edges g) -> e_src e = n -> ccls (e_model (e_dat e)) = OpticalAmplifier -> ok_gain x' (cid (e_model (e_dat e)))).
Proof.
  intros n x sv x' sv' r Hn Hv H. unfold visit in H.
  destruct (@node_inputs mark g [] sv n) as [ins|] eqn:Ei; [|injection H as <- <- <-; split; [exact Hv|split; [auto|discriminate]]].
  destruct (node_data g n) as [nd|] eqn:En; [|injection H as <- <- <-; split; [exact Hv|split; [auto|discriminate]]].
  cbn [node_act simulator] in H. destruct (param_marks w (n_model nd)) as [ps|er] eqn:Ep; cbn [bind] in H; [|injection H as <- <- <-; split; [exact Hv|split; [auto|discriminate]]].
  destruct (nm_node N (n_model nd) ps ins (in_degree g n) (out_degree g n)) as [states|er] eqn:Eo; [|injection H as <- <- <-; split; [exact Hv|split; [auto|discriminate]]].
  assert (Hi : forall a, In a ins -> ok a).
  { unfold node_inputs in Ei. destruct (pre g n); [injection Ei as <-; intros a [<-|[]] l []|].
    intros a Ha. destruct (map_res_ok_in _ _ _ _ Ei Ha) as (e & _ & He). apply of_option_ok in He. exact (Hv _ _ He). }
  assert (Hst : forall a, In a states -> ok a).
  { intros a Ha l Hl. destruct (proj1 NN _ _ _ _ _ _ _ _ Eo Ha Hl) as (b & Hb & Hlb). apply in_app_or in Hb. destruct Hb as [Hb|Hb]; [|exact (Hi b Hb l Hlb)].
    exact (param_marks_ok _ _ (used_node n nd En) Ep b Hb l Hlb). }
  assert (S : forall sv1, ok_saves sv1 -> send B (get_out_edges g n) 0 states x sv1 = (x', sv', r) ->
    ok_saves sv' /\ (forall j, ok_gain x j -> ok_gain x' j) /\
    (r = Ok tt -> forall e, In e (g_edges g) -> e_src e = n -> ccls (e_model (e_dat e)) = OpticalAmplifier -> ok_gain x' (cid (e_model (e_dat e))))).
  { intros sv1 Hv1 Hsend. destruct (send_levels _ _ _ _ _ _ _ _ (out_edges_incl n Hn) Hst Hv1 Hsend) as (I1 & I2 & I3).
    split; [exact I1|]. split; [exact I2|]. intros Hr e He Hsrc Hc. apply (I3 Hr e); [|exact Hc]. rewrite (out_edges_leaving g n W Hn). apply In_leaving. tauto. }
  destruct (Nat.eqb (get_out_degree g n) 0); [|exact (S _ Hv H)].
  destruct states as [|s0 rest]; [injection H as <- <- <-; split; [exact Hv|split; [auto|discriminate]]|].
  apply (S _ (ok_save (PNode n) s0 sv (Hst s0 (or_introl eq_refl)) Hv) H).
Qed.
Lemma visit_all_levels : forall ns x sv x' sv' r, (forall n, In n ns -> is_node g n) -> ok_saves sv -> visit_all B g ([] : mark) ns x sv = (x', sv', r) ->
  ok_saves sv' /\ (forall j, ok_gain x j -> ok_gain x' j) /\
  (r = Ok tt -> forall e, In e (g_edges g) -> In (e_src e) ns -> ccls (e_model (e_dat e)) = OpticalAmplifier -> ok_gain x' (cid (e_model (e_dat e)))).
Proof.
  induction ns as [|n ns IH]; intros x sv x' sv' r Hn Hv H; cbn [visit_all] in H.
  { injection H as <- <- <-. split; [exact Hv|]. split; [auto|intros _ e _ []]. }
  destruct (visit B g ([] : mark) n x sv) as [[x1 sv1] [[]|er]] eqn:Ev.
  - destruct (visit_levels _ _ _ _ _ _ (Hn n (or_introl eq_refl)) Hv Ev) as (V1 & V2 & V3).
    destruct (IH _ _ _ _ _ (fun m Hm => Hn m (or_intror Hm)) V1 H) as (I1 & I2 & I3).
    split; [exact I1|]. split; [auto|]. intros Hr e He [Hs|Hs] Hc; [apply I2; exact (V3 eq_refl e He (eq_sym Hs) Hc)|exact (I3 Hr e He Hs Hc)].
  - injection H as <- <- <-. destruct (visit_levels _ _ _ _ _ _ (Hn n (or_introl eq_refl)) Hv Ev) as (V1 & V2 & V3). split; [exact V1|]. split; [exact V2|discriminate].
Qed.
Lemma simulate_levels : forall w' r, simulate N g w = (w', r) ->
  w_store w' = w_store w /\ w_marks w' = w_marks w /\ ok_saves (w_saves w') /\
  (r = Ok tt -> forall e, In e (g_edges g) -> ccls (e_model (e_dat e)) = OpticalAmplifier -> ok_gain (w_gain w') (cid (e_model (e_dat e)))).
Proof.
  intros w' r H. unfold simulate in H. destruct (propagate B g ([] : mark) (w_gain w) (w_saves w)) as [[x sv] q] eqn:E. injection H as <- <-. cbn [w_store w_marks w_saves w_gain].
  split; [reflexivity|]. split; [reflexivity|]. unfold propagate in E. pose proof (topological_sort_spec g W) as T. destruct (topological_sort g) as [o|].
  - unfold propagate_along in E. destruct T as [T _].
    assert (Hn : forall n, In n o -> is_node g n) by (intros n Hn; apply node_ids_is_node; exact (Permutation_in _ T Hn)).
    destruct (visit_all_levels o _ _ _ _ _ Hn (fun p a Hp => ltac:(rewrite saved_nil in Hp; discriminate)) E) as (I1 & _ & I3).
    split; [exact I1|]. intros Hr e He Hc. apply (I3 Hr e He); [|exact Hc].
    apply (Permutation_in _ (Permutation_sym T)). apply node_ids_is_node. exact (proj1 (wf_ends g W e He)).
  - injection E as <- <- <-. split; [intros p a Hp; rewrite saved_nil in Hp; discriminate|discriminate].
Qed.
End Levels.

(** ** Writing parameters *)
Lemma hand_out_spec : forall xs models idx s m m', separate s -> length xs = length models -> length xs = length idx ->
  hand_out xs models idx s m = Ok m' ->
  (forall l k, m' l k = m l k \/ In (m' l k) xs) /\
  (forall l k, (forall j i o, nth_error models j = Some i -> nth_error idx j = Some k -> assoc i (s_objs s) = Some o -> o_list o <> l) -> m' l k = m l k) /\
  (forall j i k o, nth_error models j = Some i -> nth_error idx j = Some k -> assoc i (s_objs s) = Some o -> In (m' (o_list o) k) xs).
Proof.
  induction xs as [|a xs IH]; intros models idx s m m' S L1 L2 H; destruct models as [|i models]; try discriminate; destruct idx as [|k idx]; try discriminate; cbn [hand_out] in H.
  { injection H as <-. split; [auto|]. split; [auto|]. intros [|j] i k o Hj; discriminate. }
  apply bind_ok in H. destruct H as (o & Ho & H). apply bind_ok in H. destruct H as (ps & Hps & H). apply get_obj_ok in Ho.
  destruct (Nat.ltb k (length ps)); [|discriminate].
  destruct (IH models idx s _ _ S (eq_add_S _ _ L1) (eq_add_S _ _ L2) H) as (I1 & I2 & I3).
  assert (Q : forall l k', set_mark m (o_list o) k a l k' = m l k' \/ set_mark m (o_list o) k a l k' = a) by (intros l k'; unfold set_mark; destruct (_ && _); auto).
  assert (J : forall l k', m' l k' = set_mark m (o_list o) k a l k' \/ In (m' l k') (a :: xs)) by (intros l k'; destruct (I1 l k'); [left; assumption|right; right; assumption]).
  split; [|split].
  - intros l k'. destruct (J l k') as [E|E]; [|right; exact E]. rewrite E. destruct (Q l k') as [->| ->]; [left; reflexivity|right; left; reflexivity].
  - intros l k' Hn. rewrite I2.
    + unfold set_mark. destruct (Nat.eqb (o_list o) l && Nat.eqb k k') eqn:E; [|reflexivity]. apply andb_prop in E. destruct E as [E1 E2]. apply Nat.eqb_eq in E1, E2. subst k'.
      exfalso. exact (Hn 0 i o eq_refl eq_refl Ho E1).
    + intros j i' o' Hj Hk Ho'. exact (Hn (Datatypes.S j) i' o' Hj Hk Ho').
  - intros [|j] i' k' o' Hj Hk Ho'; cbn [nth_error] in Hj, Hk.
    + injection Hj as <-. injection Hk as <-. rewrite Ho in Ho'. injection Ho' as <-.
      destruct (I1 (o_list o) k) as [E|E]; [|right; exact E]. left. rewrite E. unfold set_mark. rewrite !Nat.eqb_refl. reflexivity.
    + right. exact (I3 j i' k' o' Hj Hk Ho').
Qed.

(* what stays between the calls: every object has its own list, the locks, and where the vector goes *)
Definition covers (g : graph) (models idx : list nat) (s : store) : Prop :=
  length models = length idx /\
  forall i o k, used g i -> assoc i (s_objs s) = Some o -> free o k -> exists j, nth_error models j = Some i /\ nth_error idx j = Some k.
Definition aims (models idx : list nat) (s : store) : Prop :=
  forall j i k o, nth_error models j = Some i -> nth_error idx j = Some k -> assoc i (s_objs s) = Some o -> free o k.
Record stands (g : graph) (models idx : list nat) (w : world) : Prop := {
  st_separate : separate (w_store w);
  st_covers : covers g models idx (w_store w);
  st_aims : aims models idx (w_store w);
  st_locked : plain_locked g w }.

(* the objects of both stores have the same locks; the entries have the same marks *)
Definition relisted (s s' : store) : Prop :=
  forall i o', assoc i (s_objs s') = Some o' -> exists o, assoc i (s_objs s) = Some o /\ o_lock o' = o_lock o /\ o_locks o' = o_locks o.
Definition kept (R : mark -> mark -> Prop) (w w' : world) : Prop :=
  forall i o' ps' k, has (w_store w') i o' ps' -> k < length ps' ->
    exists o ps, has (w_store w) i o ps /\ k < length ps /\ o_lock o' = o_lock o /\ o_locks o' = o_locks o /\ R (w_marks w (o_list o)  k) (w_marks w' (o_list o') k).

Lemma free_same : forall o o' k, o_lock o' = o_lock o -> o_locks o' = o_locks o -> (free o' k <-> free o k).
Proof. intros o o' k E1 E2. unfold free. rewrite E1, E2. tauto. Qed.
Lemma kept_entry : forall w w' i k a, kept eq w w' -> entry w' i k a -> entry w i k a.
Proof. intros w w' i k a K (o' & ps' & H & Hk & E). destruct (K i o' ps' k H Hk) as (o & ps & H0 & Hk0 & _ & _ & E0). exists o, ps. repeat split; try apply H0; try assumption. congruence. Qed.
Lemma kept_locked : forall g w w', kept eq w w' -> plain_locked g w -> plain_locked g w'.
Proof.
  intros g w w' K L i k a U En Nf. destruct En as (o' & ps' & H & Hk & E). destruct (K i o' ps' k H Hk) as (o & ps & H0 & Hk0 & E1 & E2 & E0).
  apply (L i k a U); [exists o, ps; repeat split; try apply H0; try assumption; congruence|].
  intros (o2 & ps2 & H2 & Hk2 & E3 & F). apply Nf. exists o', ps'. split; [exact H|]. split; [exact Hk|]. split; [exact E|].
  assert (o2 = o) by (destruct H2 as [H2 _]; destruct H0 as [H0 _]; congruence). subst o2. apply (free_same o o' k E1 E2). exact F.
Qed.
Lemma kept_stands : forall g models idx w w', kept eq w w' -> relisted (w_store w) (w_store w') -> separate (w_store w') -> stands g models idx w -> stands g models idx w'.
Proof.
  intros g models idx w w' K Rl Sp [S C A L]. split; [exact Sp| | |exact (kept_locked g w w' K L)].
  - destruct C as [C1 C2]. split; [exact C1|]. intros i o' k U Ho F. destruct (Rl i o' Ho) as (o & H0 & E1 & E2). exact (C2 i o k U H0 (proj1 (free_same o o' k E1 E2) F)).
  - intros j i k o' Hj Hk Ho. destruct (Rl i o' Ho) as (o & H0 & E1 & E2). apply (free_same o o' k E1 E2). exact (A j i k o Hj Hk H0).
Qed.

(** ** Replacing the parameters of one component *)
Lemma assoc_app_fresh : forall {A} l k (a : A) m, assoc m (l ++ [(k, a)]) = match assoc m l with Some x => Some x | None => if Nat.eqb m k then Some a else None end.
Proof. intros A. induction l as [|[n b] l IH]; intros k a m; [reflexivity|]. cbn [app assoc]. destruct (Nat.eqb m n); [reflexivity|apply IH]. Qed.
Lemma assoc_none : forall {A} k (l : list (nat * A)), ~ In k (map fst l) -> assoc k l = None.
Proof. intros A k l H. destruct (assoc k l) as [a|] eqn:E; [|reflexivity]. destruct H. eapply assoc_In_fst. exact E. Qed.
Lemma assign_spec : forall w i v a w', separate (w_store w) -> assign w i v a = Ok w' ->
  exists o, assoc i (s_objs (w_store w)) = Some o /\ w_saves w' = w_saves w /\ w_gain w' = w_gain w /\ separate (w_store w') /\ relisted (w_store w) (w_store w') /\
  (forall j o' ps', has (w_store w') j o' ps' -> j <> i -> has (w_store w) j o' ps' /\ forall k, w_marks w' (o_list o') k = w_marks w (o_list o') k) /\
  (forall o' ps', has (w_store w') i o' ps' -> o_lock o' = o_lock o /\ o_locks o' = o_locks o /\ ps' = [v] /\ w_marks w' (o_list o') 0 = a) /\
  (exists o', has (w_store w') i o' [v]).
Proof.
  intros w i v a w' [Sp1 Sp2] H. unfold assign in H. apply bind_ok in H. destruct H as (s & Hs & H). injection H as <-. cbn [w_store w_marks w_saves w_gain].
  unfold assign_parameters in Hs. unfold set_param_list in Hs. apply bind_ok in Hs. destruct Hs as (o & Ho & Hs). apply get_obj_ok in Ho. cbn [s_objs s_lists] in *. injection Hs as <-.
  cbn [s_objs s_lists]. set (s := w_store w) in *. set (f := fresh_key (s_lists s)) in *.
  assert (Fr : ~ In f (map fst (s_lists s))) by apply fresh_key_not_In.
  assert (Ao : forall j, assoc j (set_assoc i (mkObj f (o_lock o) (o_lo o) (o_hi o) (o_types o) (o_steps o) (o_locks o) (o_num o)) (s_objs s))
     = if Nat.eqb j i then Some (mkObj f (o_lock o) (o_lo o) (o_hi o) (o_types o) (o_steps o) (o_locks o) (o_num o)) else assoc j (s_objs s)).
  { intros j. rewrite assoc_set_assoc by (eapply assoc_In_fst; exact Ho). rewrite Nat.eqb_sym. reflexivity. }
  assert (Nf : forall j oj, assoc j (s_objs s) = Some oj -> o_list oj <> f) by (intros j oj Hj E; apply Fr; rewrite <- E; exact (Sp1 j oj Hj)).
  exists o. split; [exact Ho|]. split; [reflexivity|]. split; [reflexivity|]. split; [|split; [|split; [|split]]].
  - split; cbn [s_objs s_lists].
    + intros j oj Hj. rewrite Ao in Hj. rewrite map_app. apply in_or_app. destruct (Nat.eqb j i); [injection Hj as <-; right; left; reflexivity|left; exact (Sp1 j oj Hj)].
    + intros j j' oj oj' Hj Hj' E. rewrite Ao in Hj, Hj'. destruct (Nat.eqb_spec j i) as [Ej|Ej], (Nat.eqb_spec j' i) as [Ej'|Ej'].
      * congruence.
      * injection Hj as <-. cbn [o_list] in E. exfalso. exact (Nf j' oj' Hj' (eq_sym E)).
      * injection Hj' as <-. cbn [o_list] in E. exfalso. exact (Nf j oj Hj E).
      * exact (Sp2 j j' oj oj' Hj Hj' E).
  - intros j oj Hj. cbn [s_objs] in Hj. rewrite Ao in Hj. destruct (Nat.eqb_spec j i) as [Ej|Ej]; [|exists oj; auto]. injection Hj as <-. subst j. exists o. auto.
  - intros j o' ps' [H1 H2] Hj. cbn [s_objs s_lists] in *. rewrite Ao in H1. destruct (Nat.eqb_spec j i) as [Ej|Ej]; [contradiction|].
    pose proof (Nf j o' H1) as Nl. rewrite assoc_app_fresh in H2. destruct (assoc (o_list o') (s_lists s)) as [qs|] eqn:Eq.
    + injection H2 as <-. split; [split; assumption|]. intros k. unfold set_mark. destruct (Nat.eqb_spec f (o_list o')) as [E|E]; [congruence|reflexivity].
    + destruct (Nat.eqb_spec (o_list o') f) as [E|E]; [contradiction|discriminate].
  - intros o' ps' [H1 H2]. cbn [s_objs s_lists] in *. rewrite Ao, Nat.eqb_refl in H1. injection H1 as <-. cbn [o_list o_lock o_locks] in *.
    rewrite assoc_app_fresh, (assoc_none f _ Fr), Nat.eqb_refl in H2. injection H2 as <-. split; [reflexivity|]. split; [reflexivity|]. split; [reflexivity|]. unfold set_mark. rewrite !Nat.eqb_refl. reflexivity.
  - eexists. split; cbn [s_objs s_lists]; [rewrite Ao, Nat.eqb_refl; reflexivity|]. cbn [o_list]. rewrite assoc_app_fresh, (assoc_none f _ Fr), Nat.eqb_refl. reflexivity.
Qed.

(** ** Scores *)
Definition with_level (P : nat -> Prop) (L : nat) : nat -> Prop := fun l => P l \/ l = L.
Lemma ok_drop : forall P L a, ok (with_level P L) a -> ok P (drop L a).
Proof. intros P L a H l Hl. apply filter_In in Hl. destruct Hl as [Hl E]. destruct (H l Hl) as [Q|Q]; [exact Q|]. subst l. rewrite Nat.eqb_refl in E. discriminate. Qed.
Lemma ok_weaken : forall (P Q : nat -> Prop) a, (forall l, P l -> Q l) -> ok P a -> ok Q a.
Proof. intros P Q a H K l Hl. exact (H l (K l Hl)). Qed.
Lemma ok_none : forall a, ok (fun _ => False) a -> a = [].
Proof. intros [|l a] H; [reflexivity|]. destruct (H l (or_introl eq_refl)). Qed.

Section Evaluate.
Variables (N : numerics) (g : graph).
Hypothesis W : wf g.
Hypothesis NN : makes_none N.

Lemma phase_models_used : forall c l, phase_models g = c :: l -> used g (cid c).
Proof.
  intros c l H. assert (I : In c (phase_models g)) by (rewrite H; left; reflexivity). unfold phase_models in I. apply filter_In in I. destruct I as [I _].
  apply in_map_iff in I. destruct I as (e & <- & He). exact (used_edge g e He).
Qed.
Lemma sensitivity_spec : forall P sink L w w' a, separate (w_store w) -> (forall i k b, used g i -> entry w i k b -> ok P b) ->
  sensitivity N g sink L w = (w', Ok a) ->
  kept eq w w' /\ relisted (w_store w) (w_store w') /\ separate (w_store w') /\ ok P a /\ ok_saves (with_level P L) (w_saves w').
Proof.
  intros P sink L w w' a Sp Pk H. unfold sensitivity in H. destruct (phase_models g) as [|c [|c2 l]] eqn:Em; try discriminate.
  pose proof (phase_models_used c [] Em) as U.
  destruct (do o <- get_obj (w_store w) (cid c); do ps <- get_list (w_store w) (o_list o); do v <- at_ ps 0; Ok (v, w_marks w (o_list o) 0)) as [[v phase]|er] eqn:Ev; [|discriminate].
  apply bind_ok in Ev. destruct Ev as (o & Ho & Ev). apply bind_ok in Ev. destruct Ev as (ps & Hps & Ev). apply bind_ok in Ev. destruct Ev as (v' & Hv & Ev). injection Ev as -> <-.
  apply get_obj_ok in Ho. apply get_list_ok in Hps. apply at_ok in Hv.
  assert (Hl : 0 < length ps) by (apply nth_error_Some; congruence).
  assert (En : entry w (cid c) 0 (w_marks w (o_list o) 0)) by (exists o, ps; repeat split; assumption).
  set (phase := w_marks w (o_list o) 0) in *.
  destruct (assign w (cid c) v (add L phase)) as [w1|er] eqn:E1; [|discriminate].
  destruct (assign_spec _ _ _ _ _ Sp E1) as (o1 & Ho1 & _ & _ & Sp1 & Rl1 & Oth1 & Own1 & _). assert (o1 = o) by congruence. subst o1.
  destruct (simulate N g w1) as [w2 [[]|er]] eqn:E2; [|discriminate].
  assert (Pk1 : forall i k b, used g i -> entry w1 i k b -> ok (with_level P L) b).
  { intros i k b Ui (oi & pi & Hi & Hk & E). destruct (Nat.eq_dec i (cid c)) as [->|Ni].
    - destruct (Own1 oi pi Hi) as (_ & _ & -> & M). cbn [length] in Hk. replace k with 0 in E by lia. rewrite M in E. subst b. intros l [<-|Hl']; [right; reflexivity|left; exact (Pk _ _ _ U En l Hl')].
    - destruct (Oth1 i oi pi Hi Ni) as [Hw M]. rewrite M in E. intros l Hl'. left. apply (Pk i k b Ui); [exists oi, pi; repeat split; try apply Hw; assumption|exact Hl']. }
  destruct (simulate_levels (with_level P L) N g w1 W NN Pk1 w2 _ E2) as (S2 & M2 & Sv2 & _).
  destruct (measure (w_saves w2) (PNode sink)) as [state|er] eqn:E3; [|discriminate]. apply of_option_ok in E3.
  assert (Sp2 : separate (w_store w2)) by (rewrite S2; exact Sp1).
  destruct (assign w2 (cid c) v phase) as [w3|er] eqn:E4; [|discriminate]. injection H as <- <-.
  destruct (assign_spec _ _ _ _ _ Sp2 E4) as (o2 & Ho2 & Sv3 & _ & Sp3 & Rl3 & Oth3 & Own3 & _). rewrite S2 in Ho2.
  assert (Lk : o_lock o2 = o_lock o /\ o_locks o2 = o_locks o).
  { destruct (Rl1 (cid c) o2 Ho2) as (o1 & Q & Q1 & Q2). rewrite Ho in Q. injection Q as <-. tauto. }
  split; [|split; [|split; [exact Sp3|split]]].
  - intros i oi pi k Hi Hk. destruct (Nat.eq_dec i (cid c)) as [->|Ni].
    + destruct (Own3 oi pi Hi) as (Q1 & Q2 & -> & M). cbn [length] in Hk. replace k with 0 by lia. rewrite M. exists o, ps. split; [split; assumption|]. split; [exact Hl|]. split; [destruct Lk; congruence|]. split; [destruct Lk; congruence|reflexivity].
    + destruct (Oth3 i oi pi Hi Ni) as [Hw M]. rewrite S2 in Hw. destruct (Oth1 i oi pi Hw Ni) as [Hw0 M0]. exists oi, pi. split; [exact Hw0|]. split; [exact Hk|]. split; [reflexivity|]. split; [reflexivity|]. rewrite M, M2, M0. reflexivity.
  - intros i oi Hi. destruct (Rl3 i oi Hi) as (oj & Hj & Q1 & Q2). rewrite S2 in Hj. destruct (Rl1 i oj Hj) as (ok & Hk & Q3 & Q4). exists ok. split; [exact Hk|]. split; congruence.
  - apply ok_drop. exact (Sv2 _ _ E3).
  - rewrite Sv3. exact Sv2.
Qed.

Lemma kept_refl : forall (R : mark -> mark -> Prop) w, (forall a, R a a) -> kept R w w.
Proof. intros R w Rr i o ps k H Hk. exists o, ps. repeat split; try apply H; try assumption. apply Rr. Qed.
Lemma kept_marks : forall (R : mark -> mark -> Prop) w w', (forall a, R a a) -> w_store w' = w_store w -> w_marks w' = w_marks w -> kept R w w'.
Proof. intros R w w' Rr E1 E2 i o ps k H Hk. rewrite E1 in H. exists o, ps. rewrite E2. repeat split; try apply H; try assumption. apply Rr. Qed.

Section Function.
Variables (ev : evaluator) (models idx : list nat).
Hypothesis Fe : fair ev.

Lemma handed_stands : forall P w xs m, stands g models idx w -> length xs = length models -> (forall a, In a xs -> ok P a) ->
  hand_out xs models idx (w_store w) (w_marks w) = Ok m ->
  stands g models idx (mkW (w_store w) m (w_saves w) (w_gain w)) /\
  (forall i k b, used g i -> entry (mkW (w_store w) m (w_saves w) (w_gain w)) i k b -> ok P b) /\
  (forall i k b, used g i -> free_entry (mkW (w_store w) m (w_saves w) (w_gain w)) i k b -> In b xs).
Proof.
  intros P w xs m [Sp [C1 C2] A L] Len Hx H. destruct (hand_out_spec _ _ _ _ _ _ Sp Len (eq_trans Len C1) H) as (_ & I2 & I3).
  assert (Fr : forall i k b, used g i -> free_entry (mkW (w_store w) m (w_saves w) (w_gain w)) i k b -> In b xs).
  { intros i k b U (o & ps & Hh & Hk & E & F). cbn [w_store w_marks] in *. destruct (C2 i o k U (proj1 Hh) F) as (j & Hj & Hjk). rewrite <- E. exact (I3 j i k o Hj Hjk (proj1 Hh)). }
  assert (Nf : forall i k b, used g i -> entry (mkW (w_store w) m (w_saves w) (w_gain w)) i k b -> ~ free_entry (mkW (w_store w) m (w_saves w) (w_gain w)) i k b -> b = []).
  { intros i k b U (o & ps & Hh & Hk & E) Nf. cbn [w_store w_marks] in *.
    assert (NF : ~ free o k) by (intros F; apply Nf; exists o, ps; repeat split; try apply Hh; try apply F; assumption).
    assert (E2 : m (o_list o) k = w_marks w (o_list o) k).
    { apply I2. intros j i' o' Hj Hjk Ho' El. assert (i' = i) by (eapply (proj2 Sp); [exact Ho'|exact (proj1 Hh)|exact El]). subst i'.
      apply NF. pose proof (A j i k o' Hj Hjk Ho') as F. destruct Hh as [Hh _]. rewrite Hh in Ho'. injection Ho' as <-. exact F. }
    apply (L i k b U); [exists o, ps; repeat split; try apply Hh; try assumption; congruence|].
    intros (o' & ps' & Hh' & Hk' & E' & F'). destruct Hh' as [Hh' _]. destruct Hh as [Hh _]. rewrite Hh in Hh'. injection Hh' as <-. exact (NF F'). }
  split; [split; [exact Sp|split; [exact C1|exact C2]|exact A|exact Nf]|]. split; [|exact Fr].
  intros i k b U En. destruct En as (o & ps & Hh & Hk & E).
  destruct (Bool.bool_dec (o_lock o) false) as [F1|F1]; [destruct (nth_error (o_locks o) k) as [[|]|] eqn:F2|].
  2: { apply Hx. apply (Fr i k b U). exists o, ps. repeat split; try apply Hh; try assumption. }
  all: rewrite (Nf i k b U); [intros l []|exists o, ps; repeat split; try apply Hh; assumption|];
    intros (o' & ps' & Hh' & _ & _ & F' & F''); destruct Hh' as [Hh' _]; destruct Hh as [Hh _]; cbn [w_store] in *; rewrite Hh in Hh'; injection Hh' as <-; congruence.
Qed.

Lemma func_spec : forall P L w xs w' a, stands g models idx w -> length xs = length models -> (forall b, In b xs -> ok P b) ->
  func N ev g models idx L w xs = (w', Ok a) ->
  stands g models idx w' /\ (forall i k b, used g i -> entry w' i k b -> ok P b) /\ ok P a /\ ok_saves (with_level P L) (w_saves w') /\
  (reading ev -> ok_saves P (w_saves w') /\
     forall e, In e (g_edges g) -> ccls (e_model (e_dat e)) = OpticalAmplifier -> ok_gain P (w_gain w') (cid (e_model (e_dat e)))).
Proof.
  intros P L w xs w' a St Len Hx H. unfold func in H. destruct (hand_out xs models idx (w_store w) (w_marks w)) as [m|er] eqn:Eh; [|discriminate].
  destruct (handed_stands P w xs m St Len Hx Eh) as (St0 & Pk0 & _). set (w0 := mkW (w_store w) m (w_saves w) (w_gain w)) in *.
  destruct (simulate N g w0) as [w1 [[]|er]] eqn:Es; [|discriminate].
  destruct (simulate_levels P N g w0 W NN Pk0 w1 _ Es) as (S1 & M1 & Sv1 & G1).
  assert (K : kept eq w0 w1) by (apply kept_marks; auto).
  assert (St1 : stands g models idx w1).
  { apply (kept_stands g models idx w0 w1 K); [|rewrite S1; apply St0|exact St0]. intros i o Ho. rewrite S1 in Ho. exists o. auto. }
  assert (Pk1 : forall i k b, used g i -> entry w1 i k b -> ok P b) by (intros i k b U En; exact (Pk0 i k b U (kept_entry _ _ _ _ _ K En))).
  unfold evaluate in H. destruct ev as [f|sink].
  - injection H as <- Hf. split; [exact St1|]. split; [exact Pk1|]. split; [|split].
    + intros l Hl. destruct (Fe _ _ _ Hf Hl) as (p & b & Hp & Hb). exact (Sv1 p b Hp l Hb).
    + intros p b Hp. apply (ok_weaken P); [intros l Hl; left; exact Hl|exact (Sv1 p b Hp)].
    + intros _. split; [exact Sv1|]. exact (G1 eq_refl).
  - destruct (sensitivity_spec P sink L w1 w' a (st_separate _ _ _ _ St1) Pk1 H) as (K2 & Rl2 & Sp2 & Oa & Sv2).
    split; [exact (kept_stands g models idx w1 w' K2 Rl2 Sp2 St1)|]. split; [intros i k b U En; exact (Pk1 i k b U (kept_entry _ _ _ _ _ K2 En))|].
    split; [exact Oa|]. split; [exact Sv2|]. intros (f & Hf). discriminate.
Qed.
End Function.
End Evaluate.

(** ** Whatever the outcome *)
Lemma simulate_frame : forall N g w w' r, simulate N g w = (w', r) -> w_store w' = w_store w /\ w_marks w' = w_marks w.
Proof. intros N g w w' r H. unfold simulate in H. destruct (propagate _ _ _ _ _) as [[x sv] q]. injection H as <- _. split; reflexivity. Qed.
Lemma kept_trans : forall (R : mark -> mark -> Prop) w1 w2 w3, (forall a b c, R a b -> R b c -> R a c) -> kept R w1 w2 -> kept R w2 w3 -> kept R w1 w3.
Proof.
  intros R w1 w2 w3 T K1 K2 i o ps k H Hk. destruct (K2 i o ps k H Hk) as (o2 & ps2 & H2 & Hk2 & E1 & E2 & Q2). destruct (K1 i o2 ps2 k H2 Hk2) as (o1 & ps1 & H1 & Hk1 & E3 & E4 & Q1).
  exists o1, ps1. split; [exact H1|]. split; [exact Hk1|]. split; [congruence|]. split; [congruence|]. exact (T _ _ _ Q1 Q2).
Qed.
Lemma sensitivity_any : forall N g sink L w w' r, separate (w_store w) -> sensitivity N g sink L w = (w', r) -> kept (@incl nat) w w'.
Proof.
  intros N g sink L w w' r Sp H. assert (Z : kept (@incl nat) w w) by (apply kept_refl; exact (@incl_refl nat)).
  unfold sensitivity in H. destruct (phase_models g) as [|c [|c2 l]] eqn:Em; try (injection H as <- _; exact Z).
  destruct (do o <- get_obj (w_store w) (cid c); do ps <- get_list (w_store w) (o_list o); do v <- at_ ps 0; Ok (v, w_marks w (o_list o) 0)) as [[v phase]|er] eqn:Ev; [|injection H as <- _; exact Z].
  apply bind_ok in Ev. destruct Ev as (o & Ho & Ev). apply bind_ok in Ev. destruct Ev as (ps & Hps & Ev). apply bind_ok in Ev. destruct Ev as (v' & Hv & Ev). injection Ev as -> Ephase.
  apply get_obj_ok in Ho. apply get_list_ok in Hps. apply at_ok in Hv. assert (Hl : 0 < length ps) by (apply nth_error_Some; congruence).
  destruct (assign w (cid c) v (add L phase)) as [w1|er] eqn:E1; [|injection H as <- _; exact Z].
  destruct (assign_spec _ _ _ _ _ Sp E1) as (o1 & Ho1 & _ & _ & Sp1 & Rl1 & Oth1 & Own1 & _). assert (o1 = o) by congruence. subst o1.
  assert (K1 : kept (@incl nat) w w1).
  { intros i oi pi k Hi Hk. destruct (Nat.eq_dec i (cid c)) as [->|Ni].
    - destruct (Own1 oi pi Hi) as (Q1 & Q2 & -> & M). cbn [length] in Hk. replace k with 0 by lia. exists o, ps. split; [split; assumption|]. split; [exact Hl|]. split; [exact Q1|]. split; [exact Q2|].
      rewrite M, Ephase. apply incl_tl, incl_refl.
    - destruct (Oth1 i oi pi Hi Ni) as [Hw M]. exists oi, pi. rewrite M. split; [exact Hw|]. split; [exact Hk|]. split; [reflexivity|]. split; [reflexivity|]. apply incl_refl. }
  destruct (simulate N g w1) as [w2 r2] eqn:E2. destruct (simulate_frame _ _ _ _ _ E2) as [S2 M2].
  assert (K2 : kept (@incl nat) w w2) by (apply (kept_trans _ w w1 w2); [intros a b d; apply incl_tran|exact K1|apply kept_marks; [exact (@incl_refl nat)|exact S2|exact M2]]).
  destruct r2 as [[]|er]; [|injection H as <- _; exact K2].
  destruct (measure (w_saves w2) (PNode sink)) as [state|er]; [|injection H as <- _; exact K2].
  assert (Sp2 : separate (w_store w2)) by (rewrite S2; exact Sp1).
  destruct (assign w2 (cid c) v phase) as [w3|er] eqn:E4; [|injection H as <- _; exact K2]. injection H as <- _.
  destruct (assign_spec _ _ _ _ _ Sp2 E4) as (o2 & Ho2 & _ & _ & Sp3 & Rl3 & Oth3 & Own3 & _). rewrite S2 in Ho2.
  assert (Lk : o_lock o2 = o_lock o /\ o_locks o2 = o_locks o).
  { destruct (Rl1 (cid c) o2 Ho2) as (o1 & Q & Q1 & Q2). rewrite Ho in Q. injection Q as <-. tauto. }
  intros i oi pi k Hi Hk. destruct (Nat.eq_dec i (cid c)) as [->|Ni].
  - destruct (Own3 oi pi Hi) as (Q1 & Q2 & -> & M). cbn [length] in Hk. replace k with 0 by lia. rewrite M. exists o, ps. split; [split; assumption|]. split; [exact Hl|]. split; [destruct Lk; congruence|]. split; [destruct Lk; congruence|]. rewrite Ephase. apply incl_refl.
  - destruct (Oth3 i oi pi Hi Ni) as [Hw M]. rewrite S2 in Hw. destruct (Oth1 i oi pi Hw Ni) as [Hw0 M0]. exists oi, pi. split; [exact Hw0|]. split; [exact Hk|]. split; [reflexivity|]. split; [reflexivity|]. rewrite M, M2, M0. apply incl_refl.
Qed.

(** ** The vector that is read from the graph can be written *)
Lemma extract_stands : forall g w x, wf g -> separate (w_store w) -> plain_locked g w -> extract g (w_store w) = Ok x -> stands g (x_models x) (x_index x) w.
Proof.
  intros g w x W Sp L E. destruct (extract_aligned g _ x W E) as (_ & _ & L1 & L2 & _ & _ & _ & Al).
  split; [exact Sp|split|..|exact L].
  - congruence.
  - intros i o k (c & pl & Hs & <-) Ho F. destruct (extract_complete g _ x c pl o k W E Hs Ho F) as (j & H1 & H2 & _). exists j. auto.
  - intros j i k o Hj Hk Ho. assert (Hlt : j < length (x_params x)) by (rewrite <- L1; apply nth_error_Some; congruence).
    destruct (Al j Hlt) as (c & pl & k' & o' & ps & v & lo & hi & t & st & _ & [Ho' _] & F & Hm & _ & Hi & _).
    rewrite Hj in Hm. injection Hm as ->. rewrite Hk in Hi. injection Hi as ->. rewrite Ho in Ho'. injection Ho' as <-. exact F.
Qed.
Lemma extract_hands_out : forall g s x xs m, wf g -> extract g s = Ok x -> exists m', hand_out xs (x_models x) (x_index x) s m = Ok m'.
Proof.
  intros g s x xs m W E. destruct (extract_aligned g _ x W E) as (_ & _ & L1 & L2 & _ & _ & _ & Al).
  assert (T : forall j i k, nth_error (x_models x) j = Some i -> nth_error (x_index x) j = Some k -> exists o ps, has s i o ps /\ k < length ps).
  { intros j i k Hj Hk. assert (Hlt : j < length (x_params x)) by (rewrite <- L1; apply nth_error_Some; congruence).
    destruct (Al j Hlt) as (c & pl & k' & o' & ps & v & lo & hi & t & st & _ & Hh & F & Hm & _ & Hi & _ & Hv & _).
    rewrite Hj in Hm. injection Hm as ->. rewrite Hk in Hi. injection Hi as ->. exists o', ps. split; [exact Hh|]. apply nth_error_Some. congruence. }
  revert T. generalize (x_models x) as ms, (x_index x) as ks. clear E L1 L2 Al. revert m. induction xs as [|a xs IH]; intros m [|i ms] [|k ks] T; cbn [hand_out]; try (eexists; reflexivity).
  destruct (T 0 i k eq_refl eq_refl) as (o & ps & [Ho Hp] & Hk). rewrite (proj2 (get_obj_ok s i o) Ho). cbn [bind]. rewrite (proj2 (get_list_ok s (o_list o) ps) Hp). cbn [bind].
  apply Nat.ltb_lt in Hk. rewrite Hk. apply IH. intros j i' k' Hj Hk'. exact (T (S j) i' k' Hj Hk').
Qed.

Section Traced.
Variables (N : numerics) (ev : evaluator) (g : graph).
Hypothesis W : wf g.
Lemma func_any : forall L w x xs w' r q, separate (w_store w) -> extract g (w_store w) = Ok x -> plain_locked g w -> length xs = length (x_models x) ->
  (forall b, In b xs -> In q b) -> func N ev g (x_models x) (x_index x) L w xs = (w', r) ->
  forall i k a, used g i -> free_entry w' i k a -> In q a.
Proof.
  intros L w x xs w' r q Sp E Pl Len Hx H i k a U Fr. unfold func in H. destruct (extract_hands_out g _ x xs (w_marks w) W E) as (m & Em). rewrite Em in H.
  pose proof (extract_stands g w x W Sp Pl E) as St.
  destruct (handed_stands g (x_models x) (x_index x) (fun _ => True) w xs m St Len (fun _ _ _ _ => I) Em) as (St0 & _ & Fr0).
  set (w0 := mkW (w_store w) m (w_saves w) (w_gain w)) in *. destruct (simulate N g w0) as [w1 r1] eqn:Es. destruct (simulate_frame _ _ _ _ _ Es) as [S1 M1].
  assert (K : kept (@incl nat) w0 w').
  { assert (K1 : kept (@incl nat) w0 w1) by (apply kept_marks; [exact (@incl_refl nat)|exact S1|exact M1]).
    destruct r1 as [[]|er]; [|injection H as <- _; exact K1]. unfold evaluate in H. destruct ev as [f|sink]; [injection H as <- _; exact K1|].
    apply (kept_trans _ w0 w1 w'); [intros b c d; apply incl_tran|exact K1|]. apply (sensitivity_any N g sink L w1 w' r); [rewrite S1; exact Sp|exact H]. }
  destruct Fr as (o' & ps' & H' & Hk' & E' & F'). destruct (K i o' ps' k H' Hk') as (o & ps & H0 & Hk0 & E1 & E2 & Inc).
  rewrite <- E'. apply Inc. apply Hx. apply (Fr0 i k _ U). exists o, ps. split; [exact H0|]. split; [exact Hk0|]. split; [reflexivity|]. apply (free_same o o' k E1 E2). exact F'.
Qed.
End Traced.

(** ** Saving *)
Lemma save_plain : forall g w, wf g -> plain_parameters g w -> (forall i, used g i -> exists o ps, has (w_store w) i o ps) -> save_parameters g w = Ok tt.
Proof.
  intros g w W P Ex. unfold save_parameters.
  assert (E : exists ls, map_res (fun m => param_marks w (fst m)) (get_models g) = Ok ls /\ forall l a, In l ls -> In a l -> a = []).
  { assert (T : forall m, In m (get_models g) -> used g (cid (fst m))) by (intros [c pl] Hm; apply (get_models_In g c pl W) in Hm; exists c, pl; auto).
    revert T. generalize (get_models g) as ms. induction ms as [|m ms IH]; intros T; [exists []; split; [reflexivity|intros l a []]|].
    destruct (IH (fun x Hx => T x (or_intror Hx))) as (ls & Els & Hls). destruct (Ex _ (T m (or_introl eq_refl))) as (o & ps & Ho & Hp).
    cbn [map_res]. unfold param_marks at 1. rewrite (proj2 (get_obj_ok _ _ o) Ho). cbn [bind]. rewrite (proj2 (get_list_ok _ _ ps) Hp). cbn [bind]. rewrite Els. cbn [bind].
    eexists. split; [reflexivity|]. intros l a [<-|Hl] Ha; [|exact (Hls l a Hl Ha)]. apply in_map_iff in Ha. destruct Ha as (k & Hka & Hk). apply in_seq in Hk.
    apply (P (cid (fst m)) k a (T m (or_introl eq_refl))). exists o, ps. repeat split; try assumption; lia. }
  destruct E as (ls & -> & Hls). cbn [bind]. replace (forallb _ ls) with true; [reflexivity|]. symmetry. apply forallb_forall. intros l Hl. apply forallb_forall. intros a Ha. rewrite (Hls l a Hl Ha). reflexivity.
Qed.
Lemma save_traced : forall g w i k a, wf g -> used g i -> entry w i k a -> a <> [] -> (forall i, used g i -> exists o ps, has (w_store w) i o ps) -> save_parameters g w = Err TypeError.
Proof.
  intros g w i k a W (c & pl & Hs & <-) (o & ps & [Ho Hp] & Hk & Ea) Na Ex. unfold save_parameters.
  apply (get_models_In g c pl W) in Hs.
  assert (E : exists ls, map_res (fun m => param_marks w (fst m)) (get_models g) = Ok ls /\ exists l, In l ls /\ In a l).
  { assert (T : forall m, In m (get_models g) -> used g (cid (fst m))) by (intros [c' pl'] Hm; apply (get_models_In g c' pl' W) in Hm; exists c', pl'; auto).
    revert T Hs. generalize (get_models g) as ms. induction ms as [|m ms IH]; intros T Hs; [destruct Hs|].
    assert (Ok_rest : exists ls, map_res (fun m => param_marks w (fst m)) ms = Ok ls).
    { assert (T' : forall m, In m ms -> used g (cid (fst m))) by (intros x Hx; apply T; right; exact Hx). clear - T' Ex. induction ms as [|m ms IH]; [eexists; reflexivity|].
      destruct (IH (fun x Hx => T' x (or_intror Hx))) as (ls & Els). destruct (Ex _ (T' m (or_introl eq_refl))) as (o & ps & Ho & Hp).
      cbn [map_res]. unfold param_marks at 1. rewrite (proj2 (get_obj_ok _ _ o) Ho). cbn [bind]. rewrite (proj2 (get_list_ok _ _ ps) Hp). cbn [bind]. rewrite Els. eexists; reflexivity. }
    destruct Ok_rest as (ls & Els). destruct (Ex _ (T m (or_introl eq_refl))) as (o' & ps' & Ho' & Hp').
    cbn [map_res]. unfold param_marks at 1. rewrite (proj2 (get_obj_ok _ _ o') Ho'). cbn [bind]. rewrite (proj2 (get_list_ok _ _ ps') Hp'). cbn [bind]. rewrite Els. cbn [bind].
    eexists. split; [reflexivity|]. destruct Hs as [->|Hs].
    - cbn [fst] in *. rewrite Ho in Ho'. injection Ho' as <-. rewrite Hp in Hp'. injection Hp' as <-. eexists. split; [left; reflexivity|]. apply in_map_iff. exists k. split; [exact Ea|]. apply in_seq. lia.
    - destruct (IH (fun x Hx => T x (or_intror Hx)) Hs) as (ls' & Els' & l & Hl & Ha). rewrite Els in Els'. injection Els' as <-. exists l. split; [right; exact Hl|exact Ha]. }
  destruct E as (ls & -> & l & Hl & Ha). cbn [bind]. match goal with |- (if ?b then _ else _) = _ => destruct b eqn:Q end; [|reflexivity]. exfalso.
  rewrite forallb_forall in Q. specialize (Q l Hl). rewrite forallb_forall in Q. specialize (Q a Ha). destruct a; [apply Na; reflexivity|discriminate].
Qed.

(** ** No component disappears *)
Definition present (g : graph) (w : world) : Prop := forall i, used g i -> exists o ps, has (w_store w) i o ps.
Lemma assign_present : forall g w i v a w', assign w i v a = Ok w' -> present g w -> present g w'.
Proof.
  intros g w i v a w' H Pr j U. unfold assign in H. apply bind_ok in H. destruct H as (s & Hs & H). injection H as <-. cbn [w_store].
  unfold assign_parameters, set_param_list in Hs. apply bind_ok in Hs. destruct Hs as (o & Ho & Hs). apply get_obj_ok in Ho. cbn [s_objs s_lists] in *. injection Hs as <-.
  set (s := w_store w) in *. set (f := fresh_key (s_lists s)) in *. assert (Fr : ~ In f (map fst (s_lists s))) by apply fresh_key_not_In.
  destruct (Pr j U) as (oj & pj & Hj & Hl). unfold has. cbn [s_objs s_lists]. rewrite assoc_set_assoc by (eapply assoc_In_fst; exact Ho). destruct (Nat.eqb j i) eqn:E.
  - eexists; exists [v]. split; [reflexivity|]. cbn [o_list]. rewrite assoc_app_fresh, (assoc_none f _ Fr), Nat.eqb_refl. reflexivity.
  - exists oj, pj. split; [exact Hj|]. rewrite assoc_app_fresh. fold s in Hl. rewrite Hl. reflexivity.
Qed.
Lemma simulate_present : forall N g w w' r, simulate N g w = (w', r) -> present g w -> present g w'.
Proof. intros N g w w' r H Pr i U. destruct (simulate_frame _ _ _ _ _ H) as [E _]. rewrite E. exact (Pr i U). Qed.
Lemma sensitivity_present : forall N g sink L w w' r, sensitivity N g sink L w = (w', r) -> present g w -> present g w'.
Proof.
  intros N g sink L w w' r H Pr. unfold sensitivity in H. destruct (phase_models g) as [|c [|c2 l]]; try (injection H as <- _; exact Pr).
  destruct (do o <- get_obj (w_store w) (cid c); do ps <- get_list (w_store w) (o_list o); do v <- at_ ps 0; Ok (v, w_marks w (o_list o) 0)) as [[v phase]|er]; [|injection H as <- _; exact Pr].
  destruct (assign w (cid c) v (add L phase)) as [w1|er] eqn:E1; [|injection H as <- _; exact Pr]. pose proof (assign_present g _ _ _ _ _ E1 Pr) as P1.
  destruct (simulate N g w1) as [w2 r2] eqn:E2. pose proof (simulate_present _ _ _ _ _ E2 P1) as P2. destruct r2 as [[]|er]; [|injection H as <- _; exact P2].
  destruct (measure (w_saves w2) (PNode sink)) as [state|er]; [|injection H as <- _; exact P2].
  destruct (assign w2 (cid c) v phase) as [w3|er] eqn:E4; injection H as <- _; [exact (assign_present g _ _ _ _ _ E4 P2)|exact P2].
Qed.
Lemma func_present : forall N ev g models idx L w xs w' r, func N ev g models idx L w xs = (w', r) -> present g w -> present g w'.
Proof.
  intros N ev g models idx L w xs w' r H Pr. unfold func in H. destruct (hand_out xs models idx (w_store w) (w_marks w)) as [m|er]; [|injection H as <- _; exact Pr].
  destruct (simulate N g (mkW (w_store w) m (w_saves w) (w_gain w))) as [w1 r1] eqn:Es. assert (P1 : present g w1) by (apply (simulate_present _ _ _ _ _ Es); exact Pr).
  destruct r1 as [[]|er]; [|injection H as <- _; exact P1]. unfold evaluate in H. destruct ev as [f|sink]; [injection H as <- _; exact P1|]. exact (sensitivity_present _ _ _ _ _ _ _ H P1).
Qed.
Lemma readable_present : forall g w, all_readable g (w_store w) -> present g w.
Proof. intros g w H i U. destruct (H i U) as (o & ps & Hh & _). exists o, ps. exact Hh. Qed.

(** ** The derivatives *)
Definition none : nat -> Prop := fun _ => False.
Lemma plain_in : forall n (b : mark), In b (repeat [] n) -> ok none b.
Proof. intros n b H. apply repeat_spec in H. subst b. intros l []. Qed.
Section Run.
Variables (N : numerics) (g : graph) (ev : evaluator) (models idx : list nat).
Hypothesis W : wf g.
Hypothesis NN : makes_none N.
Hypothesis Fe : fair ev.
Let zs : list mark := repeat [] (length models).
Lemma gradient_stands : forall w w' a, stands g models idx w -> gradient N ev g models idx 0 w zs = (w', Ok a) -> stands g models idx w' /\ a = [].
Proof.
  intros w w' a St H. unfold gradient in H. destruct (func N ev g models idx 1 w (map (add 0) zs)) as [w1 r] eqn:E. injection H as <- H. apply bind_ok in H. destruct H as (b & -> & H). injection H as <-.
  assert (Len : length (map (add 0) zs) = length models) by (rewrite map_length; apply repeat_length).
  destruct (func_spec N g W NN ev models idx Fe (with_level none 0) 1 w _ w1 b St Len) with (2 := E) as (I1 & _ & I3 & _).
  { intros c Hc. apply in_map_iff in Hc. destruct Hc as (d & <- & Hd). apply repeat_spec in Hd. subst d. intros l [<-|[]]. right; reflexivity. }
  split; [exact I1|]. apply ok_none. exact (ok_drop _ _ _ I3).
Qed.
Lemma hessian_stands : forall w w' a, stands g models idx w -> hessian N ev g models idx 0 w zs = (w', Ok a) -> stands g models idx w' /\ a = [].
Proof.
  intros w w' a St H. unfold hessian in H. destruct (func N ev g models idx 2 w (map (fun a => add 1 (add 0 a)) zs)) as [w1 r] eqn:E. injection H as <- H. apply bind_ok in H. destruct H as (b & -> & H). injection H as <-.
  assert (Len : length (map (fun a => add 1 (add 0 a)) zs) = length models) by (rewrite map_length; apply repeat_length).
  destruct (func_spec N g W NN ev models idx Fe (with_level (with_level none 0) 1) 2 w _ w1 b St Len) with (2 := E) as (I1 & _ & I3 & _).
  { intros c Hc. apply in_map_iff in Hc. destruct Hc as (d & <- & Hd). apply repeat_spec in Hd. subst d. intros l [<-|[<-|[]]]; [right; reflexivity|left; right; reflexivity]. }
  split; [exact I1|]. apply ok_none. exact (ok_drop _ _ _ (ok_drop _ _ _ I3)).
Qed.
Lemma func_plain : forall w w' a, stands g models idx w -> func N ev g models idx 0 w zs = (w', Ok a) ->
  stands g models idx w' /\ plain_parameters g w' /\ a = [] /\ (forall p b l, saved (w_saves w') p = Some b -> In l b -> l = 0) /\ (reading ev -> plain_states w' /\ plain_gains g w').
Proof.
  intros w w' a St H. destruct (func_spec N g W NN ev models idx Fe none 0 w zs w' a St (repeat_length _ _) (plain_in _) H) as (I1 & I2 & I3 & I4 & I5).
  split; [exact I1|]. split; [intros i k b U En; apply ok_none; exact (I2 i k b U En)|]. split; [apply ok_none; exact I3|].
  split; [intros p b l Hp Hl; destruct (I4 p b Hp l Hl) as [[]|Q]; exact Q|]. intros Rd. destruct (I5 Rd) as [J1 J2].
  split; [intros p b Hp; apply ok_none; exact (J1 p b Hp)|]. intros e b He Hc Hg. apply ok_none. exact (J2 e He Hc b Hg).
Qed.
Lemma asks_stands : forall cs w w' scores, stands g models idx w -> asks N ev g models idx cs w = (w', Ok scores) -> stands g models idx w' /\ forall a, In a scores -> a = [].
Proof.
  induction cs as [|[|] cs IH]; intros w w' scores St H; cbn [asks] in H.
  - injection H as <- <-. split; [exact St|intros a []].
  - fold zs in H. destruct (func N ev g models idx 0 w zs) as [w1 [a|er]] eqn:E; [|discriminate]. destruct (func_plain w w1 a St E) as (St1 & _ & Ea & _).
    destruct (asks N ev g models idx cs w1) as [w2 q] eqn:Eq. injection H as <- H. apply bind_ok in H. destruct H as (l & -> & H). injection H as <-.
    destruct (IH w1 w2 l St1 Eq) as [I1 I2]. split; [exact I1|]. intros b [<-|Hb]; [exact Ea|exact (I2 b Hb)].
  - fold zs in H. destruct (gradient N ev g models idx 0 w zs) as [w1 [a|er]] eqn:E; [|discriminate]. destruct (gradient_stands w w1 a St E) as [St1 _]. exact (IH w1 w' scores St1 H).
Qed.
Lemma asks_last : forall cs w w' scores, stands g models idx w -> asks N ev g models idx (cs ++ [AskFunc]) w = (w', Ok scores) -> reading ev -> plain_states w' /\ plain_gains g w'.
Proof.
  induction cs as [|[|] cs IH]; intros w w' scores St H Rd; cbn [app asks] in H.
  - fold zs in H. destruct (func N ev g models idx 0 w zs) as [w1 [a|er]] eqn:E; [|discriminate]. injection H as <- _. destruct (func_plain w w1 a St E) as (_ & _ & _ & _ & I5). exact (I5 Rd).
  - fold zs in H. destruct (func N ev g models idx 0 w zs) as [w1 [a|er]] eqn:E; [|discriminate]. destruct (func_plain w w1 a St E) as (I1 & _).
    destruct (asks N ev g models idx (cs ++ [AskFunc]) w1) as [w2 q] eqn:Eq. injection H as <- H. destruct q as [l|]; [|discriminate]. exact (IH _ _ _ I1 Eq Rd).
  - fold zs in H. destruct (gradient N ev g models idx 0 w zs) as [w1 [a|er]] eqn:E; [|discriminate]. destruct (gradient_stands w w1 a St E) as [I1 _]. exact (IH _ _ _ I1 H Rd).
Qed.
Lemma optimise_stands : forall me x0 w w' xs a, stands g models idx w -> x0 = zs -> optimise N ev g models idx me x0 w = (w', Ok (xs, a)) ->
  stands g models idx w' /\ plain_parameters g w' /\ a = [] /\ xs = zs /\
  (ends_plainly me -> reading ev -> plain_states w' /\ plain_gains g w').
Proof.
  intros me x0 w w' xs a St -> H. unfold optimise in H. destruct me as [|calls again score].
  { destruct (func N ev g models idx 0 w zs) as [w1 r] eqn:E. injection H as <- H. apply bind_ok in H. destruct H as (b & -> & H). injection H as <- <-.
    destruct (func_plain w w1 b St E) as (I1 & I2 & I3 & _ & I5). tauto. }
  destruct (asks N ev g models idx calls w) as [w1 [scores|er]] eqn:E; [|discriminate]. destruct (asks_stands _ _ _ _ St E) as [St1 Sc].
  fold zs in H. destruct (hand_out zs models idx (w_store w1) (w_marks w1)) as [m|er] eqn:Eh; [|discriminate].
  destruct (handed_stands g models idx none w1 zs m St1 (repeat_length _ _) (plain_in _) Eh) as (I1 & I2 & _). destruct again.
  - destruct (func N ev g models idx 0 _ zs) as [w3 r] eqn:E3. injection H as <- H. apply bind_ok in H. destruct H as (b & -> & H). injection H as <- <-.
    destruct (func_plain _ w3 b I1 E3) as (J1 & J2 & J3 & _ & J5). tauto.
  - injection H as <- H. apply bind_ok in H. destruct H as (b & Ha & H). injection H as <- <-.
    split; [exact I1|]. split; [intros i k c U En; apply ok_none; exact (I2 i k c U En)|]. split; [apply Sc; apply at_ok in Ha; eapply nth_error_In; exact Ha|]. split; [reflexivity|].
    intros [Q|(cs & ->)] Rd; [discriminate|]. exact (asks_last cs w w1 scores St E Rd).
Qed.
End Run.

(** ** Refreshing the splitters *)
Lemma splitter_step : forall (s0 s : store) i n s', separate s -> splitter_update s i n = Ok s' ->
  separate s' /\ (forall l, In l (map fst (s_lists s)) -> In l (map fst (s_lists s')) /\ assoc l (s_lists s') = assoc l (s_lists s)) /\
  (forall j o', assoc j (s_objs s') = Some o' -> assoc j (s_objs s) = Some o' \/ ~ In (o_list o') (map fst (s_lists s))).
Proof.
  intros s0 s i n s' [S1 S2] H. unfold splitter_update in H. apply bind_ok in H. destruct H as (o & Ho & H). apply get_obj_ok in Ho. injection H as <-. cbn [s_objs s_lists].
  set (f := fresh_key (s_lists s)). assert (Fr : ~ In f (map fst (s_lists s))) by apply fresh_key_not_In.
  set (ob := mkObj f (o_lock o) (rep (Nat.pred n) (dec 0 0)) (rep (Nat.pred n) (dec 1 0)) (rep (Nat.pred n) DFloat) (rep (Nat.pred n) None) (rep (Nat.pred n) false) (Z.of_nat n - 1)%Z).
  assert (Ao : forall j, assoc j (set_assoc i ob (s_objs s)) = if Nat.eqb j i then Some ob else assoc j (s_objs s)).
  { intros j. rewrite assoc_set_assoc by (eapply assoc_In_fst; exact Ho). rewrite Nat.eqb_sym. reflexivity. }
  assert (Nf : forall j oj, assoc j (s_objs s) = Some oj -> o_list oj <> f) by (intros j oj Hj E; apply Fr; rewrite <- E; exact (S1 j oj Hj)).
  split; [|split].
  - split; cbn [s_objs s_lists].
    + intros j oj Hj. rewrite Ao in Hj. rewrite map_app. apply in_or_app. destruct (Nat.eqb j i); [injection Hj as <-; right; left; reflexivity|left; exact (S1 j oj Hj)].
    + intros j j' oj oj' Hj Hj' E. rewrite Ao in Hj, Hj'. destruct (Nat.eqb_spec j i) as [Ej|Ej], (Nat.eqb_spec j' i) as [Ej'|Ej'].
      * congruence.
      * injection Hj as <-. cbn [o_list ob] in E. exfalso. exact (Nf j' oj' Hj' (eq_sym E)).
      * injection Hj' as <-. cbn [o_list ob] in E. exfalso. exact (Nf j oj Hj E).
      * exact (S2 j j' oj oj' Hj Hj' E).
  - intros l Hl. rewrite map_app. split; [apply in_or_app; left; exact Hl|]. rewrite assoc_app_fresh. destruct (assoc l (s_lists s)) as [x|] eqn:E; [reflexivity|].
    exfalso. clear - Hl E. induction (s_lists s) as [|[m y] r IH]; [destruct Hl|]. cbn [assoc] in E. destruct (Nat.eqb_spec l m); [discriminate|]. destruct Hl as [Hl|Hl]; [cbn [fst] in Hl; congruence|exact (IH Hl E)].
  - intros j o' Hj. rewrite Ao in Hj. destruct (Nat.eqb j i); [injection Hj as <-; right; exact Fr|left; exact Hj].
Qed.
Lemma update_step : forall g s s', separate s -> update_graph g s = Ok s' ->
  separate s' /\ (forall l, In l (map fst (s_lists s)) -> In l (map fst (s_lists s')) /\ assoc l (s_lists s') = assoc l (s_lists s)) /\
  (forall j o', assoc j (s_objs s') = Some o' -> assoc j (s_objs s) = Some o' \/ ~ In (o_list o') (map fst (s_lists s))).
Proof.
  intros g s s' Sp H. unfold update_graph in H. destruct (topological_sort g) as [ord|]; [|discriminate]. revert s Sp H. generalize (g_nodes g) as ns.
  induction ns as [|p ns IH]; intros s Sp H; cbn [fold_res] in H; [injection H as <-; split; [exact Sp|split; auto]|].
  apply bind_ok in H. destruct H as (s1 & H1 & H).
  assert (T : separate s1 /\ (forall l, In l (map fst (s_lists s)) -> In l (map fst (s_lists s1)) /\ assoc l (s_lists s1) = assoc l (s_lists s)) /\
    (forall j o', assoc j (s_objs s1) = Some o' -> assoc j (s_objs s) = Some o' \/ ~ In (o_list o') (map fst (s_lists s)))).
  { unfold update_attributes in H1. destruct (family_of (ccls (n_model (snd p)))); try discriminate; try (injection H1 as <-; split; [exact Sp|split; auto]). exact (splitter_step s s _ _ s1 Sp H1). }
  destruct T as (T1 & T2 & T3). destruct (IH s1 T1 H) as (I1 & I2 & I3). split; [exact I1|]. split.
  - intros l Hl. destruct (T2 l Hl) as [Q1 Q2]. destruct (I2 l Q1) as [Q3 Q4]. split; [exact Q3|congruence].
  - intros j o' Hj. destruct (I3 j o' Hj) as [Q|Q]; [exact (T3 j o' Q)|right]. intros Hl. apply Q. exact (proj1 (T2 _ Hl)).
Qed.
Lemma mem_In : forall n l, mem n l = true <-> In n l.
Proof. intros n l. unfold mem. rewrite existsb_exists. split; [intros (x & Hx & E); apply Nat.eqb_eq in E; subst; exact Hx|intros H; exists n; split; [exact H|apply Nat.eqb_refl]]. Qed.
Lemma refresh_locked : forall g w w', separate (w_store w) -> plain_locked g w -> refresh g w = Ok w' -> separate (w_store w') /\ plain_locked g w'.
Proof.
  intros g w w' Sp L H. unfold refresh in H. apply bind_ok in H. destruct H as (s & Hs & H). injection H as <-. cbn [w_store].
  destruct (update_step g _ s Sp Hs) as (S1 & S2 & S3). split; [exact S1|]. intros i k a U (o & ps & [Ho Hp] & Hk & E) Nf. cbn [w_store w_marks] in *.
  destruct (mem (o_list o) (map fst (s_lists (w_store w)))) eqn:Em; [|symmetry; exact E]. apply mem_In in Em.
  destruct (S3 i o Ho) as [Ho'|Q]; [|contradiction]. destruct (S2 _ Em) as [_ E2]. rewrite E2 in Hp.
  apply (L i k a U); [exists o, ps; repeat split; assumption|]. intros (o2 & ps2 & [Ho2 Hp2] & Hk2 & E3 & F). rewrite Ho' in Ho2. injection Ho2 as <-. apply Nf.
  exists o, ps. cbn [w_store w_marks]. rewrite (proj2 (mem_In _ _) Em). repeat split; try assumption; try apply F. congruence.
Qed.

Lemma map_const : forall {A B} (b : B) (l : list A), map (fun _ => b) l = repeat b (length l).
Proof. intros A B b. induction l as [|a l IH]; [reflexivity|]. cbn [map length repeat]. rewrite IH. reflexivity. Qed.
Lemma map_res_length : forall {A B} (f : A -> res B) l r, map_res f l = Ok r -> length r = length l.
Proof.
  intros A B f. induction l as [|a l IH]; intros r H; cbn [map_res] in H; [injection H as <-; reflexivity|].
  apply bind_ok in H. destruct H as (b & _ & H). apply bind_ok in H. destruct H as (bs & Hb & H). injection H as <-. cbn [length]. rewrite (IH bs Hb). reflexivity.
Qed.
Lemma read_vector_plain : forall w models idx x0, length models = length idx -> read_vector w models idx = Ok x0 -> x0 = repeat [] (length models).
Proof.
  intros w models idx x0 L H. unfold read_vector in H. apply bind_ok in H. destruct H as (xs & Hx & H). injection H as <-. unfold unwrap. rewrite map_const.
  apply map_res_length in Hx. rewrite combine_length in Hx. f_equal. lia.
Qed.
Lemma complete_spec : forall N ev g me w w' score h, wf g -> makes_none N -> fair ev -> separate (w_store w) -> plain_locked g w ->
  complete N ev g me w = (w', Ok (score, h)) ->
  plain_parameters g w' /\ score = [] /\ (forall m, h = Some m -> m = []) /\ (forall p b l, saved (w_saves w') p = Some b -> In l b -> l = 0) /\ (reading ev -> plain_states w' /\ plain_gains g w').
Proof.
  intros N ev g me w w' score h W NN Fe Sp L H. unfold complete in H. destruct (refresh g w) as [w0|er] eqn:Er; [|discriminate].
  destruct (refresh_locked g w w0 Sp L Er) as [Sp0 L0]. set (w1 := clear w0) in *. assert (L1 : plain_locked g w1) by exact L0.
  destruct (extract g (w_store w1)) as [x|er] eqn:Ex; [|discriminate]. pose proof (extract_stands g w1 x W Sp0 L1 Ex) as St.
  destruct (read_vector w1 (x_models x) (x_index x)) as [x0|er] eqn:Ev; [|discriminate].
  pose proof (read_vector_plain _ _ _ _ (proj1 (st_covers _ _ _ _ St)) Ev) as E0. destruct x0 as [|a0 x0].
  - rewrite E0 in H. destruct (func N ev g (x_models x) (x_index x) 0 w1 (repeat [] (length (x_models x)))) as [w2 r] eqn:Ef. injection H as <- H. apply bind_ok in H. destruct H as (a & -> & H). injection H as <- <-.
    destruct (func_plain N g ev (x_models x) (x_index x) W NN Fe w1 w2 a St Ef) as (_ & I2 & I3 & I4 & I5). split; [exact I2|]. split; [exact I3|]. split; [discriminate|]. split; [exact I4|exact I5].
  - destruct (optimise N ev g (x_models x) (x_index x) me (a0 :: x0) w1) as [w2 [[xs sc]|er]] eqn:Eo; [|discriminate].
    destruct (optimise_stands N g ev (x_models x) (x_index x) W NN Fe me _ w1 w2 xs sc St E0 Eo) as (St2 & _ & Hsc & Hxs & _). subst xs.
    destruct (hessian N ev g (x_models x) (x_index x) 0 w2 (repeat [] (length (x_models x)))) as [w3 [hh|er]] eqn:Eh; [|discriminate].
    destruct (hessian_stands N g ev (x_models x) (x_index x) W NN Fe w2 w3 hh St2 Eh) as [St3 Hh].
    destruct (func N ev g (x_models x) (x_index x) 0 w3 (repeat [] (length (x_models x)))) as [w4 [a|er]] eqn:Ef; [|discriminate]. injection H as <- <- <-.
    destruct (func_plain N g ev (x_models x) (x_index x) W NN Fe w3 w4 a St3 Ef) as (_ & I2 & _ & I4 & I5). split; [exact I2|]. split; [exact Hsc|]. split; [intros m Hm; congruence|]. split; [exact I4|exact I5].
Qed.

(** ** Entries last *)
Definition lasts (g : graph) (w w' : world) : Prop :=
  forall i o ps k, used g i -> has (w_store w) i o ps -> k < length ps -> exists o' ps', has (w_store w') i o' ps' /\ k < length ps' /\ o_lock o' = o_lock o /\ o_locks o' = o_locks o.
Definition single (g : graph) (w : world) : Prop := forall c, In c (phase_models g) -> exists o v, has (w_store w) (cid c) o [v].
Lemma assign_has : forall w i v a w', assign w i v a = Ok w' -> forall j o ps, has (w_store w) j o ps ->
  (j <> i -> has (w_store w') j o ps) /\ (j = i -> exists o', has (w_store w') i o' [v] /\ o_lock o' = o_lock o /\ o_locks o' = o_locks o).
Proof.
  intros w i v a w' H j oj pj [Hj Hl]. unfold assign in H. apply bind_ok in H. destruct H as (s & Hs & H). injection H as <-. cbn [w_store].
  unfold assign_parameters, set_param_list in Hs. apply bind_ok in Hs. destruct Hs as (o & Ho & Hs). apply get_obj_ok in Ho. cbn [s_objs s_lists] in *. injection Hs as <-.
  set (s := w_store w) in *. set (f := fresh_key (s_lists s)) in *. assert (Fr : ~ In f (map fst (s_lists s))) by apply fresh_key_not_In.
  unfold has. cbn [s_objs s_lists]. split.
  - intros Hn. rewrite assoc_set_assoc by (eapply assoc_In_fst; exact Ho). apply Nat.eqb_neq in Hn. rewrite Hn. split; [exact Hj|]. rewrite assoc_app_fresh. fold s in Hl. rewrite Hl. reflexivity.
  - intros ->. eexists. rewrite assoc_set_assoc by (eapply assoc_In_fst; exact Ho). rewrite Nat.eqb_refl. split; [split; [reflexivity|]|].
    + cbn [o_list]. rewrite assoc_app_fresh, (assoc_none f _ Fr), Nat.eqb_refl. reflexivity.
    + assert (o = oj) by congruence. subst o. split; reflexivity.
Qed.
Lemma lasts_trans : forall g w1 w2 w3, lasts g w1 w2 -> lasts g w2 w3 -> lasts g w1 w3.
Proof.
  intros g w1 w2 w3 A B i o ps k U H Hk. destruct (A i o ps k U H Hk) as (o2 & ps2 & H2 & Hk2 & E1 & E2). destruct (B i o2 ps2 k U H2 Hk2) as (o3 & ps3 & H3 & Hk3 & E3 & E4).
  exists o3, ps3. repeat split; try apply H3; try assumption; congruence.
Qed.
Lemma assign_lasts : forall g c w v a w', phase_models g = [c] -> single g w -> assign w (cid c) v a = Ok w' -> lasts g w w' /\ single g w'.
Proof.
  intros g c w v a w' Em Si H. destruct (Si c) as (oc & vc & Hc); [rewrite Em; left; reflexivity|]. split.
  - intros i o ps k U Hh Hk. destruct (assign_has _ _ _ _ _ H i o ps Hh) as [A1 A2]. destruct (Nat.eq_dec i (cid c)) as [->|Ni].
    + destruct (A2 eq_refl) as (o' & Ho' & E1 & E2). exists o', [v]. assert (ps = [vc]).
      { destruct Hh as [B1 B2]. destruct Hc as [C1 C2]. rewrite B1 in C1. injection C1 as <-. rewrite B2 in C2. injection C2 as <-. reflexivity. }
      subst ps. repeat split; try apply Ho'; try assumption.
    + exists o, ps. split; [exact (A1 Ni)|]. split; [exact Hk|]. split; reflexivity.
  - intros c' Hc'. rewrite Em in Hc'. destruct Hc' as [<-|[]]. destruct (assign_has _ _ _ _ _ H _ _ _ Hc) as [_ A2]. destruct (A2 eq_refl) as (o' & Ho' & _). exists o', v. exact Ho'.
Qed.
Lemma same_store_lasts : forall g w w', w_store w' = w_store w -> lasts g w w'.
Proof. intros g w w' E i o ps k U H Hk. exists o, ps. rewrite E. auto. Qed.
Lemma sensitivity_lasts : forall N g sink L w w' r, single g w -> sensitivity N g sink L w = (w', r) -> lasts g w w'.
Proof.
  intros N g sink L w w' r Si H. assert (Z : lasts g w w) by (apply same_store_lasts; reflexivity). unfold sensitivity in H.
  destruct (phase_models g) as [|c [|c2 l]] eqn:Em; try (injection H as <- _; exact Z).
  destruct (do o <- get_obj (w_store w) (cid c); do ps <- get_list (w_store w) (o_list o); do v <- at_ ps 0; Ok (v, w_marks w (o_list o) 0)) as [[v phase]|er]; [|injection H as <- _; exact Z].
  destruct (assign w (cid c) v (add L phase)) as [w1|er] eqn:E1; [|injection H as <- _; exact Z]. destruct (assign_lasts g c _ _ _ _ Em Si E1) as [L1 Si1].
  destruct (simulate N g w1) as [w2 r2] eqn:E2. destruct (simulate_frame _ _ _ _ _ E2) as [S2 _].
  assert (L2 : lasts g w w2) by (apply (lasts_trans g w w1 w2 L1); apply same_store_lasts; exact S2).
  assert (Si2 : single g w2) by (intros c' Hc'; rewrite S2; exact (Si1 c' Hc')).
  destruct r2 as [[]|er]; [|injection H as <- _; exact L2]. destruct (measure (w_saves w2) (PNode sink)) as [state|er]; [|injection H as <- _; exact L2].
  destruct (assign w2 (cid c) v phase) as [w3|er] eqn:E4; injection H as <- _; [|exact L2]. apply (lasts_trans g w w2 w3 L2). exact (proj1 (assign_lasts g c _ _ _ _ Em Si2 E4)).
Qed.
Lemma func_lasts : forall N ev g models idx L w xs w' r, single g w -> func N ev g models idx L w xs = (w', r) -> lasts g w w'.
Proof.
  intros N ev g models idx L w xs w' r Si H. unfold func in H. destruct (hand_out xs models idx (w_store w) (w_marks w)) as [m|er]; [|injection H as <- _; apply same_store_lasts; reflexivity].
  destruct (simulate N g (mkW (w_store w) m (w_saves w) (w_gain w))) as [w1 r1] eqn:Es. destruct (simulate_frame _ _ _ _ _ Es) as [S1 _]. cbn [w_store] in S1.
  assert (L1 : lasts g w w1) by (apply same_store_lasts; exact S1). destruct r1 as [[]|er]; [|injection H as <- _; exact L1].
  unfold evaluate in H. destruct ev as [f|sink]; [injection H as <- _; exact L1|]. apply (lasts_trans g w w1 w' L1). apply (sensitivity_lasts N g sink L w1 w' r); [|exact H].
  intros c Hc. rewrite S1. exact (Si c Hc).
Qed.
Lemma update_present : forall g s s', update_graph g s = Ok s' -> forall i, (exists o ps, has s i o ps) -> exists o ps, has s' i o ps.
Proof.
  intros g s s' H i. unfold update_graph in H. destruct (topological_sort g) as [ord|]; [|discriminate]. revert s H. generalize (g_nodes g) as ns.
  induction ns as [|p ns IH]; intros s H Hi; cbn [fold_res] in H; [injection H as <-; exact Hi|]. apply bind_ok in H. destruct H as (s1 & H1 & H). apply (IH s1 H).
  unfold update_attributes in H1. destruct (family_of (ccls (n_model (snd p)))); try discriminate; try (injection H1 as <-; exact Hi).
  unfold splitter_update in H1. apply bind_ok in H1. destruct H1 as (o & Ho & H1). apply get_obj_ok in Ho. injection H1 as <-. destruct Hi as (oi & pi & Hi & Hl). unfold has. cbn [s_objs s_lists].
  set (f := fresh_key (s_lists s)). assert (Fr : ~ In f (map fst (s_lists s))) by apply fresh_key_not_In. rewrite assoc_set_assoc by (eapply assoc_In_fst; exact Ho).
  destruct (Nat.eqb i (cid (n_model (snd p)))).
  - eexists. eexists. split; [reflexivity|]. cbn [o_list]. rewrite assoc_app_fresh, (assoc_none f _ Fr), Nat.eqb_refl. reflexivity.
  - exists oi, pi. split; [exact Hi|]. rewrite assoc_app_fresh, Hl. reflexivity.
Qed.
Lemma asks_present : forall N ev g models idx cs w w' r, asks N ev g models idx cs w = (w', r) -> present g w -> present g w'.
Proof.
  intros N ev g models idx. induction cs as [|[|] cs IH]; intros w w' r H Pr; cbn [asks] in H.
  - injection H as <- _. exact Pr.
  - destruct (func N ev g models idx 0 w _) as [w1 [a|er]] eqn:E; pose proof (func_present _ _ _ _ _ _ _ _ _ _ E Pr) as P1; [|injection H as <- _; exact P1].
    destruct (asks N ev g models idx cs w1) as [w2 q] eqn:Eq. injection H as <- _. exact (IH _ _ _ Eq P1).
  - unfold gradient in H. destruct (func N ev g models idx 1 w _) as [w1 [a|er]] eqn:E; pose proof (func_present _ _ _ _ _ _ _ _ _ _ E Pr) as P1; cbn [bind] in H; [|injection H as <- _; exact P1].
    exact (IH _ _ _ H P1).
Qed.
Lemma optimise_present : forall N ev g models idx me x0 w w' r, optimise N ev g models idx me x0 w = (w', r) -> present g w -> present g w'.
Proof.
  intros N ev g models idx me x0 w w' r H Pr. unfold optimise in H. destruct me as [|calls again score].
  - destruct (func N ev g models idx 0 w x0) as [w1 q] eqn:E. injection H as <- _. exact (func_present _ _ _ _ _ _ _ _ _ _ E Pr).
  - destruct (asks N ev g models idx calls w) as [w1 [scores|er]] eqn:E; pose proof (asks_present _ _ _ _ _ _ _ _ _ E Pr) as P1; [|injection H as <- _; exact P1].
    destruct (hand_out _ models idx (w_store w1) (w_marks w1)) as [m|er]; [|injection H as <- _; exact P1]. destruct again; [|injection H as <- _; exact P1].
    destruct (func N ev g models idx 0 (mkW (w_store w1) m (w_saves w1) (w_gain w1)) _) as [w3 q] eqn:E3. injection H as <- _. apply (func_present _ _ _ _ _ _ _ _ _ _ E3). exact P1.
Qed.
Lemma complete_present : forall N ev g me w w' r, complete N ev g me w = (w', r) -> present g w -> present g w'.
Proof.
  intros N ev g me w w' r H Pr. unfold complete in H. destruct (refresh g w) as [w0|er] eqn:Er; [|injection H as <- _; exact Pr].
  assert (P0 : present g (clear w0)).
  { unfold refresh in Er. apply bind_ok in Er. destruct Er as (s & Hs & Er). injection Er as <-. intros i U. exact (update_present g _ s Hs i (Pr i U)). }
  set (w1 := clear w0) in *. destruct (extract g (w_store w1)) as [x|er]; [|injection H as <- _; exact P0].
  destruct (read_vector w1 (x_models x) (x_index x)) as [[|a0 x0]|er]; [..|injection H as <- _; exact P0].
  - destruct (func N ev g (x_models x) (x_index x) 0 w1 []) as [w2 q] eqn:E. injection H as <- _. exact (func_present _ _ _ _ _ _ _ _ _ _ E P0).
  - destruct (optimise N ev g (x_models x) (x_index x) me (a0 :: x0) w1) as [w2 [[xs sc]|er]] eqn:Eo; pose proof (optimise_present _ _ _ _ _ _ _ _ _ _ Eo P0) as P2; [|injection H as <- _; exact P2].
    unfold hessian in H. destruct (func N ev g (x_models x) (x_index x) 2 w2 _) as [w3 q] eqn:E3. pose proof (func_present _ _ _ _ _ _ _ _ _ _ E3 P2) as P3.
    destruct q as [q|er]; cbn [bind] in H; [|injection H as <- _; exact P3].
    destruct (func N ev g (x_models x) (x_index x) 0 w3 xs) as [w4 [q4|er]] eqn:E4; pose proof (func_present _ _ _ _ _ _ _ _ _ _ E4 P3) as P4; injection H as <- _; exact P4.
Qed.

Lemma one_phase_single : forall g w, one_phase g w -> single g w.
Proof.
  intros g w H c Hc. unfold phase_models in Hc. apply filter_In in Hc. destruct Hc as [Hc T]. apply in_map_iff in Hc. destruct Hc as (e & <- & He). apply cls_eqb_eq in T. exact (H e He T).
Qed.

(** ** After a derivative *)
Lemma traced_after : forall N ev g L w x xs w' r q, wf g -> separate (w_store w) -> plain_locked g w -> extract g (w_store w) = Ok x -> length xs = length (x_models x) ->
  (forall b, In b xs -> In q b) -> func N ev g (x_models x) (x_index x) L w xs = (w', r) ->
  traced g w' /\ (x_models x <> [] -> one_phase g w -> all_readable g (w_store w) -> save_parameters g w' = Err TypeError).
Proof.
  intros N ev g L w x xs w' r q W Sp Pl E Len Hx H. pose proof (func_any N ev g W L w x xs w' r q Sp E Pl Len Hx H) as Fa.
  split; [intros i k a U Fr ->; exact (Fa i k [] U Fr)|]. intros Ne Op Rd.
  destruct (x_models x) as [|i ms] eqn:Em; [destruct (Ne eq_refl)|]. clear Ne.
  destruct (extract_aligned g _ x W E) as (_ & _ & L1 & L2 & _ & _ & _ & Al).
  assert (E0 : nth_error (x_models x) 0 = Some i) by (rewrite Em; reflexivity).
  assert (Hlt : 0 < length (x_params x)) by (rewrite <- L1; apply nth_error_Some; congruence). destruct (Al 0 Hlt) as (c & pl & k & o & ps & v & lo & hi & t & st & Hs & Hh & Fr & Em0 & _ & _ & _ & Hv & _).
  rewrite E0 in Em0. injection Em0 as ->. assert (Hk : k < length ps) by (apply nth_error_Some; congruence).
  assert (U : used g (cid c)) by (exists c, pl; auto). rewrite <- Em in H. destruct (func_lasts _ _ _ _ _ _ _ _ _ _ (one_phase_single _ _ Op) H (cid c) o ps k U Hh Hk) as (o' & ps' & H' & Hk' & El1 & El2).
  apply (save_traced g w' (cid c) k (w_marks w' (o_list o') k) W U).
  - exists o', ps'. auto.
  - intros C. assert (Fe : free_entry w' (cid c) k []) by (exists o', ps'; split; [exact H'|]; split; [exact Hk'|]; split; [exact C|]; apply (free_same o o' k El1 El2); exact Fr).
    exact (Fa (cid c) k [] U Fe).
  - exact (func_present _ _ _ _ _ _ _ _ _ _ H (readable_present g w Rd)).
Qed.
