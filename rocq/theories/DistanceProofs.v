(** Proofs about the speciation distances. *)
From Coq Require Import List Arith Bool ZArith QArith Reals Permutation Lia Lra Psatz.
From Verif Require Import Base GraphModel GraphSpec OperatorsModel OperatorsSpec FloatModel PopulationModel SpeciationModel SpeciationSpec SpeciationProofs DistanceModel DistanceSpec.
Import ListNotations.
Local Open Scope nat_scope.


Lemma cls_eqb_spec : forall a b, reflect (a = b) (cls_eqb a b).
Proof. intros a b. unfold cls_eqb. destruct (cls_eq_dec a b); constructor; assumption. Qed.
Lemma classes_components : forall g, classes_of g = map ccls (components g).
Proof. intro g. unfold classes_of, components. rewrite map_app, !map_map. reflexivity. Qed.

Lemma index_nth : forall b c i, index_of c b = Some i -> nth_error b i = Some c.
Proof.
  induction b as [|x b IH]; intros c i H; cbn in H; [discriminate|]. destruct (cls_eqb_spec x c) as [->|]; [injection H as <-; reflexivity|].
  destruct (index_of c b) as [j|] eqn:E; [|discriminate]. injection H as <-. cbn. apply IH, E.
Qed.
Lemma index_some : forall b c, In c b -> exists i, index_of c b = Some i.
Proof. induction b as [|x b IH]; intros c H; cbn; [contradiction|]. destruct (cls_eqb_spec x c); [exists 0; reflexivity|]. destruct H as [H|H]; [contradiction|]. destruct (IH c H) as [i ->]. exists (S i). reflexivity. Qed.
Lemma index_none : forall b c, ~ In c b -> index_of c b = None.
Proof. intros b c H. destruct (index_of c b) as [i|] eqn:E; [|reflexivity]. apply index_nth, nth_error_In in E. contradiction. Qed.
Lemma bump_length : forall v i, length (bump i v) = length v.
Proof. induction v as [|x v IH]; intros [|i]; cbn; try reflexivity. rewrite IH. reflexivity. Qed.
Lemma bump_nth : forall v i j, i < length v -> nth j (bump i v) 0%Z = (nth j v 0 + if Nat.eqb i j then 1 else 0)%Z.
Proof.
  induction v as [|x v IH]; intros i j H; cbn [length] in H; [lia|]. destruct i as [|i], j as [|j]; cbn [bump nth Nat.eqb]; [reflexivity|ring|ring|]. apply IH. lia.
Qed.

Lemma count_ok : forall b, NoDup b -> forall cs v v', length v = length b -> count_classes b cs v = Ok v' ->
  length v' = length b /\ (forall c, In c cs -> In c b) /\ forall i c, nth_error b i = Some c -> nth i v' 0%Z = (nth i v 0 + Z.of_nat (count_occ cls_eq_dec cs c))%Z.
Proof.
  intros b Nb. induction cs as [|c cs IH]; intros v v' Lv H; cbn [count_classes] in H.
  - injection H as <-. split; [exact Lv|]. split; [intros c []|]. intros i c _. cbn. lia.
  - destruct (index_of c b) as [i|] eqn:E; [|discriminate]. cbn [of_option bind] in H. apply index_nth in E. apply IH in H as (A & B & C); [|rewrite bump_length; exact Lv].
    split; [exact A|]. split; [intros x [<-|I]; [exact (nth_error_In _ _ E)|apply B, I]|]. intros j x Ex. rewrite (C j x Ex). rewrite bump_nth by (rewrite Lv; apply nth_error_Some; congruence). cbn [count_occ].
    destruct (cls_eq_dec c x) as [->|Ne].
    + assert (i = j). { apply (proj1 (NoDup_nth_error b) Nb); [apply nth_error_Some; congruence|congruence]. } subst j. rewrite Nat.eqb_refl. lia.
    + destruct (Nat.eqb_spec i j) as [->|]; [congruence|lia].
Qed.
Lemma count_total : forall b cs v, (forall c, In c cs -> In c b) -> exists v', count_classes b cs v = Ok v'.
Proof.
  intros b. induction cs as [|c cs IH]; intros v H; cbn [count_classes]; [exists v; reflexivity|]. destruct (index_some b c (H c (or_introl eq_refl))) as [i ->]. cbn [of_option bind]. apply IH. intros x I. apply H. right. exact I.
Qed.
Lemma count_fails : forall b cs v c, In c cs -> ~ In c b -> count_classes b cs v = Err KeyError.
Proof.
  intros b. induction cs as [|x cs IH]; intros v c H N; [contradiction|]. cbn [count_classes]. destruct (index_of x b) as [i|] eqn:E; [|reflexivity]. cbn [of_option bind].
  destruct H as [->|H]; [rewrite (index_none b c N) in E; discriminate|]. apply (IH _ c H N).
Qed.

Lemma sum_squares_nonneg : forall v w, (0 <= sum_squares v w)%Z.
Proof. induction v as [|x v IH]; intros [|y w]; cbn [sum_squares]; try (apply Z.le_refl). specialize (IH w). pose proof (Z.square_nonneg (x - y)). lia. Qed.
Lemma sum_squares_sym : forall v w, sum_squares v w = sum_squares w v.
Proof. induction v as [|x v IH]; intros [|y w]; cbn [sum_squares]; try reflexivity. rewrite IH. ring. Qed.
Lemma sum_squares_zero : forall v w, length v = length w -> (sum_squares v w = 0%Z <-> v = w).
Proof.
  induction v as [|x v IH]; intros [|y w] L; cbn [length sum_squares] in *; try lia; [tauto|]. pose proof (Z.square_nonneg (x - y)). pose proof (sum_squares_nonneg v w). split.
  - intro E. assert (x = y) by nia. subst y. f_equal. apply IH; [lia|nia].
  - intro E. injection E as -> ->. assert (Z : sum_squares w w = 0%Z) by (apply IH; reflexivity). rewrite Z. ring.
Qed.

Lemma get_vector_ok : forall L g v, NoDup (basis L) -> get_vector L g = Ok v -> length v = length (basis L) /\ (forall c, In c (map ccls (components g)) -> In c (basis L)) /\
  forall i c, nth_error (basis L) i = Some c -> nth i v 0%Z = Z.of_nat (copies g c).
Proof.
  intros L g v N H. unfold get_vector in H. rewrite classes_components in H. apply count_ok in H as (A & B & C); [|exact N|apply repeat_length]. split; [exact A|]. split; [exact B|]. intros i c E. rewrite (C i c E). unfold copies.
  rewrite nth_repeat. lia.
Qed.

Lemma composition_symmetric : forall L g0 g1, vector_distance L VectorDiff VectorDiff g0 g1 = vector_distance L VectorDiff VectorDiff g1 g0.
Proof.
  intros L g0 g1. unfold vector_distance, vector_parts. cbn [check_names name_of dname_eqb negb bind].
  assert (F : forall g e, get_vector L g = Err e -> e = KeyError).
  { intros g e. unfold get_vector. generalize (repeat 0%Z (length (basis L))). induction (classes_of g) as [|c cs IH]; intros v H; cbn [count_classes] in H; [discriminate|]. destruct (index_of c (basis L)); cbn [of_option bind] in H; [apply (IH _ H)|congruence]. }
  destruct (get_vector L g0) as [v0|e0] eqn:E0, (get_vector L g1) as [v1|e1] eqn:E1; cbn [bind fst snd]; try reflexivity.
  - rewrite sum_squares_sym, Z.add_comm. reflexivity.
  - rewrite (F _ _ E0), (F _ _ E1). reflexivity.
Qed.

Lemma composition_zero : forall L g0 g1 r, NoDup (basis L) -> g_nodes g0 <> [] -> vector_distance L VectorDiff VectorDiff g0 g1 = Ok r ->
  (0 <= r)%R /\ (r = 0%R <-> forall c, copies g0 c = copies g1 c).
Proof.
  intros L g0 g1 r N Ng H. unfold vector_distance, vector_parts in H. cbn [check_names name_of dname_eqb negb bind] in H.
  destruct (get_vector L g0) as [v0|] eqn:E0; [|discriminate]. destruct (get_vector L g1) as [v1|] eqn:E1; [|discriminate]. cbn [bind fst snd] in H. injection H as <-.
  destruct (get_vector_ok L g0 v0 N E0) as (L0 & I0 & C0). destruct (get_vector_ok L g1 v1 N E1) as (L1 & I1 & C1).
  set (n := (Z.of_nat (length (g_nodes g0)) * Z.of_nat (length (g_nodes g0)) + Z.of_nat (length (g_nodes g1)) * Z.of_nat (length (g_nodes g1)))%Z).
  assert (Pn : (0 < n)%Z). { unfold n. destruct (g_nodes g0); [contradiction|]. cbn [length]. nia. }
  assert (Ps : (0 < sqrt (IZR n))%R) by (apply sqrt_lt_R0; apply IZR_lt; exact Pn). pose proof (sum_squares_nonneg v0 v1) as Pq.
  split; [apply Rmult_le_pos; [apply sqrt_pos|left; apply Rinv_0_lt_compat; exact Ps]|].
  assert (Q : (sqrt (IZR (sum_squares v0 v1)) / sqrt (IZR n) = 0)%R <-> sum_squares v0 v1 = 0%Z).
  { split; intro E.
    - apply eq_IZR. apply sqrt_eq_0; [apply IZR_le; exact Pq|]. unfold Rdiv in E. apply Rmult_integral in E as [E|E]; [exact E|]. pose proof (Rinv_0_lt_compat _ Ps). lra.
    - rewrite E, sqrt_0. unfold Rdiv. apply Rmult_0_l. }
  rewrite Q. rewrite (sum_squares_zero v0 v1) by lia. split.
  - intros -> c. destruct (in_dec cls_eq_dec c (basis L)) as [I|I].
    + apply In_nth_error in I as [i Ei]. apply Nat2Z.inj. rewrite <- (C0 i c Ei), <- (C1 i c Ei). reflexivity.
    + unfold copies. rewrite (proj1 (count_occ_not_In cls_eq_dec _ c)) by (intro J; apply I, I0, J). rewrite (proj1 (count_occ_not_In cls_eq_dec _ c)) by (intro J; apply I, I1, J). reflexivity.
  - intro H. apply (nth_ext _ _ 0%Z 0%Z); [lia|]. intros i Hi. destruct (nth_error (basis L) i) as [c|] eqn:Ei; [|apply nth_error_None in Ei; lia]. rewrite (C0 i c Ei), (C1 i c Ei), H. reflexivity.
Qed.

Lemma composition_raises : forall L g0 g1, (exists c, (In c (components g0) \/ In c (components g1)) /\ ~ In (ccls c) (basis L)) ->
  vector_parts L VectorDiff VectorDiff g0 g1 = Err KeyError /\ vector_distance L VectorDiff VectorDiff g0 g1 = Err KeyError.
Proof.
  intros L g0 g1 (c & I & N). assert (P : vector_parts L VectorDiff VectorDiff g0 g1 = Err KeyError); [|split; [exact P|unfold vector_distance; rewrite P; reflexivity]].
  assert (F : forall g, In c (components g) -> get_vector L g = Err KeyError).
  { intros g J. unfold get_vector. rewrite classes_components. apply (count_fails _ _ _ (ccls c)); [apply in_map, J|exact N]. }
  unfold vector_parts. cbn [check_names name_of dname_eqb negb bind]. destruct I as [I|I].
  - rewrite (F g0 I). reflexivity.
  - rewrite (F g1 I). destruct (get_vector L g0) as [v|e] eqn:E; [reflexivity|]. cbn [bind]. revert E. unfold get_vector. generalize (repeat 0%Z (length (basis L))). induction (classes_of g0) as [|x cs IH]; intros v H; cbn [count_classes] in H; [discriminate|].
    destruct (index_of x (basis L)); cbn [of_option bind] in H; [apply (IH _ H)|congruence].
Qed.

(** ** Speciation with a distance that raises *)
Lemma speciate_raises : forall target dist root pick sp p, sp_species sp = [] ->
  (exists x y, In x p /\ In y p /\ snd x <> snd y) -> (forall a b, In a (map snd p) -> In b (map snd p) -> a <> b -> dist a b = Err KeyError) ->
  speciate target dist root [] pick sp p = Err KeyError.
Proof.
  intros target dist root pick sp p E (x & y & Ix & Iy & Ne) H. unfold speciate. cbv zeta. rewrite E. cbn [renew bind dkeys map redundant filter].
  assert (G : forall l g n m, (forall z, In z l -> In (snd z) (map snd p)) -> In g (map snd p) -> (exists z, In z l /\ snd z <> g) -> fold_res (slot_one dist (sp_thresh sp)) l ([(g, n)], m) = Err KeyError).
  { induction l as [|z l IH]; intros g n m Hl Hg (u & Iu & Nu); [contradiction|]. cbn [fold_res]. unfold slot_one at 1. cbn [dkeys map fst mem existsb]. destruct (Nat.eqb_spec (snd z) g) as [Eg|Ng]; cbn [orb].
    - cbn [bind]. unfold incr. cbn [dget]. rewrite Eg, Nat.eqb_refl. cbn [dset]. rewrite Nat.eqb_refl. apply IH; [intros v Iv; apply Hl; right; exact Iv|exact Hg|]. exists u. split; [|exact Nu]. destruct Iu as [->|Iu]; [contradiction|exact Iu].
    - cbn [find_rep]. rewrite H; [reflexivity|exact Hg|apply Hl; left; reflexivity|congruence]. }
  destruct p as [|z p]; [contradiction|]. cbn [fold_res].
  assert (S1 : slot_one dist (sp_thresh sp) ([], []) z = Ok ([(snd z, 1)], [(snd z, snd z)])) by reflexivity. rewrite S1. cbn [bind].
  match goal with |- bind ?b _ = _ => assert (X : b = Err KeyError); [|rewrite X; reflexivity] end. apply G; [|left; reflexivity|].
  - intros v Iv. right. apply in_map. exact Iv.
  - destruct (Nat.eq_dec (snd x) (snd z)) as [Ex|Ex].
    + exists y. split; [|congruence]. destruct Iy as [<-|Iy]; [congruence|exact Iy].
    + exists x. split; [|exact Ex]. destruct Ix as [<-|Ix]; [congruence|exact Ix].
Qed.

(** ** The other two *)
Lemma subpop_ok : forall a b, exists z, subpop_distance (Subpopulation a) (Subpopulation b) = Ok z /\ subpop_distance (Subpopulation b) (Subpopulation a) = Ok z /\ (z = 0%Z <-> a = b) /\ (z = 0%Z \/ z = 1%Z).
Proof.
  intros a b. unfold subpop_distance. cbn [check_names name_of dname_eqb negb bind]. exists (if Nat.eqb a b then 0 else 1)%Z. rewrite (Nat.eqb_sym b a). split; [reflexivity|]. split; [reflexivity|].
  destruct (Nat.eqb_spec a b); split; auto; split; intro; [assumption|reflexivity|discriminate|contradiction].
Qed.
Lemma subpop_raises : forall d0 d1, (forall l, d0 <> Subpopulation l) \/ (forall l, d1 <> Subpopulation l) -> exists e, subpop_distance d0 d1 = Err e /\ (e = ValueError \/ e = TypeError).
Proof.
  intros d0 d1 H. unfold subpop_distance. destruct d0, d1; cbn [check_names name_of dname_eqb negb bind]; eauto. destruct H as [H|H]; exfalso; eapply H; reflexivity.
Qed.
Lemma edit_ok : forall sim thr g0 g1 s, sim g0 g1 = Ok s -> exists z, edit_distance sim thr EditDist EditDist g0 g1 = Ok z /\ (z = 0%Z <-> (s <= thr)%Q) /\ (z = 0%Z \/ z = 1%Z).
Proof.
  intros sim thr g0 g1 s E. unfold edit_distance. cbn [check_names name_of dname_eqb negb bind]. rewrite E. cbn [bind]. eexists. split; [reflexivity|]. rewrite <- Qle_bool_iff. destruct (Qle_bool s thr); split; auto; split; intro; congruence.
Qed.

Lemma basis_nodup : forall L, lib_ok L -> NoDup (basis L).
Proof.
  intros L [A B C D N1 N2 N3 N4]. unfold basis.
  assert (G : forall (l m : list cls), NoDup l -> NoDup m -> (forall c, In c l -> ~ In c m) -> NoDup (l ++ m)).
  { induction l as [|x l IH]; intros m Nl Nm H; [exact Nm|]. inversion Nl; subst. cbn. constructor; [rewrite in_app_iff; intros [I|I]; [contradiction|apply (H x (or_introl eq_refl) I)]|]. apply IH; [assumption|exact Nm|]. intros c I. apply H. right. exact I. }
  apply G; [exact N1|apply G; [exact N2|apply G; [exact N4|exact N3|]|]|].
  - intros c I J. apply D in I. apply C in J. congruence.
  - intros c I J. apply in_app_iff in J as [J|J]; apply B in I; [apply D in J|apply C in J]; congruence.
  - intros c I J. apply A in I. rewrite !in_app_iff in J. destruct J as [J|[J|J]]; [apply B in J|apply D in J|apply C in J]; congruence.
Qed.
Lemma basis_terminals : forall L, lib_ok L -> ~ In TerminalSource (basis L) /\ ~ In TerminalSink (basis L).
Proof.
  intros L [A B C D _ _ _ _]. unfold basis. split; rewrite !in_app_iff; intros [J|[J|[J|J]]]; first [apply A in J|apply B in J|apply D in J|apply C in J]; discriminate.
Qed.
