(** C91: the functions on which optimisers are tried. *)
From Coq Require Import List Reals String Lia Lra Psatz Machin.
From Verif Require Import Base LandscapeModel LandscapeSpec LandscapeProofs.
Import ListNotations.
Local Open Scope R_scope.

Ltac cases H := repeat (destruct H as [H|H]; [injection H as <- <- <-|]); [..|destruct H].

Lemma made : forall (a b : test_function), Ok a = Ok b -> b = a.
Proof. intros a b H. injection H as ->. reflexivity. Qed.
Lemma half : 5 / 10 = / 2.
Proof. field. Qed.

(* The marked point of nine of the functions is the only point where they are least *)
Theorem C91_minima : forall name p v, In (name, (p, v)) known_minima ->
  exists t, make_test name = Ok t /\ t_name t = name /\ t_xP t = p /\ t_zP t = v /\ only_least (t_function t) p v.
Proof.
  intros name p v I. unfold known_minima in I. cases I; (eexists; split; [reflexivity|]; cbn [t_name t_xP t_zP t_function]; split; [reflexivity|]; rewrite ?half; split; [reflexivity|]);
  match goal with |- ?f _ = _ /\ _ => assert (L : only_least f _ _) by first [exact booth_least|exact matyas_least|exact ackley_least|exact easom_least|exact rastrigin_least|exact rosenbrock_least|exact beale_least|exact goldstein_least|exact levi13_least] end;
  (split; [apply L|exact L]).
Qed.
Print Assumptions C91_minima.

(* The tenth is marked beside its minimum *)
Theorem C91_sphere_refuted : exists t q, make_test "sphere_function" = Ok t /\ only_least (t_function t) q 0 /\ t_xP t <> q /\ t_function t q < t_zP t.
Proof.
  eexists _, (0, 0). split; [reflexivity|]. cbn [t_function t_xP t_zP]. split; [exact sphere_least|]. split; [intros H; injection H; lra|]. unfold sphere. lra.
Qed.
Print Assumptions C91_sphere_refuted.

(* The remaining two cannot be made, nor can others *)
Theorem C91_unusable : forall name,
  (make_test name = Err ValueError <-> name = "eggholder_function" \/ name = "gaussian_function")%string /\
  (make_test name = Err NameError <-> ~ In name ("sphere_function" :: "eggholder_function" :: "gaussian_function" :: map fst known_minima)%string) /\
  ((exists t, make_test name = Ok t) <-> In name ("sphere_function" :: map fst known_minima)%string).
Proof.
  intros name. unfold make_test, setup_named. cbn [map fst known_minima app In].
  repeat match goal with |- context [String.eqb name ?s] => destruct (String.eqb_spec name s) as [->|?]; [cbn [of_option bind nth_error]; repeat split;
    try (intros [H|H]; discriminate H); try discriminate; try (intros [? ?]; discriminate); try (intros; tauto);
    try (intros; eexists; reflexivity); try (intros N; exfalso; apply N; tauto); try (intros H; exfalso; repeat (destruct H as [H|H]; [discriminate H|]); exact H)|] end.
  cbn [of_option bind]. split; [split; [discriminate|intros [H|H]; congruence]|]. split.
  - split; [intros _ H|reflexivity]. repeat (destruct H as [H|H]; [congruence|]). exact H.
  - split; [intros (t & H); discriminate|]. intros H. repeat (destruct H as [H|H]; [congruence|]). destruct H.
Qed.
Print Assumptions C91_unusable.

Definition entry (m : list (list R)) (r c : nat) (x : R) : Prop := exists row, nth_error m r = Some row /\ nth_error row c = Some x.

(* The samples are those of the square, one row per second coordinate, and the values are those of the function *)
Theorem C91_samples : forall name t, make_test name = Ok t ->
  let '((x0, x1), (y0, y1)) := square name in
  List.length (t_Z t) = 1000%nat /\ (forall row, In row (t_Z t) -> List.length row = 1000%nat) /\
  forall r c, (r < 1000)%nat -> (c < 1000)%nat ->
    entry (t_X t) r c (sample x0 x1 c) /\ entry (t_Y t) r c (sample y0 y1 r) /\ entry (t_Z t) r c (t_function t (sample x0 x1 c, sample y0 y1 r)).
Proof.
  assert (G : forall f xr yr x0 x1 y0 y1 p n t, Ok (mkTest n f xr yr (mesh_x (linspace x0 x1 samples) (linspace y0 y1 samples)) (mesh_y (linspace x0 x1 samples) (linspace y0 y1 samples))
      (on_arrays f (mesh_x (linspace x0 x1 samples) (linspace y0 y1 samples)) (mesh_y (linspace x0 x1 samples) (linspace y0 y1 samples))) p (f p)) = Ok t ->
    List.length (t_Z t) = 1000%nat /\ (forall row, In row (t_Z t) -> List.length row = 1000%nat) /\
    forall r c, (r < 1000)%nat -> (c < 1000)%nat ->
    entry (t_X t) r c (sample x0 x1 c) /\ entry (t_Y t) r c (sample y0 y1 r) /\ entry (t_Z t) r c (t_function t (sample x0 x1 c, sample y0 y1 r))).
  { intros f xr yr x0 x1 y0 y1 p n t H. apply made in H. subst t. cbn [t_X t_Y t_Z t_function]. split; [|split].
    - unfold on_arrays, mesh_x, mesh_y. rewrite map_length, combine_length, !map_length, linspace_length. reflexivity.
    - intros row I. unfold on_arrays in I. apply in_map_iff in I. destruct I as ((a & b) & <- & I). unfold rowwise. rewrite map_length, combine_length.
      apply in_combine_l in I as A. apply in_combine_r in I as B. unfold mesh_x in A. unfold mesh_y in B. apply in_map_iff in A. apply in_map_iff in B. destruct A as (_ & <- & _). destruct B as (y & <- & _). rewrite map_length, linspace_length. reflexivity.
    - intros r c R C.
      assert (S : forall a b i, (i < 1000)%nat -> nth_error (linspace a b samples) i = Some (sample a b i)).
      { intros a b i I. unfold samples. rewrite linspace_at by exact I. f_equal. unfold sample. replace (INR (1000 - 1)) with 999 by (rewrite INR_IZR_INZ; reflexivity). field. }
      assert (X := mesh_x_at (linspace x0 x1 samples) (linspace y0 y1 samples) r c _ (S x0 x1 c C) ltac:(rewrite linspace_length; exact R)).
      assert (Y := mesh_y_at (linspace x0 x1 samples) (linspace y0 y1 samples) r c _ (S y0 y1 r R) ltac:(rewrite linspace_length; exact C)).
      split; [exact X|]. split; [exact Y|]. apply on_arrays_at; assumption. }
  intros name t H. unfold make_test in H. unfold square. revert H. unfold setup_named.
  repeat match goal with |- context [String.eqb name ?s] => destruct (String.eqb_spec name s) as [->|?]; [cbn -[samples linspace mesh_x mesh_y on_arrays]; try discriminate;
    replace (-45 / 10) with (- (9 / 2)) by field; replace (45 / 10) with (9 / 2) by field; apply G|] end.
  discriminate.
Qed.
Print Assumptions C91_samples.

Lemma pi_near : 3.1332 < PI < 3.1531.
Proof.
  destruct (PI_2_3_7_ineq 1) as (A & B). unfold sum_f_R0, tg_alt, PI_2_3_7_tg, Ratan_seq in A, B. cbn in A, B. split; lra.
Qed.

(* no sample has the first coordinate of the marked point *)
Lemma not_whole : forall a b i, IZR b * INR i = IZR a -> (b * Z.of_nat i = a)%Z.
Proof. intros a b i E. rewrite INR_IZR_INZ in E. rewrite <- mult_IZR in E. apply eq_IZR in E. exact E. Qed.

Theorem C91_above : forall name t, make_test name = Ok t -> forall r c z, entry (t_Z t) r c z ->
  0 < z /\ (name <> "sphere_function"%string -> t_zP t < z).
Proof.
  intros name t H r c z E.
  assert (S := C91_samples name t H). destruct (square name) as ((x0 & x1) & (y0 & y1)) eqn:Q. destruct S as (L & W & S).
  assert (R : (r < 1000)%nat). { rewrite <- L. apply nth_error_Some. destruct E as (row & E & _). rewrite E. discriminate. }
  assert (C : (c < 1000)%nat). { destruct E as (row & E & F). rewrite <- (W row) by (apply nth_error_In in E; exact E). apply nth_error_Some. rewrite F. discriminate. }
  destruct (S r c R C) as (_ & _ & Z). assert (Ez : z = t_function t (sample x0 x1 c, sample y0 y1 r)).
  { destruct E as (row & E & F). destruct Z as (row' & E' & F'). rewrite E in E'. injection E' as <-. rewrite F in F'. injection F' as <-. reflexivity. }
  rewrite Ez. clear Ez S L W E Z.
  assert (G : forall p v, only_least (t_function t) p v -> fst p <> sample x0 x1 c -> 0 <= v -> t_zP t = v \/ name = "sphere_function"%string -> 0 < t_function t (sample x0 x1 c, sample y0 y1 r) /\ (name <> "sphere_function"%string -> t_zP t < t_function t (sample x0 x1 c, sample y0 y1 r))).
  { intros p v (_ & M) N V P. destruct (M (sample x0 x1 c, sample y0 y1 r)) as (M1 & M2).
    assert (v < t_function t (sample x0 x1 c, sample y0 y1 r)) by (destruct M1 as [M1|M1]; [exact M1|exfalso; symmetry in M1; apply M2 in M1; subst p; apply N; reflexivity]).
    split; [lra|]. intros Ns. destruct P as [->|P]; [assumption|contradiction]. }
  assert (I : In name ("sphere_function" :: map fst known_minima)%string) by (apply C91_unusable; exists t; exact H).
  assert (W : forall a b, IZR b * INR c = IZR a -> (b * Z.of_nat c = a)%Z) by (intros a b; apply not_whole).
  destruct I as [<-|I].
  - apply (G (0, 0) 0); [|..|lra|right; reflexivity]; [apply made in H; subst t; exact sphere_least|]. injection Q as <- <- <- <-. cbn [fst]. unfold sample. intros X. assert (2 * INR c = 999) by lra. apply W in H0. lia.
  - apply in_map_iff in I. destruct I as ((n & p & v) & En & I). cbn in En. subst n. destruct (C91_minima _ _ _ I) as (t' & H' & _ & _ & V & M). rewrite H in H'. apply made in H'. subst t'.
    apply (G p v); [exact M| | |left; exact V].
    + clear G M V H. unfold known_minima in I. revert Q. cases I; intros Q; injection Q as <- <- <- <-; cbn [fst]; unfold sample; intros X.
      * assert (K : 20 * INR c = 10989) by lra. apply W in K. lia.
      * assert (K : 2 * INR c = 999) by lra. apply W in K. lia.
      * assert (K : 2 * INR c = 999) by lra. apply W in K. lia.
      * destruct pi_near as (A & B). assert (K1 : 656 < INR c) by lra. assert (K2 : INR c < 657) by lra. rewrite INR_IZR_INZ in K1, K2. apply lt_IZR in K1. apply lt_IZR in K2. lia.
      * assert (K : 2 * INR c = 999) by lra. apply W in K. lia.
      * assert (K : 10 * INR c = 5994) by lra. apply W in K. lia.
      * assert (K : 2 * INR c = 1665) by lra. apply W in K. lia.
      * assert (K : 2 * INR c = 999) by lra. apply W in K. lia.
      * assert (K : 20 * INR c = 10989) by lra. apply W in K. lia.
    + unfold known_minima in I. cases I; lra.
Qed.
Print Assumptions C91_above.

(* Second derivatives at the marked points *)
Theorem C91_curvature : forall name m, In (name, m) known_curvatures ->
  exists t, make_test name = Ok t /\ curvature (t_function t) (t_xP t) m /\ definite m.
Proof.
  assert (P := PI_RGT_0). assert (P2 := pow2_ge_0 PI).
  intros name m I. unfold known_curvatures in I. repeat (destruct I as [I|I]; [injection I as <- <-|]); [..|destruct I];
  (eexists; split; [reflexivity|]; cbn [t_function t_xP]; rewrite ?half; split; [first [exact booth_curve|exact matyas_curve|exact easom_curve|exact rastrigin_curve|exact rosenbrock_curve|exact beale_curve|exact goldstein_curve|exact levi13_curve]|]);
  unfold definite; cbn [fst snd]; split; nra.
Qed.
Print Assumptions C91_curvature.

(* Ackley's function has none: at its minimum it has no slope in any direction *)
Theorem C91_corner : exists t, make_test "ackley_function" = Ok t /\
  forall d, d <> (0, 0) -> forall l, ~ derivable_pt_lim (along (t_function t) (t_xP t) d) 0 l.
Proof. eexists. split; [reflexivity|]. cbn [t_function t_xP]. exact ackley_corner. Qed.
Print Assumptions C91_corner.

(* ** Examples *)
Example minima_case : exists t, make_test "goldstein_price_function" = Ok t /\ t_zP t = 3 /\ t_function t (1, 1) = 1876 /\ t_function t (-6 / 10, -4 / 10) = 30.
Proof. eexists. split; [reflexivity|]. cbn [t_zP t_function]. unfold goldstein_price. repeat split; field. Qed.
Example samples_case : exists t, make_test "beale_function" = Ok t /\ entry (t_Y t) 999 5 4 /\ entry (t_X t) 5 999 (9 / 2).
Proof.
  destruct (C91_minima "beale_function" (3, / 2) 0) as (t & H & _); [cbn; tauto|]. exists t. split; [exact H|]. assert (S := C91_samples _ t H).
  change (square "beale_function") with ((- (9 / 2), 9 / 2), (- (9 / 2), 4)) in S. cbv beta iota in S. destruct S as (_ & _ & S). split.
  - destruct (S 999%nat 5%nat) as (_ & Y & _); [lia..|]. replace 4 with (sample (- (9 / 2)) 4 999); [exact Y|]. unfold sample. replace (INR 999) with 999 by (rewrite INR_IZR_INZ; reflexivity). field.
  - destruct (S 5%nat 999%nat) as (X & _ & _); [lia..|]. replace (9 / 2) with (sample (- (9 / 2)) (9 / 2) 999); [exact X|]. unfold sample. replace (INR 999) with 999 by (rewrite INR_IZR_INZ; reflexivity). field.
Qed.
Example unusable_case : make_test "gaussian_function" = Err ValueError /\ make_test "himmelblau_function" = Err NameError.
Proof. split; reflexivity. Qed.
Example corner_case : exists t, make_test "ackley_function" = Ok t /\ ~ derivable_pt_lim (along (t_function t) (0, 0) (1, 0)) 0 0.
Proof. destruct C91_corner as (t & H & C). exists t. split; [exact H|]. apply made in H. subst t. apply C. intros E. injection E. lra. Qed.
Example curvature_case : exists slope, derivable_pt_lim slope 0 (802 * 1 ^ 2 + 2 * -400 * 1 * 2 + 200 * 2 ^ 2) /\ slope 0 = 0 /\ forall t, derivable_pt_lim (along rosenbrock (1, 1) (1, 2)) t (slope t).
Proof. destruct (rosenbrock_curve (1, 2)) as (s & A & B & C). exists s. repeat split; assumption. Qed.
Example above_case : exists t, make_test "booth_function" = Ok t /\ entry (t_Z t) 0 0 2594.
Proof.
  destruct (C91_minima "booth_function" (1, 3) 0) as (t & H & _); [cbn; tauto|]. exists t. split; [exact H|]. assert (S := C91_samples _ t H).
  change (square "booth_function") with ((-10, 10), (-10, 10)) in S. cbv beta iota in S. destruct S as (_ & _ & S). destruct (S 0%nat 0%nat) as (_ & _ & Z); [lia..|].
  replace 2594 with (t_function t (sample (-10) 10 0, sample (-10) 10 0)); [exact Z|]. apply made in H. subst t. cbn [t_function]. unfold booth. cbv zeta. rewrite rotate_id. unfold sample. cbn. field.
Qed.
