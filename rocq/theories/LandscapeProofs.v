(** Proofs for C91. *)
From Coq Require Import List Reals String Lia Lra Psatz Machin.
From Verif Require Import Base LandscapeModel LandscapeSpec.
Import ListNotations.
Local Open Scope R_scope.

Lemma rotate_id : forall p, rotate_coordinates p = p.
Proof. intros [x y]. unfold rotate_coordinates, theta. rewrite Rmult_0_l, cos_0, sin_0. cbn. f_equal; ring. Qed.

Ltac squares := repeat apply Rplus_le_le_0_compat; try apply pow2_ge_0; try (apply Rmult_le_pos; [lra|apply pow2_ge_0]).

Lemma sq_zero : forall a, a ^ 2 = 0 -> a = 0.
Proof. intros a H. nra. Qed.

Lemma sum_sq2 : forall a b, a ^ 2 + b ^ 2 = 0 -> a = 0 /\ b = 0.
Proof. intros a b H. split; nra. Qed.

Lemma booth_least : only_least booth (1, 3) 0.
Proof.
  unfold booth. split; [rewrite rotate_id; cbn; ring|]. intros [x y]. cbv zeta. rewrite rotate_id. cbn [fst snd]. split; [squares|].
  intros H. apply sum_sq2 in H. destruct H. f_equal; lra.
Qed.

Lemma matyas_least : only_least matyas (0, 0) 0.
Proof.
  unfold matyas. split; [ring|]. intros [x y].
  assert (E : 26 / 100 * (x ^ 2 + y ^ 2) - 48 / 100 * x * y = 24 / 100 * (x - y) ^ 2 + 2 / 100 * (x ^ 2 + y ^ 2)) by field.
  assert (A := pow2_ge_0 (x - y)). assert (B := pow2_ge_0 x). assert (C := pow2_ge_0 y). rewrite E.
  split; [lra|]. intros H. assert (S : x ^ 2 + y ^ 2 = 0) by lra. apply sum_sq2 in S. destruct S. f_equal; assumption.
Qed.

Lemma rosenbrock_least : only_least rosenbrock (1, 1) 0.
Proof.
  unfold rosenbrock. split; [ring|]. intros [x y]. split; [squares|]. intros H.
  assert (S : (10 * (y - x ^ 2)) ^ 2 + (1 - x) ^ 2 = 0) by (rewrite <- H; ring). apply sum_sq2 in S. destruct S as (A & B).
  assert (x = 1) by lra. subst x. f_equal. lra.
Qed.

Lemma beale_least : only_least beale (3, / 2) 0.
Proof.
  unfold beale. split; [field|]. intros [x y]. split; [squares|]. intros H.
  assert (A0 := pow2_ge_0 (15 / 10 - x + x * y)). assert (B0 := pow2_ge_0 (225 / 100 - x + x * y ^ 2)). assert (C0 := pow2_ge_0 (2625 / 1000 - x + x * y ^ 3)).
  assert (A : 15 / 10 - x + x * y = 0) by (apply sq_zero; lra). assert (B : 225 / 100 - x + x * y ^ 2 = 0) by (apply sq_zero; lra).
  assert (Y : y = / 2). { assert ((15 / 10) * (1 + y) = 225 / 100) by nra. lra. }
  subst y. f_equal. lra.
Qed.

Lemma exp_le1 : forall u, u <= 0 -> exp u <= 1.
Proof. intros u H. rewrite <- exp_0. destruct H as [H| ->]; [left; apply exp_increasing; exact H|right; reflexivity]. Qed.
Lemma exp_le : forall u v, u <= v -> exp u <= exp v.
Proof. intros u v [H| ->]; [left; apply exp_increasing; exact H|right; reflexivity]. Qed.

Lemma goldstein_least : only_least goldstein_price (0, -1) 3.
Proof.
  unfold goldstein_price. split; [ring|]. intros [x y]. pose (s := x + y). pose (t := 2 * x - 3 * y).
  assert (EA : 1 + (x + y + 1) ^ 2 * (19 - 14 * x + 3 * x ^ 2 - 14 * y + 6 * x * y + 3 * y ^ 2) = 1 + (s + 1) ^ 2 * (3 * (s - 7 / 3) ^ 2 + 8 / 3)) by (unfold s; field).
  assert (EB : 30 + (2 * x - 3 * y) ^ 2 * (18 - 32 * x + 12 * x ^ 2 + 48 * y - 36 * x * y + 27 * y ^ 2) = 3 + (t - 3) ^ 2 * (3 * (t + 1 / 3) ^ 2 + 8 / 3)) by (unfold t; field).
  rewrite EA, EB. set (a := (s + 1) ^ 2 * (3 * (s - 7 / 3) ^ 2 + 8 / 3)). set (b := (t - 3) ^ 2 * (3 * (t + 1 / 3) ^ 2 + 8 / 3)).
  assert (A : 8 / 3 * (s + 1) ^ 2 <= a) by (unfold a; generalize (pow2_ge_0 (s - 7 / 3)) (pow2_ge_0 (s + 1)); intros; nra).
  assert (B : 8 / 3 * (t - 3) ^ 2 <= b) by (unfold b; generalize (pow2_ge_0 (t + 1 / 3)) (pow2_ge_0 (t - 3)); intros; nra).
  assert (A0 := pow2_ge_0 (s + 1)). assert (B0 := pow2_ge_0 (t - 3)). clearbody a b.
  split; [nra|]. intros H. assert (a = 0) by nra. assert (b = 0) by nra.
  assert (s = -1) by nra. assert (t = 3) by nra. unfold s, t in *. f_equal; lra.
Qed.

Lemma levi13_least : only_least levi13 (1, 1) 0.
Proof.
  unfold levi13. split.
  - replace (3 * PI * 1) with (PI + 2 * INR 1 * PI) by (cbn; ring). rewrite sin_period, sin_PI. ring.
  - intros [x y]. assert (A := pow2_ge_0 (sin (3 * PI * x))). assert (B := pow2_ge_0 (sin (3 * PI * y))). assert (C := pow2_ge_0 (sin (2 * PI * y))).
    assert (D := pow2_ge_0 (x - 1)). assert (E := pow2_ge_0 (y - 1)).
    generalize dependent (sin (3 * PI * x) ^ 2). generalize dependent (sin (3 * PI * y) ^ 2). generalize dependent (sin (2 * PI * y) ^ 2). intros c C b B a A.
    assert (P := Rmult_le_pos _ _ D B). assert (Q := Rmult_le_pos _ _ E C).
    split; [nra|]. intros H. assert (X : (x - 1) ^ 2 = 0) by nra. assert (Y : (y - 1) ^ 2 = 0) by nra. apply sq_zero in X. apply sq_zero in Y. f_equal; lra.
Qed.

Lemma rastrigin_least : only_least rastrigin (0, 0) 0.
Proof.
  unfold rastrigin. split.
  - rewrite Rmult_0_r, cos_0. ring.
  - intros [x y]. destruct (COS_bound (2 * PI * x)) as (_ & A). destruct (COS_bound (2 * PI * y)) as (_ & B).
    generalize dependent (cos (2 * PI * x)). generalize dependent (cos (2 * PI * y)). intros b B a A.
    assert (D := pow2_ge_0 x). assert (E := pow2_ge_0 y). split; [lra|]. intros H. assert (X : x ^ 2 = 0) by lra. assert (Y : y ^ 2 = 0) by lra. apply sq_zero in X. apply sq_zero in Y. subst. reflexivity.
Qed.

Lemma cos_cos : forall x y, cos x * cos y <= 1.
Proof. intros x y. destruct (COS_bound x), (COS_bound y). nra. Qed.

Lemma easom_least : only_least easom (PI, PI) 0.
Proof.
  unfold easom. split.
  - replace (- ((PI - PI) ^ 2 + (PI - PI) ^ 2)) with 0 by ring. rewrite exp_0, cos_PI. ring.
  - intros [x y]. set (d := (x - PI) ^ 2 + (y - PI) ^ 2). assert (D : 0 <= d) by (unfold d; squares).
    assert (C := cos_cos x y). assert (P := exp_pos (- d)). assert (L := exp_le1 (- d) ltac:(lra)).
    replace (- cos x * cos y * exp (- d) + 1) with (1 - (cos x * cos y) * exp (- d)) by ring. generalize dependent (cos x * cos y). intros c C.
    split; [nra|]. intros H. assert (E1 : exp (- d) = 1) by nra. rewrite <- exp_0 in E1. apply exp_inv in E1. assert (Z : d = 0) by lra. unfold d in Z. apply sum_sq2 in Z. destruct Z. f_equal; lra.
Qed.

Lemma ackley_parts : forall x y, 20 * (1 - exp (- (25 / 100) * sqrt (5 / 10 * (x ^ 2 + y ^ 2)))) <= ackley (x, y).
Proof.
  intros x y. unfold ackley. destruct (COS_bound (2 * PI * x)) as (_ & A). destruct (COS_bound (2 * PI * y)) as (_ & B).
  assert (E := exp_le (5 / 10 * (cos (2 * PI * x) + cos (2 * PI * y))) 1 ltac:(lra)). lra.
Qed.
Lemma ackley_least : only_least ackley (0, 0) 0.
Proof.
  split.
  - unfold ackley. replace (5 / 10 * (0 ^ 2 + 0 ^ 2)) with 0 by ring. rewrite sqrt_0, !Rmult_0_r, exp_0, cos_0. replace (5 / 10 * (1 + 1)) with 1 by field. ring.
  - intros [x y]. assert (A := ackley_parts x y). set (w := 5 / 10 * (x ^ 2 + y ^ 2)) in *. assert (W : 0 <= w) by (unfold w; apply Rmult_le_pos; [lra|squares]). assert (S := sqrt_pos w). assert (L := exp_le1 (- (25 / 100) * sqrt w) ltac:(lra)).
    split; [lra|]. intros H. assert (E : exp (- (25 / 100) * sqrt w) = 1) by lra. rewrite <- exp_0 in E. apply exp_inv in E. assert (Z : sqrt w = 0) by lra.
    apply sqrt_eq_0 in Z; [|exact W]. unfold w in Z. assert (S2 : x ^ 2 + y ^ 2 = 0) by lra. apply sum_sq2 in S2. destruct S2. subst. reflexivity.
Qed.

Lemma sphere_least : only_least sphere (0, 0) 0.
Proof. unfold sphere. split; [ring|]. intros [x y]. split; [squares|]. intros H. apply sum_sq2 in H. destruct H. subst. reflexivity. Qed.

(* ** Ackley's function has a corner at its minimum *)
Lemma exp_under : forall u, 0 < u -> exp (- u) <= 1 - u / (1 + u).
Proof.
  intros u U. assert (E := exp_ineq1 u ltac:(lra)). rewrite exp_Ropp. replace (1 - u / (1 + u)) with (/ (1 + u)) by (field; lra). left. apply Rinv_lt_contravar; [|lra]. apply Rmult_lt_0_compat; [lra|apply exp_pos].
Qed.

Lemma ackley_corner : forall d, d <> (0, 0) -> forall l, ~ derivable_pt_lim (along ackley (0, 0) d) 0 l.
Proof.
  intros [u v] D l H. pose (k := sqrt (5 / 10 * (u ^ 2 + v ^ 2))).
  assert (K : 0 < k). { apply sqrt_lt_R0. apply Rmult_lt_0_compat; [lra|]. assert (A := pow2_ge_0 u). assert (B := pow2_ge_0 v). destruct (Req_dec (u ^ 2 + v ^ 2) 0) as [E|N]; [|lra]. apply sum_sq2 in E. destruct E. subst. contradiction. }
  assert (F0 : along ackley (0, 0) (u, v) 0 = 0). { unfold along. cbn [fst snd]. rewrite !Rmult_0_l, !Rplus_0_l. apply (proj1 ackley_least). }
  assert (G : forall t, 20 * (1 - exp (- (25 / 100) * (Rabs t * k))) <= along ackley (0, 0) (u, v) t).
  { intros t. unfold along. cbn [fst snd]. eapply Rle_trans; [|apply ackley_parts]. right. do 4 f_equal. unfold k. rewrite <- (sqrt_pow2 (Rabs t)) by apply Rabs_pos. rewrite <- sqrt_mult; [|apply pow2_ge_0|apply Rmult_le_pos; [lra|squares]].
    f_equal. rewrite (pow2_abs t). ring. }
  assert (Q : forall t, 0 < t -> 25 / 100 * k * t <= 1 -> 5 / 2 * k * t <= along ackley (0, 0) (u, v) t).
  { intros t T S. eapply Rle_trans; [|apply G]. rewrite (Rabs_pos_eq t) by lra. pose (w := 25 / 100 * k * t). assert (W : 0 < w) by (unfold w; repeat apply Rmult_lt_0_compat; lra).
    replace (- (25 / 100) * (t * k)) with (- w) by (unfold w; ring). assert (E := exp_under w W). assert (w / 2 <= w / (1 + w)). { apply Rmult_le_compat_l; [lra|]. apply Rinv_le_contravar; unfold w in *; lra. } unfold w in *. lra. }
  assert (Pos : forall t, 0 <= along ackley (0, 0) (u, v) t) by (intros t; unfold along; apply ackley_least).
  (* the derivative would be at least 5/2 k from the right and at most 0 from the left *)
  destruct (H (k / 2) ltac:(lra)) as (delta & Hd). assert (DP := cond_pos delta).
  pose (t := Rmin (delta / 2) (/ (25 / 100 * k))). assert (IK : 0 < / (25 / 100 * k)) by (apply Rinv_0_lt_compat; lra).
  assert (T : 0 < t) by (unfold t; apply Rmin_pos; lra). assert (T1 : t <= delta / 2) by apply Rmin_l. assert (T2 : t <= / (25 / 100 * k)) by apply Rmin_r.
  assert (T3 : 25 / 100 * k * t <= 1). { apply Rmult_le_compat_l with (r := 25 / 100 * k) in T2; [|lra]. rewrite Rinv_r in T2 by lra. exact T2. }
  assert (R := Hd t ltac:(lra) ltac:(rewrite Rabs_pos_eq; lra)). assert (Lf := Hd (- t) ltac:(lra) ltac:(rewrite Rabs_Ropp, Rabs_pos_eq; lra)).
  rewrite F0, Rplus_0_l, Rminus_0_r in R, Lf. apply Rabs_def2 in R. apply Rabs_def2 in Lf. destruct R as (R & _). destruct Lf as (_ & Lf).
  assert (A1 : 5 / 2 * k <= along ackley (0, 0) (u, v) t / t). { apply Rmult_le_reg_r with t; [exact T|]. replace (along ackley (0, 0) (u, v) t / t * t) with (along ackley (0, 0) (u, v) t) by (field; lra). apply Q; assumption. }
  assert (A2 : along ackley (0, 0) (u, v) (- t) / - t <= 0). { specialize (Pos (- t)). unfold Rdiv. rewrite Rinv_opp. assert (I : 0 < / t) by (apply Rinv_0_lt_compat; exact T). generalize dependent (/ t). intros. nra. }
  lra.
Qed.

(* ** The samples *)
Lemma linspace_at : forall a b n i, (i < n)%nat -> nth_error (linspace a b n) i = Some (a + INR i * ((b - a) / INR (n - 1))).
Proof. intros a b n i I. unfold linspace. rewrite nth_error_map. assert (E : nth_error (seq 0 n) i = Some i). { rewrite (nth_error_nth' _ 0%nat) by (rewrite seq_length; exact I). rewrite seq_nth by exact I. reflexivity. } rewrite E. reflexivity. Qed.
Lemma linspace_length : forall a b n, List.length (linspace a b n) = n.
Proof. intros. unfold linspace. rewrite map_length, seq_length. reflexivity. Qed.

Lemma mesh_x_at : forall xs ys r c x, nth_error xs c = Some x -> (r < List.length ys)%nat -> exists row, nth_error (mesh_x xs ys) r = Some row /\ nth_error row c = Some x.
Proof. intros xs ys r c x X R. exists xs. split; [|exact X]. unfold mesh_x. rewrite nth_error_map. destruct (nth_error ys r) eqn:E; [reflexivity|]. apply nth_error_None in E. lia. Qed.
Lemma mesh_y_at : forall xs ys r c y, nth_error ys r = Some y -> (c < List.length xs)%nat -> exists row, nth_error (mesh_y xs ys) r = Some row /\ nth_error row c = Some y.
Proof. intros xs ys r c y Y C. exists (map (fun _ => y) xs). split; [unfold mesh_y; rewrite nth_error_map, Y; reflexivity|]. rewrite nth_error_map. destruct (nth_error xs c) eqn:E; [reflexivity|]. apply nth_error_None in E. lia. Qed.
Lemma combine_at : forall A B (l : list A) (l' : list B) i a b, nth_error l i = Some a -> nth_error l' i = Some b -> nth_error (combine l l') i = Some (a, b).
Proof. induction l as [|x l IH]; intros [|y l'] [|i] a b E E'; cbn in *; try discriminate; [injection E as <-; injection E' as <-; reflexivity|apply IH; assumption]. Qed.
Lemma on_arrays_at : forall f X Y r c x y, (exists row, nth_error X r = Some row /\ nth_error row c = Some x) -> (exists row, nth_error Y r = Some row /\ nth_error row c = Some y) ->
  exists row, nth_error (on_arrays f X Y) r = Some row /\ nth_error row c = Some (f (x, y)).
Proof.
  intros f X Y r c x y (rx & Ex & Cx) (ry & Ey & Cy). exists (rowwise f rx ry). unfold on_arrays, rowwise. rewrite !nth_error_map, (combine_at _ _ _ _ _ _ _ Ex Ey), (combine_at _ _ _ _ _ _ _ Cx Cy). split; reflexivity.
Qed.

(* ** Second derivatives at the marked points *)
Lemma d_plus : forall f g t a b, derivable_pt_lim f t a -> derivable_pt_lim g t b -> derivable_pt_lim (fun s => f s + g s) t (a + b).
Proof. intros. apply (derivable_pt_lim_plus f g); assumption. Qed.
Lemma d_minus : forall f g t a b, derivable_pt_lim f t a -> derivable_pt_lim g t b -> derivable_pt_lim (fun s => f s - g s) t (a - b).
Proof. intros. apply (derivable_pt_lim_minus f g); assumption. Qed.
Lemma d_opp : forall f t a, derivable_pt_lim f t a -> derivable_pt_lim (fun s => - f s) t (- a).
Proof. intros. apply (derivable_pt_lim_opp f); assumption. Qed.
Lemma d_mult : forall f g t a b, derivable_pt_lim f t a -> derivable_pt_lim g t b -> derivable_pt_lim (fun s => f s * g s) t (a * g t + f t * b).
Proof. intros. apply (derivable_pt_lim_mult f g); assumption. Qed.
Lemma d_const : forall c t, derivable_pt_lim (fun _ => c) t 0.
Proof. intros. apply derivable_pt_lim_const. Qed.
Lemma d_id : forall t, derivable_pt_lim (fun s => s) t 1.
Proof. intros. apply derivable_pt_lim_id. Qed.
Lemma d_cos : forall f t a, derivable_pt_lim f t a -> derivable_pt_lim (fun s => cos (f s)) t (- sin (f t) * a).
Proof. intros. apply (derivable_pt_lim_comp f cos); [assumption|apply derivable_pt_lim_cos]. Qed.
Lemma d_sin : forall f t a, derivable_pt_lim f t a -> derivable_pt_lim (fun s => sin (f s)) t (cos (f t) * a).
Proof. intros. apply (derivable_pt_lim_comp f sin); [assumption|apply derivable_pt_lim_sin]. Qed.
Lemma d_exp : forall f t a, derivable_pt_lim f t a -> derivable_pt_lim (fun s => exp (f s)) t (exp (f t) * a).
Proof. intros. apply (derivable_pt_lim_comp f exp); [assumption|apply derivable_pt_lim_exp]. Qed.
Lemma d_pow : forall f n t a, derivable_pt_lim f t a -> derivable_pt_lim (fun s => f s ^ n) t (INR n * f t ^ pred n * a).
Proof. intros. apply (derivable_pt_lim_comp f (fun x => x ^ n)); [assumption|apply derivable_pt_lim_pow]. Qed.
Ltac slopes := lazymatch goal with
  | |- derivable_pt_lim (fun _ => ?c) _ _ => apply d_const
  | |- derivable_pt_lim (fun s => s) _ _ => apply d_id
  | |- derivable_pt_lim (fun s => _ + _) _ _ => apply d_plus; slopes
  | |- derivable_pt_lim (fun s => _ - _) _ _ => apply d_minus; slopes
  | |- derivable_pt_lim (fun s => - _) _ _ => apply d_opp; slopes
  | |- derivable_pt_lim (fun s => _ * _) _ _ => apply d_mult; slopes
  | |- derivable_pt_lim (fun s => cos _) _ _ => apply d_cos; slopes
  | |- derivable_pt_lim (fun s => sin _) _ _ => apply d_sin; slopes
  | |- derivable_pt_lim (fun s => exp _) _ _ => apply d_exp; slopes
  | |- derivable_pt_lim (fun s => _ ^ _) _ _ => apply d_pow; slopes
  end.
Lemma d_is : forall f t a b, derivable_pt_lim f t a -> a = b -> derivable_pt_lim f t b.
Proof. intros f t a b H <-. exact H. Qed.
Lemma d_ext : forall f g t a, (forall s, f s = g s) -> derivable_pt_lim f t a -> derivable_pt_lim g t a.
Proof. intros f g t a E H eps P. destruct (H eps P) as (delta & D). exists delta. intros h N L. rewrite <- !E. apply D; assumption. Qed.

Ltac curve f := intros [u v]; unfold along, f; cbn [fst snd]; eexists; split; [intros t; slopes|split; [|eapply d_is; [slopes|]]].

Lemma booth_curve : curvature booth (1, 3) (10, 8, 10).
Proof.
  intros [u v]. assert (E : forall t, (1 + t * u + 2 * (3 + t * v) - 7) ^ 2 + (2 * (1 + t * u) + (3 + t * v) - 5) ^ 2 = along booth (1, 3) (u, v) t) by (intros t; unfold along, booth; cbv zeta; rewrite rotate_id; reflexivity).
  eexists. split; [intros t; eapply d_ext; [exact E|slopes]|]. cbn [fst snd]. split; [cbn; ring|eapply d_is; [slopes|cbn; ring]].
Qed.
Lemma matyas_curve : curvature matyas (0, 0) (52 / 100, - (48 / 100), 52 / 100).
Proof. curve matyas; cbn; field. Qed.
Lemma rosenbrock_curve : curvature rosenbrock (1, 1) (802, -400, 200).
Proof. curve rosenbrock; cbn; ring. Qed.
Lemma beale_curve : curvature beale (3, / 2) (101 / 32, - (183 / 16), 369 / 8).
Proof. curve beale; cbn; field. Qed.
Lemma goldstein_curve : curvature goldstein_price (0, -1) (504, -216, 864).
Proof. curve goldstein_price; cbn; ring. Qed.
Lemma sphere_curve : curvature sphere (0, 0) (2, 0, 2).
Proof. curve sphere; cbn; ring. Qed.
Lemma rastrigin_curve : curvature rastrigin (0, 0) (2 + 40 * PI ^ 2, 0, 2 + 40 * PI ^ 2).
Proof. curve rastrigin; rewrite !Rmult_0_l, ?Rplus_0_r, ?Rmult_0_r, ?sin_0, ?cos_0; cbn; ring. Qed.
Lemma easom_curve : curvature easom (PI, PI) (3, 0, 3).
Proof. curve easom; rewrite !Rmult_0_l, ?Rplus_0_r, ?Rminus_diag_eq, ?cos_PI, ?sin_PI by reflexivity; replace (- (0 ^ 2 + 0 ^ 2)) with 0 by ring; rewrite exp_0; cbn; ring. Qed.
Lemma sin_3PI : sin (3 * PI * 1) = 0.
Proof. replace (3 * PI * 1) with (PI + 2 * INR 1 * PI) by (cbn; ring). rewrite sin_period. apply sin_PI. Qed.
Lemma cos_3PI : cos (3 * PI * 1) = -1.
Proof. replace (3 * PI * 1) with (PI + 2 * INR 1 * PI) by (cbn; ring). rewrite cos_period. apply cos_PI. Qed.
Lemma levi13_curve : curvature levi13 (1, 1) (2 + 18 * PI ^ 2, 0, 2).
Proof.
  curve levi13; rewrite !Rmult_0_l, ?Rplus_0_r, ?sin_3PI, ?cos_3PI; replace (2 * PI * 1) with (2 * PI) by ring; rewrite ?sin_2PI, ?cos_2PI; cbn; ring.
Qed.
