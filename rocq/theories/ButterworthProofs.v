(** Monic polynomials with known roots, and the gain of the Butterworth filters. *)
From Coq Require Import Reals Lra Lia List Arith ZArith.
From Verif Require Import Base Complex ArrayModel FourierProofs ComponentModel ComponentSpec FilterProofs ComponentProofs GridProofs DetectorModel.
Import ListNotations.
Local Open Scope R_scope.

(** ** A monic polynomial is the product over its roots *)
(* the coefficients from the lowest one on; the leading one is one and left out *)
Fixpoint monic (p : list C) (x : C) : C := match p with [] => C1 | c :: r => Cadd c (Cmul x (monic r x)) end.
Definition roots_product (rs : list C) (x : C) : C := fold_right (fun r acc => Cmul (Csub x r) acc) C1 rs.

Lemma divide : forall n p r, length p = S n -> exists q, length q = n /\ forall x, Csub (monic p x) (monic p r) = Cmul (Csub x r) (monic q x).
Proof.
  intros n. induction n as [|n IH]; intros p r L.
  - destruct p as [|c [|? ?]]; try discriminate. exists []. split; [reflexivity|]. intros x. cbn [monic]. ring.
  - destruct p as [|c p]; [discriminate|]. cbn in L. destruct (IH p r ltac:(lia)) as (q & Lq & E). exists (monic p r :: q). split; [cbn; lia|]. intros x. cbn [monic]. pose proof (E x) as Ex.
    assert (X : monic p x = Cadd (monic p r) (Cmul (Csub x r) (monic q x))) by (rewrite <- Ex; ring). rewrite X. ring.
Qed.
Lemma factors : forall rs p, NoDup rs -> length p = length rs -> (forall r, In r rs -> monic p r = C0) -> forall x, monic p x = roots_product rs x.
Proof.
  intros rs. induction rs as [|r rs IH]; intros p D L H x.
  - destruct p; [reflexivity|discriminate].
  - destruct (divide (length rs) p r) as (q & Lq & E); [exact L|]. pose proof (H r (or_introl eq_refl)) as Hr. cbn [roots_product fold_right]. change (fold_right (fun r0 acc => Cmul (Csub x r0) acc) C1 rs) with (roots_product rs x).
    inversion D; subst. rewrite <- (IH q); [|assumption|exact Lq|].
    + rewrite <- E, Hr. ring.
    + intros s Hs. pose proof (E s) as Es. rewrite (H s (or_intror Hs)), Hr in Es. symmetry in Es. replace (Csub C0 C0) with C0 in Es by ring. destruct (C_integral _ _ Es) as [Z|Z]; [|exact Z].
      exfalso. assert (s = r) by (replace s with (Cadd (Csub s r) r) by ring; rewrite Z; ring). subst s. contradiction.
Qed.
(* 1 + x^n *)
Lemma monic_zeros : forall n x, monic (repeat C0 n) x = Cpow x n.
Proof. intros n x. induction n as [|n IH]; [reflexivity|]. cbn [repeat monic Cpow]. rewrite IH. ring. Qed.
Lemma one_plus_power : forall n x, monic (C1 :: repeat C0 n) x = Cadd C1 (Cpow x (S n)).
Proof. intros n x. cbn [monic Cpow]. rewrite monic_zeros. reflexivity. Qed.

(** ** The roots of 1 + x^n *)
Definition root_angle (n k : nat) : R := (2 * INR k - 1) * PI / INR n.
Fixpoint root_pairs (n m : nat) : list C := match m with O => [] | S k => cis (root_angle n m) :: cis (- root_angle n m) :: root_pairs n k end.

Lemma root_angle_range : forall n k, (1 <= k)%nat -> (2 * k <= n)%nat -> 0 < root_angle n k < PI.
Proof.
  intros n k H1 H2. unfold root_angle. pose proof PI_RGT_0. assert (1 <= INR k) by (replace 1 with (INR 1) by reflexivity; apply le_INR; exact H1). assert (2 * INR k <= INR n) by (replace 2 with (INR 2) by (cbn; lra); rewrite <- mult_INR; apply le_INR; exact H2).
  split; [apply Rdiv_lt_0_compat; nra|]. apply (Rmult_lt_reg_r (INR n)); [lra|]. unfold Rdiv. rewrite Rmult_assoc, Rinv_l by lra. nra.
Qed.
Lemma root_angle_mono : forall n j k, (0 < n)%nat -> (j < k)%nat -> root_angle n j < root_angle n k.
Proof.
  intros n j k Hn H. unfold root_angle. apply Rmult_lt_compat_r; [apply Rinv_0_lt_compat, INR_pos, Hn|]. apply Rmult_lt_compat_r; [exact PI_RGT_0|]. apply lt_INR in H. lra.
Qed.
Lemma root_pair_in : forall n m z, In z (root_pairs n m) -> exists k, (1 <= k <= m)%nat /\ (z = cis (root_angle n k) \/ z = cis (- root_angle n k)).
Proof.
  intros n m. induction m as [|m IH]; intros z H; [destruct H|]. cbn [root_pairs] in H. destruct H as [<-|[<-|H]]; [exists (S m); split; [lia|left; reflexivity]|exists (S m); split; [lia|right; reflexivity]|].
  destruct (IH z H) as (k & Hk & E). exists k. split; [lia|exact E].
Qed.
Lemma cis_upper : forall a b, 0 < a < PI -> 0 < b < PI -> cis a = cis b -> a = b.
Proof.
  intros a b Ha Hb E. assert (Ec : cos a = cos b) by (change (cos a) with (re (cis a)); rewrite E; reflexivity). destruct (Rtotal_order a b) as [L|[L|L]]; [|exact L|].
  - assert (cos b < cos a) by (apply cos_decreasing_1; lra). lra.
  - assert (cos a < cos b) by (apply cos_decreasing_1; lra). lra.
Qed.
Lemma cis_halves : forall a b, 0 < a < PI -> 0 < b < PI -> cis a <> cis (- b).
Proof.
  intros a b Ha Hb E. assert (Es : sin a = sin (- b)) by (change (sin a) with (im (cis a)); rewrite E; reflexivity). rewrite sin_neg in Es. pose proof (sin_gt_0 a ltac:(lra) ltac:(lra)). pose proof (sin_gt_0 b ltac:(lra) ltac:(lra)). lra.
Qed.
Lemma cis_lower : forall a b, 0 < a < PI -> 0 < b < PI -> cis (- a) = cis (- b) -> a = b.
Proof. intros a b Ha Hb E. rewrite <- !cis_conj in E. apply cis_upper; [exact Ha|exact Hb|]. apply (f_equal Cconj) in E. unfold Cconj, re, im, cis in E. cbn [fst snd] in E. rewrite !Ropp_involutive in E. exact E. Qed.
Lemma root_pairs_nodup : forall n m, (0 < n)%nat -> (2 * m <= n)%nat -> NoDup (root_pairs n m).
Proof.
  intros n m Hn. induction m as [|m IH]; intros H; [constructor|]. cbn [root_pairs]. pose proof (root_angle_range n (S m) ltac:(lia) H) as Rm.
  assert (X : forall k, (1 <= k <= m)%nat -> 0 < root_angle n k < PI /\ root_angle n k < root_angle n (S m)) by (intros k Hk; split; [apply root_angle_range; lia|apply root_angle_mono; lia]).
  constructor; [|constructor; [|apply IH; lia]].
  - intros [E|I]; [symmetry in E; revert E; apply cis_halves; assumption|]. apply root_pair_in in I. destruct I as (k & Hk & [E|E]); destruct (X k Hk) as (Rk & Lk).
    + apply cis_upper in E; [lra|assumption|assumption].
    + revert E. apply cis_halves; assumption.
  - intros I. apply root_pair_in in I. destruct I as (k & Hk & [E|E]); destruct (X k Hk) as (Rk & Lk).
    + symmetry in E. revert E. apply cis_halves; assumption.
    + apply cis_lower in E; [lra|assumption|assumption].
Qed.
Lemma root_pairs_length : forall n m, length (root_pairs n m) = (2 * m)%nat.
Proof. intros n m. induction m as [|m IH]; [reflexivity|]. cbn [root_pairs length]. rewrite IH. lia. Qed.
Lemma cis_pi : cis PI = Copp C1.
Proof. unfold cis, Copp, C1, re, im. cbn [fst snd]. rewrite cos_PI, sin_PI. f_equal. ring. Qed.
Lemma cis_odd_pi : forall k, (1 <= k)%nat -> cis ((2 * INR k - 1) * PI) = Copp C1.
Proof. intros k H. replace ((2 * INR k - 1) * PI) with (PI + 2 * INR (k - 1) * PI) by (rewrite minus_INR by exact H; cbn [INR]; ring). rewrite cis_period. exact cis_pi. Qed.
Lemma root_pair_root : forall n m z, (0 < n)%nat -> In z (root_pairs n m) -> Cadd C1 (Cpow z n) = C0.
Proof.
  intros n m z Hn H. apply root_pair_in in H. destruct H as (k & Hk & E). pose proof (INR_pos n Hn) as P.
  assert (A : INR n * root_angle n k = (2 * INR k - 1) * PI) by (unfold root_angle; field; lra).
  destruct E as [-> | ->]; rewrite cis_pow.
  - rewrite A, cis_odd_pi by lia. ring.
  - replace (INR n * - root_angle n k) with (- (INR n * root_angle n k)) by ring. rewrite A, <- cis_conj, cis_odd_pi by lia. unfold Cconj, Copp, C1, Cadd, C0, re, im. cbn [fst snd]. f_equal; ring.
Qed.

(** ** The squared gain *)
Definition pair_factor (y a : R) : R := 1 + y * y - 2 * y * cos a.
Fixpoint pair_product (y : R) (n m : nat) : R := match m with O => 1 | S k => pair_factor y (root_angle n m) * pair_product y n k end.
Lemma pair_product_roots : forall y n m, roots_product (root_pairs n m) (RtoC y) = RtoC (pair_product y n m).
Proof.
  intros y n m. induction m as [|m IH]; [reflexivity|]. cbn [root_pairs roots_product fold_right pair_product]. change (fold_right (fun r acc => Cmul (Csub (RtoC y) r) acc) C1 (root_pairs n m)) with (roots_product (root_pairs n m) (RtoC y)). rewrite IH.
  rewrite <- RtoC_mul. assert (X : Cmul (Csub (RtoC y) (cis (root_angle n (S m)))) (Csub (RtoC y) (cis (- root_angle n (S m)))) = RtoC (pair_factor y (root_angle n (S m)))); [|rewrite <- X; ring].
  set (a := root_angle n (S m)). clearbody a. unfold pair_factor, Csub, Copp, Cadd, Cmul, RtoC, cis, re, im. cbn [fst snd]. rewrite cos_neg, sin_neg. pose proof (sin2_cos2 a) as S2. unfold Rsqr in S2. f_equal; [nra|ring].
Qed.
Lemma even_case : forall m y, (0 < m)%nat -> pair_product y (2 * m) m = 1 + y ^ (2 * m).
Proof.
  intros m y H. assert (X : monic (C1 :: repeat C0 (2 * m - 1)) (RtoC y) = roots_product (root_pairs (2 * m) m) (RtoC y)).
  { apply factors; [apply root_pairs_nodup; lia|rewrite root_pairs_length; cbn [length]; rewrite repeat_length; lia|]. intros r Hr. rewrite one_plus_power. replace (S (2 * m - 1)) with (2 * m)%nat by lia. apply (root_pair_root _ m); [lia|exact Hr]. }
  rewrite one_plus_power, pair_product_roots in X. replace (S (2 * m - 1)) with (2 * m)%nat in X by lia. rewrite Cpow_RtoC in X. change C1 with (RtoC 1) in X. rewrite RtoC_add in X. apply RtoC_inj in X. symmetry. exact X.
Qed.
Lemma odd_case : forall m y, (y + 1) * pair_product y (2 * m + 1) m = 1 + y ^ (2 * m + 1).
Proof.
  intros m y. assert (X : monic (C1 :: repeat C0 (2 * m)) (RtoC y) = roots_product (Copp C1 :: root_pairs (2 * m + 1) m) (RtoC y)).
  { apply factors.
    - constructor; [|apply root_pairs_nodup; lia]. intros I. apply root_pair_in in I. destruct I as (k & Hk & E). pose proof (root_angle_range (2 * m + 1) k ltac:(lia) ltac:(lia)) as Rk. pose proof (sin_gt_0 _ (proj1 Rk) (proj2 Rk)) as P.
      destruct E as [E|E]; apply (f_equal im) in E; unfold im, cis, Copp, C1 in E; cbn [fst snd] in E; rewrite ?sin_neg in E; unfold im in E; cbn [snd] in E; lra.
    - cbn [length]. rewrite root_pairs_length, repeat_length. lia.
    - intros r Hr. rewrite one_plus_power. replace (S (2 * m)) with (2 * m + 1)%nat by lia. destruct Hr as [<-|Hr]; [|apply (root_pair_root _ m); [lia|exact Hr]].
      rewrite <- cis_pi, cis_pow. replace (INR (2 * m + 1) * PI) with (PI + 2 * INR m * PI) by (rewrite plus_INR, mult_INR; cbn [INR]; ring). rewrite cis_period, cis_pi. ring. }
  rewrite one_plus_power in X. cbn [roots_product fold_right] in X. change (fold_right (fun r acc => Cmul (Csub (RtoC y) r) acc) C1 (root_pairs (2 * m + 1) m)) with (roots_product (root_pairs (2 * m + 1) m) (RtoC y)) in X. rewrite pair_product_roots in X.
  replace (S (2 * m)) with (2 * m + 1)%nat in X by lia. rewrite Cpow_RtoC in X. change C1 with (RtoC 1) in X. rewrite RtoC_add in X. replace (Csub (RtoC y) (Copp (RtoC 1))) with (RtoC (y + 1)) in X by (unfold Csub, Copp, Cadd, RtoC, re, im; cbn [fst snd]; f_equal; ring). rewrite RtoC_mul in X. apply RtoC_inj in X. symmetry. exact X.
Qed.

Lemma factor_norm : forall w n k, (0 < n)%nat -> Cnorm2 (butterworth_factor (Cmul Ci (RtoC w)) n k) = pair_factor (w * w) (root_angle n k).
Proof.
  intros w n k H. unfold butterworth_factor. set (t := (2 * INR k + INR n - 1) / (2 * INR n) * PI). assert (E : root_angle n k = 2 * t - PI). { unfold root_angle, t. pose proof (INR_pos n H). field. lra. }
  unfold pair_factor. rewrite E. rewrite cos_minus, cos_PI, sin_PI, cos_2a_cos. unfold Cnorm2, Csub, Copp, Cadd, Cmul, Ci, RtoC, C1, re, im. cbn [fst snd]. ring.
Qed.
Lemma fold_norm : forall w n m acc, (0 < n)%nat -> Cnorm2 (fold_left (fun product k => Cmul product (butterworth_factor (Cmul Ci (RtoC w)) n k)) (seq 1 m) acc) = Cnorm2 acc * pair_product (w * w) n m.
Proof.
  intros w n m acc H. revert acc. induction m as [|m IH]; intros acc; [cbn; ring|]. rewrite seq_S, fold_left_app. cbn [fold_left]. rewrite Cnorm2_mul, IH, factor_norm by exact H. cbn [pair_product]. replace (1 + m)%nat with (S m) by lia. ring.
Qed.
Lemma butterworth_norm : forall w n, (0 < n)%nat -> Cnorm2 (butterworth_product (Cmul Ci (RtoC w)) n) = 1 + (w ^ n) ^ 2.
Proof.
  intros w n H. unfold butterworth_product. destruct (Nat.odd n) eqn:O.
  - apply Nat.odd_spec in O. destruct O as (m & ->). replace ((2 * m + 1 - 1) / 2)%nat with m by (replace (2 * m + 1 - 1)%nat with (m * 2)%nat by lia; rewrite Nat.div_mul by lia; reflexivity).
    rewrite fold_norm by exact H. replace (Cnorm2 (Cadd (Cmul Ci (RtoC w)) C1)) with (w * w + 1) by (unfold Cnorm2, Cadd, Cmul, Ci, RtoC, C1, re, im; cbn [fst snd]; ring). rewrite odd_case. rewrite Rpow_mult_distr. ring.
  - assert (E : Nat.even n = true) by (unfold Nat.odd in O; destruct (Nat.even n); [reflexivity|discriminate]). apply Nat.even_spec in E. destruct E as (m & ->). replace ((2 * m) / 2)%nat with m by (rewrite Nat.mul_comm, Nat.div_mul by lia; reflexivity).
    rewrite fold_norm by exact H. rewrite even_case by lia. replace (Cnorm2 C1) with 1 by (unfold Cnorm2, C1, re, im; cbn; ring). rewrite Rpow_mult_distr. ring.
Qed.
