(** Proofs of C67: the PulseRepetition evaluator. *)
From Coq Require Import Reals List Arith Bool Lia Lra ZArith.
From Verif Require Import Base Complex ArrayModel FourierProofs ComponentModel ComponentSpec ComponentProofs FilterProofs GridProofs OpticsSpec StrengthProofs EvaluatorModel EvaluatorSpec EvaluatorProofs.
Import ListNotations.
Local Open Scope nat_scope.
Local Open Scope R_scope.

Lemma entry_exists : forall n w f, usable n w -> 0 <= f -> exists k, entry_above n w f k.
Proof.
  intros n w f (U & W) H. unfold entry_above. set (x := f * (w * INR (n - 1) / INR n)). pose proof (samples_big _ U).
  assert (P : 0 <= x). { unfold x. rewrite pred_INR by lia. apply Rmult_le_pos; [exact H|]. apply Rmult_le_pos; [apply Rmult_le_pos; lra|]. left. apply Rinv_0_lt_compat. lra. }
  exists (Z.to_nat (Int_part x + 1)). pose proof (floor_bounds x) as F. assert (Z : (0 <= Int_part x + 1)%Z). { apply le_IZR. rewrite plus_IZR. lra. }
  rewrite INR_IZR_INZ, Z2Nat.id by exact Z. rewrite plus_IZR. lra.
Qed.
Lemma entry_last : forall n w f k, usable n w -> entry_above n w f k -> ((n <= k)%nat <-> INR n / w <= f).
Proof.
  intros n w f k (U & W) (A & B). pose proof (samples_big _ U) as Pn. rewrite pred_INR in A, B by lia. set (N := INR n) in *. assert (E : f * (w * (N - 1) / N) = f * w / N * (N - 1)) by (field; lra). rewrite E in A, B.
  assert (Q : N / w <= f <-> 1 <= f * w / N).
  { split; intros H.
    - apply (Rmult_le_reg_r (N / w)); [apply Rdiv_lt_0_compat; lra|]. replace (f * w / N * (N / w)) with f by (field; lra). lra.
    - apply (Rmult_le_reg_r (w / N)); [apply Rdiv_lt_0_compat; lra|]. replace (N / w * (w / N)) with 1 by (field; lra). replace (f * (w / N)) with (f * w / N) by (field; lra). exact H. }
  rewrite Q. split; intros H.
  - assert (N <= INR k) by (apply le_INR; exact H). apply (Rmult_le_reg_r (N - 1)); lra.
  - assert (N - 1 <= f * w / N * (N - 1)). { rewrite <- (Rmult_1_l (N - 1)) at 1. apply Rmult_le_compat_r; lra. } assert (X : INR (n - 1) < INR k) by (rewrite pred_INR by lia; fold N; lra). apply INR_lt in X. lia.
Qed.

(* C67: when the evaluator fails *)
Lemma pulse_errors : forall p target rep_t state, usable (n_samples p) (window_t p) -> length target = n_samples p -> length state = n_samples p -> 0 < rep_t ->
  (rep_t <= window_t p / INR (n_samples p) -> pulse_score p target rep_t state = Err IndexError) /\
  (window_t p / INR (n_samples p) < rep_t -> exists s, pulse_score p target rep_t state = Ok s).
Proof.
  intros p target rep_t state U Lt Ls Hr. assert (F : 0 < 1 / rep_t) by (apply Rdiv_lt_0_compat; lra). destruct (entry_exists (n_samples p) (window_t p) (1 / rep_t) U ltac:(lra)) as (k & K). pose proof (entry_last _ _ _ _ U K) as E. destruct U as (Un & W). pose proof (samples_big _ Un) as Pn. set (N := INR (n_samples p)) in *.
  assert (Q : rep_t <= window_t p / N <-> N / window_t p <= 1 / rep_t).
  { assert (X : N / window_t p = / (window_t p / N)) by (field; lra). assert (V : 0 < window_t p / N) by (apply Rdiv_lt_0_compat; lra). rewrite X. unfold Rdiv at 3. rewrite Rmult_1_l. split; intros H.
    - apply Rinv_le_contravar; assumption.
    - rewrite <- (Rinv_inv rep_t), <- (Rinv_inv (window_t p / N)). apply Rinv_le_contravar; [apply Rinv_0_lt_compat; exact V|exact H]. }
  split; intros H.
  - apply (pulse_out p target rep_t k (conj Un W) Lt Hr K state Ls). apply E. apply Q. exact H.
  - assert (L : (k < n_samples p)%nat). { destruct (lt_dec k (n_samples p)) as [L|L]; [exact L|]. exfalso. assert (N / window_t p <= 1 / rep_t) by (apply E; lia). apply Q in H0. lra. }
    destruct (pulse_in p target rep_t k (conj Un W) Lt Hr K state Ls L) as (A & B & D). destruct (Req_dec (Cnorm2 (harmonic_at state k)) 0) as [Z|Z].
    + eexists. apply A. apply Cnorm2_zero. exact Z.
    + assert (Z' : harmonic_at state k <> C0) by (intros X; apply Z; rewrite X; cplx; ring). destruct (Req_dec (Cnorm2 (harmonic_at (magnitudes target) k)) 0) as [T|T].
      * eexists. apply B; [exact Z'|]. apply Cnorm2_zero. exact T.
      * destruct D as (y & _ & _ & D); [exact Z'|intros X; apply T; rewrite X; cplx; ring|]. eexists. exact D.
Qed.

(** ** How large the score is *)
Lemma magnitudes_length : forall x, length (magnitudes x) = length x.
Proof. intros x. apply map_length. Qed.
Lemma magnitudes_nth : forall x i, nth i (magnitudes x) C0 = RtoC (sqrt (Cnorm2 (nth i x C0))).
Proof. intros x i. unfold magnitudes. rewrite (map_nth_d (fun z => RtoC (sqrt (Cnorm2 z))) x i C0 C0); [reflexivity|]. unfold Cnorm2, C0, RtoC, re, im. cbn [fst snd]. replace (0 * 0 + 0 * 0) with 0 by ring. rewrite sqrt_0. reflexivity. Qed.
Lemma magnitudes_energy : forall x, energy (magnitudes x) = energy x.
Proof. intros x. unfold energy. rewrite !list_energy, magnitudes_length. apply rsum_ext. intros i _. rewrite magnitudes_nth, Cnorm2_RtoC, sqrt_sqrt by apply Cnorm2_nonneg. reflexivity. Qed.
Lemma magnitudes_strength : forall x, strength (magnitudes x) = strength x.
Proof. intros x. unfold strength. rewrite magnitudes_energy. reflexivity. Qed.
Lemma misfit_bounds : forall x y, length x = length y -> (strength x - strength y) ^ 2 <= misfit x y <= (strength x + strength y) ^ 2.
Proof.
  intros x y L. set (n := length y) in *. set (d := norm n (fun i => Csub (nth i x C0) (nth i y C0))). assert (Q : misfit x y = d * d) by (unfold d; rewrite norm_square; reflexivity).
  rewrite <- (norm_strength n x L), <- (norm_strength n y eq_refl). set (a := norm n (fun t => nth t x C0)). set (b := norm n (fun t => nth t y C0)).
  assert (N : forall f, norm n (fun i => Copp (f i)) = norm n f). { intros f. rewrite (norm_ext n _ (fun i => Cmul (RtoC (-1)) (f i))) by (intros i _; cplx; f_equal; ring). rewrite norm_scaled, Cnorm2_RtoC. replace (-1 * -1) with 1 by ring. rewrite sqrt_1. ring. }
  assert (A : d <= a + b). { unfold d, a, b. rewrite <- (N (fun t => nth t y C0)). apply (minkowski n (fun t => nth t x C0) (fun t => Copp (nth t y C0))). }
  assert (B : a <= d + b). { unfold a. rewrite (norm_ext n _ (fun i => Cadd (Csub (nth i x C0) (nth i y C0)) (nth i y C0))) by (intros i _; ring). apply minkowski. }
  assert (D : b <= d + a). { unfold b. rewrite (norm_ext n _ (fun i => Cadd (Copp (Csub (nth i x C0) (nth i y C0))) (nth i x C0))) by (intros i _; ring). eapply Rle_trans; [apply minkowski|]. rewrite N. apply Rle_refl. }
  pose proof (norm_nonneg n (fun i => Csub (nth i x C0) (nth i y C0))) as Pd. fold d in Pd. pose proof (norm_nonneg n (fun t => nth t x C0)) as Pa. fold a in Pa. pose proof (norm_nonneg n (fun t => nth t y C0)) as Pb. fold b in Pb. rewrite Q. split; nra.
Qed.
Lemma misfit_zero : forall x y, length x = length y -> (misfit x y = 0 <-> x = y).
Proof.
  intros x y L. split.
  - intros H. apply (list_eq_nth C0); [exact L|]. intros i Hi. rewrite L in Hi. assert (Z : Cnorm2 (Csub (nth i x C0) (nth i y C0)) = 0).
    { apply Rle_antisym; [|apply Cnorm2_nonneg]. rewrite <- H. unfold misfit. clear H L. set (f := fun i => Cnorm2 (Csub (nth i x C0) (nth i y C0))). change (f i <= rsum (length y) f). assert (P : forall j, 0 <= f j) by (intros j; apply Cnorm2_nonneg). generalize dependent (length y). induction n as [|n IH]; intros Hi; [lia|]. cbn [rsum].
      destruct (Nat.eq_dec i n) as [->|N]; [pose proof (rsum_nonneg n f (fun j _ => P j)); lra|]. specialize (IH ltac:(lia)). specialize (P n). lra. }
    apply Cnorm2_zero in Z. transitivity (Cadd (Csub (nth i x C0) (nth i y C0)) (nth i y C0)); [ring|]. rewrite Z. ring.
  - intros ->. unfold misfit. rewrite (rsum_ext _ _ (fun _ => 0)); [rewrite rsum_const; ring|]. intros i _. cplx. ring.
Qed.
Lemma pulse_value : forall p target rep_t state s, usable (n_samples p) (window_t p) -> length target = n_samples p -> length state = n_samples p -> 0 < rep_t -> real_field state ->
  pulse_score p target rep_t state = Ok (Some s) -> exists y, length y = n_samples p /\ energy y = energy state /\ s = RtoC (misfit y (magnitudes target)).
Proof.
  intros p target rep_t state s U Lt Ls Hr Rf E. assert (F : 0 < 1 / rep_t) by (apply Rdiv_lt_0_compat; lra). destruct (entry_exists (n_samples p) (window_t p) (1 / rep_t) U ltac:(lra)) as (k & K).
  destruct (lt_dec k (n_samples p)) as [L|L]; [|rewrite (pulse_out p target rep_t k U Lt Hr K state Ls ltac:(lia)) in E; discriminate]. destruct (pulse_in p target rep_t k U Lt Hr K state Ls L) as (A & B & D). destruct (Req_dec (Cnorm2 (harmonic_at state k)) 0) as [Z|Z].
  - exists state. split; [exact Ls|]. split; [reflexivity|]. apply Cnorm2_zero in Z. rewrite (A Z) in E. injection E as <-. unfold misfit. rewrite magnitudes_length, Lt, <- csum_RtoC. apply csum_ext. intros i Hi.
    assert (I : im (nth i state C0) = 0) by (apply Rf; apply nth_In; lia). rewrite magnitudes_nth. destruct (nth i state C0) as [a b]. unfold im in I. cbn [snd] in I. subst b. cplx. f_equal; ring.
  - assert (Z' : harmonic_at state k <> C0) by (intros X; apply Z; rewrite X; cplx; ring). destruct (Req_dec (Cnorm2 (harmonic_at (magnitudes target) k)) 0) as [T|T].
    + apply Cnorm2_zero in T. rewrite (B Z' T) in E. discriminate.
    + destruct D as (y & I & Ly & D); [exact Z'|intros X; apply T; rewrite X; cplx; ring|]. rewrite D in E. injection E as <-. exists (magnitudes y). split; [rewrite magnitudes_length; exact Ly|]. split; [|reflexivity]. rewrite magnitudes_energy. exact (aligned_energy p target rep_t Lt _ state y Ls I).
Qed.
Lemma pulse_bounds : forall p target rep_t state s, usable (n_samples p) (window_t p) -> length target = n_samples p -> length state = n_samples p -> 0 < rep_t -> real_field state ->
  pulse_score p target rep_t state = Ok (Some s) -> im s = 0 /\ (strength state - strength target) ^ 2 <= re s <= (strength state + strength target) ^ 2.
Proof.
  intros p target rep_t state s U Lt Ls Hr Rf E. destruct (pulse_value p target rep_t state s U Lt Ls Hr Rf E) as (y & Ly & En & ->). split; [reflexivity|]. change (re (RtoC (misfit y (magnitudes target)))) with (misfit y (magnitudes target)).
  assert (S : strength y = strength state) by (unfold strength; rewrite En; reflexivity). rewrite <- S, <- (magnitudes_strength target). apply misfit_bounds. rewrite magnitudes_length. lia.
Qed.

(** ** Delays *)
Lemma ifft_turned : forall c x y, Cnorm2 c = 1 -> ifft x = Ok y -> exists z, ifft (map (Cmul c) x) = Ok z /\ magnitudes z = magnitudes y.
Proof.
  intros c x y N I. destruct (ifft_ok _ _ I) as (L & P & V). destruct (ifft_total (map (Cmul c) x)) as (z & J); [rewrite map_length; exact P|]. exists z. split; [exact J|]. destruct (ifft_ok _ _ J) as (L' & _ & V'). rewrite map_length in *. apply (list_eq_nth C0); [rewrite !magnitudes_length; lia|].
  rewrite magnitudes_length. intros i Hi. rewrite !magnitudes_nth. f_equal. f_equal. rewrite V, V' by lia. rewrite (csum_ext (length x) _ (fun k => Cmul c (Cmul (nth k x C0) (cis (2 * PI * INR i * INR k / INR (length x)))))).
  2: { intros k Hk. rewrite (map_nth_d (Cmul c) x k C0 C0) by ring. ring. } rewrite csum_scale, !Cnorm2_mul, N. ring.
Qed.
(* the entry of the spectrum that the evaluator takes is the harmonic of the repetition *)
Lemma repetition_entry : forall n w P k, usable n w -> (2 <= P)%nat -> n = (k * P)%nat -> entry_above n w (1 / (INR P * (w / INR (n - 1)))) k.
Proof.
  intros n w P k (U & W) HP E. unfold entry_above. pose proof (samples_big _ U) as Pn. rewrite pred_INR by lia. set (N := INR n) in *. assert (PP : 2 <= INR P) by (apply samples_big; exact HP). assert (EN : N = INR k * INR P) by (unfold N; rewrite E, mult_INR; reflexivity).
  replace (1 / (INR P * (w / (N - 1))) * (w * (N - 1) / N)) with ((N - 1) * (N - 1) / (INR P * N)) by (field; repeat split; lra).
  assert (D : 0 < INR P * N) by (apply Rmult_lt_0_compat; lra). split.
  - apply (Rmult_le_reg_r (INR P * N)); [exact D|]. replace ((N - 1) * (N - 1) / (INR P * N) * (INR P * N)) with ((N - 1) * (N - 1)) by (field; lra). replace ((INR k - 1) * (INR P * N)) with (N * N - INR P * N) by (rewrite EN; ring). nra.
  - apply (Rmult_lt_reg_r (INR P * N)); [exact D|]. replace ((N - 1) * (N - 1) / (INR P * N) * (INR P * N)) with ((N - 1) * (N - 1)) by (field; lra). replace (INR k * (INR P * N)) with (N * N) by (rewrite EN; ring). nra.
Qed.
Lemma advanced_length : forall m x y, advanced m x y -> length y = length x.
Proof. intros m x y (L & _). exact L. Qed.
Lemma pulse_rotation : forall p target P m x y, usable (n_samples p) (window_t p) -> length target = n_samples p -> length x = n_samples p -> (2 <= P)%nat -> Nat.divide P (n_samples p) ->
  repeats P x -> harmonic_at x (n_samples p / P) <> C0 -> advanced m x y ->
  pulse_score p target (INR P * (window_t p / INR (n_samples p - 1))) y = pulse_score p target (INR P * (window_t p / INR (n_samples p - 1))) x.
Proof.
  intros p target P m x y U Lt Lx HP (k & Dv) Rp Hx Ad. set (n := n_samples p) in *. assert (Pn : (0 < n)%nat) by (unfold n; destruct U; lia). assert (Ek : (n / P = k)%nat) by (rewrite Dv; apply Nat.div_mul; lia). rewrite Ek in Hx. set (rep_t := INR P * (window_t p / INR (n - 1))).
  pose proof (advanced_length m x y Ad) as Ly. rewrite Lx in Ly. assert (Kn : (k < n)%nat) by nia. assert (Pk : (0 < k)%nat) by nia. pose proof (INR_pos n Pn) as Nn. pose proof (INR_pos k Pk) as Nk. assert (NP : 0 < INR P) by (apply INR_pos; lia).
  assert (Hr : 0 < rep_t). { unfold rep_t. destruct U as (Un & W). apply Rmult_lt_0_compat; [exact NP|]. apply Rdiv_lt_0_compat; [exact W|]. apply INR_pos. unfold n. lia. }
  assert (K : entry_above n (window_t p) (1 / rep_t) k) by (apply repetition_entry; assumption). assert (EN : INR n = INR k * INR P) by (rewrite Dv, mult_INR; reflexivity).
  assert (H : forall i, (i < n)%nat -> harmonic_at y i = Cmul (harmonic_at x i) (cis (2 * PI * INR i * INR m / INR n))) by (intros i Hi; rewrite (advanced_fft m x y i) by (try exact Ad; lia); rewrite Lx; reflexivity).
  assert (Hy : harmonic_at y k <> C0). { rewrite (H k Kn). intros X. apply C_integral in X as [X|X]; [contradiction|]. pose proof (cis_norm (2 * PI * INR k * INR m / INR n)) as Q. rewrite X in Q. unfold Cnorm2, C0, re, im in Q. cbn [fst snd] in Q. lra. }
  destruct (pulse_in p target rep_t k U Lt Hr K x Lx Kn) as (_ & Bx & Dx). destruct (pulse_in p target rep_t k U Lt Hr K y Ly Kn) as (_ & By & Dy). set (t := harmonic_at (magnitudes target) k) in *.
  destruct (Req_dec (Cnorm2 t) 0) as [T|T]; [apply Cnorm2_zero in T; rewrite (Bx Hx T), (By Hy T); reflexivity|]. assert (T' : t <> C0) by (intros X; apply T; rewrite X; cplx; ring).
  destruct (Dx Hx T') as (a & Ia & La & ->). destruct (Dy Hy T') as (b & Ib & Lb & ->). clear Bx Dx By Dy. do 3 f_equal. enough (M : magnitudes b = magnitudes a) by (rewrite M; reflexivity).
  assert (Dn : Cdiv (harmonic_at x k) t <> C0). { unfold Cdiv. intros X. apply C_integral in X as [X|X]; [contradiction|]. pose proof (Cinv_r t T') as Q. rewrite X in Q. apply (f_equal fst) in Q. unfold Cmul, C0, C1, re, im in Q. cbn [fst snd] in Q. lra. }
  destruct (angle_turned (Cdiv (harmonic_at x k) t) (2 * PI * INR k * INR m / INR n) Dn) as (j & An).
  assert (Ey : Cdiv (harmonic_at y k) t = Cmul (cis (2 * PI * INR k * INR m / INR n)) (Cdiv (harmonic_at x k) t)) by (rewrite (H k Kn); unfold Cdiv; ring). rewrite Ey, An in Ib. set (ph := angle (Cdiv (harmonic_at x k) t)) in *. clearbody ph. clear An Ey Dn.
  set (hh := INR (n - n / 2)). set (c := cis (- (2 * PI * INR m * hh / INR n) - 2 * PI * IZR j * hh / INR k)).
  destruct (ifft_turned c _ _ (cis_norm _) Ia) as (z & Iz & Mz). rewrite <- Mz. enough (Q : map (Cmul c) (aligned p rep_t ph x) = aligned p rep_t (ph + 2 * PI * INR k * INR m / INR n + 2 * PI * IZR j) y) by (rewrite Q in Iz; rewrite Iz in Ib; injection Ib as <-; reflexivity).
  apply (list_eq_nth C0); [rewrite map_length; unfold aligned; rewrite !tabulate_length; reflexivity|]. intros i Hi. rewrite map_length in Hi. unfold aligned in Hi. rewrite tabulate_length in Hi. rewrite (map_nth_d (Cmul c) _ i C0 C0) by ring. unfold aligned. rewrite !tabulate_nth by exact Hi. rewrite (H i Hi).
  destruct (repeats_harmonics P k x i) as [Z|(q & Dq)]; [lia|rewrite Lx; exact Dv|exact Rp|rewrite Lx; exact Hi|rewrite Z; ring|].
  destruct (steps_nth p target Lt i Hi) as (w & Es). fold n in Es |- *. rewrite Es. fold hh.
  assert (Rt : rep_t / grid_dt p = INR P). { unfold rep_t. rewrite grid_dt_val. fold n. destruct U as (Un & W). assert (0 < INR (n - 1)) by (apply INR_pos; unfold n; lia). field. split; lra. } rewrite Rt.
  unfold c. transitivity (Cmul (harmonic_at x i) (Cmul (cis (- (2 * PI * INR m * hh / INR n) - 2 * PI * IZR j * hh / INR k)) (cis (- (ph * INR P * ((INR i + hh - INR w * INR n) / INR n)))))); [ring|].
  transitivity (Cmul (harmonic_at x i) (Cmul (cis (2 * PI * INR i * INR m / INR n)) (cis (- ((ph + 2 * PI * INR k * INR m / INR n + 2 * PI * IZR j) * INR P * ((INR i + hh - INR w * INR n) / INR n)))))); [|ring].
  f_equal. rewrite <- !cis_add. assert (Ei : INR i = INR q * INR k) by (rewrite Dq, mult_INR; reflexivity).
  replace (2 * PI * INR i * INR m / INR n + - ((ph + 2 * PI * INR k * INR m / INR n + 2 * PI * IZR j) * INR P * ((INR i + hh - INR w * INR n) / INR n)))
    with (- (2 * PI * INR m * hh / INR n) - 2 * PI * IZR j * hh / INR k + - (ph * INR P * ((INR i + hh - INR w * INR n) / INR n)) + 2 * PI * IZR (Z.of_nat (m * w) - j * Z.of_nat q + j * Z.of_nat (P * w))).
  - rewrite (cis_add _ (2 * PI * IZR _)), cis_Z. ring.
  - rewrite plus_IZR, minus_IZR, !mult_IZR, <- !INR_IZR_INZ, !mult_INR, Ei, EN. field. split; lra.
Qed.
Lemma pulse_target : forall p target P m y, usable (n_samples p) (window_t p) -> length target = n_samples p -> (2 <= P)%nat -> Nat.divide P (n_samples p) ->
  repeats P (magnitudes target) -> harmonic_at (magnitudes target) (n_samples p / P) <> C0 -> advanced m (magnitudes target) y ->
  pulse_score p target (INR P * (window_t p / INR (n_samples p - 1))) y = Ok (Some C0).
Proof.
  intros p target P m y U Lt HP Dv Rp Hx Ad. assert (Lm : length (magnitudes target) = n_samples p) by (rewrite magnitudes_length; exact Lt). rewrite (pulse_rotation p target P m (magnitudes target) y U Lt Lm HP Dv Rp Hx Ad). destruct Dv as (k & Dv). set (n := n_samples p) in *. assert (Pn : (0 < n)%nat) by (unfold n; destruct U; lia).
  assert (Ek : (n / P = k)%nat) by (rewrite Dv; apply Nat.div_mul; lia). rewrite Ek in Hx. set (rep_t := INR P * (window_t p / INR (n - 1))). assert (NP : 0 < INR P) by (apply INR_pos; lia).
  assert (Hr : 0 < rep_t). { unfold rep_t. destruct U as (Un & W). apply Rmult_lt_0_compat; [exact NP|]. apply Rdiv_lt_0_compat; [exact W|]. apply INR_pos. unfold n. lia. }
  assert (K : entry_above n (window_t p) (1 / rep_t) k) by (apply repetition_entry; assumption). assert (Kn : (k < n)%nat) by nia.
  destruct (pulse_in p target rep_t k U Lt Hr K (magnitudes target) Lm Kn) as (_ & _ & D). destruct (D Hx Hx) as (z & I & Lz & ->). do 2 f_equal. assert (E : z = magnitudes target).
  { assert (A1 : angle (Cdiv (harmonic_at (magnitudes target) k) (harmonic_at (magnitudes target) k)) = 0) by (unfold Cdiv; rewrite Cinv_r by exact Hx; apply angle_1). rewrite A1 in I. destruct (fft_total (magnitudes target)) as (s & F); [lia|]. destruct (fft_ok _ _ F) as (Ls & _ & _).
    assert (Q : aligned p rep_t 0 (magnitudes target) = s).
    { apply (list_eq_nth C0); [unfold aligned; rewrite tabulate_length; fold n; lia|]. unfold aligned. rewrite tabulate_length. intros i Hi. rewrite tabulate_nth by exact Hi. rewrite (harmonic_fft _ s i F) by lia. rewrite !Rmult_0_l, Ropp_0, cis_0. ring. }
    rewrite Q in I. exact (ifft_fft _ _ _ F I). }
  subst z. assert (MM : magnitudes (magnitudes target) = magnitudes target). { unfold magnitudes. rewrite map_map. apply map_ext. intros z. f_equal. rewrite Cnorm2_RtoC. apply sqrt_square. apply sqrt_pos. }
  rewrite MM. replace (misfit (magnitudes target) (magnitudes target)) with 0; [reflexivity|]. symmetry. apply misfit_zero; reflexivity.
Qed.

(** ** A pulse that does not repeat within the window is not recognised *)
Lemma cis_quarter : forall q : Z, cis (PI / 2 * IZR q) = match (q mod 4)%Z with 0%Z => C1 | 1%Z => Ci | 2%Z => (-1, 0) | _ => (0, -1) end.
Proof.
  intros q. pose proof (Z.div_mod q 4 ltac:(lia)) as D. pose proof (Z.mod_pos_bound q 4 ltac:(lia)) as B. set (r := (q mod 4)%Z) in *. rewrite D, plus_IZR, mult_IZR. replace (PI / 2 * (4 * IZR (q / 4) + IZR r)) with (2 * PI * IZR (q / 4) + PI / 2 * IZR r) by field. rewrite cis_add, cis_Z.
  assert (R4 : r = 0%Z \/ r = 1%Z \/ r = 2%Z \/ r = 3%Z) by lia. destruct R4 as [->|[->|[->| ->]]].
  - replace (PI / 2 * 0) with 0 by ring. rewrite cis_0. ring.
  - replace (PI / 2 * 1) with (PI / 2) by ring. unfold cis. rewrite cos_PI2, sin_PI2. unfold Ci. ring.
  - replace (PI / 2 * 2) with PI by field. unfold cis. rewrite cos_PI, sin_PI. ring.
  - replace (PI / 2 * 3) with (3 * (PI / 2)) by ring. unfold cis. rewrite cos_3PI2, sin_3PI2. ring.
Qed.
Ltac quarter q := match goal with |- context [cis ?a] => replace (cis a) with (cis (PI / 2 * IZR q)) by (f_equal; simpl INR; field) end; rewrite (cis_quarter q); repeat match goal with |- context [(?a mod 4)%Z] => let v := eval vm_compute in (a mod 4)%Z in change (a mod 4)%Z with v end; cbn iota; unfold Ci.
Lemma harmonic_4 : forall a b c d i, harmonic_at [a; b; c; d] i =
  Cadd (Cadd (Cadd a (Cmul b (cis (PI / 2 * IZR (- Z.of_nat i))))) (Cmul c (cis (PI / 2 * IZR (- (2 * Z.of_nat i)))))) (Cmul d (cis (PI / 2 * IZR (- (3 * Z.of_nat i))))).
Proof.
  intros a b c d i. unfold harmonic_at. cbn [length csum nth]. rewrite !opp_IZR, !mult_IZR, <- INR_IZR_INZ.
  replace (- (2 * PI * INR 0 * INR i / INR 4)) with 0 by (simpl INR; field). replace (- (2 * PI * INR 1 * INR i / INR 4)) with (PI / 2 * - INR i) by (simpl; field).
  replace (- (2 * PI * INR 2 * INR i / INR 4)) with (PI / 2 * - (2 * INR i)) by (simpl; field). replace (- (2 * PI * INR 3 * INR i / INR 4)) with (PI / 2 * - (3 * INR i)) by (simpl; field). rewrite cis_0. ring.
Qed.
Definition grid4 : grid := mkGrid 4 3 1.
Definition pulse4 : list C := [C1; C0; C0; C0].
Definition late4 : list C := [C0; C1; C0; C0].
Lemma magnitudes_pulse4 : magnitudes pulse4 = pulse4.
Proof. unfold magnitudes, pulse4. cbn [map]. assert (Z : sqrt (Cnorm2 C0) = 0) by (unfold Cnorm2, C0, re, im; cbn [fst snd]; replace (0 * 0 + 0 * 0) with 0 by ring; apply sqrt_0). assert (O : sqrt (Cnorm2 C1) = 1) by (unfold Cnorm2, C1, re, im; cbn [fst snd]; replace (1 * 1 + 0 * 0) with 1 by ring; apply sqrt_1). rewrite Z, O. reflexivity. Qed.
Lemma steps_grid4 : map (fun x => x / INR 4) (fft_shift_ (linspace 0 (INR (4 - 1)) 4)) = [1 / 2; 3 / 4; 0; 1 / 4].
Proof. unfold linspace, tabulate, fft_shift_. cbn [map seq length app skipn firstn Nat.sub Nat.div Nat.divmod fst]. simpl INR. repeat (apply (f_equal2 (@cons R)); [field|]). reflexivity. Qed.
Lemma angle_minus : angle (-1, 0) = PI.
Proof.
  unfold angle, Cabs, Cnorm2, re, im. cbn [fst snd]. destruct (Req_EM_T (-1 * -1 + 0 * 0) 0) as [E|_]; [lra|]. destruct (Rle_dec 0 0) as [_|N]; [|lra]. replace (-1 * -1 + 0 * 0) with 1 by ring. rewrite sqrt_1. replace (-1 / 1) with (Ropp 1) by field. rewrite acos_opp, acos_1. ring.
Qed.
Lemma grid4_usable : usable (n_samples grid4) (window_t grid4).
Proof. split; cbn [n_samples window_t grid4]; [lia|lra]. Qed.
Lemma late_score : pulse_score grid4 pulse4 2 late4 = Ok (Some (RtoC 2)).
Proof.
  assert (K : entry_above 4 3 (1 / 2) 2) by (unfold entry_above; simpl INR; split; lra).
  assert (H2 : harmonic_at late4 2 = (-1, 0)). { unfold late4. rewrite harmonic_4. rewrite !cis_quarter. cbn [Z.of_nat Pos.of_succ_nat Pos.succ Z.opp Z.mul Pos.mul]. change (-2 mod 4)%Z with 2%Z. change (-4 mod 4)%Z with 0%Z. change (-6 mod 4)%Z with 2%Z. cbn iota. cplx. f_equal; ring. }
  assert (T2 : harmonic_at (magnitudes pulse4) 2 = C1). { rewrite magnitudes_pulse4. unfold pulse4. rewrite harmonic_4. ring. }
  assert (Hr : 0 < 2) by lra. destruct (pulse_in grid4 pulse4 2 2 grid4_usable eq_refl Hr K late4 eq_refl) as (_ & _ & D); [cbn [n_samples grid4]; lia|]. rewrite H2, T2 in D.
  destruct D as (y & I & Ly & E). { intros X. apply (f_equal fst) in X. cbn in X. lra. } { intros X. apply (f_equal fst) in X. cbn in X. lra. }
  rewrite E. do 2 f_equal. assert (A : Cdiv (-1, 0) C1 = (-1, 0)). { unfold Cdiv. assert (X : Cinv C1 = C1). { transitivity (Cmul C1 (Cinv C1)); [ring|]. apply Cinv_r. intros X. apply (f_equal fst) in X. cbn in X. lra. } rewrite X. ring. } rewrite A, angle_minus in I. clear A.
  assert (Y : y = [C0; C0; (-1, 0); C0]).
  { set (w := [C0; C0; (-1, 0); C0]). destruct (fft_total w) as (s & F); [cbn; lia|]. destruct (fft_ok _ _ F) as (Ls & _ & _). cbn [w length] in Ls.
    assert (Q : aligned grid4 2 PI late4 = s).
    { apply (list_eq_nth C0); [unfold aligned; rewrite tabulate_length; cbn [n_samples grid4]; lia|]. unfold aligned. rewrite tabulate_length. cbn [n_samples grid4]. intros i Hi. rewrite tabulate_nth by exact Hi. rewrite (harmonic_fft w s i F) by exact Hi.
      rewrite steps_grid4. assert (Dt : grid_dt grid4 = 1) by (rewrite grid_dt_val; cbn [n_samples window_t grid4 Nat.sub]; simpl INR; field). rewrite Dt. unfold w, late4. rewrite !harmonic_4, !cis_quarter.
      assert (I4 : (i = 0 \/ i = 1 \/ i = 2 \/ i = 3)%nat) by lia. destruct I4 as [->|[->|[->| ->]]]; cbn [nth Z.of_nat Pos.of_succ_nat Pos.succ Z.opp Z.mul Pos.mul].
      - quarter (-2)%Z. cplx. f_equal; ring.
      - quarter (-3)%Z. cplx. f_equal; ring.
      - quarter 0%Z. cplx. f_equal; ring.
      - quarter (-1)%Z. cplx. f_equal; ring. }
    rewrite Q in I. exact (ifft_fft _ _ _ F I). }
  subst y. rewrite magnitudes_pulse4. unfold misfit. cbn [pulse4 length rsum]. rewrite !magnitudes_nth. cbn [nth]. f_equal. unfold Cnorm2, C0, C1, RtoC, Csub, Cadd, Copp, re, im. cbn [fst snd]. replace (0 * 0 + 0 * 0) with 0 by ring. replace (-1 * -1 + 0 * 0) with 1 by ring. rewrite sqrt_0, sqrt_1. cbn [pulse4 nth C0 C1 fst snd]. ring.
Qed.
