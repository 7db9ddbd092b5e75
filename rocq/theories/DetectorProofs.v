(** Filters and photodiode. *)
From Coq Require Import Reals Lra Lia List Arith ZArith.
From Verif Require Import Base Complex ArrayModel FourierProofs ComponentModel ComponentSpec FilterProofs ComponentProofs ShaperProofs GridProofs DetectorModel DetectorSpec ButterworthProofs.
Import ListNotations.
Local Open Scope R_scope.

(** ** The mask of the Butterworth filter *)
Definition iw (w : R) : C := Cmul Ci (RtoC w).
Lemma product_nz : forall w n, (0 < n)%nat -> butterworth_product (iw w) n <> C0.
Proof.
  intros w n H E. pose proof (butterworth_norm w n H) as N. fold (iw w) in N. rewrite E in N. unfold Cnorm2, C0, re, im in N. cbn [fst snd] in N. nra.
Qed.
Definition lowpass_entry (f0 g : R) (n : nat) (f : R) : C := Cdiv (RtoC g) (butterworth_product (iw (f / f0)) n).
Lemma lowpass_plain : forall p f0 g n, (0 < n)%nat -> butterworth_lowpass p f0 g (Z.of_nat n) = Ok (map (lowpass_entry f0 g n) (ifft_shift_ (grid_f p))).
Proof.
  intros p f0 g n H. unfold butterworth_lowpass, butterworth_polynomial. replace (Z.of_nat n <? 0)%Z with false by (symmetry; apply Z.ltb_ge; lia). cbn [bind]. replace (Z.of_nat n =? 0)%Z with false by (symmetry; apply Z.eqb_neq; lia).
  rewrite Nat2Z.id, !map_map, ifft_shift_map. reflexivity.
Qed.
Lemma entry_norm : forall f0 g n f, (0 < n)%nat -> Cnorm2 (lowpass_entry f0 g n f) = g * g * lowpass_gain n (f / f0).
Proof.
  intros f0 g n f H. unfold lowpass_entry, Cdiv. rewrite Cnorm2_mul, Cnorm2_inv, Cnorm2_RtoC by (apply product_nz; exact H). unfold iw. rewrite butterworth_norm by exact H. unfold lowpass_gain, Rdiv. rewrite Rmult_1_l. reflexivity.
Qed.
Lemma gain_range : forall n f, 0 < lowpass_gain n f <= 1.
Proof.
  intros n f. unfold lowpass_gain. assert (0 <= (f ^ n) ^ 2) by (replace ((f ^ n) ^ 2) with (Rsqr (f ^ n)) by (unfold Rsqr; ring); apply Rle_0_sqr). split; [apply Rdiv_lt_0_compat; lra|]. apply (Rmult_le_reg_r (1 + (f ^ n) ^ 2)); [lra|]. unfold Rdiv. rewrite Rmult_assoc, Rinv_l by lra. lra.
Qed.
Lemma gain_corner : forall n, (0 < n)%nat -> lowpass_gain n 1 = 1 / 2 /\ lowpass_gain n (-1) = 1 / 2.
Proof.
  intros n H. unfold lowpass_gain. rewrite pow1. split; [f_equal; ring|]. f_equal. rewrite <- pow_mult, Nat.mul_comm, pow_mult. replace ((-1) ^ 2) with 1 by ring. rewrite pow1. ring.
Qed.

(** ** A filter of either shape, as a mask *)
Lemma combine_swap : forall (a b : list C), map (fun p => Cmul (fst p) (snd p)) (combine a b) = map (fun p => Cmul (fst p) (snd p)) (combine b a).
Proof. intros a. induction a as [|x a IH]; intros [|y b]; try reflexivity. cbn [combine map fst snd]. rewrite IH. f_equal. ring. Qed.
Lemma static_mask : forall p shape m x, get_filter p shape = Ok m -> (0 < length x)%nat -> length m = length x -> filtered_time_static p shape x = filter_spectrum p m x.
Proof.
  intros p shape m x G P L. unfold filtered_time_static, filter_spectrum, fft_. destruct (fft_total x P) as (y & F). rewrite F. cbn [bind]. rewrite G. cbn [bind]. destruct (fft_ok _ _ F) as (Ly & _ & _). rewrite !broadcast_same by (rewrite scale_length; lia). rewrite combine_swap. reflexivity.
Qed.
Lemma new_filter_static : forall p shape id x, snd (filtered_time (new_filter shape) id p x) = filtered_time_static p shape x.
Proof.
  intros p shape id x. unfold filtered_time, filtered_time_static, filtered_freq, new_filter, refreshed. cbn [f_propagator f_mask f_shape]. destruct (fft_ x (grid_dt p)) as [y|e]; [|reflexivity]. cbn [bind]. destruct (get_filter p shape); reflexivity.
Qed.
Lemma grid_f_len : forall p, length (ifft_shift_ (grid_f p)) = n_samples p.
Proof. intros p. rewrite ifft_shift_length, grid_f_length. reflexivity. Qed.

(* what a mask does to the spectrum *)
Lemma filter_spectral : forall p m x, grid_dt p <> 0 -> (0 < length x)%nat -> length m = length x ->
  yields x (filter_spectrum p m x) (fun y => exists X Y, fft x = Ok X /\ fft y = Ok Y /\ forall k, (k < length x)%nat -> nth k Y C0 = Cmul (nth k m C0) (nth k X C0)).
Proof.
  intros p m x D P L. destruct (filter_ok p m x D P L) as (X & y & F & LX & E & I & Ly). exists y. split; [exact E|]. split; [exact Ly|]. exists X. destruct (fft_total y) as (Y & G); [lia|]. exists Y. split; [exact F|]. split; [exact G|]. rewrite (fft_ifft _ _ _ I G). intros k Hk. apply zipmul_nth. lia.
Qed.

Lemma butterworth_filter : forall p f0 g n x, usable (n_samples p) (window_t p) -> length x = n_samples p -> (0 < n)%nat ->
  yields x (filtered_time_static p (ButterworthLowpass f0 g (Z.of_nat n)) x) (fun y =>
    energy y <= g * g * energy x /\
    exists X Y, fft x = Ok X /\ fft y = Ok Y /\ forall k, (k < n_samples p)%nat -> Cnorm2 (nth k Y C0) = g * g * lowpass_gain n (nth k (ifft_shift_ (grid_f p)) 0 / f0) * Cnorm2 (nth k X C0)).
Proof.
  intros p f0 g n x U L H. pose proof (lowpass_plain p f0 g n H) as M. set (m := map (lowpass_entry f0 g n) (ifft_shift_ (grid_f p))) in *.
  assert (Lm : length m = length x) by (unfold m; rewrite map_length, grid_f_len; symmetry; exact L). assert (P : (0 < length x)%nat) by (apply (pos_len p); assumption). pose proof (grid_dt_nz p U) as D.
  rewrite (static_mask p (ButterworthLowpass f0 g (Z.of_nat n)) m x M P Lm). destruct (filter_bounds p m x 0 (g * g)) as (y & E & Ly & _ & B).
  - exact D.
  - exact P.
  - exact Lm.
  - intros z Hz. unfold m in Hz. apply in_map_iff in Hz. destruct Hz as (f & <- & _). rewrite entry_norm by exact H. pose proof (gain_range n (f / f0)). pose proof (Rle_0_sqr g). unfold Rsqr in *. nra.
  - exists y. split; [exact E|]. split; [exact Ly|]. split; [exact B|]. destruct (filter_spectral p m x D P Lm) as (y' & E' & _ & X & Y & FX & FY & S). rewrite E in E'. injection E' as <-. exists X, Y. split; [exact FX|]. split; [exact FY|]. intros k Hk. rewrite S by lia. rewrite Cnorm2_mul. f_equal.
    unfold m. rewrite (nth_indep _ C0 (lowpass_entry f0 g n 0)) by (rewrite map_length, grid_f_len; exact Hk). rewrite (map_nth (lowpass_entry f0 g n)). apply entry_norm. exact H.
Qed.

(* the other shape *)
Lemma ln2_pos : 0 < ln 2.
Proof. rewrite <- ln_1; apply ln_increasing; lra. Qed.
Lemma bell_range : forall t, 0 < bell t <= 1 /\ (bell t = 1 -> t = 0).
Proof.
  intros t. unfold bell, Rpower. pose proof ln2_pos as L2. pose proof (Rle_0_sqr t) as S. unfold Rsqr in S. assert (T : - (2 * t) ^ 2 * ln 2 <= 0) by nra. split; [split; [apply exp_pos|]|].
  - rewrite <- exp_0. destruct (Rle_lt_or_eq_dec _ _ T) as [Q| ->]; [left; apply exp_increasing; exact Q|lra].
  - intro E. rewrite <- exp_0 in E. apply exp_inv in E. assert (t * t = 0) by nra. nra.
Qed.
Lemma bell_half : bell 0 = 1 /\ bell (1 / 2) = 1 / 2 /\ bell (- (1 / 2)) = 1 / 2.
Proof.
  assert (H : Rpower 2 (- (1)) = 1 / 2) by (rewrite Rpower_Ropp, Rpower_1 by lra; lra). unfold bell. split; [|split].
  - replace (- (2 * 0) ^ 2) with 0 by ring. apply Rpower_O. lra.
  - replace (- (2 * (1 / 2)) ^ 2) with (- (1)) by field. exact H.
  - replace (- (2 * (- (1 / 2))) ^ 2) with (- (1)) by field. exact H.
Qed.
Definition width_of (wl fwhm : R) : R := speed_of_light / (wl - fwhm / 2) - speed_of_light / (wl + fwhm / 2).
Lemma width_pos : forall wl fwhm, 0 < fwhm -> fwhm < 2 * wl -> 0 < width_of wl fwhm.
Proof.
  intros wl fwhm A B. unfold width_of, speed_of_light. assert (/ (wl + fwhm / 2) < / (wl - fwhm / 2)) by (apply Rinv_lt_contravar; [apply Rmult_lt_0_compat; lra|lra]). unfold Rdiv. lra.
Qed.
Lemma exp_of_square_entry : forall wl fwhm d, 0 < fwhm -> fwhm < 2 * wl ->
  exp (- 1 * d ^ 2 / ((speed_of_light * (1 / (wl - fwhm / 2) - 1 / (wl + fwhm / 2))) ^ 2 / 4 / ln 2)) = bell (d / width_of wl fwhm).
Proof.
  intros wl fwhm d A B. replace (speed_of_light * (1 / (wl - fwhm / 2) - 1 / (wl + fwhm / 2))) with (width_of wl fwhm) by (unfold width_of; field; split; lra).
  pose proof (width_pos wl fwhm A B) as W. pose proof ln2_pos. unfold bell, Rpower. f_equal. field. split; lra.
Qed.
Lemma exp_of_square_filter : forall p wl fwhm x, usable (n_samples p) (window_t p) -> length x = n_samples p -> 0 < fwhm -> fwhm < 2 * wl ->
  yields x (filtered_time_static p (ExponentialOfSquare wl fwhm) x) (fun y => energy y <= energy x /\
    exists X Y, fft x = Ok X /\ fft y = Ok Y /\ forall k, (k < n_samples p)%nat ->
      nth k Y C0 = Cmul (RtoC (bell ((nth k (ifft_shift_ (grid_f p)) 0 + central_frequency p - speed_of_light / wl) / (speed_of_light / (wl - fwhm / 2) - speed_of_light / (wl + fwhm / 2))))) (nth k X C0)).
Proof.
  intros p wl fwhm x U L A B. set (m := exp_of_square p wl fwhm). assert (P : (0 < length x)%nat) by (apply (pos_len p); assumption). pose proof (grid_dt_nz p U) as D.
  assert (M : m = map (fun f => RtoC (bell ((f + central_frequency p - speed_of_light / wl) / width_of wl fwhm))) (ifft_shift_ (grid_f p))).
  { unfold m, exp_of_square. cbv zeta. rewrite ifft_shift_map, map_map. apply map_ext. intro f. rewrite exp_of_square_entry by assumption. reflexivity. }
  assert (Lm : length m = length x) by (rewrite M, map_length, grid_f_len; symmetry; exact L).
  rewrite (static_mask p (ExponentialOfSquare wl fwhm) m x eq_refl P Lm). destruct (filter_bounds p m x 0 1 D P Lm) as (y & E & Ly & _ & En).
  - intros z Hz. rewrite M in Hz. apply in_map_iff in Hz as (f & <- & _). rewrite Cnorm2_RtoC. set (t := (f + _ - _) / _). destruct (bell_range t) as [[? ?] _]. nra.
  - exists y. split; [exact E|]. split; [exact Ly|]. split; [lra|]. destruct (filter_spectral p m x D P Lm) as (y' & E' & _ & X & Y & FX & FY & S). rewrite E in E'. injection E' as <-. exists X, Y. split; [exact FX|]. split; [exact FY|]. intros k Hk. rewrite S by lia. f_equal.
    fold (width_of wl fwhm). set (h := fun f => RtoC (bell ((f + central_frequency p - speed_of_light / wl) / width_of wl fwhm))) in *. change (nth k m C0 = h (nth k (ifft_shift_ (grid_f p)) 0)). rewrite M. rewrite (nth_indep _ C0 (h 0)) by (rewrite map_length, grid_f_len; exact Hk). apply (map_nth h).
Qed.

(** ** Real signals *)
Lemma spectrum_mirror : forall x X, fft x = Ok X -> real_valued x -> forall k, (k < length x)%nat -> nth ((length x - k) mod length x) X C0 = Cconj (nth k X C0).
Proof.
  intros x X F Rx k Hk. destruct (fft_ok _ _ F) as (L & P & V). assert (Hm : ((length x - k) mod length x < length x)%nat) by (apply Nat.mod_upper_bound; lia). rewrite !V by assumption. rewrite csum_conj. apply csum_ext. intros j Hj.
  rewrite Cconj_mul, cis_conj. f_equal.
  - pose proof (Rx (nth j x C0) (nth_In _ _ Hj)) as Z. destruct (nth j x C0) as (a, b). unfold im in Z. cbn [snd] in Z. subst b. unfold Cconj, re, im. cbn [fst snd]. f_equal. ring.
  - rewrite Ropp_involutive. destruct k as [|k].
    + rewrite Nat.sub_0_r, Nat.mod_same by lia. cbn [INR]. f_equal. unfold Rdiv. ring.
    + rewrite Nat.mod_small by lia. rewrite minus_INR by lia. pose proof (INR_pos _ P) as Pn. replace (- (2 * PI * INR j * (INR (length x) - INR (S k)) / INR (length x))) with (2 * PI * INR j * INR (S k) / INR (length x) + - (2 * PI * INR j)) by (field; lra).
      rewrite cis_add, cis_turns_neg. ring.
Qed.
Lemma mirrored_real : forall z Z, ifft z = Ok Z -> (forall k, (k < length z)%nat -> nth ((length z - k) mod length z) z C0 = Cconj (nth k z C0)) -> real_valued Z.
Proof.
  intros z Z I M w Hw. destruct (ifft_ok _ _ I) as (L & P & V). apply (In_nth _ _ C0) in Hw. destruct Hw as (j & Hj & <-). assert (Hj' : (j < length z)%nat) by lia. assert (E : Cconj (nth j Z C0) = nth j Z C0).
  { rewrite V by exact Hj'. rewrite Cconj_mul. replace (Cconj (RtoC (/ INR (length z)))) with (RtoC (/ INR (length z))) by (unfold Cconj, RtoC, re, im; cbn [fst snd]; f_equal; ring). f_equal. rewrite csum_conj. rewrite (csum_mirror (length z) (fun k => Cmul (nth k z C0) (cis (2 * PI * INR j * INR k / INR (length z))))). apply csum_ext. intros k Hk.
    rewrite M by exact Hk. rewrite Cconj_mul. f_equal. rewrite cis_conj. pose proof (INR_pos _ P) as Pn. destruct k as [|k].
    - rewrite Nat.sub_0_r, Nat.mod_same by lia. cbn [INR]. f_equal. unfold Rdiv. ring.
    - rewrite Nat.mod_small by lia. rewrite minus_INR by lia. replace (2 * PI * INR j * (INR (length z) - INR (S k)) / INR (length z)) with (- (2 * PI * INR j * INR (S k) / INR (length z)) + 2 * PI * INR j) by (field; lra). rewrite cis_add, cis_turns. ring. }
  destruct (nth j Z C0) as (a, b). unfold Cconj, re, im in E. cbn [fst snd] in E. injection E as E. unfold im. cbn [snd]. lra.
Qed.
Lemma real_filter : forall p m x, grid_dt p <> 0 -> (0 < length x)%nat -> length m = length x -> real_valued x ->
  (forall k, (k < length x)%nat -> nth ((length x - k) mod length x) m C0 = Cconj (nth k m C0)) -> yields x (filter_spectrum p m x) real_valued.
Proof.
  intros p m x D P L Rx M. destruct (filter_ok p m x D P L) as (X & y & F & LX & E & I & Ly). exists y. split; [exact E|]. split; [exact Ly|]. apply (mirrored_real _ _ I). rewrite zipmul_length by lia. rewrite LX. intros k Hk. rewrite !zipmul_nth by lia. rewrite M, Cconj_mul by exact Hk. f_equal. apply (spectrum_mirror x); assumption.
Qed.
(* the filters have opposite phases at opposite frequencies *)
Lemma fold_conj : forall s n l acc, fold_left (fun product k => Cmul product (butterworth_factor (Cconj s) n k)) l (Cconj acc) = Cconj (fold_left (fun product k => Cmul product (butterworth_factor s n k)) l acc).
Proof.
  intros s n l. induction l as [|k l IH]; intros acc; [reflexivity|]. cbn [fold_left]. rewrite <- IH. f_equal. rewrite Cconj_mul. f_equal. unfold butterworth_factor. set (c := cos _). clearbody c. unfold Cconj, Csub, Copp, Cadd, Cmul, RtoC, C1, re, im. cbn [fst snd]. f_equal; ring.
Qed.
Lemma product_conj : forall s n, butterworth_product (Cconj s) n = Cconj (butterworth_product s n).
Proof.
  intros s n. unfold butterworth_product. rewrite <- fold_conj. f_equal. destruct (Nat.odd n); [|unfold Cconj, C1, re, im; cbn [fst snd]; f_equal; ring]. rewrite Cconj_add. f_equal. unfold Cconj, C1, re, im; cbn [fst snd]; f_equal; ring.
Qed.
Lemma entry_conj : forall f0 g n f, lowpass_entry f0 g n (- f) = Cconj (lowpass_entry f0 g n f).
Proof.
  intros f0 g n f. unfold lowpass_entry, Cdiv. rewrite Cconj_mul, <- Cinv_conj, <- product_conj. f_equal; [unfold Cconj, RtoC, re, im; cbn [fst snd]; f_equal; ring|]. f_equal. f_equal. unfold iw, Cconj, Cmul, Ci, RtoC, re, im. cbn [fst snd]. f_equal; unfold Rdiv; ring.
Qed.
(* with an odd number of samples the frequencies come in opposite pairs *)
Lemma odd_frequencies : forall p k, usable (n_samples p) (window_t p) -> Nat.Odd (n_samples p) -> (k < n_samples p)%nat ->
  nth ((n_samples p - k) mod n_samples p) (ifft_shift_ (grid_f p)) 0 = - nth k (ifft_shift_ (grid_f p)) 0.
Proof.
  intros p k U (h & O) Hk. set (n := n_samples p) in *. assert (Hm : ((n - k) mod n < n)%nat) by (apply Nat.mod_upper_bound; lia). rewrite !ifft_shift_nth by (rewrite grid_f_length; assumption). rewrite !grid_f_length. fold n.
  assert (Hh : (n / 2 = h)%nat) by (rewrite O; replace (2 * h + 1)%nat with (1 + h * 2)%nat by lia; rewrite Nat.div_add by lia; reflexivity). rewrite Hh.
  assert (A : forall a, (a < n)%nat -> ((a + h) mod n = if le_lt_dec (n - h) a then a + h - n else a + h)%nat).
  { intros a Ha. destruct (le_lt_dec (n - h) a) as [G|G]; [|apply Nat.mod_small; lia]. replace (a + h)%nat with ((a + h - n) + 1 * n)%nat at 1 by lia. rewrite Nat.mod_add by lia. apply Nat.mod_small. lia. }
  rewrite !A by assumption. assert (INR n = 2 * INR h + 1) as On by (rewrite O, plus_INR, mult_INR; cbn [INR]; ring).
  assert (B : forall a b, (a < n)%nat -> (b < n)%nat -> (a + b = 2 * h)%nat -> nth a (grid_f p) 0 = - nth b (grid_f p) 0).
  { intros a b Ha Hb S. rewrite !grid_f_nth by (try exact U; assumption). fold n. rewrite On. apply (f_equal INR) in S. rewrite plus_INR, mult_INR in S. cbn [INR] in S. replace (INR a) with (2 * INR h - INR b) by lra. field. }
  destruct k as [|k].
  - rewrite Nat.sub_0_r, Nat.mod_same by lia. destruct (le_lt_dec (n - h) 0); [lia|]. apply B; lia.
  - rewrite Nat.mod_small by lia. destruct (le_lt_dec (n - h) (n - S k)); destruct (le_lt_dec (n - h) (S k)); try lia; apply B; lia.
Qed.
Lemma real_lowpass : forall p f0 g n x, usable (n_samples p) (window_t p) -> Nat.Odd (n_samples p) -> length x = n_samples p -> (0 < n)%nat -> real_valued x ->
  yields x (filtered_time_static p (ButterworthLowpass f0 g (Z.of_nat n)) x) real_valued.
Proof.
  intros p f0 g n x U O L H Rx. pose proof (lowpass_plain p f0 g n H) as M. set (m := map (lowpass_entry f0 g n) (ifft_shift_ (grid_f p))) in *.
  assert (Lm : length m = length x) by (unfold m; rewrite map_length, grid_f_len; symmetry; exact L). assert (P : (0 < length x)%nat) by (apply (pos_len p); assumption). pose proof (grid_dt_nz p U) as D.
  rewrite (static_mask p (ButterworthLowpass f0 g (Z.of_nat n)) m x M P Lm). apply real_filter; try assumption. intros k Hk. rewrite L in *.
  assert (Hm : ((n_samples p - k) mod n_samples p < n_samples p)%nat) by (apply Nat.mod_upper_bound; lia).
  assert (V : forall i, (i < n_samples p)%nat -> nth i m C0 = lowpass_entry f0 g n (nth i (ifft_shift_ (grid_f p)) 0)).
  { intros i Hi. unfold m. rewrite (nth_indep _ C0 (lowpass_entry f0 g n 0)) by (rewrite map_length, grid_f_len; exact Hi). apply (map_nth (lowpass_entry f0 g n)). }
  rewrite !V by assumption. rewrite odd_frequencies by assumption. apply entry_conj.
Qed.

(** ** Constant signals *)
Lemma map_repeat : forall {A B} (f : A -> B) v n, map f (repeat v n) = repeat (f v) n.
Proof. intros A B f v n. induction n as [|n IH]; [reflexivity|]. cbn [repeat map]. rewrite IH. reflexivity. Qed.
Lemma nth_repeat_lt : forall {A} (v d : A) n j, (j < n)%nat -> nth j (repeat v n) d = v.
Proof. intros A v d n. induction n as [|n IH]; intros j H; [lia|]. destruct j as [|j]; [reflexivity|]. cbn [repeat nth]. apply IH. lia. Qed.
Lemma constant_spectrum : forall v n X, (0 < n)%nat -> fft (repeat v n) = Ok X -> forall k, (k < n)%nat -> nth k X C0 = if Nat.eq_dec k 0 then Cmul (RtoC (INR n)) v else C0.
Proof.
  intros v n X P F k Hk. destruct (fft_ok _ _ F) as (_ & _ & V). rewrite repeat_length in V. rewrite V by exact Hk. pose proof (INR_pos n P) as Pn.
  rewrite (csum_ext n _ (fun j => Cmul v (cis (INR j * (2 * PI * IZR (- Z.of_nat k) / INR n))))).
  2: { intros j Hj. rewrite nth_repeat_lt by exact Hj. f_equal. f_equal. rewrite opp_IZR, <- INR_IZR_INZ. field. lra. }
  rewrite csum_scale. destruct (Nat.eq_dec k 0) as [-> |N].
  - rewrite (csum_ext n _ (fun _ => C1)) by (intros j Hj; rewrite <- cis_0; f_equal; cbn; unfold Rdiv; ring). rewrite csum_const. ring.
  - rewrite roots_cancel; [ring|exact P|]. split; lia.
Qed.
Lemma filter_constant : forall p m v n, grid_dt p <> 0 -> (0 < n)%nat -> length m = n -> filter_spectrum p m (repeat v n) = Ok (repeat (Cmul (nth 0 m C0) v) n).
Proof.
  intros p m v n D P L. destruct (filter_ok p m (repeat v n) D) as (X & y & F & LX & E & I & Ly); [rewrite repeat_length; exact P|rewrite repeat_length; exact L|]. rewrite repeat_length in LX, Ly. rewrite E. f_equal.
  apply (list_eq_nth C0); [rewrite repeat_length; exact Ly|]. rewrite Ly. intros j Hj. rewrite nth_repeat_lt by exact Hj. destruct (ifft_ok _ _ I) as (_ & _ & V). rewrite zipmul_length, LX in V by lia. rewrite V by exact Hj. pose proof (INR_pos n P) as Pn.
  rewrite (csum_single n 0) by (first [lia | intros i Hi Ni; rewrite zipmul_nth, (constant_spectrum v n X P F) by lia; destruct (Nat.eq_dec i 0); [lia|ring]]).
  rewrite zipmul_nth, (constant_spectrum v n X P F) by lia. cbn [INR Nat.eq_dec]. replace (2 * PI * INR j * 0 / INR n) with 0 by (unfold Rdiv; ring). rewrite cis_0. destruct (Nat.eq_dec 0 0) as [_|]; [|lia].
  transitivity (Cmul (Cmul (RtoC (/ INR n)) (RtoC (INR n))) (Cmul (nth 0 m C0) v)); [ring|]. rewrite RtoC_mul, Rinv_l by lra. change (RtoC 1) with C1. ring.
Qed.

(** ** The photodiode *)
Definition raw_voltage (d : photodiode) (x : list C) : list C := map (fun z => RtoC (photocurrent (responsivity d) (max_photocurrent d) (Cnorm2 z) * load_resistance d)) x.
Lemma photodiode_plain : forall d p x, photodiode_voltage d p x = filtered_time_static p (photodiode_filter d) (raw_voltage d x).
Proof. intros d p x. unfold photodiode_voltage. rewrite new_filter_static. unfold raw_voltage, power_. rewrite !map_map. reflexivity. Qed.
Lemma raw_length : forall d x, length (raw_voltage d x) = length x.
Proof. intros. apply map_length. Qed.
Lemma raw_real : forall d x, real_valued (raw_voltage d x).
Proof. intros d x z H. apply in_map_iff in H. destruct H as (w & <- & _). reflexivity. Qed.
Lemma raw_energy : forall d x, sound_photodiode d -> energy (raw_voltage d x) <= INR (length x) * (max_photocurrent d * load_resistance d) ^ 2.
Proof.
  intros d x (Hr & Hi & Hl & _). induction x as [|z x IH]; [cbn; lra|]. change (energy (raw_voltage d (z :: x))) with (Cnorm2 (RtoC (photocurrent (responsivity d) (max_photocurrent d) (Cnorm2 z) * load_resistance d)) + energy (raw_voltage d x)). cbn [length]. rewrite S_INR, Cnorm2_RtoC.
  destruct (photocurrent_bounds (responsivity d) (max_photocurrent d) (Cnorm2 z) Hr Hi (Cnorm2_nonneg z)) as ((A & B) & _). set (c := photocurrent _ _ _) in *. clearbody c.
  assert (c * load_resistance d * (c * load_resistance d) <= (max_photocurrent d * load_resistance d) ^ 2); [|lra]. replace ((max_photocurrent d * load_resistance d) ^ 2) with ((max_photocurrent d * load_resistance d) * (max_photocurrent d * load_resistance d)) by ring. apply Rmult_le_compat; nra.
Qed.
Lemma photodiode_bound : forall d p x, sound_photodiode d -> usable (n_samples p) (window_t p) -> length x = n_samples p ->
  yields x (photodiode_voltage d p x) (fun y => energy y <= INR (n_samples p) * (max_photocurrent d * load_resistance d) ^ 2).
Proof.
  intros d p x S U L. rewrite photodiode_plain. unfold photodiode_filter. destruct S as (Hr & Hi & Hl & Ho). destruct (butterworth_filter p (bandwidth d) 1 (Z.to_nat (filter_order d)) (raw_voltage d x)) as (y & E & Ly & B & _).
  - exact U.
  - rewrite raw_length. exact L.
  - lia.
  - rewrite Z2Nat.id in E by lia. exists y. split; [exact E|]. rewrite raw_length in Ly. split; [exact Ly|]. rewrite Rmult_1_l, Rmult_1_l in B. eapply Rle_trans; [exact B|]. rewrite <- L. apply raw_energy. unfold sound_photodiode. tauto.
Qed.
Lemma photodiode_real : forall d p x, sound_photodiode d -> usable (n_samples p) (window_t p) -> Nat.Odd (n_samples p) -> length x = n_samples p -> yields x (photodiode_voltage d p x) real_valued.
Proof.
  intros d p x (_ & _ & _ & Ho) U O L. rewrite photodiode_plain. unfold photodiode_filter. destruct (real_lowpass p (bandwidth d) 1 (Z.to_nat (filter_order d)) (raw_voltage d x)) as (y & E & Ly & B).
  - exact U.
  - exact O.
  - rewrite raw_length. exact L.
  - lia.
  - apply raw_real.
  - rewrite Z2Nat.id in E by lia. exists y. split; [exact E|]. rewrite raw_length in Ly. split; [exact Ly|exact B].
Qed.
(* even numbers of samples: the entry for the constant part of the signal is taken at half a step *)
Lemma order_one : forall w, butterworth_product (iw w) 1 = (1, w).
Proof. intros w. unfold butterworth_product. cbn. unfold iw, Cadd, Cmul, Ci, RtoC, C1, re, im. cbn [fst snd]. f_equal; ring. Qed.
Lemma order_two : forall w, butterworth_product (iw w) 2 = (1 - w * w, sqrt 2 * w).
Proof.
  intros w. unfold butterworth_product. cbn [Nat.odd Nat.even negb Nat.div Nat.divmod fst seq fold_left]. unfold butterworth_factor. replace ((2 * INR 1 + INR 2 - 1) / (2 * INR 2) * PI) with (PI / 2 + PI / 4) by (cbn [INR]; field). rewrite cos_plus, cos_PI2, sin_PI2, sin_PI4.
  assert (Q : sqrt 2 * sqrt 2 = 2) by (apply sqrt_sqrt; lra). assert (0 < sqrt 2) by (apply sqrt_lt_R0; lra). replace (1 / sqrt 2) with (sqrt 2 / 2) by (rewrite <- Q at 2; field; lra).
  unfold iw, Csub, Copp, Cadd, Cmul, Ci, RtoC, C1, re, im. cbn [fst snd]. f_equal; field.
Qed.
Lemma photodiode_complex : forall d p z, sound_photodiode d -> usable (n_samples p) (window_t p) -> Nat.Even (n_samples p) -> 0 < bandwidth d -> (filter_order d = 1 \/ filter_order d = 2)%Z -> z <> C0 ->
  yields (repeat z (n_samples p)) (photodiode_voltage d p (repeat z (n_samples p))) nowhere_real.
Proof.
  intros d p z (Hr & Hi & Hl & Ho) U Ev Hb On Hz. rewrite photodiode_plain. set (n := n_samples p) in *. assert (P : (0 < n)%nat) by (destruct U; unfold n; lia).
  set (v := photocurrent (responsivity d) (max_photocurrent d) (Cnorm2 z) * load_resistance d). assert (Rv : raw_voltage d (repeat z n) = repeat (RtoC v) n) by (unfold raw_voltage; rewrite map_repeat; reflexivity). rewrite Rv.
  assert (Pv : 0 < v). { unfold v. apply Rmult_lt_0_compat; [|exact Hl]. assert (0 < Cnorm2 z) by (destruct (Rle_lt_or_eq_dec _ _ (Cnorm2_nonneg z)) as [?|E]; [assumption|symmetry in E; apply Cnorm2_zero in E; contradiction]). apply Rle_lt_trans with (photocurrent (responsivity d) (max_photocurrent d) 0); [apply (photocurrent_bounds _ _ 0 Hr Hi); lra|apply photocurrent_mono; lra]. }
  set (k := Z.to_nat (filter_order d)). assert (Hk : (0 < k)%nat) by (unfold k; lia). pose proof (lowpass_plain p (bandwidth d) 1 k Hk) as M. unfold k in M at 1. rewrite Z2Nat.id in M by lia. set (m := map (lowpass_entry (bandwidth d) 1 k) (ifft_shift_ (grid_f p))) in *.
  assert (Lm : length m = n) by (unfold m; rewrite map_length, grid_f_len; reflexivity). unfold photodiode_filter. rewrite (static_mask p (ButterworthLowpass (bandwidth d) 1 (filter_order d)) m (repeat (RtoC v) n) M) by (rewrite repeat_length; lia). rewrite filter_constant by (try assumption; apply grid_dt_nz; exact U).
  eexists. split; [reflexivity|]. split; [rewrite !repeat_length; reflexivity|]. intros y Hy. apply repeat_spec in Hy. subst y.
  assert (V : nth 0 m C0 = lowpass_entry (bandwidth d) 1 k (offset n * grid_df p)). { unfold m. rewrite (nth_indep _ C0 (lowpass_entry (bandwidth d) 1 k 0)) by (rewrite map_length, grid_f_len; exact P). rewrite (map_nth (lowpass_entry (bandwidth d) 1 k)). rewrite grid_f_zero by exact U. reflexivity. }
  rewrite V. assert (Oe : offset n = / 2) by (unfold offset; rewrite (proj2 (Nat.even_spec n) Ev); reflexivity). rewrite Oe. set (w := / 2 * grid_df p / bandwidth d). assert (Pw : 0 < w). { unfold w. pose proof (grid_df_pos p U). apply Rdiv_lt_0_compat; [lra|exact Hb]. }
  unfold lowpass_entry. fold w. clearbody w v. assert (Q : exists a b, b <> 0 /\ butterworth_product (iw w) k = (a, b)).
  { destruct On as [On|On]; unfold k; rewrite On; [change (Z.to_nat 1) with 1%nat; rewrite order_one; exists 1, w; split; [lra|reflexivity]|change (Z.to_nat 2) with 2%nat; rewrite order_two; exists (1 - w * w), (sqrt 2 * w); split; [|reflexivity]]. assert (0 < sqrt 2) by (apply sqrt_lt_R0; lra). nra. }
  destruct Q as (a & b & Nb & ->). unfold Cdiv, Cinv, Cmul, RtoC, Cnorm2, re, im. cbn [fst snd]. assert (N : a * a + b * b <> 0) by nra. intros E.
  assert (X : b * v / (a * a + b * b) = 0) by (rewrite <- Ropp_0; rewrite <- E; field; exact N). apply Rmult_integral in X. destruct X as [X|X]; [apply Rmult_integral in X; lra|]. revert X. apply Rinv_neq_0_compat. exact N.
Qed.

(** ** The cache of the filter object *)
Definition cached_for (grids : nat -> grid) (o : filter_object) : Prop :=
  forall m, f_mask o = Some m -> exists id, f_propagator o = Some id /\ get_filter (grids id) (f_shape o) = Ok m.
Lemma use_cached : forall grids o id x, cached_for grids o ->
  snd (filtered_time o id (grids id) x) = filtered_time_static (grids id) (f_shape o) x /\ cached_for grids (fst (filtered_time o id (grids id) x)) /\ f_shape (fst (filtered_time o id (grids id) x)) = f_shape o.
Proof.
  intros grids o id x H. unfold filtered_time, filtered_time_static. destruct (fft_ x (grid_dt (grids id))) as [y|e]; cbn [bind snd fst]; [|tauto].
  assert (S : f_shape (refreshed o id) = f_shape o) by (unfold refreshed; destruct (f_propagator o) as [i|]; [destruct (Nat.eqb i id)|]; reflexivity).
  assert (A : f_propagator (refreshed o id) = Some id) by (unfold refreshed; destruct (f_propagator o) as [i|] eqn:E; [destruct (Nat.eqb i id) eqn:F; [apply Nat.eqb_eq in F; subst; exact E|reflexivity]|reflexivity]).
  assert (B : cached_for grids (refreshed o id)) by (unfold refreshed; destruct (f_propagator o) as [i|] eqn:E; [destruct (Nat.eqb i id); [exact H|intros m Hm; discriminate]|intros m Hm; discriminate]).
  unfold filtered_freq. set (o' := refreshed o id) in *. clearbody o'. destruct (f_mask o') as [m|] eqn:M.
  - destruct (B m M) as (i & Hi & G). rewrite A in Hi. injection Hi as <-. rewrite S in G. rewrite G. cbn [fst snd bind]. tauto.
  - rewrite S. destruct (get_filter (grids id) (f_shape o)) as [m|e] eqn:G; cbn [fst snd bind].
    + split; [reflexivity|]. split; [|reflexivity]. intros m' Hm. cbn in Hm. injection Hm as <-. exists id. cbn. rewrite A. tauto.
    + split; [reflexivity|]. tauto.
Qed.
Lemma uses_static : forall grids calls o, cached_for grids o -> filter_calls grids o calls = map (fun c => filtered_time_static (grids (fst c)) (f_shape o) (snd c)) calls.
Proof.
  intros grids calls. induction calls as [|(id, x) r IH]; intros o H; [reflexivity|]. cbn [filter_calls map fst snd]. destruct (use_cached grids o id x H) as (A & B & S). destruct (filtered_time o id (grids id) x) as (o', v). cbn [fst snd] in *. rewrite <- A. f_equal. rewrite IH by exact B. rewrite S. reflexivity.
Qed.
Lemma stale_filter : forall shape id p p' x x' m, get_filter p shape = Ok m -> (0 < length x)%nat -> (0 < length x')%nat -> length m <> length x' -> length m <> 1%nat -> length x' <> 1%nat ->
  snd (filtered_time (fst (filtered_time (new_filter shape) id p x)) id p' x') = Err ValueError.
Proof.
  intros shape id p p' x x' m G P P' N N1 N2. unfold filtered_time at 2. unfold fft_ at 1. destruct (fft_total x P) as (y & F). rewrite F. cbn [bind]. unfold filtered_freq, new_filter, refreshed. cbn [f_propagator f_mask f_shape]. rewrite G. cbn [fst].
  unfold filtered_time, fft_. destruct (fft_total x' P') as (y' & F'). rewrite F'. cbn [bind]. unfold filtered_freq, refreshed. cbn [f_propagator f_mask f_shape]. rewrite Nat.eqb_refl. cbn [f_mask snd]. destruct (fft_ok _ _ F') as (L' & _ & _).
  unfold broadcast. rewrite scale_length. replace (Nat.eqb (length y') (length m)) with false by (symmetry; apply Nat.eqb_neq; lia). destruct (scale (grid_dt p') y') as [|a [|b s]] eqn:E.
  - apply (f_equal (@length C)) in E. rewrite scale_length in E. cbn in E. lia.
  - apply (f_equal (@length C)) in E. rewrite scale_length in E. cbn in E. lia.
  - destruct m as [|c [|? ?]]; [reflexivity|cbn in N1; lia|reflexivity].
Qed.

(* a filter that blocks no frequency keeps a signal alive *)
Lemma alive_energy : forall x, alive x <-> 0 < energy x.
Proof.
  intros x. split.
  - intros (z & Hz & N). induction x as [|w x IH]; [destruct Hz|]. change (energy (w :: x)) with (Cnorm2 w + energy x). pose proof (energy_nonneg x). pose proof (Cnorm2_nonneg w). destruct Hz as [-> |Hz].
    + destruct (Req_dec (Cnorm2 z) 0) as [E|E]; [apply Cnorm2_zero in E; contradiction|lra].
    + specialize (IH Hz). lra.
  - induction x as [|w x IH]; [unfold energy; cbn; lra|]. change (energy (w :: x)) with (Cnorm2 w + energy x). intros H. destruct (Req_dec (Cnorm2 w) 0) as [E|E].
    + destruct IH as (z & Hz & N); [lra|]. exists z. split; [right; exact Hz|exact N].
    + exists w. split; [left; reflexivity|]. intros ->. apply E. unfold Cnorm2, C0, re, im. cbn. ring.
Qed.
Lemma rsum_zero : forall n f, (forall i, (i < n)%nat -> 0 <= f i) -> rsum n f = 0 -> forall i, (i < n)%nat -> f i = 0.
Proof.
  intros n f. induction n as [|n IH]; intros H E i Hi; [lia|]. cbn [rsum] in E. assert (0 <= rsum n f) by (apply rsum_nonneg; intros j Hj; apply H; lia). pose proof (H n ltac:(lia)). destruct (Nat.eq_dec i n) as [-> |N]; [lra|]. apply IH; [intros j Hj; apply H; lia|lra|lia].
Qed.
Lemma filter_alive : forall p m x y, grid_dt p <> 0 -> (0 < length x)%nat -> length m = length x -> (forall z, In z m -> z <> C0) -> alive x -> filter_spectrum p m x = Ok y -> alive y.
Proof.
  intros p m x y D P L H A E. destruct (filter_energy p m x D P L) as (X & y' & E' & _ & Ex & Ey). rewrite E in E'. injection E' as <-. apply alive_energy. apply alive_energy in A. pose proof (INR_pos _ P) as Pn. destruct (Req_dec (energy y) 0) as [Z|Z]; [|pose proof (energy_nonneg y); lra]. exfalso.
  rewrite Z, Rmult_0_r in Ey. symmetry in Ey. assert (Q : forall k, (k < length x)%nat -> Cnorm2 (nth k X C0) = 0).
  { intros k Hk. pose proof (rsum_zero (length x) (fun k => Cnorm2 (nth k m C0) * Cnorm2 (nth k X C0))) as R. cbn beta in R. specialize (R (fun i _ => Rmult_le_pos _ _ (Cnorm2_nonneg _) (Cnorm2_nonneg _)) Ey k Hk). apply Rmult_integral in R. destruct R as [R|R]; [|exact R]. apply Cnorm2_zero in R. exfalso. apply (H (nth k m C0)); [apply nth_In; lia|exact R]. }
  rewrite (rsum_ext (length x) _ (fun _ => 0)) in Ex by (intros k Hk; apply Q; exact Hk). rewrite rsum_const, Rmult_0_r in Ex. nra.
Qed.
Lemma lowpass_alive : forall p f0 g n x y, usable (n_samples p) (window_t p) -> length x = n_samples p -> (0 < n)%nat -> g <> 0 -> alive x ->
  filtered_time_static p (ButterworthLowpass f0 g (Z.of_nat n)) x = Ok y -> alive y.
Proof.
  intros p f0 g n x y U L H Hg A E. pose proof (lowpass_plain p f0 g n H) as M. set (m := map (lowpass_entry f0 g n) (ifft_shift_ (grid_f p))) in *.
  assert (Lm : length m = length x) by (unfold m; rewrite map_length, grid_f_len; symmetry; exact L). assert (P : (0 < length x)%nat) by (apply (pos_len p); assumption). pose proof (grid_dt_nz p U) as D.
  rewrite (static_mask p (ButterworthLowpass f0 g (Z.of_nat n)) m x M P Lm) in E. apply (filter_alive p m x y); try assumption. intros z Hz Z. unfold m in Hz. apply in_map_iff in Hz. destruct Hz as (f & <- & _). pose proof (entry_norm f0 g n f H) as N. rewrite Z in N. unfold Cnorm2, C0, re, im in N. cbn [fst snd] in N. pose proof (gain_range n (f / f0)). assert (0 < g * g) by nra. nra.
Qed.
