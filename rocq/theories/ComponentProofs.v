(** Energy of the single-path components. *)
From Coq Require Import Reals Lra Lia List Arith ZArith.
From Verif Require Import Base Complex ArrayModel FourierProofs ComponentModel ComponentSpec FilterProofs.
Import ListNotations.
Local Open Scope R_scope.

(** ** The grid *)
Lemma grid_f_length : forall p, length (grid_f p) = n_samples p.
Proof. intros p. apply tabulate_length. Qed.
Lemma grid_t_length : forall p, length (grid_t p) = n_samples p.
Proof. intros p. apply tabulate_length. Qed.
Lemma steps_pos : forall n, (2 <= n)%nat -> 0 < INR (n - 1).
Proof. intros n H. apply INR_pos. lia. Qed.
Lemma grid_dt_val : forall p, grid_dt p = window_t p / INR (n_samples p - 1).
Proof. intros p. unfold grid_dt. f_equal. field. Qed.
Lemma grid_df_val : forall p, grid_df p = INR (n_samples p) / window_t p / INR (n_samples p - 1).
Proof. intros p. unfold grid_df. f_equal. set (q := INR (n_samples p) / window_t p). field. Qed.
Lemma grid_dt_pos : forall p, usable (n_samples p) (window_t p) -> 0 < grid_dt p.
Proof. intros p (H & W). rewrite grid_dt_val. apply Rdiv_lt_0_compat; [exact W|apply steps_pos; exact H]. Qed.
Lemma grid_dt_nz : forall p, usable (n_samples p) (window_t p) -> grid_dt p <> 0.
Proof. intros p H. pose proof (grid_dt_pos p H). lra. Qed.

(** ** Decibels *)
Lemma ten_to_0 : ten_to 0 = 1.
Proof. unfold ten_to. apply Rpower_O. lra. Qed.
Lemma ten_to_pos : forall x, 0 < ten_to x.
Proof. intros x. unfold ten_to, Rpower. apply exp_pos. Qed.
Lemma ten_to_add : forall x y, ten_to (x + y) = ten_to x * ten_to y.
Proof. intros x y. unfold ten_to. apply Rpower_plus. Qed.
Lemma ten_to_le : forall x y, x <= y -> ten_to x <= ten_to y.
Proof. intros x y H. unfold ten_to. apply Rle_Rpower; lra. Qed.
Lemma ten_to_nat : forall n, ten_to (INR n) = 10 ^ n.
Proof. intros n. unfold ten_to. apply Rpower_pow. lra. Qed.
Lemma ratio_square : forall a, dB_to_amplitude_ratio a * dB_to_amplitude_ratio a = ten_to (a / 10).
Proof. intros a. unfold dB_to_amplitude_ratio. rewrite <- ten_to_add. f_equal. field. Qed.
Lemma ratio_0 : dB_to_amplitude_ratio 0 = 1.
Proof. unfold dB_to_amplitude_ratio. replace (0 / 20) with 0 by field. apply ten_to_0. Qed.
Lemma ratio_m0 : dB_to_amplitude_ratio (-0) = 1.
Proof. replace (-0) with 0 by ring. apply ratio_0. Qed.

Lemma map_length_eq : forall {A B} (f : A -> B) l n, length l = n -> length (map f l) = n.
Proof. intros. rewrite map_length. assumption. Qed.

Lemma pos_len : forall p (x : list C), usable (n_samples p) (window_t p) -> length x = n_samples p -> (0 < length x)%nat.
Proof. intros p x (H & _) L. lia. Qed.

(** ** Lossless filters *)
Lemma fiber_energy : forall len p x, usable (n_samples p) (window_t p) -> length x = n_samples p -> yields x (dispersive_fiber len p x) (fun y => energy y = energy x).
Proof.
  intros len p x U L. unfold dispersive_fiber. eapply yields_scale; [apply filter_unit|].
  - apply grid_dt_nz; exact U.
  - apply (pos_len p); assumption.
  - rewrite ifft_shift_length, !map_length, grid_f_length. symmetry; exact L.
  - intros m Hm. apply (proj1 (ifft_shift_In _ _)) in Hm. apply in_map_iff in Hm. destruct Hm as (a & <- & _). apply cis_norm.
  - intros y _ E. cbn beta in *. rewrite energy_scale. replace (0 * len / 1000) with 0 by (unfold Rdiv; ring). rewrite ratio_0, E. ring.
Qed.
Lemma delay_energy : forall d p x, usable (n_samples p) (window_t p) -> length x = n_samples p -> yields x (delay_line d p x) (fun y => energy y = energy x).
Proof.
  intros d p x U L. unfold delay_line. eapply yields_scale; [apply filter_unit|].
  - apply grid_dt_nz; exact U.
  - apply (pos_len p); assumption.
  - rewrite map_length, ifft_shift_length, !map_length, grid_f_length. symmetry; exact L.
  - intros m Hm. apply in_map_iff in Hm. destruct Hm as (a & <- & _). apply cis_norm.
  - intros y _ E. cbn beta in *. rewrite energy_scale, ratio_m0, E. ring.
Qed.
Lemma phase_shifter_exact : forall phi p x, usable (n_samples p) (window_t p) -> length x = n_samples p -> phase_shifter phi p x = Ok (map (Cmul (cis phi)) x).
Proof.
  intros phi p x U L. pose proof (grid_dt_nz p U) as Hd. pose proof (pos_len p x U L) as P.
  assert (Hm : length (map (Cmul (cis phi)) x) = length x) by apply map_length.
  destruct (fft_total x P) as (y & F). destruct (fft_ok _ _ F) as (Ly & _ & _). destruct (ifft_total y) as (z & I); [lia|]. pose proof (ifft_fft _ _ _ F I) as Z. subst z.
  unfold phase_shifter, fft_. rewrite F. cbn [bind]. unfold ifft_.
  assert (E : map (Cmul (cis phi)) (scale (grid_dt p) y) = scale (grid_dt p) (map (Cmul (cis phi)) y)) by (unfold scale; rewrite !map_map; apply map_ext; intros; ring). rewrite E.
  assert (I' : ifft (map (Cmul (cis phi)) y) = Ok (map (Cmul (cis phi)) x)).
  { destruct (ifft_ok _ _ I) as (_ & _ & V). destruct (ifft_total (map (Cmul (cis phi)) y)) as (z & J); [rewrite map_length; lia|]. rewrite J. f_equal. destruct (ifft_ok _ _ J) as (Lz & _ & Vz). rewrite map_length in *. apply (list_eq_nth C0); [rewrite map_length; lia|].
    intros j Hj. rewrite (map_nth_d _ _ j C0) by ring. rewrite Vz, V by lia. rewrite (csum_ext (length y) _ (fun k => Cmul (cis phi) (Cmul (nth k y C0) (cis (2 * PI * INR j * INR k / INR (length y)))))); [rewrite csum_scale; ring|]. intros k Hk. rewrite (map_nth_d _ _ k C0) by ring. ring. }
  rewrite (ifft_scale _ _ _ I'). cbn [bind]. rewrite scale_scale, Rinv_l, scale_1 by exact Hd. reflexivity.
Qed.

(** ** Composition *)
Lemma scale_1_bind : forall (r : res (list C)), (do s <- r; Ok (scale 1 s)) = r.
Proof. intros [x|e]; cbn [bind]; [rewrite scale_1|]; reflexivity. Qed.
Lemma zipmul_cis : forall {A} (f g : A -> R) l, zipmul (map (fun a => cis (f a)) l) (map (fun a => cis (g a)) l) = map (fun a => cis (g a + f a)) l.
Proof. intros A f g l. unfold zipmul. induction l as [|a l IH]; [reflexivity|]. cbn [map combine fst snd]. rewrite IH. f_equal. rewrite cis_add. ring. Qed.

Lemma fiber_plain : forall len p x, dispersive_fiber len p x = filter_spectrum p (map (fun f => cis (len * fiber_beta2 * (2 * PI * f) ^ 2)) (ifft_shift_ (grid_f p))) x.
Proof.
  intros len p x. unfold dispersive_fiber. replace (0 * len / 1000) with 0 by (unfold Rdiv; ring). rewrite ratio_0, scale_1_bind. rewrite !ifft_shift_map, map_map. reflexivity.
Qed.
Lemma fiber_compose : forall l1 l2 p x, usable (n_samples p) (window_t p) -> length x = n_samples p -> bind (dispersive_fiber l1 p x) (dispersive_fiber l2 p) = dispersive_fiber (l1 + l2) p x.
Proof.
  intros l1 l2 p x U L. rewrite !fiber_plain. transitivity (bind (filter_spectrum p (map (fun f => cis (l1 * fiber_beta2 * (2 * PI * f) ^ 2)) (ifft_shift_ (grid_f p))) x) (filter_spectrum p (map (fun f => cis (l2 * fiber_beta2 * (2 * PI * f) ^ 2)) (ifft_shift_ (grid_f p))))).
  { destruct (filter_spectrum p _ x) as [y|e]; cbn [bind]; [apply fiber_plain|reflexivity]. }
  rewrite filter_compose.
  - rewrite zipmul_cis. f_equal. apply map_ext. intros f. f_equal. ring.
  - apply grid_dt_nz; exact U.
  - apply (pos_len p); assumption.
  - rewrite map_length, ifft_shift_length, grid_f_length. symmetry; exact L.
  - rewrite map_length, ifft_shift_length, grid_f_length. symmetry; exact L.
Qed.
Lemma index_pos : refractive_index <> 0.
Proof. unfold refractive_index. lra. Qed.
Lemma light_pos : speed_of_light <> 0.
Proof. unfold speed_of_light. lra. Qed.
Lemma delay_plain : forall d p x, delay_line d p x = filter_spectrum p (map (fun f => cis (2 * PI * (f + central_frequency p) * d)) (ifft_shift_ (grid_f p))) x.
Proof.
  intros d p x. unfold delay_line. rewrite ratio_m0, scale_1_bind. rewrite !ifft_shift_map, !map_map. f_equal. apply map_ext. intros f. f_equal. field. split; [apply index_pos|apply light_pos].
Qed.
Lemma delay_compose : forall d1 d2 p x, usable (n_samples p) (window_t p) -> length x = n_samples p -> bind (delay_line d1 p x) (delay_line d2 p) = delay_line (d1 + d2) p x.
Proof.
  intros l1 l2 p x U L. rewrite !delay_plain. transitivity (bind (filter_spectrum p (map (fun f => cis (2 * PI * (f + central_frequency p) * l1)) (ifft_shift_ (grid_f p))) x) (filter_spectrum p (map (fun f => cis (2 * PI * (f + central_frequency p) * l2)) (ifft_shift_ (grid_f p))))).
  { destruct (filter_spectrum p _ x) as [y|e]; cbn [bind]; [apply delay_plain|reflexivity]. }
  rewrite filter_compose.
  - rewrite zipmul_cis. f_equal. apply map_ext. intros f. f_equal. ring.
  - apply grid_dt_nz; exact U.
  - apply (pos_len p); assumption.
  - rewrite map_length, ifft_shift_length, grid_f_length. symmetry; exact L.
  - rewrite map_length, ifft_shift_length, grid_f_length. symmetry; exact L.
Qed.

(** ** Sample by sample *)
Lemma attenuator_power : forall a x t, sample_power (attenuator a x) t = ten_to (a / 10) * sample_power x t.
Proof. intros a x t. unfold sample_power, attenuator. rewrite scale_nth, Cnorm2_mul, Cnorm2_RtoC, ratio_square. reflexivity. Qed.
Lemma attenuator_compose : forall a b x, attenuator b (attenuator a x) = attenuator (a + b) x.
Proof. intros a b x. unfold attenuator. rewrite scale_scale. f_equal. unfold dB_to_amplitude_ratio. rewrite <- ten_to_add. f_equal. field. Qed.

Lemma broadcast_noise : forall (f : R -> R -> R) a b, length b = length a \/ length b = 1%nat -> exists c, broadcast f a b = Ok c /\ length c = length a.
Proof.
  intros f a b H. unfold broadcast. destruct (Nat.eqb (length a) (length b)) eqn:E.
  - apply Nat.eqb_eq in E. eexists; split; [reflexivity|]. rewrite map_length, combine_length, E. apply Nat.min_id.
  - apply Nat.eqb_neq in E. destruct H as [H|H]; [congruence|]. destruct b as [|y [|y' b]]; cbn in H; try lia. destruct a as [|x [|x' a]]; cbn in E; try lia; eexists; (split; [reflexivity|]); apply map_length.
Qed.
Lemma phase_modulator_power : forall depth fr sh noise p x, usable (n_samples p) (window_t p) -> length x = n_samples p -> length noise = n_samples p \/ length noise = 1%nat ->
  yields x (phase_modulator depth fr sh noise p x) (fun y => forall t, sample_power y t = sample_power x t).
Proof.
  intros depth fr sh noise p x U L N. unfold phase_modulator. destruct (broadcast_noise (fun t n => 2 * PI * fr * t + sh + n) (grid_t p) noise) as (c & E & Lc); [rewrite grid_t_length; exact N|]. rewrite E. cbn [bind]. rewrite grid_t_length in Lc.
  rewrite broadcast_same by (rewrite !map_length; lia). cbn [bind]. rewrite ratio_m0, scale_1. eexists; split; [reflexivity|].
  match goal with |- context [map _ (combine x ?m)] => set (mm := m); assert (Lm : length x = length mm) by (unfold mm; rewrite !map_length; lia) end. split; [rewrite map_length, combine_length, <- Lm; apply Nat.min_id|].
  intros t. unfold sample_power. fold (zipmul x mm). rewrite zipmul_nth by exact Lm. rewrite Cnorm2_mul. destruct (lt_dec t (length x)) as [H|H].
  - rewrite (nth_indep mm C0 (cis 0)) by (rewrite <- Lm; exact H). unfold mm. rewrite map_nth, cis_norm. ring.
  - rewrite (nth_overflow x) by lia. unfold Cnorm2, C0, re, im. cbn [fst snd]. ring.
Qed.
Lemma intensity_modulator_power : forall depth fr bias p x, usable (n_samples p) (window_t p) -> length x = n_samples p ->
  yields x (intensity_modulator depth fr bias p x) (fun y => forall t, (t < length x)%nat -> sample_power y t =
    ten_to (- (4 / 10)) * Rsqr (cos ((depth * cos (2 * PI * fr * nth t (grid_t p) 0) + bias) / 2)) * sample_power x t).
Proof.
  intros depth fr bias p x U L. unfold intensity_modulator. set (tr := map _ (grid_t p)). assert (Lt : length (map cis tr) = length x) by (unfold tr; rewrite !map_length, grid_t_length; lia).
  rewrite broadcast_same by (rewrite scale_length; lia). cbn [bind]. fold (zipmul (scale (/ 2) x) (map cis tr)). assert (Lz : length (zipmul (scale (/ 2) x) (map cis tr)) = length x) by (rewrite zipmul_length; rewrite ?scale_length; lia).
  rewrite broadcast_same by (rewrite scale_length; lia). cbn [bind]. eexists; split; [reflexivity|]. split; [rewrite scale_length, map_length, combine_length, scale_length, Lz; apply Nat.min_id|].
  intros t Ht. unfold sample_power. rewrite scale_nth, Cnorm2_mul, Cnorm2_RtoC, ratio_square. rewrite (map_nth_d _ _ t (C0, C0)) by (cbn [fst snd]; ring). rewrite combine_nth by (rewrite scale_length; lia). cbn [fst snd]. rewrite zipmul_nth by (rewrite scale_length; lia). rewrite scale_nth.
  assert (E : nth t (map cis tr) C0 = cis (depth * cos (2 * PI * fr * nth t (grid_t p) 0) + bias)).
  { rewrite (nth_indep _ C0 (cis 0)) by lia. rewrite map_nth. f_equal. unfold tr. rewrite (nth_indep _ 0 (depth * cos (2 * PI * fr * 0) + bias)) by (rewrite map_length, grid_t_length; lia). rewrite (map_nth (fun t0 => depth * cos (2 * PI * fr * t0) + bias)). reflexivity. }
  rewrite E. set (th := depth * cos (2 * PI * fr * nth t (grid_t p) 0) + bias). replace (-4 / 10) with (- (4 / 10)) by field. rewrite Rmult_assoc. f_equal.
  replace (Cadd (Cmul (RtoC (/ 2)) (nth t x C0)) (Cmul (Cmul (RtoC (/ 2)) (nth t x C0)) (cis th))) with (Cmul (Cmul (RtoC (/ 2)) (Cadd C1 (cis th))) (nth t x C0)) by ring. rewrite Cnorm2_mul. f_equal. rewrite Cnorm2_mul, Cnorm2_RtoC.
  unfold Cnorm2, Cadd, C1, cis, re, im. cbn [fst snd]. pose proof (cos_2a_cos (th / 2)) as H1. pose proof (sin2_cos2 th) as H2. replace (2 * (th / 2)) with th in H1 by field. unfold Rsqr in *. nra.
Qed.
