(** The time and frequency grids, the delay line as a shift, the sources. *)
From Coq Require Import Reals Lra Lia List Arith ZArith.
From Verif Require Import Base Complex ArrayModel FourierProofs ComponentModel ComponentSpec FilterProofs ComponentProofs.
Import ListNotations.
Local Open Scope R_scope.

Lemma pred_INR : forall n, (1 <= n)%nat -> INR (n - 1) = INR n - 1.
Proof. intros n H. rewrite minus_INR by exact H. reflexivity. Qed.
Lemma samples_big : forall n, (2 <= n)%nat -> 2 <= INR n.
Proof. intros n H. replace 2 with (INR 2) by (cbn; lra). apply le_INR. exact H. Qed.

Lemma grid_t_nth : forall p i, (i < n_samples p)%nat -> nth i (grid_t p) 0 = - window_t p / 2 + INR i * (window_t p / INR (n_samples p - 1)).
Proof. intros p i H. unfold grid_t, linspace. rewrite tabulate_nth by exact H. replace (window_t p / 2 - - window_t p / 2) with (window_t p) by lra. reflexivity. Qed.
Lemma grid_f_nth : forall p i, usable (n_samples p) (window_t p) -> (i < n_samples p)%nat -> nth i (grid_f p) 0 = (INR i - (INR (n_samples p) - 1) / 2) * grid_df p.
Proof.
  intros p i (U & W) H. unfold grid_f, linspace. rewrite tabulate_nth by exact H. rewrite grid_df_val, pred_INR by lia. pose proof (samples_big _ U). field. split; lra.
Qed.
Lemma grid_df_pos : forall p, usable (n_samples p) (window_t p) -> 0 < grid_df p.
Proof. intros p (U & W). rewrite grid_df_val. pose proof (samples_big _ U). pose proof (steps_pos _ U). apply Rdiv_lt_0_compat; [|assumption]. apply Rdiv_lt_0_compat; lra. Qed.

Lemma ifft_shift_nth : forall {A} (x : list A) k d, (k < length x)%nat -> nth k (ifft_shift_ x) d = nth ((k + length x / 2) mod length x) x d.
Proof.
  intros A x k d H. unfold ifft_shift_. set (n := length x) in *. set (h := (n / 2)%nat). assert (Hh : (h <= n)%nat) by (unfold h; apply Nat.div_le_upper_bound; lia).
  assert (Ls : length (skipn h x) = (n - h)%nat) by (rewrite skipn_length; reflexivity).
  destruct (lt_dec k (n - h)) as [L|L].
  - rewrite app_nth1 by lia. rewrite Nat.mod_small by lia. rewrite <- (firstn_skipn h x) at 2. rewrite app_nth2; rewrite firstn_length; fold n; rewrite Nat.min_l by lia; [|lia]. f_equal. lia.
  - rewrite app_nth2 by lia. rewrite Ls. replace ((k + h) mod n)%nat with (k + h - n)%nat.
    2: { replace (k + h)%nat with ((k + h - n) + 1 * n)%nat at 2 by lia. rewrite Nat.mod_add by lia. symmetry. apply Nat.mod_small. lia. }
    rewrite <- (firstn_skipn h x) at 2. rewrite app_nth1; [f_equal; lia|]. rewrite firstn_length. fold n. lia.
Qed.

Lemma half_offset : forall n, INR (n / 2) = (INR n - 1) / 2 + offset n.
Proof.
  intros n. unfold offset. destruct (Nat.even n) eqn:E.
  - apply Nat.even_spec in E. destruct E as (k & ->). replace (2 * k)%nat with (k * 2)%nat by lia. rewrite Nat.div_mul by lia. rewrite mult_INR. cbn [INR]. field.
  - assert (O : Nat.odd n = true) by (unfold Nat.odd; rewrite E; reflexivity). apply Nat.odd_spec in O. destruct O as (k & ->). replace ((2 * k + 1) / 2)%nat with k by (symmetry; replace (2 * k + 1)%nat with (1 + k * 2)%nat by lia; rewrite Nat.div_add by lia; reflexivity). rewrite plus_INR, mult_INR. cbn [INR]. field.
Qed.
(* the frequency given to entry k of a spectrum *)
Lemma grid_f_shifted : forall p k, usable (n_samples p) (window_t p) -> (k < n_samples p)%nat ->
  exists w, (w = 0 \/ w = 1)%nat /\ nth k (ifft_shift_ (grid_f p)) 0 = (INR k + offset (n_samples p) - INR w * INR (n_samples p)) * grid_df p.
Proof.
  intros p k U H. set (n := n_samples p) in *. rewrite ifft_shift_nth by (rewrite grid_f_length; exact H). rewrite grid_f_length. fold n. assert (Hh : (n / 2 < n)%nat) by (apply Nat.div_lt; lia).
  destruct (lt_dec (k + n / 2) n) as [L|L].
  - exists 0%nat. split; [left; reflexivity|]. rewrite Nat.mod_small by exact L. rewrite grid_f_nth by (try exact U; exact L). fold n. rewrite plus_INR, half_offset. cbn [INR]. f_equal. field.
  - exists 1%nat. split; [right; reflexivity|]. replace ((k + n / 2) mod n)%nat with (k + n / 2 - n)%nat.
    2: { replace (k + n / 2)%nat with ((k + n / 2 - n) + 1 * n)%nat at 2 by lia. rewrite Nat.mod_add by lia. symmetry. apply Nat.mod_small. lia. }
    rewrite grid_f_nth by (try exact U; fold n; lia). fold n. rewrite minus_INR, plus_INR, half_offset by lia. cbn [INR]. f_equal. field.
Qed.
Lemma grid_f_zero : forall p, usable (n_samples p) (window_t p) -> nth 0 (ifft_shift_ (grid_f p)) 0 = offset (n_samples p) * grid_df p.
Proof.
  intros p U. assert (H : (0 < n_samples p)%nat) by (destruct U; lia). rewrite ifft_shift_nth by (rewrite grid_f_length; exact H). rewrite grid_f_length. assert (Hh : (n_samples p / 2 < n_samples p)%nat) by (apply Nat.div_lt; lia).
  cbn [Nat.add]. rewrite Nat.mod_small by exact Hh. rewrite grid_f_nth by (try exact U; exact Hh). rewrite half_offset. f_equal. field.
Qed.
Lemma grid_has_zero : forall p, usable (n_samples p) (window_t p) -> (In 0 (grid_f p) <-> Nat.Odd (n_samples p)).
Proof.
  intros p U. pose proof (grid_df_pos p U) as D. split.
  - intros H. apply (In_nth _ _ 0) in H. destruct H as (i & Hi & E). rewrite grid_f_length in Hi. rewrite grid_f_nth in E by assumption. apply Rmult_integral in E. destruct E as [E|E]; [|lra].
    assert (X : INR (2 * i + 1) = INR (n_samples p)) by (rewrite plus_INR, mult_INR; cbn [INR]; lra). apply INR_eq in X. exists i. lia.
  - intros (k & E). assert (X : nth k (grid_f p) 0 = 0). { rewrite grid_f_nth by (try exact U; lia). rewrite E, plus_INR, mult_INR. cbn [INR]. field. } rewrite <- X. apply nth_In. rewrite grid_f_length. lia.
Qed.
Lemma grid_product : forall p, usable (n_samples p) (window_t p) -> grid_df p * grid_dt p = INR (n_samples p) / (INR (n_samples p) - 1) ^ 2.
Proof. intros p (U & W). rewrite grid_df_val, grid_dt_val, pred_INR by lia. pose proof (samples_big _ U). field. split; lra. Qed.

(** ** The delay line is a circular shift *)
Lemma delay_shift : forall d m p x, usable (n_samples p) (window_t p) -> length x = n_samples p -> d * (INR (n_samples p) * grid_df p) = INR m ->
  yields x (delay_line d p x) (fun y => exists c, Cnorm2 c = 1 /\ exists z, advanced m x z /\ y = map (Cmul c) z).
Proof.
  intros d m p x U L Hm. rewrite delay_plain. set (n := n_samples p) in *. assert (Pn : 0 < INR n) by (apply INR_pos; destruct U; lia).
  set (c := cis (2 * PI * (offset n * grid_df p + central_frequency p) * d)). set (z := tabulate n (fun j => nth ((j + m) mod n) x C0)).
  destruct (filter_ok p (map (fun f => cis (2 * PI * (f + central_frequency p) * d)) (ifft_shift_ (grid_f p))) x) as (y & out & F & Ly & E & I & Lo).
  { apply grid_dt_nz; exact U. } { apply (pos_len p); assumption. } { rewrite map_length, ifft_shift_length, grid_f_length. symmetry; exact L. }
  exists out. split; [exact E|]. split; [exact Lo|]. exists c. split; [apply cis_norm|]. exists z. split.
  { split; [unfold z; rewrite tabulate_length; symmetry; exact L|]. rewrite L. intros j Hj. unfold z. rewrite tabulate_nth by exact Hj. reflexivity. }
  destruct (fft_ok _ _ F) as (_ & P0 & _). destruct (ifft_total y) as (x' & I'); [lia|]. pose proof (ifft_fft _ _ _ F I') as X. subst x'. destruct (ifft_ok _ _ I') as (_ & _ & V'). rewrite Ly, L in V'.
  destruct (ifft_ok _ _ I) as (_ & _ & V). rewrite zipmul_length in V by (rewrite map_length, ifft_shift_length, grid_f_length; lia). rewrite Ly, L in V.
  apply (list_eq_nth C0); [rewrite map_length; unfold z; rewrite tabulate_length; lia|]. intros j Hj. rewrite Lo, L in Hj. rewrite V by exact Hj. rewrite (map_nth_d _ _ j C0) by ring. unfold z. rewrite tabulate_nth by exact Hj.
  assert (Ha : ((j + m) mod n < n)%nat) by (apply Nat.mod_upper_bound; destruct U; lia). rewrite V' by exact Ha.
  transitivity (Cmul (RtoC (/ INR n)) (Cmul c (csum n (fun k => Cmul (nth k y C0) (cis (2 * PI * INR ((j + m) mod n) * INR k / INR n)))))); [|ring]. f_equal. rewrite <- csum_scale. apply csum_ext. intros k Hk.
  rewrite zipmul_nth by (rewrite map_length, ifft_shift_length, grid_f_length; lia).
  rewrite (nth_indep _ C0 (cis (2 * PI * (0 + central_frequency p) * d))) by (rewrite map_length, ifft_shift_length, grid_f_length; exact Hk). rewrite (map_nth (fun f => cis (2 * PI * (f + central_frequency p) * d))).
  destruct (grid_f_shifted p k U Hk) as (w & _ & Ef). fold n in Ef. rewrite Ef.
  assert (Edf : grid_df p * d = INR m / INR n). { apply (Rmult_eq_reg_r (INR n)); [|lra]. unfold Rdiv. rewrite (Rmult_assoc (INR m)), Rinv_l by lra. rewrite Rmult_1_r, <- Hm. ring. }
  replace (2 * PI * ((INR k + offset n - INR w * INR n) * grid_df p + central_frequency p) * d) with (2 * PI * (offset n * grid_df p + central_frequency p) * d + (2 * PI * INR k * INR m / INR n + - (2 * PI * INR (w * m)))).
  2: { rewrite mult_INR. transitivity (2 * PI * (offset n * grid_df p + central_frequency p) * d + 2 * PI * (INR k * (grid_df p * d) - INR w * (INR n * (grid_df p * d)))); [rewrite Edf; field; lra|ring]. }
  rewrite !cis_add, cis_turns_neg. fold c.
  assert (K : Cmul (cis (2 * PI * INR k * INR m / INR n)) (cis (2 * PI * INR j * INR k / INR n)) = cis (2 * PI * INR ((j + m) mod n) * INR k / INR n)).
  { rewrite <- cis_add. pose proof (Nat.div_mod (j + m) n ltac:(destruct U; lia)) as DM. apply (f_equal INR) in DM. rewrite plus_INR, plus_INR, mult_INR in DM.
    replace (2 * PI * INR k * INR m / INR n + 2 * PI * INR j * INR k / INR n) with (2 * PI * INR ((j + m) mod n) * INR k / INR n + 2 * PI * INR ((j + m) / n * k)).
    2: { rewrite mult_INR. transitivity (2 * PI * INR k / INR n * (INR n * INR ((j + m) / n) + INR ((j + m) mod n))); [field; lra|]. rewrite <- DM. field. lra. }
    rewrite cis_add, cis_turns. ring. }
  rewrite <- K. ring.
Qed.

(** ** Sources *)
Lemma laser_power : forall P x t, 0 <= P -> (t < length x)%nat -> length (continuous_wave_laser P x) = length x /\ sample_power (continuous_wave_laser P x) t = P.
Proof.
  intros P x t HP Ht. unfold continuous_wave_laser, sample_power. split; [apply map_length|]. rewrite (nth_indep _ C0 (RtoC (sqrt P))) by (rewrite map_length; exact Ht). rewrite (map_nth (fun _ => RtoC (sqrt P)) x C0). rewrite Cnorm2_RtoC. apply sqrt_sqrt. exact HP.
Qed.
Lemma pulse_power : forall s P, 0 <= s <= 1 -> 0 <= P -> Cnorm2 (RtoC (s * sqrt P)) = s * s * P.
Proof. intros s P Hs HP. rewrite Cnorm2_RtoC. replace (s * sqrt P * (s * sqrt P)) with (s * s * (sqrt P * sqrt P)) by ring. rewrite sqrt_sqrt by exact HP. reflexivity. Qed.
Lemma exp_neg_range : forall x, x <= 0 -> 0 <= exp x <= 1.
Proof. intros x H. split; [left; apply exp_pos|]. rewrite <- exp_0. destruct H as [H|H]; [left; apply exp_increasing; exact H|right; f_equal; exact H]. Qed.
Lemma cosh_ge_1 : forall x, 1 <= cosh x.
Proof.
  intros x. unfold cosh. pose proof (exp_pos x) as P. assert (E : exp (- x) = / exp x) by apply exp_Ropp. rewrite E. set (a := exp x) in *. apply (Rmult_le_reg_r (2 * a)); [lra|]. replace ((a + / a) / 2 * (2 * a)) with (a * a + 1) by (field; lra). pose proof (Rle_0_sqr (a - 1)) as S2. unfold Rsqr in S2. lra.
Qed.
Lemma sech_range : forall x, 0 <= 1 / cosh x <= 1.
Proof. intros x. pose proof (cosh_ge_1 x). split; [left; apply Rdiv_lt_0_compat; lra|]. apply (Rmult_le_reg_r (cosh x)); [lra|]. unfold Rdiv. rewrite Rmult_assoc, Rinv_l by lra. lra. Qed.
Lemma pulsed_laser_power : forall shape w P T p, 0 <= P -> shape <> OtherShape -> exists y, pulsed_laser shape w P T p = Ok y /\ length y = n_samples p /\ forall t, sample_power y t <= P.
Proof.
  intros shape w P T p HP HS. assert (Z : forall y t, (length y <= t)%nat -> sample_power y t <= P) by (intros y t Ht; unfold sample_power; rewrite nth_overflow by exact Ht; unfold Cnorm2, C0, re, im; cbn; lra).
  assert (Q : forall s, 0 <= s <= 1 -> Cnorm2 (RtoC (s * sqrt P)) <= P) by (intros s Hs; rewrite (pulse_power s P Hs HP); assert (s * s <= 1) by nra; nra).
  destruct shape; [| | |congruence]; unfold pulsed_laser; eexists; (split; [reflexivity|]).
  - split; [rewrite !map_length; apply grid_t_length|]. intros t. match goal with |- sample_power ?l t <= P => destruct (lt_dec t (length l)) as [H|H]; [|apply Z; lia] end. unfold sample_power. match goal with |- Cnorm2 (nth t ?l C0) <= P => assert (I : In (nth t l C0) l) by (apply nth_In; exact H) end. apply in_map_iff in I. destruct I as (u & <- & _). apply Q. apply exp_neg_range. assert (0 <= (u / (w / (2 * sqrt (ln 2)))) ^ 2) by apply pow2_ge_0. lra.
  - split; [rewrite !map_length; apply grid_t_length|]. intros t. match goal with |- sample_power ?l t <= P => destruct (lt_dec t (length l)) as [H|H]; [|apply Z; lia] end. unfold sample_power. match goal with |- Cnorm2 (nth t ?l C0) <= P => assert (I : In (nth t l C0) l) by (apply nth_In; exact H) end. apply in_map_iff in I. destruct I as (u & <- & _). apply Q. apply sech_range.
  - split; [rewrite tabulate_length; apply grid_t_length|]. intros t. match goal with |- sample_power ?l t <= P => destruct (lt_dec t (length l)) as [H|H]; [|apply Z; lia] end. unfold sample_power. match goal with |- Cnorm2 (nth t ?l C0) <= P => assert (I : In (nth t l C0) l) by (apply nth_In; exact H) end. apply in_map_iff in I. destruct I as (u & <- & _). apply Q. destruct (Nat.eqb u 0); lra.
Qed.
(* the pulse repeats: samples one period apart carry the same field *)
Definition folded (T t : R) : R := asin (sin (PI * t / T)) * T / PI.
Lemma folded_shift : forall T t, T <> 0 -> folded T (t + T) = - folded T t.
Proof.
  intros T t HT. unfold folded. replace (PI * (t + T) / T) with (PI * t / T + PI) by (field; exact HT). rewrite neg_sin, asin_opp. unfold Rdiv. ring.
Qed.
Lemma folded_multiple : forall T z, T <> 0 -> folded T (IZR z * T) = 0.
Proof.
  intros T z HT. unfold folded. replace (PI * (IZR z * T) / T) with (IZR z * PI) by (field; exact HT). rewrite sin_eq_0_1 by (exists z; reflexivity). rewrite asin_0. unfold Rdiv. ring.
Qed.
Definition envelope (shape : pulse_shape) (u : R) : R := match shape with Sech => 1 / cosh u | _ => exp (- (1 / 2) * u ^ 2) end.
Lemma envelope_even : forall shape u, envelope shape (- u) = envelope shape u.
Proof. intros shape u. destruct shape; cbn [envelope]; try (f_equal; ring). unfold cosh. rewrite Ropp_involutive, Rplus_comm. reflexivity. Qed.
Lemma envelope_0 : forall shape, envelope shape 0 = 1.
Proof. intros shape. destruct shape; cbn [envelope]; try (replace (- (1 / 2) * 0 ^ 2) with 0 by ring; apply exp_0). unfold cosh. rewrite Ropp_0, exp_0. field. Qed.
Lemma pulsed_laser_nth : forall shape w P T p i, shape = Gaussian \/ shape = Sech -> (i < n_samples p)%nat -> exists y, pulsed_laser shape w P T p = Ok y /\
  nth i y C0 = RtoC (envelope shape (folded T (nth i (grid_t p) 0) / (w / (2 * sqrt (ln 2)))) * sqrt P).
Proof.
  intros shape w P T p i HS Hi. unfold pulsed_laser. destruct HS as [-> | ->]; eexists; (split; [reflexivity|]); rewrite map_map; cbn [envelope]; fold (folded T (nth i (grid_t p) 0)).
  - rewrite (nth_indep _ C0 (RtoC (exp (- (1 / 2) * (asin (sin (PI * 0 / T)) * T / PI / (w / (2 * sqrt (ln 2)))) ^ 2) * sqrt P))) by (rewrite map_length, grid_t_length; exact Hi).
    rewrite (map_nth (fun x => RtoC (exp (- (1 / 2) * (asin (sin (PI * x / T)) * T / PI / (w / (2 * sqrt (ln 2)))) ^ 2) * sqrt P))). reflexivity.
  - rewrite (nth_indep _ C0 (RtoC (1 / cosh (asin (sin (PI * 0 / T)) * T / PI / (w / (2 * sqrt (ln 2)))) * sqrt P))) by (rewrite map_length, grid_t_length; exact Hi).
    rewrite (map_nth (fun x => RtoC (1 / cosh (asin (sin (PI * x / T)) * T / PI / (w / (2 * sqrt (ln 2)))) * sqrt P))). reflexivity.
Qed.
Lemma pulsed_laser_periodic : forall shape w P T p y i k, shape = Gaussian \/ shape = Sech -> T <> 0 -> pulsed_laser shape w P T p = Ok y -> (i < n_samples p)%nat -> (k < n_samples p)%nat ->
  nth k (grid_t p) 0 = nth i (grid_t p) 0 + T -> nth k y C0 = nth i y C0.
Proof.
  intros shape w P T p y i k HS HT E Hi Hk Ht. destruct (pulsed_laser_nth shape w P T p i HS Hi) as (y1 & E1 & V1). destruct (pulsed_laser_nth shape w P T p k HS Hk) as (y2 & E2 & V2). assert (y1 = y) by congruence. assert (y2 = y) by congruence. subst y1 y2.
  rewrite V1, V2, Ht, folded_shift by exact HT. replace (- folded T (nth i (grid_t p) 0) / (w / (2 * sqrt (ln 2)))) with (- (folded T (nth i (grid_t p) 0) / (w / (2 * sqrt (ln 2))))) by (unfold Rdiv; ring). rewrite envelope_even. reflexivity.
Qed.
Lemma pulsed_laser_peak : forall shape w P T p y i z, shape = Gaussian \/ shape = Sech -> T <> 0 -> 0 <= P -> pulsed_laser shape w P T p = Ok y -> (i < n_samples p)%nat -> nth i (grid_t p) 0 = IZR z * T -> sample_power y i = P.
Proof.
  intros shape w P T p y i z HS HT HP E Hi Ht. destruct (pulsed_laser_nth shape w P T p i HS Hi) as (y1 & E1 & V1). assert (y1 = y) by congruence. subst y1. unfold sample_power. rewrite V1, Ht, folded_multiple by exact HT. unfold Rdiv at 1. rewrite Rmult_0_l, envelope_0, Rmult_1_l, Cnorm2_RtoC. apply sqrt_sqrt. exact HP.
Qed.

Lemma impulse_exact : forall p x, usable (n_samples p) (window_t p) -> length x = n_samples p ->
  yields x (impulse p x) (fun y => forall k, (k < n_samples p)%nat -> nth k y C0 = if Nat.eqb k (n_samples p - n_samples p / 2) then RtoC (/ grid_dt p) else C0).
Proof.
  intros p x U L. unfold impulse, ifft_. set (n := n_samples p) in *. assert (N2 : (2 <= n)%nat) by (destruct U; assumption). assert (Pn : 0 < INR n) by (apply INR_pos; lia). set (ones := map (fun _ => C1) x). assert (Lo : length ones = n) by (unfold ones; rewrite map_length; exact L).
  destruct (ifft_total ones) as (z & I); [lia|]. rewrite I. cbn [bind]. eexists; split; [reflexivity|]. destruct (ifft_ok _ _ I) as (Lz & _ & V). rewrite Lo in *. split; [rewrite ifft_shift_length, scale_length; lia|].
  intros k Hk. rewrite ifft_shift_nth by (rewrite scale_length; lia). rewrite scale_length, Lz, scale_nth. set (j := ((k + n / 2) mod n)%nat). assert (Hj : (j < n)%nat) by (apply Nat.mod_upper_bound; lia). rewrite V by exact Hj.
  assert (S1 : csum n (fun k0 => Cmul (nth k0 ones C0) (cis (2 * PI * INR j * INR k0 / INR n))) = if Nat.eq_dec j 0 then RtoC (INR n) else C0).
  { rewrite <- (orthogonal n j 0) by lia. apply csum_ext. intros i Hi. assert (O : nth i ones C0 = C1) by (unfold ones; rewrite (nth_indep _ C0 C1) by (rewrite map_length; lia); rewrite (map_nth (fun _ => C1) x C0); reflexivity). rewrite O. cbn [INR]. replace (2 * PI * INR j * INR i / INR n) with (2 * PI * INR i * (INR j - 0) / INR n) by (unfold Rdiv; ring). ring. }
  rewrite S1. assert (Hh : (n / 2 < n)%nat) by (apply Nat.div_lt; lia). assert (H2 : (0 < n / 2)%nat) by (apply Nat.div_str_pos; lia).
  assert (J : j = 0%nat <-> k = (n - n / 2)%nat).
  { unfold j. split; intros H.
    - pose proof (Nat.div_mod (k + n / 2) n ltac:(lia)) as DM. rewrite H in DM. set (q := ((k + n / 2) / n)%nat) in *. assert (q = 1)%nat by nia. subst q. lia.
    - subst k. replace (n - n / 2 + n / 2)%nat with n by lia. apply Nat.mod_same. lia. }
  destruct (Nat.eqb_spec k (n - n / 2)) as [Ek|Ek]; destruct (Nat.eq_dec j 0) as [Ej|Ej]; try tauto.
  - rewrite RtoC_mul, Rinv_l, RtoC_mul, Rmult_1_r by lra. reflexivity.
  - ring.
Qed.
