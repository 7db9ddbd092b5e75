(** The wave shaper, the square filter, the amplifier and the photodiode. *)
From Coq Require Import Reals Lra Lia List Arith ZArith.
From Verif Require Import Base Complex ArrayModel FourierProofs ComponentModel ComponentSpec FilterProofs ComponentProofs.
Import ListNotations.
Local Open Scope R_scope.

(** ** The mask of the wave shaper *)
Lemma bin_samples_spec : forall p n, usable (n_samples p) (window_t p) -> bin_spans (n_samples p) (window_t p) n -> bin_samples p = n.
Proof.
  intros p n U (A & B). unfold bin_samples, frequency_bin_width.
  replace (INR (n_samples p) / (1 / grid_dt p / (12 * 10 ^ 9))) with (INR (n_samples p) * (window_t p / INR (n_samples p - 1)) * (12 * 10 ^ 9)).
  2: { rewrite <- grid_dt_val. pose proof (grid_dt_pos p U). assert (12 * 10 ^ 9 <> 0) by (apply Rmult_integral_contrapositive; split; [lra|apply pow_nonzero; lra]). field. first [lra | split; lra]. }
  set (r := INR (n_samples p) * (window_t p / INR (n_samples p - 1)) * (12 * 10 ^ 9)) in *.
  assert (E : Int_part r = Z.of_nat n). { unfold Int_part. rewrite <- (tech_up r (Z.of_nat n + 1)); [lia| |]; rewrite plus_IZR, <- INR_IZR_INZ; lra. }
  rewrite E. apply Nat2Z.id.
Qed.
Lemma bins_length : forall {A} n (v : list A), length (bins n v) = (length v * n)%nat.
Proof. intros A n v. unfold bins. induction v as [|a v IH]; [reflexivity|]. cbn [flat_map length]. rewrite app_length, repeat_length, IH. lia. Qed.
Lemma bins_In : forall {A} n (v : list A) a, In a (bins n v) -> In a v.
Proof. intros A n v a H. unfold bins in H. apply in_flat_map in H. destruct H as (b & Hb & H). apply repeat_spec in H. congruence. Qed.
Lemma In_firstn' : forall {A} n (l : list A) a, In a (firstn n l) -> In a l.
Proof. intros A n l a H. rewrite <- (firstn_skipn n l). apply in_app_iff. left. exact H. Qed.
Lemma In_skipn' : forall {A} n (l : list A) a, In a (skipn n l) -> In a l.
Proof. intros A n l a H. rewrite <- (firstn_skipn n l). apply in_app_iff. right. exact H. Qed.
Lemma fit_mask_In : forall {A} (pad : A) N row a, In a (fit_mask pad N row) -> a = pad \/ In a row.
Proof.
  intros A pad N row a H. unfold fit_mask in H. destruct (_ <? 0)%Z.
  - right. unfold slice in H. apply In_firstn' in H. apply In_skipn' in H. exact H.
  - apply in_app_iff in H. destruct H as [H|H]; [left; apply repeat_spec in H; exact H|]. apply in_app_iff in H. destruct H as [H|H]; [right; exact H|left; apply repeat_spec in H; exact H].
Qed.
Lemma fit_mask_length : forall {A} (pad : A) N row, length (fit_mask pad N row) = if Nat.leb (length row) N then N else if Nat.even (length row - N) then N else (N - 1)%nat.
Proof.
  intros A pad N row. unfold fit_mask. set (L := length row). destruct (Nat.leb_spec L N) as [H|H].
  - destruct (((Z.of_nat N - Z.of_nat L) / 2 <? 0)%Z) eqn:E; [apply Z.ltb_lt in E; pose proof (Z.div_pos (Z.of_nat N - Z.of_nat L) 2); lia|].
    rewrite !app_length, !repeat_length. fold L. set (d := (Z.of_nat N - Z.of_nat L)%Z) in *. pose proof (Z.div_mod d 2). pose proof (Z.mod_pos_bound d 2). pose proof (Z.div_mod (- d) 2). pose proof (Z.mod_pos_bound (- d) 2). unfold d in *. lia.
  - destruct (((Z.of_nat N - Z.of_nat L) / 2 <? 0)%Z) eqn:E; [|apply Z.ltb_ge in E; pose proof (Z.div_lt_upper_bound (Z.of_nat N - Z.of_nat L) 2 0); lia].
    unfold slice. rewrite firstn_length, skipn_length. fold L. set (d := (Z.of_nat N - Z.of_nat L)%Z) in *. pose proof (Z.div_mod d 2). pose proof (Z.mod_pos_bound d 2). pose proof (Z.div_mod (- d) 2). pose proof (Z.mod_pos_bound (- d) 2).
    destruct (Nat.even (L - N)) eqn:Ev.
    + apply Nat.even_spec in Ev. destruct Ev as (k & Ek). assert (d = - 2 * Z.of_nat k)%Z by (unfold d; lia). lia.
    + assert (Od : Nat.odd (L - N) = true) by (unfold Nat.odd; rewrite Ev; reflexivity). apply Nat.odd_spec in Od. destruct Od as (k & Ek). assert (d = - 2 * Z.of_nat k - 1)%Z by (unfold d; lia). lia.
Qed.

Definition fits (N L : nat) : Prop := (L <= N)%nat \/ Nat.Even (L - N).
Lemma fits_length : forall {A} (pad : A) N row, fits N (length row) -> length (fit_mask pad N row) = N.
Proof.
  intros A pad N row F. rewrite fit_mask_length. destruct (Nat.leb_spec (length row) N) as [H|H]; [reflexivity|]. destruct F as [F|F]; [lia|]. apply Nat.even_spec in F. rewrite F. reflexivity.
Qed.
Lemma misfits_length : forall {A} (pad : A) N row, (N < length row)%nat -> Nat.Odd (length row - N) -> length (fit_mask pad N row) = (N - 1)%nat.
Proof.
  intros A pad N row H F. rewrite fit_mask_length. destruct (Nat.leb_spec (length row) N) as [H'|H']; [lia|]. destruct (Nat.even (length row - N)) eqn:E; [|reflexivity]. apply Nat.even_spec in E. destruct E as (a & Ea), F as (b & Eb). lia.
Qed.

Lemma extinction_range : 0 < extinction_ratio <= 1.
Proof. unfold extinction_ratio. split; [apply ten_to_pos|]. rewrite <- ten_to_0. apply ten_to_le. lra. Qed.
Lemma polar_norm : forall a ph, Cnorm2 (Cmul (RtoC a) (cis ph)) = a * a.
Proof. intros a ph. rewrite Cnorm2_mul, Cnorm2_RtoC, cis_norm. ring. Qed.

Lemma wave_shaper_energy : forall amps phases p x n lo,
  usable (n_samples p) (window_t p) -> length x = n_samples p -> length amps = length phases -> bin_spans (n_samples p) (window_t p) n ->
  fits (n_samples p) (length amps * n) -> 0 <= lo <= extinction_ratio -> (forall a, In a amps -> lo <= a <= 1) ->
  yields x (wave_shaper amps phases p x) (fun y => ten_to (- (45 / 100)) * (lo * lo) * energy x <= energy y <= ten_to (- (45 / 100)) * energy x).
Proof.
  intros amps phases p x n lo U L LP Hn F Hlo HA. unfold wave_shaper. rewrite (bin_samples_spec p n U Hn).
  assert (L1 : length (fit_mask extinction_ratio (n_samples p) (bins n amps)) = n_samples p) by (apply fits_length; rewrite bins_length; exact F).
  assert (L2 : length (fit_mask extinction_ratio (n_samples p) (bins n phases)) = n_samples p) by (apply fits_length; rewrite bins_length, <- LP; exact F).
  rewrite broadcast_same by lia. cbn [bind]. set (mask := map _ (combine _ _)).
  assert (Lm : length mask = n_samples p) by (unfold mask; rewrite map_length, combine_length, L1, L2; apply Nat.min_id).
  eapply yields_scale; [apply (filter_bounds p (ifft_shift_ mask) x (lo * lo) 1)|].
  - apply grid_dt_nz; exact U.
  - apply (pos_len p); assumption.
  - rewrite ifft_shift_length. lia.
  - intros m Hm. apply (proj1 (ifft_shift_In _ _)) in Hm. unfold mask in Hm. apply in_map_iff in Hm. destruct Hm as ((a & ph) & <- & Hin). cbn [fst snd]. rewrite polar_norm. apply in_combine_l in Hin. apply fit_mask_In in Hin.
    assert (R : lo <= a <= 1). { destruct Hin as [->|Hin]; [pose proof extinction_range; lra|]. apply HA. apply (bins_In n). exact Hin. } split; nra.
  - intros y _ E. cbn beta in *. rewrite energy_scale, ratio_square. replace (- (45 / 10) / 10) with (- (45 / 100)) by field. pose proof (ten_to_pos (- (45 / 100))) as T. destruct E as [E1 E2]. rewrite !Rmult_assoc. split; apply Rmult_le_compat_l; lra.
Qed.
Lemma wave_shaper_misfit : forall amps phases p x n,
  usable (n_samples p) (window_t p) -> length x = n_samples p -> length amps = length phases -> bin_spans (n_samples p) (window_t p) n ->
  (n_samples p < length amps * n)%nat -> Nat.Odd (length amps * n - n_samples p) -> (3 <= n_samples p)%nat -> wave_shaper amps phases p x = Err ValueError.
Proof.
  intros amps phases p x n U L LP Hn H O N3. unfold wave_shaper. rewrite (bin_samples_spec p n U Hn).
  assert (L1 : length (fit_mask extinction_ratio (n_samples p) (bins n amps)) = (n_samples p - 1)%nat) by (apply misfits_length; rewrite bins_length; assumption).
  assert (L2 : length (fit_mask extinction_ratio (n_samples p) (bins n phases)) = (n_samples p - 1)%nat) by (apply misfits_length; rewrite bins_length, <- LP; assumption).
  rewrite broadcast_same by lia. cbn [bind]. set (mask := map _ (combine _ _)).
  assert (Lm : length (ifft_shift_ mask) = (n_samples p - 1)%nat) by (rewrite ifft_shift_length; unfold mask; rewrite map_length, combine_length, L1, L2; apply Nat.min_id).
  unfold filter_spectrum. destruct (transforms_inverse x (grid_dt p)) as (y & E & Ly & _); [destruct x; [cbn in L; lia|discriminate]|apply grid_dt_nz; exact U|]. rewrite E. cbn [bind].
  assert (B : broadcast Cmul (ifft_shift_ mask) y = Err ValueError); [|rewrite B; reflexivity]. unfold broadcast. destruct (Nat.eqb_spec (length (ifft_shift_ mask)) (length y)) as [Q|_]; [lia|].
  destruct (ifft_shift_ mask) as [|a [|a' m]]; cbn [length] in Lm; try lia. destruct y as [|b [|b' y]]; cbn [length] in Ly; try lia. reflexivity.
Qed.
(* two samples: the mask of one entry is stretched over the field *)
Lemma wave_shaper_two : forall amps phases p x n,
  usable (n_samples p) (window_t p) -> length x = n_samples p -> length amps = length phases -> bin_spans (n_samples p) (window_t p) n ->
  (n_samples p < length amps * n)%nat -> Nat.Odd (length amps * n - n_samples p) -> n_samples p = 2%nat -> exists y, wave_shaper amps phases p x = Ok y /\ length y = 2%nat.
Proof.
  intros amps phases p x n U L LP Hn H O N2. unfold wave_shaper. rewrite (bin_samples_spec p n U Hn).
  assert (L1 : length (fit_mask extinction_ratio (n_samples p) (bins n amps)) = (n_samples p - 1)%nat) by (apply misfits_length; rewrite bins_length; assumption).
  assert (L2 : length (fit_mask extinction_ratio (n_samples p) (bins n phases)) = (n_samples p - 1)%nat) by (apply misfits_length; rewrite bins_length, <- LP; assumption).
  rewrite broadcast_same by lia. cbn [bind]. set (mask := map _ (combine _ _)).
  assert (Lm : length (ifft_shift_ mask) = 1%nat) by (rewrite ifft_shift_length; unfold mask; rewrite map_length, combine_length, L1, L2, N2; reflexivity).
  unfold filter_spectrum. destruct (transforms_inverse x (grid_dt p)) as (y & E & Ly & _); [destruct x; [cbn in L; lia|discriminate]|apply grid_dt_nz; exact U|]. rewrite E. cbn [bind].
  destruct (ifft_shift_ mask) as [|a [|a' m]]; cbn [length] in Lm; try lia. unfold broadcast. destruct (Nat.eqb_spec (length [a]) (length y)) as [Q|_]; [cbn [length] in Q; lia|]. cbn [bind].
  destruct (transforms_inverse' (map (Cmul a) y) (grid_dt p)) as (z & Ez & Lz & _); [destruct y; [cbn in Ly; lia|discriminate]|apply grid_dt_nz; exact U|]. rewrite Ez. cbn [bind]. eexists; split; [reflexivity|]. rewrite scale_length, Lz, map_length. lia.
Qed.

(** ** The square filter *)
Lemma logistic_range : forall x, 0 < logistic x < 1.
Proof. intros x. unfold logistic. pose proof (exp_pos (- x)). split; [apply Rdiv_lt_0_compat; lra|]. apply (Rmult_lt_reg_r (1 + exp (- x))); [lra|]. unfold Rdiv. rewrite Rmult_assoc, Rinv_l by lra. lra. Qed.
Lemma square_filter_energy : forall bw p x, bw <> 0 -> usable (n_samples p) (window_t p) -> length x = n_samples p ->
  yields x (square_filter bw p x) (fun y => energy y <= energy x).
Proof.
  intros bw p x B U L. unfold square_filter. destruct (Req_EM_T bw 0) as [E|_]; [contradiction|]. eapply yields_scale; [apply (filter_bounds p _ x 0 1)|].
  - apply grid_dt_nz; exact U.
  - apply (pos_len p); assumption.
  - rewrite ifft_shift_length, !map_length, grid_f_length. symmetry; exact L.
  - intros m Hm. apply (proj1 (ifft_shift_In _ _)) in Hm. apply in_map_iff in Hm. destruct Hm as (a & <- & Ha). apply in_map_iff in Ha. destruct Ha as (f & <- & _). rewrite Cnorm2_RtoC.
    pose proof (logistic_range ((f + bw / 2) * (60 / bw))). pose proof (logistic_range ((- f + bw / 2) * (60 / bw))). cbn beta. set (u := logistic ((f + bw / 2) * (60 / bw))) in *. set (v := logistic ((- f + bw / 2) * (60 / bw))) in *. clearbody u v. assert (0 < u * v) by (apply Rmult_lt_0_compat; lra). assert (u * v < 1) by nra. set (w := u * v) in *. split; nra.
  - intros y _ E. cbn beta in *. rewrite energy_scale, ratio_0. lra.
Qed.

(** ** The amplifier *)
Lemma power_sum : forall x, fold_right Rplus 0 (power_ x) = energy x.
Proof. unfold power_, energy. induction x as [|z x IH]; cbn [map fold_right]; [reflexivity|]. rewrite IH. reflexivity. Qed.
Lemma mean_power_val : forall x, mean_power x = energy x / INR (length x).
Proof. intros x. unfold mean_power. rewrite power_sum. reflexivity. Qed.
Lemma real_power_nonneg : forall x a, 0 <= real_power x a.
Proof. intros x a. unfold real_power. destruct (Req_EM_T x 0); [destruct (Req_EM_T a 0); lra|]. left. unfold Rpower. apply exp_pos. Qed.
Lemma real_power_above : forall y a, 0 <= y -> 1 <= a -> y <= 1 + real_power y a.
Proof.
  intros y a Hy Ha. pose proof (real_power_nonneg y a). destruct (Rle_dec y 1); [lra|]. unfold real_power. destruct (Req_EM_T y 0); [lra|]. assert (Rpower y 1 <= Rpower y a) by (apply Rle_Rpower; lra). rewrite Rpower_1 in H0 by lra. lra.
Qed.
Lemma small_signal_length : forall a p, length (small_signal_gain a p) = n_samples p.
Proof. intros a p. unfold small_signal_gain. destruct (Rle_dec _ _); rewrite map_length, ?ifft_shift_length; apply grid_f_length. Qed.
Lemma small_signal_pos : forall a p g, In g (small_signal_gain a p) -> 0 < g.
Proof.
  intros a p g H. unfold small_signal_gain in H. destruct (Rle_dec _ _); apply in_map_iff in H; destruct H as (f & <- & _); [apply ten_to_pos|]. apply Rmult_lt_0_compat; [apply ten_to_pos|apply exp_pos].
Qed.
Lemma ten_to_minus12 : 0 < ten_to (-12).
Proof. apply ten_to_pos. Qed.
Lemma small_signal_max : forall a p g, 0 <= gain_flatness_dB a -> In g (small_signal_gain a p) ->
  speed_of_light / peak_wl a <> speed_of_light / band_upper a \/ speed_of_light / peak_wl a <> speed_of_light / band_lower a -> speed_of_light / band_upper a <= speed_of_light / peak_wl a <= speed_of_light / band_lower a ->
  g <= ten_to (max_small_signal_gain_dB a / 10).
Proof.
  intros a p g F H Hn Hb. unfold small_signal_gain in H. destruct (Rle_dec _ _) as [_|Hf]; apply in_map_iff in H; destruct H as (f & <- & _); [lra|].
  set (c := speed_of_light / peak_wl a) in *. set (lo := speed_of_light / band_upper a) in *. set (hi := speed_of_light / band_lower a) in *. set (d := Rmax (c - lo) (hi - c)).
  assert (D : 0 < d). { unfold d. destruct (Req_dec c lo) as [E|E]; [apply Rlt_le_trans with (hi - c); [lra|apply Rmax_r]|apply Rlt_le_trans with (c - lo); [lra|apply Rmax_l]]. }
  assert (G : 0 < ln (ten_to (gain_flatness_dB a / 10))). { rewrite <- ln_1. apply ln_increasing; [lra|]. rewrite <- ten_to_0. unfold ten_to. apply Rpower_lt; [lra|]. pose proof ten_to_minus12. rewrite Rabs_pos_eq in Hf by exact F. lra. }
  rewrite <- (Rmult_1_r (ten_to (max_small_signal_gain_dB a / 10))) at 2. apply Rmult_le_compat_l; [left; apply ten_to_pos|]. rewrite <- exp_0. 
  assert (X : -1 * (f + central_frequency p - c) ^ 2 / (d ^ 2 / ln (ten_to (gain_flatness_dB a / 10))) <= 0).
  { assert (0 < d ^ 2 / ln (ten_to (gain_flatness_dB a / 10))) by (apply Rdiv_lt_0_compat; [apply pow_lt; exact D|exact G]). set (q := d ^ 2 / _) in *. assert (0 <= (f + central_frequency p - c) ^ 2) by (apply pow2_ge_0). unfold Rdiv. pose proof (Rinv_0_lt_compat q H). nra. }
  destruct X as [X|X]; [left; apply exp_increasing; exact X|right; rewrite X; reflexivity].
Qed.

Lemma amplifier_filter : forall a p x lo hi, usable (n_samples p) (window_t p) -> length x = n_samples p ->
  (forall g, In g (small_signal_gain a p) -> lo <= g / (1 + real_power (g * mean_power x / P_out_max a) (alpha a)) <= hi) ->
  yields x (optical_amplifier a p x) (fun y => lo * energy x <= energy y <= hi * energy x).
Proof.
  intros a p x lo hi U L H. unfold optical_amplifier. apply filter_bounds.
  - apply grid_dt_nz; exact U.
  - apply (pos_len p); assumption.
  - unfold amplifier_gain. rewrite !map_length, small_signal_length. symmetry; exact L.
  - intros m Hm. apply in_map_iff in Hm. destruct Hm as (G & <- & HG). unfold amplifier_gain in HG. apply in_map_iff in HG. destruct HG as (g & <- & Hg). rewrite Cnorm2_RtoC. rewrite sqrt_sqrt; [apply H; exact Hg|].
    pose proof (small_signal_pos _ _ _ Hg). pose proof (real_power_nonneg (g * mean_power x / P_out_max a) (alpha a)). left. apply Rdiv_lt_0_compat; lra.
Qed.
Lemma gain_le : forall g r, 0 < g -> 0 <= r -> 0 <= g / (1 + r) <= g.
Proof. intros g r Hg Hr. split; [left; apply Rdiv_lt_0_compat; lra|]. apply (Rmult_le_reg_r (1 + r)); [lra|]. unfold Rdiv. rewrite Rmult_assoc, Rinv_l by lra. nra. Qed.

Lemma amplifier_small_signal : forall a p x, usable (n_samples p) (window_t p) -> length x = n_samples p -> 0 <= gain_flatness_dB a ->
  speed_of_light / peak_wl a <> speed_of_light / band_upper a \/ speed_of_light / peak_wl a <> speed_of_light / band_lower a -> speed_of_light / band_upper a <= speed_of_light / peak_wl a <= speed_of_light / band_lower a ->
  yields x (optical_amplifier a p x) (fun y => energy y <= ten_to (max_small_signal_gain_dB a / 10) * energy x).
Proof.
  intros a p x U L F Hn Hb. destruct (amplifier_filter a p x 0 (ten_to (max_small_signal_gain_dB a / 10)) U L) as (y & E & Ly & B).
  - intros g Hg. pose proof (small_signal_pos _ _ _ Hg) as Pg. pose proof (small_signal_max a p g F Hg Hn Hb). pose proof (gain_le g _ Pg (real_power_nonneg (g * mean_power x / P_out_max a) (alpha a))). lra.
  - exists y. split; [exact E|]. split; [exact Ly|]. lra.
Qed.
Lemma amplifier_saturates : forall a p x, usable (n_samples p) (window_t p) -> length x = n_samples p -> 0 < P_out_max a -> 1 <= alpha a ->
  yields x (optical_amplifier a p x) (fun y => energy y / INR (length y) <= P_out_max a).
Proof.
  intros a p x U L PM A. pose proof (pos_len p x U L) as P0. pose proof (INR_pos _ P0) as P. pose proof (energy_nonneg x) as E0.
  destruct (Req_dec (energy x) 0) as [Z|NZ].
  - destruct (amplifier_filter a p x 0 (fold_right Rmax 0 (small_signal_gain a p)) U L) as (y & E & Ly & B).
    + intros g Hg. pose proof (small_signal_pos _ _ _ Hg) as Pg. pose proof (gain_le g _ Pg (real_power_nonneg (g * mean_power x / P_out_max a) (alpha a))) as Q.
      assert (M : g <= fold_right Rmax 0 (small_signal_gain a p)). { clear - Hg. induction (small_signal_gain a p) as [|h l IH]; [destruct Hg|]. cbn [fold_right]. destruct Hg as [->|Hg]; [apply Rmax_l|]. eapply Rle_trans; [apply IH; exact Hg|apply Rmax_r]. } lra.
    + exists y. split; [exact E|]. split; [exact Ly|]. rewrite Z in B. assert (Ey : energy y = 0) by lra. rewrite Ey. unfold Rdiv. rewrite Rmult_0_l. lra.
  - assert (Px : 0 < energy x) by lra. assert (Pm : 0 < mean_power x) by (rewrite mean_power_val; apply Rdiv_lt_0_compat; lra).
    destruct (amplifier_filter a p x 0 (P_out_max a / mean_power x) U L) as (y & E & Ly & B).
    + intros g Hg. pose proof (small_signal_pos _ _ _ Hg) as Pg. set (q := g * mean_power x / P_out_max a). pose proof (real_power_nonneg q (alpha a)) as R0. split; [apply (gain_le g _ Pg R0)|].
      assert (Q : 0 < q) by (unfold q; apply Rdiv_lt_0_compat; [apply Rmult_lt_0_compat; assumption|assumption]). pose proof (real_power_above q (alpha a) ltac:(lra) A) as RA.
      apply (Rmult_le_reg_r (1 + real_power q (alpha a))); [lra|]. unfold Rdiv at 1. rewrite Rmult_assoc, Rinv_l, Rmult_1_r by lra.
      replace g with (P_out_max a / mean_power x * q) by (unfold q; field; split; lra). apply Rmult_le_compat_l; [left; apply Rdiv_lt_0_compat; assumption|exact RA].
    + exists y. split; [exact E|]. split; [exact Ly|]. destruct B as [_ B]. rewrite Ly. apply (Rmult_le_reg_r (INR (length x))); [exact P|]. unfold Rdiv at 1. rewrite Rmult_assoc, Rinv_l, Rmult_1_r by lra. eapply Rle_trans; [exact B|]. rewrite mean_power_val. right. field. split; lra.
Qed.
(* below one the output has no bound: a flat amplifier *)
Lemma amplifier_unbounded : forall a p M, usable (n_samples p) (window_t p) -> 0 < P_out_max a -> gain_flatness_dB a = 0 -> 0 <= alpha a < 1 ->
  exists x, length x = n_samples p /\ yields x (optical_amplifier a p x) (fun y => M < energy y / INR (length y)).
Proof.
  intros a p M U PM F A. set (g := ten_to (max_small_signal_gain_dB a / 10)). assert (Pg : 0 < g) by apply ten_to_pos. set (K := 2 * (Rabs M / P_out_max a) + 2).
  assert (HK : 2 <= K) by (unfold K; assert (0 <= Rabs M / P_out_max a) by (apply Rmult_le_pos; [apply Rabs_pos|left; apply Rinv_0_lt_compat; exact PM]); lra).
  set (q := Rpower K (/ (1 - alpha a))). assert (I1 : 1 <= / (1 - alpha a)) by (rewrite <- Rinv_1 at 1; apply Rinv_le_contravar; lra).
  assert (Q1 : K <= q) by (unfold q; rewrite <- (Rpower_1 K) at 1 by lra; apply Rle_Rpower; lra).
  assert (QK : q = K * Rpower q (alpha a)). { unfold q. rewrite Rpower_mult. rewrite <- (Rpower_1 K) at 2 by lra. rewrite <- Rpower_plus. f_equal. field. lra. }
  set (P := q * P_out_max a / g). assert (PP : 0 < P) by (unfold P; apply Rdiv_lt_0_compat; nra). set (x := repeat (RtoC (sqrt P)) (n_samples p)).
  assert (Lx : length x = n_samples p) by apply repeat_length. pose proof (pos_len p x U Lx) as P0. pose proof (INR_pos _ P0) as Pn.
  assert (Ex : energy x = INR (length x) * P). { rewrite Lx. unfold x. generalize (n_samples p). intros n. induction n as [|n IH]; [cbn; ring|]. cbn [repeat]. unfold energy in *. cbn [fold_right]. rewrite IH, Cnorm2_RtoC, sqrt_sqrt, S_INR by lra. ring. }
  assert (MP : mean_power x = P) by (rewrite mean_power_val, Ex; field; lra).
  exists x. split; [exact Lx|]. destruct (amplifier_filter a p x (g / (1 + real_power q (alpha a))) (g / (1 + real_power q (alpha a))) U Lx) as (y & E & Ly & B).
  - intros g' Hg. assert (g' = g). { unfold small_signal_gain in Hg. destruct (Rle_dec _ _) as [_|N]; [|rewrite F, Rabs_R0 in N; pose proof ten_to_minus12; lra]. apply in_map_iff in Hg. destruct Hg as (f & <- & _). reflexivity. } subst g'. rewrite MP. replace (g * P / P_out_max a) with q by (unfold P; field; lra). lra.
  - exists y. split; [exact E|]. split; [exact Ly|]. assert (EY : energy y = g / (1 + real_power q (alpha a)) * energy x) by lra. rewrite EY, Ex, Ly. set (r := real_power q (alpha a)) in *. assert (R0 : 0 <= r) by apply real_power_nonneg.
    assert (ER : r = Rpower q (alpha a)) by (unfold r, real_power; destruct (Req_EM_T q 0) as [Z|_]; [lra|reflexivity]).
    replace (g / (1 + r) * (INR (length x) * P) / INR (length x)) with (q * P_out_max a / (1 + r)) by (unfold P; field; lra).
    assert (R1 : 1 <= r). { rewrite ER. rewrite <- (Rpower_O q) by lra. apply Rle_Rpower; lra. }
    apply (Rmult_lt_reg_r (1 + r)); [lra|]. unfold Rdiv. rewrite Rmult_assoc, Rinv_l, Rmult_1_r by lra. rewrite QK, <- ER.
    assert (KM : K * P_out_max a = 2 * Rabs M + 2 * P_out_max a) by (unfold K; field; lra). pose proof (Rle_abs M). nra.
Qed.

(** ** The photodiode *)
Definition saturation (x : R) : R := x / Rpower (1 + x ^ 15) (1 / 15).
Lemma saturation_pow : forall x, 0 <= x -> saturation x ^ 15 = x ^ 15 / (1 + x ^ 15).
Proof.
  intros x Hx. assert (P : 0 <= x ^ 15) by (apply pow_le; exact Hx). unfold saturation. set (b := 1 + x ^ 15). assert (Hb : 0 < b) by (unfold b; lra). set (c := Rpower b (1 / 15)).
  assert (C1' : c ^ 15 = b). { unfold c. rewrite <- Rpower_pow by (unfold Rpower; apply exp_pos). rewrite Rpower_mult. replace (1 / 15 * INR 15) with 1 by (cbn [INR]; field). apply Rpower_1. exact Hb. }
  assert (Hc : 0 < c) by (unfold c, Rpower; apply exp_pos). unfold Rdiv. rewrite Rpow_mult_distr, pow_inv. rewrite C1'. reflexivity.
Qed.
Lemma saturation_nonneg : forall x, 0 <= x -> 0 <= saturation x.
Proof. intros x H. unfold saturation. apply Rmult_le_pos; [exact H|]. left. apply Rinv_0_lt_compat. unfold Rpower. apply exp_pos. Qed.
Lemma pow_lt_inv : forall x y n, 0 <= x -> 0 <= y -> x ^ n < y ^ n -> x < y.
Proof. intros x y n Hx Hy H. destruct (Rlt_le_dec x y) as [L|L]; [exact L|]. pose proof (pow_incr y x n (conj Hy L)). lra. Qed.
Lemma saturation_lt_1 : forall x, 0 <= x -> saturation x < 1.
Proof.
  intros x Hx. apply (pow_lt_inv _ _ 15); [apply saturation_nonneg; exact Hx|lra|]. rewrite saturation_pow, pow1 by exact Hx. assert (0 <= x ^ 15) by (apply pow_le; exact Hx). apply (Rmult_lt_reg_r (1 + x ^ 15)); [lra|]. unfold Rdiv. rewrite Rmult_assoc, Rinv_l by lra. lra.
Qed.
Lemma pow_strict : forall n x y, 0 <= x < y -> x ^ S n < y ^ S n.
Proof. induction n as [|n IH]; intros x y H; [cbn; lra|]. cbn [pow] in *. apply Rmult_le_0_lt_compat; [lra| |lra|apply IH; exact H]. apply Rmult_le_pos; [lra|apply pow_le; lra]. Qed.
Lemma saturation_mono : forall x y, 0 <= x -> x < y -> saturation x < saturation y.
Proof.
  intros x y Hx H. apply (pow_lt_inv _ _ 15); [apply saturation_nonneg; lra|apply saturation_nonneg; lra|]. rewrite !saturation_pow by lra. assert (A : 0 <= x ^ 15) by (apply pow_le; exact Hx).
  assert (B : x ^ 15 < y ^ 15) by (apply pow_strict; lra).
  set (u := x ^ 15) in *. set (v := y ^ 15) in *. apply (Rmult_lt_reg_r ((1 + u) * (1 + v))); [nra|]. replace (u / (1 + u) * ((1 + u) * (1 + v))) with (u * (1 + v)) by (field; lra). replace (v / (1 + v) * ((1 + u) * (1 + v))) with (v * (1 + u)) by (field; lra). nra.
Qed.
Lemma photocurrent_saturation : forall r i P, 0 < r -> 0 < i -> 0 <= P -> photocurrent r i P = i * saturation (r / i * P).
Proof.
  intros r i P Hr Hi HP. unfold photocurrent, saturation. assert (0 <= r / i * P) by (apply Rmult_le_pos; [left; apply Rdiv_lt_0_compat; assumption|exact HP]). rewrite Rabs_pos_eq by assumption. set (c := Rpower _ _). assert (0 < c) by (unfold c, Rpower; apply exp_pos). field. split; lra.
Qed.
Lemma photocurrent_bounds : forall r i P, 0 < r -> 0 < i -> 0 <= P -> 0 <= photocurrent r i P < i /\ photocurrent r i P <= r * P.
Proof.
  intros r i P Hr Hi HP. rewrite photocurrent_saturation by assumption. assert (X : 0 <= r / i * P) by (apply Rmult_le_pos; [left; apply Rdiv_lt_0_compat; assumption|exact HP]). pose proof (saturation_nonneg _ X). pose proof (saturation_lt_1 _ X). split; [nra|].
  assert (Y : saturation (r / i * P) <= r / i * P). { unfold saturation. set (x := r / i * P) in *. assert (B : 1 <= Rpower (1 + x ^ 15) (1 / 15)). { assert (0 <= x ^ 15) by (apply pow_le; exact X). apply Rle_trans with (Rpower (1 + x ^ 15) 0); [rewrite Rpower_O; lra|apply Rle_Rpower; lra]. } set (c := Rpower _ _) in *. apply (Rmult_le_reg_r c); [lra|]. unfold Rdiv. rewrite Rmult_assoc, Rinv_l by lra. nra. }
  apply Rle_trans with (i * (r / i * P)); [apply Rmult_le_compat_l; lra|right; field; lra].
Qed.
Lemma photocurrent_mono : forall r i P Q, 0 < r -> 0 < i -> 0 <= P -> P < Q -> photocurrent r i P < photocurrent r i Q.
Proof.
  intros r i P Q Hr Hi HP H. rewrite !photocurrent_saturation by lra. apply Rmult_lt_compat_l; [exact Hi|]. apply saturation_mono; [apply Rmult_le_pos; [left; apply Rdiv_lt_0_compat; assumption|exact HP]|]. apply Rmult_lt_compat_l; [apply Rdiv_lt_0_compat; assumption|exact H].
Qed.
