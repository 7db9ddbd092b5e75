(** C37-C42, C51-C54: the optical components. *)
From Coq Require Import Reals Lra Lia List Arith ZArith.
From Verif Require Import Base GraphModel ParamsModel Complex ArrayModel FourierProofs ComponentModel ComponentSpec FilterProofs ComponentProofs ShaperProofs SplitterProofs GridProofs.
Import ListNotations.
Local Open Scope R_scope.

(** ** C37: the weights of the splitter *)
Theorem C37_weights_sum : forall a, fold_right Rplus 0 (splitter_weights a) = 1.
Proof.
  intros a. rewrite weights_share. rewrite <- (share_sum a). generalize (S (length a)). intros n. unfold tabulate. induction n as [|n IH]; [reflexivity|]. rewrite seq_S, map_app, fold_right_app. cbn [rsum map fold_right Nat.add]. rewrite <- IH. clear IH.
  generalize (map (share a) (seq 0 n)). intros l. induction l as [|x l IH]; cbn [fold_right]; [ring|]. rewrite IH. ring.
Qed.
Print Assumptions C37_weights_sum.

(* the power of the outputs is shared like in a cascade of couplers, for every
   number of inputs and outputs *)
Theorem C37_shares : forall a n_in n_out states N, length a = (n_out - 1)%nat -> (forall x, In x a -> fraction x) -> (1 <= n_out)%nat -> (1 <= n_in)%nat ->
  length states = n_in -> (forall s, In s states -> length s = N) ->
  exists outs, splitter a n_in n_out states = Ok outs /\ length outs = n_out /\
    rsum n_out (share a) = 1 /\ (forall j, fraction (share a j)) /\
    forall j t, (j < n_out)%nat -> (t < N)%nat -> sample_power (nth j outs []) t = share a j * total_power outs t.
Proof.
  intros a n_in n_out states N La Ra Ho Hi Ls HN. destruct (splitter_power a n_in n_out states N La Ra Ho Hi Ls HN) as (outs & E & Lo & _ & A & B). exists outs. split; [exact E|]. split; [exact Lo|]. split; [|split; [apply share_range; exact Ra|]].
  - pose proof (share_sum a) as S1. rewrite La in S1. replace (S (n_out - 1)) with n_out in S1 by lia. exact S1.
  - intros j t Hj Ht. rewrite A, B by assumption. reflexivity.
Qed.
Print Assumptions C37_shares.

(* the defaults share equally *)
Theorem C37_defaults : forall n_in n_out states N, (1 <= n_out)%nat -> (1 <= n_in)%nat -> length states = n_in -> (forall s, In s states -> length s = N) ->
  exists outs, splitter (splitter_defaults (n_out - 1)) n_in n_out states = Ok outs /\ length outs = n_out /\
    forall j t, (j < n_out)%nat -> (t < N)%nat -> sample_power (nth j outs []) t = total_power outs t / INR n_out.
Proof.
  intros n_in n_out states N Ho Hi Ls HN. destruct (C37_shares (splitter_defaults (n_out - 1)) n_in n_out states N) as (outs & E & Lo & _ & _ & A); try assumption; [apply defaults_length|apply defaults_range|]. exists outs. split; [exact E|]. split; [exact Lo|]. intros j t Hj Ht. rewrite A, defaults_share by (try assumption; lia). replace (n_out - 1 + 1)%nat with n_out by lia. unfold Rdiv. ring.
Qed.
Print Assumptions C37_defaults.
(* and they are the values that the evolution writes (C45) *)
Theorem C37_store_defaults : forall n, map number (split_default n) = splitter_defaults n.
Proof. exact defaults_store. Qed.
Print Assumptions C37_store_defaults.

Example C37_case : exists outs, splitter [1 / 2; 1 / 3] 1 3 [[(3, 4)]] = Ok outs /\ total_power outs 0 = 25 / 3 /\
  map (fun o => sample_power o 0) outs = [25 / 6; 25 / 9; 25 / 18].
Proof.
  destruct (splitter_power [1 / 2; 1 / 3] 1 3 [[(3, 4)]] 1) as (outs & E & Lo & _ & A & B); try reflexivity; try lia.
  - intros x [<-|[<-|[]]]; unfold fraction; lra.
  - intros s [<-|[]]. reflexivity.
  - exists outs. split; [exact E|]. rewrite B by lia. rewrite superposed_one. split; [unfold Cnorm2, re, im; cbn; lra|].
    destruct outs as [|o0 [|o1 [|o2 [|o3 r]]]]; try (cbn in Lo; lia). pose proof (A 0%nat 0%nat ltac:(lia) ltac:(lia)) as A0. pose proof (A 1%nat 0%nat ltac:(lia) ltac:(lia)) as A1. pose proof (A 2%nat 0%nat ltac:(lia) ltac:(lia)) as A2. rewrite superposed_one in A0, A1, A2. cbn [nth] in A0, A1, A2. cbn [map]. rewrite A0, A1, A2. cbn [share]. unfold Cnorm2, re, im. cbn [fst snd INR]. f_equal; [lra|]. f_equal; [lra|]. f_equal; lra.
Qed.

(** ** C38: the power balance of the splitter *)
Theorem C38_single_input : forall a n_out s, length a = (n_out - 1)%nat -> (forall x, In x a -> fraction x) -> (1 <= n_out)%nat ->
  exists outs, splitter a 1 n_out [s] = Ok outs /\ length outs = n_out /\ forall t, (t < length s)%nat -> total_power outs t = sample_power s t / INR n_out.
Proof.
  intros a n_out s La Ra Ho. destruct (splitter_power a 1 n_out [s] (length s) La Ra Ho ltac:(lia) eq_refl) as (outs & E & Lo & _ & _ & B).
  - intros s' [<-|[]]. reflexivity.
  - exists outs. split; [exact E|]. split; [exact Lo|]. intros t Ht. rewrite B by exact Ht. rewrite superposed_one. reflexivity.
Qed.
Print Assumptions C38_single_input.
Theorem C38_exact : forall a n_in n_out states N, length a = (n_out - 1)%nat -> (forall x, In x a -> fraction x) -> (1 <= n_out)%nat -> (1 <= n_in)%nat ->
  length states = n_in -> (forall s, In s states -> length s = N) ->
  exists outs, splitter a n_in n_out states = Ok outs /\ length outs = n_out /\ (forall o, In o outs -> length o = N) /\
    forall t, (t < N)%nat -> total_power outs t = Cnorm2 (superposed n_in states t) / INR n_out /\ total_power outs t <= INR n_in / INR n_out * total_power states t.
Proof.
  intros a n_in n_out states N La Ra Ho Hi Ls HN. destruct (splitter_power a n_in n_out states N La Ra Ho Hi Ls HN) as (outs & E & Lo & LN & _ & B). exists outs. split; [exact E|]. split; [exact Lo|]. split; [exact LN|]. intros t Ht. split; [apply B; exact Ht|].
  rewrite B by exact Ht. pose proof (superposed_bound n_in states t Ls) as H. assert (P : 0 < INR n_out) by (apply INR_pos; lia). unfold Rdiv. rewrite (Rmult_comm (INR n_in)), Rmult_assoc, (Rmult_comm (/ INR n_out)). apply Rmult_le_compat_r; [left; apply Rinv_0_lt_compat; exact P|exact H].
Qed.
Print Assumptions C38_exact.
(* the bound is reached: inputs of equal power whose phases cancel those of the coupler *)
Theorem C38_attained : forall a n_in n_out, length a = (n_out - 1)%nat -> (forall x, In x a -> fraction x) -> (1 <= n_out)%nat -> (1 <= n_in)%nat ->
  exists states outs, length states = n_in /\ splitter a n_in n_out states = Ok outs /\ total_power states 0 = INR n_in /\ total_power outs 0 = INR n_in / INR n_out * INR n_in.
Proof.
  intros a n_in n_out La Ra Ho Hi. set (states := tabulate n_in (fun i => [cis (2 * PI * INR i / INR n_in)])). assert (Ls : length states = n_in) by apply tabulate_length.
  destruct (splitter_power a n_in n_out states 1 La Ra Ho Hi Ls) as (outs & E & Lo & _ & _ & B).
  - intros s Hs. unfold states, tabulate in Hs. apply in_map_iff in Hs. destruct Hs as (i & <- & _). reflexivity.
  - exists states, outs. split; [exact Ls|]. split; [exact E|]. split.
    + rewrite total_power_sum, Ls. rewrite (rsum_ext n_in _ (fun _ => 1)); [rewrite rsum_const; ring|]. intros i Hi'. unfold states. rewrite tabulate_nth by exact Hi'. apply cis_norm.
    + rewrite B by lia. assert (S1 : superposed n_in states 0 = RtoC (INR n_in)). { unfold superposed. rewrite (csum_ext n_in _ (fun _ => C1)); [rewrite csum_const; ring|]. intros i Hi'. unfold states. rewrite tabulate_nth by exact Hi'. cbn [nth]. rewrite <- cis_add. replace (- (2 * PI * INR i / INR n_in) + 2 * PI * INR i / INR n_in) with 0 by ring. apply cis_0. }
      rewrite S1, Cnorm2_RtoC. unfold Rdiv. ring.
Qed.
Print Assumptions C38_attained.
(* a parameter count that does not fit the outputs is an error *)
Theorem C38_mismatch : forall a n_in n_out states, S (length a) <> n_out -> a <> [] -> n_out <> 1%nat -> splitter a n_in n_out states = Err ValueError.
Proof.
  intros a n_in n_out states H Ha Hn. unfold splitter, splitter_rows, broadcast. rewrite weights_share. rewrite tabulate_length, seq_length. destruct (Nat.eqb_spec (S (length a)) n_out) as [E|_]; [congruence|].
  destruct a as [|x a]; [congruence|]. cbn [length]. unfold tabulate at 1. cbn [seq map]. destruct n_out as [|[|n]]; [reflexivity|congruence|reflexivity].
Qed.
Print Assumptions C38_mismatch.
Example C38_case : exists outs, splitter [] 2 1 [[C1]; [(-1, 0)]] = Ok outs /\ total_power [[C1]; [(-1, 0)]] 0 = 2 /\ total_power outs 0 = 4.
Proof.
  destruct (splitter_power [] 2 1 [[C1]; [(-1, 0)]] 1) as (outs & E & Lo & _ & A & B); try reflexivity; try lia.
  - intros x [].
  - intros s [<-|[<-|[]]]; reflexivity.
  - exists outs. split; [exact E|]. split; [unfold total_power, sample_power, Cnorm2, C1, re, im; cbn; lra|]. rewrite B by lia. unfold superposed. cbn [csum nth INR]. replace (- (2 * PI * 0 / (1 + 1))) with 0 by field. replace (- (2 * PI * 1 / (1 + 1))) with (- PI) by field. rewrite cis_0. unfold cis. rewrite cos_neg, sin_neg, cos_PI, sin_PI. unfold Cnorm2, Cadd, Cmul, C0, C1, re, im. cbn [fst snd]. field.
Qed.

(** ** C39: passive components, sample by sample *)
Theorem C39_attenuator : forall a x t, length (attenuator a x) = length x /\ sample_power (attenuator a x) t = ten_to (a / 10) * sample_power x t /\ (a <= 0 -> sample_power (attenuator a x) t <= sample_power x t).
Proof.
  intros a x t. split; [apply scale_length|]. split; [apply attenuator_power|]. intros H. rewrite attenuator_power. assert (Q : ten_to (a / 10) <= 1) by (rewrite <- ten_to_0; apply ten_to_le; lra). pose proof (Cnorm2_nonneg (nth t x C0)) as N. unfold sample_power. nra.
Qed.
Print Assumptions C39_attenuator.
Theorem C39_decibels_add : forall a b x, attenuator b (attenuator a x) = attenuator (a + b) x.
Proof. exact attenuator_compose. Qed.
Print Assumptions C39_decibels_add.
Theorem C39_phase_modulator : forall depth frequency shift noise p x, usable (n_samples p) (window_t p) -> length x = n_samples p -> length noise = n_samples p \/ length noise = 1%nat ->
  yields x (phase_modulator depth frequency shift noise p x) (fun y => forall t, sample_power y t = sample_power x t).
Proof. exact phase_modulator_power. Qed.
Print Assumptions C39_phase_modulator.
Theorem C39_phase_shifter : forall phase p x, usable (n_samples p) (window_t p) -> length x = n_samples p ->
  yields x (phase_shifter phase p x) (fun y => forall t, nth t y C0 = Cmul (cis phase) (nth t x C0) /\ sample_power y t = sample_power x t).
Proof.
  intros phase p x U L. rewrite phase_shifter_exact by assumption. eexists; split; [reflexivity|]. split; [apply map_length|]. intros t. unfold sample_power. rewrite (map_nth_d _ _ t C0) by ring. split; [reflexivity|]. rewrite Cnorm2_mul, cis_norm. ring.
Qed.
Print Assumptions C39_phase_shifter.
Theorem C39_intensity_modulator : forall depth frequency bias p x, usable (n_samples p) (window_t p) -> length x = n_samples p ->
  yields x (intensity_modulator depth frequency bias p x) (fun y => forall t, (t < length x)%nat ->
    sample_power y t = ten_to (- (4 / 10)) * Rsqr (cos ((depth * cos (2 * PI * frequency * nth t (grid_t p) 0) + bias) / 2)) * sample_power x t /\
    sample_power y t <= ten_to (- (4 / 10)) * sample_power x t).
Proof.
  intros depth fr bias p x U L. destruct (intensity_modulator_power depth fr bias p x U L) as (y & E & Ly & A). exists y. split; [exact E|]. split; [exact Ly|]. intros t Ht. split; [apply A; exact Ht|]. rewrite A by exact Ht. set (th := _ / 2). pose proof (sin2_cos2 th) as S1. pose proof (Rle_0_sqr (sin th)). pose proof (Rle_0_sqr (cos th)). pose proof (Cnorm2_nonneg (nth t x C0)) as N. fold (sample_power x t) in N. pose proof (ten_to_pos (- (4 / 10))). rewrite Rmult_assoc. apply Rmult_le_compat_l; [lra|]. nra.
Qed.
Print Assumptions C39_intensity_modulator.
Lemma ten_to_1 : ten_to 1 = 10.
Proof. unfold ten_to. apply Rpower_1. lra. Qed.
Example C39_case : attenuator (-20) [C1; (0, 2)] = [(/ 10, 0); (0, / 5)].
Proof.
  unfold attenuator, scale, dB_to_amplitude_ratio. replace (-20 / 20) with (- (1)) by field. assert (E : ten_to (- (1)) = / 10) by (unfold ten_to; rewrite Rpower_Ropp; fold (ten_to 1); rewrite ten_to_1; reflexivity). rewrite E. cbn [map]. unfold Cmul, RtoC, C1, re, im. cbn [fst snd]. f_equal; [f_equal; field|]. f_equal. f_equal; field.
Qed.

(** ** C40: energy in the frequency domain *)
Theorem C40_inverse : forall x dt, x <> [] -> dt <> 0 -> exists y, fft_ x dt = Ok y /\ length y = length x /\ ifft_ y dt = Ok x.
Proof. exact transforms_inverse. Qed.
Print Assumptions C40_inverse.
Theorem C40_inverse_of_spectrum : forall x dt, x <> [] -> dt <> 0 -> exists y, ifft_ x dt = Ok y /\ length y = length x /\ fft_ y dt = Ok x.
Proof. exact transforms_inverse'. Qed.
Print Assumptions C40_inverse_of_spectrum.
Theorem C40_parseval : forall x dt, x <> [] -> exists y, fft_ x dt = Ok y /\ length y = length x /\ energy y = INR (length x) * (dt * dt) * energy x.
Proof.
  intros x dt Hx. assert (P : (0 < length x)%nat) by (destruct x; [congruence|cbn; lia]). destruct (fft_total x P) as (y & F). exists (scale dt y). unfold fft_. rewrite F. cbn [bind]. split; [reflexivity|]. destruct (fft_ok _ _ F) as (L & _ & _). split; [rewrite scale_length; exact L|]. rewrite energy_scale. unfold energy. rewrite !list_energy, L. rewrite (parseval _ _ F). ring.
Qed.
Print Assumptions C40_parseval.
Theorem C40_masks : forall p mask x lo hi, usable (n_samples p) (window_t p) -> length x = n_samples p -> length mask = length x -> (forall m, In m mask -> lo <= Cnorm2 m <= hi) ->
  yields x (do s <- fft_ x (grid_dt p); do m <- broadcast Cmul mask s; ifft_ m (grid_dt p)) (fun y => lo * energy x <= energy y <= hi * energy x).
Proof. intros p mask x lo hi U L Lm H. apply (filter_bounds p mask x lo hi); [apply grid_dt_nz; exact U|apply (pos_len p); assumption|exact Lm|exact H]. Qed.
Print Assumptions C40_masks.
Theorem C40_fiber : forall len p x, usable (n_samples p) (window_t p) -> length x = n_samples p -> yields x (dispersive_fiber len p x) (fun y => energy y = energy x).
Proof. exact fiber_energy. Qed.
Print Assumptions C40_fiber.
Theorem C40_delay_line : forall d p x, usable (n_samples p) (window_t p) -> length x = n_samples p -> yields x (delay_line d p x) (fun y => energy y = energy x) /\ yields x (integrated_delay_line d p x) (fun y => energy y = energy x).
Proof. intros d p x U L. split; [apply delay_energy; assumption|]. unfold integrated_delay_line. apply delay_energy; assumption. Qed.
Print Assumptions C40_delay_line.
(* wave shaper: between the extinction ratio and one, after a loss of 4.5 dB *)
Theorem C40_wave_shaper : forall amplitudes phases p x n lo, usable (n_samples p) (window_t p) -> length x = n_samples p -> length amplitudes = length phases -> bin_spans (n_samples p) (window_t p) n ->
  (length amplitudes * n <= n_samples p)%nat \/ Nat.Even (length amplitudes * n - n_samples p) -> 0 <= lo <= ten_to (-35 / 10) -> (forall a, In a amplitudes -> lo <= a <= 1) ->
  yields x (wave_shaper amplitudes phases p x) (fun y => ten_to (- (45 / 100)) * (lo * lo) * energy x <= energy y <= ten_to (- (45 / 100)) * energy x).
Proof. exact wave_shaper_energy. Qed.
Print Assumptions C40_wave_shaper.
(* square filter; at the lower bound of its parameter it fails *)
Theorem C40_square_filter : forall bandwidth p x, usable (n_samples p) (window_t p) -> length x = n_samples p ->
  (bandwidth <> 0 -> yields x (square_filter bandwidth p x) (fun y => energy y <= energy x)) /\ (bandwidth = 0 -> square_filter bandwidth p x = Err ZeroDivisionError).
Proof. intros bw p x U L. split; [intros H; apply square_filter_energy; assumption|]. intros ->. unfold square_filter. destruct (Req_EM_T 0 0) as [_|N]; [reflexivity|congruence]. Qed.
Print Assumptions C40_square_filter.
Example C40_case : fft_ [C1; C0] 3 = Ok [(3, 0); (3, 0)] /\ energy [(3, 0); (3, 0)] = 2 * 9 * energy [C1; C0].
Proof.
  split; [|unfold energy, Cnorm2, C0, C1, re, im; cbn; ring]. unfold fft_, fft, tabulate. cbn [length seq map bind]. unfold scale. cbn [map csum nth INR]. f_equal.
  replace (- (2 * PI * 0 * 0 / (1 + 1))) with 0 by field. replace (- (2 * PI * 1 * 0 / (1 + 1))) with 0 by field. replace (- (2 * PI * 0 * 1 / (1 + 1))) with 0 by field. rewrite cis_0. unfold Cmul, Cadd, RtoC, C0, C1, re, im. cbn [fst snd]. f_equal; [f_equal; ring|]. f_equal. f_equal; ring.
Qed.

(** ** C41: saturation *)
Theorem C41_photodiode : forall responsivity maximum P, 0 < responsivity -> 0 < maximum -> 0 <= P ->
  0 <= photocurrent responsivity maximum P < maximum /\ photocurrent responsivity maximum P <= responsivity * P.
Proof. exact photocurrent_bounds. Qed.
Print Assumptions C41_photodiode.
Theorem C41_photodiode_monotone : forall responsivity maximum P Q, 0 < responsivity -> 0 < maximum -> 0 <= P -> P < Q -> photocurrent responsivity maximum P < photocurrent responsivity maximum Q.
Proof. exact photocurrent_mono. Qed.
Print Assumptions C41_photodiode_monotone.
Example C41_photodiode_case : 1 / 2 <= photocurrent 1 1 1 < 1 /\ photocurrent 1 1 0 = 0.
Proof.
  split; [|unfold photocurrent; field; split; [unfold Rpower; apply Rgt_not_eq, exp_pos|lra] || (unfold photocurrent, Rdiv; ring)]. split; [|apply (photocurrent_bounds 1 1 1); lra].
  rewrite photocurrent_saturation by lra. replace (1 / 1 * 1) with 1 by field. rewrite Rmult_1_l. apply Rnot_lt_le. intros H. assert (S15 : saturation 1 ^ 15 = 1 / 2) by (rewrite saturation_pow by lra; rewrite pow1; field). pose proof (pow_incr (saturation 1) (1 / 2) 15 ltac:(split; [apply saturation_nonneg; lra|lra])) as I. rewrite S15 in I. assert ((1 / 2) ^ 15 < 1 / 2) by (cbn [pow]; lra). lra.
Qed.
Theorem C41_amplifier_gain : forall a p x, usable (n_samples p) (window_t p) -> length x = n_samples p -> 0 <= gain_flatness_dB a ->
  speed_of_light / peak_wl a <> speed_of_light / band_upper a \/ speed_of_light / peak_wl a <> speed_of_light / band_lower a -> speed_of_light / band_upper a <= speed_of_light / peak_wl a <= speed_of_light / band_lower a ->
  yields x (optical_amplifier a p x) (fun y => energy y <= ten_to (max_small_signal_gain_dB a / 10) * energy x).
Proof. exact amplifier_small_signal. Qed.
Print Assumptions C41_amplifier_gain.
(* the mean output power is bounded when the exponent is at least one (its default is one) ... *)
Theorem C41_amplifier_saturates : forall a p x, usable (n_samples p) (window_t p) -> length x = n_samples p -> 0 < P_out_max a -> 1 <= alpha a ->
  yields x (optical_amplifier a p x) (fun y => energy y / INR (length y) <= P_out_max a).
Proof. exact amplifier_saturates. Qed.
Print Assumptions C41_amplifier_saturates.
(* ... and has no bound at all for exponents below one, which the parameter bounds [0, 1.5] allow *)
Theorem C41_amplifier_unbounded : forall a p M, usable (n_samples p) (window_t p) -> 0 < P_out_max a -> gain_flatness_dB a = 0 -> 0 <= alpha a < 1 ->
  exists x, length x = n_samples p /\ yields x (optical_amplifier a p x) (fun y => M < energy y / INR (length y)).
Proof. exact amplifier_unbounded. Qed.
Print Assumptions C41_amplifier_unbounded.
Theorem C41_output_power_refuted : exists a p x y, usable (n_samples p) (window_t p) /\ length x = n_samples p /\ 0 <= alpha a <= 15 / 10 /\ ten_to (-7) <= P_out_max a <= 10 /\ optical_amplifier a p x = Ok y /\ P_out_max a < energy y / INR (length y).
Proof.
  set (a := mkAmp 30 (ten_to (-6)) (ten_to (-6)) (ten_to (-6)) 1 0 (1 / 2)). set (p := mkGrid 2 1 1). assert (U : usable (n_samples p) (window_t p)) by (split; cbn; [lia|lra]).
  destruct (amplifier_unbounded a p 1 U) as (x & Lx & y & E & Ly & H); cbn; try lra. exists a, p, x, y. split; [exact U|]. split; [exact Lx|]. split; [cbn; lra|]. split; [|split; [exact E|cbn; exact H]]. cbn. split; [|lra]. rewrite <- ten_to_0. apply ten_to_le. lra.
Qed.
Print Assumptions C41_output_power_refuted.

(** ** C42: the mask of the wave shaper *)
Theorem C42_fits : forall amplitudes phases p x n, usable (n_samples p) (window_t p) -> length x = n_samples p -> length amplitudes = length phases -> bin_spans (n_samples p) (window_t p) n ->
  (length amplitudes * n <= n_samples p)%nat \/ Nat.Even (length amplitudes * n - n_samples p) -> exists y, wave_shaper amplitudes phases p x = Ok y /\ length y = length x.
Proof.
  intros amps phases p x n U L LP Hn F. unfold wave_shaper. rewrite (bin_samples_spec p n U Hn).
  assert (L1 : length (fit_mask extinction_ratio (n_samples p) (bins n amps)) = n_samples p) by (apply fits_length; rewrite bins_length; exact F).
  assert (L2 : length (fit_mask extinction_ratio (n_samples p) (bins n phases)) = n_samples p) by (apply fits_length; rewrite bins_length, <- LP; exact F).
  rewrite broadcast_same by lia. cbn [bind]. set (mask := map _ (combine _ _)). assert (Lm : length mask = n_samples p) by (unfold mask; rewrite map_length, combine_length, L1, L2; apply Nat.min_id).
  destruct (filter_ok p (ifft_shift_ mask) x) as (y & out & _ & _ & E & _ & Lo); [apply grid_dt_nz; exact U|apply (pos_len p); assumption|rewrite ifft_shift_length; lia|]. rewrite E. cbn [bind]. eexists; split; [reflexivity|]. rewrite scale_length. exact Lo.
Qed.
Print Assumptions C42_fits.
Theorem C42_misfit : forall amplitudes phases p x n, usable (n_samples p) (window_t p) -> length x = n_samples p -> length amplitudes = length phases -> bin_spans (n_samples p) (window_t p) n ->
  (n_samples p < length amplitudes * n)%nat -> Nat.Odd (length amplitudes * n - n_samples p) ->
  ((3 <= n_samples p)%nat -> wave_shaper amplitudes phases p x = Err ValueError) /\ (n_samples p = 2%nat -> exists y, wave_shaper amplitudes phases p x = Ok y /\ length y = 2%nat).
Proof. intros amps phases p x n U L LP Hn H O. split; intros N; [apply (wave_shaper_misfit amps phases p x n); assumption|apply (wave_shaper_two amps phases p x n); assumption]. Qed.
Print Assumptions C42_misfit.
(* four samples, 15 bins: of one sample each 11 too many, of two samples each 26 too many *)
Lemma bin_case : forall N n w, (2 <= N)%nat -> w = INR n * (INR N - 1) / INR N / (12 * 10 ^ 9) -> bin_spans N w n.
Proof.
  intros N n w H ->. unfold bin_spans. pose proof (samples_big N H) as B. rewrite minus_INR by lia. cbn [INR]. assert (K : 12 * 10 ^ 9 <> 0) by (cbn [pow]; lra). revert K. generalize (12 * 10 ^ 9). intros k K.
  assert (E : INR N * (INR n * (INR N - 1) / INR N / k / (INR N - 1)) * k = INR n) by (field; repeat split; try assumption; lra). rewrite E. lra.
Qed.
Example C42_case : forall amplitudes phases x, length amplitudes = 15%nat -> length phases = 15%nat -> length x = 4%nat ->
  wave_shaper amplitudes phases (mkGrid 4 (INR 1 * (INR 4 - 1) / INR 4 / (12 * 10 ^ 9)) 1) x = Err ValueError /\
  exists y, wave_shaper amplitudes phases (mkGrid 4 (INR 2 * (INR 4 - 1) / INR 4 / (12 * 10 ^ 9)) 1) x = Ok y.
Proof.
  intros am ph x La Lp Lx. assert (W : forall k, (1 <= k)%nat -> 0 < INR k * (INR 4 - 1) / INR 4 / (12 * 10 ^ 9)). { intros k Hk. pose proof (INR_pos k ltac:(lia)). repeat apply Rdiv_lt_0_compat; [apply Rmult_lt_0_compat; [assumption|cbn [INR]; lra]|cbn [INR]; lra|cbn [pow]; lra]. } split.
  - apply (C42_misfit am ph (mkGrid 4 (INR 1 * (INR 4 - 1) / INR 4 / (12 * 10 ^ 9)) 1) x 1); cbn [n_samples window_t]; try lia; [split; [lia|apply W; lia]|apply bin_case; [lia|reflexivity]|]. rewrite La. exists 5%nat. lia.
  - destruct (C42_fits am ph (mkGrid 4 (INR 2 * (INR 4 - 1) / INR 4 / (12 * 10 ^ 9)) 1) x 2) as (y & E & _); cbn [n_samples window_t]; try lia; [split; [lia|apply W; lia]|apply bin_case; [lia|reflexivity]|rewrite La; right; exists 13%nat; lia|]. exists y. exact E.
Qed.

(** ** C51: composition *)
Theorem C51_fibers : forall l1 l2 p x, usable (n_samples p) (window_t p) -> length x = n_samples p -> bind (dispersive_fiber l1 p x) (dispersive_fiber l2 p) = dispersive_fiber (l1 + l2) p x.
Proof. exact fiber_compose. Qed.
Print Assumptions C51_fibers.
Theorem C51_delays : forall d1 d2 p x, usable (n_samples p) (window_t p) -> length x = n_samples p -> bind (delay_line d1 p x) (delay_line d2 p) = delay_line (d1 + d2) p x.
Proof. exact delay_compose. Qed.
Print Assumptions C51_delays.
Theorem C51_phases : forall a b p x, usable (n_samples p) (window_t p) -> length x = n_samples p -> bind (phase_shifter a p x) (phase_shifter b p) = phase_shifter (a + b) p x.
Proof.
  intros a b p x U L. rewrite !phase_shifter_exact by assumption. cbn [bind]. rewrite phase_shifter_exact by (try assumption; rewrite map_length; exact L). f_equal. rewrite map_map. apply map_ext. intros z. rewrite cis_add. ring.
Qed.
Print Assumptions C51_phases.
(* a fibre of length zero, a delay of zero: nothing happens; so a length and its opposite cancel *)
Theorem C51_neutral : forall p x, usable (n_samples p) (window_t p) -> length x = n_samples p -> dispersive_fiber 0 p x = Ok x /\ delay_line 0 p x = Ok x.
Proof.
  intros p x U L.
  assert (X : forall h : R -> R, (forall f, h f = 0) -> filter_spectrum p (map (fun f => cis (h f)) (ifft_shift_ (grid_f p))) x = Ok x).
  { intros h Hh. destruct (filter_ok p (map (fun f => cis (h f)) (ifft_shift_ (grid_f p))) x) as (y & out & F & Ly & E & I & Lo); [apply grid_dt_nz; exact U|apply (pos_len p); assumption|rewrite map_length, ifft_shift_length, grid_f_length; lia|]. rewrite E. f_equal.
    assert (Z : zipmul (map (fun f => cis (h f)) (ifft_shift_ (grid_f p))) y = y). { apply (list_eq_nth C0); [apply zipmul_length; rewrite map_length, ifft_shift_length, grid_f_length; lia|]. intros k Hk. rewrite zipmul_length in Hk by (rewrite map_length, ifft_shift_length, grid_f_length; lia). rewrite zipmul_nth by (rewrite map_length, ifft_shift_length, grid_f_length; lia).
      rewrite (nth_indep _ C0 (cis (h 0))) by (rewrite map_length, ifft_shift_length, grid_f_length; lia). rewrite (map_nth (fun f => cis (h f))), Hh, cis_0. ring. }
    rewrite Z in I. exact (ifft_fft _ _ _ F I). }
  split; [rewrite fiber_plain; apply (X (fun f => 0 * fiber_beta2 * (2 * PI * f) ^ 2)); intros; ring|rewrite delay_plain; apply (X (fun f => 2 * PI * (f + central_frequency p) * 0)); intros; ring].
Qed.
Print Assumptions C51_neutral.
Example C51_case : forall x, length x = 5%nat -> bind (dispersive_fiber 7 (mkGrid 5 1 1) x) (dispersive_fiber (-7) (mkGrid 5 1 1)) = Ok x.
Proof. intros x L. assert (U : usable 5 1) by (split; [lia|lra]). rewrite (fiber_compose 7 (-7) (mkGrid 5 1 1) x U L). replace (7 + -7) with 0 by ring. apply (C51_neutral (mkGrid 5 1 1) x U L). Qed.

(** ** C52: the delay line moves the field *)
Theorem C52_delay_shifts : forall d m p x, usable (n_samples p) (window_t p) -> length x = n_samples p -> d * (INR (n_samples p) * grid_df p) = INR m ->
  yields x (delay_line d p x) (fun y => exists c, Cnorm2 c = 1 /\ exists z, advanced m x z /\ y = map (Cmul c) z).
Proof. exact delay_shift. Qed.
Print Assumptions C52_delay_shifts.
(* the integrated delay line counts in picoseconds *)
Theorem C52_integrated : forall d m p x, usable (n_samples p) (window_t p) -> length x = n_samples p -> d / 10 ^ 12 * (INR (n_samples p) * grid_df p) = INR m ->
  yields x (integrated_delay_line d p x) (fun y => exists c, Cnorm2 c = 1 /\ exists z, advanced m x z /\ y = map (Cmul c) z).
Proof.
  intros d m p x U L H. unfold integrated_delay_line. apply delay_shift; [exact U|exact L|]. rewrite <- H. f_equal. unfold Rdiv. f_equal. unfold ten_to. replace (-12) with (- INR 12) by (rewrite INR_IZR_INZ; cbn [Z.of_nat Pos.of_succ_nat Pos.succ]; lra). rewrite Rpower_Ropp. f_equal. apply Rpower_pow. lra.
Qed.
Print Assumptions C52_integrated.
(* m samples are d (N / (N - 1))^2 of time, towards earlier samples *)
Theorem C52_amount : forall d m p, usable (n_samples p) (window_t p) -> d * (INR (n_samples p) * grid_df p) = INR m -> INR m * grid_dt p = d * (INR (n_samples p) / (INR (n_samples p) - 1)) ^ 2.
Proof. intros d m p U H. rewrite <- H. pose proof (grid_product p U) as G. destruct U as (U & _). pose proof (samples_big _ U). transitivity (d * INR (n_samples p) * (grid_df p * grid_dt p)); [ring|]. rewrite G. field. lra. Qed.
Print Assumptions C52_amount.
Example C52_case : exists y, delay_line 1 (mkGrid 4 (16 / 3) 1) [C0; C0; (3, 4); C0] = Ok y /\ map Cnorm2 y = [0; 25; 0; 0].
Proof.
  set (p := mkGrid 4 (16 / 3) 1). assert (U : usable (n_samples p) (window_t p)) by (split; cbn; [lia|lra]). assert (D : 1 * (INR (n_samples p) * grid_df p) = INR 1) by (unfold grid_df, p; cbn [n_samples window_t INR Nat.sub]; lra).
  pose proof (delay_shift 1 1 p [C0; C0; (3, 4); C0] U eq_refl D) as (y & E & Ly & c & Hc & z & (Lz & Hz) & ->). eexists; split; [exact E|]. cbn [length] in Lz. rewrite map_map.
  destruct z as [|z0 [|z1 [|z2 [|z3 [|z4 r]]]]]; cbn [length] in Lz; try lia. pose proof (Hz 0%nat ltac:(cbn; lia)) as H0. pose proof (Hz 1%nat ltac:(cbn; lia)) as H1. pose proof (Hz 2%nat ltac:(cbn; lia)) as H2. pose proof (Hz 3%nat ltac:(cbn; lia)) as H3. cbn in H0, H1, H2, H3. subst. cbn [map]. rewrite !Cnorm2_mul, Hc. unfold Cnorm2, C0, re, im. cbn [fst snd]. f_equal; [ring|]. f_equal; [ring|]. f_equal; [ring|]. f_equal. ring.
Qed.

(** ** C53: the grid *)
Theorem C53_zero_frequency : forall p, usable (n_samples p) (window_t p) -> (In 0 (grid_f p) <-> Nat.Odd (n_samples p)).
Proof. exact grid_has_zero. Qed.
Print Assumptions C53_zero_frequency.
(* what the first entry of a spectrum (the constant part of the field) is multiplied by: the
   mask at frequency 0 for odd sample counts, at half a step for even ones *)
Theorem C53_constant_part : forall p, usable (n_samples p) (window_t p) -> nth 0 (ifft_shift_ (grid_f p)) 0 = offset (n_samples p) * grid_df p.
Proof. exact grid_f_zero. Qed.
Print Assumptions C53_constant_part.
(* the steps: a transform of N samples dt apart has frequencies 1 / (N dt) apart; the grid's are (N / (N - 1))^2 times that *)
Theorem C53_step : forall p, usable (n_samples p) (window_t p) -> grid_df p = (INR (n_samples p) / (INR (n_samples p) - 1)) ^ 2 * (1 / (INR (n_samples p) * grid_dt p)).
Proof.
  intros p U. pose proof (grid_product p U) as G. pose proof (grid_dt_pos p U) as D. destruct U as (U & _). pose proof (samples_big _ U). apply (Rmult_eq_reg_r (grid_dt p)); [|lra]. rewrite G. field. lra.
Qed.
Print Assumptions C53_step.
Example C53_case : grid_f (mkGrid 3 1 1) = [- (3 / 2); 0; 3 / 2] /\ grid_f (mkGrid 2 1 1) = [-1; 1].
Proof. unfold grid_f, linspace, tabulate. cbn [n_samples window_t seq map Nat.sub INR]. split; [f_equal; [lra|]; f_equal; [lra|]; f_equal; lra|f_equal; [lra|]; f_equal; lra]. Qed.

(** ** C54: the sources *)
Theorem C54_continuous_wave : forall P x t, 0 <= P -> (t < length x)%nat -> length (continuous_wave_laser P x) = length x /\ sample_power (continuous_wave_laser P x) t = P.
Proof. exact laser_power. Qed.
Print Assumptions C54_continuous_wave.
Theorem C54_pulsed_bound : forall shape w P T p, 0 <= P -> shape <> OtherShape -> exists y, pulsed_laser shape w P T p = Ok y /\ length y = n_samples p /\ forall t, sample_power y t <= P.
Proof. exact pulsed_laser_power. Qed.
Print Assumptions C54_pulsed_bound.
Theorem C54_pulsed_periodic : forall shape w P T p y i k, shape = Gaussian \/ shape = Sech -> T <> 0 -> pulsed_laser shape w P T p = Ok y -> (i < n_samples p)%nat -> (k < n_samples p)%nat ->
  nth k (grid_t p) 0 = nth i (grid_t p) 0 + T -> nth k y C0 = nth i y C0.
Proof. exact pulsed_laser_periodic. Qed.
Print Assumptions C54_pulsed_periodic.
Theorem C54_pulsed_peak : forall shape w P T p y i z, shape = Gaussian \/ shape = Sech -> T <> 0 -> 0 <= P -> pulsed_laser shape w P T p = Ok y -> (i < n_samples p)%nat -> nth i (grid_t p) 0 = IZR z * T -> sample_power y i = P.
Proof. exact pulsed_laser_peak. Qed.
Print Assumptions C54_pulsed_peak.
Theorem C54_impulse : forall p x, usable (n_samples p) (window_t p) -> length x = n_samples p ->
  yields x (impulse p x) (fun y => forall k, (k < n_samples p)%nat -> nth k y C0 = if Nat.eqb k (n_samples p - n_samples p / 2) then RtoC (/ grid_dt p) else C0).
Proof. exact impulse_exact. Qed.
Print Assumptions C54_impulse.
(* that sample is half a step (even sample counts) or one step (odd ones) after time zero *)
Theorem C54_impulse_time : forall p, usable (n_samples p) (window_t p) -> nth (n_samples p - n_samples p / 2) (grid_t p) 0 = if Nat.even (n_samples p) then grid_dt p / 2 else grid_dt p.
Proof.
  intros p U. destruct U as (U & W). assert (B : (n_samples p - n_samples p / 2 < n_samples p)%nat) by (pose proof (Nat.div_str_pos (n_samples p) 2 ltac:(lia)); lia).
  rewrite grid_t_nth by exact B. rewrite grid_dt_val. destruct (Nat.even (n_samples p)) eqn:E.
  - apply Nat.even_spec in E. destruct E as (m & E). rewrite E. rewrite (Nat.mul_comm 2 m), Nat.div_mul by lia. replace (m * 2 - m)%nat with m by lia. rewrite minus_INR by lia. rewrite mult_INR. cbn [INR]. assert (1 <= INR m) by (apply (le_INR 1); lia). field. lra.
  - assert (O : Nat.odd (n_samples p) = true) by (rewrite <- Nat.negb_even, E; reflexivity). apply Nat.odd_spec in O. destruct O as (m & O). rewrite O. rewrite (Nat.mul_comm 2 m), Nat.div_add_l by lia. replace (1 / 2)%nat with 0%nat by reflexivity. replace (m * 2 + 1 - (m + 0))%nat with (m + 1)%nat by lia. replace (m * 2 + 1 - 1)%nat with (m * 2)%nat by lia. rewrite plus_INR, mult_INR. cbn [INR]. assert (1 <= INR m) by (apply (le_INR 1); lia). field. lra.
Qed.
Print Assumptions C54_impulse_time.
Example C54_case : exists y, impulse (mkGrid 3 1 1) [C0; C0; C0] = Ok y /\ y = [C0; C0; (2, 0)] /\ nth 1 (grid_t (mkGrid 3 1 1)) 1 = 0.
Proof.
  set (p := mkGrid 3 1 1). assert (U : usable (n_samples p) (window_t p)) by (split; cbn; [lia|lra]). destruct (impulse_exact p [C0; C0; C0] U eq_refl) as (y & E & Ly & A). exists y. split; [exact E|]. split.
  - destruct y as [|a [|b [|c [|e r]]]]; cbn [length] in Ly; try lia. pose proof (A 0%nat ltac:(cbn; lia)) as A0. pose proof (A 1%nat ltac:(cbn; lia)) as A1. pose proof (A 2%nat ltac:(cbn; lia)) as A2. cbn in A0, A1, A2. subst. f_equal. f_equal. f_equal. unfold RtoC. f_equal. unfold grid_dt, p. cbn [n_samples window_t INR Nat.sub]. field.
  - unfold grid_t, linspace, tabulate, p. cbn [n_samples window_t seq map Nat.sub INR nth]. lra.
Qed.
