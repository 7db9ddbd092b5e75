(** C55-C60: filters, photodiode and noise. *)
From Coq Require Import Reals Lra Lia List Arith ZArith Permutation.
From Verif Require Import Base Complex ArrayModel FourierProofs ComponentModel ComponentSpec FilterProofs ComponentProofs GridProofs DetectorModel DetectorSpec ButterworthProofs DetectorProofs NoiseModel NoiseProofs.
Import ListNotations.
Local Open Scope R_scope.

(** ** C55: the gain of the filters *)
Theorem C55_butterworth : forall p f0 g n x, usable (n_samples p) (window_t p) -> length x = n_samples p -> (0 < n)%nat ->
  yields x (filtered_time_static p (ButterworthLowpass f0 g (Z.of_nat n)) x) (fun y =>
    energy y <= g * g * energy x /\
    exists X Y, fft x = Ok X /\ fft y = Ok Y /\ forall k, (k < n_samples p)%nat -> Cnorm2 (nth k Y C0) = g * g * lowpass_gain n (nth k (ifft_shift_ (grid_f p)) 0 / f0) * Cnorm2 (nth k X C0)).
Proof. exact butterworth_filter. Qed.
Print Assumptions C55_butterworth.
(* half of the power passes at the corner frequency, whatever the order *)
Theorem C55_corner : forall p f0 g n x, usable (n_samples p) (window_t p) -> length x = n_samples p -> (0 < n)%nat -> f0 <> 0 ->
  yields x (filtered_time_static p (ButterworthLowpass f0 g (Z.of_nat n)) x) (fun y =>
    exists X Y, fft x = Ok X /\ fft y = Ok Y /\ forall k, (k < n_samples p)%nat -> Rabs (nth k (ifft_shift_ (grid_f p)) 0) = Rabs f0 -> Cnorm2 (nth k Y C0) = g * g / 2 * Cnorm2 (nth k X C0)).
Proof.
  intros p f0 g n x U L H N. destruct (butterworth_filter p f0 g n x U L H) as (y & E & Ly & _ & X & Y & FX & FY & S). exists y. split; [exact E|]. split; [exact Ly|]. exists X, Y. split; [exact FX|]. split; [exact FY|]. intros k Hk C. rewrite S by exact Hk. f_equal. set (f := nth k (ifft_shift_ (grid_f p)) 0) in *. clearbody f.
  assert (Q : lowpass_gain n (f / f0) = 1 / 2); [|rewrite Q; field]. destruct (gain_corner n H) as (A & B). assert (f = f0 \/ f = - f0) as [-> | ->]. { unfold Rabs in C. destruct (Rcase_abs f), (Rcase_abs f0); lra. }
  - rewrite <- A. f_equal. field. exact N.
  - rewrite <- B. f_equal. field. exact N.
Qed.
Print Assumptions C55_corner.
(* the other shape is a bell curve around the optical frequency of the given wavelength; its width is
   the width in frequency, and the field (not the power) has half its height at the edges *)
Theorem C55_exp_of_square : forall p wl fwhm x, usable (n_samples p) (window_t p) -> length x = n_samples p -> 0 < fwhm -> fwhm < 2 * wl ->
  yields x (filtered_time_static p (ExponentialOfSquare wl fwhm) x) (fun y => energy y <= energy x /\
    exists X Y, fft x = Ok X /\ fft y = Ok Y /\ forall k, (k < n_samples p)%nat ->
      nth k Y C0 = Cmul (RtoC (bell ((nth k (ifft_shift_ (grid_f p)) 0 + central_frequency p - speed_of_light / wl) / (speed_of_light / (wl - fwhm / 2) - speed_of_light / (wl + fwhm / 2))))) (nth k X C0)).
Proof. exact exp_of_square_filter. Qed.
Print Assumptions C55_exp_of_square.
Theorem C55_bell : forall t, (0 < bell t <= 1) /\ (bell t = 1 <-> t = 0) /\ (Rabs t = 1 / 2 -> bell t = 1 / 2).
Proof.
  intros t. destruct (bell_range t) as [A B]. destruct bell_half as (C & D & E). split; [exact A|]. split; [split; [exact B|intros ->; exact C]|].
  intro H. unfold Rabs in H. destruct (Rcase_abs t); [replace t with (- (1 / 2)) by lra; exact E|rewrite H; exact D].
Qed.
Print Assumptions C55_bell.
Theorem C55_raises : forall p x f0 g order, x <> [] ->
  ((order < 0)%Z -> filtered_time_static p (ButterworthLowpass f0 g order) x = Err ValueError) /\
  (order = 0%Z -> filtered_time_static p (ButterworthLowpass f0 g order) x = Err IndexError) /\
  (forall shape, In shape [Gaussian; Longpass; Shortpass; Bandpass; UnknownShape] -> filtered_time_static p shape x = Err ValueError).
Proof.
  intros p x f0 g order N. assert (P : (0 < length x)%nat) by (destruct x; [congruence|cbn; lia]). destruct (fft_total x P) as (y & F). unfold filtered_time_static, fft_. rewrite F. cbn [bind]. split; [|split].
  - intros H. cbn [get_filter]. unfold butterworth_lowpass, butterworth_polynomial. replace (order <? 0)%Z with true by (symmetry; apply Z.ltb_lt; exact H). reflexivity.
  - intros ->. reflexivity.
  - intros shape [<-|[<-|[<-|[<-|[<-|[]]]]]]; reflexivity.
Qed.
Print Assumptions C55_raises.
(* order three at twice the corner frequency: (2i + 1) ((2i)^2 + 2i + 1), power 65 = 1 + 2^6 *)
Example C55_case : butterworth_product (Cmul Ci (RtoC 2)) 3 = (-7, -4) /\ lowpass_gain 3 2 = 1 / 65 /\ butterworth_polynomial [C1] (-1) = Err ValueError.
Proof.
  split; [|split; [unfold lowpass_gain; f_equal; ring|reflexivity]]. unfold butterworth_product. cbn [Nat.odd Nat.even negb Nat.sub Nat.div Nat.divmod fst seq fold_left]. unfold butterworth_factor. replace ((2 * INR 1 + INR 3 - 1) / (2 * INR 3) * PI) with (PI - PI / 3) by (cbn [INR]; field). rewrite cos_minus, cos_PI, sin_PI, cos_PI3.
  unfold Csub, Copp, Cadd, Cmul, Ci, RtoC, C1, re, im. cbn [fst snd]. f_equal; lra.
Qed.

(** ** C56: the voltage of the photodiode *)
Theorem C56_bounded : forall d p x, sound_photodiode d -> usable (n_samples p) (window_t p) -> length x = n_samples p ->
  yields x (photodiode_voltage d p x) (fun y => average_power y <= (max_photocurrent d * load_resistance d) ^ 2).
Proof.
  intros d p x S U L. destruct (photodiode_bound d p x S U L) as (y & E & Ly & B). exists y. split; [exact E|]. split; [exact Ly|]. unfold average_power. change (energy y / INR (length y) <= (max_photocurrent d * load_resistance d) ^ 2). rewrite Ly, L. assert (P : 0 < INR (n_samples p)) by (apply INR_pos; destruct U; lia). apply (Rmult_le_reg_r (INR (n_samples p))); [exact P|]. unfold Rdiv. rewrite Rmult_assoc, Rinv_l by lra. lra.
Qed.
Print Assumptions C56_bounded.
(* a voltage is a real number with an odd number of samples ... *)
Theorem C56_real : forall d p x, sound_photodiode d -> usable (n_samples p) (window_t p) -> Nat.Odd (n_samples p) -> length x = n_samples p -> yields x (photodiode_voltage d p x) real_valued.
Proof. exact photodiode_real. Qed.
Print Assumptions C56_real.
(* ... and with an even one constant light already gives complex voltages *)
Theorem C56_complex : forall d p z, sound_photodiode d -> usable (n_samples p) (window_t p) -> Nat.Even (n_samples p) -> 0 < bandwidth d -> (filter_order d = 1 \/ filter_order d = 2)%Z -> z <> C0 ->
  yields (repeat z (n_samples p)) (photodiode_voltage d p (repeat z (n_samples p))) nowhere_real.
Proof. exact photodiode_complex. Qed.
Print Assumptions C56_complex.
Example C56_case : yields (repeat C1 4) (photodiode_voltage default_photodiode (mkGrid 4 1 1) (repeat C1 4)) nowhere_real.
Proof.
  apply (C56_complex default_photodiode (mkGrid 4 1 1) C1).
  - unfold sound_photodiode, default_photodiode. cbn. lra || (repeat split; try lra; lia).
  - unfold usable. cbn. split; [lia|lra].
  - exists 2%nat. reflexivity.
  - cbn. lra.
  - right. reflexivity.
  - intros E. apply (f_equal re) in E. unfold C1, C0, re in E. cbn in E. lra.
Qed.

(** ** C57: a filter object used again *)
Theorem C57_reused : forall grids shape calls, filter_calls grids (new_filter shape) calls = map (fun c => filtered_time_static (grids (fst c)) shape (snd c)) calls.
Proof. intros grids shape calls. apply (uses_static grids calls (new_filter shape)). intros m H. discriminate. Qed.
Print Assumptions C57_reused.
(* a propagator whose number of samples was changed in place is not noticed *)
Theorem C57_stale : forall f0 g n id p p' x x', (0 < n)%nat -> usable (n_samples p) (window_t p) -> usable (n_samples p') (window_t p') -> n_samples p <> n_samples p' ->
  length x = n_samples p -> length x' = n_samples p' ->
  snd (filtered_time (fst (filtered_time (new_filter (ButterworthLowpass f0 g (Z.of_nat n))) id p x)) id p' x') = Err ValueError /\
  exists y, filtered_time_static p' (ButterworthLowpass f0 g (Z.of_nat n)) x' = Ok y.
Proof.
  intros f0 g n id p p' x x' Hn U U' N L L'. split.
  - pose proof (lowpass_plain p f0 g n Hn) as M. apply (stale_filter _ id p p' x x' (map (lowpass_entry f0 g n) (ifft_shift_ (grid_f p)))); [exact M| | | | |]; rewrite ?map_length, ?grid_f_len; destruct U, U'; lia.
  - destruct (butterworth_filter p' f0 g n x' U' L' Hn) as (y & E & _). exists y. exact E.
Qed.
Print Assumptions C57_stale.
Example C57_case : snd (filtered_time (fst (filtered_time (new_filter (ButterworthLowpass 1 1 2)) 7 (mkGrid 2 1 1) [C1; C0])) 7 (mkGrid 3 1 1) [C1; C0; C0]) = Err ValueError.
Proof. apply (C57_stale 1 1 2 7 (mkGrid 2 1 1) (mkGrid 3 1 1)); try reflexivity; try lia; cbn; try lia; unfold usable; split; (lia || lra). Qed.

(** ** C58: the power of the noise *)
(* whatever was drawn, the noise has the requested ratio to the signal *)
Theorem C58_osnr : forall p filter dB v x, alive x -> alive v -> length v = length x ->
  yields x (noisy p [mkSource (Osnr dB) filter v] x) (fun y => exists e, added x e y /\ average_power e = average_power x / ten_to (dB / 10) /\ get_OSNR x e true = dB).
Proof.
  intros p filter dB v x Ax Av L. destruct (noisy_additive p (mkSource (Osnr dB) filter v) x (scale (sqrt (mean_power x / mean_power v / osnr_ratio dB)) v)) as (y & E & Ly & A); try assumption; try reflexivity; try discriminate.
  exists y. split; [exact E|]. split; [exact Ly|]. eexists. split; [exact A|]. assert (Q : average_power (scale (sqrt (mean_power x / mean_power v / osnr_ratio dB)) v) = average_power x / ten_to (dB / 10)). { rewrite osnr_vector; [rewrite mean_average; reflexivity|exact Av|]. rewrite mean_average. left. apply alive_power. exact Ax. }
  split; [exact Q|]. apply osnr_read_back; assumption.
Qed.
Print Assumptions C58_osnr.
(* the laser: its light keeps its power and gets noise at the requested ratio *)
Theorem C58_laser : forall p fwhm dB v w x, alive x -> alive w -> length v = length x -> length w = length x -> (forall z, In z v -> Cnorm2 z = 1) ->
  yields x (noisy p (laser_sources fwhm dB v w) x) (fun y => exists x' e, same_power x x' /\ added x' e y /\ get_OSNR x' e true = dB).
Proof. exact noisy_laser. Qed.
Print Assumptions C58_laser.
(* vectors of a requested power, or a requested root mean square, with or without a filter *)
Definition filter_passes (filter : option filter_shape) : Prop := filter = None \/ exists f0 g n, filter = Some (ButterworthLowpass f0 g (Z.of_nat n)) /\ (0 < n)%nat /\ g <> 0.
Theorem C58_vectors : forall p filter draw white, usable (n_samples p) (window_t p) -> length draw = n_samples p -> alive draw -> filter_passes filter ->
  (forall w, 0 <= w -> exists v, noise_vector p filter (AbsolutePower w) draw white = Ok (Some v) /\ length v = n_samples p /\ average_power v = w) /\
  (forall r, exists v, noise_vector p filter (Rms r) draw white = Ok (Some v) /\ length v = n_samples p /\ average_power v = r ^ 2).
Proof.
  intros p filter draw white U L A FP. assert (X : exists noise, match filter with None => Ok draw | Some shape => filtered_time_static p shape draw end = Ok noise /\ length noise = n_samples p /\ alive noise).
  { destruct FP as [-> |(f0 & g & n & -> & Hn & Hg)]; [exists draw; tauto|]. destruct (butterworth_filter p f0 g n draw U L Hn) as (y & E & Ly & _). exists y. split; [exact E|]. split; [lia|]. apply (lowpass_alive p f0 g n draw); assumption. }
  destruct X as (noise & E & Ln & An). unfold noise_vector. rewrite E. cbn [bind]. split.
  - intros w Hw. eexists. split; [reflexivity|]. split; [rewrite scale_length; exact Ln|]. apply absolute_vector; assumption.
  - intros r. eexists. split; [reflexivity|]. split; [rewrite scale_length; exact Ln|]. apply rms_vector; assumption.
Qed.
Print Assumptions C58_vectors.
(* and these are added as they are *)
Theorem C58_added : forall p filter t v x, alive x -> length v = length x -> (exists w, t = AbsolutePower w \/ t = Rms w) -> yields x (noisy p [mkSource t filter v] x) (added x v).
Proof.
  intros p filter t v x Ax L (w & [-> | ->]); apply noisy_additive; try assumption; try reflexivity; try discriminate.
Qed.
Print Assumptions C58_added.
(* shot noise: linear in the mean signal, times the bandwidth *)
Theorem C58_shot : forall p v x slope intercept, alive x -> alive v -> length v = length x -> 0 <= slope -> 0 <= intercept -> usable (n_samples p) (window_t p) ->
  yields x (noisy p [mkSource (Shot slope intercept) None v] x) (fun y => exists e, added x e y /\ average_power e = (slope * mean_abs x + intercept) * (INR (n_samples p) * grid_df p)).
Proof.
  intros p v x slope intercept Ax Av L Hs Hi U. set (b := INR (n_samples p) * grid_df p). assert (Pb : 0 < b) by (unfold b; apply Rmult_lt_0_compat; [apply INR_pos; destruct U; lia|apply grid_df_pos; exact U]).
  assert (M : 0 <= mean_abs x). { unfold mean_abs. apply Rmult_le_pos; [|left; apply Rinv_0_lt_compat, INR_pos, alive_length, Ax]. clear. induction x as [|z x IH]; [cbn; lra|]. cbn [map fold_right]. pose proof (sqrt_pos (Cnorm2 z)). lra. }
  destruct (noisy_additive p (mkSource (Shot slope intercept) None v) x (scale (sqrt ((slope * mean_abs x + intercept) * b / mean_power v)) v)) as (y & E & Ly & A); try assumption; try reflexivity; try discriminate.
  exists y. split; [exact E|]. split; [exact Ly|]. eexists. split; [exact A|]. apply shot_vector; [exact Av|]. apply Rmult_le_pos; [|lra]. pose proof (Rmult_le_pos _ _ Hs M). lra.
Qed.
Print Assumptions C58_shot.
Example C58_case : exists y e, noisy (mkGrid 2 1 1) [mkSource (Osnr 10) None [C1; Ci]] [(3, 4); C0] = Ok y /\ added [(3, 4); C0] e y /\ average_power e = 5 / 4.
Proof.
  destruct (C58_osnr (mkGrid 2 1 1) None 10 [C1; Ci] [(3, 4); C0]) as (y & E & _ & e & A & P & _).
  - exists (3, 4). split; [left; reflexivity|]. intros X. apply (f_equal re) in X. unfold re, C0 in X. cbn in X. lra.
  - exists C1. split; [left; reflexivity|]. intros X. apply (f_equal re) in X. unfold re, C1, C0 in X. cbn in X. lra.
  - reflexivity.
  - exists y, e. split; [exact E|]. split; [exact A|]. rewrite P. unfold average_power, ten_to. replace (10 / 10) with 1 by field. rewrite Rpower_1 by lra. unfold Cnorm2, C0, re, im. cbn. field.
Qed.

(** ** C59: phase noise of a source with a linewidth *)
Theorem C59_power : forall p fwhm draw white x, usable (n_samples p) (window_t p) -> Nat.Even (n_samples p) -> fwhm <> 0 -> length white = n_samples p -> length x = n_samples p ->
  exists v, noise_vector p None (Linewidth fwhm) draw white = Ok (Some v) /\ yields x (noisy p [mkSource (Linewidth fwhm) None v] x) (same_power x).
Proof.
  intros p fwhm draw white x U E N Lw Lx. destruct (linewidth_vector p fwhm draw white U N) as (_ & H). destruct (H E Lw) as (v & V & Lv & Uv). exists v. split; [exact V|]. set (s := mkSource (Linewidth fwhm) None v). assert (F : fitting (length x) s) by (split; [cbn; lia|split; [discriminate|intros w _; exact Uv]]).
  rewrite (noisy_one p s x (map (fun _ => C0) v)); [|intros ->; destruct U; cbn in Lx; lia|exact F|reflexivity]. unfold factor, s. cbn [ns_type ns_vector]. rewrite zipadd_zeros by (rewrite zipmul_length; lia). exists (zipmul x v). split; [reflexivity|]. split; [rewrite zipmul_length; lia|]. apply unit_product; [lia|exact Uv].
Qed.
Print Assumptions C59_power.
(* a linewidth of zero leaves the light as it is *)
Theorem C59_zero : forall p draw white x, x <> [] -> length x = n_samples p -> exists v, noise_vector p None (Linewidth 0) draw white = Ok (Some v) /\ noisy p [mkSource (Linewidth 0) None v] x = Ok x.
Proof.
  intros p draw white x N L. unfold noise_vector. cbn [bind]. destruct (Req_EM_T 0 0) as [_|K]; [|contradiction]. eexists. split; [reflexivity|]. set (v := repeat C1 (n_samples p)). assert (Lv : length v = n_samples p) by (unfold v; apply repeat_length). set (s := mkSource (Linewidth 0) None v).
  assert (F : fitting (length x) s). { split; [cbn; lia|]. split; [discriminate|]. intros w _ z Hz. apply repeat_spec in Hz. subst z. unfold Cnorm2, C1, re, im. cbn. ring. }
  rewrite (noisy_one p s x (map (fun _ => C0) v)); [|exact N|exact F|reflexivity]. unfold factor, s. cbn [ns_type ns_vector]. assert (Z : zipmul x v = x). { replace v with (map (fun _ : C => C1) v) by (unfold v; rewrite map_repeat; reflexivity). apply zipmul_ones. lia. } rewrite Z, zipadd_zeros by lia. reflexivity.
Qed.
Print Assumptions C59_zero.
(* with an odd number of samples the phase noise of any linewidth is not a number *)
Theorem C59_odd : forall p fwhm draw white, usable (n_samples p) (window_t p) -> fwhm <> 0 -> Nat.Odd (n_samples p) ->
  noise_vector p None (Linewidth fwhm) draw white = Ok None /\ noise_vector p None (PhaseFromLinewidth fwhm) draw white = Ok None.
Proof.
  intros p fwhm draw white U N O. split; [apply linewidth_vector; assumption|]. unfold noise_vector. cbn [bind]. destruct (Req_EM_T fwhm 0); [contradiction|]. rewrite linewidth_odd by assumption. reflexivity.
Qed.
Print Assumptions C59_odd.
Example C59_case : noise_vector (mkGrid 3 1 1) None (Linewidth 100) [C0; C0; C0] [1; 2; 3] = Ok None.
Proof. apply C59_odd; [unfold usable; cbn; split; [lia|lra]|lra|exists 1%nat; reflexivity]. Qed.

(** ** C60: the order of the sources *)
Theorem C60_order : forall p ss ss' x y, Permutation ss ss' -> x <> [] -> (forall s, In s ss -> fitting (length x) s) -> noisy p ss x = Ok y -> noisy p ss' x = Ok y.
Proof. exact noisy_permuted. Qed.
Print Assumptions C60_order.
Example C60_case : forall y, noisy (mkGrid 2 1 1) [mkSource (Linewidth 5) None [Ci; C1]; mkSource (Shot 1 2) None [C1; Ci]] [C1; (2, 0)] = Ok y ->
  noisy (mkGrid 2 1 1) [mkSource (Shot 1 2) None [C1; Ci]; mkSource (Linewidth 5) None [Ci; C1]] [C1; (2, 0)] = Ok y.
Proof.
  intros y. apply C60_order; [apply perm_swap|discriminate|]. intros s [<-|[<-|[]]]; (split; [reflexivity|]; split; [discriminate|]); [|discriminate]. intros w _ z [<-|[<-|[]]]; unfold Cnorm2, Ci, C1, re, im; cbn; ring.
Qed.
