(** C61-C64: programmable filter, split-and-delay line, frequency splitter and noisy signal. *)
From Coq Require Import Reals Lra Lia List Arith ZArith.
From Verif Require Import Base Complex ArrayModel FourierProofs ComponentModel ComponentSpec FilterProofs ComponentProofs GridProofs MoreComponentsModel MoreComponentsSpec MoreComponentsProofs.
Import ListNotations.
Local Open Scope R_scope.

(** ** C61: the gain of the programmable filter *)
Theorem C61_bound : forall amps phases p x, usable (n_samples p) (window_t p) -> length x = n_samples p -> grid_df p < shaped_band ->
  (1 <= length amps)%nat -> (forall a, In a amps -> fraction a) ->
  exists h, half_band_steps (n_samples p) (window_t p) h /\ (1 <= h)%Z /\
  yields x (programmable_filter amps phases p x) (fun y => energy y <= ten_to (- (45 / 100)) * overshoot (window_t p) h ^ (2 * (length amps - 1)) * energy x).
Proof. exact programmable_bound. Qed.
Print Assumptions C61_bound.
(* on fine grids the loss of 4.5 dB outweighs the overshoot *)
Theorem C61_fine : forall amps phases p x, usable (n_samples p) (window_t p) -> length x = n_samples p -> (50 <= n_samples p)%nat -> 40 * grid_df p <= shaped_band ->
  length amps = 10%nat -> (forall a, In a amps -> fraction a) ->
  yields x (programmable_filter amps phases p x) (fun y => energy y <= energy x).
Proof. exact programmable_passive. Qed.
Print Assumptions C61_fine.
(* equal coefficients: every component inside the band is treated alike, the others are removed *)
Theorem C61_flat : forall a h n m p x, usable (n_samples p) (window_t p) -> length x = n_samples p ->
  yields x (programmable_filter (repeat a (S n)) (repeat h (S m)) p x) (fun y => exists X Y, fft x = Ok X /\ fft y = Ok Y /\ forall k, (k < n_samples p)%nat ->
    nth k Y C0 = if Rle_dec (Rabs (nth k (ifft_shift_ (grid_f p)) 0)) (shaped_band / 2) then Cmul (Cmul (RtoC (ten_to (- (225 / 1000)) * a)) (cis h)) (nth k X C0) else C0).
Proof. exact programmable_flat. Qed.
Print Assumptions C61_flat.
(* without the condition on the grid the filter can amplify *)
Theorem C61_passive_refuted : exists amps phases p x y, usable (n_samples p) (window_t p) /\ length x = n_samples p /\ grid_df p < shaped_band /\
  length amps = 10%nat /\ length phases = 10%nat /\ (forall a, In a amps -> fraction a) /\ (forall h, In h phases -> 0 <= h <= 2 * PI) /\
  programmable_filter amps phases p x = Ok y /\ energy x < energy y.
Proof.
  destruct (programmable_amplifies (repeat 0 10)) as (y & E & H). exists last_only, (repeat 0 10), coarse, (pulse 3), y. split; [exact coarse_usable|]. split; [reflexivity|]. split; [rewrite coarse_df; change shaped_band with band_width; pose proof band_width_pos; lra|].
  split; [reflexivity|]. split; [reflexivity|]. split; [|split; [|split; assumption]].
  - intros a Ha. unfold fraction. cbn in Ha. repeat destruct Ha as [<-|Ha]; try lra.
  - intros h Hh. apply repeat_spec in Hh. subst h. pose proof PI_RGT_0. lra.
Qed.
Print Assumptions C61_passive_refuted.
(* a grid on which C61_fine applies: 1001 samples over 100 ps *)
Example C61_grid : let p := mkGrid 1001 (/ 10 ^ 10) 1 in usable (n_samples p) (window_t p) /\ (50 <= n_samples p)%nat /\ 40 * grid_df p <= shaped_band.
Proof.
  cbn [n_samples window_t]. split; [split; [lia|apply Rinv_0_lt_compat; lra]|]. split; [lia|]. rewrite grid_df_val. cbn [n_samples window_t]. replace (1001 - 1)%nat with 1000%nat by lia. rewrite !INR_IZR_INZ. change (Z.of_nat 1001) with 1001%Z. change (Z.of_nat 1000) with 1000%Z. unfold shaped_band. unfold Rdiv. rewrite Rinv_inv. lra.
Qed.

(** ** C62: the split-and-delay line *)
Theorem C62_bound : forall ratios p x, usable (n_samples p) (window_t p) -> length x = n_samples p ->
  yields x (split_and_delay_line ratios p x) (fun y => energy y <= ten_to (1 / 10) * energy x).
Proof. intros ratios p x U L. apply split_delay_energy; assumption. Qed.
Print Assumptions C62_bound.
Theorem C62_straight : forall ratios p x, usable (n_samples p) (window_t p) -> length x = n_samples p -> (forall r, In r ratios -> r = 0) ->
  split_and_delay_line ratios p x = Ok (scale (ten_to (1 / 20)) x).
Proof. intros ratios p x U L Z. apply split_delay_energy; assumption. Qed.
Print Assumptions C62_straight.
(* over at coupler k and back at the next: a delay of 2^k ps *)
Theorem C62_delay : forall k p x, (k <= 6)%nat -> usable (n_samples p) (window_t p) -> length x = n_samples p ->
  exists y, delay_line (2 ^ k * ten_to (-12)) p x = Ok y /\ split_and_delay_line (repeat 0 k ++ [1; 1] ++ repeat 0 (6 - k)) p x = Ok (scale (- ten_to (1 / 20)) y).
Proof. exact split_delay_cross. Qed.
Print Assumptions C62_delay.
(* the loss of 1 dB has the wrong sign *)
Theorem C62_passive_refuted : forall p x, usable (n_samples p) (window_t p) -> length x = n_samples p -> 0 < energy x ->
  exists ratios y, length ratios = 8%nat /\ (forall r, In r ratios -> fraction r) /\ split_and_delay_line ratios p x = Ok y /\ energy x < energy y.
Proof.
  intros p x U L E. destruct (split_delay_amplifies p x U L E) as (y & H & G). exists (repeat 0 8), y. split; [reflexivity|]. split; [|split; assumption]. intros r Hr. apply repeat_spec in Hr. subst r. unfold fraction. lra.
Qed.
Print Assumptions C62_passive_refuted.
Example C62_case : exists y, split_and_delay_line (repeat 0 8) three (pulse 3) = Ok y /\ energy (pulse 3) < energy y.
Proof. apply split_delay_amplifies; [exact three_usable|reflexivity|rewrite pulse_energy; lra]. Qed.

(** ** C63: the frequency splitter *)
Theorem C63_outputs : forall a p states, usable (n_samples p) (window_t p) -> states <> [] -> (forall s, In s states -> length s = n_samples p) ->
  exists outs, frequency_splitter a p states = Ok outs /\ length outs = S (length a) /\
    (forall o, In o outs -> length o = n_samples p /\ energy o <= plain_energy (n_samples p) states) /\
    ((length a <= 1)%nat -> outputs_energy outs <= plain_energy (n_samples p) states).
Proof. exact frequency_splitter_ok. Qed.
Print Assumptions C63_outputs.
Theorem C63_bands : forall a p states outs x, usable (n_samples p) (window_t p) -> states <> [] -> (forall s, In s states -> length s = n_samples p) ->
  length x = n_samples p -> (forall t, (t < n_samples p)%nat -> nth t x C0 = plain_sum states t) -> frequency_splitter a p states = Ok outs ->
  exists X, fft x = Ok X /\ forall j, (j <= length a)%nat -> exists Y, fft (nth j outs []) = Ok Y /\ forall k, (k < n_samples p)%nat ->
    nth k Y C0 = Cmul (RtoC (soft_step (place_in_band (n_samples p) k - rsum j (share a)) * soft_step (rsum (S j) (share a) - place_in_band (n_samples p) k))) (nth k X C0).
Proof. exact frequency_splitter_spectrum. Qed.
Print Assumptions C63_bands.
Theorem C63_raises : forall a p states, (states = [] \/ exists s t, In s states /\ In t states /\ length s <> length t) -> frequency_splitter a p states = Err ValueError.
Proof.
  intros a p states H. unfold frequency_splitter, sum_states. destruct H as [->|(s & t & Hs & Ht & N)]; [reflexivity|]. destruct states as [|s0 r]; [destruct Hs|].
  destruct (forallb (fun s => Nat.eqb (length s) (length s0)) (s0 :: r)) eqn:F; [|reflexivity]. exfalso. pose proof (proj1 (forallb_forall _ _) F) as G. pose proof (G s Hs) as A. pose proof (G t Ht) as B. apply Nat.eqb_eq in A. apply Nat.eqb_eq in B. congruence.
Qed.
Print Assumptions C63_raises.
(* two inputs are added without normalisation: more energy leaves than enters *)
Theorem C63_passive_refuted : exists a p states outs, usable (n_samples p) (window_t p) /\ states <> [] /\ (forall s, In s states -> length s = n_samples p) /\
  frequency_splitter a p states = Ok outs /\ outputs_energy states < outputs_energy outs.
Proof.
  destruct splitter_creates as (outs & E & H). exists [], three, [repeat C1 3; repeat C1 3], outs. split; [exact three_usable|]. split; [discriminate|]. split; [intros s [<-|[<-|[]]]; reflexivity|]. split; assumption.
Qed.
Print Assumptions C63_passive_refuted.
Example C63_case : plain_energy 3 [repeat C1 3; repeat C1 3] = 12.
Proof. unfold plain_energy. cbn [rsum]. rewrite !plain_twice. cbn [repeat nth]. unfold Cnorm2, Cmul, RtoC, C1, re, im. cbn [fst snd]. ring. Qed.

(** ** C64: the noisy signal *)
Theorem C64_power : forall shape w P p, 0 <= P -> shape <> SignalOther ->
  exists y, noisy_signal shape w P p = Ok y /\ length y = n_samples p /\ (forall t, sample_power y t <= P) /\
    (forall i, (i < n_samples p)%nat -> nth i (grid_t p) 0 = 0 -> sample_power y i = P).
Proof. exact signal_power. Qed.
Print Assumptions C64_power.
(* the pulse width of the Gaussian pulse is its width at half of the power *)
Theorem C64_half : forall w P p y i, 0 < w -> 0 <= P -> noisy_signal SignalGaussian w P p = Ok y -> (i < n_samples p)%nat -> Rabs (nth i (grid_t p) 0) = w / 2 -> sample_power y i = P / 2.
Proof. exact signal_half. Qed.
Print Assumptions C64_half.
Theorem C64_unknown : forall w P p, noisy_signal SignalOther w P p = Err RuntimeError.
Proof. reflexivity. Qed.
Print Assumptions C64_unknown.
(* the middle sample of an odd grid is at time zero *)
Example C64_case : (1 < n_samples three)%nat /\ nth 1 (grid_t three) 0 = 0.
Proof. split; [cbn; lia|]. rewrite grid_t_nth by (cbn; lia). cbn [n_samples window_t three Nat.sub INR]. field. Qed.
