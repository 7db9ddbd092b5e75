(** C79: the linewidth of phase noise, from measured points to noise. *)
From Coq Require Import Reals List Arith Bool Lia Lra.
From Verif Require Import Base Complex ArrayModel ComponentModel DetectorModel NoiseModel ComponentSpec FourierProofs FilterProofs GridProofs ComponentProofs NoiseProofs LinewidthModel LinewidthSpec LinewidthProofs.
Import ListNotations.
Local Open Scope R_scope.

(* the estimate is the mean of the linewidths of the single points, weighted with the inverse fourth power of their offsets *)
Theorem C79_estimate : forall fit points, best_fit fit -> points <> [] -> (forall q, In q points -> fst q <> 0) ->
  exists w, estimated_linewidth fit points = Ok w /\
    w * total (map (fun q => / fst q ^ 4) points) = total (map (fun q => / fst q ^ 4 * (2 * PI * fst q ^ 2 * radians2 (snd q))) points) /\
    (forall lo hi, (forall q, In q points -> lo <= 2 * PI * fst q ^ 2 * radians2 (snd q) <= hi) -> lo <= w <= hi).
Proof.
  intros fit points B Ne N. destruct (estimate_value fit points B Ne N) as [E P]. eexists. split; [exact E|]. set (A := total (map (fun q => / fst q ^ 4) points)) in *. split.
  - replace (2 * PI * (total (map (fun q => radians2 (snd q) / fst q ^ 2) points) / A) * A) with (2 * PI * total (map (fun q => radians2 (snd q) / fst q ^ 2) points)) by (field; lra). clear E P Ne B A.
    induction points as [|q l IH]; cbn [map total fold_right]; [ring|]. unfold total in IH. rewrite <- IH by (intros z Hz; apply N; right; exact Hz). field. apply N. left. reflexivity.
  - intros lo hi H. destruct (total_weighted points lo hi N) as [H1 H2]; [intros q Hq; destruct (H q Hq) as [K1 K2]; split; lra|]. fold A in H1, H2. set (S := total (map (fun q => radians2 (snd q) / fst q ^ 2) points)) in *.
    split; apply (Rmult_le_reg_r A); try exact P; replace (2 * PI * (S / A) * A) with (2 * PI * S) by (field; lra); assumption.
Qed.
Print Assumptions C79_estimate.

(* points on the curve of a linewidth give that linewidth *)
Theorem C79_exact : forall fit points w, best_fit fit -> points <> [] -> (forall q, In q points -> fst q <> 0 /\ radians2 (snd q) = w / (2 * PI) / fst q ^ 2) -> estimated_linewidth fit points = Ok w.
Proof.
  intros fit points w B Ne H. destruct (C79_estimate fit points B Ne) as (v & E & _ & Bd); [intros q Hq; exact (proj1 (H q Hq))|]. rewrite E. f_equal. destruct (Bd w w) as [H1 H2]; [|lra]. intros q Hq. destruct (H q Hq) as [N ->]. pose proof PI_RGT_0.
  replace (2 * PI * fst q ^ 2 * (w / (2 * PI) / fst q ^ 2)) with w by (field; lra). lra.
Qed.
Print Assumptions C79_exact.
(* 1 MHz away at -80 dBc/Hz and 10 MHz away at -100 dBc/Hz *)
Example C79_exact_case : estimated_linewidth plain_fit [(10 ^ 6, -80); (10 ^ 7, -100)] = Ok (4 * PI * 10 ^ 4).
Proof.
  apply C79_exact; [exact plain_fit_best|discriminate|]. assert (Q : forall n, Rpower 10 (- INR n) = / 10 ^ n) by (intros n; rewrite Rpower_Ropp; f_equal; apply Rpower_pow; lra). pose proof PI_RGT_0.
  intros q [<-|[<-|[]]]; (split; [cbn; lra|]); unfold radians2; cbn [fst snd].
  - replace (-80 / 10) with (- INR 8) by (rewrite INR_IZR_INZ; cbn; lra). rewrite Q. field. lra.
  - replace (-100 / 10) with (- INR 10) by (rewrite INR_IZR_INZ; cbn; lra). rewrite Q. field. lra.
Qed.

(* the noise made from a linewidth: the real part of noise with the spectrum of that linewidth times the spectrum of the draw *)
Theorem C79_spectrum : forall p fwhm draw white, usable (n_samples p) (window_t p) -> Nat.Even (n_samples p) -> 0 < fwhm -> length white = n_samples p ->
  exists z W Z, let N := n_samples p in
    length z = N /\ noise_vector p None (PhaseFromLinewidth fwhm) draw white = Ok (Some (map (fun c => RtoC (re c)) z)) /\ noise_vector p None (Linewidth fwhm) draw white = Ok (Some (map (fun c => cis (re c)) z)) /\
    fft (map RtoC white) = Ok W /\ fft z = Ok Z /\
    forall k, (k < N)%nat -> bin_frequency N (window_t p) k <> 0 /\
      Cnorm2 (nth k Z C0) * (window_t p / INR (N - 1)) = fwhm / (2 * PI) / bin_frequency N (window_t p) k ^ 2 * Cnorm2 (nth k W C0).
Proof.
  intros p fwhm draw white U E F L. destruct (phase_anatomy p fwhm white U E L) as (W & y & FW & LW & Ly & Vy & s & Is & Ls & Ph). pose proof (grid_dt_pos p U) as D.
  assert (Py : (0 < length s)%nat) by (rewrite Ls; destruct U; lia). destruct (fft_total s Py) as (t & Ft). pose proof (fft_ifft _ _ _ Is Ft) as ->.
  exists (scale (/ grid_dt p) s), W, (scale (/ grid_dt p) y). cbv zeta. split; [rewrite scale_length; exact Ls|]. unfold noise_vector. cbn [bind]. destruct (Req_EM_T fwhm 0) as [Z|_]; [lra|]. rewrite Ph. cbn [bind option_map]. rewrite !map_map. split; [reflexivity|]. split; [reflexivity|]. split; [exact FW|]. split; [apply fft_scale; exact Ft|].
  intros k Hk. destruct (Vy k Hk) as [Nz V]. rewrite (bin_frequency_grid p k U Hk) in Nz, V. split; [exact Nz|]. rewrite scale_nth, V. rewrite !Cnorm2_mul, !Cnorm2_RtoC. set (f := bin_frequency (n_samples p) (window_t p) k) in *. set (w := Cnorm2 (nth k W C0)).
  assert (Dt : grid_dt p = window_t p / INR (n_samples p - 1)) by (unfold grid_dt; f_equal; field). rewrite <- Dt. pose proof PI_RGT_0 as Pi.
  assert (S1 : sqrt (fwhm / PI / 2) * sqrt (fwhm / PI / 2) = fwhm / PI / 2) by (apply sqrt_sqrt; left; apply Rmult_lt_0_compat; [apply Rmult_lt_0_compat; [exact F|apply Rinv_0_lt_compat; exact Pi]|lra]). assert (S2 : sqrt (grid_dt p) * sqrt (grid_dt p) = grid_dt p) by (apply sqrt_sqrt; lra).
  assert (S3 : Rabs f * Rabs f = f ^ 2) by (rewrite <- Rabs_mult, Rabs_right; [ring|nra]). assert (Na : Rabs f <> 0) by (apply Rabs_no_R0; exact Nz).
  transitivity ((sqrt (fwhm / PI / 2) * sqrt (fwhm / PI / 2)) / (Rabs f * Rabs f) * (sqrt (grid_dt p) * sqrt (grid_dt p)) * w * / grid_dt p); [field; split; [lra|exact Na]|]. rewrite S1, S2, S3. field. repeat split; try lra; exact Nz.
Qed.
Print Assumptions C79_spectrum.
(* the same draw with a linewidth a^2 times as large makes phases a times as large *)
Theorem C79_scaling : forall p fwhm a draw white v, usable (n_samples p) (window_t p) -> Nat.Even (n_samples p) -> 0 < fwhm -> 0 < a -> length white = n_samples p ->
  noise_vector p None (PhaseFromLinewidth fwhm) draw white = Ok (Some v) -> noise_vector p None (PhaseFromLinewidth (a ^ 2 * fwhm)) draw white = Ok (Some (scale a v)).
Proof.
  intros p fwhm a draw white v U E F A L. unfold noise_vector. cbn [bind]. assert (F2 : 0 < a ^ 2 * fwhm) by (apply Rmult_lt_0_compat; [apply pow_lt; exact A|exact F]). destruct (Req_EM_T fwhm 0) as [Z|_]; [lra|]. destruct (Req_EM_T (a ^ 2 * fwhm) 0) as [Z|_]; [lra|].
  destruct (phase_anatomy p fwhm white U E L) as (W & y & FW & LW & Ly & Vy & s & Is & Ls & Ph). destruct (phase_anatomy p (a ^ 2 * fwhm) white U E L) as (W' & y' & FW' & LW' & Ly' & Vy' & s' & Is' & Ls' & Ph'). rewrite FW in FW'. injection FW' as <-. rewrite Ph, Ph'. cbn [bind option_map]. intros H. injection H as <-.
  assert (Ey : y' = scale a y).
  { apply (list_eq_nth C0); [rewrite scale_length; lia|]. intros k Hk. rewrite Ly' in Hk. rewrite scale_nth, (proj2 (Vy k Hk)), (proj2 (Vy' k Hk)). replace (a ^ 2 * fwhm / PI / 2) with (a ^ 2 * (fwhm / PI / 2)) by (field; apply PI_neq0).
    pose proof PI_RGT_0. assert (Pf : 0 <= fwhm / PI / 2) by (left; apply Rmult_lt_0_compat; [apply Rmult_lt_0_compat; [exact F|apply Rinv_0_lt_compat; assumption]|lra]). rewrite sqrt_mult by (exact Pf || apply pow2_ge_0). rewrite sqrt_pow2 by lra. set (u := sqrt (fwhm / PI / 2)). unfold Cmul, RtoC, re, im. cbn [fst snd]. f_equal; unfold Rdiv; ring. }
  subst y'. rewrite (ifft_scale a y s Is) in Is'. injection Is' as <-. f_equal. f_equal. unfold scale. rewrite !map_map. apply map_ext. intros z. unfold Cmul, RtoC, re, im. cbn [fst snd]. f_equal; ring.
Qed.
Print Assumptions C79_scaling.
Example C79_spectrum_case : exists z W Z, noise_vector (mkGrid 2 1 1) None (PhaseFromLinewidth (2 * PI)) [] [3; 1] = Ok (Some (map (fun c => RtoC (re c)) z)) /\ fft (map RtoC [3; 1]) = Ok W /\ fft z = Ok Z /\
  Cnorm2 (nth 0 Z C0) = Cnorm2 (nth 0 W C0) /\ Cnorm2 (nth 0 W C0) = 16.
Proof.
  pose proof PI_RGT_0. destruct (C79_spectrum (mkGrid 2 1 1) (2 * PI) [] [3; 1]) as (z & W & Z & _ & V & _ & FW & FZ & K); [unfold usable; cbn; split; [lia|lra]|exists 1%nat; reflexivity|lra|reflexivity|]. exists z, W, Z. split; [exact V|]. split; [exact FW|]. split; [exact FZ|]. split.
  - destruct (K 0%nat ltac:(cbn; lia)) as [_ Q]. cbn [n_samples window_t] in Q. assert (B : bin_frequency 2 1 0 = 1) by (unfold bin_frequency; cbn; lra). rewrite B in Q. replace (1 / INR (2 - 1)) with 1 in Q by (cbn; lra). replace (2 * PI / (2 * PI) / 1 ^ 2) with 1 in Q by (field; lra). lra.
  - destruct (fft_ok _ _ FW) as (_ & _ & V0). rewrite V0 by (cbn; lia). cbn [length map csum nth INR]. replace (- (2 * PI * 0 * 0 / (1 + 1))) with 0 by field. replace (- (2 * PI * 1 * 0 / (1 + 1))) with 0 by field. rewrite cis_0. unfold Cnorm2, Cmul, Cadd, RtoC, C0, C1, re, im. cbn [fst snd]. ring.
Qed.

(* a phase modulator made with points: the linewidth is used with a list or with names of parameters, and forgotten without either *)
Theorem C79_modulator : forall fit points w, estimated_linewidth fit points = Ok w ->
  (forall l d, (4 <= length l)%nat -> exists l', new_phase_modulator fit (Some points) (Some l) d = Ok (l', Some l', d) /\ length l' = length l /\ nth 3 l' 0 = w /\ forall i, i <> 3%nat -> nth i l' 0 = nth i l 0) /\
  (forall l d, (length l < 4)%nat -> new_phase_modulator fit (Some points) (Some l) d = Err IndexError) /\
  (forall d, NoDup (map fst d) -> (forall k v, ~ In (Unknown k, v) d) -> exists l' d', new_phase_modulator fit (Some points) None (Some d) = Ok (l', None, Some d') /\ length l' = 4%nat /\ nth 3 l' 0 = w /\
     (forall n i, In (n, i) [(Depth, 0%nat); (Frequency, 1%nat); (Shift, 2%nat)] -> (forall v, In (n, v) d -> nth i l' 0 = v) /\ (~ In n (map fst d) -> nth i l' 0 = nth i pm_defaults 0)) /\
     (forall n v, In (n, v) d' <-> (n = FwhmLinewidth /\ v = w) \/ (n <> FwhmLinewidth /\ In (n, v) d))) /\
  (forall d k v, NoDup (map fst d) -> In (Unknown k, v) d -> new_phase_modulator fit (Some points) None (Some d) = Err ValueError) /\
  new_phase_modulator fit (Some points) None None = Ok (pm_defaults, None, None) /\ nth 3 pm_defaults 0 = 0.
Proof.
  intros fit points w E. unfold new_phase_modulator. rewrite E. cbn [bind]. split; [|split; [|split; [|split; [|split; [reflexivity|reflexivity]]]]].
  - intros l d L. destruct (set_item_ok l 3 w) as (l' & E' & L' & V & O); [lia|]. exists l'. rewrite E'. cbn [bind fst snd]. destruct (nth_error l' 3) eqn:Q; [|apply nth_error_None in Q; lia]. cbn [of_option bind]. auto.
  - intros l d L. rewrite set_item_short by lia. reflexivity.
  - intros d ND Nu. destruct (set_linewidth_spec d w ND) as [D1 D2]. destruct (set_by_names_ok (set_linewidth d w) pm_defaults eq_refl D1) as (l' & E' & L' & V & O).
    { intros n Hn. apply in_map_iff in Hn as ([m v] & Em & H). cbn in Em. subst m. destruct n; try (eexists; reflexivity). apply D2 in H as [[H _]|[_ H]]; [discriminate|]. exfalso. exact (Nu k v H). }
    exists l', (set_linewidth d w). cbn [bind fst snd]. rewrite E'. cbn [bind]. destruct (nth_error l' 3) eqn:Q; [|apply nth_error_None in Q; lia]. cbn [of_option bind]. split; [reflexivity|]. split; [exact L'|]. split; [apply (V FwhmLinewidth w 3%nat); [apply D2; auto|reflexivity]|]. split; [|exact D2].
    intros n i Hn. assert (Nn : n <> FwhmLinewidth /\ pm_index n = Ok i) by (destruct Hn as [Hn|[Hn|[Hn|[]]]]; injection Hn as <- <-; split; [discriminate|reflexivity|discriminate|reflexivity|discriminate|reflexivity]). destruct Nn as [Nn Ei]. split; [intros v Hv; apply (V n v i); [apply D2; auto|exact Ei]|]. intros Nd. apply (O n i Ei). intros H. apply in_map_iff in H as ([m v] & Em & H). cbn in Em. subst m. apply D2 in H as [[H _]|[_ H]]; [congruence|]. apply Nd, in_map_iff. exists (n, v). auto.
  - intros d k v ND H. cbn [bind fst snd]. rewrite (set_by_names_bad (set_linewidth d w) pm_defaults k v); [reflexivity|reflexivity|]. apply (set_linewidth_spec d w ND). right. split; [discriminate|exact H].
Qed.
Print Assumptions C79_modulator.
Example C79_modulator_case : new_phase_modulator (fun _ _ => Ok 1) (Some [(5, 7)]) None (Some [(Shift, 1 / 2)]) = Ok ([1; 12 * 10 ^ 9; 1 / 2; 1 * 2 * PI], None, Some [(Shift, 1 / 2); (FwhmLinewidth, 1 * 2 * PI)]) /\
  new_phase_modulator (fun _ _ => Ok 1) (Some [(5, 7)]) None None = new_phase_modulator (fun _ _ => Ok 1) None None None.
Proof. split; reflexivity. Qed.
Example C79_estimate_case : estimated_linewidth plain_fit [(1, 0); (2, 0)] = Ok (80 * PI / 17).
Proof.
  assert (N : forall q, In q [(1, 0); (2, 0)] -> fst q <> 0) by (intros q [<-|[<-|[]]]; cbn; lra). destruct (C79_estimate plain_fit [(1, 0); (2, 0)] plain_fit_best ltac:(discriminate) N) as (w & -> & E & _). f_equal.
  assert (R : radians2 0 = 2) by (unfold radians2; replace (0 / 10) with 0 by field; rewrite Rpower_O by lra; ring). cbn [map fst snd total fold_right] in E. rewrite R in E. lra.
Qed.
Example C79_scaling_case : exists v, noise_vector (mkGrid 2 1 1) None (PhaseFromLinewidth (2 * PI)) [] [3; 1] = Ok (Some v) /\ noise_vector (mkGrid 2 1 1) None (PhaseFromLinewidth (3 ^ 2 * (2 * PI))) [] [3; 1] = Ok (Some (scale 3 v)).
Proof.
  destruct C79_spectrum_case as (z & _ & _ & V & _). eexists. split; [exact V|]. pose proof PI_RGT_0. apply C79_scaling; [unfold usable; cbn; split; [lia|lra]|exists 1%nat; reflexivity|lra|lra|reflexivity|exact V].
Qed.
