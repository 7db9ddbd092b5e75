(** The optical components of the simulator.  Definitions only.
    /repo/simulator/fiber/node_types_subclasses/{single_path,multi_path,inputs,outputs}.py.
    Each function is the propagate method of one class: parameters, grid and
    incoming field to outgoing field.  The save_transforms branches (plotting
    data) are in TransformModel.v.  Noise is added by the graph after propagate (see
    SimulateModel) and is not part of these functions, except for the phase
    noise of the phase modulator. *)
From Coq Require Import Reals List Arith ZArith.
From Verif Require Import Base Complex ArrayModel.
Import ListNotations.
Local Open Scope R_scope.

(* mask already in transform order times spectrum, back in time:
   ifft_(mask * fft_(state, dt), dt) *)
Definition filter_spectrum (p : grid) (mask : list C) (state : list C) : res (list C) :=
  do spectrum <- fft_ state (grid_dt p); do product <- broadcast Cmul mask spectrum; ifft_ product (grid_dt p).

(** ** single_path.py *)

(* DispersiveFiber.propagate, lines 60-79; _alpha = 0, _beta2_experimental line 55 *)
Definition fiber_beta2 : R := -22 * ten_to (-12) * ten_to (-12) / 1000.
Definition dispersive_fiber (len : R) (p : grid) (state : list C) : res (list C) :=
  let propagation_constant := map (fun f => len * fiber_beta2 * (2 * PI * f) ^ 2) (grid_f p) in
  do s <- filter_spectrum p (ifft_shift_ (map cis propagation_constant)) state;
  Ok (scale (dB_to_amplitude_ratio (0 * len / 1000)) s).

(* VariableOpticalAttenuator.propagate, lines 108-117 *)
Definition attenuator (attenuation : R) (state : list C) : list C := scale (dB_to_amplitude_ratio attenuation) state.

(* PhaseModulator.propagate, lines 175-187; phase_noise is noise_model.get_phase_noise *)
Definition phase_modulator (depth frequency shift : R) (phase_noise : list R) (p : grid) (state : list C) : res (list C) :=
  do angles <- broadcast (fun t n => 2 * PI * frequency * t + shift + n) (grid_t p) phase_noise;
  let transform := map (fun a => depth * cos a) angles in
  do s <- broadcast Cmul state (map cis transform);
  Ok (scale (dB_to_amplitude_ratio (-0)) s).

(* IntensityModulator.propagate, lines 224-240; _loss_dB = -4; the parameter 'shift' is not read *)
Definition intensity_modulator (depth frequency bias : R) (p : grid) (state : list C) : res (list C) :=
  let transform := map (fun t => depth * cos (2 * PI * frequency * t) + bias) (grid_t p) in
  let half := scale (/ 2) state in
  do s <- broadcast Cmul half (map cis transform);
  do s <- broadcast Cadd half s;
  Ok (scale (dB_to_amplitude_ratio (-4)) s).

(* WaveShaper.propagate, lines 280-321.  [slice a b l] is l[a:b] for
   0 <= a <= b. *)
Definition extinction_ratio : R := ten_to (-35 / 10).
Definition frequency_bin_width : R := 12 * 10 ^ 9.
Definition slice {A} (a b : nat) (l : list A) : list A := firstn (b - a) (skipn a l).
(* number of samples of one bin: lines 286-288 *)
Definition bin_samples (p : grid) : nat := Z.to_nat (Int_part (INR (n_samples p) / (1 / grid_dt p / frequency_bin_width))).
(* lines 290-294: np.concatenate([v * ones((n, 1)) for v in values]) *)
Definition bins {A} (n : nat) (values : list A) : list A := flat_map (fun v => repeat v n) values.
(* lines 297-311, for a row of values and a padding value; N samples *)
Definition fit_mask {A} (pad : A) (N : nat) (row : list A) : list A :=
  let left := ((Z.of_nat N - Z.of_nat (length row)) / 2)%Z in
  let right := (Z.of_nat N - - (- (Z.of_nat N - Z.of_nat (length row)) / 2))%Z in
  if (left <? 0)%Z then slice (Z.to_nat (- left)) (Z.to_nat right) row
  else repeat pad (Z.to_nat left) ++ row ++ repeat pad (Z.to_nat (Z.of_nat N - right)).
Definition wave_shaper (amplitudes phases : list R) (p : grid) (state : list C) : res (list C) :=
  let n := bin_samples p in
  let amplitude_mask := fit_mask extinction_ratio (n_samples p) (bins n amplitudes) in
  let phase_mask := fit_mask extinction_ratio (n_samples p) (bins n phases) in
  do mask <- broadcast (fun a ph => Cmul (RtoC a) (cis ph)) amplitude_mask phase_mask;
  do s <- filter_spectrum p (ifft_shift_ mask) state;
  Ok (scale (dB_to_amplitude_ratio (- (45 / 10))) s).

(* OpticalAmplifier: parameters lines 432-441 (P_in_max and
   max_noise_fig_dB do not enter the field); _get_small_signal_gain, lines 519-545; np.isclose(x, 0, atol=1e-12) *)
Record amplifier := mkAmp {
  max_small_signal_gain_dB : R; peak_wl : R; band_lower : R; band_upper : R;
  P_out_max : R; gain_flatness_dB : R; alpha : R }.
Definition small_signal_gain (a : amplifier) (p : grid) : list R :=
  let g := ten_to (max_small_signal_gain_dB a / 10) in
  if Rle_dec (Rabs (gain_flatness_dB a)) (ten_to (-12)) then map (fun _ => g) (grid_f p)
  else
    let central := speed_of_light / peak_wl a in
    let lower := speed_of_light / band_upper a in
    let upper := speed_of_light / band_lower a in
    let d := Rmax (central - lower) (upper - central) in
    let beta := d ^ 2 / ln (ten_to (gain_flatness_dB a / 10)) in
    map (fun f => let f := f + central_frequency p - central in g * exp (-1 * f ^ 2 / beta)) (ifft_shift_ (grid_f p)).
(* np.mean(power_(state)) *)
Definition mean_power (state : list C) : R := fold_right Rplus 0 (power_ state) / INR (length state).
(* _gain, lines 492-504 *)
Definition amplifier_gain (a : amplifier) (p : grid) (state : list C) : list R :=
  let P_in := mean_power state in
  map (fun g => g / (1 + real_power (g * P_in / P_out_max a) (alpha a))) (small_signal_gain a p).
(* propagate, lines 454-468 *)
Definition optical_amplifier (a : amplifier) (p : grid) (state : list C) : res (list C) :=
  filter_spectrum p (map (fun g => RtoC (sqrt g)) (amplifier_gain a p state)) state.

(* SquareFilter.propagate, lines 703-723; sharpness = 60, _loss_dB = 0.  A zero
   bandwidth (its lower bound) divides the integer 60 by the Python float 0.0;
   a numpy float instead gives inf and a field of nan, not modelled *)
Definition logistic (x : R) : R := 1 / (1 + exp (- x)).
Definition square_filter (bandwidth : R) (p : grid) (state : list C) : res (list C) :=
  if Req_EM_T bandwidth 0 then Err ZeroDivisionError
  else
    let mask := map (fun f => logistic ((f + bandwidth / 2) * (60 / bandwidth)) * logistic ((- f + bandwidth / 2) * (60 / bandwidth))) (grid_f p) in
    do s <- filter_spectrum p (ifft_shift_ (map RtoC mask)) state;
    Ok (scale (dB_to_amplitude_ratio 0) s).

(* DelayLine.propagate, lines 765-781; _n = 1.444, _loss_dB = -0.0 *)
Definition refractive_index : R := 1444 / 1000.
Definition delay_line (delay : R) (p : grid) (state : list C) : res (list C) :=
  let len := speed_of_light / refractive_index * delay in
  let beta := map (fun f => refractive_index * (2 * PI * (f + central_frequency p)) / speed_of_light) (grid_f p) in
  do s <- filter_spectrum p (map cis (ifft_shift_ (map (fun b => b * len) beta))) state;
  Ok (scale (dB_to_amplitude_ratio (-0)) s).

(* IntegratedDelayLine.propagate, lines 823-839: the parameter is in picoseconds;
   beta2 is computed and not used *)
Definition integrated_delay_line (delay_ps : R) (p : grid) (state : list C) : res (list C) :=
  delay_line (delay_ps * ten_to (-12)) p state.

(* Waveguide.propagate, lines 865-866 *)
Definition waveguide (state : list C) : list C := state.

(* PhaseShifter.propagate, lines 908-925: a scalar times the spectrum *)
Definition phase_shifter (phase : R) (p : grid) (state : list C) : res (list C) :=
  do spectrum <- fft_ state (grid_dt p); ifft_ (map (Cmul (cis phase)) spectrum) (grid_dt p).

(** ** multi_path.py: VariablePowerSplitter *)
(* line 47: range(num_parameters + 1, 1, -1) *)
Definition splitter_defaults (num_parameters : nat) : list R := map (fun i => 1 - 1 / INR (i + 2)) (rev (seq 0 num_parameters)).
Definition product (l : list R) : R := fold_right Rmult 1 l.
(* line 58 *)
Definition splitter_weights (a : list R) : list R := tabulate (length a) (fun n => (1 - nth n a 0) * product (firstn n a)) ++ [product a].
(* lines 61-69: one row of the scattering matrix per output *)
Definition splitter_rows (a : list R) (num_inputs num_outputs : nat) : res (list (list C)) :=
  broadcast (fun w j => tabulate num_inputs (fun i =>
      Cmul (RtoC (sqrt w / sqrt (INR num_outputs))) (cis (- (2 * PI) * (INR i / INR num_inputs + INR j / INR num_outputs)))))
    (splitter_weights a) (seq 0 num_outputs).
(* lines 71-75: np.stack needs at least one array and equal shapes; np.matmul
   needs as many columns as states *)
Definition splitter (a : list R) (num_inputs num_outputs : nat) (states : list (list C)) : res (list (list C)) :=
  do rows <- splitter_rows a num_inputs num_outputs;
  match states with
  | [] => Err ValueError
  | s0 :: _ =>
      if negb (forallb (fun s => Nat.eqb (length s) (length s0)) states) then Err ValueError
      else if negb (Nat.eqb (length states) num_inputs) then Err ValueError
      else Ok (map (fun row => tabulate (length s0) (fun t => csum num_inputs (fun i => Cmul (nth i row C0) (nth t (nth i states []) C0)))) rows)
  end.

(** ** inputs.py *)
(* ContinuousWaveLaser.propagate, lines 110-113 *)
Definition continuous_wave_laser (peak_power : R) (state : list C) : list C := map (fun _ => RtoC (sqrt peak_power)) state.
Inductive pulse_shape := Gaussian | Sech | Delta | OtherShape.
(* PulsedLaser.get_pulse_train, lines 47-60; scipy.signal.unit_impulse(shape) is one in the first entry *)
Definition pulsed_laser (shape : pulse_shape) (pulse_width peak_power t_rep : R) (p : grid) : res (list C) :=
  let unwrapped := map (fun t => asin (sin (PI * t / t_rep)) * t_rep / PI) (grid_t p) in
  let width := pulse_width / (2 * sqrt (ln 2)) in
  match shape with
  | Gaussian => Ok (map (fun t => RtoC (exp (- (1 / 2) * (t / width) ^ 2) * sqrt peak_power)) unwrapped)
  | Sech => Ok (map (fun t => RtoC (1 / cosh (t / width) * sqrt peak_power)) unwrapped)
  | Delta => Ok (tabulate (length (grid_t p)) (fun i => RtoC ((if Nat.eqb i 0 then 1 else 0) * sqrt peak_power)))
  | OtherShape => Err RuntimeError
  end.
(* Impulse.propagate, lines 230-232 *)
Definition impulse (p : grid) (state : list C) : res (list C) :=
  do s <- ifft_ (map (fun _ => C1) state) (grid_dt p); Ok (ifft_shift_ s).

(** ** outputs.py *)
(* MeasurementDevice.propagate, lines 40-41 *)
Definition measurement_device (state : list C) : list R := power_ state.
(* Photodiode.get_photocurrent, lines 128-134 *)
Definition photocurrent (responsivity max_photocurrent : R) (P_in : R) : R :=
  let a := responsivity / max_photocurrent in
  max_photocurrent * a * P_in / Rpower (1 + Rabs (a * P_in) ^ 15) (1 / 15).
