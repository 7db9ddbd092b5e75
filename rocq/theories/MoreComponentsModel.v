(** The components of the simulator that ComponentModel.v and DetectorModel.v
    leave out: programmable filter, split-and-delay line, frequency splitter and
    noisy signal.  Definitions only.
    /repo/simulator/fiber/node_types_subclasses/{single_path,multi_path,inputs}.py.
    Real numbers instead of floating point numbers, as in ArrayModel.v; the
    save_transforms branches are in TransformModel.v. *)
From Coq Require Import Reals List Arith ZArith.
From Verif Require Import Base Complex ArrayModel ComponentModel.
Import ListNotations.
Local Open Scope R_scope.

(** ** single_path.py: ProgrammableFilter *)

(* bernstein, lines 635-638, for one entry of the array *)
Definition bernstein (t : R) (i n : nat) : R := INR (fact n) / (INR (fact i) * INR (fact (n - i))) * t ^ i * (1 - t) ^ (n - i).
(* get_waveform, lines 640-644, for one entry *)
Definition get_waveform (t : R) (coeffs : list R) : R :=
  fold_left (fun y m => y + nth m coeffs 0 * bernstein t m (length coeffs - 1)) (seq 0 (length coeffs)) 0.

(* int(round(x)): to the nearest whole number, halves to the even one *)
Definition round_even (x : R) : Z :=
  let f := Int_part x in
  if Rlt_dec (x - IZR f) (/ 2) then f
  else if Rlt_dec (/ 2) (x - IZR f) then (f + 1)%Z
  else if Z.even f then f else (f + 1)%Z.

Definition band_width : R := 5 * 10 ^ 12.
(* line 652 *)
Definition band_half (p : grid) : Z := round_even (band_width / 2 / grid_df p).
(* lines 657-659.  With band_half = 0 the division gives inf and nan; no theorem
   covers this. *)
Definition band_positions (p : grid) : list R :=
  map (fun x => x / (2 * IZR (band_half p)) + 1)
    (linspace (- INR (n_samples p) / 2 - IZR (band_half p)) (INR (n_samples p) / 2 - IZR (band_half p)) (n_samples p)).
(* propagate, lines 646-672: amplitudes and phases are the two slices of the parameters *)
Definition programmable_filter (amplitudes phases : list R) (p : grid) (state : list C) : res (list C) :=
  let band := map (fun f => if Rle_dec (Rabs f) (band_width / 2) then 1 else 0) (grid_f p) in
  do amplitude_mask <- broadcast Rmult (map (fun t => get_waveform t amplitudes) (band_positions p)) band;
  do phase_mask <- broadcast Rmult (map (fun t => get_waveform t phases) (band_positions p)) band;
  do mask <- broadcast (fun a ph => Cmul (RtoC a) (cis ph)) amplitude_mask phase_mask;
  do s <- filter_spectrum p (ifft_shift_ mask) state;
  Ok (scale (dB_to_amplitude_ratio (- (45 / 10))) s).

(** ** single_path.py: IntegratedSplitAndDelayLine (not registered) *)

(* line 347 *)
Definition stage_delay (k : nat) : R := 2 ^ k * ten_to (-12).
(* lines 365-376: one coupler and delay on the two spectra *)
Definition split_stage (p : grid) (ratio delay : R) (fields : list C * list C) : res (list C * list C) :=
  let (short, long) := fields in
  let len := speed_of_light / refractive_index * delay in
  let beta := map (fun f => refractive_index * (2 * PI * (f + central_frequency p)) / speed_of_light) (grid_f p) in
  let short_coupling := RtoC (cos (PI / 2 * ratio)) in
  let long_coupling := Cmul Ci (RtoC (sin (PI / 2 * ratio))) in
  do new_short <- broadcast Cadd (map (Cmul short_coupling) short) (map (Cmul long_coupling) long);
  do mixed <- broadcast Cadd (map (Cmul long_coupling) short) (map (Cmul short_coupling) long);
  do new_long <- broadcast Cmul (map cis (ifft_shift_ (map (fun b => b * len) beta))) mixed;
  Ok (new_short, new_long).
Fixpoint split_stages (p : grid) (k : nat) (ratios : list R) (fields : list C * list C) : res (list C * list C) :=
  match ratios with
  | [] => Ok fields
  | ratio :: r => do fields <- split_stage p ratio (stage_delay k) fields; split_stages p (S k) r fields
  end.
(* propagate, lines 356-391, with _loss_dB = 1.0 (line 349); there are eight delays,
   the loop stops at the shorter list *)
Definition split_and_delay_line (ratios : list R) (p : grid) (state : list C) : res (list C) :=
  do spectrum <- fft_ state (grid_dt p);
  do fields <- split_stages p 0 (firstn 8 ratios) (spectrum, map (fun _ => C0) spectrum);
  do s <- ifft_ (fst fields) (grid_dt p);
  Ok (scale (dB_to_amplitude_ratio 1) s).

(** ** multi_path.py: FrequencySplitter (not registered) *)

(* line 119: np.stack needs at least one array and equal shapes *)
Definition sum_states (states : list (list C)) : res (list C) :=
  match states with
  | [] => Err ValueError
  | s0 :: _ =>
      if negb (forallb (fun s => Nat.eqb (length s) (length s0)) states) then Err ValueError
      else Ok (tabulate (length s0) (fun t => csum (length states) (fun i => nth t (nth i states []) C0)))
  end.
(* lines 122-123: g has length len(a) + 2, w the sums of its beginnings and a final 1 *)
Definition cutoffs (a : list R) : list R :=
  let g := 0 :: splitter_weights a in
  map (fun n => fold_right Rplus 0 (firstn n g)) (seq 1 (length g - 1)) ++ [1].
(* lines 130-131, for one entry *)
Definition band_mask (left_cutoff right_cutoff x : R) : R := logistic (500 * (x - left_cutoff)) * logistic (- (500 * (x - right_cutoff))).
(* propagate, lines 115-133 *)
Definition frequency_splitter (a : list R) (p : grid) (states : list (list C)) : res (list (list C)) :=
  do state <- sum_states states;
  let w := cutoffs a in
  map_res (fun c => filter_spectrum p (ifft_shift_ (map (fun x => RtoC (band_mask (fst c) (snd c) x)) (linspace 0 1 (n_samples p)))) state)
    (combine w (tl w)).

(** ** inputs.py: NoisySignal *)

(* np.sinc *)
Definition sinc (x : R) : R := if Req_EM_T x 0 then 1 else sin (PI * x) / (PI * x).
Inductive signal_shape := SignalGaussian | SignalSech | SignalSinc | SignalChirped | SignalOther.
(* get_pulse_train, lines 160-177, called by propagate, lines 191-199; the repetition time is not used *)
Definition noisy_signal (shape : signal_shape) (pulse_width peak_power : R) (p : grid) : res (list C) :=
  let width := pulse_width / (2 * sqrt (ln 2)) in
  match shape with
  | SignalGaussian => Ok (map (fun t => RtoC (exp (- (1 / 2) * (t / width) ^ 2) * sqrt peak_power)) (grid_t p))
  | SignalSech => Ok (map (fun t => RtoC (1 / cosh (t / width) * sqrt peak_power)) (grid_t p))
  | SignalSinc => Ok (map (fun t => RtoC (sinc (t / width) * sqrt peak_power)) (grid_t p))
  | SignalChirped => Ok (map (fun t => Cmul (Cmul (RtoC (sinc (t / width))) (cis (2 * PI * 1 * (t / width) ^ 2))) (RtoC (sqrt peak_power))) (grid_t p))
  | SignalOther => Err RuntimeError
  end.
