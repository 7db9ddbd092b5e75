(** The simulated graph: the components of ComponentModel.v, DetectorModel.v and
    MoreComponentsModel.v put into Graph.propagate (PropagateModel.v), with the
    parameters they hold in the store (ParamsModel.v).  Definitions only.
    Noise is off (AdditiveNoise.simulate_with_noise = False): then
    add_noise_to_propagation returns its argument
    (/repo/simulator/fiber/assets/additive_noise.py:116-117) and
    get_phase_noise returns zeros (lines 167-168).
    Real numbers instead of floating point numbers, as in ArrayModel.v. *)
From Coq Require Import Reals Qreals List Arith ZArith QArith.
From Verif Require Import Base GraphModel ParamsModel PropagateModel Complex ArrayModel ComponentModel DetectorModel MoreComponentsModel.
Import ListNotations.
Local Open Scope nat_scope.
Local Open Scope R_scope.

(* a parameter used as a number; arithmetic with a string, True or None is here
   always a TypeError (True would count as 1; no numeric parameter is boolean) *)
Definition as_number (v : pval) : res R := match v with Num q => Ok (Q2R q) | Sym _ => Err TypeError end.
Definition real_at (ps : list pval) (i : nat) : res R := do v <- at_ ps i; as_number v.
Definition reals (ps : list pval) : res (list R) := map_res as_number ps.

(* the names of pulse shapes: inputs.py:51-58 *)
Definition laser_shape (v : pval) : pulse_shape :=
  match v with Sym 0 => ComponentModel.Gaussian | Sym 3 => Sech | Sym 4 => Delta | _ => OtherShape end.
(* inputs.py:165-174 *)
Definition signal_shape_of (v : pval) : signal_shape :=
  match v with Sym 0 => SignalGaussian | Sym 3 => SignalSech | Sym 5 => SignalSinc | Sym 6 => SignalChirped | _ => SignalOther end.

(* parameter_names of the amplifier: single_path.py:439 *)
Definition amplifier_of (ps : list pval) : res amplifier :=
  do gain <- real_at ps 0; do wl <- real_at ps 1; do lower <- real_at ps 2; do upper <- real_at ps 3;
  do _ <- real_at ps 4; do out <- real_at ps 5; do flat <- real_at ps 6; do al <- real_at ps 7;
  Ok (mkAmp gain wl lower upper out flat al).
(* parameter_names of the photodiode: outputs.py:109.  Its attributes are set by the
   constructor and the filter is made there; the parameters of a photodiode are
   locked, so they are those of the constructor.  The order of the filter is a number
   without fraction (step 1). *)
Definition photodiode_of (ps : list pval) : res photodiode :=
  do r <- real_at ps 0; do b <- real_at ps 1; do o <- at_ ps 2; do m <- real_at ps 3; do l <- real_at ps 4;
  match o with Num q => Ok (mkPhotodiode r b (trunc q) m l) | Sym _ => Err TypeError end.

(* the propagate method of an edge component: single_path.py, inputs.py, outputs.py,
   terminals.py (lines cited at the functions called).  Splitters need the number of
   inputs and outputs, which propagate of the graph does not hand to edges: TypeError *)
Definition component (c : cls) (ps : list pval) (p : grid) (state : list C) : res (list C) :=
  match c with
  | DispersiveFiber => do len <- real_at ps 0; dispersive_fiber len p state
  | VariableOpticalAttenuator => do a <- real_at ps 0; Ok (attenuator a state)
  | PhaseModulator => do depth <- real_at ps 0; do fr <- real_at ps 1; do shift <- real_at ps 2;
      phase_modulator depth fr shift (repeat 0 (n_samples p)) p state
  | IntensityModulator => do depth <- real_at ps 0; do fr <- real_at ps 1; do bias <- real_at ps 2;
      intensity_modulator depth fr bias p state
  | WaveShaper => do amplitudes <- reals (firstn 15 ps); do phases <- reals (skipn 15 ps); wave_shaper amplitudes phases p state
  | IntegratedSplitAndDelayLine => do ratios <- reals ps; split_and_delay_line ratios p state
  | OpticalAmplifier => do a <- amplifier_of ps; optical_amplifier a p state
  | ProgrammableFilter => do amplitudes <- reals (firstn 10 ps); do phases <- reals (skipn 10 ps); programmable_filter amplitudes phases p state
  | SquareFilter => do w <- real_at ps 0; square_filter w p state
  | DelayLine => do d <- real_at ps 0; delay_line d p state
  | IntegratedDelayLine => do d <- real_at ps 0; integrated_delay_line d p state
  | Waveguide => Ok (waveguide state)
  | PhaseShifter => do ph <- real_at ps 0; phase_shifter ph p state
  | ContinuousWaveLaser => do power <- real_at ps 0; Ok (continuous_wave_laser power state)
  | PulsedLaser => do shape <- at_ ps 0; do width <- real_at ps 1; do power <- real_at ps 2; do rep_t <- real_at ps 3;
      pulsed_laser (laser_shape shape) width power rep_t p
  | NoisySignal => do shape <- at_ ps 0; do width <- real_at ps 1; do power <- real_at ps 2;
      noisy_signal (signal_shape_of shape) width power p
  | Impulse => impulse p state
  | MeasurementDevice => Ok (map RtoC (measurement_device state))
  | ElectricFieldMeasurementDevice => Ok state
  | Photodiode => do d <- photodiode_of ps; photodiode_voltage d p state
  | TerminalSource | TerminalSink => Ok state
  | VariablePowerSplitter | FrequencySplitter => Err TypeError
  end.

(* the propagate method of a node component with the numbers of connections: multi_path.py:53,115,
   terminals.py:41,81.  The other classes do not take that many arguments, except
   the two measurement devices (outputs.py:40,66), whose result is not modelled: nodes
   are splitters and terminals *)
Definition connector (c : cls) (ps : list pval) (p : grid) (states : list (list C)) (num_inputs num_outputs : nat) : res (list (list C)) :=
  match c with
  | VariablePowerSplitter => do a <- reals ps; splitter a num_inputs num_outputs states
  | FrequencySplitter => do a <- reals ps; frequency_splitter a p states
  | TerminalSource | TerminalSink => Ok states
  | _ => Err TypeError
  end.

(* what the components do to fields, given their parameters; nothing else changes *)
Definition optics (st : store) (p : grid) : behaviour (list C) unit :=
  mkBeh (fun c states nin nout u => (u, do ps <- get_params st (cid c); connector (ccls c) ps p states nin nout))
        (fun c state u => (u, do ps <- get_params st (cid c); component (ccls c) ps p state)).

(* one simulation without noise: lib/graph.py:291-326 with the initial state [src] *)
Definition simulate (st : store) (p : grid) (g : graph) (src : list C) (old : saves (list C)) : saves (list C) * res unit :=
  let '(_, sv, r) := propagate (optics st p) g src tt old in (sv, r).
