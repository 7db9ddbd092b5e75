(** What the settings of components mean: which values belong to which names, and at which moment
    of a program a component got its list of parameters.  Definitions only. *)
From Coq Require Import List Arith ZArith String.
From Verif Require Import Base GraphModel ParamsModel SettingsModel.
Import ListNotations.
Local Open Scope nat_scope.
Local Open Scope string_scope.
Local Open Scope list_scope.

(* the value that stands where the name stands *)
Fixpoint value_at (names : list pname) (values : list pval) (n : pname) : option pval :=
  match names, values with
  | m :: ms, v :: vs => if pname_eqb m n then Some v else value_at ms vs n
  | _, _ => None
  end.

(* the names of the parameters that shape the field, in the order in which they are read *)
Definition uses (c : cls) : list pname :=
  match c with
  | PulsedLaser | NoisySignal => map Text ["pulse_width"; "t_rep"; "peak_power"; "pulse_shape"]
  | ContinuousWaveLaser => [Text "peak_power"]
  | OpticalAmplifier => map Text ["max_small_signal_gain_dB"; "gain_flatness_dB"; "peak_wl"; "band_upper"; "band_lower"; "P_out_max"; "alpha"; "max_noise_fig_dB"]
  | Photodiode => map Text ["responsivity"; "max_photocurrent"; "load_resistance"]
  | PhaseModulator => map Text ["depth"; "frequency"; "shift"]
  | IntensityModulator => map Text ["depth"; "frequency"; "bias"]
  | _ => names_of c
  end.
(* the field is shaped by these values of the parameters *)
Definition shaped_by (c : cls) (values : list pval) (field : list pval) : Prop :=
  map Some field = map (value_at (names_of c) values) (uses c).

(* the noise sources and the names of the parameters that set their strength *)
Definition noise_names (c : cls) : list (string * list pname) :=
  match c with
  | ContinuousWaveLaser => [("FWHM linewidth", [Text "FWHM_linewidth"]); ("osnr", [Text "osnr_dB"])]
  | PulsedLaser => [("FWHM linewidth", [Text "FWHM_linewidth"])]
  | PhaseModulator => [("phase noise from linewidth", [Text "FWHM_linewidth"])]
  | Photodiode => [("rms", map Text ["temp_K"; "bandwidth"; "load_resistance"]); ("shot", map Text ["load_resistance"; "dark_current"])]
  | _ => []
  end.
Definition noisy_by (c : cls) (values : list pval) (noise : option (list source)) : Prop :=
  exists sources, noise = Some sources /\
    map (fun s => (src_kind s, map Some (src_values s))) sources =
    map (fun e => (fst e, map (value_at (names_of c) values) (snd e))) (noise_names c).

(* the event gives component k a list of parameters *)
Definition gives (w : world) (e : event) (k : nat) : Prop :=
  match e with
  | Make _ _ => k = List.length (w_parts w)
  | Assign j _ => k = j
  | _ => False
  end.
(* h0 is the program up to the moment at which component k last got a list *)
Definition last_given (h : list event) (k : nat) (h0 : list event) : Prop :=
  exists early e late, h0 = early ++ [e] /\ h = h0 ++ late /\ gives (run early) e k /\
    k < List.length (w_parts (run h0)) /\
    forall mid e' rest, late = mid ++ e' :: rest -> ~ gives (run (h0 ++ mid)) e' k.
(* h0 is the program up to the moment at which component k is made *)
Definition made (h : list event) (k : nat) (h0 : list event) : Prop :=
  exists early c how late, h0 = early ++ [Make c how] /\ h = h0 ++ late /\
    k = List.length (w_parts (run early)) /\ k < List.length (w_parts (run h0)).

(* lists given to components have one entry for every name *)
Definition fits (w : world) (e : event) : Prop :=
  match e with
  | Make c (FromList a) => exists l, nth_error (w_lists w) a = Some l /\ List.length l = List.length (names_of c)
  | Assign k a => exists p l, nth_error (w_parts w) k = Some p /\ nth_error (w_lists w) a = Some l /\ List.length l = List.length (names_of (p_cls p))
  | _ => True
  end.
Definition fitting (h : list event) : Prop := forall early e late, h = early ++ e :: late -> fits (run early) e.

(* how many entries a list must have for the component to be made with it, and to be simulated *)
Definition needed_to_make (c : cls) : nat := match c with Photodiode => 7 | PhaseModulator => 4 | _ => 0 end.
Definition needed_to_simulate (c : cls) : nat :=
  match c with
  | Photodiode => 7 | PhaseModulator => 4 | OpticalAmplifier => 9 | IntensityModulator => 3
  | ContinuousWaveLaser | DispersiveFiber | VariableOpticalAttenuator | SquareFilter | DelayLine | IntegratedDelayLine | PhaseShifter => 1
  | _ => 0
  end.
(* the error for a list that is too short: values are looked up as attributes or as entries of the list *)
Definition shortage (c : cls) : exn := match c with Photodiode | OpticalAmplifier => AttributeError | _ => IndexError end.
(* components that use the list of parameters as a whole, and terminals *)
Definition takes_whole_list (c : cls) : Prop :=
  match c with
  | WaveShaper | ProgrammableFilter | IntegratedSplitAndDelayLine | VariablePowerSplitter | FrequencySplitter | TerminalSource | TerminalSink => True
  | _ => False
  end.
Definition terminal (c : cls) : Prop := match c with TerminalSource | TerminalSink => True | _ => False end.
(* the entry of the list, or the default where the list is too short *)
Definition entry_or_default (c : cls) (values : list pval) (n : pname) : option pval :=
  match value_at (names_of c) values n with Some v => Some v | None => value_at (names_of c) (sp_def (spec_of c)) n end.
(* a program that never hands a list of parameters to a component *)
Definition own_lists (h : list event) : Prop :=
  forall e, In e h -> match e with Make _ (FromList _) | Assign _ _ => False | _ => True end.

(* the values of the named parameters of a component that is made without arguments *)
Definition new_values (c : cls) : list (pname * pval) :=
  match c with
  | PulsedLaser | NoisySignal =>
      [(Text "pulse_shape", sGauss); (Text "pulse_width", dec 100 (-12)); (Text "peak_power", dec 1 0); (Text "t_rep", dec 10 (-9));
       (Text "central_wl", dec 156 (-8)); (Text "train", sTrue); (Text "FWHM_linewidth", dec 1 3)]
  | ContinuousWaveLaser => [(Text "FWHM_linewidth", dec 1 2); (Text "osnr_dB", dec 55 0); (Text "central_wl", dec 155 (-8)); (Text "peak_power", dec 4 (-2))]
  | Photodiode =>
      [(Text "responsivity", dec 5 (-1)); (Text "bandwidth", dec 100 9); (Text "filter_order", dec 2 0); (Text "max_photocurrent", dec 3 (-3));
       (Text "load_resistance", dec 50 0); (Text "temp_K", dec 293 0); (Text "dark_current", dec 5 (-9))]
  | DispersiveFiber => [(Text "length", dec 1 0)]
  | VariableOpticalAttenuator => [(Text "attenuation", dec 0 0)]
  | PhaseModulator => [(Text "depth", dec 1 0); (Text "frequency", dec 12 9); (Text "shift", dec 2 (-2)); (Text "FWHM_linewidth", dec 0 0)]
  | IntensityModulator => [(Text "depth", dec 1 0); (Text "frequency", dec 1 9); (Text "bias", dec 0 0); (Text "shift", dec 0 0)]
  | OpticalAmplifier =>
      [(Text "max_small_signal_gain_dB", dec 30 0); (Text "peak_wl", dec 1550 (-9)); (Text "band_lower", dec 1520 (-9)); (Text "band_upper", dec 1565 (-9));
       (Text "P_in_max", dec 1 (-2)); (Text "P_out_max", dec 1 (-1)); (Text "gain_flatness_dB", dec 15 (-1)); (Text "alpha", dec 1 0); (Text "max_noise_fig_dB", dec 5 0)]
  | SquareFilter => [(Text "bandwidth", dec 5 12)]
  | DelayLine => [(Text "delay", dec 1 (-9))]
  | IntegratedDelayLine => [(Text "delay", dec 1 0)]
  | PhaseShifter => [(Text "phase", half_pi 1)]
  | WaveShaper => map (fun i => (Numbered "amplitude" i, dec 1 0)) (seq 0 15) ++ map (fun i => (Numbered "phase" i, dec 1 (-1))) (seq 0 15)
  | ProgrammableFilter => map (fun i => (Numbered "amplitude" i, dec 1 0)) (seq 0 10) ++ map (fun i => (Numbered "phase" i, dec 0 0)) (seq 0 10)
  | IntegratedSplitAndDelayLine => map (fun i => (Numbered "coupling_ratio" i, dec 1 (-1))) (seq 0 8)
  | _ => []
  end.
