(** The parameters of component objects: making a component, giving it a list of parameters,
    setting parameters by name, and which values a simulation reads.  Definitions only.
    /repo/lib/base_classes.py:14-80 and the constructors and propagate methods in
    /repo/simulator/fiber/node_types_subclasses.
    Lists of parameters are objects of their own, so that components can share one.
    Simplified: only the values that a simulation reads are modelled, not what is computed from
    them; arithmetic on a value that is not a number is not modelled; update_attributes of the
    splitters is not part of it (see ParamsModel.v). *)
From Coq Require Import List Arith ZArith String.
From Verif Require Import Base GraphModel ParamsModel.
Import ListNotations.
Local Open Scope string_scope.
Local Open Scope list_scope.

(* a parameter name: a text, or a text followed by a number ('amplitude{}'.format(k)) *)
Inductive pname := Text (s : string) | Numbered (s : string) (k : nat).
Definition pname_eqb (a b : pname) : bool :=
  match a, b with
  | Text s, Text t => String.eqb s t
  | Numbered s i, Numbered t j => String.eqb s t && Nat.eqb i j
  | _, _ => false
  end.
Definition numbered (s : string) (n : nat) : list pname := map (Numbered s) (seq 0 n).

(* parameter_names: inputs.py lines 37, 100, 139-140, 222; outputs.py lines 32, 58, 109;
   multi_path.py lines 30, 92; single_path.py lines 43, 102, 152, 215, 270-271, 343, 439, 623-624,
   695, 745, 813, 860, 898; terminals.py lines 28, 68 *)
Definition names_of (c : cls) : list pname :=
  match c with
  | PulsedLaser | NoisySignal => map Text ["pulse_shape"; "pulse_width"; "peak_power"; "t_rep"; "central_wl"; "train"; "FWHM_linewidth"]
  | ContinuousWaveLaser => map Text ["peak_power"; "central_wl"; "osnr_dB"; "FWHM_linewidth"]
  | Photodiode => map Text ["responsivity"; "bandwidth"; "filter_order"; "max_photocurrent"; "load_resistance"; "temp_K"; "dark_current"]
  | DispersiveFiber => map Text ["length"]
  | VariableOpticalAttenuator => map Text ["attenuation"]
  | PhaseModulator => map Text ["depth"; "frequency"; "shift"; "FWHM_linewidth"]
  | IntensityModulator => map Text ["depth"; "frequency"; "bias"; "shift"]
  | WaveShaper => numbered "amplitude" 15 ++ numbered "phase" 15
  | IntegratedSplitAndDelayLine => numbered "coupling_ratio" 8
  | OpticalAmplifier => map Text ["max_small_signal_gain_dB"; "peak_wl"; "band_lower"; "band_upper"; "P_in_max"; "P_out_max"; "gain_flatness_dB"; "alpha"; "max_noise_fig_dB"]
  | ProgrammableFilter => numbered "amplitude" 10 ++ numbered "phase" 10
  | SquareFilter => map Text ["bandwidth"]
  | DelayLine | IntegratedDelayLine => map Text ["delay"]
  | PhaseShifter => map Text ["phase"]
  | Impulse | MeasurementDevice | ElectricFieldMeasurementDevice | VariablePowerSplitter | FrequencySplitter
  | Waveguide | TerminalSource | TerminalSink => []
  end.

(* names.index(n) *)
Fixpoint index_of (n : pname) (names : list pname) : res nat :=
  match names with
  | [] => Err ValueError
  | m :: r => if pname_eqb m n then Ok 0 else do i <- index_of n r; Ok (S i)
  end.
(* l[i] = v, l[i] *)
Definition store_item (l : list pval) (i : nat) (v : pval) : res (list pval) := of_option IndexError (set_nth i v l).
Definition load_item (l : list pval) (i : nat) : res pval := of_option IndexError (nth_error l i).

(* one noise source: its kind and the values from which its strength is computed *)
Record source := mkSrc { src_kind : string; src_values : list pval }.
(* a component: class, list of parameters, attributes '_name' (newest first), noise model, and for
   a photodiode the bandwidth and order its filter was made with *)
Record part := mkPart {
  p_cls : cls;
  p_list : nat;
  p_attrs : list (pname * pval);
  p_noise : option (list source);
  p_filter : option (pval * pval) }.
(* all lists of parameters and all components; lists and components are numbered as they are made *)
Record world := mkW { w_lists : list (list pval); w_parts : list part }.

(* getattr(self, '_' + name) *)
Fixpoint attribute (attrs : list (pname * pval)) (n : pname) : res pval :=
  match attrs with
  | [] => Err AttributeError
  | (m, v) :: r => if pname_eqb m n then Ok v else attribute r n
  end.
(* set_parameters_as_attr, base_classes.py lines 73-77 *)
Fixpoint set_attrs (names : list pname) (values : list pval) (attrs : list (pname * pval)) : list (pname * pval) :=
  match names, values with
  | n :: ns, v :: vs => set_attrs ns vs ((n, v) :: attrs)
  | _, _ => attrs
  end.

(* update_noise_model: inputs.py lines 115-117, outputs.py lines 136-150, single_path.py lines 189-190,
   base_classes.py lines 97-98 (nothing happens).  In outputs.py and inputs.py the second source is
   added after the first one is in place; attributes missing in between do not occur *)
Definition new_noise (c : cls) (attrs : list (pname * pval)) (values : list pval) (old : option (list source)) : res (option (list source)) :=
  match c with
  | ContinuousWaveLaser =>
      do w <- attribute attrs (Text "FWHM_linewidth");
      do o <- attribute attrs (Text "osnr_dB");
      Ok (Some [mkSrc "FWHM linewidth" [w]; mkSrc "osnr" [o]])
  | Photodiode =>
      do t <- attribute attrs (Text "temp_K");
      do b <- attribute attrs (Text "bandwidth");
      do r <- attribute attrs (Text "load_resistance");
      do d <- attribute attrs (Text "dark_current");
      Ok (Some [mkSrc "rms" [t; b; r]; mkSrc "shot" [r; d]])
  | PhaseModulator =>
      do w <- load_item values 3;
      Ok (Some [mkSrc "phase noise from linewidth" [w]])
  | _ => Ok old
  end.

(* parameters_from_name, base_classes.py lines 23-25 and 66-71 *)
Fixpoint write_names (names : list pname) (l : list pval) (d : list (pname * pval)) : res (list pval) :=
  match d with
  | [] => Ok l
  | (n, v) :: r => do i <- index_of n names; do l' <- store_item l i v; write_names names l' r
  end.

(* how a component is made: C(), C(parameters=l), C(parameters_from_name=d) *)
Inductive making := Plain | FromList (a : nat) | FromNames (d : list (pname * pval)).

(* self.parameters = self.default_parameters before the parent's constructor: inputs.py lines 41, 103, 144, 225 *)
Definition attrs_first (c : cls) : bool :=
  match c with PulsedLaser | ContinuousWaveLaser | NoisySignal | Impulse => true | _ => false end.
(* self.set_parameters_as_attr() after it: inputs.py lines 43, 106, 146, 227, outputs.py line 113,
   single_path.py line 452 *)
Definition attrs_last (c : cls) : bool :=
  match c with PulsedLaser | ContinuousWaveLaser | NoisySignal | Impulse | Photodiode | OpticalAmplifier => true | _ => false end.
(* the noise model at the end of the constructor: inputs.py lines 44, 107, 147, outputs.py line 116,
   single_path.py lines 173, 445, base_classes.py line 35 *)
Definition first_noise (c : cls) (attrs : list (pname * pval)) (values : list pval) : res (option (list source)) :=
  match c with
  | PulsedLaser => do w <- attribute attrs (Text "FWHM_linewidth"); Ok (Some [mkSrc "FWHM linewidth" [w]])
  | NoisySignal => Ok (Some [mkSrc "osnr" [dec (-10)%Z 0%Z]])
  | OpticalAmplifier => Ok (Some [mkSrc "edfa ASE" []])
  | ContinuousWaveLaser | Photodiode | PhaseModulator => new_noise c attrs values None
  | _ => Ok None
  end.
(* outputs.py line 115 *)
Definition first_filter (c : cls) (attrs : list (pname * pval)) : res (option (pval * pval)) :=
  match c with
  | Photodiode =>
      do b <- attribute attrs (Text "bandwidth");
      do o <- attribute attrs (Text "filter_order");
      Ok (Some (b, o))
  | _ => Ok None
  end.

Definition list_at (w : world) (a : nat) : res (list pval) := of_option KeyError (nth_error (w_lists w) a).
Definition part_at (w : world) (k : nat) : res part := of_option KeyError (nth_error (w_parts w) k).

(* The constructors.  The list default_parameters of the new component is made in any case.  The
   constructors of terminals (terminals.py lines 13-35, 53-75) call the parent's before they have
   names and then take their own empty list.  A constructor that raises leaves nothing behind but
   that list, which nobody can reach *)
Definition make (w : world) (c : cls) (how : making) : res world :=
  let own := List.length (w_lists w) in
  let defaults := sp_def (spec_of c) in
  let names := names_of c in
  let attrs := if attrs_first c then set_attrs names defaults [] else [] in
  do (a, mine, values) <-
    match c with
    | TerminalSource | TerminalSink =>
        match how with FromNames (_ :: _) => Err AttributeError | _ => Ok (own, defaults, defaults) end
    | _ =>
        match how with
        | Plain => Ok (own, defaults, defaults)
        | FromList a => do l <- list_at w a; Ok (a, defaults, l)
        | FromNames d => do l <- write_names names defaults d; Ok (own, l, l)
        end
    end;
  let attrs := if attrs_last c then set_attrs names values attrs else attrs in
  do f <- first_filter c attrs;
  do n <- first_noise c attrs values;
  Ok (mkW (w_lists w ++ [mine]) (w_parts w ++ [mkPart c a attrs n f])).

Definition put_part (w : world) (k : nat) (p : part) : world :=
  match set_nth k p (w_parts w) with Some ps => mkW (w_lists w) ps | None => w end.
Definition put_list (w : world) (a : nat) (l : list pval) : world :=
  match set_nth a l (w_lists w) with Some ls => mkW ls (w_parts w) | None => w end.

(* model.parameters, base_classes.py lines 38-40 *)
Definition parameters (w : world) (k : nat) : res (list pval) := do p <- part_at w k; list_at w (p_list p).
(* model.parameters = l and model.set_parameters(l), lines 42-49: if update_noise_model raises, the
   list and the attributes are already in place *)
Definition assign (w : world) (k a : nat) : world * res unit :=
  match part_at w k, list_at w a with
  | Ok p, Ok values =>
      let attrs := set_attrs (names_of (p_cls p)) values (p_attrs p) in
      match new_noise (p_cls p) attrs values (p_noise p) with
      | Ok n => (put_part w k (mkPart (p_cls p) a attrs n (p_filter p)), Ok tt)
      | Err e => (put_part w k (mkPart (p_cls p) a attrs (p_noise p) (p_filter p)), Err e)
      end
  | Err e, _ => (w, Err e)
  | _, Err e => (w, Err e)
  end.
(* l[i] = v by whoever has the list, such as lib/graph.py line 572 *)
Definition write (w : world) (a i : nat) (v : pval) : res world :=
  do l <- list_at w a; do l' <- store_item l i v; Ok (put_list w a l').
(* set_parameter_from_name, lines 66-71 *)
Definition set_by_name (w : world) (k : nat) (n : pname) (v : pval) : res world :=
  do p <- part_at w k; do i <- index_of n (names_of (p_cls p)); write w (p_list p) i v.
(* get_parameter_from_name, lines 61-63 *)
Definition get_by_name (w : world) (k : nat) (n : pname) : res pval :=
  do p <- part_at w k; do i <- index_of n (names_of (p_cls p)); do l <- list_at w (p_list p); load_item l i.

(* self.set_parameters_as_attr() in propagate: inputs.py lines 75, 192, single_path.py line 457 *)
Definition attrs_refreshed (c : cls) : bool :=
  match c with PulsedLaser | NoisySignal | OpticalAmplifier => true | _ => false end.
(* what propagate reads of the parameters, in order: inputs.py lines 76-77, 111, 193-194; outputs.py
   lines 42, 69, 118-134; single_path.py lines 61, 109, 176-178, 226-228, 283-284, 357, 454-545,
   649-650, 704, 766, 824, 910; multi_path.py lines 57, 121.  WaveShaper, ProgrammableFilter,
   IntegratedSplitAndDelayLine and the splitters read the list as a whole; what they do with a list
   of another length is not modelled *)
Definition reads (c : cls) (attrs : list (pname * pval)) (values : list pval) : res (list pval) :=
  match c with
  | PulsedLaser | NoisySignal => map_res (attribute attrs) (map Text ["pulse_width"; "t_rep"; "peak_power"; "pulse_shape"])
  | OpticalAmplifier =>
      map_res (attribute attrs) (map Text ["max_small_signal_gain_dB"; "gain_flatness_dB"; "peak_wl"; "band_upper"; "band_lower"; "P_out_max"; "alpha"; "max_noise_fig_dB"])
  | Photodiode => map_res (attribute attrs) (map Text ["responsivity"; "max_photocurrent"; "load_resistance"])
  | ContinuousWaveLaser | DispersiveFiber | VariableOpticalAttenuator | SquareFilter | DelayLine | IntegratedDelayLine | PhaseShifter =>
      map_res (load_item values) [0]
  | PhaseModulator | IntensityModulator => map_res (load_item values) [0; 1; 2]
  | WaveShaper | ProgrammableFilter | IntegratedSplitAndDelayLine | VariablePowerSplitter | FrequencySplitter => Ok values
  | Impulse | MeasurementDevice | ElectricFieldMeasurementDevice | Waveguide | TerminalSource | TerminalSink => Ok []
  end.
(* what a simulation of component k works with: the parameters read by propagate, the filter, the noise *)
Record seen := mkSeen { seen_field : list pval; seen_filter : option (pval * pval); seen_noise : option (list source) }.
(* propagate *)
Definition simulate (w : world) (k : nat) : world * res seen :=
  match part_at w k with
  | Err e => (w, Err e)
  | Ok p =>
      match list_at w (p_list p) with
      | Err e => (w, Err e)
      | Ok values =>
          let attrs := if attrs_refreshed (p_cls p) then set_attrs (names_of (p_cls p)) values (p_attrs p) else p_attrs p in
          let w' := put_part w k (mkPart (p_cls p) (p_list p) attrs (p_noise p) (p_filter p)) in
          (w', do field <- reads (p_cls p) attrs values; Ok (mkSeen field (p_filter p) (p_noise p)))
      end
  end.

(* what a program can do with lists and components; an exception is caught and the program goes on *)
Inductive event :=
| NewList (l : list pval)
| Make (c : cls) (how : making)
| Assign (k a : nat)
| SetByName (k : nat) (n : pname) (v : pval)
| Write (a i : nat) (v : pval)
| Simulate (k : nat).
Definition or_same (w : world) (r : res world) : world := match r with Ok w' => w' | Err _ => w end.
Definition step (w : world) (e : event) : world :=
  match e with
  | NewList l => mkW (w_lists w ++ [l]) (w_parts w)
  | Make c how => or_same w (make w c how)
  | Assign k a => fst (assign w k a)
  | SetByName k n v => or_same w (set_by_name w k n v)
  | Write a i v => or_same w (write w a i v)
  | Simulate k => fst (simulate w k)
  end.
Definition run (h : list event) : world := fold_left step h (mkW [] []).
