(** The sensitivity panel of the interactive viewer: update_graph_hessian_data of
    interactive/model.py:252-261, graph_hessian_data and graph_lha_data of interactive/controller.py:70-89,
    add_hessian_matrix and add_lha_eigenvectors of interactive/view.py:199-242.  Definitions only; numbers
    are real numbers.  The calls of the three methods are commented out (model.py:126, view.py:340-341), so
    what is modelled is what they do when they are called. *)
From Coq Require Import Reals List Arith Bool ZArith String DecimalString DecimalNat.
From Verif Require Import Base GraphModel ParamsModel Complex ArrayModel ViewerModel.
Import ListNotations.
Local Open Scope string_scope.
Local Open Scope list_scope.

(* '...{}'.format(i) and f'...{i}' for i in range(n) *)
Definition counted (p : string) (n : nat) : list string := map (fun i => append p (NilEmpty.string_of_uint (Nat.to_uint i))) (seq 0 n).
(* parameter_names: inputs.py lines 37, 100, 139, 222; outputs.py lines 32, 58, 109; multi_path.py lines 46,
   108 (n is the number of locks, which are made together with the names); single_path.py lines 43, 102, 152,
   215, 270, 343, 439, 623, 695, 745, 813, 860, 898; terminals.py lines 28, 68 *)
Definition parameter_names (c : cls) (n : nat) : list string :=
  match c with
  | PulsedLaser | NoisySignal => ["pulse_shape"; "pulse_width"; "peak_power"; "t_rep"; "central_wl"; "train"; "FWHM_linewidth"]
  | ContinuousWaveLaser => ["peak_power"; "central_wl"; "osnr_dB"; "FWHM_linewidth"]
  | Photodiode => ["responsivity"; "bandwidth"; "filter_order"; "max_photocurrent"; "load_resistance"; "temp_K"; "dark_current"]
  | VariablePowerSplitter | FrequencySplitter => counted "ratio-" n
  | DispersiveFiber => ["length"]
  | VariableOpticalAttenuator => ["attenuation"]
  | PhaseModulator => ["depth"; "frequency"; "shift"; "FWHM_linewidth"]
  | IntensityModulator => ["depth"; "frequency"; "bias"; "shift"]
  | WaveShaper => counted "amplitude" 15 ++ counted "phase" 15
  | IntegratedSplitAndDelayLine => counted "coupling_ratio" 8
  | OpticalAmplifier => ["max_small_signal_gain_dB"; "peak_wl"; "band_lower"; "band_upper"; "P_in_max"; "P_out_max"; "gain_flatness_dB"; "alpha"; "max_noise_fig_dB"]
  | ProgrammableFilter => counted "amplitude" 10 ++ counted "phase" 10
  | SquareFilter => ["bandwidth"]
  | DelayLine | IntegratedDelayLine => ["delay"]
  | PhaseShifter => ["phase"]
  | Impulse | MeasurementDevice | ElectricFieldMeasurementDevice | Waveguide | TerminalSource | TerminalSink => []
  end.

(* extract_attributes_to_list_experimental of 'parameter_names' and 'components_name_numbers',
   lib/graph.py:539-544, and the text of model.py:255; that list of numbers is model.py:109 *)
Fixpoint free_texts (names numbers : list string) (locks : list bool) (i : nat) : res (list string) :=
  match locks with
  | [] => Ok []
  | true :: r => free_texts names numbers r (S i)
  | false :: r => do p <- at_ names i; do c <- at_ numbers i; do t <- free_texts names numbers r (S i); Ok (append p (append "-" c) :: t)
  end.
Definition component_texts (s : store) (q : (comp * place) * string) : res (list string) :=
  do o <- get_obj s (cid (fst (fst q)));
  if o_lock o then Ok []
  else free_texts (parameter_names (ccls (fst (fst q))) (List.length (o_locks o))) (repeat (snd q) (Z.to_nat (o_num o))) (o_locks o) 0.
Definition labels (g : graph) (s : store) : res (list string) :=
  do ls <- map_res (component_texts s) (combine (get_models g) (component_names g)); Ok (List.concat ls).

(* np.meshgrid(a, b): one row for each entry of b *)
Definition mesh_x {A B} (a : list A) (b : list B) : list (list A) := map (fun _ => a) b.
Definition mesh_y {A B} (a : list A) (b : list B) : list (list B) := map (fun y => map (fun _ => y) a) b.

(* model.py:252-261; hess is the function of initialize_func_grad_hess *)
Record hessian_data := mkHess { d_hess : list (list R); d_xname : list (list string); d_yname : list (list string) }.
Definition update_hessian_data (hess : list pval -> res (list (list R))) (g : graph) (s : store) : res hessian_data :=
  do x <- extract g s;
  do t <- labels g s;
  do h <- hess (x_params x);
  Ok (mkHess h (mesh_x t t) (mesh_y t t)).

(* controller.py:70-82; the height of a square and its column count from 0.  None is the array of ones
   that stands there before the first update (model.py:77), which has no entry 'hess' *)
Record heatmap := mkHeat { m_x : list nat; m_y : list nat; m_value : list R; m_log : list R; m_xname : list string; m_yname : list string }.
Definition width (h : list (list R)) : nat := match h with [] => 0 | r :: _ => List.length r end.
Definition heatmap_of (d : option hessian_data) : res heatmap :=
  match d with
  | None => Err IndexError
  | Some d =>
      let h := d_hess d in
      let i := seq 0 (List.length h) in
      let j := rev (seq 0 (width h)) in
      Ok (mkHeat (List.concat (mesh_x i j)) (List.concat (mesh_y i j)) (List.concat h)
            (map (fun v => 1 + Rabs v)%R (List.concat h)) (List.concat (d_xname d)) (List.concat (d_yname d)))
  end.
(* controller.py:84-89 *)
Definition lha_of (eig : list (list R) -> res (list C * list (list C))) (d : option hessian_data) : res (list C * list (list C)) :=
  match d with None => Err IndexError | Some d => eig (d_hess d) end.

(* view.py:199-237.  The colour of vector i is that of the colour map at i / n, given by [cmap]; its
   rounding to whole numbers (lines 200-203) is left out *)
Record bar (K : Type) := mkBar { r_x : nat; r_bottom : R; r_top : C; r_weight : C; r_value : C; r_color : K }.
Arguments mkBar {K}. Arguments r_x {K}. Arguments r_bottom {K}. Arguments r_top {K}. Arguments r_weight {K}. Arguments r_value {K}. Arguments r_color {K}.
Record box := mkBox { x_bottom : R; x_top : R; x_value : C }.
Record eigen_plot (K : Type) := mkPlot {
  e_bars : list (bar K);
  e_names : list string;       (* the column parameter_name, one entry for each bar *)
  e_boxes : list box;
  e_xrange : R * R;
  e_yrange : R * R }.
Arguments mkPlot {K}. Arguments e_bars {K}. Arguments e_names {K}. Arguments e_boxes {K}. Arguments e_xrange {K}. Arguments e_yrange {K}.
Definition bars_of {K} (cmap : R -> K) (n : nat) (vectors : list (list C)) (p : nat * C) : res (list (bar K)) :=
  let (i, value) := p in
  let base := (2 * INR i)%R in
  do v <- map_res (fun row => at_ row i) vectors;
  Ok (map (fun q => mkBar (fst q) base (Cadd (RtoC base) (snd q)) (snd q) value (cmap (INR i / INR n)%R)) (combine (seq 0 (List.length v)) v)).
Definition add_lha_eigenvectors {K} (cmap : R -> K) (eig : list (list R) -> res (list C * list (list C))) (d : option hessian_data) : res (eigen_plot K) :=
  do e <- lha_of eig d;
  let (values, vectors) := e in
  do m <- heatmap_of d;
  let n := List.length values in
  let ivs := combine (seq 0 n) values in
  do bs <- map_res (bars_of cmap n vectors) ivs;
  Ok (mkPlot (List.concat bs) (m_xname m)
        (map (fun p => mkBox (2 * INR (fst p) - 95 / 100) (2 * INR (fst p) + 95 / 100) (snd p)) ivs)
        ((-3)%R, (INR n + 1)%R) ((-1)%R, (INR n + 2)%R)).
