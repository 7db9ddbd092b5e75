(** Model of what the interactive viewer shows of a loaded graph: interactive/model.py:96-110,
    148-235 and interactive/controller.py:38-44, interactive/view.py (selection).  Definitions only.

    The graph is the one that build_from_minimal_graph_info returned (SaveModel.v); node labels
    are numbers already, so nx.convert_node_labels_to_integers (line 96, which keeps the order of
    nodes and edges and the keys) is left out.  Coordinates are exact real numbers. *)
From Coq Require Import List Arith Bool ZArith QArith Reals Qreals String DecimalString DecimalNat.
From Verif Require Import Base GraphModel ParamsModel OpticsModel LayoutModel TransformModel.
Import ListNotations.
Local Open Scope nat_scope.

(* ** Names, interactive/model.py:98-110 *)
(* node_acronym: simulator/fiber/node_types_subclasses/inputs.py:21,85,124,207; outputs.py:20,46,91;
   multi_path.py:17,80; terminals.py:15,55;
   single_path.py:27,87,123,197,252,328,415,603,677,730,788,846,878 *)
Definition acronym (c : cls) : string :=
  match c with
  | PulsedLaser => "PL" | ContinuousWaveLaser => "CW" | NoisySignal => "NS" | Impulse => "IMP"
  | MeasurementDevice => "MD" | ElectricFieldMeasurementDevice => "AMD" | Photodiode => "PD"
  | VariablePowerSplitter => "BS" | FrequencySplitter => "FS"
  | DispersiveFiber => "DF" | VariableOpticalAttenuator => "VOA" | PhaseModulator => "PM" | IntensityModulator => "IM"
  | WaveShaper => "WS" | IntegratedSplitAndDelayLine => "SDL" | OpticalAmplifier => "EDFA" | ProgrammableFilter => "PF"
  | SquareFilter => "SF" | DelayLine => "DL" | IntegratedDelayLine => "DL" | Waveguide => "WG" | PhaseShifter => "PS"
  | TerminalSource => "SRC" | TerminalSink => "SNK"
  end%string.
(* line 110: the decimal digits of the count after the acronym *)
Definition show (c : cls) (n : nat) : string := (acronym c ++ NilEmpty.string_of_uint (Nat.to_uint n))%string.
(* lines 99-110; [counts c] is the number of components of type c met so far (the dictionary
   model_type_counts holds that number minus one, and no entry where it is 0) *)
Fixpoint number_components (counts : cls -> nat) (cs : list cls) : list string :=
  match cs with
  | [] => []
  | c :: r => show c (counts c) :: number_components (fun d => if cls_eqb d c then S (counts d) else counts d) r
  end.
Definition component_names (g : graph) : list string :=
  number_components (fun _ => 0) (map (fun p => ccls (n_model (snd p))) (g_nodes g) ++ map (fun e => ccls (e_model (e_dat e))) (edges_view g)).
(* line 167 and line 155: names of the nodes and of the connections *)
Definition node_names (g : graph) : list string := firstn (List.length (g_nodes g)) (component_names g).
Definition edge_names (g : graph) : list string := skipn (List.length (g_nodes g)) (component_names g).

(* ** Layout and curves, interactive/model.py:217-250 *)
Definition layout := list (node * (R * R)).
Definition start_layout (pos : positions) : layout := map (fun p => (fst p, (INR (fst (snd p)), Q2R (snd (snd p))))) pos.

(* lines 229-232: min and max of a list; ValueError when it is empty *)
Definition list_min (l : list R) : res R := match l with [] => Err ValueError | x :: r => Ok (fold_left Rmin r x) end.
Definition list_max (l : list R) : res R := match l with [] => Err ValueError | x :: r => Ok (fold_left Rmax r x) end.
(* lines 234-235; x and y are Python floats, so dividing by 0 raises *)
Definition rescale (lo hi v : R) : res R :=
  if Req_EM_T (hi - lo) 0 then Err ZeroDivisionError else Ok (((v - lo) / (hi - lo) - / 2) * 2)%R.
(* lines 229-236 *)
Definition normalise (l : layout) : res layout :=
  do xmin <- list_min (map (fun p => fst (snd p)) l);
  do xmax <- list_max (map (fun p => fst (snd p)) l);
  do ymin <- list_min (map (fun p => snd (snd p)) l);
  do ymax <- list_max (map (fun p => snd (snd p)) l);
  map_res (fun p => do x <- rescale xmin xmax (fst (snd p)); do y <- rescale ymin ymax (snd (snd p)); Ok (fst p, (x, y))) l.

Local Open Scope R_scope.
(* line 225, one point *)
Definition bezier_at (a b c1 c2 s : R) : R := (1 - s) ^ 3 * a + 3 * (1 - s) ^ 2 * s * c1 + 3 * (1 - s) * s ^ 2 * c2 + s ^ 3 * b.
Definition bezier (a b c1 c2 : R) (steps : list R) : list R := map (bezier_at a b c1 c2) steps.
(* line 239 *)
Definition curve_steps : list R := map (fun i => INR i / 100) (seq 0 100).
(* line 241 *)
Definition number_of_edges (g : graph) (u v : node) : nat := List.length (filter (fun e => Nat.eqb (e_src e) u && Nat.eqb (e_dst e) v) (g_edges g)).
(* lines 242-249 *)
Definition curve (g : graph) (l : layout) (e : edge) : res (list R * list R) :=
  do u <- of_option KeyError (assoc (e_src e) l);
  do v <- of_option KeyError (assoc (e_dst e) l);
  let n := number_of_edges g (e_src e) (e_dst e) in
  let c := fst u + (fst v - fst u) / (INR n + 1) * (1 + INR (e_key e)) in
  Ok (bezier (fst u) (fst v) c c curve_steps, bezier (snd u) (snd v) (snd u) (snd v) curve_steps).
Local Close Scope R_scope.

(* ** Table, interactive/model.py:175-188 and interactive/controller.py:38-44 *)
(* len(parameter_names) of the classes a connection can have: inputs.py:37,100,139,222; outputs.py:32,58,109;
   single_path.py:43,102,152,215,270-271,343,439,623-624,695,745,813,860,898 *)
Definition names_given (c : cls) : nat :=
  match c with
  | PulsedLaser => 7 | ContinuousWaveLaser => 4 | NoisySignal => 7 | Impulse => 0
  | MeasurementDevice => 0 | ElectricFieldMeasurementDevice => 0 | Photodiode => 7
  | VariablePowerSplitter => 0 | FrequencySplitter => 0
  | DispersiveFiber => 1 | VariableOpticalAttenuator => 1 | PhaseModulator => 4 | IntensityModulator => 4
  | WaveShaper => 15 + 15 | IntegratedSplitAndDelayLine => 8 | OpticalAmplifier => 9 | ProgrammableFilter => 10 + 10
  | SquareFilter => 1 | DelayLine => 1 | IntegratedDelayLine => 1 | Waveguide => 0 | PhaseShifter => 1
  | TerminalSource => 0 | TerminalSink => 0
  end.
(* one entry of table_edge_data; the i-th parameter name of a class is written (class, i) *)
Record entry := mkEntry { t_parameters : list pval; t_names : list (cls * nat); t_model : list string }.
(* lines 177-185; line 109 for the third column *)
Definition table_entry (st : store) (e : edge) (name : string) : res entry :=
  let m := e_model (e_dat e) in
  do ps <- get_params st (cid m);
  Ok (mkEntry ps (map (fun i => (ccls m, i)) (seq 0 (names_given (ccls m)))) (repeat name (Z.to_nat (sp_num (spec_of (ccls m)))))).
Definition table_edge_data (st : store) (g : graph) : res (list entry) :=
  map_res (fun p => table_entry st (fst p) (snd p)) (combine (edges_view g) (edge_names g)).
(* controller.py:38-44 *)
Definition update_table_data (table : list entry) (indices : list nat) : res entry :=
  fold_res (fun t i => do e <- of_option KeyError (nth_error table i);
              Ok (mkEntry (t_parameters t ++ t_parameters e) (t_names t ++ t_names e) (t_model t ++ t_model e))) indices (mkEntry [] [] []).

(* ** Loading, interactive/model.py:128-139; the random letters of line 166 are not shown and left out *)
Record shown := mkShown {
  v_layout : layout;
  v_curves : list (list R * list R);
  v_nodes : list (node * string);
  v_edges : list (node * node * string);
  v_table : list entry }.
Definition load_view (enum : list node -> list node) (rand : nat -> Q) (fuel : nat) (st : store) (g : graph) : res shown :=
  do pos <- optical_system_layout enum rand g fuel;
  do l <- normalise (start_layout pos);
  do cs <- map_res (curve g l) (edges_view g);
  do t <- table_edge_data st g;
  Ok (mkShown l cs (combine (map fst (g_nodes g)) (node_names g))
        (combine (map (fun e => (e_src e, e_dst e)) (edges_view g)) (edge_names g)) t).

(* lines 207-213: the curves in the two transform panels of one connection *)
Definition transform_panels (T : transforms) (e : edge) : list (list R) * list (list R) :=
  match T (cid (e_model (e_dat e))) with
  | None => ([], [])
  | Some l => (map snd (filter (fun r => match fst r with InTime => true | InFrequency => false end) l),
               map snd (filter (fun r => match fst r with InTime => false | InFrequency => true end) l))
  end.

(* ** Selecting connections, interactive/view.py:272-324, 330-346.
   Only which line is drawn and visible is kept of the plots; every connection has one line
   in each of the two propagation plots, and they are always treated alike *)
Record panel := mkPanel {
  p_lines : list nat;        (* connections with lines *)
  p_visible : list nat;      (* connections with visible lines *)
  p_selected : list nat;     (* the selection of the graph renderer *)
  p_table : list entry;      (* table_edge_data *)
  p_rows : entry }.          (* the table shown *)
Definition start_panel : panel := mkPanel [] [] [] [] (mkEntry [] [] []).
Inductive event :=
| Loads (table : list entry)   (* button_callback with a graph that loads *)
| LoadFails                    (* button_callback that raises in load_new_graph *)
| Selects (new : list nat).    (* edge_selected_callback *)
Definition step (s : panel) (e : event) : panel :=
  match e with
  | Loads t => mkPanel (seq 0 (List.length t)) [] (p_selected s) t (p_rows s)
  | LoadFails => mkPanel [] [] (p_selected s) (p_table s) (p_rows s)
  | Selects new =>
      match update_table_data (p_table s) new with
      | Err _ => mkPanel (p_lines s) (p_visible s) new (p_table s) (mkEntry [] [] [])
      | Ok rows =>
          let shown := filter (fun i => mem i (p_lines s)) new ++ p_visible s in
          let hidden := filter (fun i => negb (mem i new)) (p_selected s) in
          mkPanel (p_lines s) (filter (fun i => negb (mem i hidden)) shown) new (p_table s) rows
      end
  end.
Definition session (es : list event) : panel := fold_left step es start_panel.
