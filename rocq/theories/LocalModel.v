(** The scaled matrix of second derivatives and its analysis: scaled_hess of lib/graph.py:143-150,
    lha_analysis and plot_eigenvectors of lib/hessian.py:43-81, partial_hessian and binarize_hessian of
    scripts/hessian_observations.py:66-93.  Definitions only; numbers are real numbers. *)
From Coq Require Import Reals List Arith Bool ZArith.
From Verif Require Import Base GraphModel ParamsModel Complex ArrayModel.
Import ListNotations.
Local Open Scope nat_scope.
Local Open Scope R_scope.

Definition sci (m e : Z) : R := IZR m * powerRZ 10 e.
(* parameter_imprecisions: inputs.py lines 34, 97, 136, 219; outputs.py lines 29, 55, 106; single_path.py
   lines 40, 99, 149, 212, 267, 340, 436, 620, 692, 742, 810, 857, 895; terminals.py lines 25, 65.  Splitters
   (multi_path.py lines 27, 43, 89, 105) get theirs together with their n locks *)
Definition imprecisions (c : cls) (n : nat) : list R :=
  match c with
  | PulsedLaser | NoisySignal => [sci 1 0; sci 10 (-12); sci 1 (-1); sci 1 (-10); sci 1 (-10); sci 1 0; sci 1 0]
  | ContinuousWaveLaser => [sci 1 (-6); sci 1 (-8); 0; 0]
  | Photodiode => repeat (sci 1 0) 7
  | DispersiveFiber | VariableOpticalAttenuator | IntegratedDelayLine => [sci 1 0]
  | PhaseModulator => [sci 2 (-3); sci 1 5; sci 1 (-2); sci 1 (-1)]
  | IntensityModulator => [sci 1 0; sci 10 6; sci 1 (-1); sci 1 (-1)]
  | WaveShaper => repeat (sci 1 (-1)) 15 ++ repeat (sci 1 (-1) * 2 * PI) 15
  | IntegratedSplitAndDelayLine => repeat (sci 1 (-2)) 8
  | OpticalAmplifier => [sci 1 0; sci 1 (-9); sci 1 (-9); sci 1 (-9); sci 1 (-3); sci 1 (-3); sci 1 0; sci 1 (-1); sci 1 0]
  | ProgrammableFilter => repeat (sci 1 (-1)) 10 ++ repeat (sci 1 (-1) * 2 * PI) 10
  | SquareFilter => [sci 1 (-1)]
  | DelayLine => [sci 10 (-12)]
  | PhaseShifter => [sci 1 (-1) * PI]
  | VariablePowerSplitter | FrequencySplitter => repeat (sci 5 (-2)) n
  | Impulse | MeasurementDevice | ElectricFieldMeasurementDevice | Waveguide | TerminalSource | TerminalSink => []
  end.

(* extract_attributes_to_list_experimental(['parameter_imprecisions']), graph.py:525-550 *)
Fixpoint unlocked (l : list R) (locks : list bool) (i : nat) : res (list R) :=
  match locks with
  | [] => Ok []
  | true :: r => unlocked l r (S i)
  | false :: r => do a <- at_ l i; do b <- unlocked l r (S i); Ok (a :: b)
  end.
Definition model_imprecisions (s : store) (m : comp * place) : res (list R) :=
  do o <- get_obj s (cid (fst m));
  if o_lock o then Ok [] else unlocked (imprecisions (ccls (fst m)) (length (o_locks o))) (o_locks o) 0.
Definition scales (g : graph) (s : store) : res (list R) :=
  do ls <- map_res (model_imprecisions s) (get_models g); Ok (concat ls).

(* np.matmul(u, u.T) for a column u, lines 146-148 *)
Definition scale_matrix (u : list R) : list (list R) := map (fun a => map (fun b => a * b) u) u.
(* a * b for square matrices: entry by entry; one entry is used for all *)
Definition entry (h : list (list R)) (i j : nat) : R := nth j (nth i h []) 0.
Definition times (a b : list (list R)) : res (list (list R)) :=
  let n := length a in let m := length b in
  if Nat.eqb n m then Ok (tabulate n (fun i => tabulate n (fun j => entry a i j * entry b i j)))
  else if Nat.eqb n 1 then Ok (tabulate m (fun i => tabulate m (fun j => entry a 0 0 * entry b i j)))
  else if Nat.eqb m 1 then Ok (tabulate n (fun i => tabulate n (fun j => entry a i j * entry b 0 0)))
  else Err ValueError.
(* graph.scaled_hess(parameters): the scales are read when scaled_hess is, hess is the function that
   initialize_func_grad_hess made *)
Definition scaled_hess (hess : list R -> res (list (list R))) (g : graph) (s : store) (x : list R) : res (list (list R)) :=
  do u <- scales g s; do h <- hess x; times h (scale_matrix u).

(* np.amax of a matrix; of none it is a ValueError *)
Definition amax (h : list (list R)) : res R :=
  match concat h with [] => Err ValueError | a :: r => Ok (fold_left Rmax r a) end.
(* H0 - H0.T, line 53 *)
Definition asymmetry (h : list (list R)) : list (list R) :=
  let n := length h in tabulate n (fun i => tabulate n (fun j => entry h i j - entry h j i)).
Definition diagonal (h : list (list R)) : list R := tabulate (length h) (fun i => entry h i i).
(* a[inds] and a[:, inds] *)
Definition take {A} (l : list A) (inds : list nat) : res (list A) := map_res (fun i => at_ l i) inds.
Definition Cabs (z : C) : R := sqrt (Cnorm2 z).
Record analysis := mkA { a_warning : option R; a_diagonal : list R; a_matrix : list (list R); a_values : list C; a_vectors : list (list C) }.
(* lha_analysis, lines 43-63.  np.linalg.eig and np.argsort, whose order of equal entries is not
   fixed, are functions; a_warning is the number in the warning *)
Definition lha_analysis (eig : list (list R) -> res (list C * list (list C))) (argsort : list R -> list nat)
  (hessian_function : list R -> res (list (list R))) (parameters : list R) : res analysis :=
  do h <- hessian_function parameters;
  do m <- amax (asymmetry h);
  let warning := if Rlt_dec (sci 1 (-5)) m then Some m else None in
  do e <- eig h;
  let '(values, vectors) := e in
  let inds := argsort (map Cabs values) in
  do vs <- take values inds;
  do vecs <- map_res (fun row => take row inds) vectors;
  Ok (mkA warning (diagonal h) h vs vecs).

(* plot_eigenvectors, lines 66-81: the points of each stem plot with the value it is coloured by;
   iterating over an array gives its rows, and stem needs as many points as there are names *)
Definition stems (names : nat) (vectors : list (list C)) (values : list C) : res (list (list C * C)) :=
  map_res (fun p => if Nat.eqb (length (fst p)) names then Ok p else Err ValueError) (combine vectors values).

(* partial_hessian, lines 66-68: h[np.ix_(inds, inds)], with indices counted from the start *)
Definition partial_hessian (h : list (list R)) (inds : list nat) : res (list (list R)) :=
  do rows <- take h inds; map_res (fun row => take row inds) rows.
(* partial_hessian_node, lines 71-83: what is compared with the given values are the components of the
   parameters, not the places where they stand; an object is equal only to itself.  names is the
   extracted list of parameter names *)
Inductive value := AModel (i : nat) | APlace (pl : place).
Definition value_eqb (a b : value) : bool :=
  match a, b with
  | AModel i, AModel j => Nat.eqb i j
  | APlace (PNode n), APlace (PNode m) => Nat.eqb n m
  | APlace (PEdge (a, b, k)), APlace (PEdge (a', b', k')) => Nat.eqb a a' && Nat.eqb b b' && Nat.eqb k k'
  | _, _ => false
  end.
Definition partial_hessian_node {A} (h : list (list R)) (g : graph) (s : store) (names : res (list A)) (nodes : list value) : res (list (list R) * list A) :=
  do x <- extract g s;
  let inds := filter (fun i => existsb (value_eqb (AModel (nth i (x_models x) 0%nat))) nodes) (seq 0 (length (x_models x))) in
  do all_names <- names;
  do ns <- take all_names inds;
  do p <- partial_hessian h inds;
  Ok (p, ns).
(* binarize_hessian, lines 85-93 *)
Definition binarize (h : list (list R)) (thresh : R) : list (list R) :=
  map (map (fun a => if Rlt_dec thresh (Rabs a) then 1 else 0)) h.
