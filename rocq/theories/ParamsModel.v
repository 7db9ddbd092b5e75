(** Component parameters: objects, parameter lists, reading and writing the
    free-parameter vector.  Definitions only. *)
From Coq Require Import List Arith Bool ZArith QArith Qround.
From Verif Require Import Base GraphModel.
Import ListNotations.
Local Open Scope nat_scope.

(** ** Values *)

(* A parameter value or bound: a number, or something that is not a number
   ('gaussian', True, None), of which only the identity matters.
   Numbers are exact; a decimal literal stands for the float nearest to it,
   which preserves the order used below. *)
Inductive pval := Num (q : Q) | Sym (k : nat).
Inductive dtype := DFloat | DInt | DOther.

Definition sGauss : pval := Sym 0.    (* 'gaussian' *)
Definition sTrue : pval := Sym 1.
Definition sNone : pval := Sym 2.

(* m * 10^e *)
Definition dec (m e : Z) : pval :=
  Num (match e with
       | Z0 => m # 1
       | Zpos _ => (m * 10 ^ e) # 1
       | Zneg p => m # (Pos.pow 10 p)
       end).
(* the float np.pi, exactly; k * pi / 2 *)
Definition half_pi (k : Z) : pval := Num ((k * 884279719003555) # 562949953421312).

(** ** Classes *)

(* the attributes a constructor sets *)
Record cspec := mkSpec {
  sp_lock : bool;                 (* node_lock *)
  sp_def : list pval;             (* default_parameters *)
  sp_lo : list pval;              (* lower_bounds *)
  sp_hi : list pval;              (* upper_bounds *)
  sp_types : list dtype;          (* data_types *)
  sp_steps : list (option Q);     (* step_sizes *)
  sp_locks : list bool;           (* parameter_locks *)
  sp_num : Z }.                   (* number_of_parameters *)

Definition no_params (lock : bool) : cspec := mkSpec lock [] [] [] [] [] [] 0.

Definition rep {A} (n : nat) (a : A) : list A := repeat a n.

(* simulator/fiber/node_types_subclasses: inputs.py:24-41,88-103,127-144,210-225;
   outputs.py:22-37,48-63,93-112; multi_path.py:21-33,84-95; terminals.py:13-31,53-71;
   single_path.py:28-42,89-101,130-151,202-214,254-269,330-342,418-441,610-622,683-694,
   732-744,790-812,848-859,881-897 *)
Definition spec_of (c : cls) : cspec :=
  match c with
  | PulsedLaser => mkSpec false
      [sGauss; dec 100 (-12); dec 1 0; dec 10 (-9); dec 156 (-8); sTrue; dec 1 3]
      [sNone; dec 3 (-11); dec 1 (-4); dec 1 (-9); dec 154 (-8); sNone; dec 0 0]
      [sNone; dec 1 (-9); dec 1 0; dec 1 (-7); dec 156 (-8); sNone; dec 5 9]
      [DOther; DFloat; DFloat; DFloat; DFloat; DOther; DFloat] (rep 7 None)
      [true; false; false; false; true; true; true] 7
  | NoisySignal => mkSpec true
      [sGauss; dec 100 (-12); dec 1 0; dec 10 (-9); dec 156 (-8); sTrue; dec 1 3]
      [sNone; dec 3 (-11); dec 1 (-4); dec 1 (-9); dec 154 (-8); sNone; dec 0 0]
      [sNone; dec 1 (-9); dec 1 0; dec 1 (-7); dec 156 (-8); sNone; dec 5 9]
      [DOther; DFloat; DFloat; DFloat; DFloat; DOther; DFloat] (rep 7 None)
      [true; false; false; false; true; true; true] 7
  | ContinuousWaveLaser => mkSpec false
      [dec 4 (-2); dec 155 (-8); dec 55 0; dec 1 2]
      [dec 1 (-8); dec 154 (-8); dec 1 0; dec 0 0]
      [dec 4 (-2); dec 156 (-8); dec 200 0; dec 1 6]
      (rep 4 DFloat) (rep 4 None) [false; true; true; true] 4
  | Impulse => no_params true
  | MeasurementDevice | ElectricFieldMeasurementDevice => no_params true
  | Photodiode => mkSpec true
      [dec 5 (-1); dec 100 9; dec 2 0; dec 3 (-3); dec 50 0; dec 293 0; dec 5 (-9)]
      [dec 1 (-2); dec 1 9; dec 1 0; dec 1 (-5); dec 1 0; dec 273 0; dec 0 0]
      [dec 1 0; dec 200 9; dec 20 0; dec 1 (-1); dec 1 3; dec 320 0; dec 1 (-6)]
      (rep 7 DFloat) [None; None; Some 1%Q; None; None; None; None] (rep 7 true) 7
  | VariablePowerSplitter | FrequencySplitter => no_params false
  | DispersiveFiber => mkSpec false [dec 1 0] [dec 0 0] [dec 1000 3] [DFloat] [Some 1%Q] [false] 1
  | VariableOpticalAttenuator => mkSpec false [dec 0 0] [dec (-60) 0] [dec 0 0] [DFloat] [None] [false] 1
  | PhaseModulator => mkSpec false
      [dec 1 0; dec 12 9; dec 2 (-2); dec 0 0]
      [dec 1 (-3); dec 1 9; dec 1 (-2); dec 0 0]
      [half_pi 2; dec 50 9; half_pi 4; dec 1 9]
      (rep 4 DFloat) (rep 4 None) [false; false; false; true] 4
  | IntensityModulator => mkSpec false
      [dec 1 0; dec 1 9; dec 0 0; dec 0 0]
      [dec 0 0; dec 1 9; dec 0 0; dec 0 0]
      [half_pi 4; dec 50 9; half_pi 4; half_pi 4]
      (rep 4 DFloat) [None; Some (1000000000 # 1); None; None] (rep 4 false) 4
  | WaveShaper => mkSpec false
      (rep 15 (dec 1 0) ++ rep 15 (dec 1 (-1)))
      (* extinction_ratio = 10**(-3.5), an irrational number; truncated *)
      (rep 15 (dec 31622776601683 (-17)) ++ rep 15 (dec 0 0))
      (rep 15 (dec 1 0) ++ rep 15 (half_pi 4))
      (rep 30 DFloat) (rep 30 None) (rep 30 false) 30
  | IntegratedSplitAndDelayLine => mkSpec false
      (rep 8 (dec 1 (-1))) (rep 8 (dec 0 0)) (rep 8 (dec 1 0)) (rep 8 DFloat) (rep 8 None) (rep 8 false) 8
  | OpticalAmplifier => mkSpec false
      [dec 30 0; dec 1550 (-9); dec 1520 (-9); dec 1565 (-9); dec 1 (-2); dec 1 (-1); dec 15 (-1); dec 1 0; dec 5 0]
      [dec 1 0; dec 1535 (-9); dec 1530 (-9); dec 1540 (-9); dec 1 (-4); dec 1 (-7); dec 0 0; dec 0 0; dec 3 0]
      [dec 50 0; dec 1612 (-9); dec 1600 (-9); dec 1625 (-9); dec 10 0; dec 10 0; dec 15 0; dec 15 (-1); dec 10 0]
      (rep 9 DFloat) (rep 9 None) (false :: rep 8 true) 9
  | ProgrammableFilter => mkSpec false
      (rep 10 (dec 1 0) ++ rep 10 (dec 0 0)) (rep 10 (dec 0 0) ++ rep 10 (dec 0 0))
      (rep 10 (dec 1 0) ++ rep 10 (half_pi 4)) (rep 20 DFloat) (rep 20 None) (rep 20 false) 20
  | SquareFilter => mkSpec false [dec 5 12] [dec 0 0] [dec 10 12] [DFloat] [None] [false] 1
  | DelayLine => mkSpec false [dec 1 (-9)] [dec 0 0] [dec 2 (-9)] [DFloat] [None] [false] 1
  | IntegratedDelayLine => mkSpec false [dec 1 0] [dec 0 0] [dec 10 0] [DFloat] [Some 1%Q] [false] 1
  | Waveguide => no_params false
  | PhaseShifter => mkSpec false [half_pi 1] [half_pi (-2)] [half_pi 2] [DFloat] [None] [false] 1
  | TerminalSource | TerminalSink => no_params true
  end.

(** ** The store *)

(* A component object.  Its parameter list is a Python list with its own identity
   ([o_list]), because lists are handed over by reference (base_classes.py:21,42;
   minimal_save.py:35,45,76,92).  [default_parameters] aliases that list
   (base_classes.py:17) but is never read again, so it is not kept.  Bounds, types,
   steps and locks are lists of the object alone. *)
Record obj := mkObj {
  o_list : nat;
  o_lock : bool;
  o_lo : list pval;
  o_hi : list pval;
  o_types : list dtype;
  o_steps : list (option Q);
  o_locks : list bool;
  o_num : Z }.

(* objects by identity (GraphModel.cid), lists by identity *)
Record store := mkStore { s_objs : list (nat * obj); s_lists : list (nat * list pval) }.

Definition get_obj (s : store) (i : nat) : res obj := of_option KeyError (assoc i (s_objs s)).
Definition get_list (s : store) (l : nat) : res (list pval) := of_option KeyError (assoc l (s_lists s)).
(* model.parameters, base_classes.py:37-39 *)
Definition get_params (s : store) (i : nat) : res (list pval) :=
  do o <- get_obj s i; get_list s (o_list o).

Definition put {A} (k : nat) (a : A) (l : list (nat * A)) : list (nat * A) :=
  if mem k (map fst l) then set_assoc k a l else l ++ [(k, a)].

Definition fresh_key {A} (l : list (nat * A)) : nat := S (fold_right Nat.max 0 (map fst l)).

(* construction of an object of class c with the default parameters: base_classes.py:14-28 *)
Definition obj_of_spec (l : nat) (p : cspec) : obj :=
  mkObj l (sp_lock p) (sp_lo p) (sp_hi p) (sp_types p) (sp_steps p) (sp_locks p) (sp_num p).
Definition construct (s : store) (c : comp) : store :=
  let l := fresh_key (s_lists s) in
  mkStore (put (cid c) (obj_of_spec l (spec_of (ccls c))) (s_objs s))
          (s_lists s ++ [(l, sp_def (spec_of (ccls c)))]).
(* model(parameters=ps) with ps the list object l: base_classes.py:20-21 *)
Definition construct_with (s : store) (c : comp) (l : nat) : store :=
  mkStore (put (cid c) (obj_of_spec l (spec_of (ccls c))) (s_objs s)) (s_lists s).

(* model.parameters = (list object l): base_classes.py:41-48.  The refreshed
   attributes '_name' and the noise model are not part of this model. *)
Definition set_param_list (s : store) (i l : nat) : res store :=
  do o <- get_obj s i;
  Ok (mkStore (set_assoc i (mkObj l (o_lock o) (o_lo o) (o_hi o) (o_types o) (o_steps o) (o_locks o) (o_num o)) (s_objs s))
              (s_lists s)).

(* [1 - 1 / i for i in range(n+1, 1, -1)], multi_path.py:47,109 *)
Definition split_default (n : nat) : list pval :=
  map (fun i => Num (1 - (1 # Pos.of_nat i))) (rev (seq 2 n)).

(* multi_path.py:35-51, 97-113: equal-split defaults for the current number of outputs.
   With no output the multiplied lists are empty and number_of_parameters is -1. *)
Definition splitter_update (s : store) (i : nat) (num_out : nat) : res store :=
  do o <- get_obj s i;
  let n := Nat.pred num_out in
  let l := fresh_key (s_lists s) in
  Ok (mkStore
        (set_assoc i (mkObj l (o_lock o) (rep n (dec 0 0)) (rep n (dec 1 0)) (rep n DFloat) (rep n None)
                            (rep n false) (Z.of_nat num_out - 1)%Z) (s_objs s))
        (s_lists s ++ [(l, split_default n)])).

(* model.update_attributes(num_inputs, num_outputs): multi_path.py:35,97, terminals.py:38,78;
   other classes have no such method *)
Definition update_attributes (s : store) (c : comp) (num_out : nat) : res store :=
  match family_of (ccls c) with
  | MultiPath => splitter_update s (cid c) num_out
  | TermSource | TermSink => Ok s
  | _ => Err AttributeError
  end.

(* lib/graph.py:90-97 *)
Definition update_graph (g : graph) (s : store) : res store :=
  match topological_sort g with
  | None => Err Unfeasible
  | Some _ =>
      fold_res (fun s p => update_attributes s (n_model (snd p)) (get_out_degree g (fst p))) (g_nodes g) s
  end.

(** ** Reading and writing the parameter vector *)

(* where a component sits *)
Inductive place := PNode (n : node) | PEdge (i : eid).

(* lib/graph.py:520-523 get_models(include_node_edge=True) *)
Definition get_models (g : graph) : list (comp * place) :=
  map (fun p => (n_model (snd p), PNode (fst p))) (g_nodes g) ++
  map (fun e => (e_model (e_dat e), PEdge (e_id e))) (edges_view g).

(* the result of extract_attributes_to_list_experimental, lists kept separately *)
Record extracted := mkX {
  x_params : list pval;
  x_lo : list pval;
  x_hi : list pval;
  x_types : list dtype;
  x_steps : list (option Q);
  x_models : list nat;        (* object identities *)
  x_index : list nat;
  x_place : list place }.
Definition x_empty : extracted := mkX [] [] [] [] [] [] [] [].

Definition at_ {A} (l : list A) (i : nat) : res A := of_option IndexError (nth_error l i).

(* lib/graph.py:541-550: one unlocked index of one model appended to every list *)
Definition extract_one (s : store) (m : comp * place) (x : extracted) (i : nat) : res extracted :=
  do o <- get_obj s (cid (fst m));
  do ps <- get_list s (o_list o);
  do p <- at_ ps i;
  do lo <- at_ (o_lo o) i;
  do hi <- at_ (o_hi o) i;
  do t <- at_ (o_types o) i;
  do st <- at_ (o_steps o) i;
  Ok (mkX (x_params x ++ [p]) (x_lo x ++ [lo]) (x_hi x ++ [hi]) (x_types x ++ [t]) (x_steps x ++ [st])
          (x_models x ++ [cid (fst m)]) (x_index x ++ [i]) (x_place x ++ [snd m])).

(* lib/graph.py:538-551: for i, lock in enumerate(model.parameter_locks): if not lock *)
Fixpoint extract_locks (s : store) (m : comp * place) (locks : list bool) (i : nat) (x : extracted) : res extracted :=
  match locks with
  | [] => Ok x
  | lock :: r =>
      if lock then extract_locks s m r (S i) x
      else do x' <- extract_one s m x i; extract_locks s m r (S i) x'
  end.

Definition extract_model (s : store) (x : extracted) (m : comp * place) : res extracted :=
  do o <- get_obj s (cid (fst m));
  if o_lock o then Ok x else extract_locks s m (o_locks o) 0 x.

(* lib/graph.py:525-567 with every attribute requested; exclude_locked is not read by the code.
   Simplification: extract_parameters_to_list itself requests only parameters and bounds
   (the other lists have the same length for every component of the repository). *)
Definition extract (g : graph) (s : store) : res extracted :=
  fold_res (extract_model s) (get_models g) x_empty.

(* model.parameters[i] = v *)
Definition write_param (s : store) (i : nat) (k : nat) (v : pval) : res store :=
  do o <- get_obj s i;
  do ps <- get_list s (o_list o);
  do ps' <- of_option IndexError (set_nth k v ps);
  Ok (mkStore (s_objs s) (set_assoc (o_list o) ps' (s_lists s))).

(* lib/graph.py:569-573: zip stops at the shortest list *)
Fixpoint distribute (vs : list pval) (models idx : list nat) (s : store) : res store :=
  match vs, models, idx with
  | v :: vr, m :: mr, k :: kr => do s' <- write_param s m k v; distribute vr mr kr s'
  | _, _, _ => Ok s
  end.

(** ** The bounds assertion of evolve_graph (evolver.py:77-79) *)

(* Python a <= b on two values; comparing a number with something else is a TypeError.
   (None and strings do not occur among unlocked values of library components.) *)
Definition py_le (a b : pval) : res bool :=
  match a, b with Num x, Num y => Ok (Qle_bool x y) | _, _ => Err TypeError end.
Definition py_eq (a b : pval) : bool :=
  match a, b with Num x, Num y => Qeq_bool x y | Sym i, Sym j => Nat.eqb i j | _, _ => false end.

(* Python list <=: the first differing position decides, else the lengths *)
Fixpoint list_le (a b : list pval) : res bool :=
  match a, b with
  | [], _ => Ok true
  | _ :: _, [] => Ok false
  | x :: r, y :: q => if py_eq x y then list_le r q else py_le x y
  end.

Definition bounds_assertion (x : extracted) : res unit :=
  do a <- list_le (x_lo x) (x_params x);
  do b <- list_le (x_params x) (x_hi x);
  if a && b then Ok tt else Err AssertionError.

(** ** Sampling (lib/graph.py:483-507, 602-669) *)

(* Python round(x): nearest integer, ties to even *)
Definition py_round (x : Q) : Z :=
  let f := Qfloor x in
  let d := (x - inject_Z f)%Q in
  if Qlt_le_dec d (1 # 2) then f
  else if Qlt_le_dec (1 # 2) d then (f + 1)%Z
  else if Z.even f then f else (f + 1)%Z.

Inductive dist := Uniform | Triangle | OtherDist.

(* the two kinds of random numbers consumed: a fraction in [0,1) for
   np.random.uniform(low, up) = low + (up-low)*u, and an integer for randint *)
Record rnd := mkRnd { r_frac : Q; r_int : Z }.

(* Python int(): truncation toward zero *)
Definition trunc (x : Q) : Z := Z.quot (Qnum x) (Zpos (Qden x)).

(* lib/graph.py:629-642.  randint(a, b) needs a < b and then returns an integer in
   [a, b): every integer of that range is reached by some [r_int]. *)
Definition randint (a b : Z) (r : rnd) : res Z :=
  if (b <=? a)%Z then Err ValueError else Ok (a + Z.modulo (r_int r) (b - a))%Z.

Definition uniform_sample (lo hi : pval) (step : option Q) (t : dtype) (r : rnd) : res pval :=
  match lo, hi with
  | Num low, Num up =>
      let u := (low + (up - low) * r_frac r)%Q in
      match t, step with
      | DFloat, None => Ok (Num u)
      | DFloat, Some st =>
          if Qeq_bool st 0 then Err ZeroDivisionError
          else Ok (Num (inject_Z (py_round (u / st)) * st))
      | DInt, None => do z <- randint (trunc low) (trunc up) r; Ok (Num (inject_Z z))
      | DInt, Some st =>
          if Qeq_bool st 0 then Err ZeroDivisionError
          else do z <- randint (trunc (low / st)) (trunc (up / st)) r; Ok (Num (inject_Z z * st))
      | DOther, _ => Err ValueError
      end
  | _, _ => match t with DOther => Err ValueError | _ => Err TypeError end
  end.

(* lib/graph.py:602-617: one parameter.  triangle_sample is called with the unknown
   keyword interval_width, a TypeError whatever the arguments. *)
Definition sample_one (d : dist) (lo hi : pval) (step : option Q) (t : dtype) (r : rnd) : res pval :=
  match d with
  | Triangle => Err TypeError
  | _ => uniform_sample lo hi step t r
  end.

Fixpoint sample_callable (d : dist) (ps los his : list pval) (ts : list dtype) (sts : list (option Q))
  (rs : nat -> rnd) (i : nat) : res (list pval) :=
  match ps, los, his, ts, sts with
  | _ :: pr, lo :: lr, hi :: hr, t :: tr, st :: sr =>
      do v <- sample_one d lo hi st t (rs i);
      do vs <- sample_callable d pr lr hr tr sr rs (S i);
      Ok (v :: vs)
  | _, _, _, _, _ => Ok []
  end.

(* lib/graph.py:483-494 *)
Definition sample_parameters (d : dist) (g : graph) (s : store) (rs : nat -> rnd) : res store :=
  do x <- extract g s;
  do vs <- sample_callable d (x_params x) (x_lo x) (x_hi x) (x_types x) (x_steps x) rs 0;
  distribute vs (x_models x) (x_index x) s.
