(** Copying a graph (lib/graph.py:73-82) and the minimal save format
    (lib/minimal_save.py).  Definitions only. *)
From Coq Require Import List Arith Bool ZArith QArith.
From Verif Require Import Base GraphModel ParamsModel.
Import ListNotations.
Local Open Scope nat_scope.

(** ** duplicate_and_simplify_graph *)

(* copy.deepcopy of one component: a new object j with the attributes of object i and a
   new list with the same contents *)
Definition copy_obj (s : store) (i j : nat) : res store :=
  do o <- get_obj s i;
  do ps <- get_list s (o_list o);
  let l := fresh_key (s_lists s) in
  Ok (mkStore (put j (mkObj l (o_lock o) (o_lo o) (o_hi o) (o_types o) (o_steps o) (o_locks o) (o_num o)) (s_objs s))
              (s_lists s ++ [(l, ps)])).

(* the components one after the other; new objects get the identities next, next+1, ... *)
Fixpoint copy_all (cs : list comp) (next : nat) (s : store) : res (list comp * store) :=
  match cs with
  | [] => Ok ([], s)
  | c :: r =>
      do s1 <- copy_obj s (cid c) next;
      do t <- copy_all r (S next) s1;
      Ok (mkComp next (ccls c) (cprot c) :: fst t, snd t)
  end.

(* lib/graph.py:73-82; init_graph calls update_graph (graph.py:49) *)
Definition duplicate (g : graph) (s : store) (next : nat) : res (graph * store) :=
  do n <- copy_all (map (fun p => n_model (snd p)) (g_nodes g)) next s;
  do e <- copy_all (map (fun e => e_model (e_dat e)) (edges_view g)) (next + length (g_nodes g)) (snd n);
  do g' <- of_option Unfeasible
             (init_graph (combine (node_ids g) (fst n)) (combine (map e_id (edges_view g)) (fst e)));
  do s' <- update_graph g' (snd e);
  Ok (g', s').

(** ** Minimal save format *)

(* join_model_nickname (minimal_save.py:105-106): "Class.%03d".  The pair stands for the
   string: class names contain no dot and the number format is injective. *)
Definition nick : Type := cls * nat.

Definition all_classes : list cls :=
  [PulsedLaser; ContinuousWaveLaser; NoisySignal; Impulse; MeasurementDevice; ElectricFieldMeasurementDevice; Photodiode;
   VariablePowerSplitter; FrequencySplitter; DispersiveFiber; VariableOpticalAttenuator; PhaseModulator; IntensityModulator;
   WaveShaper; IntegratedSplitAndDelayLine; OpticalAmplifier; ProgrammableFilter; SquareFilter; DelayLine; IntegratedDelayLine;
   Waveguide; PhaseShifter; TerminalSource; TerminalSink].
Fixpoint position (c : cls) (l : list cls) : nat :=
  match l with [] => 0 | x :: r => if cls_eq_dec c x then 0 else S (position c r) end.
(* nicknames are the node labels of the rebuilt graph; labels are numbers here *)
Definition label (x : nick) : node := snd x * 24 + position (fst x) all_classes.

(* graph_info (minimal_save.py:48-50).  Parameter lists are kept by reference. *)
Record minimal := mkMin {
  m_adj : list (nick * (nick * nick * nat));     (* edge_models_adj *)
  m_np : list (nick * nat);                      (* node_models_params *)
  m_ep : list (nick * nat) }.                    (* edge_models_params *)

Definition list_of (s : store) (i : nat) : res nat := do o <- get_obj s i; Ok (o_list o).

(* minimal_save.py:32-35 *)
Fixpoint save_nodes (s : store) (ns : list (node * ndata)) (i : nat) : res (list (node * nick) * list (nick * nat)) :=
  match ns with
  | [] => Ok ([], [])
  | (n, d) :: r =>
      do l <- list_of s (cid (n_model d));
      do t <- save_nodes s r (S i);
      let name := (ccls (n_model d), i) in
      Ok ((n, name) :: fst t, (name, l) :: snd t)
  end.

(* minimal_save.py:40-45 *)
Fixpoint save_edges (s : store) (names : list (node * nick)) (es : list edge) (i : nat)
  : res (list (nick * (nick * nick * nat)) * list (nick * nat)) :=
  match es with
  | [] => Ok ([], [])
  | e :: r =>
      do a <- of_option KeyError (assoc (e_src e) names);
      do b <- of_option KeyError (assoc (e_dst e) names);
      do l <- list_of s (cid (e_model (e_dat e)));
      do t <- save_edges s names r (S i);
      let name := (ccls (e_model (e_dat e)), i) in
      Ok ((name, (a, b, e_key e)) :: fst t, (name, l) :: snd t)
  end.

(* minimal_save.py:29-53.  The edge counter continues from the loop variable of the node
   loop, which is unbound when the graph has no node (UnboundLocalError). *)
Definition extract_minimal (g : graph) (s : store) : res minimal :=
  match g_nodes g with
  | [] => Err NameError
  | _ =>
      do n <- save_nodes s (g_nodes g) 0;
      do e <- save_edges s (fst n) (edges_view g) (length (g_nodes g) - 1);
      Ok (mkMin (fst e) (snd n) (snd e))
  end.

(* Writing to a file and reading back (json): every list becomes a new list.  Numbers,
   strings, True and None survive unchanged. *)
Fixpoint transport_lists (l : list (nick * nat)) (s : store) : res (list (nick * nat) * store) :=
  match l with
  | [] => Ok ([], s)
  | (x, i) :: r =>
      do ps <- get_list s i;
      let j := fresh_key (s_lists s) in
      do t <- transport_lists r (mkStore (s_objs s) (s_lists s ++ [(j, ps)]));
      Ok ((x, j) :: fst t, snd t)
  end.
Definition transport (m : minimal) (s : store) : res (minimal * store) :=
  do n <- transport_lists (m_np m) s;
  do e <- transport_lists (m_ep m) (snd n);
  Ok (mkMin (m_adj m) (fst n) (fst e), snd e).

(* flatten(NODE_TYPES_ALL_WITH_TERMINALS)[name] (minimal_save.py:18-26, 57): all classes
   but those whose registration is commented out (multi_path.py:78, single_path.py:324) *)
Definition registered (c : cls) : bool :=
  match c with FrequencySplitter | IntegratedSplitAndDelayLine => false | _ => true end.
Definition lookup (c : cls) : res cls := if registered c then Ok c else Err KeyError.

Definition nick_eq_dec : forall a b : nick, {a = b} + {a <> b}.
Proof. decide equality; [apply Nat.eq_dec|apply cls_eq_dec]. Defined.
Fixpoint assoc_nick {A} (x : nick) (l : list (nick * A)) : option A :=
  match l with [] => None | (y, a) :: r => if nick_eq_dec x y then Some a else assoc_nick x r end.

(* minimal_save.py:64; new objects get the identities next, next+1, ... *)
Fixpoint load_nodes (l : list (nick * nat)) (next : nat) (s : store) : res (list (node * comp) * store) :=
  match l with
  | [] => Ok ([], s)
  | (x, _) :: r =>
      do c <- lookup (fst x);
      let cm := mkComp next c false in
      do t <- load_nodes r (S next) (construct s cm);
      Ok ((label x, cm) :: fst t, snd t)
  end.

(* minimal_save.py:69-76 *)
Fixpoint load_edges (l : list (nick * (nick * nick * nat))) (ep : list (nick * nat)) (next : nat) (s : store)
  : res (list (eid * comp) * store) :=
  match l with
  | [] => Ok ([], s)
  | (x, (a, b, k)) :: r =>
      do p <- of_option KeyError (assoc_nick x ep);
      do c <- lookup (fst x);
      let cm := mkComp next c false in
      do t <- load_edges r ep (S next) (construct_with s cm p);
      Ok (((label a, label b, k), cm) :: fst t, snd t)
  end.

(* minimal_save.py:88-92 *)
Definition load_params (np : list (node * nat)) (s : store) (p : node * ndata) : res store :=
  do l <- of_option KeyError (assoc (fst p) np);
  do ps <- get_list s l;
  do o <- get_obj s (cid (n_model (snd p)));
  if Z.eqb (o_num o) (Z.of_nat (length ps)) then set_param_list s (cid (n_model (snd p))) l
  else Err ValueError.

(* minimal_save.py:55-103.  The dictionaries have distinct keys. *)
Definition build_minimal (m : minimal) (next : nat) (s : store) : res (graph * store) :=
  do n <- load_nodes (m_np m) next s;
  do e <- load_edges (m_adj m) (m_ep m) (next + length (m_np m)) (snd n);
  do g <- of_option Unfeasible (init_graph (fst n) (fst e));
  do s1 <- update_graph g (snd e);
  do s2 <- update_graph g s1;
  do s3 <- fold_res (load_params (map (fun p => (label (fst p), snd p)) (m_np m))) (g_nodes g) s2;
  Ok (g, s3).

(* save to a file, load from it *)
Definition save_and_load (g : graph) (s : store) (next : nat) : res (graph * store) :=
  do m <- extract_minimal g s;
  do t <- transport m s;
  build_minimal (fst t) next (snd t).
