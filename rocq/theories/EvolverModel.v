(** Model of simulator/fiber/evolver.py (ProbabilityLookupEvolver,
    OperatorBasedProbEvolver, HessianProbabilityEvolver) and of
    simulator/fiber/assets/hessian_graph_analysis.py.  Definitions only.
    ReinforceMatrixEvolver and later classes of the file are not modelled. *)
From Coq Require Import List Arith Bool ZArith QArith Qabs.
From Verif Require Import Base GraphModel GraphSpec OperatorsModel ParamsModel.
Import ListNotations.
Local Open Scope nat_scope.

Definition op_eq_dec : forall a b : op, {a = b} + {a <> b}.
Proof. decide equality. Defined.
Definition eid_eq_dec : forall a b : nat * nat * nat, {a = b} + {a <> b}.
Proof. decide equality; [apply Nat.eq_dec|decide equality; apply Nat.eq_dec]. Defined.
Definition location_eq_dec : forall a b : location, {a = b} + {a <> b}.
Proof. decide equality; try apply Nat.eq_dec; apply eid_eq_dec. Defined.

(** ** ProbabilityMatrix (evolver.py:136-210) *)

(* one row per location, one column per operator *)
Definition matrix := list (list Q).

(* evolver.py:96-97: node_list + edge_list + node_pairs_list + interface_list; the last two
   arguments are passed in the opposite order of the parameter names, which is harmless *)
Definition row_list (g : graph) (o : list node) : list location :=
  map LNode (node_ids g) ++ map (fun e => LEdge (e_id e)) (edges_view g) ++ interfaces g ++
  map (fun p => LPair (fst p) (snd p)) (combinations2 o).

(* {x: i for (i, x) in enumerate(l)}[x]: the last position of x *)
Fixpoint dict_index {A} (dec : forall a b : A, {a = b} + {a <> b}) (x : A) (l : list A) (i : nat) : option nat :=
  match l with
  | [] => None
  | y :: r => match dict_index dec x r (S i) with
              | Some j => Some j
              | None => if dec x y then Some i else None
              end
  end.

(* evolver.py:148: np.zeros((len(node_or_edge_to_index), len(op_to_index))) *)
Definition zeros (rows : list location) (ops : list op) : matrix :=
  repeat (repeat 0%Q (length (nodup op_eq_dec ops))) (length (nodup location_eq_dec rows)).

Definition qsum (l : list Q) : Q := fold_right Qplus 0%Q l.

(* evolver.py:150-161.  Dividing by a sum of zero yields nan (or inf and -inf), whose sum is
   not close to 1.  np.isclose has rtol 1e-5 and atol 1e-8.  Arithmetic is exact here. *)
Definition normalize_verify (m : matrix) : res matrix :=
  let s := qsum (concat m) in
  if Qeq_bool s 0 then Err RuntimeWarning
  else
    let m' := map (map (fun q => q / s)%Q) m in
    if negb (Qle_bool (Qabs (qsum (concat m') - 1)) (1001 # 100000000)) then Err RuntimeWarning
    else if forallb (fun q => Qle_bool q 1 && Qle_bool 0 q) (concat m') then Ok m'
    else Err RuntimeWarning.

(* np.random.choice(arange(n), p=flat): first index whose cumulated probability exceeds
   the uniform draw u in [0,1).  None: no such index. *)
Fixpoint choose (p : list Q) (u : Q) : option nat :=
  match p with
  | [] => None
  | q :: r => if Qlt_le_dec u q then Some 0 else option_map S (choose r (u - q)%Q)
  end.

(* evolver.py:163-172 *)
Definition sample_matrix (rows : list location) (ops : list op) (m : matrix) (u : Q) : res (location * op) :=
  do i <- of_option IndexError (choose (concat m) u);
  let ncols := length (nodup op_eq_dec ops) in
  do l <- of_option KeyError (nth_error rows (Nat.div i ncols));
  do o <- of_option KeyError (nth_error ops (Nat.modulo i ncols));
  Ok (l, o).

(* evolver.py:174-175 *)
Definition set_prob (rows : list location) (ops : list op) (m : matrix) (p : Q) (l : location) (o : op) : res matrix :=
  do i <- of_option KeyError (dict_index location_eq_dec l rows 0);
  do j <- of_option KeyError (dict_index op_eq_dec o ops 0);
  do r <- of_option IndexError (nth_error m i);
  do r' <- of_option IndexError (set_nth j p r);
  of_option IndexError (set_nth i r' m).

(* evolver.py:186-190 get_probs_at_operator *)
Definition get_column (ops : list op) (m : matrix) (o : op) : res (list Q) :=
  do j <- of_option KeyError (dict_index op_eq_dec o ops 0);
  map_res (fun r => of_option IndexError (nth_error r j)) m.

(* evolver.py:192-193 set_probs_at_operator *)
Fixpoint set_col (j : nat) (m : matrix) (c : list Q) : res matrix :=
  match m, c with
  | [], [] => Ok []
  | r :: m', q :: c' =>
      do r' <- of_option IndexError (set_nth j q r);
      do t <- set_col j m' c';
      Ok (r' :: t)
  | _, _ => Err ValueError
  end.
Definition set_column (ops : list op) (m : matrix) (o : op) (c : list Q) : res matrix :=
  do j <- of_option KeyError (dict_index op_eq_dec o ops 0); set_col j m c.

(** ** ProbabilityLookupEvolver.create_graph_matrix (evolver.py:90-105) *)

Definition base_matrix (L : library) (ops : list op) (g : graph) : res (list location * matrix) :=
  do o <- of_option Unfeasible (topological_sort g);
  let rows := row_list g o in
  do m <- fold_res (fun m op =>
            do locs <- of_option Unfeasible (possible_locations L op g);
            fold_res (fun m l => set_prob rows ops m 1 l op) locs m) ops (zeros rows ops);
  do m' <- normalize_verify m;
  Ok (rows, m').

(** ** Hessian scores (hessian_graph_analysis.py) *)

(* hessian_graph_analysis.py:61-76 with the default p = 1; hess is square *)
Definition col (j : nat) (h : matrix) : list Q := map (fun r => nth j r 0%Q) h.
Definition param_scores (h : matrix) : list Q :=
  let n := length h in
  map (fun i => ((qsum (map Qabs (col i h)) + qsum (map Qabs (nth i h []))) / (2 * inject_Z (Z.of_nat n)))%Q) (seq 0 n).

(* hessian_graph_analysis.py:79-101, as_log=False: mean over the entries whose place is the edge *)
Definition place_eqb (p : place) (i : nat * nat * nat) : bool :=
  match p with PEdge j => if eid_eq_dec j i then true else false | PNode _ => false end.
Definition edge_score (places : list place) (sc : list Q) (i : nat * nat * nat) : Q :=
  let mine := map snd (filter (fun p => place_eqb (fst p) i) (combine places sc)) in
  match mine with
  | [] => 1%Q
  | _ => (qsum mine / inject_Z (Z.of_nat (length mine)))%Q
  end.

(* hessian_graph_analysis.py:8-25, 42-59 with as_log=False; the dictionary edge -> score *)
Definition all_edge_scores (g : graph) (s : store) (hess : option matrix) : res (list ((nat * nat * nat) * Q)) :=
  do x <- extract g s;
  match x_params x with
  | [] => Ok (map (fun e => (e_id e, 1%Q)) (edges_view g))
  | _ =>
      match hess with
      | None => Err ValueError
      | Some h =>
          if negb (Nat.eqb (length (x_params x)) (length h)) then Err ValueError
          else Ok (map (fun e => (e_id e, edge_score (x_place x) (param_scores h) (e_id e))) (edges_view g))
      end
  end.

(** ** Weighted evolvers *)

(* np.isclose(p, 0) *)
Definition close0 (p : Q) : bool := Qle_bool (Qabs p) (1 # 100000000).

Fixpoint assoc_eid {A} (i : nat * nat * nat) (l : list ((nat * nat * nat) * A)) : option A :=
  match l with
  | [] => None
  | (j, a) :: r => if eid_eq_dec i j then Some a else assoc_eid i r
  end.

(* evolver.py:309-322: the dictionary index -> score of the removable places.  A location
   without attribute 'edge' would be an AttributeError. *)
Fixpoint selections (rows : list location) (scores : list ((nat * nat * nat) * Q)) (c : list Q) (i : nat)
  : res (list (nat * Q)) :=
  match c with
  | [] => Ok []
  | p :: r =>
      if close0 p then selections rows scores r (S i)
      else
        do l <- of_option KeyError (nth_error rows i);
        match l with
        | LIface _ e =>
            do t <- selections rows scores r (S i);
            match assoc_eid e scores with
            | Some v => Ok ((i, v) :: t)
            | None => Ok t
            end
        | _ => Err AttributeError
        end
  end.

(* min(d.items(), key=itemgetter(1))[0]: the first entry of smallest score *)
Fixpoint arg_min (best : nat * Q) (l : list (nat * Q)) : nat :=
  match l with
  | [] => fst best
  | p :: r => if Qlt_le_dec (snd p) (snd best) then arg_min p r else arg_min best r
  end.

(* evolver.py:326-331 *)
Definition tournament_size (n : nat) : nat :=
  Nat.min (Nat.max 1 (Z.to_nat (py_round (inject_Z (Z.of_nat n) * (1 # 2))%Q))) n.

Definition one_hot (n i : nat) : list Q := map (fun k => if Nat.eqb k i then 1%Q else 0%Q) (seq 0 n).

(* evolver.py:306-346; [shuffle] is random.shuffle *)
Definition tournament (shuffle : list nat -> list nat) (rows : list location)
  (scores : list ((nat * nat * nat) * Q)) (c : list Q) : res (list Q) :=
  do sel <- selections rows scores c 0;
  match sel with
  | [] => Ok c
  | _ =>
      let k := tournament_size (length sel) in
      let chosen := firstn k (shuffle (map fst sel)) in
      match filter (fun p => mem (fst p) chosen) sel with
      | [] => Err ValueError          (* min() of an empty sequence *)
      | p :: r => Ok (one_hot (length c) (arg_min p r))
      end
  end.

(* which evolver: evolver.py:23, 213, 256 *)
Inductive evolver :=
| Lookup
| OpBased (w : op -> Q)
| Hessian (w : op -> Q).       (* w: the current op_to_prob *)

(* evolver.py:266-269 *)
Definition hessian_initial (o : op) : Q := match o with Remove => 4 | _ => 1 end%Q.
(* evolver.py:279-286 *)
Definition hessian_weight (gen : Q) (o : op) : Q :=
  match o with AddSeries | AddParallel => 1 - gen | Remove => 2 * gen | Swap => 1 end%Q.
(* update_graph_matrix stores the weights in the evolver: evolver.py:275-287 *)
Definition prepare (ev : evolver) (gen : option Q) : evolver :=
  match ev, gen with
  | Hessian _, Some q => Hessian (hessian_weight q)
  | _, _ => ev
  end.

(* evolver.py:234-245, 292-304 *)
Definition weigh (w : op -> Q) (scale : op -> list Q -> res (list Q)) (ops : list op) (m : matrix) : res matrix :=
  do m1 <- fold_res (fun m o =>
             do c <- get_column ops m o;
             do c' <- scale o c;
             let s := qsum c' in
             if Qeq_bool s 0 then Ok m
             else set_column ops m o (map (fun q => q / s * w o)%Q c')) ops m;
  normalize_verify m1.

Definition create_matrix (L : library) (ops : list op) (ev : evolver) (g : graph) (s : store)
  (hess : option matrix) (shuffle : list nat -> list nat) : res (list location * matrix) :=
  do rm <- base_matrix L ops g;
  let (rows, m) := (rm : list location * matrix) in
  match ev with
  | Lookup => Ok (rows, m)
  | OpBased w => do m' <- weigh w (fun _ c => Ok c) ops m; Ok (rows, m')
  | Hessian w =>
      do m' <- weigh w (fun o c => match o with
                                   | Remove => do sc <- all_edge_scores g s hess; tournament shuffle rows sc c
                                   | _ => Ok c
                                   end) ops m;
      Ok (rows, m')
  end.

(** ** evolve_graph (evolver.py:44-88) *)

(* the attributes of a graph object that evolve_graph reads or writes *)
Record world := mkW {
  w_graph : graph;
  w_store : store;
  w_cur : nat;                  (* current_uuid *)
  w_parent : nat;               (* parent_uuid *)
  w_mut : option op;            (* latest_mutation; None = 'INITIALIZATION' *)
  w_hess : option matrix }.     (* scaled_hess_matrix *)

(* the objects an operator constructs *)
Definition construct_drawn (L : library) (o : op) (l : location) (g : graph) (d : draws) (s : store) : store :=
  match o with
  | AddSeries => construct (construct s (d_edge d)) (d_node d)
  | AddParallel => construct s (d_edge d)
  | Remove => s
  | Swap => construct s (d_swap d)
  end.

(* everything random in one call *)
Record chance := mkCh {
  ch_u : Q;                          (* np.random.choice *)
  ch_shuffle : list nat -> list nat; (* random.shuffle *)
  ch_draws : draws;                  (* random.sample, node label *)
  ch_uuid : nat }.                   (* uuid4() *)

(* The graph object is modified in place, so the state after a failing call is returned
   too.  Simplification: when apply_evolution or update_graph raise, the half-updated
   store is not tracked (both are unreachable on well-formed graphs, EvolverProofs). *)
Definition evolve_graph (L : library) (ops : list op) (ev : evolver) (gen : option Q) (w : world) (ch : chance)
  : world * res op :=
  match create_matrix L ops (prepare ev gen) (w_graph w) (w_store w) (w_hess w) (ch_shuffle ch) with
  | Err e => (w, Err e)
  | Ok (rows, m) =>
      match sample_matrix rows ops m (ch_u ch) with
      | Err e => (w, Err e)
      | Ok (l, o) =>
          match apply_op L o (w_graph w) l (ch_draws ch) with
          | None => (w, Err KeyError)
          | Some g' =>
              let s1 := construct_drawn L o l (w_graph w) (ch_draws ch) (w_store w) in
              match update_graph g' s1 with
              | Err e => (mkW g' s1 (w_cur w) (w_parent w) (w_mut w) (w_hess w), Err e)
              | Ok s2 =>
                  match (do x <- extract g' s2; bounds_assertion x) with
                  | Err e => (mkW g' s2 (w_cur w) (w_parent w) (w_mut w) (w_hess w), Err e)
                  | Ok _ => (mkW g' s2 (ch_uuid ch) (w_cur w) (Some o) (w_hess w), Ok o)
                  end
              end
          end
      end
  end.

(* evolver.py:113-127, 376-391: AssertionError is caught and the loop goes on with the graph
   as it is; any other exception propagates.  The step number is the generation, for both.
   initialize_func_grad_hess (graph.py:137-141) does not touch the modelled state. *)
Fixpoint random_graph (L : library) (ops : list op) (ev : evolver) (w : world) (chs : list chance) (n : nat)
  : world * res unit :=
  match chs with
  | [] => (w, Ok tt)
  | ch :: r =>
      let gen := Some (inject_Z (Z.of_nat n)) in
      match evolve_graph L ops ev gen w ch with
      | (w', Ok _) => random_graph L ops ev w' r (S n)
      | (w', Err AssertionError) => random_graph L ops ev w' r (S n)
      | (w', Err e) => (w', Err e)
      end
  end.

(** ** A new graph object (lib/graph.py:34-71) *)

(* every component built with its default parameters, before the call *)
Definition construct_all (cs : list comp) (s : store) : store := fold_left construct cs s.

(* init_graph: structure, then update_graph (graph.py:49), then the identifiers *)
Definition new_world (nodes : list (node * comp)) (edges : list (eid * comp)) (cur parent : nat) : res world :=
  do g <- of_option Unfeasible (init_graph nodes edges);
  do s <- update_graph g (construct_all (components g) (mkStore [] []));
  Ok (mkW g s cur parent None None).
