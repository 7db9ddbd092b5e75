(** Model of the distance functions for speciation, algorithms/speciation.py:255-379, without
    photoNEAT, whose constructor always raises (line 327).  Definitions only. *)
From Coq Require Import List Arith Bool ZArith QArith Reals.
From Verif Require Import Base GraphModel OperatorsModel FloatModel.
Import ListNotations.
Local Open Scope nat_scope.

(* Graph.speciation_descriptor: None after init_graph (lib/graph.py:52), otherwise a dictionary
   with a 'name', set up by topology_optimization.py:433-485 *)
Inductive descriptor :=
| NoDescriptor
| Subpopulation (label : nat)
| VectorDiff
| EditDist.

Inductive dname := NSub | NVec | NEdit.
(* descriptor['name'] *)
Definition name_of (d : descriptor) : res dname :=
  match d with
  | NoDescriptor => Err TypeError
  | Subpopulation _ => Ok NSub
  | VectorDiff => Ok NVec
  | EditDist => Ok NEdit
  end.
Definition dname_eqb (a b : dname) : bool :=
  match a, b with NSub, NSub | NVec, NVec | NEdit, NEdit => true | _, _ => false end.
(* the check at the top of each distance function *)
Definition check_names (n : dname) (d0 d1 : descriptor) : res unit :=
  do n0 <- name_of d0;
  if negb (dname_eqb n0 n) then Err ValueError
  else do n1 <- name_of d1;
       if negb (dname_eqb n1 n) then Err ValueError else Ok tt.

(* SimpleSubpopulationSchemeDist, lines 265-282 *)
Definition subpop_distance (d0 d1 : descriptor) : res Z :=
  do _ <- check_names NSub d0 d1;
  match d0, d1 with
  | Subpopulation a, Subpopulation b => Ok (if Nat.eqb a b then 0 else 1)%Z
  | _, _ => Err KeyError                        (* not reached: the names were checked *)
  end.

(** vectorDIFF, lines 285-320 *)

(* lines 292-299: config.NODE_TYPES_ALL flattened *)
Definition basis (L : library) : list cls := source_models L ++ sink_models L ++ node_models L ++ edge_models L.
Fixpoint index_of (c : cls) (b : list cls) : option nat :=
  match b with [] => None | x :: r => if cls_eqb x c then Some 0 else match index_of c r with Some i => Some (S i) | None => None end end.
Fixpoint bump (i : nat) (v : list Z) : list Z :=
  match v, i with [] , _ => [] | x :: r, 0 => (x + 1)%Z :: r | x :: r, S j => x :: bump j r end.
(* lines 312-320 *)
Fixpoint count_classes (b : list cls) (cs : list cls) (v : list Z) : res (list Z) :=
  match cs with
  | [] => Ok v
  | c :: r => do i <- of_option KeyError (index_of c b); count_classes b r (bump i v)
  end.
Definition classes_of (g : graph) : list cls := map (fun p => ccls (n_model (snd p))) (g_nodes g) ++ map (fun e => ccls (e_model (e_dat e))) (g_edges g).
Definition get_vector (L : library) (g : graph) : res (list Z) := count_classes (basis L) (classes_of g) (repeat 0%Z (length (basis L))).

Fixpoint sum_squares (v w : list Z) : Z :=
  match v, w with x :: r, y :: q => ((x - y) * (x - y) + sum_squares r q)%Z | _, _ => 0%Z end.
(* lines 301-310: what the square roots are taken of *)
Definition vector_parts (L : library) (d0 d1 : descriptor) (g0 g1 : graph) : res (Z * Z) :=
  do _ <- check_names NVec d0 d1;
  do v0 <- get_vector L g0;
  do v1 <- get_vector L g1;
  let n0 := Z.of_nat (length (g_nodes g0)) in let n1 := Z.of_nat (length (g_nodes g1)) in
  Ok (sum_squares v0 v1, (n0 * n0 + n1 * n1)%Z).
(* the value, over the real numbers; for two graphs without nodes numpy gives NaN, not modelled *)
Definition vector_distance (L : library) (d0 d1 : descriptor) (g0 g1 : graph) : res R :=
  do p <- vector_parts L d0 d1 g0 g1;
  Ok (sqrt (IZR (fst p)) / sqrt (IZR (snd p)))%R.

(* EditDistance, lines 356-379; the edit distance is networkx's and may raise *)
Definition edit_distance (similarity : graph -> graph -> res Q) (threshold : Q) (d0 d1 : descriptor) (g0 g1 : graph) : res Z :=
  do _ <- check_names NEdit d0 d1;
  do s <- similarity g0 g1;
  Ok (if Qle_bool s threshold then 0 else 1)%Z.
