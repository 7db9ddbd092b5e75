(** Executable scripts of evolution steps, used to build concrete histories for
    examples and counterexamples. Definitions only. *)
From Coq Require Import List Arith Bool.
From Verif Require Import GraphModel OperatorsModel.
Import ListNotations.

Definition cls_mem (c : cls) (l : list cls) : bool := existsb (cls_eqb c) l.

Definition location_eqb (a b : location) : bool :=
  match a, b with
  | LNode n, LNode m => Nat.eqb n m
  | LEdge i, LEdge j => eid_eqb i j
  | LIface n i, LIface m j => Nat.eqb n m && eid_eqb i j
  | LPair x y, LPair z w => Nat.eqb x z && Nat.eqb y w
  | _, _ => false
  end.

(* boolean version of OperatorsModel.draws_ok *)
Definition draws_okb (L : library) (o : op) (g : graph) (l : location) (d : draws) : bool :=
  match o, l with
  | AddSeries, _ =>
      cls_mem (ccls (d_edge d)) (edge_models L) && negb (cprot (d_edge d)) &&
      cls_mem (ccls (d_node d)) (node_models L) && negb (cprot (d_node d)) &&
      negb (mem (cid (d_edge d)) (used_ids g)) && negb (mem (cid (d_node d)) (used_ids g)) &&
      negb (Nat.eqb (cid (d_edge d)) (cid (d_node d))) &&
      negb (mem (d_id d) (node_ids g))
  | AddParallel, _ =>
      cls_mem (ccls (d_edge d)) (edge_models L) && negb (cprot (d_edge d)) &&
      negb (mem (cid (d_edge d)) (used_ids g))
  | Remove, _ => true
  | Swap, LNode n =>
      match node_cls g n with
      | None => false
      | Some c => cls_mem (ccls (d_swap d)) (swap_set (node_models L) c)
      end && negb (cprot (d_swap d)) && negb (mem (cid (d_swap d)) (used_ids g))
  | Swap, LEdge i =>
      match find_edge g i with
      | None => false
      | Some e => cls_mem (ccls (d_swap d))
                    (swap_set (edge_swap_models L g (e_src e) (e_dst e)) (ccls (e_model (e_dat e))))
      end && negb (cprot (d_swap d)) && negb (mem (cid (d_swap d)) (used_ids g))
  | Swap, _ => false
  end.

Definition run_step (L : library) (g : graph) (s : op * location * draws) : option graph :=
  match s with
  | (o, l, d) =>
      match possible_locations L o g with
      | None => None
      | Some locs =>
          if existsb (location_eqb l) locs && draws_okb L o g l d then apply_op L o g l d else None
      end
  end.

Fixpoint run_script (L : library) (g : graph) (s : list (op * location * draws)) : option graph :=
  match s with
  | [] => Some g
  | x :: r => match run_step L g x with None => None | Some g' => run_script L g' r end
  end.
