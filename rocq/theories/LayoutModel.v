(** Model of Graph.optical_system_layout, lib/graph.py:375-413.  Definitions only. *)
From Coq Require Import List Arith Bool QArith.
From Verif Require Import Base GraphModel ParamsModel.
Import ListNotations.
Local Open Scope nat_scope.

(* pos: node -> (row, column); a Python dictionary *)
Definition positions := list (node * (nat * Q)).

(* [enum] is the order in which Python walks through a set, [rand i] the i-th np.random.rand() *)
Section Layout.
Variable enum : list node -> list node.
Variable rand : nat -> Q.
Variable g : graph.

(* lines 394-396: positions of one row; [i] random numbers were used before *)
Fixpoint place_row (r : nat) (row : list node) (i : nat) (pos : positions) : positions * nat :=
  match row with
  | [] => (pos, i)
  | n :: rest => place_row r rest (S i) (put n (r, (rand i * 4)%Q) pos)
  end.

(* lines 393, 396: all successors of the row, as a set *)
Definition successors_of (row : list node) : list node := nodup Nat.eq_dec (flat_map (suc g) row).
(* lines 398-410: drop those with an ancestor in the set *)
Definition next_row (row : list node) : list node :=
  let nr := successors_of row in
  filter (fun n => negb (existsb (fun m => is_ancestor g m n) nr)) nr.

(* lines 384-413; one unit of fuel per round of the while loop *)
Fixpoint layout_loop (fuel : nat) (r : nat) (row remaining : list node) (i : nat) (pos : positions) : res positions :=
  match fuel with
  | O => Err OutOfFuel
  | S f =>
      match remaining with
      | [] => Ok pos
      | _ =>
          let (pos', i') := place_row r (enum row) i pos in
          layout_loop f (S r) (next_row row) (filter (fun n => negb (mem n row)) remaining) i' pos'
      end
  end.

Definition optical_system_layout (fuel : nat) : res positions :=
  match topological_sort g with
  | None => Err Unfeasible
  | Some [] => Err IndexError
  | Some (n :: o) => layout_loop fuel 0 [n] (n :: o) 0 []
  end.
End Layout.
