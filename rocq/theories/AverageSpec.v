(** What an average over runs is (C92); independent of the model's loops. *)
From Coq Require Import List Arith Reals String Sorted.
From Verif Require Import AverageModel.
Import ListNotations.
Local Open Scope R_scope.

(* a log as a run writes it: each row once, in increasing order *)
Definition log_ok (l : frame) : Prop := StronglySorted lt (f_rows l).
(* the numbers that runs have in a column at a row *)
Definition here (col : string) (ls : list frame) (g : nat) : list R :=
  flat_map (fun l => if in_dec Nat.eq_dec g (f_rows l) then match f_cell l col g with Some x => [x] | None => [] end else []) ls.
Definition total (xs : list R) : R := fold_right Rplus 0 xs.
Definition mean (xs : list R) : R := total xs / INR (List.length xs).

(* what is drawn at row g: the total of the numbers there over the number of all runs *)
Definition shown (col : string) (ls : list frame) (g : nat) : option R :=
  match here col ls g with [] => None | xs => Some (total xs / INR (List.length ls)) end.
(* rows that some run has, in increasing order *)
Definition rows_of (ls : list frame) (rows : list nat) : Prop :=
  StronglySorted lt rows /\ forall g, In g rows <-> exists l, In l ls /\ In g (f_rows l).
