(** What a fit of phase noise is, and frequencies of the grid.  Definitions only. *)
From Coq Require Import Reals List Arith.
From Verif Require Import Base.
Import ListNotations.
Local Open Scope R_scope.

Definition total (l : list R) : R := fold_right Rplus 0 l.
(* sum of the squared deviations of the values from c / x^2 *)
Fixpoint deviation (c : R) (xs ys : list R) : R :=
  match xs, ys with x :: xs', y :: ys' => (c / (x * x) - y) ^ 2 + deviation c xs' ys' | _, _ => 0 end.
(* a fit returns a coefficient with the least deviation *)
Definition best_fit (fit : list R -> list R -> res R) : Prop :=
  forall xs ys, xs <> [] -> length xs = length ys -> (forall x, In x xs -> x <> 0) ->
    exists c, fit xs ys = Ok c /\ forall c', deviation c xs ys <= deviation c' xs ys.
(* phase noise in rad^2 / Hz from dBc / Hz, for one of two side bands *)
Definition radians2 (dBc : R) : R := 2 * Rpower 10 (dBc / 10).
(* frequency of entry k of a transform on the simulator's grid *)
Definition bin_frequency (samples : nat) (window : R) (k : nat) : R :=
  - (INR samples / window / 2) + INR ((k + samples / 2) mod samples) * (INR samples / window / INR (samples - 1)).
