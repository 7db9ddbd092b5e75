(** What the properties of the optical components mean.  Definitions only,
    independent of the models of the components. *)
From Coq Require Import Reals List Arith.
From Verif Require Import Base Complex.
Import ListNotations.
Local Open Scope R_scope.

(* the power of sample t of a field *)
Definition sample_power (x : list C) (t : nat) : R := Cnorm2 (nth t x C0).
(* the energy of a field, up to the duration of one sample *)
Definition energy (x : list C) : R := fold_right (fun z e => Cnorm2 z + e) 0 x.
(* the power at sample t of several fields together *)
Definition total_power (xs : list (list C)) (t : nat) : R := fold_right (fun x e => sample_power x t + e) 0 xs.

(* a call that succeeds, gives a field of the same length and satisfies a relation to the input *)
Definition yields (x : list C) (r : res (list C)) (P : list C -> Prop) : Prop := exists y, r = Ok y /\ length y = length x /\ P y.

(* the share of output j in a cascade of couplers: coupler k passes on the fraction a_k *)
Fixpoint share (a : list R) (j : nat) : R :=
  match a, j with
  | [], O => 1
  | [], S _ => 0
  | x :: _, O => 1 - x
  | x :: r, S k => x * share r k
  end.
Definition fraction (x : R) : Prop := 0 <= x <= 1.

(* the field moved m samples towards the start, around the ends *)
Definition advanced (m : nat) (x y : list C) : Prop := length y = length x /\ forall j, (j < length x)%nat -> nth j y C0 = nth ((j + m) mod length x) x C0.

(* the arguments with which a grid is used *)
Definition usable (samples : nat) (window : R) : Prop := (2 <= samples)%nat /\ 0 < window.

(* a bin of the wave shaper (12 GHz wide) spans n whole samples of a spectrum of N samples over a window *)
Definition bin_spans (samples : nat) (window : R) (n : nat) : Prop :=
  INR n <= INR samples * (window / INR (samples - 1)) * (12 * 10 ^ 9) < INR n + 1.

(* the fields at sample t of several inputs, added with the phases -2 pi i / inputs *)
Definition superposed (n_in : nat) (states : list (list C)) (t : nat) : C := csum n_in (fun i => Cmul (cis (- (2 * PI * INR i / INR n_in))) (nth t (nth i states []) C0)).

(* the offset of the grid: zero for odd sample counts, half a step for even ones *)
Definition offset (n : nat) : R := if Nat.even n then / 2 else 0.
