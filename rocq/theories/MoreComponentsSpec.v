(** What C61-C64 mean.  Definitions only, independent of the models. *)
From Coq Require Import Reals List Arith ZArith.
From Verif Require Import Base Complex ComponentSpec.
Import ListNotations.
Local Open Scope R_scope.

(* the band of the programmable filter, in hertz *)
Definition shaped_band : R := 5 * 10 ^ 12.
(* h is a whole number nearest to half of the band counted in frequency steps,
   the step being samples / window / (samples - 1) *)
Definition half_band_steps (samples : nat) (window : R) (h : Z) : Prop :=
  Rabs (shaped_band / 2 / (INR samples / window / INR (samples - 1)) - IZR h) <= / 2.
(* the part of the grid beyond the ends of the shape: window * band / 2 over h, at least one *)
Definition overshoot (window : R) (h : Z) : R := Rmax 1 (window * (shaped_band / 2) / IZR h).

(* the inputs added without phases, at sample t *)
Definition plain_sum (states : list (list C)) (t : nat) : C := csum (length states) (fun i => nth t (nth i states []) C0).
Definition plain_energy (samples : nat) (states : list (list C)) : R := rsum samples (fun t => Cnorm2 (plain_sum states t)).
(* the energy of several fields together *)
Definition outputs_energy (outs : list (list C)) : R := fold_right (fun o e => energy o + e) 0 outs.
(* a soft step of width 1/500 *)
Definition soft_step (u : R) : R := 1 / (1 + exp (- (500 * u))).
(* position of component k of a spectrum of n samples between the lowest (0) and the highest frequency (1) *)
Definition place_in_band (n k : nat) : R := INR ((k + n / 2) mod n) / INR (n - 1).
