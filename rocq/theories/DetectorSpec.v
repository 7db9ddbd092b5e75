(** What the properties of filters, photodiode and noise mean.  Definitions only,
    independent of the models. *)
From Coq Require Import Reals List Arith.
From Verif Require Import Base Complex.
Import ListNotations.
Local Open Scope R_scope.

(* a signal without imaginary part, and one whose every sample has one *)
Definition real_valued (x : list C) : Prop := forall z, In z x -> im z = 0.
Definition nowhere_real (x : list C) : Prop := forall z, In z x -> im z <> 0.

(* the power gain of an ideal lowpass filter of a given order, at a frequency relative to its corner *)
Definition lowpass_gain (order : nat) (f : R) : R := 1 / (1 + (f ^ order) ^ 2).

(* the mean power of a signal *)
Definition average_power (x : list C) : R := fold_right (fun z e => Cnorm2 z + e) 0 x / INR (length x).
(* two signals have the same power at every sample *)
Definition same_power (x y : list C) : Prop := length x = length y /\ forall j, (j < length x)%nat -> Cnorm2 (nth j x C0) = Cnorm2 (nth j y C0).
(* a signal that is not zero everywhere *)
Definition alive (x : list C) : Prop := exists z, In z x /\ z <> C0.
(* a signal y is a signal x with e added *)
Definition added (x e y : list C) : Prop := length e = length x /\ length y = length x /\ forall j, (j < length x)%nat -> nth j y C0 = Cadd (nth j x C0) (nth j e C0).
(* a bell curve of height one that falls to one half at 1/2 and -1/2 *)
Definition bell (t : R) : R := Rpower 2 (- (2 * t) ^ 2).
