(** Specification vocabulary for bounded Adam. *)
From Coq Require Import List QArith.
From Verif Require Import Base FloatModel.
Import ListNotations.

(* finite bounds, each lower one not above the upper one *)
Definition box (lower upper : list fl) : Prop :=
  length lower = length upper /\ forall j a b, nth_error lower j = Some a -> nth_error upper j = Some b -> exists l u, a = Fin l /\ b = Fin u /\ (l <= u)%Q.

(* coordinate j of x lies in the box, at least the fraction [f] of its width away from the faces *)
Definition within (f : Q) (lower upper x : list fl) (j : nat) : Prop :=
  exists l u q, nth_error lower j = Some (Fin l) /\ nth_error upper j = Some (Fin u) /\ nth_error x j = Some (Fin q) /\ (l + (u - l) * f <= q)%Q /\ (q <= u - (u - l) * f)%Q.

Definition is_finite (a : fl) : Prop := exists q, a = Fin q.
Definition all_finite (x : list fl) : Prop := Forall is_finite x.

(* a square root: non-negative numbers have a non-negative one *)
Definition is_root (root : fl -> fl) : Prop := forall q, (0 <= q)%Q -> exists r, root (Fin q) = Fin r /\ (0 <= r)%Q.
