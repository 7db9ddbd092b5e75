(** Specification vocabulary for the genetic parameter search. *)
From Coq Require Import List Arith Bool Permutation Sorted.
From Verif Require Import Base FloatModel.
Import ListNotations.

Section Spec.
Context {A : Type}.

(* n genes, each allowed at its position *)
Definition candidate (n : nat) (P : nat -> A -> Prop) (x : list A) : Prop := length x = n /\ forall i a, nth_error x i = Some a -> P i a.

(* evaluating a good candidate gives f and keeps Inv *)
Definition computes {St} (Inv : St -> Prop) (good : list A -> Prop) (func : list A -> St -> St * res fl) (f : list A -> res fl) : Prop :=
  forall s x, Inv s -> good x -> exists s', func x s = (s', f x) /\ Inv s'.
(* logging keeps Inv, whether or not it raises *)
Definition keeps {St} (Inv : St -> Prop) (note : list fl -> St -> St * res unit) : Prop := forall l s, Inv s -> Inv (fst (note l s)).
(* logging succeeds and keeps Inv *)
Definition harmless {St} (Inv : St -> Prop) (note : list fl -> St -> St * res unit) : Prop :=
  forall l s, Inv s -> exists s', note l s = (s', Ok tt) /\ Inv s'.

(* what Python's sort does to (score, candidate) pairs: it only reorders, and without NaN the result is ascending *)
Definition python_sort (sort : list (fl * list A) -> list (fl * list A)) : Prop :=
  forall l, Permutation (sort l) l /\
    ((forall x, In x l -> fst x <> NaN) -> StronglySorted (fun x y => fltb (fst y) (fst x) = false) (sort l)).
End Spec.
