(** What the sensitivity scores should be. *)
From Coq Require Import List Arith ZArith QArith Qabs.
Import ListNotations.
Local Open Scope nat_scope.

(* entry (i, j) of a square matrix of size n given by rows *)
Definition square (h : list (list Q)) : Prop := forall r, In r h -> length r = length h.
Definition entry (h : list (list Q)) (i j : nat) (q : Q) : Prop := exists r, nth_error h i = Some r /\ nth_error r j = Some q.

(* the sum of a list of numbers *)
Inductive sums : list Q -> Q -> Prop :=
| sums_nil : sums [] 0
| sums_cons : forall a l s s', sums l s -> (s' == a + s)%Q -> sums (a :: l) s'.

(* q is the mean absolute value of the entries of row i and column i *)
Definition coupling (h : list (list Q)) (i : nat) (q : Q) : Prop :=
  exists r c sr sc, length r = length h /\ length c = length h /\
    (forall j, j < length h -> exists a b, entry h i j a /\ entry h j i b /\ nth_error r j = Some (Qabs a) /\ nth_error c j = Some (Qabs b)) /\
    sums r sr /\ sums c sc /\ (q * (2 * inject_Z (Z.of_nat (length h))) == sr + sc)%Q.
