(** Specification vocabulary for the optimisation log. *)
From Coq Require Import List Arith ZArith QArith.
From Verif Require Import Base FloatModel LoggerModel.
Import ListNotations.
Local Open Scope nat_scope.

(* generation r of a run with n scores per generation: scores r*n, ..., r*n + n - 1, as far as they exist *)
Definition generation (n r : nat) (scores : list fl) : list fl := firstn n (skipn (r * n) scores).

Definition least (x : fl) (l : list fl) : Prop := In x l /\ forall y, In y l -> fltb y x = false.
Definition greatest (x : fl) (l : list fl) : Prop := In x l /\ forall y, In y l -> fltb x y = false.

(* the sum of finite scores *)
Fixpoint total (l : list fl) (s : Q) : Prop :=
  match l with [] => (s == 0)%Q | Fin q :: r => exists t, total r t /\ (s == q + t)%Q | _ => False end.

(* what row r must say after the scores of algorithm a with n scores per generation: the mean column times n is
   the sum of the scores seen so far *)
Definition row_of (a : alg) (n r : nat) (scores : list fl) (w : row) : Prop :=
  let g := generation n r scores in
  r_alg w = Some a /\ r_gen w = Z.of_nat r /\ r_pop w = Z.of_nat n /\ (~ In NaN g -> least (r_min w) g /\ greatest (r_max w) g) /\
  (forall s, total g s -> exists q, r_mean w = Fin q /\ (q * inject_Z (Z.of_nat n) == s)%Q).
