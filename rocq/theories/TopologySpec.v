(** Specification vocabulary for the outer optimisation loop. *)
From Coq Require Import List Arith Bool ZArith QArith Permutation Sorted.
From Verif Require Import Base GraphModel OperatorsModel ParamsModel EvolverModel FloatModel HofModel PopulationModel TopologyModel.
Import ListNotations.
Local Open Scope nat_scope.

(* [kept] are n best of [all], best first (all of them if there are fewer) *)
Definition n_best (n : nat) (all kept : list (fl * world)) : Prop :=
  exists rest, Permutation (kept ++ rest) all /\ length kept = Nat.min n (length all) /\
    StronglySorted (fun a b => fltb (fst b) (fst a) = false) (kept ++ rest).

(* the lowest of the scores in l *)
Definition lowest (l : list (fl * world)) (s : fl) : Prop :=
  (exists w, In (s, w) l) /\ forall s' w, In (s', w) l -> fltb s' s = false.

Definition scored (p : population) : Prop := forall x, In x p -> fst x <> None.
