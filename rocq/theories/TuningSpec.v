(** Specification vocabulary for the tuning utilities. *)
From Coq Require Import List Arith Bool ZArith QArith.
From Verif Require Import Base GraphModel GraphSpec ParamsModel ParamsSpec FloatModel OptimiseSpec TuningModel.
Import ListNotations.
Local Open Scope nat_scope.

(* every entry is a number between the bounds the graph has for it *)
Definition in_range (g : graph) (s : store) (v : list pval) : Prop :=
  exists x, extract g s = Ok x /\ length v = length (x_params x) /\
    forall i a lo hi, nth_error v i = Some a -> nth_error (x_lo x) i = Some lo -> nth_error (x_hi x) i = Some hi ->
      exists q l h, a = Num q /\ lo = Num l /\ hi = Num h /\ (l <= q)%Q /\ (q <= h)%Q.

Section Spec.
Context {M : Type}.
Variable evaluate : store -> M -> M * res fl.

(* the evaluator never raises *)
Definition always_scores : Prop := forall s m, exists v, snd (evaluate s m) = Ok v.

(* one evaluation after the other of graph g, which had the parameters s0: each time other free
   parameters inside the bounds are written, nothing else, and the score is the evaluator's *)
Inductive evaluations (g : graph) (s0 : store) : store -> M -> list (fl * list pval) -> store -> M -> Prop :=
| no_more : forall s m, evaluations g s0 s m [] s m
| one_more : forall s m s1 v sc m1 l s2 m2,
    holds g s1 v -> in_range g s0 v -> same_except_free g s0 s1 -> evaluate s1 m = (m1, Ok sc) ->
    evaluations g s0 s1 m1 l s2 m2 -> evaluations g s0 s m ((sc, v) :: l) s2 m2.
End Spec.

Fixpoint total (l : list Q) : Q := match l with [] => 0 | x :: r => x + total r end%Q.
(* a row of the log holds number, mean, variance, maximum and minimum of the scores *)
Definition describes (r : logrow) (generation : nat) (scores : list Q) : Prop :=
  let n := inject_Z (Z.of_nat (length scores)) in
  lr_generation r = generation /\ lr_size r = length scores /\
  exists mean var lo hi, lr_mean r = Fin mean /\ lr_var r = Fin var /\ lr_min r = Fin lo /\ lr_max r = Fin hi /\
    (mean * n == total scores)%Q /\ (var * n == total (map (fun x => (x - mean) ^ 2) scores))%Q /\
    In lo scores /\ (forall x, In x scores -> (lo <= x)%Q) /\ In hi scores /\ (forall x, In x scores -> (x <= hi)%Q).

(* the entries at the positions [from_mutant] are the mutant's, the others the parent's *)
Definition mixture (parent mutant child : list pval) (from_mutant : list nat) : Prop :=
  length child = length mutant /\
  forall i, (In i from_mutant -> nth_error child i = nth_error mutant i) /\ (~ In i from_mutant -> nth_error child i = nth_error parent i).
