(** Specification vocabulary for population updates. *)
From Coq Require Import List Arith Bool ZArith QArith.
From Verif Require Import Base GraphModel GraphSpec OperatorsModel OperatorsSpec ParamsModel EvolverModel EvolveSpec FloatModel PopulationModel.
Import ListNotations.
Local Open Scope nat_scope.

(* no object that existed before has changed *)
Definition unchanged (h h' : heap) : Prop := forall r w, nth_error h r = Some w -> nth_error h' r = Some w.

(* the object at r' is what one successful evolution with the random numbers d makes of the object at r *)
Definition offspring (L : library) (ops : list op) (ev : evolver) (gen : option Q) (d : dice) (h h' : heap) (r r' : nat) : Prop :=
  exists w w' o, nth_error h r = Some w /\ evolve_graph L ops ev gen w (d w) = (w', Ok o) /\ nth_error h' r' = Some w'.

(* any number of evolution calls on one object, at least one *)
Inductive evolved (L : library) (ops : list op) (ev : evolver) (gen : option Q) (ds : nat -> dice) : world -> world -> Prop :=
| evolved_once : forall i w w' o, evolve_graph L ops ev gen w (ds i w) = (w', Ok o) -> evolved L ops ev gen ds w w'
| evolved_more : forall i w w' w'' o, evolved L ops ev gen ds w w' -> evolve_graph L ops ev gen w' (ds i w') = (w'', Ok o) -> evolved L ops ev gen ds w w''.

(* best first *)
Definition by_rank (p : population) : Prop :=
  forall i j si sj ri rj, i <= j -> nth_error p i = Some (Some si, ri) -> nth_error p j = Some (Some sj, rj) -> fltb sj si = false.

(* as many as the elitism ratio asks for, to the nearest integer *)
Definition nearest (k : Z) (x : Q) : Prop := (inject_Z k - (1 # 2) <= x)%Q /\ (x <= inject_Z k + (1 # 2))%Q.
Definition elites (ratio : Q) (p e : population) : Prop :=
  exists k rest, p = e ++ rest /\ nearest k (ratio * inject_Z (Z.of_nat (length p))) /\
    ((0 <= k)%Z -> length e = Nat.min (Z.to_nat k) (length p)) /\ ((k < 0)%Z -> length e = length p - Z.to_nat (- k)).

Definition holds_all (h : heap) (p : population) : Prop := forall s r, In (s, r) p -> r < length h.

(* the spin of the wheel picks i exactly for the draws in an interval of length q *)
Definition chance_of (f : Q -> option nat) (i : nat) (q : Q) : Prop :=
  exists a, (0 <= a)%Q /\ (a + q <= 1)%Q /\ forall u, (0 <= u)%Q -> (f u = Some i <-> (a <= u)%Q /\ (u < a + q)%Q).

(* every individual's graph is what the theorems on evolution need *)
Definition graphs_of (h : heap) (p : population) (P : world -> Prop) : Prop :=
  forall x w, In x p -> nth_error h (snd x) = Some w -> P w.

(* the free parameters of w, position by position, replaced by vs as far as both reach; nothing else changes *)
Definition imposed (vs : list pval) (w w' : world) : Prop :=
  exists x x', extract (w_graph w) (w_store w) = Ok x /\ extract (w_graph w') (w_store w') = Ok x' /\
    x_params x' = firstn (length (x_params x)) vs ++ skipn (length vs) (x_params x) /\
    x_models x' = x_models x /\ x_index x' = x_index x /\ x_lo x' = x_lo x /\ x_hi x' = x_hi x /\
    w_graph w' = w_graph w /\ w_parent w' = w_parent w /\ w_mut w' = w_mut w /\ w_cur w' = w_cur w.

(* a graph object somebody built and then used in a session *)
Definition in_use (L : library) (ops : list op) (w : world) : Prop :=
  exists nodes edges cur parent g w0, NoDup (map fst nodes) /\
    NoDup (map (fun p => cid (snd p)) nodes ++ map (fun p => cid (snd p)) edges) /\
    init_graph nodes edges = Some g /\ typed g /\ new_world nodes edges cur parent = Ok w0 /\ session L ops w0 w.

(* the offspring of one parent w with free parameters vs, in the order they were made: the last is what
   evolution makes of the parent, each of the others is that with the parent's vector imposed on it *)
Definition litter (L : library) (ops : list op) (ev : evolver) (gen : option Q) (ds : nat -> dice) (w : world) (vs : list pval) (kids : list world) : Prop :=
  exists before final, kids = before ++ [final] /\
    (exists i o, evolve_graph L ops ev gen w (ds i w) = (final, Ok o)) /\
    forall k, In k before -> exists i o w1, evolve_graph L ops ev gen w (ds i w) = (w1, Ok o) /\ imposed vs w1 k.

(* every individual is scored with a finite number *)
Definition finite_scores (p : population) (qs : list Q) : Prop := map fst p = map (fun q => Some (Fin q)) qs.
(* all positive or all negative *)
Definition one_sign (qs : list Q) : Prop := (forall q, In q qs -> 0 < q)%Q \/ (forall q, In q qs -> q < 0)%Q.
