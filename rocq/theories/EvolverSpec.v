(** Specification vocabulary for evolvers. *)
From Coq Require Import List Arith Bool ZArith QArith.
From Verif Require Import Base GraphModel GraphSpec OperatorsModel ParamsModel EvolverModel.
Import ListNotations.
Local Open Scope nat_scope.

(* the operator's own possible_evo_locations *)
Definition places (L : library) (g : graph) (o : op) : list location :=
  match possible_locations L o g with Some locs => locs | None => [] end.
Definition offers (L : library) (g : graph) (o : op) (l : location) : Prop := In l (places L g o).

(* how many (operator, place) pairs are offered in all *)
Definition n_choices (L : library) (ops : list op) (g : graph) : nat :=
  fold_right (fun o n => length (places L g o) + n) 0 ops.

Definition Qnat (n : nat) : Q := inject_Z (Z.of_nat n).

(* the pair the evolver chooses for a uniform draw u *)
Definition pick (L : library) (ops : list op) (ev : evolver) (g : graph) (s : store) (hess : option matrix)
  (sh : list nat -> list nat) (u : Q) : res (location * op) :=
  do rm <- create_matrix L ops ev g s hess sh; sample_matrix (fst rm) ops (snd rm) u.

(* the draws u >= 0 that lead to outcome r are exactly those of an interval of length p inside [0,1] *)
Definition probability (f : Q -> res (location * op)) (r : location * op) (p : Q) : Prop :=
  exists a, (0 <= a)%Q /\ (a + p <= 1)%Q /\
    forall u, (0 <= u)%Q -> (f u = Ok r <-> (a <= u)%Q /\ (u < a + p)%Q).

(* the summed weight of the operators that have a place *)
Definition applicable (L : library) (g : graph) (o : op) : Prop := places L g o <> [].
Definition weight_sum (L : library) (ops : list op) (g : graph) (w : op -> Q) : Q :=
  fold_right (fun o q => (match places L g o with [] => 0 | _ => w o end + q)%Q) 0%Q ops.

(* the edge an interface refers to has this score *)
Definition scored (sc : list ((nat * nat * nat) * Q)) (l : location) (v : Q) : Prop :=
  exists n e, l = LIface n e /\ In (e, v) sc.

(* k is half of n, rounded either way, but at least one *)
Definition about_half (n k : nat) : Prop := 1 <= k /\ k <= n /\ n <= 2 * k + 1 /\ 2 * k <= n + 1.
