(** Specification vocabulary for the hall of fame, independent of how it is updated. *)
From Coq Require Import List Arith Bool QArith Qabs Sorted.
From Verif Require Import Base FloatModel HofModel.
Import ListNotations.
Local Open Scope nat_scope.

Section Spec.
Variable G : Type.
Variable sim : G -> G -> res Q.
Variable threshold : Q.

(* the measured distance is at most the threshold, or indistinguishable from it *)
Definition similar (a b : G) : Prop :=
  exists d, sim a b = Ok d /\ (d <= threshold \/ Qabs (d - threshold) <= (1 # 100000000) + (1 # 100000) * Qabs threshold)%Q.

Definition no_nan (l : list (fl * G)) : Prop := forall s g, In (s, g) l -> s <> NaN.

(* scored entries from best to worst, then empty slots *)
Definition ranked (h : hof G) : Prop :=
  exists entries free, h = map Some entries ++ repeat None free /\
    StronglySorted (fun a b => fltb (fst b) (fst a) = false) entries.

(* the i-th graph ever presented is the best of its kind, the earliest of the equally good ones *)
Definition champion (history : list (fl * G)) (i : nat) : Prop :=
  exists s g, nth_error history i = Some (s, g) /\
    (forall i' s' g', i' < i -> nth_error history i' = Some (s', g') -> similar g g' -> fltb s s' = true) /\
    (forall i' s' g', i < i' -> nth_error history i' = Some (s', g') -> similar g g' -> fltb s' s = false).

(* better score first, earlier presentation first among equals *)
Definition before (history : list (fl * G)) (i i' : nat) : Prop :=
  exists s g s' g', nth_error history i = Some (s, g) /\ nth_error history i' = Some (s', g') /\
    (fltb s s' = true \/ fltb s' s = false /\ i < i').

(* the hall of fame holds the n best champions, in order; free slots are empty *)
Definition holds_best (history : list (fl * G)) (n : nat) (h : hof G) : Prop :=
  exists ranking, StronglySorted (before history) ranking /\ (forall i, In i ranking <-> champion history i) /\
    h = firstn n (map (nth_error history) ranking ++ repeat None n).
End Spec.
Arguments no_nan {G} l.
Arguments ranked {G} h.
Arguments similar {G} sim threshold a b.
Arguments champion {G} sim threshold history i.
Arguments before {G} history i i'.
Arguments holds_best {G} sim threshold history n h.
