(** Specification vocabulary for the layout: longest distances. *)
From Coq Require Import List Arith Permutation QArith.
From Verif Require Import Base GraphModel GraphSpec LayoutModel.
Import ListNotations.
Local Open Scope nat_scope.

(* a walk of k connections *)
Inductive steps (g : graph) (u : node) : nat -> node -> Prop :=
| steps_0 : steps g u 0 u
| steps_S : forall k v w, steps g u k v -> connects g v w -> steps g u (S k) w.

(* the longest walk from u to v has k connections *)
Definition longest (g : graph) (u v : node) (k : nat) : Prop :=
  steps g u k v /\ forall j, steps g u j v -> j <= k.

(* the call never ends *)
Definition never_ends (enum : list node -> list node) (rand : nat -> Q) (g : graph) : Prop :=
  forall fuel, optical_system_layout enum rand g fuel = Err OutOfFuel.
(* the call ends with this result *)
Definition ends_with (enum : list node -> list node) (rand : nat -> Q) (g : graph) (r : res positions) : Prop :=
  r <> Err OutOfFuel /\ exists enough, forall fuel, enough <= fuel -> optical_system_layout enum rand g fuel = r.
