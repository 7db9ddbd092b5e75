(** Specification vocabulary for the outer loop with speciation. *)
From Coq Require Import List Arith Bool ZArith QArith Permutation Sorted.
From Verif Require Import Base GraphModel GraphSpec OperatorsModel EvolverModel ParamsModel FloatModel PopulationModel SpeciationModel SpeciationSpec DistanceModel TopologyModel SpeciatedModel.
Import ListNotations.
Local Open Scope nat_scope.

(* sets are iterated in some order *)
Definition iterations (orders : nat -> bool -> list nat -> list nat) (picks : nat -> bool -> nat -> list nat -> list nat) : Prop :=
  (forall g b l, Permutation (orders g b l) l) /\ forall g b k l, Permutation (picks g b k l) l.

(* two graphs with descriptors belong together / do not, under each scheme; nothing is claimed for the
   composition scheme *)
Definition alike (sim : world -> world -> res Q) (s : scheme) (x y : descriptor * world) : Prop :=
  match s with
  | SubpopScheme => fst x = fst y
  | EditScheme => exists q, sim (snd x) (snd y) = Ok q /\ (q <= 1 # 100)%Q
  | VectorScheme => True
  | PhotoScheme => False
  end.
Definition unlike (sim : world -> world -> res Q) (s : scheme) (x y : descriptor * world) : Prop :=
  match s with
  | SubpopScheme => fst x <> fst y
  | EditScheme => exists q, sim (snd x) (snd y) = Ok q /\ (1 # 100 < q)%Q
  | VectorScheme => True
  | PhotoScheme => False
  end.
Definition related {A} (R : A -> A -> Prop) (l : list A) (i j : nat) : Prop := exists x y, nth_error l i = Some x /\ nth_error l j = Some y /\ R x y.

(* rep gives for every position of [items] the position of the representative of its species *)
Definition species_of {A} (near far : A -> A -> Prop) (items : list A) (rep : list nat) : Prop :=
  length rep = length items /\
  (forall i r, nth_error rep i = Some r -> nth_error rep r = Some r /\ (i = r \/ related near items r i)) /\
  (forall r r', nth_error rep r = Some r -> nth_error rep r' = Some r' -> r <> r' -> related far items r r' \/ related far items r' r).
(* with no speciation everybody is a species *)
Definition grouping (sim : world -> world -> res Q) (sch : option scheme) (items : list (descriptor * world)) (rep : list nat) : Prop :=
  match sch with None => rep = seq 0 (length items) | Some s => species_of (alike sim s) (unlike sim s) items rep end.
Definition species_size (rep : list nat) (i : nat) : nat :=
  match nth_error rep i with Some r => count_occ Nat.eq_dec rep r | None => 0 end.

(* the weights by which the members of [all] compete in generation g *)
Definition weighed (half : option (nat -> Q)) (g : nat) (size : nat -> nat) (all : list (fl * world)) (ss : list fl) : Prop :=
  length ss = length all /\ forall i s w s', nth_error all i = Some (s, w) -> nth_error ss i = Some s' -> shared half g (size i) s s'.
(* [kept] are n members of [all] with least weight, least first, with the score and graph they had *)
Definition selected (n : nat) (ss : list fl) (all kept : list (fl * world)) : Prop :=
  exists is rest, Permutation (is ++ rest) (seq 0 (length all)) /\ length is = Nat.min n (length all) /\
    StronglySorted (fun i j => forall a b, nth_error ss i = Some a -> nth_error ss j = Some b -> fltb b a = false) (is ++ rest) /\
    Forall2 (fun i x => exists s, nth_error all i = Some (s, snd x) /\ same_fl s (fst x)) is kept.

(* a process in which graphs were made, changed, and optimised by any number of returned runs; between
   runs anything may happen to the graphs except a change of descriptors *)
Inductive lifetime (root : nat -> Q) : process -> Prop :=
| life_new : forall h, lifetime root (mkPr h [] None)
| life_work : forall pr h, lifetime root pr -> length (pr_heap pr) <= length h -> lifetime root (mkPr h (pr_desc pr) (pr_overseer pr))
| life_run : forall pr L ops ev sim rounded opt0 opt lucks orders picks cfg target half u r0 st, lifetime root pr -> iterations orders picks ->
    optimise_topology L ops ev sim rounded root opt0 opt lucks orders picks cfg target half u pr r0 = Ok st -> lifetime root (ss_process st).

(* the rules that do not speciate *)
Definition plain (u : update_rule) : Prop := u = Random \/ u = Preferential \/ u = Roulette \/ u = Tournament.
(* the speciation a rule's name asks for *)
Definition scheme_for (u : update_rule) : option scheme :=
  match u with
  | RouletteEdit | TournamentEdit => Some EditScheme
  | RandomSubpop | PreferentialSubpop => Some SubpopScheme
  | RandomVector | PreferentialVector => Some VectorScheme
  | RandomPhoto | PreferentialPhoto => Some PhotoScheme
  | _ => None
  end.
(* the protection half life counts only with speciation *)
Definition half_for (half : option (nat -> Q)) (sch : option scheme) : option (nat -> Q) := match sch with None => None | Some _ => half end.

(* how many carry the label that position i carries *)
Definition descriptor_eq_dec : forall a b : descriptor, {a = b} + {a <> b}.
Proof. decide equality. apply Nat.eq_dec. Defined.
Definition with_label (ds : list descriptor) (i : nat) : nat := match nth_error ds i with Some d => count_occ descriptor_eq_dec ds d | None => 0 end.

(* a graph with a terminal node *)
Definition has_terminal (w : world) : Prop := exists c, In c (components (w_graph w)) /\ (ccls c = TerminalSource \/ ccls c = TerminalSink).
