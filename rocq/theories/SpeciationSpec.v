(** Specification vocabulary for speciation. *)
From Coq Require Import List Arith Bool ZArith QArith Permutation Sorted.
From Verif Require Import Base FloatModel PopulationModel SpeciationModel.
Import ListNotations.
Local Open Scope nat_scope.

Section Spec.
Variable dist : nat -> nat -> res fl.

(* closer than the threshold / not closer *)
Definition close (thresh : Q) (a b : nat) : Prop := exists d, dist a b = Ok d /\ fltb d (Fin thresh) = true.
Definition apart (thresh : Q) (a b : nat) : Prop := exists d, dist a b = Ok d /\ fltb d (Fin thresh) = false.

(* how many individuals are assigned to rep *)
Definition members (m : dict nat) (rep : nat) (p : population) : nat :=
  length (filter (fun x => match dget m (snd x) with Some r => Nat.eqb r rep | None => false end) p).

(* the manager sp divides the population p into species *)
Record divided (thresh : Q) (p : population) (sp : manager) : Prop := {
  dv_assigned : forall x, In x p -> exists rep, dget (sp_map sp) (snd x) = Some rep /\ In rep (dkeys (sp_species sp)) /\ (rep = snd x \/ close thresh rep (snd x));
  dv_only : forall g rep, dget (sp_map sp) g = Some rep -> In g (map snd p);
  dv_reps : forall rep, In rep (dkeys (sp_species sp)) -> In rep (map snd p) /\ dget (sp_map sp) rep = Some rep;
  dv_sizes : forall rep n, dget (sp_species sp) rep = Some n -> n = members (sp_map sp) rep p /\ 0 < n;
  dv_once : NoDup (dkeys (sp_species sp));
  dv_total : list_sum (map snd (sp_species sp)) = length p;
  dv_apart : ForallOrdPairs (apart thresh) (dkeys (sp_species sp)) }.
End Spec.

(* the orders a set may be iterated in *)
Definition set_orders (order : list nat) (pick : nat -> list nat -> list nat) (sp : manager) : Prop :=
  Permutation order (dkeys (sp_species sp)) /\ forall k l, Permutation (pick k l) l.

(* a manager after any number of successful speciate calls with arbitrary populations, distances and orders *)
Inductive managed (target : option Z) (root : nat -> Q) (d0 : Q) : nat -> manager -> Prop :=
| mg_new : forall sp, new_speciation d0 = Ok sp -> managed target root d0 0 sp
| mg_next : forall n sp dist order pick p sp', managed target root d0 n sp -> set_orders order pick sp ->
    speciate target dist root order pick sp p = Ok sp' -> managed target root d0 (S n) sp'.

(* the entries of l at the given positions: any truncation, selection or reordering *)
Definition picked {A} (is : list nat) (l : list A) : list A := flat_map (fun i => match nth_error l i with Some x => [x] | None => [] end) is.

(* the same number *)
Definition same_fl (a b : fl) : Prop :=
  match a, b with Fin x, Fin y => (x == y)%Q | PInf, PInf | NInf, NInf | NaN, NaN => True | _, _ => False end.
Definition same_individual (x y : individual) : Prop :=
  snd x = snd y /\ match fst x, fst y with Some a, Some b => same_fl a b | None, None => True | _, _ => False end.

(* no individual scores better than one before it *)
Definition in_order (p : population) : Prop := StronglySorted (fun x y : individual => forall a b, fst x = Some a -> fst y = Some b -> fltb b a = false) p.

(* a score in a species of n members during fitness sharing; d gen is the remaining protection *)
Definition shared (half : option (nat -> Q)) (gen n : nat) (s s' : fl) : Prop :=
  match s with
  | Fin q => exists q', s' = Fin q' /\
      match half with
      | None => (q' == q * inject_Z (Z.of_nat n))%Q
      | Some d => let c := (d gen * inject_Z (Z.of_nat n))%Q in ((1 <= c)%Q -> (q' == q * c)%Q) /\ ((c <= 1)%Q -> (q' == q)%Q)
      end
  | _ => s' = s
  end.
