(** What the condensed comparison of parameter optimisers should show, said without the model's helpers. *)
From Coq Require Import List Reals.
From Verif Require Import CompareModel.
Import ListNotations.
Local Open Scope R_scope.

(* at least two records, one after the other in time, none before the start of the clock *)
Definition in_time (l : log) : Prop :=
  (2 <= List.length l)%nat /\ (forall r, In r l -> 0 <= fst r) /\
  forall i j a b, (i < j)%nat -> nth_error l i = Some a -> nth_error l j = Some b -> fst a < fst b.

(* the broken line through the records *)
Definition on_line (l : log) (t v : R) : Prop :=
  exists before a b after, l = before ++ a :: b :: after /\ fst a <= t <= fst b /\
    v = snd a + (t - fst a) / (fst b - fst a) * (snd b - snd a).

Definition first_at (l : log) (t : R) : Prop := exists v rest, l = (t, v) :: rest.
Definition final_record (l : log) (r : R * R) : Prop := exists before, l = before ++ [r].
Definition started (l : log) (t : R) : Prop := exists t0, first_at l t0 /\ t0 <= t.

(* the time at which the first of the runs ends *)
Definition first_end (logs : list log) (e : R) : Prop :=
  (exists l r, In l logs /\ final_record l r /\ fst r = e) /\
  forall l r, In l logs -> final_record l r -> e <= fst r.

Inductive total : list R -> R -> Prop :=
| total_nil : total [] 0
| total_cons : forall x r s, total r s -> total (x :: r) (x + s).
Definition mean_of (vs : list R) (m : R) : Prop := exists s, total vs s /\ m * INR (List.length vs) = s.
Definition least_of (vs : list R) (m : R) : Prop := In m vs /\ forall x, In x vs -> m <= x.
Definition greatest_of (vs : list R) (m : R) : Prop := In m vs /\ forall x, In x vs -> x <= m.

(* the numbers of those runs that have begun, in the order of the runs *)
Inductive values_at (t : R) : list log -> list R -> Prop :=
| values_none : values_at t [] []
| values_wait : forall l r vs, ~ started l t -> values_at t r vs -> values_at t (l :: r) vs
| values_take : forall l r v vs, started l t -> on_line l t v -> values_at t r vs -> values_at t (l :: r) (v :: vs).

Definition shows (p : point) (vs : list R) : Prop :=
  match vs with
  | [] => p_line p = None /\ p_low p = None /\ p_high p = None
  | _ => exists m a b, p_line p = Some m /\ p_low p = Some a /\ p_high p = Some b /\
         mean_of vs m /\ least_of vs a /\ greatest_of vs b
  end.
