(** Specification vocabulary for component parameters. *)
From Coq Require Import List Arith Bool QArith.
From Verif Require Import Base GraphModel GraphSpec ParamsModel.
Import ListNotations.
Local Open Scope nat_scope.

(* component object i has attributes o and current parameter list ps *)
Definition has (s : store) (i : nat) (o : obj) (ps : list pval) : Prop :=
  assoc i (s_objs s) = Some o /\ assoc (o_list o) (s_lists s) = Some ps.

(* parameter k of an object is free: neither the object nor the parameter is locked *)
Definition free (o : obj) (k : nat) : Prop := o_lock o = false /\ nth_error (o_locks o) k = Some false.

(* every free parameter has a value, bounds, a type and a step *)
Definition readable (s : store) (i : nat) : Prop :=
  exists o ps, has s i o ps /\ forall k, free o k ->
    k < length ps /\ k < length (o_lo o) /\ k < length (o_hi o) /\ k < length (o_types o) /\ k < length (o_steps o).

(* a component c sits at place pl *)
Definition sits (g : graph) (c : comp) (pl : place) : Prop :=
  match pl with
  | PNode n => model_at g n c
  | PEdge i => exists e, In e (g_edges g) /\ (e_src e, e_dst e, e_key e) = i /\ e_model (e_dat e) = c
  end.

Definition used (g : graph) (i : nat) : Prop := exists c pl, sits g c pl /\ cid c = i.

Definition all_readable (g : graph) (s : store) : Prop := forall i, used g i -> readable s i.

(* no parameter list serves two places *)
Definition unshared (g : graph) (s : store) : Prop :=
  forall c pl c' pl' o ps o' ps', sits g c pl -> sits g c' pl' -> has s (cid c) o ps -> has s (cid c') o' ps' ->
    o_list o = o_list o' -> pl = pl'.

(* entry k of an object's list *)
Definition value (s : store) (i k : nat) (v : pval) : Prop :=
  exists o ps, has s i o ps /\ nth_error ps k = Some v.

(* free parameters lie between their bounds *)
Definition within (s : store) (i : nat) : Prop :=
  exists o ps, has s i o ps /\ forall k, free o k -> exists v lo hi,
    nth_error ps k = Some (Num v) /\ nth_error (o_lo o) k = Some (Num lo) /\ nth_error (o_hi o) k = Some (Num hi) /\
    (lo <= v)%Q /\ (v <= hi)%Q.
Definition all_within (g : graph) (s : store) : Prop := forall i, used g i -> within s i.

(* two stores that agree on everything but free parameters of graph g *)
Definition same_except_free (g : graph) (s s' : store) : Prop :=
  s_objs s' = s_objs s /\ map fst (s_lists s') = map fst (s_lists s) /\
  forall l ps, assoc l (s_lists s) = Some ps -> exists ps', assoc l (s_lists s') = Some ps' /\ length ps' = length ps /\
    forall k, (forall i o qs, used g i -> has s i o qs -> free o k -> o_list o <> l) -> nth_error ps' k = nth_error ps k.

(* a bound pair from which every draw stays inside: ordered, and both end points
   multiples of the step (of one for integers) *)
Definition sampleable (lo hi : pval) (step : option Q) (t : dtype) : Prop :=
  exists a b, lo = Num a /\ hi = Num b /\
    match t, step with
    | DFloat, None => (a <= b)%Q
    | DFloat, Some st => (0 < st)%Q /\ (a <= b)%Q /\ exists m n, (a == inject_Z m * st)%Q /\ (b == inject_Z n * st)%Q
    | DInt, None => exists m n, (a == inject_Z m)%Q /\ (b == inject_Z n)%Q /\ (m < n)%Z
    | DInt, Some st => (0 < st)%Q /\ exists m n, (a == inject_Z m * st)%Q /\ (b == inject_Z n * st)%Q /\ (m < n)%Z
    | DOther, _ => False
    end.
(* all free parameters of the graph are of that kind *)
Definition all_sampleable (g : graph) (s : store) : Prop :=
  forall i o ps k, used g i -> has s i o ps -> free o k -> exists lo hi st t,
    nth_error (o_lo o) k = Some lo /\ nth_error (o_hi o) k = Some hi /\ nth_error (o_steps o) k = Some st /\
    nth_error (o_types o) k = Some t /\ sampleable lo hi st t.
(* draws of np.random.uniform *)
Definition frac_ok (rs : nat -> rnd) : Prop := forall i, (0 <= r_frac (rs i))%Q /\ (r_frac (rs i) < 1)%Q.
