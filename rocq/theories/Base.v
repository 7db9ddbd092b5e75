(** Python exceptions as values.  Definitions only. *)
From Coq Require Import List.
Import ListNotations.

Inductive exn :=
| KeyError | IndexError | TypeError | ValueError | AttributeError | ZeroDivisionError
| AssertionError | RuntimeError | RuntimeWarning | Unfeasible (* networkx.NetworkXUnfeasible *)
| NameError | NotImplementedError | ModuleNotFoundError | OutOfFuel (* a loop of the model ran out of fuel: not a result *).

Inductive res (A : Type) := Ok (a : A) | Err (e : exn).
Arguments Ok {A} a.
Arguments Err {A} e.

Definition bind {A B} (r : res A) (f : A -> res B) : res B :=
  match r with Ok a => f a | Err e => Err e end.

Notation "'do' x <- r ; k" := (bind r (fun x => k)) (at level 200, x pattern, r at level 100, k at level 200).

Definition of_option {A} (e : exn) (o : option A) : res A :=
  match o with Some a => Ok a | None => Err e end.

Fixpoint map_res {A B} (f : A -> res B) (l : list A) : res (list B) :=
  match l with
  | [] => Ok []
  | a :: r => do b <- f a; do bs <- map_res f r; Ok (b :: bs)
  end.

Fixpoint fold_res {A S} (f : S -> A -> res S) (l : list A) (s : S) : res S :=
  match l with
  | [] => Ok s
  | a :: r => do s' <- f s a; fold_res f r s'
  end.

(* l[i] = x on a list; None = IndexError *)
Fixpoint set_nth {A} (i : nat) (x : A) (l : list A) : option (list A) :=
  match l, i with
  | [], _ => None
  | _ :: r, O => Some (x :: r)
  | a :: r, S j => match set_nth j x r with Some r' => Some (a :: r') | None => None end
  end.
