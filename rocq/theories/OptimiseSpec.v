(** Specification vocabulary for parameter optimisation. *)
From Coq Require Import List Arith Bool.
From Verif Require Import Base GraphModel ParamsModel FloatModel OptimiseModel.
Import ListNotations.

(* an optimiser of n variables: every vector it asks about or returns has n entries *)
Fixpoint sized (n : nat) (t : strategy) : Prop :=
  match t with
  | Return x _ => length x = n
  | Raise _ => True
  | AskF x k => length x = n /\ forall v, sized n (k v)
  | AskG x k => length x = n /\ forall d, sized n (k d)
  end.

(* an optimiser that, given true values of the objective, returns a true value *)
Fixpoint honest (objective : list pval -> res fl) (t : strategy) : Prop :=
  match t with
  | Return x f => objective x = Ok f
  | Raise _ => True
  | AskF x k => forall v, objective x = Ok v -> honest objective (k v)
  | AskG x k => forall d, honest objective (k d)
  end.

(* the graph holds vector x in its free parameters *)
Definition holds (g : graph) (s : store) (x : list pval) : Prop := exists X, extract g s = Ok X /\ x_params X = x.

(* the objective of graph g with parameters s: the score of g once it holds x and is otherwise unchanged *)
Definition score_at (eval : store -> res fl) (g : graph) (s : store) (x : list pval) : res fl :=
  do X <- extract g s; do s' <- distribute x (x_models X) (x_index X) s; eval s'.
