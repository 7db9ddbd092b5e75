(** What the analysis of second derivatives means. *)
From Coq Require Import Reals List Arith Permutation.
From Verif Require Import Base GraphModel GraphSpec ParamsModel ParamsSpec Complex LocalModel.
Import ListNotations.
Local Open Scope nat_scope.
Local Open Scope R_scope.

Definition square_matrix {A} (n : nat) (h : list (list A)) : Prop := length h = n /\ forall r, In r h -> length r = n.
(* H v = a v for the k-th column v of the matrix of vectors *)
Definition eigenpair (h : list (list R)) (a : C) (v : list C) : Prop :=
  length v = length h /\
  forall i, (i < length h)%nat -> csum (length h) (fun j => Cmul (RtoC (entry h i j)) (nth j v C0)) = Cmul a (nth i v C0).
Definition column (vectors : list (list C)) (k : nat) : list C := map (fun row => nth k row C0) vectors.
(* what numpy's eig returns for an n by n matrix, and argsort for a list *)
Definition eigenpairs (n : nat) (h : list (list R)) (values : list C) (vectors : list (list C)) : Prop :=
  length values = n /\ square_matrix n vectors /\ forall k, (k < n)%nat -> eigenpair h (nth k values C0) (column vectors k).
Definition sorts (inds : list nat) (l : list R) : Prop :=
  Permutation inds (seq 0 (length l)) /\ forall a b, (a < b < length l)%nat -> nth (nth a inds 0%nat) l 0 <= nth (nth b inds 0%nat) l 0.

(* x with entry i replaced *)
Definition upd (x : nat -> R) (i : nat) (t : R) : nat -> R := fun k => if Nat.eqb k i then t else x k.
(* d is the second derivative of f at x, first along i and then along j *)
Definition second_derivative (f : (nat -> R) -> R) (x : nat -> R) (i j : nat) (d : R) : Prop :=
  exists f1, (forall z, derivable_pt_lim (fun t => f (upd z i t)) (z i) (f1 z)) /\ derivable_pt_lim (fun t => f1 (upd x j t)) (x j) d.

(* a is the imprecision of the k-th parameter of component c, which is free *)
Definition its_scale (s : store) (c : comp) (k : nat) (a : R) : Prop :=
  exists o, assoc (cid c) (s_objs s) = Some o /\ free o k /\ nth_error (imprecisions (ccls c) (length (o_locks o))) k = Some a.
(* the scales u and the parameters, listed by component and index, are in the same order *)
Definition lined (s : store) (cs : list comp) (models idx : list nat) (u : list R) : Prop :=
  length models = length u /\ length idx = length u /\
  forall pos i k a, nth_error models pos = Some i -> nth_error idx pos = Some k -> nth_error u pos = Some a -> exists c, In c cs /\ cid c = i /\ its_scale s c k a.
