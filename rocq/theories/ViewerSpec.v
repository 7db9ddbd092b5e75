(** Specification vocabulary for the interactive viewer: what a drawing of a graph should be. *)
From Coq Require Import List Arith Bool ZArith QArith Reals Qreals String.
From Verif Require Import Base GraphModel GraphSpec ParamsModel ParamsSpec LayoutModel ViewerModel.
Import ListNotations.
Local Open Scope R_scope.

(* the plot shows coordinates from -1.1 to 1.1: interactive/view.py:80-82 *)
Definition in_frame (p : R * R) : Prop := (-1 <= fst p <= 1) /\ (-1 <= snd p <= 1).
Definition placed_at (l : layout) (n : node) (p : R * R) : Prop := In (n, p) l.

(* the heights of the layout are not all the same number *)
Definition uneven (pos : positions) : Prop := exists p q, In p pos /\ In q pos /\ ~ (snd (snd p) == snd (snd q))%Q.

Fixpoint climbing (l : list R) : Prop :=
  match l with
  | a :: (b :: _) as r => a < b /\ climbing r
  | _ => True
  end.

(* a line of 100 points from a towards b: it starts at a, goes steadily to the right, stays
   between the two heights and does not reach b *)
Definition line_between (a b : R * R) (c : list R * list R) : Prop :=
  List.length (fst c) = 100%nat /\ List.length (snd c) = 100%nat /\
  hd_error (fst c) = Some (fst a) /\ hd_error (snd c) = Some (snd a) /\ climbing (fst c) /\
  (forall x, In x (fst c) -> fst a <= x < fst b) /\
  (forall y, In y (snd c) -> Rmin (snd a) (snd b) <= y <= Rmax (snd a) (snd b)).

(* two lines that leave the same point and are apart at each later step *)
Definition apart (c d : list R * list R) : Prop :=
  forall i x y, (0 < i)%nat -> nth_error (fst c) i = Some x -> nth_error (fst d) i = Some y -> x <> y.

(* the classes of all components of a graph: nodes first, then connections *)
Definition classes (g : graph) : list cls := map (fun p => ccls (n_model (snd p))) (g_nodes g) ++ map (fun e => ccls (e_model (e_dat e))) (edges_view g).
(* how many of these are of class c *)
Definition occurrences (c : cls) (l : list cls) : nat := count_occ cls_eq_dec l c.

(* every connection has as many parameters as its class *)
Definition complete (g : graph) (st : store) : Prop := forall e, In e (g_edges g) ->
  exists o ps, has st (cid (e_model (e_dat e))) o ps /\ List.length ps = Z.to_nat (sp_num (spec_of (ccls (e_model (e_dat e))))).

(* the three columns of a table have the same number of rows *)
Definition columns_agree (t : entry) : Prop :=
  List.length (t_parameters t) = List.length (t_names t) /\ List.length (t_names t) = List.length (t_model t).

(* every selection made during a session is of connections of the graph loaded last *)
Fixpoint offered (size : nat) (es : list event) : Prop :=
  match es with
  | [] => True
  | Loads t :: r => offered (List.length t) r
  | LoadFails :: r => offered size r
  | Selects new :: r => (forall i, In i new -> (i < size)%nat) /\ offered size r
  end.
(* the number of connections of the graph loaded last *)
Definition size_after (es : list event) : nat := fold_left (fun n e => match e with Loads t => List.length t | _ => n end) es 0%nat.
(* the last attempt to load a graph, if any, succeeded *)
Definition load_worked (es : list event) : bool := fold_left (fun b e => match e with Loads _ => true | LoadFails => false | Selects _ => b end) es false.
