(** What the plots of optimisation logs should show. *)
From Coq Require Import List ZArith String.
From Verif Require Import Base FloatModel LoggerModel LogPlotModel.
Import ListNotations.

(* the logs that can be made: any calls of the methods, of which those that raise leave the object behind unused *)
Inductive logged : logger -> Prop :=
| logged_new : logged new_logger
| logged_start : forall lg, logged lg -> logged (start_logger_time lg)
| logged_set : forall a pop lg lg', logged lg -> set_optimization_algorithm a pop lg = Ok lg' -> logged lg'
| logged_score : forall x lg lg', logged lg -> log_score x lg = Ok lg' -> logged lg'.

Definition made_by (a : option alg) (r : Z * row) : Prop := r_alg (snd r) = a.

(* those of the rows that satisfy P, in their order *)
Inductive picked {A : Type} (P : A -> Prop) : list A -> list A -> Prop :=
| picked_nil : picked P [] []
| picked_in : forall x l k, P x -> picked P l k -> picked P (x :: l) (x :: k)
| picked_out : forall x l k, ~ P x -> picked P l k -> picked P (x :: l) k.

(* a is met before b *)
Definition before (rows : list (Z * row)) (a b : option alg) : Prop :=
  exists pre r post, rows = pre ++ r :: post /\ made_by a r /\ forall q, In q (pre ++ [r]) -> ~ made_by b q.

Definition known (c : string) : Prop :=
  In c ["algorithm"; "process runtime (s)"; "gen_or_iter"; "n_population"; "minimum"; "mean"; "maximum"; "variance"]%string.
