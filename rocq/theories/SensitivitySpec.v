(** What the sensitivity panel should show. *)
From Coq Require Import Reals List Arith ZArith String DecimalString.
From Verif Require Import Base GraphModel GraphSpec ParamsModel ParamsSpec SaveModel SaveSpec Complex ViewerModel ViewerSpec SensitivityModel.
Import ListNotations.
Local Open Scope nat_scope.

(* every component has the attributes of a new one of its class and enough values, as loading a graph
   leaves them *)
Definition as_made (g : graph) (s : store) : Prop := forall c, In c (components g) ->
  exists outputs o ps, has s (cid c) o ps /\ same_attributes (new_object (ccls c) outputs) o /\ List.length (o_locks o) <= List.length ps.
(* the components of a graph, nodes first *)
Definition in_order (g : graph) : list comp := map (fun p => n_model (snd p)) (g_nodes g) ++ map (fun e => e_model (e_dat e)) (edges_view g).
(* the text for parameter k of the component with identity i: the name of the parameter, a dash, the
   acronym of the class and the number of earlier components of the class *)
Definition names_it (g : graph) (s : store) (i k : nat) (text : string) : Prop :=
  exists q c o p, nth_error (in_order g) q = Some c /\ cid c = i /\ assoc i (s_objs s) = Some o /\ free o k /\
    nth_error (parameter_names (ccls c) (List.length (o_locks o))) k = Some p /\
    text = (p ++ "-" ++ acronym (ccls c) ++ NilEmpty.string_of_uint (Nat.to_uint (occurrences (ccls c) (firstn q (classes g)))))%string.

Local Open Scope R_scope.
(* the lowest and highest point of a bar whose weight is a real number *)
Definition low {K} (b : bar K) : R := Rmin (r_bottom b) (re (r_top b)).
Definition high {K} (b : bar K) : R := Rmax (r_bottom b) (re (r_top b)).
Definition inside {K} (b : bar K) (p : R * R) : Prop := fst p <= low b /\ high b <= snd p.
(* entries of vectors of length 1 are between -1 and 1 *)
Definition unit_entries (vectors : list (list C)) : Prop := forall row v, In row vectors -> In v row -> im v = 0 /\ -1 <= re v <= 1.
