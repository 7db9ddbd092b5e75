(** Property C43: sensitivity scores. *)
From Coq Require Import List Arith Bool ZArith QArith Qabs.
From Verif Require Import Base GraphModel GraphSpec OperatorsModel ParamsModel ParamsSpec EvolverModel ScoreSpec ScoreProofs EvolutionExamples EvolverExamples.
Import ListNotations.
Local Open Scope nat_scope.

(** ** C43 *)
Theorem C43_parameter_score : forall h i q, square h -> nth_error (param_scores h) i = Some q ->
  coupling h i q /\ (0 <= q)%Q /\
  ((q == 0)%Q <-> forall j a b, entry h i j a -> entry h j i b -> (a == 0)%Q /\ (b == 0)%Q).
Proof. intros h i q Sq H. exact (conj (param_score_coupling h i q Sq H) (param_score_sign h i q Sq H)). Qed.
Print Assumptions C43_parameter_score.

Theorem C43_one_score_per_parameter : forall h, length (param_scores h) = length h.
Proof. exact param_scores_length. Qed.
Print Assumptions C43_one_score_per_parameter.

Theorem C43_edge_scores : forall g s h x sc, wf g -> extract g s = Ok x -> x_params x <> [] -> all_edge_scores g s (Some h) = Ok sc ->
  length h = length (x_params x) /\
  (forall e, In e (g_edges g) -> exists v, In ((e_src e, e_dst e, e_key e), v) sc /\ (forall v', In ((e_src e, e_dst e, e_key e), v') sc -> v' = v)) /\
  (forall i v, In (i, v) sc -> (exists e, In e (g_edges g) /\ i = (e_src e, e_dst e, e_key e)) /\
     forall own, NoDup own -> (forall k, In k own <-> nth_error (x_place x) k = Some (PEdge i)) ->
       (own = [] -> v = 1%Q) /\
       (own <> [] -> exists t, sums (map (fun k => nth k (param_scores h) 0%Q) own) t /\ (v * inject_Z (Z.of_nat (length own)) == t)%Q)).
Proof. exact edge_scores_ok. Qed.
Print Assumptions C43_edge_scores.

Theorem C43_no_free_parameter : forall g s hs x, wf g -> extract g s = Ok x -> x_params x = [] ->
  exists sc, all_edge_scores g s hs = Ok sc /\
    (forall i v, In (i, v) sc <-> v = 1%Q /\ exists e, In e (g_edges g) /\ i = (e_src e, e_dst e, e_key e)).
Proof. exact edge_scores_none_free. Qed.
Print Assumptions C43_no_free_parameter.

Example C43_case : map Qred (param_scores [[1; -(2)]; [0; 4]]%Q) = [1; 5 # 2]%Q /\
  map Qred (param_scores [[0; 0; 0]; [0; 3; 0]; [0; 0; -(1)]]%Q) = [0; 1; 1 # 3]%Q /\
  exists sc, all_edge_scores (w_graph whess) (w_store whess) (w_hess whess) = Ok sc /\ length sc = 2.
Proof. split; [vm_compute; reflexivity|]. split; [vm_compute; reflexivity|]. eexists; split; vm_compute; reflexivity. Qed.
