(** Tuning utilities: C87. *)
From Coq Require Import List Arith Bool ZArith QArith Lia String Permutation Sorted.
From Verif Require Import Base GraphModel GraphSpec ParamsModel ParamsSpec EvolverModel EvolutionExamples EvolverExamples FloatModel FloatArith GAModel GASpec
  AdamModel ParamsProofs OptimiseSpec OptimiseProofs TuningModel TuningSpec TuningProofs.
Import ListNotations.
Local Open Scope nat_scope.
Local Open Scope list_scope.

(** ** C87 *)
Section C87.
Context {M : Type}.
Variable switch : bool -> M -> M.
Variable evaluate : store -> M -> M * res fl.
Variable simulate : store -> M -> M * res unit.
Variable resample : store -> M -> M * res unit.
Variable slope : store -> M -> res arr.
Variable root : fl -> fl.
Variable norm : arr -> fl.
Variable sort : list (fl * list pval) -> res (list (fl * list pval)).
Variable rs : nat -> nat -> nat -> rnd.
Variable lucks : nat -> luck.
Notation genetic_run g := (tuning_genetic_algorithm M switch evaluate simulate resample slope root norm sort g rs lucks).
Notation descent_run g := (tuning_adam_gradient_descent M switch evaluate simulate resample slope root norm g rs).
Notation projection g := (adam_gradient_projection M evaluate simulate slope root norm g).
Notation hess g := (get_hessian M evaluate simulate slope g).

(* whatever the graph, the evaluator, the noise and the settings: with at least one generation, or one batch, the call raises *)
Theorem C87_genetic : forall g c w, (1 <= g_generations c)%Z -> exists w' e, genetic_run g c w = (w', Err e).
Proof. intros g c w B. exact (genetic_fails switch evaluate simulate resample slope root norm sort g rs lucks c B w). Qed.
Theorem C87_gradient : forall g c n pop w, (1 <= d_batches c)%Z -> exists w' e, descent_run g c n pop w = (w', Err e).
Proof. intros g c n pop w B. exact (descent_fails switch evaluate simulate resample slope root norm g rs c n pop B w). Qed.

(* a graph whose bounds and types can be sampled, and an evaluator that always scores *)
Section Sound.
Variable g : graph.
Variable s0 : store.
Hypothesis W : wf g.
Hypothesis Rd : all_readable g s0.
Hypothesis U : unshared g s0.
Hypothesis Sm : all_sampleable g s0.
Hypothesis Sc : always_scores evaluate.
Hypothesis Fr : forall gen call, frac_ok (rs gen call).

(* the whole first generation runs, inside the bounds, and is then lost *)
Theorem C87_genetic_lost : forall x c cut m, extract g s0 = Ok x -> (1 <= g_generations c)%Z -> g_per c = false -> (g_period c <= 0)%Z -> (g_top c <= 0)%Z -> g_dist c <> Triangle ->
  1 <= g_population c -> (g_crx c = 0 \/ 2 <= g_population c) -> (g_mut c = 0 \/ 2 <= List.length (x_params x)) -> g_crossover c = singlepoint cut -> (forall l, exists l', sort l = Ok l') ->
  exists p s1 m1, genetic_run g c (mkT M s0 m) = (mkT M s1 m1, Err TypeError) /\
    List.length p = g_population c + 2 * g_crx c + g_mut c /\ evaluations evaluate g s0 s0 (switch (g_noise c) m) p s1 m1.
Proof. intros x c cut m E. exact (genetic_type switch evaluate simulate resample slope root norm sort g rs lucks s0 x W E Sm U Sc Fr c cut m). Qed.

(* when resampling the noise raises, as for every graph with an edge (C20), so does the default call, after the first population *)
Theorem C87_resampling : forall c m e, (forall s m, snd (resample s m) = Err e) -> (1 <= g_generations c)%Z -> g_per c = false -> g_period c = 1%Z -> g_dist c <> Triangle -> 1 <= g_population c ->
  exists p s1 m1, genetic_run g c (mkT M s0 m) = (mkT M s1 (fst (resample s1 m1)), Err e) /\ List.length p = g_population c /\ evaluations evaluate g s0 s0 (switch (g_noise c) m) p s1 m1.
Proof. intros c m e. destruct (extract_total g s0 W Rd) as [x E]. exact (genetic_resample switch evaluate simulate resample slope root norm sort g rs lucks s0 x W E Sm U Sc Fr c m e). Qed.
Theorem C87_resampling_each : forall c m e, (forall s m, snd (resample s m) = Err e) -> g_per c = true -> 1 <= g_population c ->
  genetic_run g c (mkT M s0 m) = (mkT M s0 (fst (resample s0 (switch (g_noise c) m))), Err e).
Proof. intros c m e. destruct (extract_total g s0 W Rd) as [x E]. exact (genetic_resample_each switch evaluate simulate resample slope root norm sort g rs lucks s0 x E c m e). Qed.

(* without generations: the first population in the order it was sampled, and a log of one row *)
Theorem C87_untuned : forall c m, (g_generations c <= 0)%Z -> g_per c = false -> g_dist c <> Triangle -> 1 <= g_population c ->
  exists p row s1 m1, genetic_run g c (mkT M s0 m) = (mkT M s1 m1, Ok (p, [row], if (0 <? g_top c)%Z then Some [] else None)) /\
    List.length p = g_population c /\ evaluations evaluate g s0 s0 (switch (g_noise c) m) p s1 m1 /\ (forall qs, map fst p = map Fin qs -> describes row 0 qs).
Proof. intros c m. destruct (extract_total g s0 W Rd) as [x E]. exact (genetic_none switch evaluate simulate resample slope root norm sort g rs lucks s0 x W E Sm U Sc Fr c m). Qed.

(* the gradient's first call raises KeyError: nothing is written after the first population *)
Theorem C87_gradient_fresh : forall c k m, (1 <= d_batches c)%Z -> 1 <= d_size c -> d_per c = false -> (d_period c <= 0)%Z -> 1 <= k ->
  exists p s1 m1, descent_run g c k None (mkT M s0 m) = (mkT M s1 m1, Err KeyError) /\ List.length p = k /\ evaluations evaluate g s0 s0 (switch (d_noise c) m) p s1 m1.
Proof. intros c k m. destruct (extract_total g s0 W Rd) as [x E]. exact (descent_fresh_key switch evaluate simulate resample slope root norm g rs s0 x W E Sm U Sc Fr c k m). Qed.
Theorem C87_gradient_given : forall c v sc p m, (1 <= d_batches c)%Z -> 1 <= d_size c -> d_per c = false -> (d_period c <= 0)%Z -> (forall a, In a v -> exists q, a = Num q) ->
  descent_run g c (S (List.length p)) (Some ((sc, v) :: p)) (mkT M s0 m) = (mkT M s0 (switch (d_noise c) m), Err KeyError).
Proof.
  intros c v sc p m B Sz P Pe Nu. destruct (extract_total g s0 W Rd) as [x E].
  change (S (List.length p)) with (List.length ((sc, v) :: p)). rewrite (descent_given switch evaluate simulate resample slope root norm g rs s0 x E c ((sc, v) :: p) m).
  apply (tail_key evaluate simulate resample slope root norm g s0 x W E Sm c ((sc, v) :: p) x (switch (d_noise c) m) B Sz P Pe). exists (sc, v), p. split; [reflexivity|exact Nu].
Qed.
(* without batches the population given comes back sorted by score *)
Theorem C87_gradient_untuned : forall c p m, (d_batches c <= 0)%Z -> p <> [] -> exists q row,
  descent_run g c (List.length p) (Some p) (mkT M s0 m) = (mkT M s0 (switch (d_noise c) m), Ok (q, [row])) /\
  Permutation q p /\ ((forall a, In a p -> fst a <> NaN) -> StronglySorted (fun a b => fltb (fst b) (fst a) = false) q) /\ (forall qs, map fst p = map Fin qs -> describes row 0 qs).
Proof.
  intros c p m B NE. destruct (extract_total g s0 W Rd) as [x E].
  destruct (tail_none evaluate simulate resample slope root norm g s0 x W E Sm c p x (switch (d_noise c) m) B NE) as (row & Er & D).
  exists (by_score p), row. split; [|split; [exact (proj1 (by_score_ok p))|split; [exact (proj2 (by_score_ok p))|exact D]]].
  rewrite (descent_given switch evaluate simulate resample slope root norm g rs s0 x E c p m). exact Er.
Qed.
Theorem C87_projection : forall params check iters m, projection g params check iters (mkT M s0 m) =
  (mkT M s0 m, if iters =? 0 then Ok (params, 0, repeat (Fin 0) (List.length params), repeat (Fin 0) (List.length params)) else Err KeyError).
Proof.
  intros params check iters m. destruct (extract_total g s0 W Rd) as [x E]. destruct iters as [|k]; cbn [Nat.eqb].
  - exact (projection_none evaluate simulate slope root norm g s0 x W E Sm params check m).
  - exact (projection_key evaluate simulate slope root norm g s0 x W E Sm params check (S k) m ltac:(lia)).
Qed.
(* the Hessian is made, and raises wherever it is asked for *)
Theorem C87_hessian : exists f, hess g s0 = Ok f /\ forall v w, f v w = (w, Err KeyError).
Proof. destruct (extract_total g s0 W Rd) as [x E]. pose proof (hess_key evaluate simulate slope g s0) as K. rewrite E in K. exact K. Qed.
End Sound.

Theorem C87_wrong_size : forall g s c k p m, List.length p <> k -> descent_run g c k (Some p) (mkT M s m) = (mkT M s (switch (d_noise c) m), Err ValueError).
Proof. intros g s c k p m. exact (descent_wrong switch evaluate simulate resample slope root norm g rs c k p m s). Qed.
End C87.
Print Assumptions C87_genetic.
Print Assumptions C87_gradient.
Print Assumptions C87_genetic_lost.
Print Assumptions C87_resampling.
Print Assumptions C87_resampling_each.
Print Assumptions C87_untuned.
Print Assumptions C87_gradient_fresh.
Print Assumptions C87_gradient_given.
Print Assumptions C87_gradient_untuned.
Print Assumptions C87_projection.
Print Assumptions C87_hessian.
Print Assumptions C87_wrong_size.

(* mutation: at least one entry is the mutant's and at least one the parent's; any such mixture can come out *)
Theorem C87_mutation : forall parent mutant r pick, List.length parent = List.length mutant -> 2 <= List.length mutant ->
  exists child from, TuningModel.mutation parent mutant r pick = Ok child /\ mixture parent mutant child from /\
    NoDup from /\ (forall i, In i from -> i < List.length mutant) /\ 1 <= List.length from < List.length mutant.
Proof. exact mutation_takes. Qed.
Print Assumptions C87_mutation.
Theorem C87_mutation_any : forall parent mutant from, List.length parent = List.length mutant -> NoDup from ->
  (forall i, In i from -> i < List.length mutant) -> 1 <= List.length from < List.length mutant ->
  exists r pick child, TuningModel.mutation parent mutant r pick = Ok child /\ mixture parent mutant child from.
Proof. exact mutation_any. Qed.
Print Assumptions C87_mutation_any.
Theorem C87_mutation_short : forall parent mutant r pick, List.length mutant <= 1 -> TuningModel.mutation parent mutant r pick = Err ValueError.
Proof. exact mutation_short. Qed.
Print Assumptions C87_mutation_short.

(** *** Cases: the state is the noise switch and the number of evaluations *)
Definition t_switch (b : bool) (m : bool * nat) := (b, snd m).
Definition t_eval (s : store) (m : bool * nat) : (bool * nat) * res fl := ((fst m, S (snd m)), Ok (Fin (1 # Pos.of_succ_nat (snd m)))).
Definition t_sim (s : store) (m : bool * nat) : (bool * nat) * res unit := (m, Ok tt).
Definition t_stuck (s : store) (m : bool * nat) : (bool * nat) * res unit := (m, Err AttributeError).
Definition t_slope (s : store) (m : bool * nat) : res arr := Ok [].
Definition t_rs (a b i : nat) : rnd := mkRnd (Z.of_nat (Nat.modulo (a + b + i) 7) # 7) (Z.of_nat (a + b)).
Definition t_lucks (gen : nat) : luck := mkLk (fun i => (i, S i)) (fun i => i) (fun i => i) (fun i j => j).
Definition t_sort (l : list (fl * list pval)) : res (list (fl * list pval)) := Ok (by_score l).
Definition t_id (a : fl) : fl := a.
Definition t_norm (a : arr) : fl := Fin 0.
Definition t_set (gens period : Z) (per : bool) : genetic := mkG gens 4 2 3 false (singlepoint (fun _ i => S i)) Uniform per period 1 0 10 25.
Definition t_run resample c := tuning_genetic_algorithm (bool * nat) t_switch t_eval t_sim resample t_slope t_id t_norm t_sort g0 t_rs t_lucks c (mkT _ (w_store w0) (true, 0)).
Definition t_descend resample c k p := tuning_adam_gradient_descent (bool * nat) t_switch t_eval t_sim resample t_slope t_id t_norm g0 t_rs c k p (mkT _ (w_store w0) (true, 0)).
Lemma t_sound : wf g0 /\ all_readable g0 (w_store w0) /\ unshared g0 (w_store w0) /\ all_sampleable g0 (w_store w0) /\ always_scores t_eval /\ (forall a b, frac_ok (t_rs a b)) /\
  (forall l, exists l', t_sort l = Ok l') /\ exists x, extract g0 (w_store w0) = Ok x /\ List.length (x_params x) = 35.
Proof.
  destruct w0_healthy as ((W & _ & _ & R & _) & _ & U & Sa). rewrite w0_graph in *. split; [exact W|]. split; [exact R|]. split; [exact U|]. split; [exact Sa|].
  split; [intros s m; eexists; reflexivity|]. split.
  { intros a b i. unfold t_rs. cbn [r_frac]. pose proof (Nat.mod_upper_bound (a + b + i) 7 ltac:(lia)). split; [unfold Qle|unfold Qlt]; cbn [Qnum Qden]; lia. }
  split; [intro l; eexists; reflexivity|]. eexists; split; vm_compute; reflexivity.
Qed.
Definition seen {A} (r : TuningModel.world (bool * nat) * res A) := (t_more _ (fst r), snd r).
(* 4 + 2 * 2 + 3 evaluations *)
Example C87_case : seen (t_run t_sim (t_set 25 (-1) false)) = ((false, 11), Err TypeError) /\ seen (t_run t_stuck (t_set 25 1 false)) = ((false, 4), Err AttributeError) /\
  seen (t_run t_stuck (t_set 25 1 true)) = ((false, 0), Err AttributeError).
Proof. split; [|split]; vm_compute; reflexivity. Qed.
Example C87_untuned_case : match seen (t_run t_stuck (t_set 0 1 false)) with
  | (m, Ok (p, [row], None)) => m = (false, 4) /\ map fst p = map Fin [1; 1 # 2; 1 # 3; 1 # 4]%Q /\ lr_size row = 4 /\ lr_max row = Fin 1 /\ lr_min row = Fin (1 # 4)
  | _ => False
  end.
Proof. vm_compute. repeat split. Qed.
Example C87_gradient_case : seen (t_descend t_sim (mkD 25 100 (Some 1) true false (-1)) 3 None) = ((true, 3), Err KeyError) /\
  seen (t_descend t_sim (mkD 25 100 (Some 1) true false 1) 3 (Some [(Fin 1, [])])) = ((true, 0), Err ValueError) /\
  match seen (t_descend t_sim (mkD 0 100 (Some 1) false false 1) 3 (Some [(Fin 3, [Num 3]); (Fin 1, [Num 1]); (Fin 2, [Num 2])])) with
  | (m, Ok (p, [row])) => m = (false, 0) /\ p = [(Fin 1, [Num 1]); (Fin 2, [Num 2]); (Fin 3, [Num 3])] /\ lr_size row = 3
  | _ => False
  end.
Proof. split; [|split]; vm_compute; repeat split. Qed.
Example C87_mutation_case : TuningModel.mutation [Num 0; Num 0; Num 0; Num 0] [Num 1; Num 2; Num 3; Num 4] 1 (fun i => 2) = Ok [Num 0; Num 0; Num 3; Num 4].
Proof. vm_compute. reflexivity. Qed.
