(** C74 and C75: the outer optimisation loop with speciation; several runs in one process. *)
From Coq Require Import List Arith Bool ZArith QArith Permutation Sorted Lia Lqa.
From Verif Require Import Base GraphModel GraphSpec OperatorsModel OperatorsSpec ParamsModel EvolverModel EvolverExamples FloatModel HofModel HofSpec PopulationModel PopulationSpec
  SpeciationModel SpeciationSpec DistanceModel TopologyModel TopologySpec TopologyProperties SpeciatedModel SpeciatedSpec SpeciatedProofs SpeciatedRunProofs.
Import ListNotations.
Local Open Scope nat_scope.

(** ** C74 *)

(* every generation of a returned run: as many as asked for are kept, chosen by score times species
   size (score alone without speciation), and saved with the score of their own optimisation *)
Theorem C74_generations : forall L ops ev sim rounded root opt0 opt lucks orders picks cfg target half, iterations orders picks -> forall u pr r0 st,
  lifetime root pr -> desc_of (pr_desc pr) r0 = NoDescriptor -> (scheme_for u = None -> pr_overseer pr = None) ->
  optimise_topology L ops ev sim rounded root opt0 opt lucks orders picks cfg target half u pr r0 = Ok st ->
  length (ss_saved st) = cf_generations cfg /\ length (ss_log st) = cf_generations cfg /\ length (ss_evaluated st) = cf_generations cfg /\ length (ss_labels st) = cf_generations cfg /\
  forall k all, nth_error (ss_evaluated st) k = Some all -> exists kept ds row, nth_error (ss_saved st) k = Some kept /\ nth_error (ss_labels st) k = Some ds /\ nth_error (ss_log st) k = Some row /\
    kept <> [] /\ length kept = Nat.min (cf_population cfg) (length all) /\ length ds = length all /\ r_generation row = k /\ r_size row = length kept /\
    (forall i s w', nth_error all i = Some (s, w') -> exists w0, opt k i w0 = Ok (s, w')) /\
    (no_nan all -> exists rep ss, grouping sim (scheme_for u) (combine ds (map snd all)) rep /\ weighed (half_for half (scheme_for u)) k (species_size rep) all ss /\ selected (cf_population cfg) ss all kept).
Proof. intros; eapply run_generations; eauto. split; assumption. Qed.
Print Assumptions C74_generations.

(* with subpopulations: the weight is the number of graphs with the same label; labels are the
   positions modulo the target number, and a label that is gone does not come back *)
Theorem C74_subpopulations : forall L ops ev sim rounded root opt0 opt lucks orders picks cfg target half, iterations orders picks -> forall pr r0 st,
  lifetime root pr -> desc_of (pr_desc pr) r0 = NoDescriptor -> optimise_topology L ops ev sim rounded root opt0 opt lucks orders picks cfg target half PreferentialSubpop pr r0 = Ok st ->
  (forall k all, nth_error (ss_evaluated st) k = Some all -> no_nan all -> exists kept ds ss, nth_error (ss_saved st) k = Some kept /\ nth_error (ss_labels st) k = Some ds /\ length ds = length all /\
     weighed half k (with_label ds) all ss /\ selected (cf_population cfg) ss all kept) /\
  (forall k ds ds', nth_error (ss_labels st) k = Some ds -> nth_error (ss_labels st) (S k) = Some ds' -> incl ds' ds) /\
  (forall k ds d, nth_error (ss_labels st) k = Some ds -> In d ds -> exists t i, target = Some t /\ t <> 0%Z /\ i < cf_population cfg /\ d = Subpopulation (Z.abs_nat (Z.of_nat i mod t))).
Proof. intros; eapply run_subpopulations; eauto. Qed.
Print Assumptions C74_subpopulations.

(* the log and the hall of fame do not see the shared scores *)
Theorem C74_log : forall L ops ev sim rounded root opt0 opt lucks orders picks cfg target half, iterations orders picks -> forall u pr r0 st,
  lifetime root pr -> desc_of (pr_desc pr) r0 = NoDescriptor -> (scheme_for u = None -> pr_overseer pr = None) ->
  optimise_topology L ops ev sim rounded root opt0 opt lucks orders picks cfg target half u pr r0 = Ok st -> no_nan (concat (ss_evaluated st)) ->
  forall k row, nth_error (ss_log st) k = Some row -> exists s, r_best row = Some s /\ lowest (concat (firstn (S k) (ss_evaluated st))) s.
Proof. intros L ops ev sim rounded root opt0 opt lucks orders picks cfg target half IT u pr r0 st A B C D E. eapply run_log; eauto. split; assumption. Qed.
Print Assumptions C74_log.
Theorem C74_hall_of_fame : forall L ops ev sim rounded root opt0 opt lucks orders picks cfg target half, iterations orders picks -> forall u pr r0 st,
  lifetime root pr -> desc_of (pr_desc pr) r0 = NoDescriptor -> (scheme_for u = None -> pr_overseer pr = None) ->
  optimise_topology L ops ev sim rounded root opt0 opt lucks orders picks cfg target half u pr r0 = Ok st ->
  hof_run world sim (cf_threshold cfg) (init_hof world (cf_hof cfg)) (ss_evaluated st) = Ok (ss_hof st) /\
  (0 < cf_generations cfg -> no_nan (concat (ss_evaluated st)) -> exists s gr rest, ss_hof st = Some (s, gr) :: rest /\ lowest (concat (ss_evaluated st)) s).
Proof. intros L ops ev sim rounded root opt0 opt lucks orders picks cfg target half IT u pr r0 st A B C D. eapply run_hof; eauto. split; assumption. Qed.
Print Assumptions C74_hall_of_fame.

(* among equal negative scores the members of larger species come first, without half life *)
Theorem C74_negative_scores : forall g n m q a b, (q < 0)%Q -> n < m -> shared None g n (Fin q) a -> shared None g m (Fin q) b -> fltb b a = true.
Proof.
  intros g n m q a b Hq Hn (x & -> & Hx) (y & -> & Hy). cbn. apply negb_true_iff. destruct (Qle_bool x y) eqn:E; [|reflexivity]. apply Qle_bool_iff in E. rewrite Hx, Hy in E. exfalso.
  assert (N : (inject_Z (Z.of_nat n) < inject_Z (Z.of_nat m))%Q) by (rewrite <- Zlt_Qlt; lia). nra.
Qed.
Print Assumptions C74_negative_scores.

(* settings with which no run returns *)
Theorem C74_elitism_aborts : forall L ops ev sim rounded root opt0 opt lucks orders picks cfg target half, iterations orders picks -> forall u pr r0 st,
  lifetime root pr -> 0 < cf_generations cfg -> (1 # 2 < cf_elitism cfg * inject_Z (Z.of_nat (cf_population cfg)))%Q ->
  optimise_topology L ops ev sim rounded root opt0 opt lucks orders picks cfg target half u pr r0 <> Ok st.
Proof. exact elitism_aborts. Qed.
Print Assumptions C74_elitism_aborts.
Theorem C74_random_aborts : forall L ops ev sim rounded root opt0 opt lucks orders picks cfg target half, iterations orders picks -> forall u pr r0 st,
  u = RandomSubpop \/ u = RandomVector \/ u = RandomPhoto -> 0 < cf_generations cfg -> lifetime root pr -> desc_of (pr_desc pr) r0 = NoDescriptor ->
  optimise_topology L ops ev sim rounded root opt0 opt lucks orders picks cfg target half u pr r0 <> Ok st.
Proof. exact random_aborts. Qed.
Print Assumptions C74_random_aborts.
Theorem C74_photo_aborts : forall L ops ev sim rounded root opt0 opt lucks orders picks cfg target half u pr r0 st0,
  u = RandomPhoto \/ u = PreferentialPhoto -> cf_generations cfg <> 0 -> cf_generations cfg <> 1 -> 0 < cf_population cfg -> lifetime root pr ->
  desc_of (pr_desc pr) r0 = NoDescriptor -> spec_start opt0 cfg pr r0 = Ok st0 ->
  optimise_topology L ops ev sim rounded root opt0 opt lucks orders picks cfg target half u pr r0 = Err ValueError.
Proof. exact photo_aborts. Qed.
Print Assumptions C74_photo_aborts.
(* a rule of another name is refused before anything is done, and no other rule is: without generations each returns *)
Theorem C74_rules : forall L ops ev sim rounded root opt0 opt lucks orders picks cfg target half u pr r0,
  (u = OtherRule -> optimise_topology L ops ev sim rounded root opt0 opt lucks orders picks cfg target half u pr r0 = Err NotImplementedError) /\
  (u <> OtherRule -> cf_generations cfg = 0 -> optimise_topology L ops ev sim rounded root opt0 opt lucks orders picks cfg target half u pr r0 = spec_start opt0 cfg pr r0).
Proof.
  intros L ops ev sim rounded root opt0 opt lucks orders picks cfg target half u pr r0. split; [intros ->; reflexivity|]. intros N G. unfold optimise_topology. rewrite G.
  destruct u; try contradiction; cbn [rule_of bind fst snd spec_generations]; destruct (spec_start opt0 cfg pr r0); reflexivity.
Qed.
Print Assumptions C74_rules.
(* by composition: a run returns only if a graph without a terminal node was evaluated *)
Theorem C74_vector_terminals : forall L ops ev sim rounded root opt0 opt lucks orders picks cfg target half, iterations orders picks -> forall u pr r0 st,
  u = RandomVector \/ u = PreferentialVector -> lib_ok L -> 0 < cf_generations cfg -> 2 <= cf_population cfg -> lifetime root pr -> desc_of (pr_desc pr) r0 = NoDescriptor ->
  optimise_topology L ops ev sim rounded root opt0 opt lucks orders picks cfg target half u pr r0 = Ok st ->
  exists all s w, nth_error (ss_evaluated st) 0 = Some all /\ In (s, w) all /\ ~ has_terminal w.
Proof. exact vector_terminals. Qed.
Print Assumptions C74_vector_terminals.

(** ** C75 *)

(* a rule with speciation, started from a graph without descriptor, does not depend on what ran before *)
Theorem C75_speciated_after : forall L ops ev sim rounded root opt0 opt lucks orders picks cfg target half u h d o1 o2 r0,
  scheme_for u <> None -> desc_of d r0 = NoDescriptor -> 0 < cf_generations cfg ->
  optimise_topology L ops ev sim rounded root opt0 opt lucks orders picks cfg target half u (mkPr h d o1) r0 =
  optimise_topology L ops ev sim rounded root opt0 opt lucks orders picks cfg target half u (mkPr h d o2) r0.
Proof. exact overseer_irrelevant. Qed.
Print Assumptions C75_speciated_after.

(* one without speciation cannot return once a manager is left over *)
Theorem C75_plain_after : forall L ops ev sim rounded root opt0 opt lucks orders picks cfg target half, iterations orders picks -> forall u pr r0 st,
  lifetime root pr -> pr_overseer pr <> None -> desc_of (pr_desc pr) r0 = NoDescriptor -> scheme_for u = None -> 0 < cf_generations cfg ->
  optimise_topology L ops ev sim rounded root opt0 opt lucks orders picks cfg target half u pr r0 <> Ok st.
Proof. exact plain_after. Qed.
Print Assumptions C75_plain_after.

(* two calls in a row: after a returned run with speciation, no run without it returns, whatever graph
   made before it starts from *)
Theorem C75_two_runs : forall L ops ev sim rounded root opt0 opt lucks orders picks cfg target half, iterations orders picks ->
  forall L' ops' ev' sim' rounded' opt0' opt' lucks' orders' picks' cfg' target' half', iterations orders' picks' -> forall u u' pr r0 r1 st st',
  lifetime root pr -> scheme_for u <> None -> desc_of (pr_desc pr) r0 = NoDescriptor -> 0 < cf_generations cfg ->
  optimise_topology L ops ev sim rounded root opt0 opt lucks orders picks cfg target half u pr r0 = Ok st ->
  scheme_for u' = None -> r1 < length (pr_heap pr) -> desc_of (pr_desc pr) r1 = NoDescriptor -> 0 < cf_generations cfg' ->
  optimise_topology L' ops' ev' sim' rounded' root opt0' opt' lucks' orders' picks' cfg' target' half' u' (ss_process st) r1 <> Ok st'.
Proof.
  intros L ops ev sim rounded root opt0 opt lucks orders picks cfg target half IT L' ops' ev' sim' rounded' opt0' opt' lucks' orders' picks' cfg' target' half' IT' u u' pr r0 r1 st st' Lf U D G H U' R D' G'.
  destruct (run_old L ops ev sim rounded root opt0 opt lucks orders picks cfg target half IT u pr r0 st Lf H) as (_ & Od & Ov).
  apply plain_after; try assumption; [exact (life_run root _ _ _ _ _ _ _ _ _ _ _ _ _ _ _ _ _ Lf IT H)|exact (Ov G U D)|rewrite (Od r1 R); exact D'].
Qed.
Print Assumptions C75_two_runs.

(** ** Cases *)
Definition go (opt : nat -> nat -> world -> res (fl * world)) (luck_ : nat -> luck) u (cfg : config) pr :=
  optimise_topology default_library evo_op_list Lookup toy_sim (fun _ => NaN) (fun _ => 14142 # 10000)%Q (toy_opt 0 0) opt luck_ (fun _ _ l => l) (fun _ _ _ l => l) cfg (Some 2%Z) None u pr 0.
Definition fresh_process := mkPr [w0] [] None.
Definition scores (r : res sstate) := do st <- r; Ok (map (fun l => map (fun x => match fst x with Fin q => Some (Qred q) | _ => None end) l) (ss_evaluated st), map (fun l => map (fun x => match fst x with Fin q => Some (Qred q) | _ => None end) l) (ss_saved st), ss_labels st).
Definition qs := map (fun z => Some (inject_Z z)).
Definition three := toy_cfg RuleRandom 0 2 3.
Lemma as_listed : iterations (fun _ _ l => l) (fun _ _ _ l => l).
Proof. split; intros; apply Permutation_refl. Qed.

(* three generations of two: the edit distance scheme keeps all, the subpopulation scheme labels 0 and 1 *)
Definition edit_scores := scores (go toy_opt toy_luck TournamentEdit three fresh_process).
Definition labels_in (r : res sstate) : option (list (list descriptor)) := match r with Ok st => Some (ss_labels st) | Err _ => None end.
Definition subpop_labels := labels_in (go toy_opt toy_luck PreferentialSubpop three fresh_process).
Example C74_case : edit_scores = Ok ([qs [10; 9]; qs [8; 7]; qs [6; 5]]%Z, [qs [9; 10]; qs [7; 8]; qs [5; 6]]%Z, [[EditDist; EditDist]; [EditDist; EditDist]; [EditDist; EditDist]]).
Proof. vm_compute. reflexivity. Qed.
Example C74_labels_case : option_map (firstn 1) subpop_labels = Some [[Subpopulation 0; Subpopulation 1]].
Proof. vm_compute. reflexivity. Qed.
(* the rules that fail *)
Example C74_failing_case : map (fun u => scores (go toy_opt toy_luck u three fresh_process)) [RandomSubpop; RandomVector; PreferentialVector; RandomPhoto; PreferentialPhoto; OtherRule]
  = [Err TypeError; Err KeyError; Err KeyError; Err ValueError; Err ValueError; Err NotImplementedError].
Proof. vm_compute. reflexivity. Qed.
(* elitism under speciation *)
Example C74_elitism_case : map (fun u => scores (go toy_opt toy_luck u (toy_cfg RuleRandom (3 # 10) 2 3) fresh_process)) [RouletteEdit; TournamentEdit; PreferentialSubpop] = repeat (Err RuntimeError) 3.
Proof. vm_compute. reflexivity. Qed.

(* three offspring of the first graph, two of the second; the best of the five belongs to the larger
   species *)
Definition litters (g : nat) : luck := mkLuck 4 (fun i j _ => ch0 (1 # 3) (20 + 20 * g + 5 * i + j)) (fun i j => Nat.leb (2 - i) j) (fun i => if Nat.eqb i 0 then (1 # 10) else (9 # 10))%Q (fun _ i => i).
Definition crowd_opt (g i : nat) (w : world) : res (fl * world) := Ok (Fin (inject_Z (nth i [3; 9; 9; 4; 4]%Z 9%Z)), w).
Notation crowd := (optimise_topology default_library evo_op_list Lookup toy_sim (fun _ => NaN) (fun _ => 14142 # 10000)%Q (toy_opt 0 0) crowd_opt litters (fun _ _ l => l) (fun _ _ _ l => l) (toy_cfg RuleRandom 0 2 2) (Some 2%Z) None PreferentialSubpop fresh_process 0).
Example C74_crowd : match scores crowd with Ok x => Some (map (firstn 5) (firstn 1 (fst (fst x))), firstn 1 (snd (fst x)), firstn 1 (snd x)) | Err _ => None end
  = Some ([qs [3; 9; 9; 4; 4]]%Z, [qs [4; 4]]%Z, [[Subpopulation 0; Subpopulation 0; Subpopulation 0; Subpopulation 1; Subpopulation 1]]).
Proof. vm_compute. reflexivity. Qed.
Definition first_dropped (r : res sstate) : bool :=
  match r with
  | Err _ => false
  | Ok st =>
      match nth_error (ss_evaluated st) 0, nth_error (ss_saved st) 0 with
      | Some ((s, w) :: all), Some kept => forallb (fun x => negb (fltb (fst x) s)) ((s, w) :: all) && forallb (fun x => fltb s (fst x)) kept
      | _, _ => false
      end
  end.
Lemma first_dropped_ok : forall r, first_dropped r = true -> exists st, r = Ok st /\ exists all kept s w, nth_error (ss_evaluated st) 0 = Some all /\ nth_error (ss_saved st) 0 = Some kept /\
  In (s, w) all /\ lowest all s /\ forall s' w', In (s', w') kept -> fltb s s' = true.
Proof.
  intros [st|] C; [|discriminate]. exists st. split; [reflexivity|]. unfold first_dropped in C.
  destruct (nth_error (ss_evaluated st) 0) as [[|[s w] all]|] eqn:Ea; try discriminate. destruct (nth_error (ss_saved st) 0) as [kept|] eqn:Ek; [|discriminate].
  apply andb_true_iff in C as [C1 C2]. rewrite forallb_forall in C1, C2. exists ((s, w) :: all), kept, s, w. split; [reflexivity|]. split; [reflexivity|].
  split; [left; reflexivity|]. split; [|intros s' w' I; exact (C2 _ I)]. split; [exists w; left; reflexivity|]. intros s' w' I. apply negb_true_iff. exact (C1 _ I).
Qed.
Lemma crowd_dropped : first_dropped crowd = true.
Proof. vm_compute. reflexivity. Qed.
(* so the best graph of a generation need not be among the saved ones, nor a parent of the next *)
Theorem C74_best_kept_refuted : exists L ops ev sim rounded root opt0 opt lucks orders picks cfg target half u pr r0 st all kept s w,
  iterations orders picks /\ lifetime root pr /\ desc_of (pr_desc pr) r0 = NoDescriptor /\ optimise_topology L ops ev sim rounded root opt0 opt lucks orders picks cfg target half u pr r0 = Ok st /\
  nth_error (ss_evaluated st) 0 = Some all /\ nth_error (ss_saved st) 0 = Some kept /\ In (s, w) all /\ lowest all s /\ forall s' w', In (s', w') kept -> fltb s s' = true.
Proof.
  destruct (first_dropped_ok _ crowd_dropped) as (st & E & all & kept & s & w & D).
  exists default_library, evo_op_list, Lookup, toy_sim, (fun _ => NaN), (fun _ => 14142 # 10000)%Q, (toy_opt 0 0), crowd_opt, litters, (fun _ _ l => l), (fun _ _ _ l => l), (toy_cfg RuleRandom 0 2 2), (Some 2%Z), None, PreferentialSubpop, fresh_process, 0, st.
  exists all, kept, s, w. exact (conj as_listed (conj (life_new _ _) (conj eq_refl (conj E D)))).
Qed.
Print Assumptions C74_best_kept_refuted.

(* in one process: after a run with the edit distance scheme the plain rules raise, the others do not *)
Definition two := toy_cfg RuleRandom 0 2 2.
Definition after_edit u := do st <- go toy_opt toy_luck TournamentEdit two fresh_process; go toy_opt toy_luck u two (ss_process st).
Definition outcome (r : res sstate) : option exn := match r with Ok _ => None | Err e => Some e end.
Example C75_case : map (fun u => outcome (after_edit u)) [Random; Preferential; Roulette; Tournament; RouletteEdit; TournamentEdit; PreferentialSubpop] = repeat (Some TypeError) 4 ++ repeat None 3
  /\ map (fun u => outcome (go toy_opt toy_luck u two fresh_process)) [Random; Preferential; Roulette; Tournament] = repeat None 4.
Proof. split; vm_compute; reflexivity. Qed.
