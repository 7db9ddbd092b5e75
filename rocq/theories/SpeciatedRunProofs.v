(** Proofs about whole runs of the outer loop with speciation. *)
From Coq Require Import List Arith Bool ZArith QArith Permutation Sorted Lia Lqa.
From Verif Require Import Base GraphModel GraphSpec OperatorsModel OperatorsSpec ParamsModel EvolverModel EvolveSpec FloatModel HofModel HofSpec HofProofs
  PopulationModel PopulationSpec PopulationProofs RouletteProofs PreferentialProofs SpeciationModel SpeciationSpec SpeciationProofs DistanceModel DistanceSpec DistanceProofs TopologyModel TopologySpec TopologyProofs
  SpeciatedModel SpeciatedSpec SpeciatedProofs.
Import ListNotations.
Local Open Scope nat_scope.

Lemma snoc_nth : forall A (l : list A) x k y, nth_error (l ++ [x]) k = Some y -> (k < length l /\ nth_error l k = Some y) \/ (k = length l /\ y = x).
Proof.
  intros A l x k y H. destruct (Nat.lt_ge_cases k (length l)) as [K|K]; [left; rewrite nth_error_app1 in H by exact K; auto|right]. rewrite nth_error_app2 in H by exact K.
  destruct (k - length l) as [|m] eqn:E; [injection H as <-; split; [lia|reflexivity]|destruct m; discriminate].
Qed.
Lemma snoc_old : forall A (l : list A) x k, k < length l -> nth_error (l ++ [x]) k = nth_error l k.
Proof. intros A l x k H. apply nth_error_app1. exact H. Qed.
Lemma snoc_new : forall A (l : list A) x k, k = length l -> nth_error (l ++ [x]) k = Some x.
Proof. intros A l x k ->. rewrite nth_error_app2, Nat.sub_diag by lia. reflexivity. Qed.
Lemma label_in : forall pr p a, In a (map snd p) -> In (desc_of (pr_desc pr) a) (labels_of pr p).
Proof. intros pr p a H. apply in_map_iff in H as (x & <- & Hx). unfold labels_of. apply in_map_iff. exists x. auto. Qed.
Lemma in_labels : forall pr p d, In d (labels_of pr p) -> exists a, In a (map snd p) /\ d = desc_of (pr_desc pr) a.
Proof. intros pr p d H. apply in_map_iff in H as (x & <- & Hx). exists (snd x). split; [apply in_map; exact Hx|reflexivity]. Qed.
Lemma addresses_in : forall (p q : population) x, map snd p = map snd q -> In x p -> exists y, In y q /\ snd y = snd x.
Proof. intros p q x M H. apply (in_map snd) in H. rewrite M in H. apply in_map_iff in H as (y & E & Hy). exists y. auto. Qed.

Lemma count_same : forall A B (da : forall x y : A, {x = y} + {x <> y}) (db : forall x y : B, {x = y} + {x <> y}) a b u v, length a = length b ->
  (forall j x y, nth_error a j = Some x -> nth_error b j = Some y -> (x = u <-> y = v)) -> count_occ da a u = count_occ db b v.
Proof.
  intros A B da db. induction a as [|x a IH]; intros [|y b] u v Ln H; try discriminate; [reflexivity|]. cbn [count_occ]. pose proof (H 0 x y eq_refl eq_refl) as E. rewrite (IH b u v); [|cbn in Ln; lia|intros j; exact (H (S j))].
  destruct (da x u), (db y v); tauto.
Qed.
Lemma subpop_size : forall sim (ds : list descriptor) (all : list (fl * world)) rep i, length ds = length all -> grouping sim (Some SubpopScheme) (combine ds (map snd all)) rep -> i < length all -> species_size rep i = with_label ds i.
Proof.
  intros sim ds all rep i Ln (Lr & Rp & Ap) Li. rewrite combine_length, map_length, Ln, Nat.min_id in Lr. unfold species_size, with_label.
  assert (At : forall j, j < length all -> exists r d, nth_error rep j = Some r /\ nth_error ds j = Some d).
  { intros j Hj. destruct (nth_error rep j) as [r|] eqn:E; [|apply nth_error_None in E; lia]. destruct (nth_error ds j) as [d|] eqn:E'; [eauto|apply nth_error_None in E'; lia]. }
  assert (It : forall j x, nth_error (combine ds (map snd all)) j = Some x -> nth_error ds j = Some (fst x)).
  { intros j [d w] E. apply combine_nth in E as [E _]. exact E. }
  assert (Sl : forall j r d, nth_error rep j = Some r -> nth_error ds j = Some d -> nth_error ds r = Some d).
  { intros j r d E E'. destruct (Rp j r E) as [_ [->|(x & y & X & Y & S)]]; [exact E'|]. cbn in S. apply It in X, Y. rewrite E' in Y. injection Y as ->. rewrite X. f_equal. exact S. }
  destruct (At i Li) as (r & d & Er & Ed). rewrite Er, Ed. apply count_same; [congruence|]. intros j x y Ex Ey. pose proof (Sl i r d Er Ed) as Dr. split.
  - intros ->. pose proof (Sl j r y Ex Ey) as Y. congruence.
  - intros ->. pose proof (Sl j x d Ex Ey) as Dx. destruct (Nat.eq_dec x r) as [|Ne]; [assumption|exfalso]. destruct (Rp j x Ex) as [Fx _]. destruct (Rp i r Er) as [Fr _].
    destruct (Ap x r Fx Fr Ne) as [(p & q & P & Q & U)|(p & q & P & Q & U)]; cbn in U; apply It in P, Q; apply U; congruence.
Qed.

Section Run.
Variable L : library.
Variable ops : list op.
Variable ev : evolver.
Variable sim : world -> world -> res Q.
Variable rounded : Z * Z -> fl.
Variable root : nat -> Q.
Variable opt0 : world -> res (fl * world).
Variable opt : nat -> nat -> world -> res (fl * world).
Variable lucks : nat -> luck.
Variable orders : nat -> bool -> list nat -> list nat.
Variable picks : nat -> bool -> nat -> list nat -> list nat.
Variable cfg : config.
Variable target : option Z.
Variable half : option (nat -> Q).
Hypothesis IT : iterations orders picks.

Notation object_distance := (object_distance L sim rounded).
Notation do_speciate := (do_speciate L sim rounded root orders picks).
Notation setup := (setup target half).
Notation spec_generation := (spec_generation L ops ev sim rounded root opt lucks orders picks cfg target half).
Notation spec_generations := (spec_generations L ops ev sim rounded root opt lucks orders picks cfg target half).
Notation optimise_topology := (optimise_topology L ops ev sim rounded root opt0 opt lucks orders picks cfg target half).
Notation spec_start := (spec_start opt0 cfg).
Notation anatomy := (anatomy L ops ev sim rounded root opt lucks orders picks cfg target half).
Notation hof_run := (hof_run world sim (cf_threshold cfg)).

Notation half_for := (half_for half).

(* generation k of a run *)
Definition history (sch : option scheme) (st : sstate) (k : nat) (all : list (fl * world)) : Prop :=
  exists kept ds top rest, nth_error (ss_saved st) k = Some kept /\ nth_error (ss_labels st) k = Some ds /\
    nth_error (ss_log st) k = Some (mkRow k (option_map fst top) (length kept)) /\
    hof_run (init_hof world (cf_hof cfg)) (firstn (S k) (ss_evaluated st)) = Ok (top :: rest) /\
    kept <> [] /\ length kept = Nat.min (cf_population cfg) (length all) /\ length ds = length all /\
    (forall i s w', nth_error all i = Some (s, w') -> exists w0, opt k i w0 = Ok (s, w')) /\
    (forall s d, sch = Some s -> In d ds -> kind s d) /\
    (forall k' ds', k = S k' -> nth_error (ss_labels st) k' = Some ds' -> incl ds ds') /\
    (k = 0 -> sch = Some SubpopScheme -> exists t, target = Some t /\ t <> 0%Z /\ forall d, In d ds -> exists i, i < cf_population cfg /\ d = Subpopulation (label t i)) /\
    exists rep ss, grouping sim sch (combine ds (map snd all)) rep /\ weighed (half_for sch) k (species_size rep) all ss /\ selected (cf_population cfg) ss all kept.

Record progress (sch : option scheme) (g : nat) (st : sstate) : Prop := {
  pg_weak : weak root (ss_process st);
  pg_pop : pop_ok (pr_heap (ss_process st)) (ss_pop st);
  pg_start : g = 0 -> (forall x, In x (ss_pop st) -> desc_of (pr_desc (ss_process st)) (snd x) = NoDescriptor) /\ length (ss_pop st) = cf_population cfg;
  pg_plain : sch = None -> pr_overseer (ss_process st) = None;
  pg_scheme : g <> 0 -> forall s, sch = Some s -> scheme_in (ss_process st) = Some s /\ half_in (ss_process st) = half /\
    (forall x, In x (ss_pop st) -> kind s (desc_of (pr_desc (ss_process st)) (snd x))) /\
    forall o k, pr_overseer (ss_process st) = Some o -> In k (dkeys (sp_species (ov_state o))) -> kind s (desc_of (pr_desc (ss_process st)) k);
  pg_some : g <> 0 -> ss_pop st <> [];
  pg_lengths : length (ss_saved st) = g /\ length (ss_log st) = g /\ length (ss_evaluated st) = g /\ length (ss_labels st) = g;
  pg_hof : hof_run (init_hof world (cf_hof cfg)) (ss_evaluated st) = Ok (ss_hof st);
  pg_history : forall k all, nth_error (ss_evaluated st) k = Some all -> history sch st k all;
  pg_last : forall k ds, g = S k -> nth_error (ss_labels st) k = Some ds -> forall x, In x (ss_pop st) -> In (desc_of (pr_desc (ss_process st)) (snd x)) ds }.

(* the process the update works in *)
Lemma described : forall ru sch g st st' pr1 p1 pr2 h3 pk pairs done kept top rest, progress sch g st -> anatomy ru sch g st st' pr1 p1 pr2 h3 pk pairs done kept top rest ->
  match sch with
  | None => pr2 = pr1
  | Some s => scheme_in pr2 = Some s /\ half_in pr2 = half /\ (forall x, In x p1 -> kind s (desc_of (pr_desc pr2) (snd x))) /\ (g <> 0 -> pr2 = pr1) /\
      (g = 0 -> describe target s 0 p1 (pr_desc pr1) = Ok (pr_desc pr2) /\ s <> PhotoScheme /\ exists o, pr_overseer pr2 = Some o /\ sp_species (ov_state o) = [])
  end.
Proof.
  intros ru sch g st st' pr1 p1 pr2 h3 pk pairs done kept top rest P A. destruct P, A. destruct sch as [s|]; [|exact an_setup].
  destruct an_pr1 as (Q1 & Q2 & Q3 & Q4 & Q5). destruct an_p1 as [M1 _]. destruct (setup_ok root target half s pr1 p1 pr2 Q3 an_setup) as (_ & _ & x & r & Ep & [[D1 D2]|(D1 & D2 & D3 & o & O1 & O2 & O3 & O4)]).
  - assert (g <> 0). { intros Z. destruct (pg_start0 Z) as [N _]. destruct (an_first Z) as [E1 E2]. apply D1. rewrite E1. apply N. rewrite <- E2, Ep. left. reflexivity. }
    destruct (pg_scheme0 H s eq_refl) as (S1 & S2 & S3 & _). subst pr2. split; [congruence|]. split; [congruence|]. split; [|split; [reflexivity|contradiction]].
    intros y Hy. destruct (addresses_in _ _ _ M1 Hy) as (z & Hz & <-). rewrite Q2. apply S3, Hz.
  - assert (g = 0). { destruct (Nat.eq_dec g 0) as [Z|Z]; [exact Z|exfalso]. destruct (pg_scheme0 Z s eq_refl) as (_ & _ & S3 & _). assert (Hx : In x p1) by (rewrite Ep; left; reflexivity).
      destruct (addresses_in _ _ _ M1 Hx) as (z & Hz & E). apply (kind_some s (desc_of (pr_desc (ss_process st)) (snd z)) (S3 z Hz)). rewrite E, <- Q2. exact D1. }
    split; [unfold scheme_in; rewrite O1; cbn; congruence|]. split; [unfold half_in; rewrite O1; exact O3|]. split; [exact (describe_kind target s p1 0 _ _ D3)|]. split; [contradiction|].
    intros _. split; [exact D3|]. split; [exact D2|]. exists o. auto.
Qed.

Lemma progress_step : forall ru sch g st st' pr1 p1 pr2 h3 pk pairs done kept top rest, progress sch g st -> anatomy ru sch g st st' pr1 p1 pr2 h3 pk pairs done kept top rest -> progress sch (S g) st'.
Proof.
  intros ru sch g st st' pr1 p1 pr2 h3 pk pairs done kept top rest P A. pose proof (described _ _ _ _ _ _ _ _ _ _ _ _ _ _ _ P A) as D. destruct P as [W Po St Pl Sc So (L1 & L2 & L3 & L4) Ho Hi La]. destruct A.
  set (ds := labels_of (ss_process st') (places (length h3) done)) in *.
  assert (Ld : length done = length pk) by (apply (optimise_all_ok opt) in an_done; tauto).
  assert (Lds : length ds = length done). { unfold ds, labels_of, places. rewrite map_length, combine_length, map_length, seq_length. lia. }
  assert (Kd : forall s d, sch = Some s -> In d ds -> kind s d).
  { intros s d E I. rewrite an_inherited in I. apply in_map_iff in I as (x & <- & Hx). destruct (uf_kid _ _ _ _ _ _ an_facts (pr_desc pr2) x Hx) as (y & Hy & ->). rewrite E in D. destruct D as (_ & _ & K & _). apply K, Hy. }
  assert (Pd : forall x, In x (ss_pop st') -> In (desc_of (pr_desc (ss_process st')) (snd x)) ds).
  { intros x Hx. apply label_in. destruct an_pop as (_ & I & _). apply I. apply in_map. exact Hx. }
  assert (Sd : forall k' ds', g = S k' -> nth_error (ss_labels st) k' = Some ds' -> incl ds ds').
  { intros k' ds' E E' d I. rewrite an_inherited in I. apply in_map_iff in I as (x & <- & Hx). destruct (uf_kid _ _ _ _ _ _ an_facts (pr_desc pr2) x Hx) as (y & Hy & ->).
    assert (E2 : pr_desc pr2 = pr_desc (ss_process st)). { destruct an_pr1 as (_ & Q & _). destruct sch as [s|]; [destruct D as (_ & _ & _ & N & _); rewrite N by lia|rewrite D]; exact Q. }
    rewrite E2. destruct an_p1 as [M1 _]. destruct (addresses_in _ _ _ M1 Hy) as (z & Hz & <-). exact (La k' ds' E E' z Hz). }
  assert (Sch : match sch with None => pr_overseer (ss_process st') = None /\ scheme_in pr2 = None /\ half_in pr2 = None | Some s => scheme_in pr2 = Some s /\ half_in pr2 = half end).
  { destruct sch as [s|]; [tauto|]. specialize (Pl eq_refl). assert (N : scheme_in pr2 = None /\ half_in pr2 = None).
    { destruct an_pr1 as (_ & _ & _ & Q4 & Q5). rewrite D, Q4, Q5. unfold scheme_in, half_in. rewrite Pl. auto. }
    split; [|exact N]. destruct an_scheme as [X _]. rewrite (proj1 N) in X. unfold scheme_in in X. destruct (pr_overseer (ss_process st')); [discriminate|reflexivity]. }
  assert (Hr : hof_run (init_hof world (cf_hof cfg)) (ss_evaluated st') = Ok (ss_hof st')).
  { rewrite an_evaluated, (hof_run_app sim cfg), Ho. cbn [HofModel.hof_run]. destruct an_hof as [-> ->]. reflexivity. }
  constructor.
  - exact an_weak.
  - exact (proj1 an_pop).
  - discriminate.
  - intros ->. tauto.
  - intros _ s ->. destruct Sch as [S1 S2]. destruct an_scheme as [X Y]. split; [congruence|]. split; [congruence|]. split; [intros x Hx; apply (Kd s); [reflexivity|apply Pd, Hx]|].
    intros o k Hov Hk. apply (Kd s); [reflexivity|]. apply label_in. destruct an_speciate as (pr4 & _ & _ & _ & _ & Dv). unfold divides in Dv. rewrite Hov in Dv. destruct (pr_overseer pr4); [|contradiction].
    destruct Dv as (_ & _ & _ & _ & Dv & _). exact (proj1 (dv_reps _ _ _ _ Dv k Hk)).
  - intros _ E. destruct an_pop as (_ & _ & Lp). destruct an_kept as [K _]. rewrite E in Lp. destruct kept; [apply K; reflexivity|discriminate].
  - rewrite an_saved, an_log, an_evaluated, an_labels, !app_length. cbn [length]. lia.
  - exact Hr.
  - intros k all E. rewrite an_evaluated in E. apply snoc_nth in E as [[Lk E]|[-> ->]].
    + destruct (Hi k all E) as (kp & d & tp & rs & H1 & H2 & H3 & H4 & H5 & H6 & H7 & H8 & H9 & H10 & H11 & H12). exists kp, d, tp, rs. rewrite an_saved, an_labels, an_log, an_evaluated.
      split; [rewrite snoc_old by lia; exact H1|]. split; [rewrite snoc_old by lia; exact H2|]. split; [rewrite snoc_old by lia; exact H3|].
      split; [rewrite firstn_app; replace (S k - length (ss_evaluated st)) with 0 by lia; cbn [firstn]; rewrite app_nil_r; exact H4|].
      repeat (split; [assumption|]). split; [|split; [exact H11|exact H12]]. intros k' ds' Ek E'. rewrite snoc_old in E' by lia. exact (H10 k' ds' Ek E').
    + exists kept, ds, top, rest. rewrite an_saved, an_labels, an_log. destruct an_kept as [K1 K2].
      split; [apply snoc_new; lia|]. split; [apply snoc_new; lia|]. split; [rewrite L3; apply snoc_new; lia|].
      split; [rewrite firstn_all2; [exact (eq_trans Hr (f_equal Ok (proj1 an_hof)))|rewrite an_evaluated, app_length; cbn; lia]|].
      split; [exact K1|]. split; [exact K2|]. split; [exact Lds|]. split; [|split; [exact Kd|split; [|split]]].
      * intros i s w' Ei. apply (optimise_all_ok opt) in an_done as (_ & _ & K). destruct (K i s w' Ei) as (_ & _ & w1 & _ & _ & _ & K4). exists w1. rewrite L3. exact K4.
      * intros k' ds' Ek E'. rewrite L3 in Ek. rewrite snoc_old in E' by lia. exact (Sd k' ds' Ek E').
      * intros Z Es. rewrite L3 in Z. subst sch. destruct D as (_ & _ & _ & _ & D). destruct (D Z) as (D1 & _). destruct (an_first Z) as [_ Ep]. destruct (St Z) as [_ Lp]. rewrite <- Ep in Lp. destruct an_p1 as [_ (_ & _ & Nd)].
        assert (Ne : p1 <> []). { intro E. pose proof (uf_kid _ _ _ _ _ _ an_facts (pr_desc pr2)) as U. destruct pk as [|x pk]; [destruct done; [|discriminate]; rewrite Nat.min_0_r in K2; destruct kept; [contradiction|discriminate]|].
          destruct (U x (or_introl eq_refl)) as (y & Hy & _). rewrite E in Hy. exact Hy. }
        destruct p1 as [|x0 p1]; [contradiction|]. destruct (describe_label target _ _ _ _ 0 x0 Nd D1 eq_refl) as (t & T1 & T2 & _). exists t. split; [exact T1|]. split; [exact T2|].
        intros d I. rewrite an_inherited in I. apply in_map_iff in I as (x & <- & Hx). destruct (uf_kid _ _ _ _ _ _ an_facts (pr_desc pr2) x Hx) as (y & Hy & ->). apply In_nth_error in Hy as [j Ej].
        destruct (describe_label target _ _ _ _ j y Nd D1 Ej) as (t' & T1' & _ & T3). rewrite T1 in T1'. injection T1' as <-. exists j. split; [rewrite <- Lp; exact (nth_lt _ _ _ _ Ej)|exact T3].
      * rewrite L3. destruct an_choice as (rep & ss & C1 & C2 & C3). exists rep, ss. destruct sch as [s|]; unfold SpeciatedSpec.half_for; [destruct Sch as [S1 S2]|destruct Sch as (_ & S1 & S2)]; rewrite <- S1 at 1; rewrite <- S2; auto.
  - intros k ds' E E' x Hx. injection E as <-. rewrite an_labels, snoc_new in E' by lia. injection E' as <-. exact (Pd x Hx).
Qed.

Lemma generations_progress : forall n ru sch g st st', progress sch g st -> spec_generations ru sch n g st = Ok st' -> progress sch (g + n) st'.
Proof.
  induction n as [|n IH]; intros ru sch g st st' P H; cbn [SpeciatedModel.spec_generations] in H; [injection H as <-; rewrite Nat.add_0_r; exact P|].
  destruct (spec_generation ru sch g st) as [s1|] eqn:E; [|discriminate]. cbn [bind] in H.
  destruct (dissect L ops ev sim rounded root opt lucks orders picks cfg target half IT ru sch g st s1 (pg_weak _ _ _ P) (pg_pop _ _ _ P) E) as (? & ? & ? & ? & ? & ? & ? & ? & ? & ? & A).
  rewrite <- Nat.add_succ_comm. exact (IH _ _ _ _ _ (progress_step _ _ _ _ _ _ _ _ _ _ _ _ _ _ _ P A) H).
Qed.

Definition fresh_run (u : update_rule) (pr : process) (r0 : nat) : Prop :=
  desc_of (pr_desc pr) r0 = NoDescriptor /\ (scheme_for u = None -> pr_overseer pr = None).
Lemma rule_scheme : forall u ru sch, rule_of u = Ok (ru, sch) -> sch = scheme_for u.
Proof. intros u ru sch H. destruct u; cbn in *; congruence. Qed.
Lemma start_progress : forall u pr r0 st, lifetime root pr -> fresh_run u pr r0 -> spec_start pr r0 = Ok st -> progress (scheme_for u) 0 st.
Proof.
  intros u pr r0 st Lf [D O] H. destruct (start_ok root opt0 cfg pr r0 st H (proj1 (lifetime_sane root pr Lf))) as (W & Po & Lp & Ov & Dp & _ & _ & H1 & H2 & H3 & H4 & H5).
  constructor.
  - exact W.
  - exact Po.
  - intros _. split; [|exact Lp]. intros x Hx. rewrite (proj1 (Dp x Hx)). exact D.
  - intro E. rewrite Ov. exact (O E).
  - intro Z. contradiction.
  - intro Z. contradiction.
  - rewrite H2, H3, H4, H5. auto.
  - rewrite H4, H1. reflexivity.
  - intros k all E. rewrite H4 in E. destruct k; discriminate.
  - discriminate.
Qed.
(* a returned run: the state it starts from, and its generations *)
Lemma run_split : forall u pr r0 st, optimise_topology u pr r0 = Ok st -> exists ru st0, rule_of u = Ok (ru, scheme_for u) /\ spec_start pr r0 = Ok st0 /\ spec_generations ru (scheme_for u) (cf_generations cfg) 0 st0 = Ok st.
Proof.
  intros u pr r0 st H. unfold SpeciatedModel.optimise_topology in H. destruct (rule_of u) as [[ru sch]|] eqn:R; [|discriminate]. cbn [bind fst snd] in H.
  destruct (spec_start pr r0) as [s0|] eqn:E; [|discriminate]. cbn [bind] in H. exists ru, s0. rewrite <- (rule_scheme _ _ _ R). auto.
Qed.
Lemma run_progress : forall u pr r0 st, lifetime root pr -> fresh_run u pr r0 -> optimise_topology u pr r0 = Ok st -> progress (scheme_for u) (cf_generations cfg) st.
Proof.
  intros u pr r0 st Lf F H. apply run_split in H as (ru & s0 & R & E & H). exact (generations_progress _ _ _ 0 _ _ (start_progress u pr r0 s0 Lf F E) H).
Qed.
(* the first n generations *)
Lemma generations_first : forall n ru sch g st st', spec_generations ru sch (S n) g st = Ok st' -> exists s1, spec_generation ru sch g st = Ok s1 /\ spec_generations ru sch n (S g) s1 = Ok st'.
Proof. intros n ru sch g st st' H. cbn [SpeciatedModel.spec_generations] in H. destruct (spec_generation ru sch g st) as [s1|] eqn:E; [|discriminate]. exists s1. auto. Qed.

(** ** C74 *)
Lemma run_generations : forall u pr r0 st, lifetime root pr -> fresh_run u pr r0 -> optimise_topology u pr r0 = Ok st ->
  length (ss_saved st) = cf_generations cfg /\ length (ss_log st) = cf_generations cfg /\ length (ss_evaluated st) = cf_generations cfg /\ length (ss_labels st) = cf_generations cfg /\
  forall k all, nth_error (ss_evaluated st) k = Some all -> exists kept ds row, nth_error (ss_saved st) k = Some kept /\ nth_error (ss_labels st) k = Some ds /\ nth_error (ss_log st) k = Some row /\
    kept <> [] /\ length kept = Nat.min (cf_population cfg) (length all) /\ length ds = length all /\ r_generation row = k /\ r_size row = length kept /\
    (forall i s w', nth_error all i = Some (s, w') -> exists w0, opt k i w0 = Ok (s, w')) /\
    (no_nan all -> exists rep ss, grouping sim (scheme_for u) (combine ds (map snd all)) rep /\ weighed (half_for (scheme_for u)) k (species_size rep) all ss /\ selected (cf_population cfg) ss all kept).
Proof.
  intros u pr r0 st Lf F H. pose proof (run_progress _ _ _ _ Lf F H) as P. destruct (pg_lengths _ _ _ P) as (L1 & L2 & L3 & L4). repeat (split; [assumption|]).
  intros k all E. destruct (pg_history _ _ _ P k all E) as (kept & ds & top & rest & H1 & H2 & H3 & H4 & H5 & H6 & H7 & H8 & _ & _ & _ & H12).
  exists kept, ds, (mkRow k (option_map fst top) (length kept)). cbn [r_generation r_size]. repeat (split; [first [assumption|reflexivity]|]). intros _. exact H12.
Qed.

Lemma history_best : forall sch st k all n, history sch st k all -> no_nan (concat (ss_evaluated st)) -> nth_error (ss_evaluated st) k = Some all -> S k <= n ->
  forall h, hof_run (init_hof world (cf_hof cfg)) (firstn n (ss_evaluated st)) = Ok h -> exists s gr rest, h = Some (s, gr) :: rest /\ lowest (concat (firstn n (ss_evaluated st))) s.
Proof.
  intros sch st k all n (kept & ds & top & rest & H1 & H2 & H3 & H4 & H5 & H6 & _) N Ea Kn h Eh.
  assert (Hn : 0 < cf_hof cfg). { destruct (cf_hof cfg) eqn:Z; [|lia]. change (init_hof world 0) with (@nil (slot world)) in H4. rewrite (hof_run_nil sim cfg) in H4. discriminate. }
  assert (Ne : concat (firstn n (ss_evaluated st)) <> []).
  { intro C. assert (X : forall x, ~ In x all).
    { intros x Hx. assert (In x (concat (firstn n (ss_evaluated st)))); [|rewrite C in H; exact H]. apply in_concat. exists all. split; [|exact Hx].
      apply (nth_error_In _ k). rewrite nth_error_firstn_lt by lia. exact Ea. }
    destruct all as [|x all]; [|exact (X x (or_introl eq_refl))]. cbn in H6. rewrite Nat.min_0_r in H6. destruct kept; [contradiction|discriminate]. }
  destruct (hof_best world sim (cf_threshold cfg) (cf_hof cfg) _ _ Hn Eh) as (s & gr & rs & Es & Hin & Mn); [|exact Ne|].
  - intros s gr Hi. apply (N s gr). exact (in_concat_firstn _ _ _ _ Hi).
  - exists s, gr, rs. split; [exact Es|]. split; [exists gr; exact Hin|exact Mn].
Qed.
Lemma run_log : forall u pr r0 st, lifetime root pr -> fresh_run u pr r0 -> optimise_topology u pr r0 = Ok st -> no_nan (concat (ss_evaluated st)) -> forall k row, nth_error (ss_log st) k = Some row ->
  exists s, r_best row = Some s /\ lowest (concat (firstn (S k) (ss_evaluated st))) s.
Proof.
  intros u pr r0 st Lf F H N k row E. pose proof (run_progress _ _ _ _ Lf F H) as P. destruct (pg_lengths _ _ _ P) as (L1 & L2 & L3 & L4).
  destruct (nth_error (ss_evaluated st) k) as [all|] eqn:Ea; [|apply nth_error_None in Ea; assert (k < length (ss_log st)) by (apply nth_error_Some; congruence); lia].
  pose proof (pg_history _ _ _ P k all Ea) as Hi. pose proof Hi as (kept & ds & top & rest & H1 & H2 & H3 & H4 & _). rewrite H3 in E. injection E as <-. cbn [r_best].
  destruct (history_best _ _ _ _ (S k) Hi N Ea (le_n _) _ H4) as (s & gr & rs & E & Lo). injection E as -> _. exists s. auto.
Qed.
Lemma run_hof : forall u pr r0 st, lifetime root pr -> fresh_run u pr r0 -> optimise_topology u pr r0 = Ok st ->
  hof_run (init_hof world (cf_hof cfg)) (ss_evaluated st) = Ok (ss_hof st) /\
  (0 < cf_generations cfg -> no_nan (concat (ss_evaluated st)) -> exists s gr rest, ss_hof st = Some (s, gr) :: rest /\ lowest (concat (ss_evaluated st)) s).
Proof.
  intros u pr r0 st Lf F H. pose proof (run_progress _ _ _ _ Lf F H) as P. destruct (pg_lengths _ _ _ P) as (L1 & L2 & L3 & L4). pose proof (pg_hof _ _ _ P) as Ho. split; [exact Ho|]. intros G N.
  destruct (nth_error (ss_evaluated st) 0) as [all|] eqn:Ea; [|apply nth_error_None in Ea; lia].
  assert (Fa : firstn (cf_generations cfg) (ss_evaluated st) = ss_evaluated st) by (apply firstn_all2; lia).
  rewrite <- Fa in Ho at 1. destruct (history_best _ _ _ _ _ (pg_history _ _ _ P 0 all Ea) N Ea G _ Ho) as (s & gr & rs & E & Lo). rewrite Fa in Lo. exists s, gr, rs. auto.
Qed.

(** *** Runs that cannot return *)
Lemma first_generation : forall u pr r0 st, lifetime root pr -> 0 < cf_generations cfg -> optimise_topology u pr r0 = Ok st ->
  exists ru s0 s1 pr1 p1 pr2 h3 pk pairs done kept top rest, rule_of u = Ok (ru, scheme_for u) /\ spec_start pr r0 = Ok s0 /\ spec_generations ru (scheme_for u) (cf_generations cfg - 1) 1 s1 = Ok st /\
    anatomy ru (scheme_for u) 0 s0 s1 pr1 p1 pr2 h3 pk pairs done kept top rest.
Proof.
  intros u pr r0 st Lf G H. apply run_split in H as (ru & s0 & R & E & H). destruct (start_ok root opt0 cfg pr r0 s0 E (proj1 (lifetime_sane root pr Lf))) as (W & Po & _).
  destruct (cf_generations cfg) as [|n] eqn:Gn; [lia|]. apply generations_first in H as (s1 & H1 & H2).
  destruct (dissect L ops ev sim rounded root opt lucks orders picks cfg target half IT ru _ 0 s0 s1 W Po H1) as (pr1 & p1 & pr2 & h3 & pk & pairs & done & kept & top & rest & A).
  exists ru, s0, s1, pr1, p1, pr2, h3, pk, pairs, done, kept, top, rest. replace (S n - 1) with n by lia. auto.
Qed.

Lemma elitism_aborts : forall u pr r0 st, lifetime root pr -> 0 < cf_generations cfg -> (1 # 2 < cf_elitism cfg * inject_Z (Z.of_nat (cf_population cfg)))%Q -> optimise_topology u pr r0 <> Ok st.
Proof.
  intros u pr r0 st Lf G E H. destruct (first_generation u pr r0 st Lf G H) as (ru & s0 & s1 & pr1 & p1 & pr2 & h3 & pk & pairs & done & kept & top & rest & _ & St & _ & A).
  destruct (start_ok root opt0 cfg pr r0 s0 St (proj1 (lifetime_sane root pr Lf))) as (W & (Sc & Hd & _) & Lp & _). destruct A. destruct (an_first eq_refl) as [_ Ep1]. destruct an_pr2 as [Hh _]. rewrite Ep1 in an_update.
  destruct (update_shape L ops ev lucks (with_rule cfg ru) 0 (generation_of cfg 0) (pr_heap pr2) (ss_pop s0) h3 pk) with (2 := an_update) as (kids & e & Ep & _ & Me & _); [rewrite Hh; exact Hd|].
  destruct (elite_head (with_rule cfg ru) (ss_pop s0) e Sc) as (x & r & -> & Nx); [apply some_elite; rewrite Lp; exact E|exact Me|]. apply Nx, an_unscored. rewrite Ep. apply in_app_iff. right. left. reflexivity.
Qed.

Lemma photo_aborts : forall u pr r0 st0, u = RandomPhoto \/ u = PreferentialPhoto -> cf_generations cfg <> 0 -> cf_generations cfg <> 1 -> 0 < cf_population cfg -> lifetime root pr ->
  desc_of (pr_desc pr) r0 = NoDescriptor -> spec_start pr r0 = Ok st0 -> optimise_topology u pr r0 = Err ValueError.
Proof.
  intros u pr r0 st0 U G0 G1 N Lf D E. destruct (start_ok root opt0 cfg pr r0 st0 E (proj1 (lifetime_sane root pr Lf))) as (_ & _ & Lp & _ & Dp & _).
  assert (X : forall ru, spec_generations ru (Some PhotoScheme) (cf_generations cfg) 0 st0 = Err ValueError).
  { intro ru. destruct (cf_generations cfg) as [|n] eqn:Gn; [lia|]. cbn [SpeciatedModel.spec_generations]. unfold SpeciatedModel.spec_generation. cbn [Nat.eqb bind]. rewrite Gn.
    destruct n as [|n]; [lia|]. cbn [Nat.eqb]. unfold SpeciatedModel.setup. destruct (ss_pop st0) as [|[o r] rest] eqn:Ep; [cbn in Lp; lia|]. destruct (Dp (o, r) (or_introl eq_refl)) as [Y _]. cbn [snd] in Y. rewrite Y, D. reflexivity. }
  unfold SpeciatedModel.optimise_topology. destruct U as [-> | ->]; cbn [rule_of bind fst snd]; rewrite E; cbn [bind]; apply X.
Qed.

Lemma random_aborts : forall u pr r0 st, u = RandomSubpop \/ u = RandomVector \/ u = RandomPhoto -> 0 < cf_generations cfg -> lifetime root pr ->
  desc_of (pr_desc pr) r0 = NoDescriptor -> optimise_topology u pr r0 <> Ok st.
Proof.
  intros u pr r0 st U G Lf D H. assert (Us : exists s, scheme_for u = Some s) by (destruct U as [->|[->| ->]]; eexists; reflexivity). destruct Us as [s Us].
  assert (F : fresh_run u pr r0) by (split; [exact D|rewrite Us; discriminate]).
  destruct (first_generation u pr r0 st Lf G H) as (ru & s0 & s1 & pr1 & p1 & pr2 & h3 & pk & pairs & done & kept & top & rest & R & St & Re & A).
  assert (Ru : ru = RuleRandom) by (destruct U as [->|[->| ->]]; injection R as <-; reflexivity). subst ru.
  pose proof (progress_step _ _ _ _ _ _ _ _ _ _ _ _ _ _ _ (start_progress u pr r0 s0 Lf F St) A) as P1. pose proof (an_gens _ _ _ _ _ _ _ _ _ _ _ _ _ _ _ _ _ _ _ _ _ _ _ _ _ _ _ _ A) as G1.
  destruct (cf_generations cfg) as [|[|n]] eqn:Gn; [lia|lia|]. replace (S (S n) - 1) with (S n) in Re by lia. apply generations_first in Re as (s2 & E2 & _).
  destruct (dissect L ops ev sim rounded root opt lucks orders picks cfg target half IT RuleRandom _ 1 s1 s2 (pg_weak _ _ _ P1) (pg_pop _ _ _ P1) E2) as (qr1 & q1 & qr2 & k3 & qk & qpairs & qdone & qkept & qtop & qrest & B).
  pose proof (described _ _ _ _ _ _ _ _ _ _ _ _ _ _ _ P1 B) as DD. rewrite Us in DD. destruct DD as (S1 & _ & _ & S2 & _). assert (N1 : 1 <> 0) by lia. specialize (S2 N1). destruct B.
  destruct (an_later N1) as [Sp _]. destruct (pg_pop _ _ _ P1) as (_ & Hd & _).
  destruct (do_speciate_ok L sim rounded root orders picks IT 1 false (ss_process s1) (ss_pop s1) qr1 (pg_weak _ _ _ P1) Hd Sp) as (_ & _ & _ & Dv & _). subst qr2. unfold scheme_in in S1. unfold divides in Dv.
  destruct (pr_overseer qr1) as [o|] eqn:Ov; [|discriminate]. destruct (pr_overseer (ss_process s1)) as [o'|]; [|contradiction]. destruct Dv as (_ & _ & _ & _ & Dv & _).
  pose proof (uf_random _ _ _ _ _ _ an_facts eq_refl) as Mk. destruct an_p1 as [M1 _]. rewrite M1 in Mk. destruct (ss_pop s1) as [|y q] eqn:Eq; [exact (pg_some _ _ _ P1 N1 Eq)|]. destruct qk as [|x qk]; [discriminate|].
  assert (Hx : snd x = snd y) by (cbn in Mk; congruence).
  destruct (size_positive _ _ _ _ (snd y) Dv (or_introl eq_refl)) as (m & Em & _). rewrite <- Hx in Em. rewrite (an_unknown N1 o x eq_refl (or_introl eq_refl)) in Em. discriminate.
Qed.

(** *** The composition scheme *)
Lemma vector_raises : forall pr a b, lib_ok L -> (forall w, nth_error (pr_heap pr) a = Some w -> has_terminal w) -> desc_of (pr_desc pr) a = VectorDiff -> desc_of (pr_desc pr) b = VectorDiff ->
  a < length (pr_heap pr) -> b < length (pr_heap pr) -> object_distance pr VectorScheme a b = Err KeyError.
Proof.
  intros pr a b LO T Da Db Ha Hb. unfold SpeciatedModel.object_distance. rewrite Da, Db. unfold deref. destruct (nth_error (pr_heap pr) a) as [w0|] eqn:Ea; [|apply nth_error_None in Ea; lia].
  destruct (nth_error (pr_heap pr) b) as [w1|] eqn:Eb; [|apply nth_error_None in Eb; lia]. cbn [of_option bind]. destruct (T w0 eq_refl) as (c & Hc & Tc).
  destruct (composition_raises L (w_graph w0) (w_graph w1)) as [P _]; [|rewrite P; reflexivity]. exists c. split; [left; exact Hc|]. destruct (basis_terminals L LO) as [A B]. destruct Tc as [-> | ->]; assumption.
Qed.
Lemma has_terminal_dec : forall w, {has_terminal w} + {~ has_terminal w}.
Proof.
  intro w. destruct (Exists_dec (fun c => ccls c = TerminalSource \/ ccls c = TerminalSink) (components (w_graph w))) as [E|E].
  - intro c. destruct (cls_eq_dec (ccls c) TerminalSource); [left; auto|]. destruct (cls_eq_dec (ccls c) TerminalSink); [left; auto|right; tauto].
  - left. apply Exists_exists in E. exact E.
  - right. intros (c & I & T). apply E, Exists_exists. exists c. auto.
Qed.
Lemma generations_evaluated : forall n ru sch g st st', spec_generations ru sch n g st = Ok st' -> exists l, ss_evaluated st' = ss_evaluated st ++ l.
Proof.
  induction n as [|n IH]; intros ru sch g st st' H; [cbn in H; injection H as <-; exists []; symmetry; apply app_nil_r|]. apply generations_first in H as (s1 & E & H). destruct (IH _ _ _ _ _ H) as [l El].
  assert (X : exists d, ss_evaluated s1 = ss_evaluated st ++ d). { unfold SpeciatedModel.spec_generation in E. repeat first [match type of E with bind ?b _ = _ => destruct b; [cbn [bind] in E|discriminate] end|match type of E with (if ?b then _ else _) = _ => destruct b; [discriminate|] end|progress cbv zeta in E].
    unfold arrive in E. repeat (match type of E with bind ?b _ = _ => destruct b; [cbn [bind] in E|discriminate] end). repeat (match type of E with match ?x with [] => _ | _ :: _ => _ end = _ => destruct x; [discriminate|] end). injection E as <-. eexists. reflexivity. }
  destruct X as [d Ed]. exists (d ++ l). rewrite El, Ed, app_assoc. reflexivity.
Qed.
Lemma vector_terminals : forall u pr r0 st, u = RandomVector \/ u = PreferentialVector -> lib_ok L -> 0 < cf_generations cfg -> 2 <= cf_population cfg -> lifetime root pr ->
  desc_of (pr_desc pr) r0 = NoDescriptor -> optimise_topology u pr r0 = Ok st ->
  exists all s w, nth_error (ss_evaluated st) 0 = Some all /\ In (s, w) all /\ ~ has_terminal w.
Proof.
  intros u pr r0 st U LO G N Lf D H. assert (Us : scheme_for u = Some VectorScheme) by (destruct U as [-> | ->]; reflexivity).
  assert (F : fresh_run u pr r0) by (split; [exact D|rewrite Us; discriminate]).
  destruct (first_generation u pr r0 st Lf G H) as (ru & s0 & s1 & pr1 & p1 & pr2 & h3 & pk & pairs & done & kept & top & rest & R & St & Re & A).
  pose proof (start_progress u pr r0 s0 Lf F St) as P0. pose proof (described _ _ _ _ _ _ _ _ _ _ _ _ _ _ _ P0 A) as DD. rewrite Us in DD. destruct DD as (S1 & _ & Kp & _ & DD). destruct (DD eq_refl) as (_ & _ & o & Ov & Sn).
  destruct (generations_evaluated _ _ _ _ _ _ Re) as [l El]. pose proof (pg_lengths _ _ _ P0) as (_ & _ & L3 & _). destruct (pg_start _ _ _ P0 eq_refl) as [_ Lp]. destruct A.
  assert (E0 : nth_error (ss_evaluated st) 0 = Some done). { rewrite El, an_evaluated. destruct (ss_evaluated s0); [reflexivity|discriminate]. }
  destruct (Forall_Exists_dec (fun x : fl * world => has_terminal (snd x)) (fun x => has_terminal_dec (snd x)) done) as [Al|Ex].
  - exfalso. destruct an_speciate as (pr4 & Hh & Hd4 & Ho & Sp & _). unfold SpeciatedModel.do_speciate in Sp. rewrite Ho, Ov, Sn in Sp. destruct IT as [IO _]. pose proof (Permutation_nil (Permutation_sym (IO 0 true []))) as On. cbn [dkeys map] in Sp. rewrite On in Sp.
    assert (Es : ov_scheme o = VectorScheme). { unfold scheme_in in S1. rewrite Ov in S1. cbn in S1. congruence. } rewrite Es in Sp.
    assert (Mp : map snd (places (length h3) done) = seq (length h3) (length done)) by apply positions_addresses.
    assert (Ld : length done = length pk) by (apply (optimise_all_ok opt) in an_done; tauto). pose proof (uf_size _ _ _ _ _ _ an_facts) as Ls. destruct an_p1 as [M1 _].
    assert (L1 : length p1 = cf_population cfg) by (apply (f_equal (@length nat)) in M1; rewrite !map_length in M1; exact (eq_trans M1 Lp)). unfold population, individual in *.
    rewrite speciate_raises in Sp; [discriminate|exact Sn| |].
    + destruct done as [|[a1 b1] [|[a2 b2] done]]; [cbn in Ld; lia|cbn in Ld; lia|]. exists (Some a1, length h3), (Some a2, S (length h3)). split; [left; reflexivity|]. split; [right; left; reflexivity|cbn; lia].
    + intros a b Ia Ib _. pose proof Ia as Ia'. pose proof Ib as Ib'. rewrite Mp in Ia, Ib. apply in_seq in Ia, Ib.
      assert (Kd : forall r, In r (map snd (places (length h3) done)) -> desc_of (pr_desc pr4) r = VectorDiff).
      { intros r Hr. pose proof (label_in (ss_process s1) _ r Hr) as J. rewrite an_inherited in J. rewrite Hd4. apply in_map_iff in J as (x & Ex & Hx). rewrite <- Ex.
        destruct (uf_kid _ _ _ _ _ _ an_facts (pr_desc pr2) x Hx) as (y & Hy & Ey). rewrite Ey. exact (Kp y Hy). }
      apply vector_raises; [exact LO| |apply Kd, Ia'|apply Kd, Ib'|rewrite Hh, app_length, map_length; lia|rewrite Hh, app_length, map_length; lia].
      intros w Ew. rewrite Hh, nth_error_app2 in Ew by lia. rewrite nth_error_map in Ew. destruct (nth_error done (a - length h3)) as [x|] eqn:Ed; [|discriminate]. injection Ew as <-. rewrite Forall_forall in Al. apply Al. exact (nth_error_In _ _ Ed).
  - apply Exists_exists in Ex as ([s w] & I & T). exists done, s, w. auto.
Qed.

(** *** Subpopulations *)
Lemma run_subpopulations : forall pr r0 st, lifetime root pr -> desc_of (pr_desc pr) r0 = NoDescriptor -> optimise_topology PreferentialSubpop pr r0 = Ok st ->
  (forall k all, nth_error (ss_evaluated st) k = Some all -> no_nan all -> exists kept ds ss, nth_error (ss_saved st) k = Some kept /\ nth_error (ss_labels st) k = Some ds /\ length ds = length all /\
     weighed half k (with_label ds) all ss /\ selected (cf_population cfg) ss all kept) /\
  (forall k ds ds', nth_error (ss_labels st) k = Some ds -> nth_error (ss_labels st) (S k) = Some ds' -> incl ds' ds) /\
  (forall k ds d, nth_error (ss_labels st) k = Some ds -> In d ds -> exists t i, target = Some t /\ t <> 0%Z /\ i < cf_population cfg /\ d = Subpopulation (Z.abs_nat (Z.of_nat i mod t))).
Proof.
  intros pr r0 st Lf D H. assert (F : fresh_run PreferentialSubpop pr r0) by (split; [exact D|discriminate]). pose proof (run_progress _ _ _ _ Lf F H) as P. cbn [scheme_for] in P. destruct (pg_lengths _ _ _ P) as (L1 & L2 & L3 & L4).
  assert (Q : forall k ds, nth_error (ss_labels st) k = Some ds -> exists all, nth_error (ss_evaluated st) k = Some all).
  { intros k ds E. apply nth_lt in E. destruct (nth_error (ss_evaluated st) k) as [all|] eqn:Ea; [eauto|]. apply nth_error_None in Ea. lia. }
  assert (Inc : forall k ds ds', nth_error (ss_labels st) k = Some ds -> nth_error (ss_labels st) (S k) = Some ds' -> incl ds' ds).
  { intros k ds ds' E E'. destruct (Q _ _ E') as [all Ea]. destruct (pg_history _ _ _ P _ _ Ea) as (kept & ds1 & _ & _ & _ & H2 & _ & _ & _ & _ & _ & _ & _ & H10 & _). rewrite E' in H2. injection H2 as <-. exact (H10 k ds eq_refl E). }
  split; [|split; [exact Inc|]].
  - intros k all Ea _. destruct (pg_history _ _ _ P _ _ Ea) as (kept & ds & _ & _ & H1 & H2 & _ & _ & _ & _ & H7 & _ & _ & _ & _ & rep & ss & G & W & S). exists kept, ds, ss. repeat (split; [assumption|]). split; [|exact S].
    destruct W as [Lw W]. split; [exact Lw|]. intros i s w s' Ei Es. rewrite <- (subpop_size sim ds all rep i H7 G (nth_lt _ _ _ _ Ei)). exact (W i s w s' Ei Es).
  - induction k as [|k IH]; intros ds d E I.
    + destruct (Q _ _ E) as [all Ea]. destruct (pg_history _ _ _ P _ _ Ea) as (kept & ds1 & _ & _ & _ & H2 & _ & _ & _ & _ & _ & _ & _ & _ & H11 & _). rewrite E in H2. injection H2 as <-.
      destruct (H11 eq_refl eq_refl) as (t & T1 & T2 & T3). destruct (T3 d I) as (i & Hi & ->). exists t, i. auto.
    + destruct (nth_error (ss_labels st) k) as [ds0|] eqn:E0; [|apply nth_error_None in E0; apply nth_lt in E; lia]. exact (IH ds0 d eq_refl (Inc k ds0 ds E0 E d I)).
Qed.

(** ** C75 *)
Definition set_ov (o : option overseer) (st : sstate) : sstate :=
  mkSS (mkPr (pr_heap (ss_process st)) (pr_desc (ss_process st)) o) (ss_pop st) (ss_hof st) (ss_log st) (ss_saved st) (ss_evaluated st) (ss_labels st).
Lemma start_overseer : forall h d o r0, spec_start (mkPr h d o) r0 = do st <- spec_start (mkPr h d None) r0; Ok (set_ov o st).
Proof.
  intros h d o r0. unfold SpeciatedModel.spec_start. cbn [pr_heap pr_desc pr_overseer]. destruct (deref h r0) as [w|]; [|reflexivity]. cbn [bind]. destruct (optimise_complete opt0 None w) as [sw|]; [|reflexivity]. cbn [bind].
  destruct (store_at h r0 (snd sw)); [|reflexivity]. reflexivity.
Qed.
Lemma generation_overseer : forall ru s o st, (forall x, In x (ss_pop st) -> desc_of (pr_desc (ss_process st)) (snd x) = NoDescriptor) ->
  spec_generation ru (Some s) 0 (set_ov o st) = spec_generation ru (Some s) 0 (set_ov None st).
Proof.
  intros ru s o st N. unfold SpeciatedModel.spec_generation, set_ov. cbn [ss_process ss_pop ss_hof ss_log ss_saved ss_evaluated ss_labels Nat.eqb bind].
  destruct (Nat.eqb (cf_generations cfg) 1); [reflexivity|]. unfold SpeciatedModel.setup. cbn [pr_heap pr_desc pr_overseer].
  destruct (ss_pop st) as [|[q r] p]; [reflexivity|]. specialize (N (q, r) (or_introl eq_refl)). cbn [snd] in N. rewrite N. reflexivity.
Qed.
Lemma overseer_irrelevant : forall u h d o1 o2 r0, scheme_for u <> None -> desc_of d r0 = NoDescriptor -> 0 < cf_generations cfg ->
  optimise_topology u (mkPr h d o1) r0 = optimise_topology u (mkPr h d o2) r0.
Proof.
  assert (X : forall u h d o r0, scheme_for u <> None -> desc_of d r0 = NoDescriptor -> 0 < cf_generations cfg -> optimise_topology u (mkPr h d o) r0 = optimise_topology u (mkPr h d None) r0).
  { intros u h d o r0 U D G. unfold SpeciatedModel.optimise_topology. destruct (rule_of u) as [[ru sch]|] eqn:R; [|reflexivity]. cbn [bind fst snd]. pose proof (rule_scheme _ _ _ R) as E.
    destruct sch as [s|]; [|congruence]. rewrite (start_overseer h d o r0). destruct (spec_start (mkPr h d None) r0) as [st|] eqn:St; [|reflexivity]. cbn [bind].
    destruct (start_ok root opt0 cfg (mkPr h d None) r0 st St I) as (_ & _ & _ & O & Dp & _). cbn [pr_overseer pr_desc] in *.
    assert (Se : set_ov None st = st) by (destruct st as [[h' d' o'] p hf lg sv ev0 lb]; cbn in *; subst; reflexivity).
    destruct (cf_generations cfg) as [|n]; [lia|]. cbn [SpeciatedModel.spec_generations]. rewrite generation_overseer; [rewrite Se; reflexivity|]. intros x Hx. rewrite (proj1 (Dp x Hx)). exact D. }
  intros u h d o1 o2 r0 U D G. rewrite (X u h d o1 r0 U D G), (X u h d o2 r0 U D G). reflexivity.
Qed.

Lemma nodesc_raises : forall pr s a b, desc_of (pr_desc pr) b = NoDescriptor -> exists e, object_distance pr s a b = Err e.
Proof.
  intros pr s a b D. unfold SpeciatedModel.object_distance. rewrite D. assert (C : forall n d0, exists e, check_names n d0 NoDescriptor = Err e) by (intros [] []; eexists; reflexivity).
  destruct s.
  - destruct (C NSub (desc_of (pr_desc pr) a)) as [e E]. unfold subpop_distance. rewrite E. eexists; reflexivity.
  - destruct (deref (pr_heap pr) a); [|eexists; reflexivity]. destruct (deref (pr_heap pr) b); [|eexists; reflexivity]. cbn [bind]. unfold vector_parts. destruct (C NVec (desc_of (pr_desc pr) a)) as [e E]. rewrite E. eexists; reflexivity.
  - eexists; reflexivity.
  - destruct (deref (pr_heap pr) a); [|eexists; reflexivity]. destruct (deref (pr_heap pr) b); [|eexists; reflexivity]. cbn [bind]. unfold edit_distance. destruct (C NEdit (desc_of (pr_desc pr) a)) as [e E]. rewrite E. eexists; reflexivity.
Qed.
Lemma strangers_raise : forall tgt dist order pick sp p, order <> [] -> (forall k, In k order <-> In k (dkeys (sp_species sp))) -> (forall k l, Permutation (pick k l) l) -> p <> [] ->
  (forall k, In k (dkeys (sp_species sp)) -> ~ In k (map snd p)) -> (forall a b, In b (map snd p) -> exists e, dist a b = Err e) -> exists e, speciate tgt dist root order pick sp p = Err e.
Proof.
  intros tgt dist order pick sp p No Io Pp Np Dj De. unfold speciate. cbv zeta. destruct order as [|rep order]; [contradiction|]. cbn [renew].
  assert (Nr : ~ In rep (map snd p)) by (apply Dj, Io; left; reflexivity).
  assert (M : mem rep (nodup Nat.eq_dec (map snd p)) = false). { destruct (mem rep (nodup Nat.eq_dec (map snd p))) eqn:E; [|reflexivity]. apply mem_In in E. apply nodup_In in E. contradiction. }
  rewrite M. pose proof (Pp 0 (nodup Nat.eq_dec (map snd p))) as Q. destruct (pick 0 (nodup Nat.eq_dec (map snd p))) as [|g l] eqn:Ep.
  { apply Permutation_nil in Q. destruct p as [|x p]; [contradiction|]. assert (In (snd x) (nodup Nat.eq_dec (map snd (x :: p)))) by (apply nodup_In; left; reflexivity). rewrite Q in H. destruct H. }
  assert (Hg : In g (map snd p)) by (apply (nodup_In Nat.eq_dec); apply (Permutation_in _ Q); left; reflexivity). cbn [best_rep].
  assert (Mg : mem g (dkeys (sp_species sp)) = false). { destruct (mem g (dkeys (sp_species sp))) eqn:E; [|reflexivity]. apply mem_In in E. exfalso. exact (Dj g E Hg). }
  rewrite Mg. destruct (De rep g Hg) as [e ->]. exists e. reflexivity.
Qed.

Lemma plain_after : forall u pr r0 st, lifetime root pr -> pr_overseer pr <> None -> desc_of (pr_desc pr) r0 = NoDescriptor -> scheme_for u = None -> 0 < cf_generations cfg -> optimise_topology u pr r0 <> Ok st.
Proof.
  intros u pr r0 st Lf Ov D U G H. destruct (first_generation u pr r0 st Lf G H) as (ru & s0 & s1 & pr1 & p1 & pr2 & h3 & pk & pairs & done & kept & top & rest & R & St & Re & A).
  pose proof (lifetime_sane root pr Lf) as [W Sn]. destruct (start_ok root opt0 cfg pr r0 s0 St W) as (W0 & _ & _ & O & Dp & _ & Hg & _). rewrite U in A. destruct A. subst pr2. destruct (an_first eq_refl) as [E1 E2].
  destruct an_speciate as (pr4 & Hh & Hd4 & Ho & Sp & _). unfold SpeciatedModel.do_speciate in Sp. rewrite E1 in Ho. destruct (pr_overseer pr) as [o|] eqn:Eo; [|congruence]. rewrite Ho, O in Sp. specialize (Sn o eq_refl).
  pose proof W0 as W1. unfold weak in W1. rewrite O in W1. destruct W1 as [_ Kb]. destruct IT as [IO IP].
  assert (Mp : map snd (places (length h3) done) = seq (length h3) (length done)) by apply positions_addresses.
  assert (Nd : done <> []) by (destruct an_kept as [K1 K2]; exact (kept_done cfg _ _ K1 K2)).
  pose proof (uf_heap _ _ _ _ _ _ an_facts) as Lh. rewrite E1 in Lh.
  destruct (strangers_raise (ov_target o) (object_distance pr4 (ov_scheme o)) (orders 0 true (dkeys (sp_species (ov_state o)))) (picks 0 true) (ov_state o) (places (length h3) done)) as [e X].
  - intro Z. pose proof (IO 0 true (dkeys (sp_species (ov_state o)))) as Q. rewrite Z in Q. apply Permutation_nil in Q. destruct (sp_species (ov_state o)); [contradiction|discriminate].
  - intro k. split; apply Permutation_in; [apply IO|apply Permutation_sym, IO].
  - intros k l. apply IP.
  - apply places_nonempty, Nd.
  - intros k Hk I. rewrite Mp in I. apply in_seq in I. specialize (Kb k Hk). lia.
  - intros a b Hb. apply nodesc_raises. pose proof (label_in (ss_process s1) _ b Hb) as J. rewrite an_inherited in J. rewrite Hd4. apply in_map_iff in J as (x & Ex & Hx). rewrite <- Ex.
    destruct (uf_kid _ _ _ _ _ _ an_facts (pr_desc pr1) x Hx) as (y & Hy & Ey). rewrite Ey. rewrite E2 in Hy. rewrite E1, (proj1 (Dp y Hy)). exact D.
  - rewrite X in Sp. discriminate.
Qed.

(* objects that existed before a run keep their descriptor *)
Lemma generations_old : forall n ru sch g st st' base, weak root (ss_process st) -> pop_ok (pr_heap (ss_process st)) (ss_pop st) -> base <= length (pr_heap (ss_process st)) -> (forall x, In x (ss_pop st) -> base <= snd x) ->
  spec_generations ru sch n g st = Ok st' -> base <= length (pr_heap (ss_process st')) /\ (forall r, r < base -> desc_of (pr_desc (ss_process st')) r = desc_of (pr_desc (ss_process st)) r) /\
    (0 < n -> sch <> None -> pr_overseer (ss_process st) <> None \/ (g = 0 /\ forall x, In x (ss_pop st) -> desc_of (pr_desc (ss_process st)) (snd x) = NoDescriptor) -> pr_overseer (ss_process st') <> None).
Proof.
  induction n as [|n IH]; intros ru sch g st st' base W Po B Bp H; [cbn in H; injection H as <-; split; [exact B|split; [reflexivity|lia]]|].
  apply generations_first in H as (s1 & E & H). destruct (dissect L ops ev sim rounded root opt lucks orders picks cfg target half IT ru sch g st s1 W Po E) as (pr1 & p1 & pr2 & h3 & pk & pairs & done & kept & top & rest & A).
  destruct A. pose proof (uf_heap _ _ _ _ _ _ an_facts) as Lh. destruct an_pr2 as [Hh _]. rewrite Hh in Lh. destruct an_pr1 as (Q1 & Q2 & Q3 & Q4 & _). destruct an_pop as (Po1 & Ip & _). destruct an_p1 as [M1 _].
  assert (Mp : map snd (places (length h3) done) = seq (length h3) (length done)) by apply positions_addresses.
  destruct (IH ru sch (S g) s1 st' base an_weak Po1) as (I1 & I2 & I3); [rewrite an_heap, app_length; lia| |exact H|].
  - intros x Hx. apply (in_map snd) in Hx. apply Ip in Hx. rewrite Mp in Hx. apply in_seq in Hx. lia.
  - split; [exact I1|]. split.
    + intros r Hr. rewrite (I2 r Hr), (an_old r) by lia. rewrite (uf_old _ _ _ _ _ _ an_facts) by (rewrite Hh; lia). rewrite <- Q2. destruct sch as [s|]; [|subst; reflexivity].
      destruct (setup_ok root target half s pr1 p1 pr2 Q3 an_setup) as (_ & _ & x & rs & Ep & [[_ ->]|(_ & _ & De & _)]); [reflexivity|]. apply (describe_other target s p1 0 _ _ r De). rewrite M1. intro I. apply in_map_iff in I as (y & Ey & Hy). specialize (Bp y Hy). lia.
    + intros _ Ns Ov. assert (O2 : scheme_in pr2 <> None).
      { destruct sch as [s|]; [|congruence]. destruct (setup_ok root target half s pr1 p1 pr2 Q3 an_setup) as (_ & _ & x & rs & Ep & [[Dx ->]|(_ & _ & _ & o & Oo & _)]); [|unfold scheme_in; rewrite Oo; discriminate].
        destruct Ov as [Ov|[Z Dn]]; [rewrite Q4; unfold scheme_in; destruct (pr_overseer (ss_process st)); [discriminate|congruence]|].
        exfalso. destruct (an_first Z) as [E1 E2]. apply Dx. rewrite Q2. apply Dn. rewrite <- E2, Ep. left. reflexivity. }
      assert (O3 : pr_overseer (ss_process s1) <> None). { destruct an_scheme as [X _]. rewrite <- X in O2. unfold scheme_in in O2. destruct (pr_overseer (ss_process s1)); [discriminate|contradiction]. }
      destruct n as [|n]; [cbn in H; injection H as <-; exact O3|]. apply I3; [lia|exact Ns|left; exact O3].
Qed.
Lemma run_old : forall u pr r0 st, lifetime root pr -> optimise_topology u pr r0 = Ok st -> length (pr_heap pr) <= length (pr_heap (ss_process st)) /\
  (forall r, r < length (pr_heap pr) -> desc_of (pr_desc (ss_process st)) r = desc_of (pr_desc pr) r) /\
  (0 < cf_generations cfg -> scheme_for u <> None -> desc_of (pr_desc pr) r0 = NoDescriptor -> pr_overseer (ss_process st) <> None).
Proof.
  intros u pr r0 st Lf H. apply run_split in H as (ru & s0 & R & E & H). destruct (start_ok root opt0 cfg pr r0 s0 E (proj1 (lifetime_sane root pr Lf))) as (W & Po & _ & _ & Dp & Od & Lh & _).
  destruct (generations_old _ _ _ _ _ _ _ W Po Lh (fun x Hx => proj2 (Dp x Hx)) H) as (A & B & C). split; [exact A|]. split; [intros r Hr; rewrite (B r Hr); exact (Od r Hr)|].
  intros G S D. apply (C G S). right. split; [reflexivity|]. intros x Hx. rewrite (proj1 (Dp x Hx)). exact D.
Qed.
End Run.
