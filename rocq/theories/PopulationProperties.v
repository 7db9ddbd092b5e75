(** Population updates: C25 and C48. *)
From Coq Require Import List Arith Bool ZArith QArith Lia Lqa.
From Verif Require Import Base GraphModel GraphSpec OperatorsModel OperatorsSpec ParamsModel ParamsSpec EvolverModel EvolveSpec EvolverExamples EvolutionExamples FloatModel
  PopulationModel PopulationSpec PopulationProofs RouletteProofs PreferentialProofs.
Import ListNotations.
Local Open Scope nat_scope.

(** ** C25, tournament *)

(* as many offspring as individuals, unscored and new objects; then the elites; nothing that existed
   before is modified; the parent of each offspring is the first-ranked contestant *)
Theorem C25_tournament : forall L ops ev gen ratio divisor rnds chs h p h' p', holds_all h p ->
  update_tournament L ops ev gen ratio divisor rnds chs h p = Ok (h', p') ->
  exists kids e, p' = kids ++ e /\ elites ratio p e /\ length kids = length p /\ unchanged h h' /\
    forall k kid, nth_error kids k = Some kid -> fst kid = None /\ snd kid = length h + k /\
      exists j par, In j (contestants (length p) (tournament_size (length p) divisor) (rnds k)) /\
        (forall c, In c (contestants (length p) (tournament_size (length p) divisor) (rnds k)) -> j <= c) /\
        nth_error p j = Some par /\ offspring L ops ev gen (chs k) h h' (snd par) (snd kid).
Proof. exact tournament_ok. Qed.
Print Assumptions C25_tournament.

(* on a sorted population the parent scores no worse than any contestant *)
Theorem C25_tournament_best : forall L ops ev gen ratio divisor rnds chs h p h' p', holds_all h p -> by_rank p ->
  update_tournament L ops ev gen ratio divisor rnds chs h p = Ok (h', p') ->
  forall k kid, k < length p -> nth_error p' k = Some kid ->
  exists par, In par p /\ offspring L ops ev gen (chs k) h h' (snd par) (snd kid) /\
    forall c s sc rc, In c (contestants (length p) (tournament_size (length p) divisor) (rnds k)) -> nth_error p c = Some (Some sc, rc) ->
      fst par = Some s -> fltb sc s = false.
Proof. exact tournament_best. Qed.
Print Assumptions C25_tournament_best.

(* between one and population-many contestants, all of them members of the population *)
Theorem C25_tournament_size : forall n divisor rnd, 0 < n -> 0 < divisor ->
  1 <= length (contestants n (tournament_size n divisor) rnd) <= n /\ forall c, In c (contestants n (tournament_size n divisor) rnd) -> c < n.
Proof. exact contest_size. Qed.
Print Assumptions C25_tournament_size.

(** ** C25, roulette *)

Theorem C25_roulette : forall L ops ev gen ratio us chs h p h' p', holds_all h p ->
  update_roulette L ops ev gen ratio us chs h p = Ok (h', p') ->
  exists ps kids e, roulette p = Ok ps /\ p' = kids ++ e /\ elites ratio p e /\ length kids = length p /\ unchanged h h' /\
    forall k kid, nth_error kids k = Some kid -> fst kid = None /\ snd kid = length h + k /\
      exists j par, choose ps (us k) = Some j /\ nth_error p j = Some par /\ offspring L ops ev gen (chs k) h h' (snd par) (snd kid).
Proof. exact roulette_ok. Qed.
Print Assumptions C25_roulette.

(* scores of one sign: the chance of an individual is its reciprocal score over the sum of all *)
Theorem C25_wheel : forall p qs, finite_scores p qs -> qs <> [] -> one_sign qs ->
  exists ps, roulette p = Ok ps /\ forall i q, nth_error qs i = Some q -> chance_of (choose ps) i (/ q / qsum (map Qinv qs))%Q.
Proof. exact wheel_spin. Qed.
Print Assumptions C25_wheel.

(* a score of zero, or scores of both signs: the update raises *)
Theorem C25_wheel_raises : forall p qs, finite_scores p qs -> qs <> [] -> ~ one_sign qs -> roulette p = Err ValueError.
Proof. exact wheel_fails. Qed.
Print Assumptions C25_wheel_raises.

(* whatever the scores are: the update gets past the wheel only if all individuals are scored, none with
   zero or "not a number" *)
Theorem C25_wheel_needs_scores : forall p ps, roulette p = Ok ps -> p <> [] /\ length ps = length p /\
  forall x, In x p -> exists s, fst x = Some s /\ s <> NaN /\ forall q, s = Fin q -> ~ (q == 0)%Q.
Proof. exact wheel_needs. Qed.
Print Assumptions C25_wheel_needs_scores.

(* positive scores: the lower of two scores has the larger chance *)
Theorem C25_wheel_favours_lower : forall qs a b, (forall q, In q qs -> 0 < q)%Q -> In a qs -> In b qs -> (a < b)%Q ->
  (/ b / qsum (map Qinv qs) < / a / qsum (map Qinv qs))%Q.
Proof. exact wheel_order_pos. Qed.
Print Assumptions C25_wheel_favours_lower.

(* negative scores: accepted, but the worse of two scores has the larger chance *)
Theorem C25_wheel_negative_inverted : forall qs a b, (forall q, In q qs -> q < 0)%Q -> In a qs -> In b qs -> (a < b)%Q ->
  (/ a / qsum (map Qinv qs) < / b / qsum (map Qinv qs))%Q.
Proof. exact wheel_order_neg. Qed.
Print Assumptions C25_wheel_negative_inverted.

(* so "the better of two individuals has the larger chance" fails *)
Theorem C25_wheel_favours_best_refuted : exists (p : population) qs ps i j a b, finite_scores p qs /\ roulette p = Ok ps /\
  nth_error qs i = Some a /\ nth_error qs j = Some b /\ (a < b)%Q /\
  exists ca cb, nth_error ps i = Some ca /\ nth_error ps j = Some cb /\ (ca < cb)%Q.
Proof.
  exists [(Some (Fin (- 3 # 1)), 0); (Some (Fin (- 1 # 1)), 1)], [(- 3 # 1)%Q; (- 1 # 1)%Q].
  eexists. exists 0, 1, (- 3 # 1)%Q, (- 1 # 1)%Q. split; [reflexivity|]. split; [vm_compute; reflexivity|]. split; [reflexivity|]. split; [reflexivity|].
  split; [reflexivity|]. eexists. eexists. split; [reflexivity|]. split; [reflexivity|]. reflexivity.
Qed.
Print Assumptions C25_wheel_favours_best_refuted.

(** ** C25, random *)

(* the same objects, evolved in place until they are acyclic and have a free parameter, unscored;
   then new copies of the elites as they were before *)
Theorem C25_random : forall L ops ev gen ratio fuel chs h p h' p', holds_all h p -> NoDup (map snd p) ->
  update_random L ops ev gen ratio fuel chs h p = Ok (h', p') ->
  exists kids e e0, p' = kids ++ e /\ kids = map (fun x => (None, snd x)) p /\ elites ratio p e0 /\ length e = length e0 /\
    (forall k x, nth_error e k = Some x -> snd x = length h + k /\
       exists x0, nth_error e0 k = Some x0 /\ fst x = fst x0 /\ nth_error h' (snd x) = nth_error h (snd x0)) /\
    (forall q, q < length h -> ~ In q (map snd p) -> nth_error h' q = nth_error h q) /\
    (forall x, In x p -> exists w w', nth_error h (snd x) = Some w /\ nth_error h' (snd x) = Some w' /\ (exists k, evolved L ops ev gen (chs k) w w') /\
       is_dag (w_graph w') = true /\ exists e, extract (w_graph w') (w_store w') = Ok e /\ x_params e <> []).
Proof. exact random_ok. Qed.
Print Assumptions C25_random.

(** ** C48, preferential *)

(* parents are never modified; each has a litter of at least one, in order, then come the elites; in each
   litter only the last offspring is what evolution made: on every other one the parent's parameter
   vector has been imposed, position by position *)
Theorem C48_preferential : forall L ops ev gen, lib_ok L -> NoDup ops -> forall ratio fuel chs stops h p h' p',
  (forall x, In x p -> exists w, nth_error h (snd x) = Some w /\ in_use L ops w /\ forall a b, fair L ops w (mkCall ev gen (chs a b w))) ->
  update_preferential L ops ev gen ratio fuel chs stops h p = Ok (h', p') ->
  unchanged h h' /\ exists litters e, p' = concat litters ++ e /\ elites ratio p e /\
    Forall2 (fun x kids => exists w xs ws, nth_error h (snd x) = Some w /\ extract (w_graph w) (w_store w) = Ok xs /\
      Forall2 (fun y v => nth_error h' (snd y) = Some v) kids ws /\ (exists k, litter L ops ev gen (chs k) w (x_params xs) ws) /\
      forall y, In y kids -> fst y = None /\ length h <= snd y) p litters.
Proof. exact preferential_ok. Qed.
Print Assumptions C48_preferential.

(* hence offspring can leave their bounds although every parent respects its own: after a removal the
   parent's modulation frequency, 12 GHz, lands on an attenuation that may be at most 1 *)
Definition litter_chs (i j : nat) : dice := fun _ => match j with 0 => ch0 (2 # 5) 20 | _ => ch0 (99 # 100) 21 end.
Definition litter_run : res (heap * population) :=
  update_preferential default_library evo_op_list Lookup None 0 5 litter_chs (fun _ j => Nat.eqb j 1) [w0] [(Some (Fin 1), 0)].
Theorem C48_offspring_in_bounds_refuted : exists chs stops h p h' p' kid w,
  (forall x, In x p -> exists w, nth_error h (snd x) = Some w /\ in_use default_library evo_op_list w /\
     forall a b, fair default_library evo_op_list w (mkCall Lookup None (chs a b w))) /\
  (forall w, In w h -> all_within (w_graph w) (w_store w)) /\
  update_preferential default_library evo_op_list Lookup None 0 5 chs stops h p = Ok (h', p') /\
  In kid p' /\ nth_error h' (snd kid) = Some w /\ ~ all_within (w_graph w) (w_store w).
Proof.
  exists litter_chs, (fun _ j => Nat.eqb j 1), [w0], [(Some (Fin 1), 0)].
  destruct litter_run as [[h' p']|] eqn:E; [|vm_compute in E; discriminate E].
  exists h', p', (None, 1). unfold litter_run in E.
  assert (P : match litter_run with Ok (h, p) => p = [(None, 1); (None, 2)] /\ exists w x, nth_error h 1 = Some w /\
     extract (w_graph w) (w_store w) = Ok x /\ nth_error (x_params x) 3 = Some (Num (12000000000 # 1)) /\ nth_error (x_hi x) 3 = Some (Num 1) /\
     w_graph w = w_graph (fst (evolve_graph default_library evo_op_list Lookup None w0 (litter_chs 0 0 w0))) | Err _ => False end).
  { vm_compute. split; [reflexivity|]. eexists. eexists. split; [reflexivity|]. split; [reflexivity|]. split; [reflexivity|]. split; reflexivity. }
  unfold litter_run in P. rewrite E in P. destruct P as (-> & w & x & P1 & P2 & P3 & P4 & P5).
  assert (H : forall x, In x [(Some (Fin 1), 0)] -> exists w, nth_error [w0] (snd x) = Some w /\ in_use default_library evo_op_list w /\
     forall a b, fair default_library evo_op_list w (mkCall Lookup None (litter_chs a b w))).
  { intros y [<-|[]]. exists w0. split; [reflexivity|]. split.
    - exists nodes0, edges0, 1, 2, g0, w0. split; [exact nodes0_nodup|]. split; [exact objects0_nodup|]. split; [exact g0_built|]. split; [exact g0_typed|]. split; [exact w0_built|]. apply ses_start.
    - intros a [|b]; apply fairb_fair; vm_compute; reflexivity. }
  exists w. split; [exact H|]. split; [intros v [<-|[]]; apply w0_healthy|]. split; [exact E|]. split; [left; reflexivity|]. split; [exact P1|].
  assert (W : wf (w_graph w)); [|exact (extract_outside _ _ x 3 _ _ W P2 P3 P4 eq_refl)]. rewrite P5.
  destruct (H (Some (Fin 1), 0) (or_introl eq_refl)) as (v & V1 & V2 & V3). injection V1 as <-.
  pose proof (in_use_evolve default_library evo_op_list Lookup None w0 (litter_chs 0 0 w0) _ _ V2 (V3 0 0) (surjective_pairing _)) as U.
  apply (in_use_healthy default_library evo_op_list EvolutionExamples.default_lib_ok ops_nodup) in U. apply U.
Qed.
Print Assumptions C48_offspring_in_bounds_refuted.

(** ** Cases *)
Definition pair_chs (i : nat) : dice := fun _ => ch0 (1 # 3) (20 + i).
Definition two : population := [(Some (Fin 1), 0); (Some (Fin 3), 1)].
Definition shows (r : res (heap * population)) : option (population * list (nat * option op)) :=
  match r with Ok (h, p) => Some (p, map (fun w => (w_parent w, w_mut w)) h) | Err _ => None end.

Example C25_tournament_case :
  shows (update_tournament default_library evo_op_list Lookup None (1 # 2) 3 (fun i _ => i) pair_chs [w0; w1] two)
    = Some ([(None, 2); (None, 3); (Some (Fin 1), 0)], [(2, None); (1, Some AddSeries); (1, Some AddSeries); (20, Some Remove)]).
Proof. vm_compute. reflexivity. Qed.
Example C25_roulette_case :
  roulette two = Ok [(1 # 1) / ((1 # 1) + ((1 # 3) + 0)); (1 # 3) / ((1 # 1) + ((1 # 3) + 0))]%Q /\
  shows (update_roulette default_library evo_op_list Lookup None 0 (fun i => if Nat.eqb i 0 then (4 # 5) else (1 # 2))%Q pair_chs [w0; w1] two)
    = Some ([(None, 2); (None, 3)], [(2, None); (1, Some AddSeries); (20, Some Remove); (1, Some AddSeries)]).
Proof. split; vm_compute; reflexivity. Qed.
Example C25_random_case :
  shows (update_random default_library evo_op_list Lookup None (1 # 2) 3 (fun i _ => pair_chs i) [w0; w1] two)
    = Some ([(None, 0); (None, 1); (Some (Fin 1), 2)], [(1, Some AddSeries); (20, Some Remove); (2, None)]).
Proof. vm_compute. reflexivity. Qed.
Example C48_case : shows litter_run = Some ([(None, 1); (None, 2)], [(2, None); (1, Some Remove); (1, Some AddSeries)]).
Proof. vm_compute. reflexivity. Qed.
