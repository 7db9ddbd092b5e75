(** Speciation: C28, C29, C30, C31 and C49. *)
From Coq Require Import List Arith Bool ZArith QArith Reals Permutation Sorted Lia Lra.
From Verif Require Import Base GraphModel GraphSpec OperatorsModel OperatorsSpec EvolverExamples EvolutionExamples FloatModel PopulationModel SpeciationModel SpeciationSpec SpeciationProofs
  DistanceModel DistanceSpec DistanceProofs.
Import ListNotations.
Local Open Scope nat_scope.

(** ** C28 *)

(* [divided]: everybody is in exactly one species, as its representative or closer to it than the
   threshold; recorded sizes are the numbers of members and add up to the population; representatives
   belong to the population and are pairwise not close, older first *)
Theorem C28_partition : forall target root d0 n sp dist order pick p sp', managed target root d0 n sp -> set_orders order pick sp ->
  speciate target dist root order pick sp p = Ok sp' -> divided dist (sp_thresh sp) p sp'.
Proof. intros target root d0 n sp dist order pick p sp' M. exact (speciate_divided dist target root order pick sp p sp' (managed_once _ _ _ _ _ M)). Qed.
Print Assumptions C28_partition.

(** ** C29 *)

(* sharing succeeds on every scored part of a speciated population and multiplies each score by the size of
   its species, weakened by the protection but never below one *)
Theorem C29_sharing : forall half dist thresh pop sp gen p, divided dist thresh pop sp -> (forall x, In x p -> fst x <> None /\ In (snd x) (map snd pop)) ->
  exists p', execute_fitness_sharing half sp gen p = Ok p' /\
    Forall2 (fun x x' : individual => snd x' = snd x /\ exists rep s s', dget (sp_map sp) (snd x) = Some rep /\ fst x = Some s /\ fst x' = Some s' /\
      shared half gen (members (sp_map sp) rep pop) s s') p p'.
Proof. exact share_effect. Qed.
Print Assumptions C29_sharing.

(* reversal restores the scores of whatever is left, in whatever order *)
Theorem C29_undone : forall half dist thresh pop sp gen p p' is, divided dist thresh pop sp -> (forall x, In x p -> fst x <> None /\ In (snd x) (map snd pop)) ->
  execute_fitness_sharing half sp gen p = Ok p' -> exists r, reverse_fitness_sharing half sp gen (picked is p') = Ok r /\ Forall2 same_individual (picked is p) r.
Proof. exact sharing_undone. Qed.
Print Assumptions C29_undone.

(** a population of two similar graphs; wanting five species lowers the threshold, so a second call splits them *)
Definition near (a b : nat) : res fl := Ok (Fin (38 # 100)).
Definition root2 (n : nat) : Q := 14142 # 10000.
Definition pair : population := [(Some (Fin 3), 0); (Some (Fin 4), 1)].
Definition fresh := mkSp (4 # 10) [] [].
Definition again (sp : manager) : res manager := speciate (Some 5%Z) near root2 (dkeys (sp_species sp)) (fun _ l => l) sp pair.

Theorem C29_across_speciation_refuted : exists target root d0 dist sp sp1 sp2 order1 pick1 order2 pick2 p p' r,
  new_speciation d0 = Ok sp /\ set_orders order1 pick1 sp /\ speciate target dist root order1 pick1 sp p = Ok sp1 /\
  execute_fitness_sharing None sp1 1 p = Ok p' /\ set_orders order2 pick2 sp1 /\ speciate target dist root order2 pick2 sp1 p' = Ok sp2 /\
  reverse_fitness_sharing None sp2 1 p' = Ok r /\ ~ Forall2 same_individual p r.
Proof.
  destruct (again fresh) as [sp1|] eqn:E1; [|vm_compute in E1; discriminate E1].
  destruct (execute_fitness_sharing None sp1 1 pair) as [p'|] eqn:E2; [|vm_compute in E1; injection E1 as <-; vm_compute in E2; discriminate E2].
  destruct (speciate (Some 5%Z) near root2 (dkeys (sp_species sp1)) (fun _ l => l) sp1 p') as [sp2|] eqn:E3; [|vm_compute in E1; injection E1 as <-; vm_compute in E2; injection E2 as <-; vm_compute in E3; discriminate E3].
  destruct (reverse_fitness_sharing None sp2 1 p') as [r|] eqn:E4; [|vm_compute in E1; injection E1 as <-; vm_compute in E2; injection E2 as <-; vm_compute in E3; injection E3 as <-; vm_compute in E4; discriminate E4].
  exists (Some 5%Z), root2, (4 # 10)%Q, near, fresh, sp1, sp2, [], (fun _ l => l), (dkeys (sp_species sp1)), (fun _ l => l), pair, p', r.
  split; [reflexivity|]. split; [split; [constructor|reflexivity]|]. split; [exact E1|]. split; [exact E2|]. split; [split; reflexivity|]. split; [exact E3|]. split; [exact E4|].
  vm_compute in E1. injection E1 as <-. vm_compute in E2. injection E2 as <-. vm_compute in E3. injection E3 as <-. vm_compute in E4. injection E4 as <-.
  intro F. inversion F as [|? ? ? ? [_ H] _]; subst. cbn in H. discriminate H.
Qed.
Print Assumptions C29_across_speciation_refuted.

(** ** C30 *)
Theorem C30_threshold : forall target root d0 n sp, managed target root d0 n sp -> (0 < sp_thresh sp < 1)%Q /\
  (target = None -> sp_thresh sp = d0) /\ (target <> None -> 0 < n -> (5 # 100 <= sp_thresh sp <= 95 # 100)%Q).
Proof. exact threshold_range. Qed.
Print Assumptions C30_threshold.

(* too many species: it rises or is at its maximum; too few: it falls or is at its minimum *)
Theorem C30_direction : forall target dist root order pick sp p sp' t, (forall n, 0 < n -> (0 < root n)%Q) -> speciate target dist root order pick sp p = Ok sp' -> target = Some t -> p <> [] ->
  (5 # 100 <= sp_thresh sp <= 95 # 100)%Q ->
  ((t < Z.of_nat (length (sp_species sp')))%Z -> (sp_thresh sp < sp_thresh sp')%Q \/ (sp_thresh sp' == 95 # 100)%Q) /\
  ((Z.of_nat (length (sp_species sp')) < t)%Z -> (sp_thresh sp' < sp_thresh sp)%Q \/ (sp_thresh sp' == 5 # 100)%Q) /\
  ((Z.of_nat (length (sp_species sp')) = t)%Z -> (sp_thresh sp' == sp_thresh sp)%Q).
Proof. exact threshold_moves. Qed.
Print Assumptions C30_direction.

(** ** C31 *)
Theorem C31_subpopulation : forall a b, exists z, subpop_distance (Subpopulation a) (Subpopulation b) = Ok z /\ subpop_distance (Subpopulation b) (Subpopulation a) = Ok z /\
  (z = 0%Z <-> a = b) /\ (z = 0%Z \/ z = 1%Z).
Proof. exact subpop_ok. Qed.
Print Assumptions C31_subpopulation.
Theorem C31_subpopulation_raises : forall d0 d1, (forall l, d0 <> Subpopulation l) \/ (forall l, d1 <> Subpopulation l) -> exists e, subpop_distance d0 d1 = Err e /\ (e = ValueError \/ e = TypeError).
Proof. exact subpop_raises. Qed.
Print Assumptions C31_subpopulation_raises.
Theorem C31_edit : forall sim thr g0 g1 s, sim g0 g1 = Ok s -> exists z, edit_distance sim thr EditDist EditDist g0 g1 = Ok z /\ (z = 0%Z <-> (s <= thr)%Q) /\ (z = 0%Z \/ z = 1%Z).
Proof. exact edit_ok. Qed.
Print Assumptions C31_edit.
Theorem C31_composition_symmetric : forall L g0 g1, vector_distance L VectorDiff VectorDiff g0 g1 = vector_distance L VectorDiff VectorDiff g1 g0.
Proof. exact composition_symmetric. Qed.
Print Assumptions C31_composition_symmetric.
Theorem C31_composition_zero : forall L g0 g1 r, lib_ok L -> g_nodes g0 <> [] -> vector_distance L VectorDiff VectorDiff g0 g1 = Ok r ->
  (0 <= r)%R /\ (r = 0%R <-> forall c, copies g0 c = copies g1 c).
Proof. intros L g0 g1 r LO. exact (composition_zero L g0 g1 r (basis_nodup L LO)). Qed.
Print Assumptions C31_composition_zero.
(* terminals are missing from the basis of every library *)
Theorem C31_composition_raises : forall L g0 g1, lib_ok L -> (exists c, (In c (components g0) \/ In c (components g1)) /\ (ccls c = TerminalSource \/ ccls c = TerminalSink)) ->
  vector_distance L VectorDiff VectorDiff g0 g1 = Err KeyError.
Proof.
  intros L g0 g1 LO (c & I & T). apply composition_raises. exists c. split; [exact I|]. destruct (basis_terminals L LO) as [A B]. destruct T as [->| ->]; assumption.
Qed.
Print Assumptions C31_composition_raises.

(* so speciation by composition fails on every first population with two different graphs that have terminals,
   however the distance is rounded *)
Theorem C31_composition_unusable : forall target L h (rounded : Z * Z -> fl) root pick sp p, lib_ok L -> sp_species sp = [] ->
  (exists x y, In x p /\ In y p /\ snd x <> snd y) ->
  (forall x, In x p -> exists g c, nth_error h (snd x) = Some g /\ In c (components g) /\ (ccls c = TerminalSource \/ ccls c = TerminalSink)) ->
  speciate target (fun a b => do g0 <- of_option KeyError (nth_error h a); do g1 <- of_option KeyError (nth_error h b); do v <- vector_parts L VectorDiff VectorDiff g0 g1; Ok (rounded v)) root [] pick sp p = Err KeyError.
Proof.
  intros target L h rounded root pick sp p LO E D T. apply speciate_raises; [exact E|exact D|]. intros a b Ia Ib _. apply in_map_iff in Ia as (x & <- & Ix). apply in_map_iff in Ib as (y & <- & Iy).
  destruct (T x Ix) as (g0 & c & E0 & Ic & Tc). destruct (T y Iy) as (g1 & _ & E1 & _). rewrite E0, E1. cbn [of_option bind].
  destruct (composition_raises L g0 g1) as [P _]; [|rewrite P; reflexivity]. exists c. split; [left; exact Ic|]. destruct (basis_terminals L LO) as [A B]. destruct Tc as [->| ->]; assumption.
Qed.
Print Assumptions C31_composition_unusable.

(* three parallel modulators between two splitters, and two splitters on their own *)
Definition vps (n i : nat) : nat * ndata := (n, mkND (mkComp i VariablePowerSplitter false) VariablePowerSplitter).
Definition dense : graph := mkG [vps 0 0; vps 1 1] [mkE 0 1 0 (mkED (mkComp 2 PhaseModulator false) PhaseModulator); mkE 0 1 1 (mkED (mkComp 3 PhaseModulator false) PhaseModulator); mkE 0 1 2 (mkED (mkComp 4 PhaseModulator false) PhaseModulator)].
Definition sparse : graph := mkG [vps 0 0; vps 1 1] [].
Theorem C31_composition_range_refuted : exists g0 g1 r, vector_distance default_library VectorDiff VectorDiff g0 g1 = Ok r /\ (1 < r)%R.
Proof.
  exists dense, sparse. eexists. split; [unfold vector_distance; replace (vector_parts default_library VectorDiff VectorDiff dense sparse) with (@Ok (Z * Z) (9%Z, 8%Z)) by (vm_compute; reflexivity); reflexivity|].
  cbn [fst snd]. assert (S : (0 < sqrt 8)%R) by (apply sqrt_lt_R0; lra). apply (Rmult_lt_reg_r (sqrt 8)); [exact S|]. unfold Rdiv. rewrite Rmult_assoc, Rinv_l by lra. rewrite Rmult_1_l, Rmult_1_r. apply sqrt_lt_1; lra.
Qed.
Print Assumptions C31_composition_range_refuted.

(** ** C49 *)
Theorem C49_candidates : forall dist thresh pop sp g p, divided dist thresh pop sp -> In g (map snd pop) -> (forall x, In x p -> fst x <> None /\ In (snd x) (map snd pop)) ->
  exists l rep, get_crossover_candidates sp g p = Ok l /\ dget (sp_map sp) g = Some rep /\ in_order l /\
    Permutation l (filter (fun x => match dget (sp_map sp) (snd x) with Some r => Nat.eqb r rep | None => false end && negb (Nat.eqb (snd x) g)) p).
Proof. exact candidates_ok. Qed.
Print Assumptions C49_candidates.
Theorem C49_unknown : forall sp g x p, dget (sp_map sp) g = None \/ (exists y, In y (x :: p) /\ dget (sp_map sp) (snd y) = None) -> get_crossover_candidates sp g (x :: p) = Ok [].
Proof. exact candidates_unknown. Qed.
Print Assumptions C49_unknown.

(** ** Cases *)
(* graphs on a line, distance = difference / 10 *)
Definition line (a b : nat) : res fl := Ok (Fin (inject_Z (Z.abs (Z.of_nat a - Z.of_nat b)) / 10)%Q).
Definition five : population := [(Some (Fin 5), 7); (Some (Fin 4), 1); (Some (Fin 3), 2); (Some (Fin 2), 9); (Some (Fin 1), 4)].
(* 5 represented a species before and is gone: 7 inherits it *)
Definition before5 := mkSp (35 # 100) [(5, 3); (1, 2)] [].
Definition run5 := speciate (Some 4%Z) line root2 [1; 5] (fun _ l => rev l) before5 five.
Example C28_case : exists sp, run5 = Ok sp /\ sp_species sp = [(1, 3); (7, 2)] /\ sp_map sp = [(7, 7); (1, 1); (2, 1); (9, 7); (4, 1)] /\ (0 < sp_thresh sp < 35 # 100)%Q.
Proof. eexists. split; [vm_compute; reflexivity|]. repeat split. Qed.
Example C29_case : exists sp, run5 = Ok sp /\
  execute_fitness_sharing (Some (fun g => 3 # 4)) sp 1 five = Ok [(Some (Fin (30 # 4)), 7); (Some (Fin (36 # 4)), 1); (Some (Fin (27 # 4)), 2); (Some (Fin (12 # 4)), 9); (Some (Fin (9 # 4)), 4)].
Proof. eexists. split; [vm_compute; reflexivity|vm_compute; reflexivity]. Qed.
Example C49_case : exists sp, run5 = Ok sp /\ get_crossover_candidates sp 1 five = Ok [(Some (Fin 1), 4); (Some (Fin 3), 2)] /\ get_crossover_candidates sp 9 five = Ok [(Some (Fin 5), 7)] /\ get_crossover_candidates sp 8 five = Ok [].
Proof. eexists. split; [vm_compute; reflexivity|vm_compute; auto]. Qed.
Example C31_case : vector_parts default_library VectorDiff VectorDiff dense sparse = Ok (9%Z, 8%Z) /\ vector_parts default_library VectorDiff VectorDiff (g0) sparse = Err KeyError.
Proof. split; vm_compute; reflexivity. Qed.
