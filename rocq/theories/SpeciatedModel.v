(** Model of the outer optimisation loop with all update rules,
    algorithms/topology_optimization.py:23-144 and 431-536, with the speciation manager that the
    module keeps in a global variable between calls (line 21).  Definitions only.
    Graph objects live in one heap for the whole process, because the manager refers to objects
    of earlier generations and runs.  Not modelled: files, printing, time, Ray start-up; what the
    process looks like after an exception. *)
From Coq Require Import List Arith Bool ZArith QArith.
From Verif Require Import Base GraphModel OperatorsModel ParamsModel EvolverModel FloatModel HofModel PopulationModel SpeciationModel DistanceModel TopologyModel.
Import ListNotations.
Local Open Scope nat_scope.

(* the four ways to set up speciation, lines 433-485 *)
Inductive scheme := SubpopScheme | VectorScheme | PhotoScheme | EditScheme.

(* the argument update_rule, lines 35-61; [OtherRule] is any other string *)
Inductive update_rule :=
| Random | Preferential | Roulette | Tournament
| RouletteEdit | TournamentEdit
| RandomSubpop | PreferentialSubpop
| RandomVector | PreferentialVector
| RandomPhoto | PreferentialPhoto
| OtherRule.
(* the rule that produces the offspring, and the scheme that is set up before it: lines 488-536 *)
Definition rule_of (u : update_rule) : res (rule * option scheme) :=
  match u with
  | Random => Ok (RuleRandom, None)
  | Preferential => Ok (RulePreferential, None)
  | Roulette => Ok (RuleRoulette, None)
  | Tournament => Ok (RuleTournament, None)
  | RouletteEdit => Ok (RuleRoulette, Some EditScheme)
  | TournamentEdit => Ok (RuleTournament, Some EditScheme)
  | RandomSubpop => Ok (RuleRandom, Some SubpopScheme)
  | PreferentialSubpop => Ok (RulePreferential, Some SubpopScheme)
  | RandomVector => Ok (RuleRandom, Some VectorScheme)
  | PreferentialVector => Ok (RulePreferential, Some VectorScheme)
  | RandomPhoto => Ok (RuleRandom, Some PhotoScheme)
  | PreferentialPhoto => Ok (RulePreferential, Some PhotoScheme)
  | OtherRule => Err NotImplementedError                                     (* line 60 *)
  end.

(* a Speciation object: its distance function, its settings, its state *)
Record overseer := mkOv {
  ov_scheme : scheme;
  ov_target : option Z;                         (* target_species_num *)
  ov_half : option (nat -> Q);                  (* protection_half_life, as in SpeciationModel *)
  ov_state : manager }.

(* what lives as long as the Python process *)
Record process := mkPr {
  pr_heap : heap;                               (* graph objects *)
  pr_desc : dict descriptor;                    (* their speciation_descriptor; not listed: None *)
  pr_overseer : option overseer }.              (* SPECIATION_MANAGER; None: NoSpeciation *)

Definition desc_of (d : dict descriptor) (r : nat) : descriptor := match dget d r with Some x => x | None => NoDescriptor end.
(* copy.deepcopy and serialisation copy the descriptor: (new object, original) pairs *)
Definition inherit (pairs : list (nat * nat)) (d : dict descriptor) : dict descriptor :=
  fold_left (fun acc cp => dset acc (fst cp) (desc_of acc (snd cp))) pairs d.

Section Speciated.
Variable L : library.
Variable ops : list op.
Variable ev : evolver.
Variable sim : world -> world -> res Q.                     (* similarity_reduced_ged *)
Variable rounded : Z * Z -> fl.                             (* sqrt(a) / sqrt(b) in floating point *)
Variable root : nat -> Q.                                   (* np.sqrt *)
Variable opt0 : world -> res (fl * world).
Variable opt : nat -> nat -> world -> res (fl * world).
Variable lucks : nat -> luck.
(* iteration orders of the sets in speciate; the second argument tells the first call in a
   generation from the second *)
Variable orders : nat -> bool -> list nat -> list nat.
Variable picks : nat -> bool -> nat -> list nat -> list nat.
Variable cfg : config.
Variable target : option Z.
Variable half : option (nat -> Q).

(** *** The distance functions on graph objects, speciation.py:265-282, 301-310, 366-379 *)
Definition object_distance (pr : process) (s : scheme) (a b : nat) : res fl :=
  let d0 := desc_of (pr_desc pr) a in
  let d1 := desc_of (pr_desc pr) b in
  match s with
  | SubpopScheme => do z <- subpop_distance d0 d1; Ok (Fin (inject_Z z))
  | VectorScheme =>
      do w0 <- deref (pr_heap pr) a;
      do w1 <- deref (pr_heap pr) b;
      do v <- vector_parts L d0 d1 (w_graph w0) (w_graph w1);
      Ok (rounded v)
  | EditScheme =>
      do w0 <- deref (pr_heap pr) a;
      do w1 <- deref (pr_heap pr) b;
      do z <- edit_distance (fun _ _ => sim w0 w1) (1 # 100) d0 d1 (w_graph w0) (w_graph w1);
      Ok (Fin (inject_Z z))
  | PhotoScheme => Err AttributeError                                        (* never constructed *)
  end.

(** *** The calls of the manager; all three do nothing in NoSpeciation, speciation.py:236-252 *)
Definition do_speciate (g : nat) (again : bool) (pr : process) (p : population) : res process :=
  match pr_overseer pr with
  | None => Ok pr
  | Some o =>
      do sp <- speciate (ov_target o) (object_distance pr (ov_scheme o)) root (orders g again (dkeys (sp_species (ov_state o)))) (picks g again) (ov_state o) p;
      Ok (mkPr (pr_heap pr) (pr_desc pr) (Some (mkOv (ov_scheme o) (ov_target o) (ov_half o) sp)))
  end.
Definition do_share (g : nat) (pr : process) (p : population) : res population :=
  match pr_overseer pr with None => Ok p | Some o => execute_fitness_sharing (ov_half o) (ov_state o) g p end.
Definition do_unshare (g : nat) (pr : process) (p : population) : res population :=
  match pr_overseer pr with None => Ok p | Some o => reverse_fitness_sharing (ov_half o) (ov_state o) g p end.

(** *** Setting up speciation, lines 433-485 *)
(* i % target_species_num; for a negative target the label is represented by its absolute
   value (only equality of labels is used) *)
Definition label (t : Z) (i : nat) : nat := Z.abs_nat (Z.modulo (Z.of_nat i) t).
Fixpoint describe (s : scheme) (i : nat) (p : population) (d : dict descriptor) : res (dict descriptor) :=
  match p with
  | [] => Ok d
  | (_, r) :: rest =>
      do x <- match s with
              | SubpopScheme => match target with
                                | None => Err TypeError
                                | Some t => if (t =? 0)%Z then Err ZeroDivisionError else Ok (Subpopulation (label t i))
                                end
              | VectorScheme => Ok VectorDiff
              | EditScheme => Ok EditDist
              | PhotoScheme => Err ValueError                                (* not reached *)
              end;
      describe s (S i) rest (dset d r x)
  end.
Definition setup (s : scheme) (pr : process) (p : population) : res process :=
  match p with
  | [] => Err IndexError                                                     (* population[0] *)
  | (_, r) :: _ =>
      match desc_of (pr_desc pr) r with
      | NoDescriptor =>
          match s with
          | PhotoScheme => Err ValueError                                    (* speciation.py:327 *)
          | _ =>
              do sp <- new_speciation (4 # 10);                              (* default d_thresh *)
              do d <- describe s 0 p (pr_desc pr);
              Ok (mkPr (pr_heap pr) d (Some (mkOv s (match s with EditScheme => None | _ => target end) half sp)))
          end
      | _ => Ok pr
      end
  end.

(** *** One population update with the descriptors of the new objects *)
(* parents of the offspring of [breed] *)
Fixpoint breed_parents (n : nat) (p : population) (pick : nat -> res nat) (i : nat) : res (list nat) :=
  match n with
  | O => Ok []
  | S m =>
      do j <- pick i;
      do par <- of_option IndexError (nth_error p j);
      do r <- breed_parents m p pick (S i);
      Ok (snd par :: r)
  end.
(* parents of the offspring of [reproduce_each] *)
Fixpoint litter_parents (gen : option Q) (fuel : nat) (h : heap) (p : population) (chs : nat -> nat -> dice) (stops : nat -> nat -> bool) (i : nat) : res (list nat) :=
  match p with
  | [] => Ok []
  | (_, r) :: rest =>
      do w <- deref h r;
      do x <- extract (w_graph w) (w_store w);
      do a <- reproduce L ops ev gen fuel h r (x_params x) r (x_models x) (x_index x) (chs i) (stops i) 0;
      do b <- litter_parents gen fuel (fst a) rest chs stops (S i);
      Ok (repeat r (length (snd a)) ++ b)
  end.
(* (new object, original) pairs of an update that turned p into p' *)
Definition lineage (ru : rule) (g : nat) (gen : Q) (h : heap) (p p' : population) : res (list (nat * nat)) :=
  let lk := lucks g in
  match ru with
  | RuleRandom => Ok (combine (skipn (length p) (map snd p')) (map snd (slice_to (pass_index (cf_elitism cfg) p) p)))
  | RulePreferential => do l <- litter_parents (Some gen) (lk_fuel lk) h p (lk_ch lk) (lk_stop lk) 0; Ok (combine (map snd p') l)
  | RuleRoulette => do ps <- roulette p; do l <- breed_parents (length p) p (fun i => of_option IndexError (choose ps (lk_u lk i))) 0; Ok (combine (map snd p') l)
  | RuleTournament =>
      do l <- breed_parents (length p) p (fun i => list_min (contestants (length p) (tournament_size (length p) 3) (lk_rnd lk i))) 0;
      Ok (combine (map snd p') l)
  end.
Definition with_rule (ru : rule) : config := mkCfg ru (cf_elitism cfg) (cf_population cfg) (cf_generations cfg) (cf_hof cfg) (cf_threshold cfg).
Definition do_update (ru : rule) (g : nat) (gen : Q) (pr : process) (p : population) : res (process * population) :=
  do hp <- update_population L ops ev lucks (with_rule ru) g gen (pr_heap pr) p;
  do pairs <- lineage ru g gen (pr_heap pr) p (snd hp);
  Ok (mkPr (fst hp) (inherit pairs (pr_desc pr)) (pr_overseer pr), snd hp).

(** *** One generation, lines 97-138 *)
(* new objects for the results of the remote calls, lines 117-122: [p] was sent, [l] came back *)
Definition arrive (pr : process) (p : population) (l : list (fl * world)) : process * population :=
  let new := seq (length (pr_heap pr)) (length l) in
  (mkPr (pr_heap pr ++ map snd l) (inherit (combine new (map snd p)) (pr_desc pr)) (pr_overseer pr),
   combine (map (fun x => Some (fst x)) l) new).
(* the scores and graphs of a population *)
Definition contents (h : heap) (p : population) : res (list (fl * world)) :=
  map_res (fun x : individual => do w <- deref h (snd x); do s <- of_option TypeError (fst x); Ok (s, w)) p.

Record sstate := mkSS {
  ss_process : process;
  ss_pop : population;
  ss_hof : hof world;
  ss_log : list row;
  ss_saved : list (list (fl * world));
  ss_evaluated : list (list (fl * world));         (* bookkeeping: what was optimised, *)
  ss_labels : list (list descriptor) }.            (* and its descriptors *)

Definition spec_generation (ru : rule) (sch : option scheme) (g : nat) (st : sstate) : res sstate :=
  let p0 := ss_pop st in
  do pr1 <- if Nat.eqb g 0 then Ok (ss_process st) else do_speciate g false (ss_process st) p0;
  do p1 <- if Nat.eqb g 0 then Ok p0 else do_share g pr1 p0;
  if Nat.eqb (cf_generations cfg) 1 then Err ZeroDivisionError               (* line 110 *)
  else
    let gen := (inject_Z (Z.of_nat g) / inject_Z (Z.of_nat (cf_generations cfg) - 1))%Q in
    do pr2 <- match sch with None => Ok pr1 | Some s => setup s pr1 p1 end;
    do up <- do_update ru g gen pr2 p1;
    do p3 <- if Nat.eqb g 0 then Ok (snd up) else do_unshare g (fst up) (snd up);
    do done <- optimise_all opt g 0 (pr_heap (fst up)) p3;
    let (pr4, p4) := arrive (fst up) p3 done in
    do hof' <- update_hof world sim (cf_threshold cfg) (ss_hof st) done;
    do pr5 <- do_speciate g true pr4 p4;
    do p5 <- do_share g pr5 p4;
    do p6 <- sort_population p5;
    do p7 <- do_unshare g pr5 (firstn (cf_population cfg) p6);
    do kept <- contents (pr_heap pr5) p7;
    match hof' with
    | [] => Err IndexError                                                   (* hof[0], line 135 *)
    | top :: _ =>
        match kept with
        | [] => Err ValueError                                               (* np.max of nothing *)
        | _ => Ok (mkSS pr5 p7 hof' (ss_log st ++ [mkRow g (option_map fst top) (length kept)])
                        (ss_saved st ++ [kept]) (ss_evaluated st ++ [done]) (ss_labels st ++ [map (fun x => desc_of (pr_desc pr5) (snd x)) p4]))
        end
    end.

Fixpoint spec_generations (ru : rule) (sch : option scheme) (todo g : nat) (st : sstate) : res sstate :=
  match todo with
  | O => Ok st
  | S t => do st' <- spec_generation ru sch g st; spec_generations ru sch t (S g) st'
  end.

(* lines 83-89: the given graph object is optimised in place and copied *)
Definition spec_start (pr : process) (r0 : nat) : res sstate :=
  do w <- deref (pr_heap pr) r0;
  do sw <- optimise_complete opt0 None w;
  do h <- store_at (pr_heap pr) r0 (snd sw);
  let (pr', p) := arrive (mkPr h (pr_desc pr) (pr_overseer pr)) (repeat (None, r0) (cf_population cfg)) (repeat sw (cf_population cfg)) in
  Ok (mkSS pr' p (init_hof world (cf_hof cfg)) [] [] [] []).

(* topology_optimization(graph, ..., update_rule=u) called in the process pr for the object r0 *)
Definition optimise_topology (u : update_rule) (pr : process) (r0 : nat) : res sstate :=
  do rs <- rule_of u;
  do st <- spec_start pr r0;
  spec_generations (fst rs) (snd rs) (cf_generations cfg) 0 st.
End Speciated.
