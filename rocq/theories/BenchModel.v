(** Model of the three benchmark scripts, scripts/benchmark_elitism.py, scripts/benchmark_selection_rules.py and
    scripts/compare_evolvers.py, with the names of the update rules (algorithms/topology_optimization.py:35-61) and the options of the
    command line (lib/functions.py:33-42).  Definitions only.
    Not modelled: what the scripts construct before the loops besides directories (propagator, evaluator, start graph), the drawing of
    the seeded numbers, the contents of the files, and KeyboardInterrupt. *)
From Coq Require Import List Arith Bool ZArith QArith String Ascii.
From Verif Require Import Base GraphModel OperatorsModel ParamsModel EvolverModel FloatModel HofModel PopulationModel SpeciationModel DistanceModel TopologyModel SpeciatedModel.
From Verif Require FilesModel.
Import ListNotations.
Local Open Scope string_scope.
Local Open Scope list_scope.
Local Open Scope nat_scope.

(* algorithms/topology_optimization.py:35-61; None is the Python None *)
Definition rule_named (n : option string) : update_rule :=
  match n with
  | None => OtherRule
  | Some s =>
      if String.eqb s "random" then Random
      else if String.eqb s "preferential" then Preferential
      else if String.eqb s "roulette" then Roulette
      else if String.eqb s "tournament" then Tournament
      else if String.eqb s "roulette edit distance" then RouletteEdit
      else if String.eqb s "tournament edit distance" then TournamentEdit
      else if String.eqb s "random simple subpop scheme" then RandomSubpop
      else if String.eqb s "preferential simple subpop scheme" then PreferentialSubpop
      else if String.eqb s "random vectorDIFF" then RandomVector
      else if String.eqb s "preferential vectorDIFF" then PreferentialVector
      else if String.eqb s "random photoNEAT" then RandomPhoto
      else if String.eqb s "preferential photoNEAT" then PreferentialPhoto
      else OtherRule
  end.

(* str.replace('.', '_') *)
Fixpoint undotted (s : string) : string :=
  match s with
  | EmptyString => EmptyString
  | String c r => String (if Ascii.eqb c "." then "_"%char else c) (undotted r)
  end.

(* evolver.__class__.__name__, simulator/fiber/evolver.py:23,213,256 *)
Definition class_name (e : evolver) : string :=
  match e with Lookup => "ProbabilityLookupEvolver" | OpBased _ => "OperatorBasedProbEvolver" | Hessian _ => "HessianProbabilityEvolver" end.

(* what one call of topology_optimization is given by the loops: n_population, elitism_ratio, update_rule, evolver, the seed *)
Record job := mkJob { j_size : nat; j_ratio : Q; j_rule : option string; j_evolver : evolver; j_seed : nat }.
(* a call that was made: its job, n_generations and n_hof, the save directory, and how much had been printed to the terminal before *)
Record made := mkMade { m_job : job; m_generations : nat; m_hof : nat; m_dir : FilesModel.path; m_from : nat }.

(* everything else a call depends on *)
Record setting := mkSetting {
  se_lib : library; se_ops : list op; se_sim : world -> world -> res Q; se_rounded : Z * Z -> fl; se_root : nat -> Q;
  se_opt0 : world -> res (fl * world); se_opt : nat -> nat -> world -> res (fl * world); se_lucks : nat -> luck;
  se_orders : nat -> bool -> list nat -> list nat; se_picks : nat -> bool -> nat -> list nat -> list nat;
  se_process : process; se_graph : nat }.

(* topology_optimization(copy.deepcopy(start_graph), ..., elitism_ratio=...) with the default target_species_num=4,
   protection_half_life=None and ged_threshold_value=1.5 (topology_optimization.py:23-29); cf_rule is not used with rule names *)
Definition call (s : setting) (m : made) : res sstate :=
  optimise_topology (se_lib s) (se_ops s) (j_evolver (m_job m)) (se_sim s) (se_rounded s) (se_root s) (se_opt0 s) (se_opt s) (se_lucks s) (se_orders s) (se_picks s)
    (mkCfg RuleRandom (j_ratio (m_job m)) (j_size (m_job m)) (m_generations m) (m_hof m) (3 # 2)) (Some 4%Z) None (rule_named (j_rule (m_job m))) (se_process s) (se_graph s).

Section Bench.
Context {bytes : Type}.
Record bench := mkBench {
  b_files : FilesModel.fsys bytes;
  b_io : FilesModel.inout;
  b_screen : FilesModel.screen;
  b_calls : list made;                    (* the calls of topology_optimization so far *)
  b_done : list made }.                   (* those after which hall of fame, plots and log figure were saved *)
Definition step := (bench * (unit + FilesModel.ioexn))%type.

(* the k-th call: its setting, what it prints before it returns or raises, the files it writes; what save_hof, plot_hof and the
   plotting of the log raise, if they do *)
Variable settings : nat -> setting.
Variable said : nat -> list string.
Variable writes : nat -> FilesModel.inout -> FilesModel.fsys bytes -> FilesModel.fsys bytes.
Variable report : nat -> sstate -> option FilesModel.ioexn.

(* io.path = ... *)
Definition set_path (p : FilesModel.path) (b : bench) : bench :=
  mkBench (b_files b) {| FilesModel.io_path := p; FilesModel.io_save := FilesModel.io_save (b_io b); FilesModel.io_load := FilesModel.io_load (b_io b) |} (b_screen b) (b_calls b) (b_done b).
(* io.init_save_dir(sub_path=..., unique_id=False) *)
Definition save_dir_named (sub : string) (b : bench) : step :=
  let '(io, (f, r)) := FilesModel.init_save_dir (b_files b) (b_io b) (Some sub) None in
  (mkBench f io (b_screen b) (b_calls b) (b_done b), r).

Definition bind (x : step) (k : bench -> step) : step := match x with (b, inl _) => k b | (b, inr e) => (b, inr e) end.
(* for x in l: ... *)
Fixpoint each {A : Type} (body : A -> bench -> step) (l : list A) (b : bench) : step :=
  match l with
  | [] => (b, inl tt)
  | a :: r => bind (body a b) (each body r)
  end.

(* the call of topology_optimization and what follows it in the loops: benchmark_elitism.py:60-78, benchmark_selection_rules.py:57-75,
   compare_evolvers.py:63-82.  The output is redirected first (topology_optimization.py:30) and given back at the end (142), not when the
   call raises. *)
Definition run (gens hof : nat) (j : job) (b : bench) : step :=
  let k := List.length (b_calls b) in
  let m := mkMade j gens hof (FilesModel.io_save (b_io b)) (List.length (FilesModel.s_terminal (b_screen b))) in
  let '(s1, t) := FilesModel.init_logging (b_screen b) in
  let f1 := writes k (b_io b) (b_files b) in
  let calls := b_calls b ++ [m] in
  match FilesModel.prints s1 (said k) with
  | (s2, inr e) => (mkBench f1 (b_io b) s2 calls (b_done b), inr e)
  | (s2, inl _) =>
      match call (settings k) m with
      | Err e => (mkBench f1 (b_io b) s2 calls (b_done b), inr (FilesModel.Py e))
      | Ok st =>
          let s3 := FilesModel.close_logging s2 t in
          match report k st with
          | Some e => (mkBench f1 (b_io b) s3 calls (b_done b), inr e)
          | None => (mkBench f1 (b_io b) s3 calls (b_done b ++ [m]), inl tt)
          end
      end
  end.

Definition iteration (i : nat) : string := ("iteration_" ++ FilesModel.num i)%string.

(* scripts/benchmark_elitism.py:38-78 benchmark_elitism; a ratio comes with its str().  n_hof is lowered to the population size (55-58) *)
Definition ratio_dir (size : nat) (text : string) : string := ("popSize" ++ FilesModel.num size ++ "_elitismRatio" ++ undotted text)%string.
Definition benchmark_elitism (sizes : list nat) (ratios : list (Q * string)) (gens hof : nat) (rule : option string) (e : evolver) (b : bench) : step :=
  let top := FilesModel.io_path (b_io b) in
  each (fun size => each (fun ratio b =>
    bind (save_dir_named (ratio_dir size (snd ratio)) (set_path top b)) (fun b =>
    each (fun i b => bind (save_dir_named (iteration i) b) (run gens (if size <? hof then size else hof) (mkJob size (fst ratio) rule e i)))
      (seq 0 10) (set_path (FilesModel.io_save (b_io b)) b))) ratios) sizes b.

(* scripts/benchmark_selection_rules.py:43-75 benchmark_selection_rules *)
Definition benchmark_selection_rules (rules : list string) (size gens hof : nat) (e : evolver) (b : bench) : step :=
  let top := FilesModel.io_path (b_io b) in
  each (fun rule b =>
    bind (save_dir_named ("selectionRule_" ++ rule)%string (set_path top b)) (fun b =>
    each (fun i b => bind (save_dir_named (iteration i) b) (run gens hof (mkJob size (1 # 10) (Some rule) e i)))
      (seq 0 10) (set_path (FilesModel.io_save (b_io b)) b))) rules b.

(* scripts/compare_evolvers.py:39-84 benchmark_evolvers: the body of the loops, 48-82, and the bare except, 83-84.
   [excuse] is the text printed then *)
Variable excuse : evolver -> nat -> nat -> string.
Definition compared (top : FilesModel.path) (size gens hof : nat) (rule : option string) (e : evolver) (i : nat) (b : bench) : step :=
  bind (save_dir_named ("popSize" ++ FilesModel.num size ++ "_evolver" ++ class_name e)%string (set_path top b)) (fun b =>
  bind (save_dir_named (iteration i) (set_path (FilesModel.io_save (b_io b)) b)) (run gens (if size <? hof then size else hof) (mkJob size (1 # 10) rule e i))).
Definition caught (i : nat) (e : evolver) (size : nat) (x : step) : step :=
  match x with
  | (b, inl _) => (b, inl tt)
  | (b, inr _) => let '(s, r) := FilesModel.print_to (b_screen b) (excuse e i size) in (mkBench (b_files b) (b_io b) s (b_calls b) (b_done b), r)
  end.
Definition benchmark_evolvers (sizes : list nat) (evolvers : list evolver) (gens hof : nat) (rule : option string) (b : bench) : step :=
  let top := FilesModel.io_path (b_io b) in
  each (fun i => each (fun e => each (fun size b => caught i e size (compared top size gens hof rule e i b)) sizes) evolvers) (seq 0 6) b.
End Bench.
Arguments bench : clear implicits.
Arguments step : clear implicits.

(** *** lib/functions.py:33-42, parse_command_line_args *)
(* argparse with four options, each nargs='?'.  Modelled: the option names in full, and arguments which do not begin with a dash.  Not
   modelled: -h, shortened names, names joined with their values, arguments that begin with a dash *)
Inductive opt_name := ODir | OVerbose | OEvaluator | OSelection.
Definition option_of (t : string) : option opt_name :=
  if String.eqb t "-d" || String.eqb t "--dir" then Some ODir
  else if String.eqb t "-v" || String.eqb t "--verbose" then Some OVerbose
  else if String.eqb t "-e" || String.eqb t "--evaluator" then Some OEvaluator
  else if String.eqb t "-s" || String.eqb t "--selection" then Some OSelection
  else None.
Definition dashed (t : string) : bool := match t with String c _ => Ascii.eqb c "-" | EmptyString => false end.

(* the namespace; verbose is what bool() of the text gives, None when the option came without text *)
Record options := mkOptions { o_dir : option string; o_verbose : option bool; o_evaluator : option string; o_selection : option string }.
(* lines 36-39 *)
Definition defaults : options := mkOptions (Some "data") (Some false) (Some "rfawg_saw") (Some "roulette").
(* type=bool: only the empty text is false *)
Definition bool_of (t : string) : bool := negb (String.eqb t "").
Definition set_option (n : opt_name) (v : option string) (o : options) : options :=
  match n with
  | ODir => mkOptions v (o_verbose o) (o_evaluator o) (o_selection o)
  | OVerbose => mkOptions (o_dir o) (option_map bool_of v) (o_evaluator o) (o_selection o)
  | OEvaluator => mkOptions (o_dir o) (o_verbose o) v (o_selection o)
  | OSelection => mkOptions (o_dir o) (o_verbose o) (o_evaluator o) v
  end.
(* parser.parse_args: an option takes the argument after it, if there is one; None: the program exits with an error *)
Fixpoint parse_args (args : list string) (o : options) : option options :=
  match args with
  | [] => Some o
  | t :: r =>
      match option_of t with
      | None => None
      | Some n =>
          match r with
          | [] => Some (set_option n None o)
          | v :: r' => if dashed v then parse_args r (set_option n None o) else parse_args r' (set_option n (Some v) o)
          end
      end
  end.
Definition parse_command_line_args (args : list string) : option options := parse_args args defaults.

(* the choice of the evaluator, benchmark_elitism.py:110-119, benchmark_selection_rules.py:108-117, compare_evolvers.py:118-127:
   the waveform, or ValueError *)
Inductive waveform := Saw | Square.
Definition chosen_evaluator (n : option string) : res waveform :=
  match n with
  | None => Err ValueError
  | Some s => if String.eqb s "rfawg_saw" then Ok Saw else if String.eqb s "rfawg_square" then Ok Square else Err ValueError
  end.

(* the calls at the ends of the scripts, benchmark_elitism.py:103-106,121-122, benchmark_selection_rules.py:100-104,119-120,
   compare_evolvers.py:111-114,129-133; w1 and w2 are the probabilities the evolvers keep *)
Section Scripts.
Context {bytes : Type}.
Variable settings : nat -> setting.
Variable said : nat -> list string.
Variable writes : nat -> FilesModel.inout -> FilesModel.fsys bytes -> FilesModel.fsys bytes.
Variable report : nat -> sstate -> option FilesModel.ioexn.
Variable excuse : evolver -> nat -> nat -> string.
Definition elitism_script (o : options) (b : bench bytes) : step bytes :=
  match chosen_evaluator (o_evaluator o) with
  | Err e => (b, inr (FilesModel.Py e))
  | Ok _ => benchmark_elitism settings said writes report [8; 16] [(0, "0"); (1 # 10, "0.1"); (3 # 10, "0.3")]%Q 14 6 (o_selection o) Lookup b
  end.
Definition rules_script (o : options) (b : bench bytes) : step bytes :=
  match chosen_evaluator (o_evaluator o) with
  | Err e => (b, inr (FilesModel.Py e))
  | Ok _ => benchmark_selection_rules settings said writes report ["random"; "roulette"; "tournament"] 16 16 6 Lookup b
  end.
Definition evolvers_script (w1 w2 : op -> Q) (o : options) (b : bench bytes) : step bytes :=
  match chosen_evaluator (o_evaluator o) with
  | Err e => (b, inr (FilesModel.Py e))
  | Ok _ => benchmark_evolvers settings said writes report excuse [8] [Lookup; OpBased w1; Hessian w2] 14 6 (o_selection o) b
  end.
End Scripts.
