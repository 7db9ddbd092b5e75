(** What is said about the benchmark scripts.  Definitions only. *)
From Coq Require Import List Arith Bool ZArith QArith String Ascii.
From Verif Require Import Base EvolverModel SpeciatedModel SpeciatedSpec BenchModel.
From Verif Require FilesModel FilesSpec.
Import ListNotations.
Local Open Scope string_scope.
Local Open Scope list_scope.
Local Open Scope nat_scope.

(* a call a benchmark intends: job, n_generations, n_hof, directory *)
Definition plan := (job * nat * nat * FilesModel.path)%type.
Definition planned (m : made) : plan := (m_job m, m_generations m, m_hof m, m_dir m).
Definition dir_of (p : plan) : FilesModel.place := FilesModel.p_parts (snd p).

(* a directory two names below another *)
Definition below (top : FilesModel.path) (a b : string) : FilesModel.path :=
  {| FilesModel.p_abs := FilesModel.p_abs top; FilesModel.p_parts := FilesModel.p_parts top ++ [a; b] |}.
(* a text with underscores for dots *)
Definition underscored (s : string) : string := string_of_list_ascii (map (fun c => if ascii_dec c "." then "_"%char else c) (list_ascii_of_string s)).
Definition nth_iteration (i : nat) : string := "iteration_" ++ FilesModel.num i.

Definition elitism_plan (top : FilesModel.path) (sizes : list nat) (ratios : list (Q * string)) (gens hof : nat) (rule : option string) (e : evolver) : list plan :=
  flat_map (fun size => flat_map (fun ratio => map (fun i =>
    (mkJob size (fst ratio) rule e i, gens, Nat.min hof size, below top ("popSize" ++ FilesModel.num size ++ "_elitismRatio" ++ underscored (snd ratio))%string (nth_iteration i))) (seq 0 10)) ratios) sizes.
Definition rules_plan (top : FilesModel.path) (rules : list string) (size gens hof : nat) (e : evolver) : list plan :=
  flat_map (fun rule => map (fun i => (mkJob size (1 # 10) (Some rule) e i, gens, hof, below top ("selectionRule_" ++ rule)%string (nth_iteration i))) (seq 0 10)) rules.
Definition evolvers_plan (top : FilesModel.path) (sizes : list nat) (evolvers : list evolver) (gens hof : nat) (rule : option string) : list plan :=
  flat_map (fun i => flat_map (fun e => map (fun size =>
    (mkJob size (1 # 10) rule e i, gens, Nat.min hof size, below top ("popSize" ++ FilesModel.num size ++ "_evolver" ++ class_name e)%string (nth_iteration i))) sizes) evolvers) (seq 0 6).

(* the elitism ratio asks for at least one elite: more than half a graph *)
Definition elites (j : job) : Prop := (1 # 2 < j_ratio j * inject_Z (Z.of_nat (j_size j)))%Q.

(* what the calls find: sets are iterated in some order, and the process has only optimised and worked before *)
Definition usual (settings : nat -> setting) : Prop :=
  forall k, iterations (se_orders (settings k)) (se_picks (settings k)) /\ lifetime (se_root (settings k)) (se_process (settings k)).

(* the directories can be made: no file is in the way *)
Definition free {B} (ps : list plan) (f : FilesModel.fsys B) : Prop :=
  FilesSpec.tree f /\ forall p q, In p ps -> FilesSpec.above q (dir_of p) -> ~ FilesSpec.holds_file f q.
(* a call writes its files below its directory *)
Definition tidy {B} (writes : nat -> FilesModel.inout -> FilesModel.fsys B -> FilesModel.fsys B) : Prop :=
  forall k io f, FilesSpec.tree f -> FilesSpec.tree (writes k io f) /\
    forall l, FilesSpec.holds_file (writes k io f) l -> FilesSpec.holds_file f l \/ FilesSpec.strictly_above (FilesModel.p_parts (FilesModel.io_save io)) l.

(* in this order, with others between them *)
Inductive within {A : Type} : list A -> list A -> Prop :=
| within_nil : within [] []
| within_skip : forall a l m, within l m -> within l (a :: m)
| within_take : forall a l m, within l m -> within (a :: l) (a :: m).

(* sys.stdout works: the logs it goes through are open *)
Definition working (s : FilesModel.screen) : Prop := FilesSpec.sound s /\ forall j, FilesSpec.in_use s j -> FilesSpec.is_open s j.

(** the command line *)
(* an option as written: which, in its long form or not, with its value *)
Record use := mkUse { u_name : opt_name; u_long : bool; u_value : option string }.
Definition word (n : opt_name) (long : bool) : string :=
  match n, long with
  | ODir, true => "--dir" | ODir, false => "-d"
  | OVerbose, true => "--verbose" | OVerbose, false => "-v"
  | OEvaluator, true => "--evaluator" | OEvaluator, false => "-e"
  | OSelection, true => "--selection" | OSelection, false => "-s"
  end.
Definition undashed (v : string) : Prop := forall r, v <> String "-" r.
Definition written (u : use) : list string := word (u_name u) (u_long u) :: match u_value u with Some v => [v] | None => [] end.
Definition writable (u : use) : Prop := forall v, u_value u = Some v -> undashed v.
(* v is what the last use of the option says; d if it is not used *)
Definition says (n : opt_name) (uses : list use) (d v : option string) : Prop :=
  (exists before u after, uses = before ++ u :: after /\ u_name u = n /\ u_value u = v /\ forall x, In x after -> u_name x <> n) \/
  (v = d /\ forall x, In x uses -> u_name x <> n).
Definition rule_names : list string :=
  ["random"; "preferential"; "roulette"; "tournament"; "roulette edit distance"; "tournament edit distance"; "random simple subpop scheme"; "preferential simple subpop scheme";
   "random vectorDIFF"; "preferential vectorDIFF"; "random photoNEAT"; "preferential photoNEAT"].

(* two evolvers of one class *)
Definition same_class (e e' : evolver) : Prop :=
  match e, e' with Lookup, Lookup | OpBased _, OpBased _ | Hessian _, Hessian _ => True | _, _ => False end.
