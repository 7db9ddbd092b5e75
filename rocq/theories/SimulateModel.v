(** Model of simulating a graph with its components and their noise.
    simulator/fiber/assets/additive_noise.py, the component [propagate] methods as far as
    lib/graph.py sees them, lib/graph.py:182-261, evaluator_snr.py.  Definitions only. *)
From Coq Require Import List Arith Bool.
From Verif Require Import Base GraphModel ParamsModel PropagateModel.
Import ListNotations.

(** ** Noise *)

(* additive_noise.py:33 *)
Inductive ntype := Osnr | AbsolutePower | EdfaAse | Rms | Shot | FwhmLinewidth | PhaseFromLinewidth.
Definition is_phase (t : ntype) : bool := match t with PhaseFromLinewidth => true | _ => false end.

(* one dictionary of noise_sources (additive_noise.py:98-106).  [so_tag] stands for the fixed
   entries 'distribution', 'noise_param' and 'filter'; 'mean_noise_power' is computed from the
   vector and not kept. *)
Record nsource (V : Type) := mkSource { so_type : ntype; so_tag : nat; so_vec : option V }.
Arguments mkSource {V}. Arguments so_type {V}. Arguments so_tag {V}. Arguments so_vec {V}.

(* an AdditiveNoise object.  Propagators are compared with [is] (line 119): a number is one
   propagator object. *)
Record nmodel (V : Type) := mkNoise {
  nm_prop : option nat; nm_seed : option nat; nm_on : bool; nm_sources : list (nsource V) }.
Arguments mkNoise {V}. Arguments nm_prop {V}. Arguments nm_seed {V}. Arguments nm_on {V}. Arguments nm_sources {V}.

(* AdditiveNoise.simulate_with_noise, the state of np.random, and the noise_model of each
   component (by object identity; no entry: None, base_classes.py:34).  The instance attribute
   simulate_with_noise written by NoisySignal.enable_noise/disable_noise (inputs.py:150-158) is
   never read: every reader names the class. *)
Record noise (V R : Type) := mkN { n_switch : bool; n_rng : R; n_models : list (nat * nmodel V) }.
Arguments mkN {V R}. Arguments n_switch {V R}. Arguments n_rng {V R}. Arguments n_models {V R}.

(* The numerical content, left open: S signals, V noise vectors, R generator states.
   draw: _get_noise_vector (206-250);  seeded: np.random.seed;
   transform: [propagate] of an edge component (parameters, propagator, signal), which may raise;
   modulate: PhaseModulator.propagate with the phase noise given (single_path.py:175-187);
   no_phase: the zeros of line 168;
   mix: one output of VariablePowerSplitter.propagate (outputs, parameters, states, inputs, outputs, index);
   band: one output of FrequencySplitter.propagate;
   add_noise: lines 122-154 once the vectors are there; the amplifier's ASE uses the gain of its
   last propagate call (single_path.py:453-470), hence the input signal;
   minus: noisy - noiseless (graph.py:241).
   Attributes that components copy from their parameters when they are built, caches of filters
   (filter.py:40-101), and save_transforms=True (plots, see TransformModel.v) are not modelled here. *)
Record physics (S V R : Type) := mkPhys {
  draw_vector : ntype -> nat -> nat -> R -> V * R;
  seeded : nat -> R;
  transform : comp -> list pval -> nat -> S -> res S;
  modulate : comp -> list pval -> nat -> V -> S -> S;
  no_phase : nat -> V;
  mix : list pval -> list S -> nat -> nat -> nat -> S;
  band : list pval -> list S -> nat -> nat -> S;
  add_noise : comp -> list pval -> nat -> list (nsource V) -> S -> S -> S;
  minus : S -> S -> S }.
Arguments draw_vector {S V R}. Arguments seeded {S V R}. Arguments transform {S V R}. Arguments modulate {S V R}.
Arguments no_phase {S V R}. Arguments mix {S V R}. Arguments band {S V R}. Arguments add_noise {S V R}. Arguments minus {S V R}.
Arguments mkPhys {S V R}.

Section Simulate.
Context {S V R : Type}.
Variable ph : physics S V R.
Let noise := noise V R.
Let nmodel := nmodel V.
Let nsource := nsource V.

Definition set_switch (b : bool) (x : noise) : noise := mkN b (n_rng x) (n_models x).
Definition set_model (i : nat) (m : nmodel) (r : R) (x : noise) : noise := mkN (n_switch x) r (set_assoc i m (n_models x)).

(* additive_noise.py:202-204: a new vector for every source, in order *)
Fixpoint draw_all (p : nat) (l : list nsource) (r : R) : list nsource * R :=
  match l with
  | [] => ([], r)
  | s :: rest =>
      let (v, r1) := draw_vector ph (so_type s) (so_tag s) p r in
      let (rest', r2) := draw_all p rest r1 in
      (mkSource (so_type s) (so_tag s) (Some v) :: rest', r2)
  end.

(* additive_noise.py:188-204 *)
Definition resample (switch : bool) (seed : option nat) (m : nmodel) (r : R) : nmodel * R * res unit :=
  if negb switch then (m, r, Ok tt)
  else match nm_prop m with
       | None => (m, r, Err ValueError)
       | Some p =>
           let r0 := match seed with Some k => seeded ph k | None => r end in
           let (ss, r1) := draw_all p (nm_sources m) r0 in
           (mkNoise (nm_prop m) (nm_seed m) (nm_on m) ss, r1, Ok tt)
       end.

(* additive_noise.py:119-120, 170-171 with the setter of 183-186, reached with the switch on *)
Definition same_propagator (p : nat) (m : nmodel) : bool :=
  match nm_prop m with Some q => Nat.eqb p q | None => false end.
Definition attach (p : nat) (m : nmodel) (r : R) : nmodel * R :=
  if same_propagator p m then (m, r)
  else match resample true (nm_seed m) (mkNoise (Some p) (nm_seed m) (nm_on m) (nm_sources m)) r with
       | (m', r', _) => (m', r')
       end.

(* every vector that is used is there; a missing one (None) raises TypeError in the arithmetic *)
Definition drawn (l : list nsource) : bool :=
  forallb (fun s => is_phase (so_type s) || match so_vec s with Some _ => true | None => false end) l.

(* graph.py:321-323 with additive_noise.py:108-154; [sin] went into the component, [sout] came out *)
Definition with_noise (c : comp) (ps : list pval) (p : nat) (sin sout : S) (x : noise) : noise * res S :=
  match assoc (cid c) (n_models x) with
  | None => (x, Ok sout)
  | Some m =>
      if negb (nm_on m) || negb (n_switch x) then (x, Ok sout)
      else let (m', r') := attach p m (n_rng x) in
           let x' := set_model (cid c) m' r' x in
           if drawn (nm_sources m') then (x', Ok (add_noise ph c ps p (nm_sources m') sin sout)) else (x', Err TypeError)
  end.

(* additive_noise.py:156-177, called by PhaseModulator.propagate *)
Definition phase_noise (c : comp) (p : nat) (x : noise) : noise * res V :=
  match assoc (cid c) (n_models x) with
  | None => (x, Err AttributeError)
  | Some m =>
      if negb (n_switch x) then (x, Ok (no_phase ph p))
      else let (m', r') := attach p m (n_rng x) in
           let x' := set_model (cid c) m' r' x in
           match find (fun s => is_phase (so_type s)) (nm_sources m') with
           | None => (x', Err ValueError)
           | Some s => match so_vec s with None => (x', Err TypeError) | Some v => (x', Ok v) end
           end
  end.

(** ** Components as lib/graph.py calls them; [st] holds the parameters *)

(* numpy broadcasting of a first axis of length a with one of length b *)
Definition broadcast (a b : nat) : option nat :=
  if Nat.eqb a b then Some a else if Nat.eqb a 1 then Some b else if Nat.eqb b 1 then Some a else None.

(* the call model.propagate(states, propagator, in_degree, out_degree, ...) of graph.py:312.
   terminals.py:42-43, 82-83; multi_path.py:52-75, 115-133.  Only these classes can be on a node
   (C12); the others take one state, so the call raises TypeError (MeasurementDevice and
   ElectricFieldMeasurementDevice, whose signatures would allow it, cannot be nodes either). *)
Definition node_step (st : store) (c : comp) (ss : list S) (nin nout : nat) (x : noise) : noise * res (list S) :=
  match ccls c with
  | TerminalSource | TerminalSink => (x, Ok ss)
  | VariablePowerSplitter =>
      match get_params st (cid c) with
      | Err e => (x, Err e)
      | Ok ps =>
          match broadcast (Datatypes.S (length ps)) nout with
          | None => (x, Err ValueError)
          | Some k => if Nat.eqb (length ss) nin
                      then (x, Ok (map (mix ph ps ss nin nout) (seq 0 k)))
                      else (x, Err ValueError)
          end
      end
  | FrequencySplitter =>
      match get_params st (cid c) with
      | Err e => (x, Err e)
      | Ok ps => (x, Ok (map (fun j => band ph ps ss (Datatypes.S (length ps)) j) (seq 0 (Datatypes.S (length ps)))))
      end
  | _ => (x, Err TypeError)
  end.

(* graph.py:318-323: model.propagate(state, propagator, ...) and the noise on it.  A splitter on an
   edge lacks two arguments (TypeError); a terminal returns its argument. *)
Definition edge_step (st : store) (p : nat) (c : comp) (s : S) (x : noise) : noise * res S :=
  match ccls c with
  | VariablePowerSplitter | FrequencySplitter => (x, Err TypeError)
  | TerminalSource | TerminalSink => with_noise c [] p s s x
  | PhaseModulator =>
      match get_params st (cid c) with
      | Err e => (x, Err e)
      | Ok ps =>
          match phase_noise c p x with
          | (x', Err e) => (x', Err e)
          | (x', Ok v) => with_noise c ps p s (modulate ph c ps p v s) x'
          end
      end
  | _ =>
      match get_params st (cid c) with
      | Err e => (x, Err e)
      | Ok ps =>
          match transform ph c ps p s with
          | Err e => (x, Err e)
          | Ok s' => with_noise c ps p s s' x
          end
      end
  end.

Definition parts (st : store) (p : nat) : behaviour S noise := mkBeh (node_step st) (edge_step st p).

(** ** What a program calls *)

(* the process: noise state and the graph's _propagator_saves *)
Record process := mkP { p_noise : noise; p_saves : saves S }.

(* graph.propagate(propagator); [src]: propagator.state *)
Definition run (st : store) (g : graph) (p : nat) (src : S) (w : process) : process * res unit :=
  match propagate (parts st p) g src (p_noise w) (p_saves w) with
  | (x, sv, r) => (mkP x sv, r)
  end.

Definition with_switch (b : bool) (w : process) : process := mkP (set_switch b (p_noise w)) (p_saves w).

(* graph.py:182-204 ([forced] = true) and 206-226 ([forced] = false) *)
Definition get_output (forced : bool) (st : store) (g : graph) (p : nat) (src : S) (at_ : option place) (w : process) : process * res S :=
  match (match at_ with Some q => Ok q | None => do n <- of_option IndexError (get_output_node g); Ok (PNode n) end) with
  | Err e => (w, Err e)
  | Ok q =>
      let start := n_switch (p_noise w) in
      match run st g p src (with_switch forced w) with
      | (w', Err e) => (w', Err e)
      | (w', Ok _) => (with_switch start w', measure (p_saves w') q)
      end
  end.
Definition get_output_signal := get_output true.
Definition get_output_signal_pure := get_output false.

(* graph.py:228-241 *)
Definition get_output_noise (st : store) (g : graph) (p : nat) (src : S) (at_ : option place) (w : process) : process * res S :=
  match get_output_signal st g p src at_ w with
  | (w1, Err e) => (w1, Err e)
  | (w1, Ok a) =>
      match get_output_signal_pure st g p src at_ w1 with
      | (w2, Err e) => (w2, Err e)
      | (w2, Ok b) => (w2, Ok (minus ph a b))
      end
  end.

(* evaluator_snr.py:23-37: the two signals the ratio is computed from; [sink] is the node
   labelled 'sink' *)
Definition snr_signals (st : store) (g : graph) (p : nat) (src : S) (sink : node) (w : process) : process * res (S * S) :=
  match run st g p src (with_switch false w) with
  | (w1, Err e) => (w1, Err e)
  | (w1, Ok _) =>
      match measure (p_saves w1) (PNode sink) with
      | Err e => (w1, Err e)
      | Ok a =>
          match run st g p src (with_switch true w1) with
          | (w2, Err e) => (w2, Err e)
          | (w2, Ok _) => match measure (p_saves w2) (PNode sink) with
                          | Err e => (w2, Err e)
                          | Ok b => (w2, Ok (a, b))
                          end
          end
      end
  end.

(* component.noise_model.resample_noise(seed) *)
Definition resample_one (i : nat) (seed : option nat) (w : process) : process * res unit :=
  let x := p_noise w in
  match assoc i (n_models x) with
  | None => (w, Err AttributeError)
  | Some m => match resample (n_switch x) seed m (n_rng x) with
              | (m', r', o) => (mkP (set_model i m' r' x) (p_saves w), o)
              end
  end.

(* graph.py:252-255 *)
Fixpoint resample_nodes (cs : list comp) (w : process) : process * res unit :=
  match cs with
  | [] => (w, Ok tt)
  | c :: r =>
      match assoc (cid c) (n_models (p_noise w)) with
      | None => resample_nodes r w
      | Some _ => match resample_one (cid c) None w with
                  | (w', Err e) => (w', Err e)
                  | (w', Ok _) => resample_nodes r w'
                  end
      end
  end.

(* graph.py:243-261; lib.graph.Graph has no attribute _propagate_on_edges (line 258), so the
   loop over the edges raises on its first round *)
Definition resample_all_noise (g : graph) (seed : option nat) (w : process) : process * res unit :=
  let x := p_noise w in
  let w0 := match seed with Some k => mkP (mkN (n_switch x) (seeded ph k) (n_models x)) (p_saves w) | None => w end in
  match resample_nodes (map (fun q => n_model (snd q)) (g_nodes g)) w0 with
  | (w1, Err e) => (w1, Err e)
  | (w1, Ok _) => match edges_view g with [] => (w1, Ok tt) | _ :: _ => (w1, Err AttributeError) end
  end.

(* noise_model.noise_on = b (also NoisySignal.enable_noise/disable_noise, inputs.py:150-158) *)
Definition set_on (i : nat) (b : bool) (w : process) : process * res unit :=
  let x := p_noise w in
  match assoc i (n_models x) with
  | None => (w, Err AttributeError)
  | Some m => (mkP (set_model i (mkNoise (nm_prop m) (nm_seed m) b (nm_sources m)) (n_rng x) x) (p_saves w), Ok tt)
  end.

(* update_noise_model: a new AdditiveNoise object (single_path.py:189-190, outputs.py:136-150,
   inputs.py:115-117), called whenever parameters are assigned (base_classes.py:41-44) *)
Definition renew (i : nat) (m : nmodel) (w : process) : process :=
  let x := p_noise w in mkP (set_model i (mkNoise None (nm_seed m) (nm_on m) (map (fun s => mkSource (so_type s) (so_tag s) None) (nm_sources m))) (n_rng x) x) (p_saves w).

(* other uses of np.random anywhere in the program *)
Definition other_draw (f : R -> R) (w : process) : process :=
  mkP (mkN (n_switch (p_noise w)) (f (n_rng (p_noise w))) (n_models (p_noise w))) (p_saves w).

Inductive action :=
| ASignal (p : nat) (src : S) (q : option place)
| APure (p : nat) (src : S) (q : option place)
| ANoise (p : nat) (src : S) (q : option place)
| APropagate (p : nat) (src : S)
| ASnr (p : nat) (src : S) (sink : node)
| ASwitch (b : bool)
| AClear
| AOther (f : R -> R)
| AResample (i : nat) (seed : option nat)
| AResampleAll (seed : option nat)
| AOn (i : nat) (b : bool)
| ARenew (i : nat) (m : nmodel).

Definition act (st : store) (g : graph) (a : action) (w : process) : process :=
  match a with
  | ASignal p src q => fst (get_output_signal st g p src q w)
  | APure p src q => fst (get_output_signal_pure st g p src q w)
  | ANoise p src q => fst (get_output_noise st g p src q w)
  | APropagate p src => fst (run st g p src w)
  | ASnr p src sink => fst (snr_signals st g p src sink w)
  | ASwitch b => with_switch b w
  | AClear => mkP (p_noise w) []
  | AOther f => other_draw f w
  | AResample i seed => fst (resample_one i seed w)
  | AResampleAll seed => fst (resample_all_noise g seed w)
  | AOn i b => fst (set_on i b w)
  | ARenew i m => renew i m w
  end.
Definition acts (st : store) (g : graph) (l : list action) (w : process) : process := fold_left (fun w a => act st g a w) l w.
End Simulate.
Arguments mkP {S V R}. Arguments p_noise {S V R}. Arguments p_saves {S V R}.
Arguments ASignal {S V R}. Arguments APure {S V R}. Arguments ANoise {S V R}. Arguments APropagate {S V R}. Arguments ASnr {S V R}.
Arguments ASwitch {S V R}. Arguments AClear {S V R}. Arguments AOther {S V R}. Arguments AResample {S V R}. Arguments AResampleAll {S V R}.
Arguments AOn {S V R}. Arguments ARenew {S V R}.
