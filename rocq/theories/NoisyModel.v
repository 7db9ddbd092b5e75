(** The simulated graph with noise: the components of OpticsModel.v with the noise of
    NoiseModel.v put into Graph.propagate (PropagateModel.v).  Definitions only.
    The values of np.random.normal are arguments.  When they are drawn, kept and drawn
    again is the subject of SimulateModel.v; here is one simulation with the vectors made
    from them.
    Real numbers instead of floating point numbers, as in ArrayModel.v.  An array in which
    some entry is nan or inf is None: it arises from a division by zero in the noise (a
    grid with the frequency zero, numbers drawn that are all zero) or from the square root
    of a negative power; no component raises because of such entries. *)
From Coq Require Import Reals Qreals List Arith ZArith QArith.
From Verif Require Import Base GraphModel ParamsModel PropagateModel Complex ArrayModel ComponentModel DetectorModel MoreComponentsModel NoiseModel OpticsModel.
Import ListNotations.
Local Open Scope nat_scope.
Local Open Scope R_scope.

Definition field := option (list C).
Definition plain (p : grid) (s : field) : list C := match s with Some x => x | None => repeat C0 (n_samples p) end.
Fixpoint all_some {A} (l : list (option A)) : option (list A) :=
  match l with
  | [] => Some []
  | Some a :: r => option_map (cons a) (all_some r)
  | None :: _ => None
  end.

(* scipy.constants of the version in requirements.txt (1.3.1, CODATA 2014) *)
Definition Planck : R := 662607004 / 10 ^ 42.
Definition Boltzmann : R := 138064852 / 10 ^ 31.
Definition elementary_charge : R := 16021766208 / 10 ^ 29.

(* get_ASE_filter, single_path.py:471-490, after a propagate call with the input [state];
   _noise_factor, lines 506-517.  The square root of a negative entry is nan: None *)
Definition ase_filter (a : amplifier) (noise_fig_dB : R) (p : grid) (state : list C) : res (option (list R)) :=
  let factor := ten_to (noise_fig_dB / 10) in
  do powers <- broadcast (fun f gain => Planck * (f + central_frequency p) / 2 * (factor * gain) * grid_df p) (ifft_shift_ (grid_f p)) (amplifier_gain a p state);
  Ok (if forallb (fun x => if Rle_dec 0 x then true else false) powers then Some (map sqrt powers) else None).

(* the noise model of a component: the sources in the order in which they were added.
   PulsedLaser inputs.py:44; ContinuousWaveLaser inputs.py:115-117; NoisySignal inputs.py:147;
   OpticalAmplifier single_path.py:445; Photodiode outputs.py:136-150.  The attributes are those
   that the constructor copied from the parameters; the parameters read here are locked.
   No other component adds noise: PhaseModulator has noise_on=False (single_path.py:190),
   the others have no noise model (base_classes.py:34). *)
Definition noise_settings (c : cls) (ps : list pval) (p : grid) (input : list C) : res (option (list (noise_type * option filter_shape))) :=
  match c with
  | PulsedLaser => do fwhm <- real_at ps 6; Ok (Some [(Linewidth fwhm, None)])
  | ContinuousWaveLaser => do osnr <- real_at ps 2; do fwhm <- real_at ps 3; Ok (Some [(Linewidth fwhm, None); (Osnr osnr, None)])
  | NoisySignal => Ok (Some [(Osnr (-10), None)])
  | OpticalAmplifier => do a <- amplifier_of ps; do fig <- real_at ps 8; do ase <- ase_filter a fig p input;
      Ok (option_map (fun ase => [(EdfaASE ase, None)]) ase)
  | Photodiode => do d <- photodiode_of ps; do temp <- real_at ps 5; do dark <- real_at ps 6;
      let slope := elementary_charge * load_resistance d ^ 2 in
      Ok (Some [(Rms (sqrt (4 * Boltzmann * temp * bandwidth d * load_resistance d)), Some (photodiode_filter d));
                (Shot (slope / load_resistance d) (slope * dark), Some (photodiode_filter d))])
  | _ => Ok (Some [])
  end.

(* what np.random.normal gives at lines 217 and 266 of additive_noise.py *)
Definition draw := (list C * list R)%type.
(* _get_noise_vector, additive_noise.py:207-242, as in NoiseModel.v; the division by a mean
   power of zero, there or when the vector is used (lines 127, 140), makes nan *)
Definition vector_of (p : grid) (s : noise_type * option filter_shape) (d : draw) : res (option (list C)) :=
  let '(t, filter) := s in
  do noise <- match filter with None => Ok (fst d) | Some shape => filtered_time_static p shape (fst d) end;
  match t with
  | Osnr _ | AbsolutePower _ | Rms _ | Shot _ _ => if Req_EM_T (mean_power noise) 0 then Ok None else noise_vector p filter t (fst d) (snd d)
  | _ => noise_vector p filter t (fst d) (snd d)
  end.
(* number i of the sources gets the draw number i *)
Fixpoint vectors_of (p : grid) (l : list (noise_type * option filter_shape)) (draws : nat -> draw) (i : nat) : res (list (option noise_source)) :=
  match l with
  | [] => Ok []
  | s :: r => do v <- vector_of p s (draws i); do vs <- vectors_of p r draws (S i); Ok (option_map (mkSource (fst s) (snd s)) v :: vs)
  end.

(* add_noise_to_propagation, additive_noise.py:116-154; no noise model is no source *)
Definition with_noise (c : cls) (ps : list pval) (p : grid) (draws : nat -> draw) (input output : list C) : res field :=
  do settings <- noise_settings c ps p input;
  match settings with
  | None => Ok None
  | Some l =>
      do vs <- vectors_of p l draws 0;
      match all_some vs with
      | None => Ok None
      | Some ss => do y <- noisy p ss output; Ok (Some y)
      end
  end.

(* propagate of an edge component, then its noise: lib/graph.py:318-323.  Sources do not read
   the values of the array that they receive.  PhaseModulator asks for its phase noise
   (single_path.py:179, additive_noise.py:156-175) *)
Definition noisy_component (c : cls) (ps : list pval) (p : grid) (draws : nat -> draw) (state : field) : res field :=
  match c with
  | PhaseModulator =>
      do depth <- real_at ps 0; do fr <- real_at ps 1; do shift <- real_at ps 2; do fwhm <- real_at ps 3;
      do v <- vector_of p (PhaseFromLinewidth fwhm, None) (draws 0%nat);
      do y <- phase_modulator depth fr shift (map re (plain p v)) p (plain p state);
      Ok (match v, state with Some _, Some _ => Some y | _, _ => None end)
  | _ =>
      do y <- component c ps p (plain p state);
      match state, family_of c with
      | None, SourceModel | Some _, _ => with_noise c ps p draws (plain p state) y
      | None, _ => do _ <- with_noise c ps p draws (plain p state) y; Ok None
      end
  end.

(* propagate of a node component; a terminal hands on what it receives, a splitter mixes it *)
Definition noisy_connector (c : cls) (ps : list pval) (p : grid) (states : list field) (num_inputs num_outputs : nat) : res (list field) :=
  do outs <- connector c ps p (map (plain p) states) num_inputs num_outputs;
  Ok (match c with
      | TerminalSource | TerminalSink => states
      | _ => match all_some states with Some _ => map Some outs | None => map (fun _ => None) outs end
      end).

(* [draws i k]: what is drawn for source k of the component object i *)
Definition noisy_optics (st : store) (p : grid) (draws : nat -> nat -> draw) : behaviour field unit :=
  mkBeh (fun c states nin nout u => (u, do ps <- get_params st (cid c); noisy_connector (ccls c) ps p states nin nout))
        (fun c state u => (u, do ps <- get_params st (cid c); noisy_component (ccls c) ps p (draws (cid c)) state)).

(* one simulation with AdditiveNoise.simulate_with_noise = True: lib/graph.py:291-326 *)
Definition simulate_noisy (st : store) (p : grid) (draws : nat -> nat -> draw) (g : graph) (src : list C) (old : saves field) : saves field * res unit :=
  let '(_, sv, r) := propagate (noisy_optics st p draws) g (Some src) tt old in (sv, r).

(* measure_propagator and an evaluator of EvaluatorModel.v on what was measured; the result of
   numpy arithmetic with nan is nan, and what it raises depends on the shapes only *)
Definition evaluate_noisy {X} (score : list C -> res (option X)) (st : store) (p : grid) (draws : nat -> nat -> draw) (g : graph) (node : place) (old : saves field) : saves field * res (option X) :=
  let (sv, r) := simulate_noisy st p draws g (repeat C0 (n_samples p)) old in
  (sv, do _ <- r; do state <- measure sv node; match state with Some x => score x | None => do _ <- score (plain p None); Ok None end).
