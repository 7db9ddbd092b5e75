(** The evaluators of /repo/simulator/fiber/evaluator_subclasses, which give a
    score to a simulated graph.  Definitions only.
    Real numbers instead of floating point numbers, as in ArrayModel.v.  A
    division of zero by zero or of a number by zero gives nan or inf in numpy
    without an exception: the result None stands for both, and is then the score.
    The plots of the compare methods are not modelled. *)
From Coq Require Import Reals List Arith ZArith Bool.
From Verif Require Import Base GraphModel ParamsModel PropagateModel Complex ArrayModel OpticsModel.
Import ListNotations.
Local Open Scope R_scope.

(** ** numpy and scipy *)

(* np.abs *)
Definition Cabs (z : C) : R := sqrt (Cnorm2 z).
(* np.angle: in (-pi, pi], zero for zero *)
Definition angle (z : C) : R :=
  if Req_EM_T (Cnorm2 z) 0 then 0
  else if Rle_dec 0 (im z) then acos (re z / Cabs z) else - acos (re z / Cabs z).
(* (x).astype('int') of a finite float: towards zero *)
Definition to_int (x : R) : Z := if Rle_dec 0 x then Int_part x else (- Int_part (- x))%Z.
(* x[i] on the first axis *)
Definition item {A} (x : list A) (i : Z) : res A :=
  let n := Z.of_nat (length x) in
  of_option IndexError (if (i <? - n)%Z then None else nth_error x (Z.to_nat (if (i <? 0)%Z then n + i else i))).
(* np.fft.fftshift(x, axes=0): functions.py 33-36 *)
Definition fft_shift_ {A} (x : list A) : list A := skipn (length x - length x / 2) x ++ firstn (length x - length x / 2) x.
(* x[a:b] with a and b not negative *)
Definition slice {A} (a b : nat) (x : list A) : list A := skipn a (firstn b x).
Definition sum_of (x : list R) : R := fold_right Rplus 0 x.
Definition ctotal (x : list C) : C := fold_right Cadd C0 x.
(* np.max, np.min; an empty array is a ValueError *)
Definition maximum (x : list R) : res R := match x with [] => Err ValueError | a :: r => Ok (fold_left Rmax r a) end.
Definition minimum (x : list R) : res R := match x with [] => Err ValueError | a :: r => Ok (fold_left Rmin r a) end.
(* a / b on floats *)
Definition quotient (a b : R) : option R := if Req_EM_T b 0 then None else Some (a / b).
(* np.mod(x, 2 pi) *)
Definition mod_turn (x : R) : R := x - 2 * PI * IZR (Int_part (x / (2 * PI))).
(* scipy.signal.sawtooth(t, width) for a width in [0, 1] *)
Definition sawtooth (t w : R) : R :=
  if Rlt_dec (mod_turn t) (w * 2 * PI) then mod_turn t / (PI * w) - 1 else (PI * (w + 1) - mod_turn t) / (PI * (1 - w)).
(* scipy.signal.square(t, duty) for a duty in [0, 1] *)
Definition square (t duty : R) : R := if Rlt_dec (mod_turn t) (duty * 2 * PI) then 1 else -1.

(** ** evaluator_pulserep.py *)

Record pulse_repetition := mkPulseRepetition {
  pr_target_power : list R; pr_rep_f : R; pr_target_rf : list C; pr_scale_array : list R; pr_harmonic_ind : Z }.
(* lines 14-36; rep_t is a Python float; pulse_width and peak_power are not used *)
Definition pulse_repetition_init (p : grid) (target : list C) (rep_t : R) : res pulse_repetition :=
  let target_power := map Cabs target in
  if Req_EM_T rep_t 0 then Err ZeroDivisionError else
  let rep_f := 1 / rep_t in
  do target_f <- fft target;
  do target_rf <- fft (map RtoC target_power);
  let scale_array := map (fun x => x / INR (n_samples p)) (fft_shift_ (linspace 0 (INR (length target_f - 1)) (length target_f))) in
  if Nat.eqb (length target_f) (n_samples p) then
    let ind := (to_int (rep_f / grid_df p) + 1)%Z in
    Ok (mkPulseRepetition target_power rep_f target_rf scale_array
          (if (Z.of_nat (length target_f) <=? ind)%Z then Z.of_nat (length target_f) else ind))
  else Err ValueError.
(* shift_function, lines 65-86.  The product is made in place: an array of one sample
   cannot take the longer result.  A zero harmonic of the target makes every entry nan. *)
Definition pulse_shift (e : pulse_repetition) (p : grid) (state : list C) : res (option (list C)) :=
  do state_rf <- fft state;
  do z <- item state_rf (pr_harmonic_ind e);
  if Req_EM_T (Cnorm2 z) 0 then Ok (Some state) else
  do t <- item (pr_target_rf e) (pr_harmonic_ind e);
  if Req_EM_T (Cnorm2 t) 0 then Ok None else
  let phase := angle (Cdiv z t) in
  let shift := phase / (pr_rep_f e * grid_dt p) in
  do product <- broadcast (fun z s => Cmul z (cis (- (shift * s)))) state_rf (pr_scale_array e);
  if Nat.eqb (length product) (length state_rf) then
    do y <- ifft product; Ok (Some (map (fun z => RtoC (Cabs z)) y))
  else Err ValueError.
(* similarity_l2_norm, lines 54-57 *)
Definition l2_norm (x y : list C) : res C :=
  do d <- broadcast (fun a b => Cmul (Csub a b) (Csub a b)) x y; Ok (ctotal d).
(* waveform_temporal_similarity, lines 59-63 *)
Definition pulse_similarity (e : pulse_repetition) (p : grid) (state : list C) : res (option C) :=
  do shifted <- pulse_shift e p state;
  match shifted with
  | None => Ok None
  | Some s => do d <- l2_norm s (map RtoC (pr_target_power e)); Ok (Some d)
  end.

(* the score of a measured field *)
Definition pulse_score (p : grid) (target : list C) (rep_t : R) (state : list C) : res (option C) :=
  do e <- pulse_repetition_init p target rep_t; pulse_similarity e p state.

(* what its shift_function makes of a measured field *)
Definition pulse_shifted (p : grid) (target : list C) (rep_t : R) (state : list C) : res (option (list C)) :=
  do e <- pulse_repetition_init p target rep_t; pulse_shift e p state.

(** ** evaluator_rfawg.py *)

(* the argument target_waveform: a string, an array, or something else (then the
   attribute target is missing) *)
Inductive waveform := Saw | OtherSaw | Tri | Square | UnknownName | Samples (x : list C) | NotAWaveform.
Record radio_waveform := mkRadioWaveform {
  rw_harmonic : R; rw_amplitude : R; rw_target : list C; rw_target_f : list C; rw_scale_array : list R; rw_harmonic_ind : Z }.
(* lines 27-44 *)
Definition named_waveform (f : R -> R) (harmonic amplitude : R) (p : grid) : list C :=
  map (fun t => RtoC (amplitude * (1 / 2 * (f (2 * PI * harmonic * t) + 1)))) (grid_t p).
Definition waveform_target (w : waveform) (harmonic amplitude : R) (p : grid) : res (list C) :=
  match w with
  | Saw => Ok (named_waveform (fun t => sawtooth t 0) harmonic amplitude p)
  | OtherSaw => Ok (named_waveform (fun t => sawtooth t 1) harmonic amplitude p)
  | Tri => Ok (named_waveform (fun t => sawtooth t (1 / 2)) harmonic amplitude p)
  | Square => Ok (named_waveform (fun t => square t (1 / 2)) harmonic amplitude p)
  | UnknownName => Err NotImplementedError
  | Samples x => Ok x
  | NotAWaveform => Err AttributeError
  end.
(* lines 16-53; target_harmonic is not zero *)
Definition radio_waveform_init (p : grid) (harmonic amplitude : R) (w : waveform) : res radio_waveform :=
  do target <- waveform_target w harmonic amplitude p;
  do target_f <- fft_ target (grid_dt p);
  let ind := (to_int (harmonic / grid_df p) + 1)%Z in
  Ok (mkRadioWaveform harmonic amplitude target target_f (map (fun f => f / harmonic) (ifft_shift_ (grid_f p)))
        (if (Z.of_nat (length target_f) <=? ind)%Z then Z.of_nat (length target_f) else ind)).
(* shift_function, lines 82-97 *)
Definition radio_shift (e : radio_waveform) (p : grid) (state : list C) : res (option (list C)) :=
  do state_rf <- fft_ state (grid_dt p);
  do z <- item state_rf (rw_harmonic_ind e);
  do t <- item (rw_target_f e) (rw_harmonic_ind e);
  if Req_EM_T (Cnorm2 t) 0 then Ok None else
  let phase := angle (Cdiv z t) in
  do product <- broadcast (fun s z => Cmul (cis (phase * s)) z) (rw_scale_array e) state_rf;
  do y <- ifft_ product (grid_dt p); Ok (Some (map (fun z => RtoC (Cabs z)) y)).
(* waveform_temporal_similarity, lines 74-80, with the mean of similarity_l2_norm, lines 70-72 *)
Definition radio_similarity (e : radio_waveform) (p : grid) (state : list C) : res (option C) :=
  do shifted <- radio_shift e p state;
  match shifted with
  | None => Ok None
  | Some s =>
      do d <- broadcast (fun a b => Cmul (Csub a b) (Csub a b)) s (rw_target e);
      Ok (if Req_EM_T (rw_amplitude e) 0 then None
          else Some (Cmul (RtoC (/ INR (length d) / rw_amplitude e ^ 2)) (ctotal d)))
  end.

(* the score of a measured field *)
Definition radio_score (p : grid) (harmonic amplitude : R) (w : waveform) (state : list C) : res (option C) :=
  do e <- radio_waveform_init p harmonic amplitude w; radio_similarity e p state.

(* what its shift_function makes of a measured field *)
Definition radio_shifted (p : grid) (harmonic amplitude : R) (w : waveform) (state : list C) : res (option (list C)) :=
  do e <- radio_waveform_init p harmonic amplitude w; radio_shift e p state.

(** ** evaluator_filter_design.py *)

Definition free_spectral_range : R := 2 * 10 ^ 11.
Definition duty : R := 1 / 10.
(* lines 18-21 *)
Definition target_transfer (p : grid) : list R :=
  map (fun f => 1 / 2 * (square (f / free_spectral_range + duty * PI) duty + 1)) (grid_f p).
Definition frequency_response (p : grid) (state : list C) : res (list R) :=
  do s <- fft_ state (grid_dt p); Ok (map Cabs (fft_shift_ s)).
(* lines 27-39, percent_of_total_power of lines 51-52 *)
Definition filter_design_score (p : grid) (state : list C) : res (option R) :=
  do x <- frequency_response p state;
  do xy <- broadcast Rmult x (target_transfer p);
  Ok (quotient (- sum_of xy) (sum_of x)).

(** ** evaluator_noise_suppression.py *)

(* lines 14-20: None is the missing true_signal *)
Definition noise_suppression_init (true_signal : option (list C)) : res (list R) :=
  match true_signal with None => Err RuntimeError | Some s => Ok (power_ s) end.
(* lines 45-50, similarity_l2_norm of lines 60-63 *)
Definition noise_suppression_score (true_power : list R) (state : list C) : res R :=
  do d <- broadcast (fun a b => (a - b) ^ 2) (power_ state) true_power; Ok (sum_of d).

(** ** evaluator_notgate.py *)

(* similarity_cosine, lines 43-45 *)
Definition similarity_cosine (x y : list R) : res (option R) :=
  do xy <- broadcast Rmult x y;
  Ok (quotient (sum_of xy) (sum_of (map (fun a => sqrt (a ^ 2)) x) * sum_of (map (fun a => sqrt (a ^ 2)) y))).
(* lines 55-62 *)
Definition not_gate_score (target state : list C) : res (option R) := similarity_cosine (power_ state) (power_ target).

(** ** evaluator_discrete_time_lens.py *)

(* lines 18-20 *)
Definition lens_target (p : grid) : list R := map (fun f => 2 * cos (f / (1235 * 10 ^ 7) + 19 / 10) ^ 2) (grid_f p).
(* lines 26-50 *)
Definition lens_score (p : grid) (input_state state : list C) : res (option R) :=
  do input <- frequency_response p input_state;
  do target_psd <- broadcast Rmult (lens_target p) input;
  do response <- frequency_response p state;
  do top <- maximum target_psd;
  if Req_EM_T top 0 then
    (* nan or inf everywhere; the slices still have to be non-empty *)
    do _ <- maximum (slice (n_samples p / 4) (3 * n_samples p / 4) response); Ok None
  else
  let response := map (fun x => x / top) response in
  do d <- broadcast (fun a b => (a - b) ^ 2) response (map (fun x => x / top) target_psd);
  let middle := slice (n_samples p / 4) (3 * n_samples p / 4) response in
  do hi <- maximum middle;
  do lo <- minimum middle;
  Ok (match quotient (hi - lo) (hi + lo) with None => None | Some vis => quotient (sum_of d) vis end).

(** ** evaluator_snr.py *)

(* lines 29-38, from the two measured fields; the two simulations and the switch are
   snr_signals in SimulateModel.v *)
Definition snr_score (clean noisy : list C) : res (option R) :=
  do noise <- broadcast Rminus (map Cabs clean) (map Cabs noisy);
  do ratios <- broadcast quotient noise (map Cabs clean);
  Ok (if forallb (fun r => match r with Some _ => true | None => false end) ratios
      then quotient (sum_of (map (fun r => match r with Some x => x | None => 0 end) ratios)) (INR (length ratios)) else None).

(** ** The graph *)

(* evaluate_graph of PulseRepetition (lines 39-44), FilterDesign (24-39), NoiseSuppression
   (43-50): simulate, then measure at the evaluation node.  The saved fields stay in the graph. *)
Definition evaluate {X} (score : list C -> res X) (st : store) (p : grid) (g : graph) (node : place) (old : saves (list C)) : saves (list C) * res X :=
  let (sv, r) := simulate st p g (repeat C0 (n_samples p)) old in
  (sv, do _ <- r; do state <- measure sv node; score state).
(* OpticalNotGate, lines 33-41: get_output_node comes first *)
Definition evaluate_output {X} (score : list C -> res X) (st : store) (p : grid) (g : graph) (old : saves (list C)) : saves (list C) * res X :=
  match get_output_node g with
  | None => (old, Err IndexError)
  | Some n => evaluate score st p g (PNode n) old
  end.
(* RadioFrequencyWaveformGeneration, lines 55-60: what an earlier simulation saved *)
Definition evaluate_saved {X} (score : list C -> res X) (node : place) (old : saves (list C)) : res X :=
  do state <- measure old node; score state.
(* lib/graph.py:125-129, without the distribution of the parameters: the function that
   the optimisers call simulates the graph and then calls the evaluator *)
Definition evaluate_wrapped {X} (evaluator : saves (list C) -> saves (list C) * res X) (st : store) (p : grid) (g : graph) (old : saves (list C)) : saves (list C) * res X :=
  let (sv, r) := simulate st p g (repeat C0 (n_samples p)) old in
  match r with Err e => (sv, Err e) | Ok _ => evaluator sv end.
(* DiscreteTimeLens, lines 23-50: the field of the first edge is the input; (0, 1, 0) is
   the edge from node 0 to node 1 with key 0 *)
Definition evaluate_lens (st : store) (p : grid) (g : graph) (first node : place) (old : saves (list C)) : saves (list C) * res (option R) :=
  let (sv, r) := simulate st p g (repeat C0 (n_samples p)) old in
  (sv, do _ <- r; do input <- measure sv first; do state <- measure sv node; lens_score p input state).
