(** The noise vectors and their addition to a signal.  Definitions only.
    /repo/simulator/fiber/assets/additive_noise.py.
    The values of np.random.normal are arguments.  When the vectors are drawn,
    kept and drawn again is the subject of SimulateModel.v; here is what is
    computed from them.  Real numbers instead of floating point numbers: where
    the code divides by a mean power of zero (a draw or a signal that is zero
    everywhere) the result is nan, and the theorems exclude the case. *)
From Coq Require Import Reals List Arith ZArith.
From Verif Require Import Base Complex ArrayModel ComponentModel DetectorModel.
Import ListNotations.
Local Open Scope R_scope.

(* noise_type with noise_param as given by the caller: lines 32, 41-45.  The
   parameter of 'edfa ASE' is the amplifier; here, the array that its
   get_ASE_filter returns (line 142). *)
Inductive noise_type := Osnr (dB : R) | AbsolutePower (watts : R) | EdfaASE (ase : list R) | Rms (rms : R) | Shot (slope intercept : R)
| Linewidth (fwhm : R) | PhaseFromLinewidth (fwhm : R).
(* an entry of noise_sources, lines 98-105; 'mean_noise_power' is the mean power of the
   vector (lines 90, 205) *)
Record noise_source := mkSource { ns_type : noise_type; ns_filter : option filter_shape; ns_vector : list C }.

(* lines 95-96 *)
Definition osnr_ratio (dB : R) : R := ten_to (dB / 10).

(* lines 231-233, 238-240.  [white] is the value of line 266.  With an odd
   number of samples one frequency is zero and the code divides by it; the
   transform then is nan everywhere: None *)
Definition linewidth_phase (p : grid) (fwhm : R) (white : list R) : res (option (list R)) :=
  if existsb (fun f => if Req_EM_T f 0 then true else false) (grid_f p) then Ok None else
  let expected := map (fun f => sqrt (fwhm / PI / 2) / f * sqrt (grid_dt p)) (ifft_shift_ (map Rabs (grid_f p))) in
  do freq_noise <- fft (map RtoC white);
  do phase_noise <- broadcast Cmul (map RtoC expected) freq_noise;
  do s <- ifft_ phase_noise (grid_dt p);
  Ok (Some (map re s)).

(* _get_noise_vector, lines 207-242; [draw] is the value of line 217 *)
Definition noise_vector (p : grid) (filter : option filter_shape) (t : noise_type) (draw : list C) (white : list R) : res (option (list C)) :=
  do noise <- match filter with None => Ok draw | Some shape => filtered_time_static p shape draw end;
  match t with
  | AbsolutePower watts => Ok (Some (scale (sqrt (watts / mean_power noise)) noise))
  | Rms rms => Ok (Some (scale (rms / sqrt (mean_power noise)) noise))
  | Linewidth fwhm =>
      if Req_EM_T fwhm 0 then Ok (Some (repeat C1 (n_samples p))) else
      do phase <- linewidth_phase p fwhm white;
      Ok (option_map (map (fun a => cis a)) phase)
  | PhaseFromLinewidth fwhm =>
      if Req_EM_T fwhm 0 then Ok (Some (repeat C0 (n_samples p))) else
      do phase <- linewidth_phase p fwhm white;
      Ok (option_map (map RtoC) phase)
  | Osnr _ | EdfaASE _ | Shot _ _ => Ok (Some noise)
  end.

(* np.mean(np.abs(x)) *)
Definition mean_abs (x : list C) : R := fold_right Rplus 0 (map (fun z => sqrt (Cnorm2 z)) x) / INR (length x).
(* line 136 *)
Definition shot_bandwidth (p : grid) (filter : option filter_shape) : res R :=
  match filter with
  | None => Ok (INR (n_samples p) * grid_df p)
  | Some shape => do m <- get_filter p shape; Ok (fold_right Rplus 0 (map (fun z => sqrt (Cnorm2 z)) m) * grid_df p)
  end.
(* one turn of the loop, lines 125-150; [mean] is mean_signal_power of line 123 *)
Definition add_source (p : grid) (mean : R) (s : noise_source) (acc : list C * list C) : res (list C * list C) :=
  let '(signal, total) := acc in
  match ns_type s with
  | Osnr dB => do total <- broadcast Cadd total (scale (sqrt (mean / mean_power (ns_vector s) / osnr_ratio dB)) (ns_vector s)); Ok (signal, total)
  | AbsolutePower _ | Rms _ => do total <- broadcast Cadd total (ns_vector s); Ok (signal, total)
  | Shot slope intercept =>
      do b <- shot_bandwidth p (ns_filter s);
      do total <- broadcast Cadd total (scale (sqrt ((slope * mean_abs signal + intercept) * b / mean_power (ns_vector s))) (ns_vector s));
      Ok (signal, total)
  | EdfaASE ase =>
      do v <- broadcast Cmul (scale (/ sqrt 2) (ns_vector s)) (map (fun a => RtoC (a * sqrt (grid_dt p / grid_df p))) ase);
      do v <- ifft_ v (grid_dt p);
      do total <- broadcast Cadd total v; Ok (signal, total)
  | Linewidth _ => do signal <- broadcast Cmul signal (ns_vector s); Ok (signal, total)
  | PhaseFromLinewidth _ => Ok (signal, total)
  end.
Fixpoint add_sources (p : grid) (mean : R) (ss : list noise_source) (acc : list C * list C) : res (list C * list C) :=
  match ss with [] => Ok acc | s :: r => do acc <- add_source p mean s acc; add_sources p mean r acc end.
(* add_noise_to_propagation with the noise on, lines 122-154 *)
Definition noisy (p : grid) (ss : list noise_source) (signal : list C) : res (list C) :=
  do acc <- add_sources p (mean_power signal) ss (signal, map (fun _ => C0) signal);
  broadcast Cadd (fst acc) (snd acc).

(* get_OSNR, lines 244-257 *)
Definition log10 (x : R) : R := ln x / ln 10.
Definition get_OSNR (signal noise : list C) (in_dB : bool) : R :=
  let osnr := mean_power signal / mean_power noise in if in_dB then 10 * log10 osnr else osnr.
(* dBc_per_Hz_to_rad2_per_Hz, lines 305-307 *)
Definition dBc_to_rad2 (x : R) : R := 2 * ten_to (x / 10).

(** The noise models of the components. *)
(* ContinuousWaveLaser.update_noise_model, inputs.py lines 115-117 *)
Definition laser_sources (fwhm osnr_dB : R) (v w : list C) : list noise_source := [mkSource (Linewidth fwhm) None v; mkSource (Osnr osnr_dB) None w].
