(** The filters of /repo/simulator/fiber/assets/filter.py and the photodiode of
    /repo/simulator/fiber/node_types_subclasses/outputs.py.  Definitions only.
    Real numbers instead of floating point numbers, as in ArrayModel.v. *)
From Coq Require Import Reals List Arith ZArith.
From Verif Require Import Base Complex ArrayModel ComponentModel.
Import ListNotations.
Local Open Scope R_scope.

(** ** filter.py *)

(* _butterworth_polynomial, line 172: the k-th quadratic factor *)
Definition butterworth_factor (s : C) (n k : nat) : C :=
  Cadd (Csub (Cmul s s) (Cmul (Cmul (RtoC 2) s) (RtoC (cos ((2 * INR k + INR n - 1) / (2 * INR n) * PI))))) C1.
(* lines 165-174, for one entry of the array s and an order that is not negative *)
Definition butterworth_product (s : C) (n : nat) : C :=
  let product := if Nat.odd n then Cadd s C1 else C1 in
  let max_num := if Nat.odd n then ((n - 1) / 2)%nat else (n / 2)%nat in
  fold_left (fun product k => Cmul product (butterworth_factor s n k)) (seq 1 max_num) product.
(* _butterworth_polynomial, lines 160-174 *)
Definition butterworth_polynomial (s : list C) (n : Z) : res (list C) :=
  if (n <? 0)%Z then Err ValueError else Ok (map (fun s => butterworth_product s (Z.to_nat n)) s).
(* _butterworth_lowpass, lines 156-158.  Order 0: the polynomial is the number 1
   and np.fft.ifftshift of a number over axis 0 is an IndexError.  A transition
   frequency of zero divides by zero (nan in the code); no theorem covers it. *)
Definition butterworth_lowpass (p : grid) (transition_f dc_gain : R) (order : Z) : res (list C) :=
  do b <- butterworth_polynomial (map (fun f => Cmul Ci (RtoC (f / transition_f))) (grid_f p)) order;
  if (order =? 0)%Z then Err IndexError else Ok (ifft_shift_ (map (fun b => Cdiv (RtoC dc_gain) b) b)).
(* _exp_of_square, lines 130-138 *)
Definition exp_of_square (p : grid) (central_wl FWHM : R) : list C :=
  let delta_f := speed_of_light * (1 / (central_wl - FWHM / 2) - 1 / (central_wl + FWHM / 2)) in
  let beta := delta_f ^ 2 / 4 / ln 2 in
  let central_freq := speed_of_light / central_wl in
  let f := ifft_shift_ (map (fun f => f + central_frequency p - central_freq) (grid_f p)) in
  map (fun f => RtoC (exp (- 1 * f ^ 2 / beta))) f.

(* the name of a shape with its parameters *)
Inductive filter_shape :=
| ExponentialOfSquare (central_wl FWHM : R) | ButterworthLowpass (transition_f dc_gain : R) (order : Z)
| Gaussian | Longpass | Shortpass | Bandpass | UnknownShape.
(* get_filter, lines 113-128, and lines 140-154 *)
Definition get_filter (p : grid) (shape : filter_shape) : res (list C) :=
  match shape with
  | ExponentialOfSquare central_wl FWHM => Ok (exp_of_square p central_wl FWHM)
  | ButterworthLowpass transition_f dc_gain order => butterworth_lowpass p transition_f dc_gain order
  | Gaussian | Longpass | Shortpass | Bandpass | UnknownShape => Err ValueError
  end.
(* get_filtered_time_static, lines 107-111 *)
Definition filtered_time_static (p : grid) (shape : filter_shape) (state : list C) : res (list C) :=
  do state_rf <- fft_ state (grid_dt p); do m <- get_filter p shape; do output <- broadcast Cmul state_rf m; ifft_ output (grid_dt p).

(* A filter object, lines 35-38: its shape, the propagator it was last used
   with (the object, here a number) and the mask, if it was made.  The grid of
   a propagator can be changed in place (propagator.py lines 42-46), so a call
   gets the object and its present grid. *)
Record filter_object := mkFilter { f_shape : filter_shape; f_propagator : option nat; f_mask : option (list C) }.
Definition new_filter (shape : filter_shape) : filter_object := mkFilter shape None None.
(* get_filtered_freq, lines 40-50, with the setter (lines 91-94) and the
   property filter (lines 96-101) *)
Definition refreshed (o : filter_object) (id : nat) : filter_object :=
  match f_propagator o with
  | Some i => if Nat.eqb i id then o else mkFilter (f_shape o) (Some id) None
  | None => mkFilter (f_shape o) (Some id) None
  end.
Definition filtered_freq (o : filter_object) (id : nat) (p : grid) (state_rf : list C) : filter_object * res (list C) :=
  let o := refreshed o id in
  match f_mask o with
  | Some m => (o, broadcast Cmul state_rf m)
  | None => match get_filter p (f_shape o) with
            | Ok m => (mkFilter (f_shape o) (f_propagator o) (Some m), broadcast Cmul state_rf m)
            | Err e => (o, Err e)
            end
  end.
(* get_filtered_time, lines 52-55 *)
Definition filtered_time (o : filter_object) (id : nat) (p : grid) (state : list C) : filter_object * res (list C) :=
  match fft_ state (grid_dt p) with
  | Err e => (o, Err e)
  | Ok state_rf => let '(o, r) := filtered_freq o id p state_rf in (o, do output <- r; ifft_ output (grid_dt p))
  end.

(* a sequence of calls of one filter object with the propagators [grids] *)
Fixpoint filter_calls (grids : nat -> grid) (o : filter_object) (calls : list (nat * list C)) : list (res (list C)) :=
  match calls with
  | [] => []
  | (id, x) :: r => let '(o, v) := filtered_time o id (grids id) x in v :: filter_calls grids o r
  end.

(** ** outputs.py: Photodiode *)
Record photodiode := mkPhotodiode { responsivity : R; bandwidth : R; filter_order : Z; max_photocurrent : R; load_resistance : R }.
(* line 115 *)
Definition photodiode_filter (d : photodiode) : filter_shape := ButterworthLowpass (bandwidth d) 1 (filter_order d).
(* the parameters with which a photodiode is used: positive (lines 99-100) *)
Definition sound_photodiode (d : photodiode) : Prop := 0 < responsivity d /\ 0 < max_photocurrent d /\ 0 < load_resistance d /\ (0 < filter_order d)%Z.
(* propagate, lines 118-126, with a fresh filter *)
Definition photodiode_voltage (d : photodiode) (p : grid) (state : list C) : res (list C) :=
  let voltage := map (fun P => photocurrent (responsivity d) (max_photocurrent d) P * load_resistance d) (power_ state) in
  snd (filtered_time (new_filter (photodiode_filter d)) 0 p (map RtoC voltage)).
(* lines 109-110: the default parameters *)
Definition default_photodiode : photodiode := mkPhotodiode (1 / 2) (100 * 10 ^ 9) 2 (3 / 1000) 50.
