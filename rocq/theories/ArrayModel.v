(** NumPy arrays of one column as lists, and the Fourier transforms of the
    simulator.  Definitions only.
    /repo/simulator/fiber/assets/functions.py lines 10-62 and
    /repo/simulator/fiber/assets/propagator.py.
    Every field of the simulator is an array of shape (samples, 1); it is
    modelled by the list of its entries.  Floating point numbers are replaced
    by real numbers: rounding, overflow, nan and inf are not modelled. *)
From Coq Require Import Reals List Arith.
From Verif Require Import Base Complex.
Import ListNotations.
Local Open Scope R_scope.

(* a * b, a + b, ... on arrays of shape (n, 1) and (m, 1): equal lengths, or one
   of the lengths is one, otherwise numpy raises ValueError *)
Definition broadcast {A B D} (f : A -> B -> D) (a : list A) (b : list B) : res (list D) :=
  if Nat.eqb (length a) (length b) then Ok (map (fun p => f (fst p) (snd p)) (combine a b))
  else match a, b with
       | [x], _ => Ok (map (f x) b)
       | _, [y] => Ok (map (fun x => f x y) a)
       | _, _ => Err ValueError
       end.

(* a sequence from 0 to n - 1 *)
Definition tabulate {A} (n : nat) (f : nat -> A) : list A := map f (seq 0 n).

(* np.linspace(a, b, n): n points, both ends included *)
Definition linspace (a b : R) (n : nat) : list R := tabulate n (fun i => a + INR i * ((b - a) / INR (n - 1))).

(* np.fft.fft(x, axis=0); an empty array is a ValueError *)
Definition fft (x : list C) : res (list C) :=
  match x with
  | [] => Err ValueError
  | _ => Ok (tabulate (length x) (fun k => csum (length x) (fun j => Cmul (nth j x C0) (cis (- (2 * PI * INR j * INR k / INR (length x)))))))
  end.

(* np.fft.ifft(x, axis=0) *)
Definition ifft (x : list C) : res (list C) :=
  match x with
  | [] => Err ValueError
  | _ => Ok (tabulate (length x) (fun j => Cmul (RtoC (/ INR (length x))) (csum (length x) (fun k => Cmul (nth k x C0) (cis (2 * PI * INR j * INR k / INR (length x)))))))
  end.

Definition scale (c : R) (x : list C) : list C := map (Cmul (RtoC c)) x.

(* functions.py 22-25, 39-42 *)
Definition fft_ (x : list C) (dt : R) : res (list C) := do y <- fft x; Ok (scale dt y).
Definition ifft_ (x : list C) (dt : R) : res (list C) := do y <- ifft x; Ok (scale (/ dt) y).

(* np.fft.ifftshift(x, axes=0): functions.py 28-31 *)
Definition ifft_shift_ {A} (x : list A) : list A := skipn (length x / 2) x ++ firstn (length x / 2) x.

(* functions.py 10-13 *)
Definition power_ (x : list C) : list R := map Cnorm2 x.

(* 10.0 ** x *)
Definition ten_to (x : R) : R := Rpower 10 x.
(* functions.py 61-62 *)
Definition dB_to_amplitude_ratio (loss_dB : R) : R := ten_to (loss_dB / 20).

(* np.power(x, a) for real x >= 0 and a >= 0; the library's Rpower is not the
   power at zero *)
Definition real_power (x a : R) : R :=
  if Req_EM_T x 0 then (if Req_EM_T a 0 then 1 else 0) else Rpower x a.

(** propagator.py: the grid.  window_t > 0 and n_samples >= 2 in use; with one
    sample np.linspace returns nan as the step (dt then is an unspecified real
    here, and no theorem says anything about it). *)
Record grid := mkGrid { n_samples : nat; window_t : R; central_wl : R }.

Definition speed_of_light : R := 299792458.
(* lines 19, 63-69 *)
Definition central_frequency (p : grid) : R := speed_of_light / central_wl p.
(* lines 87-97 *)
Definition grid_t (p : grid) : list R := linspace (- window_t p / 2) (window_t p / 2) (n_samples p).
Definition grid_dt (p : grid) : R := (window_t p / 2 - - window_t p / 2) / INR (n_samples p - 1).
Definition grid_f (p : grid) : list R := linspace (- (INR (n_samples p) / window_t p / 2)) (INR (n_samples p) / window_t p / 2) (n_samples p).
Definition grid_df (p : grid) : R := (INR (n_samples p) / window_t p / 2 - - (INR (n_samples p) / window_t p / 2)) / INR (n_samples p - 1).
