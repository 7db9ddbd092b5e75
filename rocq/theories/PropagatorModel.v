(** The propagator as an object whose attributes are assigned: simulator/fiber/assets/propagator.py, and graphs simulated with it
    (lib/graph.py:291-326).  Definitions only.
    The window is a number (None would be a TypeError); real numbers instead of floating point numbers. *)
From Coq Require Import Reals List ZArith.
From Verif Require Import Base GraphModel ParamsModel PropagateModel Complex ArrayModel OpticsModel.
Import ListNotations.
Local Open Scope R_scope.

(* a value for n_samples: a whole number, or something else (None, a float, a text) *)
Inductive count := Whole (z : Z) | NotWhole.

(* the step of np.linspace is nan (None) for less than two samples; a wavelength is inf (None) where its frequency is zero *)
Record propagator := mkPropagator {
  pr_count : count; pr_window : R; pr_central_wl : R; pr_central_frequency : R;
  pr_t : list R; pr_f : list R; pr_dt : option R; pr_df : option R;
  pr_wl : list (option R); pr_state : list C }.

(* lines 87-97: np.linspace refuses what is no whole number and negative ones, before anything is divided by the window *)
Definition arrays (n : count) (window : R) : res (list R * list R * option R * option R) :=
  match n with
  | NotWhole => Err TypeError
  | Whole z =>
      if (z <? 0)%Z then Err ValueError
      else if Req_EM_T window 0 then Err ZeroDivisionError
      else
        let k := Z.to_nat z in
        let edge := INR k / window / 2 in
        let step a b := if (z <=? 1)%Z then None else Some ((b - a) / INR (k - 1)) in
        Ok (linspace (- window / 2) (window / 2) k, linspace (- edge) edge k, step (- window / 2) (window / 2), step (- edge) edge)
  end.

(* lines 14-25 *)
Definition new_propagator (n : count) (window central_wl : R) : res propagator :=
  if Req_EM_T central_wl 0 then Err ZeroDivisionError
  else
    let fc := speed_of_light / central_wl in
    do a <- arrays n window;
    let '(t, f, dt, df) := a in
    Ok (mkPropagator n window central_wl fc t f dt df (map (fun x => if Req_EM_T (fc + x) 0 then None else Some (speed_of_light / (fc + x))) f) (map (fun _ => C0) t)).

(* assignments: to n_samples (lines 42-46), to window_t (lines 52-58; type(x) is never one of the texts 'float', 'int'), to state (lines 31-36;
   None is anything but an array), to a property without a setter *)
Inductive assignment := SetSamples (n : count) | SetWindow (w : R) | SetState (x : option (list C)) | SetReadOnly.
Definition assign (p : propagator) (a : assignment) : propagator * res unit :=
  match a with
  | SetSamples n =>
      let p1 := mkPropagator n (pr_window p) (pr_central_wl p) (pr_central_frequency p) (pr_t p) (pr_f p) (pr_dt p) (pr_df p) (pr_wl p) (pr_state p) in
      match arrays n (pr_window p) with
      | Err e => (p1, Err e)
      | Ok (t, f, dt, df) => (mkPropagator n (pr_window p) (pr_central_wl p) (pr_central_frequency p) t f dt df (pr_wl p) (pr_state p), Ok tt)
      end
  | SetWindow _ => (p, Err ValueError)
  | SetState None => (p, Err TypeError)
  | SetState (Some x) => (mkPropagator (pr_count p) (pr_window p) (pr_central_wl p) (pr_central_frequency p) (pr_t p) (pr_f p) (pr_dt p) (pr_df p) (pr_wl p) x, Ok tt)
  | SetReadOnly => (p, Err AttributeError)
  end.
(* several assignments, whose exceptions are caught *)
Definition assign_all (p : propagator) (l : list assignment) : propagator := fold_left (fun p a => fst (assign p a)) l p.

(* lib/graph.py:291-326 with a propagator whose arrays belong to its n_samples, without noise; the filters of photodiodes are made
   for each simulation (see DetectorModel for one that is kept) *)
Definition seen_grid (p : propagator) : grid := mkGrid (match pr_count p with Whole z => Z.to_nat z | NotWhole => 0%nat end) (pr_window p) (pr_central_wl p).
Definition simulate_with (st : store) (p : propagator) (g : graph) (old : saves (list C)) : saves (list C) * res unit :=
  simulate st (seen_grid p) g (pr_state p) old.
