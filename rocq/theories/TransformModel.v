(** Recording what the components do: Graph.propagate with save_transforms, and the
    attribute transform of the components.  Definitions only.
    /repo/lib/graph.py:291-326, /repo/lib/base_classes.py:33 and
    /repo/simulator/fiber/node_types_subclasses/single_path.py.
    Noise is off, real numbers instead of floating point numbers, as in OpticsModel.v.
    The text label of each recorded curve is left out. *)
From Coq Require Import Reals List Arith Bool.
From Verif Require Import Base GraphModel ParamsModel PropagateModel Complex ArrayModel ComponentModel DetectorModel MoreComponentsModel OpticsModel.
Import ListNotations.
Local Open Scope R_scope.

(* 't' and 'f' *)
Inductive axis := InTime | InFrequency.
(* the tuple held by the attribute transform: curves over the time or the frequency grid *)
Definition transform := list (axis * list R).
(* what a call of propagate does to the attribute *)
Inductive effect := Untouched | Stored (t : option transform).
Definition apply_effect (f : effect) (t : option transform) : option transform := match f with Untouched => t | Stored t' => t' end.

(* np.log10 *)
Definition log10 (x : R) : R := ln x / ln 10.

(* numpy argmin: the first index with the least value; an empty array is a ValueError *)
Fixpoint argmin_from (best : R) (at_best i : nat) (l : list R) : nat :=
  match l with
  | [] => at_best
  | x :: r => if Rlt_dec x best then argmin_from x i (S i) r else argmin_from best at_best (S i) r
  end.
Definition argmin (l : list R) : res nat := match l with [] => Err ValueError | x :: r => Ok (argmin_from x 0 1 r) end.
(* (np.abs(propagator.t - (-delay))).argmin(): single_path.py:386, 776, 834 *)
Definition delay_index (p : grid) (delay : R) : res nat := argmin (map (fun t => Rabs (t - - delay)) (grid_t p)).
(* transform[i] = v *)
Fixpoint put (i : nat) (v : R) (l : list R) : list R :=
  match l, i with
  | [], _ => []
  | _ :: r, O => v :: r
  | x :: r, S j => x :: put j v r
  end.
(* single_path.py:385-386: one entry per delay, in order *)
Fixpoint put_ratios (p : grid) (k : nat) (ratios : list R) (l : list R) : res (list R) :=
  match ratios with
  | [] => Ok l
  | ratio :: r => do i <- delay_index p (stage_delay k); put_ratios p (S k) r (put i ratio l)
  end.

(* the save_transforms branches of single_path.py, lines cited at each class.  The names
   D_lambda (line 73) and delay (line 921) are not defined there *)
Definition recording (save : bool) (c : cls) (ps : list pval) (p : grid) (state : list C) : res effect :=
  match c with
  | DispersiveFiber (* 72-75 *) => if save then Err NameError else Ok (Stored None)
  | VariableOpticalAttenuator (* 111-114 *) => Ok (Stored None)
  | PhaseModulator (* 178-183 *) =>
      if save then
        do depth <- real_at ps 0; do fr <- real_at ps 1; do shift <- real_at ps 2;
        do angles <- broadcast (fun t n => 2 * PI * fr * t + shift + n) (grid_t p) (repeat 0 (n_samples p));
        Ok (Stored (Some [(InTime, map (fun a => depth * cos a) angles)]))
      else Ok (Stored None)
  | IntensityModulator (* 233-236 *) =>
      if save then
        do depth <- real_at ps 0; do fr <- real_at ps 1; do bias <- real_at ps 2;
        let transform := map (fun t => depth * cos (2 * PI * fr * t) + bias) (grid_t p) in
        let half := map (fun _ => RtoC (1 / 2)) state in
        do s <- broadcast Cmul half (map cis transform);
        do s <- broadcast Cadd half s;
        Ok (Stored (Some [(InTime, power_ s)]))
      else Ok (Stored None)
  | WaveShaper (* 316-319 *) =>
      if save then
        do amplitudes <- reals (firstn 15 ps); do phases <- reals (skipn 15 ps);
        let n := bin_samples p in
        Ok (Stored (Some [(InFrequency, fit_mask extinction_ratio (n_samples p) (bins n amplitudes));
                          (InFrequency, fit_mask extinction_ratio (n_samples p) (bins n phases))]))
      else Ok (Stored None)
  | IntegratedSplitAndDelayLine (* 383-389 *) =>
      if save then
        do ratios <- reals ps; do l <- put_ratios p 0 (firstn 8 ratios) (map (fun _ => 0) (grid_t p)); Ok (Stored (Some [(InTime, l)]))
      else Ok (Stored None)
  | OpticalAmplifier (* 465-466: nothing is done otherwise *) =>
      if save then
        do a <- amplifier_of ps;
        Ok (Stored (Some [(InFrequency, map (fun x => 10 * log10 x) (ifft_shift_ (map sqrt (amplifier_gain a p state))))]))
      else Ok Untouched
  | ProgrammableFilter (* 668-671 *) =>
      if save then
        do amplitudes <- reals (firstn 10 ps); do phases <- reals (skipn 10 ps);
        let band := map (fun f => if Rle_dec (Rabs f) (band_width / 2) then 1 else 0) (grid_f p) in
        do amplitude_mask <- broadcast Rmult (map (fun t => get_waveform t amplitudes) (band_positions p)) band;
        do phase_mask <- broadcast Rmult (map (fun t => get_waveform t phases) (band_positions p)) band;
        Ok (Stored (Some [(InFrequency, amplitude_mask); (InFrequency, phase_mask)]))
      else Ok (Stored None)
  | SquareFilter (* 714-717 *) =>
      if save then
        do bandwidth <- real_at ps 0;
        Ok (Stored (Some [(InFrequency, map (fun f => logistic ((f + bandwidth / 2) * (60 / bandwidth)) * logistic ((- f + bandwidth / 2) * (60 / bandwidth))) (grid_f p))]))
      else Ok (Stored None)
  | DelayLine (* 774-779 *) =>
      if save then do d <- real_at ps 0; do i <- delay_index p d; Ok (Stored (Some [(InTime, put i 1 (map (fun _ => 0) (grid_t p)))]))
      else Ok (Stored None)
  | IntegratedDelayLine (* 832-837 *) =>
      if save then do d <- real_at ps 0; do i <- delay_index p (d * ten_to (-12)); Ok (Stored (Some [(InTime, put i 1 (map (fun _ => 0) (grid_t p)))]))
      else Ok (Stored None)
  | PhaseShifter (* 919-924 *) => if save then Err NameError else Ok (Stored None)
  | _ => Ok Untouched
  end.

(* propagate of an edge component.  The fibre fails before its field is computed.  For the
   other classes the order of the field and the recording does not matter here: it only
   shows in the attribute after an exception, which is left unchanged here *)
Definition recorded_component (save : bool) (c : cls) (ps : list pval) (p : grid) (state : list C) : res (list C * effect) :=
  do _ <- match c with DispersiveFiber => if save then do _ <- real_at ps 0; Err NameError else Ok tt | _ => Ok tt end;
  do y <- component c ps p state; do f <- recording save c ps p state; Ok (y, f).

(* the attribute transform of every component, by its identity; None at construction *)
Definition transforms := nat -> option transform.
Definition no_transforms : transforms := fun _ => None.
Definition set_transform (T : transforms) (i : nat) (f : effect) : transforms := fun j => if Nat.eqb j i then apply_effect f (T j) else T j.

(* multi_path.py and terminals.py take save_transforms and ignore it *)
Definition recording_optics (save : bool) (st : store) (p : grid) : behaviour (list C) transforms :=
  mkBeh (fun c states nin nout T => (T, do ps <- get_params st (cid c); connector (ccls c) ps p states nin nout))
        (fun c state T =>
           match (do ps <- get_params st (cid c); recorded_component save (ccls c) ps p state) with
           | Err e => (T, Err e)
           | Ok (y, f) => (set_transform T (cid c) f, Ok y)
           end).

(* graph.propagate(propagator, save_transforms=save): lib/graph.py:291-326 *)
Definition simulate_recording (save : bool) (st : store) (p : grid) (g : graph) (src : list C) (T : transforms) (old : saves (list C)) : transforms * saves (list C) * res unit :=
  propagate (recording_optics save st p) g src T old.
