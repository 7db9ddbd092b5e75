(** What the attributes of a propagator should be, and which components look at the grid.  Definitions only. *)
From Coq Require Import Reals List ZArith.
From Verif Require Import Base GraphModel GraphSpec OperatorsModel Complex ArrayModel PropagatorModel.
Import ListNotations.

(* a number of samples that can be used: from zero on *)
Definition proper (n : count) : Prop := exists k, n = Whole (Z.of_nat k).
Definition sets_samples (a : assignment) : Prop := exists n, a = SetSamples n.
Definition sets_proper (a : assignment) : Prop := exists n, a = SetSamples n /\ proper n.
Definition sets_state (a : assignment) : Prop := exists x, a = SetState (Some x).

(* [a] is the last of the assignments of a kind *)
Definition last_of (P : assignment -> Prop) (l : list assignment) (a : assignment) : Prop :=
  exists before after, l = before ++ a :: after /\ P a /\ forall b, In b after -> ~ P b.
Definition none_of (P : assignment -> Prop) (l : list assignment) : Prop := forall a, In a l -> ~ P a.

(* the time and frequency arrays and their steps are those of k samples in the window *)
Definition shows (p : propagator) (k : nat) : Prop :=
  let g := mkGrid k (pr_window p) (pr_central_wl p) in
  pr_t p = grid_t g /\ pr_f p = grid_f g /\
  (2 <= k -> pr_dt p = Some (grid_dt g) /\ pr_df p = Some (grid_df g)) /\ (k < 2 -> pr_dt p = None /\ pr_df p = None).

(* components that combine the signal with one number for each time or frequency of the grid.  The mask of the wave shaper has another
   length, and the components that are not registered are left out *)
Definition on_grid (c : cls) : Prop :=
  In c [DispersiveFiber; PhaseModulator; IntensityModulator; OpticalAmplifier; ProgrammableFilter; SquareFilter; DelayLine; IntegratedDelayLine; Photodiode].
(* sources that take the number of their samples from the state, and those that take it from the grid *)
Definition copies_state (c : cls) : Prop := c = ContinuousWaveLaser \/ c = Impulse.
Definition makes_samples (c : cls) : Prop := c = PulsedLaser \/ c = NoisySignal.
Definition fed_by (P : cls -> Prop) (g : graph) : Prop := forall e, In e (g_edges g) -> no_input g (e_src e) -> P (ccls (e_model (e_dat e))).
(* every start leads somewhere *)
Definition connected_starts (g : graph) : Prop := forall n, no_input g n -> ~ no_output g n.
