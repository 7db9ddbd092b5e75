(** What C76 means.  Definitions only, independent of the models of the components. *)
From Coq Require Import Reals List Arith.
From Verif Require Import Base GraphModel GraphSpec Complex DetectorSpec.
Import ListNotations.
Local Open Scope R_scope.

(* what is drawn for source k of component i: complex and real numbers, one per sample *)
Definition fitted (samples : nat) (draws : nat -> nat -> list C * list R) : Prop :=
  forall i k, length (fst (draws i k)) = samples /\ length (snd (draws i k)) = samples.
(* no draw is zero everywhere *)
Definition lively (draws : nat -> nat -> list C * list R) : Prop := forall i k, alive (fst (draws i k)).
(* no frequency of the grid is further below the carrier than zero *)
Definition optical (samples : nat) (window wl : R) : Prop := 0 < wl /\ INR samples / window / 2 <= 299792458 / wl.
(* a laser: what comes out carries the phase noise of a linewidth *)
Definition is_laser (c : cls) : Prop := c = ContinuousWaveLaser \/ c = PulsedLaser.
(* connection e lies behind connection a: it is a, or leaves a node that a leads to *)
Definition behind (g : graph) (a e : edge) : Prop := In a (g_edges g) /\ In e (g_edges g) /\ (e = a \/ path g (e_dst a) (e_src e)).
(* components whose output is made noisy *)
Definition has_noise (c : cls) : Prop := c = PulsedLaser \/ c = ContinuousWaveLaser \/ c = NoisySignal \/ c = OpticalAmplifier \/ c = Photodiode.
