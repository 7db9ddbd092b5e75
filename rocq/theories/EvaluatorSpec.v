(** What C67 to C69 mean.  Definitions only, independent of the models of the
    evaluators. *)
From Coq Require Import Reals List Arith.
From Verif Require Import Base Complex ComponentSpec.
Import ListNotations.
Local Open Scope R_scope.

(* the field repeats every P samples, also around the ends *)
Definition repeats (P : nat) (x : list C) : Prop := advanced P x x.
(* every sample is a real number *)
Definition real_field (x : list C) : Prop := forall z, In z x -> im z = 0.
(* the absolute values of the samples *)
Definition magnitudes (x : list C) : list C := map (fun z => RtoC (sqrt (Cnorm2 z))) x.
(* the k-th Fourier component *)
Definition harmonic_at (x : list C) (k : nat) : C :=
  csum (length x) (fun j => Cmul (nth j x C0) (cis (- (2 * PI * INR j * INR k / INR (length x))))).
(* the number k of the first entry of the spectrum above a frequency, for a grid of n samples over a window *)
Definition entry_above (samples : nat) (window frequency : R) (k : nat) : Prop :=
  INR k - 1 <= frequency * (window * INR (samples - 1) / INR samples) < INR k.
(* the sum of the squared differences of the samples *)
Definition misfit (x y : list C) : R := rsum (length y) (fun i => Cnorm2 (Csub (nth i x C0) (nth i y C0))).

(* the standard waveforms, with values in [0, 1], as functions of the number of periods *)
Definition falling (x : R) : R := 1 - frac_part x.
Definition rising (x : R) : R := frac_part x.
Definition triangle (x : R) : R := 1 - Rabs (2 * frac_part x - 1).
Definition gate (x : R) : R := if Rlt_dec (frac_part x) (/ 2) then 1 else 0.
(* a waveform of a frequency and an amplitude, sampled on the grid *)
Definition sampled (shape : R -> R) (frequency amplitude : R) (samples : nat) (window : R) (x : list C) : Prop :=
  length x = samples /\ forall i, (i < samples)%nat -> nth i x C0 = RtoC (amplitude * shape (frequency * (- window / 2 + INR i * (window / INR (samples - 1))))).

(* frequencies in bands of a width around the multiples of a spacing *)
Definition in_band (spacing width f : R) : Prop := exists z : Z, IZR z * spacing - width / 2 <= f < IZR z * spacing + width / 2.
(* frequency of entry i of a centred spectrum, and the entry of the transform that numpy puts there *)
Definition centred_frequency (samples : nat) (window : R) (i : nat) : R := (INR i - (INR samples - 1) / 2) * (INR samples / window / INR (samples - 1)).
Definition centred_entry (samples i : nat) : nat := (i + (samples - samples / 2)) mod samples.
(* every sample is zero *)
Definition dark (x : list C) : Prop := forall z, In z x -> z = C0.
(* the sum of the squared differences of the powers *)
Definition power_misfit (x y : list C) : R := rsum (length y) (fun i => (sample_power x i - sample_power y i) ^ 2).
