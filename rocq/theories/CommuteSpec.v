(** What C97 means.  Definitions only. *)
From Coq Require Import List.
From Verif Require Import Base GraphModel.
Import ListNotations.

(* components that weight the frequencies of a field, and those that weight its samples in time;
   an attenuator and a waveguide do both *)
Definition by_frequency (c : cls) : Prop :=
  In c [DispersiveFiber; DelayLine; IntegratedDelayLine; PhaseShifter; SquareFilter; WaveShaper; ProgrammableFilter; VariableOpticalAttenuator; Waveguide].
Definition by_time (c : cls) : Prop := In c [PhaseModulator; IntensityModulator; VariableOpticalAttenuator; Waveguide].

(* first one, then the other *)
Definition then_ {A} (f g : A -> res A) (x : A) : res A := match f x with Ok y => g y | Err e => Err e end.

(* one after the other along a list *)
Fixpoint chain {A} (fs : list (A -> res A)) (x : A) : res A := match fs with [] => Ok x | f :: l => then_ f (chain l) x end.
