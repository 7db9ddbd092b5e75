(** Specification vocabulary for simulations with and without noise. *)
From Coq Require Import List Arith Bool.
From Verif Require Import Base GraphModel GraphSpec ParamsModel PropagateModel SimulateModel.
Import ListNotations.

Definition switch_of {S V R} (w : @process S V R) : bool := n_switch (p_noise w).
Definition models_of {S V R} (w : @process S V R) : list (nat * nmodel V) := n_models (p_noise w).
Definition rng_of {S V R} (w : @process S V R) : R := n_rng (p_noise w).

(* two numerical worlds that differ only in what is random: how vectors are drawn, what a seed
   does, how noise is added *)
Definition same_without_noise {S V R} (a b : physics S V R) : Prop :=
  transform a = transform b /\ modulate a = modulate b /\ no_phase a = no_phase b /\ mix a = mix b /\ band a = band b.

(* every phase modulator of the graph has its noise model (they are built with one) *)
Definition modulators_ready {S V R} (g : graph) (w : @process S V R) : Prop :=
  forall e, In e (g_edges g) -> ccls (e_model (e_dat e)) = PhaseModulator -> exists m, In (cid (e_model (e_dat e)), m) (models_of w).

(* calls after which a noisy simulation on propagator p must repeat: anything noise-free,
   simulations on p itself, the switch, and any other use of the random generator *)
Inductive quiet {S V R} (p : nat) : @action S V R -> Prop :=
| q_signal : forall src q, quiet p (ASignal p src q)
| q_pure : forall p' src q, quiet p (APure p' src q)
| q_noise : forall src q, quiet p (ANoise p src q)
| q_propagate : forall src, quiet p (APropagate p src)
| q_snr : forall src n, quiet p (ASnr p src n)
| q_switch : forall b, quiet p (ASwitch b)
| q_clear : quiet p AClear
| q_other : forall f, quiet p (AOther f).

(* every noise model is switched off by its own flag *)
Definition all_off {S V R} (w : @process S V R) : Prop := forall i m, In (i, m) (models_of w) -> nm_on m = false.

(* nothing is left to draw for runs on propagator p: every noise model that is used (switched on,
   or belonging to a phase modulator) has its vectors for p *)
Definition uses_noise {V} (c : comp) (m : nmodel V) : Prop := nm_on m = true \/ ccls c = PhaseModulator.
Definition calm {V R} (p : nat) (c : comp) (x : noise V R) : Prop :=
  forall m, assoc (cid c) (n_models x) = Some m -> uses_noise c m -> nm_prop m = Some p.
Definition settled {V R} (p : nat) (g : graph) (x : noise V R) : Prop := forall e, In e (g_edges g) -> calm p (e_model (e_dat e)) x.
