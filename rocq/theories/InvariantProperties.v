(** C98: frequency components do not know the time, time components do not mix samples.
    [advanced] is in ComponentSpec.v, the two groups are in CommuteSpec.v. *)
From Coq Require Import Reals Qreals List Arith Bool Lia Lra ZArith QArith.
From Verif Require Import Base GraphModel ParamsModel Complex ArrayModel ComponentModel ComponentSpec ComponentProofs GridProofs ButterworthProofs OpticsModel OpticsSpec CommuteSpec CommuteProofs CommuteProperties InvariantProofs.
Import ListNotations.
Local Open Scope nat_scope.

(* a field moved in time, around the ends of the window, comes out moved by as much *)
Theorem C98_frequency : forall c ps p m x y z, by_frequency c -> usable (n_samples p) (window_t p) -> length x = n_samples p -> component c ps p x = Ok y -> advanced m x z ->
  exists w, component c ps p z = Ok w /\ advanced m y w.
Proof. intros c ps p m x y z H U L E A. exact (spectral_invariant p _ m x y z U (component_spectral p U c ps H) L E A). Qed.
Print Assumptions C98_frequency.

(* a field that repeats every m samples comes out repeating every m samples, along any line of such components *)
Theorem C98_periodic : forall l p m x y, Forall (fun k => by_frequency (fst k)) l -> usable (n_samples p) (window_t p) -> length x = n_samples p -> line p l x = Ok y -> advanced m x x -> advanced m y y.
Proof.
  induction l as [|[c ps] l IH]; intros p m x y H U L E A; unfold line in E; cbn [map chain fst snd] in E; [injection E as <-; exact A|]. inversion_clear H as [|? ? Hc Hl]. cbn [fst] in Hc. apply then_ok in E. destruct E as (s & Es & E).
  pose proof (spectral_length p U _ (component_spectral p U c ps Hc) x s L Es) as Ls. apply (IH p m s y Hl U Ls E). destruct (C98_frequency c ps p m x s x Hc U L Es A) as (w & Ew & Aw). rewrite Es in Ew. injection Ew as <-. exact Aw.
Qed.
Print Assumptions C98_periodic.
(* a fibre and a delay line on a field of period two *)
Example C98_periodic_case : forall a b, exists y, line (mkGrid 4 1 1) [(DispersiveFiber, [Num 7]); (DelayLine, [Num 3])] [a; b; a; b] = Ok y /\ nth 0 y C0 = nth 2 y C0 /\ nth 1 y C0 = nth 3 y C0.
Proof.
  intros a b. assert (U : usable (n_samples (mkGrid 4 1 1)) (window_t (mkGrid 4 1 1))) by (split; [cbn; lia|cbn; lra]).
  destruct (fiber_energy (Q2R 7) (mkGrid 4 1 1) [a; b; a; b] U eq_refl) as (s & Es & Ls & _). destruct (delay_energy (Q2R 3) (mkGrid 4 1 1) s U) as (y & Ey & Ly & _); [rewrite Ls; reflexivity|].
  assert (E : line (mkGrid 4 1 1) [(DispersiveFiber, [Num 7]); (DelayLine, [Num 3])] [a; b; a; b] = Ok y).
  { unfold line. cbn [map fst snd chain]. apply then_ok. exists s. split; [exact Es|]. apply then_ok. exists y. split; [exact Ey|reflexivity]. }
  exists y. split; [exact E|]. destruct (C98_periodic [(DispersiveFiber, [Num 7]); (DelayLine, [Num 3])] (mkGrid 4 1 1) 2 [a; b; a; b] y ltac:(repeat constructor; unfold by_frequency; cbn [In fst]; tauto) U eq_refl E) as (_ & A).
  { split; [reflexivity|]. intros j Hj. cbn [length] in Hj. destruct j as [|[|[|[|j]]]]; [reflexivity..|lia]. }
  rewrite Ly, Ls in A. cbn [length] in A. split; [apply (A 0); lia|apply (A 1); lia].
Qed.

(* two fields that agree in a sample come out agreeing in it; success does not depend on the field *)
Theorem C98_time : forall c ps p x x' y, by_time c -> length x = n_samples p -> length x' = n_samples p -> component c ps p x = Ok y ->
  exists y', component c ps p x' = Ok y' /\ length y' = length y /\ forall i, nth i x C0 = nth i x' C0 -> nth i y C0 = nth i y' C0.
Proof. intros c ps p x x' y H L L' E. exact (temporal_local p _ x x' y (component_temporal p c ps H) L L' E). Qed.
Print Assumptions C98_time.

(* a fibre, and a field moved by two samples *)
Example C98_case : forall a b c d e, exists y w, component DispersiveFiber [Num 7] (mkGrid 5 1 1) [a; b; c; d; e] = Ok y /\
  component DispersiveFiber [Num 7] (mkGrid 5 1 1) [c; d; e; a; b] = Ok w /\ advanced 2 y w.
Proof.
  intros a b c d e. assert (U : usable (n_samples (mkGrid 5 1 1)) (window_t (mkGrid 5 1 1))) by (split; [cbn; lia|cbn; lra]).
  destruct (fiber_energy (Q2R 7) (mkGrid 5 1 1) [a; b; c; d; e] U eq_refl) as (y & E & _). exists y.
  destruct (C98_frequency DispersiveFiber [Num 7] (mkGrid 5 1 1) 2 [a; b; c; d; e] y [c; d; e; a; b]) as (w & Ew & A); [left; reflexivity|exact U|reflexivity|exact E| |exists w; split; [exact E|split; assumption]].
  split; [reflexivity|]. intros j Hj. cbn [length] in Hj. destruct j as [|[|[|[|[|j]]]]]; [reflexivity..|lia].
Qed.

Local Open Scope R_scope.
(* a phase modulator with values within its bounds notices when the field comes *)
Theorem C98_time_moved_refuted : exists c ps p m x y z w, by_time c /\ allowed c ps /\ usable (n_samples p) (window_t p) /\ length x = n_samples p /\
  component c ps p x = Ok y /\ advanced m x z /\ component c ps p z = Ok w /\ ~ advanced m y w.
Proof.
  exists PhaseModulator, modulator_values, pair_grid, 1%nat, [C1; C0]. eexists. exists [C0; C1]. eexists. split; [left; reflexivity|]. split; [exact modulator_allowed|]. split; [exact pair_usable|]. split; [reflexivity|].
  split; [apply pair_modulator|]. split; [split; [reflexivity|]; intros [|[|j]] Hj; [reflexivity..|cbn in Hj; lia]|]. split; [apply pair_modulator|].
  intros (_ & H). specialize (H 1%nat ltac:(cbn; lia)). change (Cmul C1 (cis (- sin 1)) = Cmul C1 (cis (sin 1))) in H.
  assert (S : 0 < sin 1 < PI). { pose proof PI2_1. split; [apply sin_gt_0; lra|]. pose proof (SIN_bound 1). lra. }
  apply (cis_halves (sin 1) (sin 1) S S). transitivity (Cmul C1 (cis (sin 1))); [ring|]. rewrite <- H. ring.
Qed.
Print Assumptions C98_time_moved_refuted.

(* a delay line mixes samples *)
Theorem C98_frequency_local_refuted : exists c ps p x x' y y' i, by_frequency c /\ allowed c ps /\ usable (n_samples p) (window_t p) /\ length x = n_samples p /\ length x' = n_samples p /\
  component c ps p x = Ok y /\ component c ps p x' = Ok y' /\ nth i x C0 = nth i x' C0 /\ nth i y C0 <> nth i y' C0.
Proof.
  destruct pair_delay as (u & Hu & D). exists DelayLine, delay_values, pair_grid, [C1; C0], [C0; C0]. do 2 eexists. exists 1%nat. split; [right; left; reflexivity|]. split; [exact delay_allowed|]. split; [exact pair_usable|]. split; [reflexivity|]. split; [reflexivity|].
  split; [apply D|]. split; [apply D|]. split; [reflexivity|]. cbn [nth]. intros E. assert (Z : u = C0) by (transitivity (Cmul u C1); [ring|]; rewrite E; ring). rewrite Z in Hu. unfold Cnorm2, C0, re, im in Hu. cbn [fst snd] in Hu. lra.
Qed.
Print Assumptions C98_frequency_local_refuted.
