(** C97: the order of two components of one kind does not matter. *)
From Coq Require Import Reals Qreals List Permutation Arith Bool Lia Lra ZArith QArith.
From Verif Require Import Base GraphModel ParamsModel Complex ArrayModel ComponentModel ComponentSpec ComponentProofs FourierProofs FilterProofs ButterworthProofs OpticsModel OpticsSpec CommuteSpec CommuteProofs.
Import ListNotations.
Local Open Scope nat_scope.

Theorem C97_frequency : forall c d ps qs p x y, by_frequency c -> by_frequency d -> usable (n_samples p) (window_t p) -> length x = n_samples p ->
  (then_ (component c ps p) (component d qs p) x = Ok y <-> then_ (component d qs p) (component c ps p) x = Ok y).
Proof. intros c d ps qs p x y Hc Hd U L. apply (spectral_commute p U); [apply component_spectral; assumption|apply component_spectral; assumption|exact L]. Qed.
Print Assumptions C97_frequency.

Theorem C97_time : forall c d ps qs p x y, by_time c -> by_time d -> length x = n_samples p ->
  (then_ (component c ps p) (component d qs p) x = Ok y <-> then_ (component d qs p) (component c ps p) x = Ok y).
Proof. intros c d ps qs p x y Hc Hd L. apply (temporal_commute p); [apply component_temporal; assumption|apply component_temporal; assumption|exact L]. Qed.
Print Assumptions C97_time.

(* a line of components of one group, in any order *)
Definition line (p : grid) (l : list (cls * list pval)) (x : list C) : res (list C) := chain (map (fun k => component (fst k) (snd k) p) l) x.
Theorem C97_line : forall l l' p x y, Permutation l l' -> (Forall (fun k => by_frequency (fst k)) l /\ usable (n_samples p) (window_t p)) \/ Forall (fun k => by_time (fst k)) l -> length x = n_samples p ->
  (line p l x = Ok y <-> line p l' x = Ok y).
Proof.
  intros l l' p x y P H L. unfold line. apply (chain_permuted (fun s => length s = n_samples p)); [|apply Permutation_map; exact P| |exact L].
  - intros f Hf s t Ls E. apply in_map_iff in Hf. destruct Hf as (k & <- & Hk). destruct H as [(H & U)|H]; rewrite Forall_forall in H; [exact (spectral_length p U _ (component_spectral p U _ _ (H k Hk)) s t Ls E)|exact (temporal_length p _ (component_temporal p _ _ (H k Hk)) s t Ls E)].
  - intros f g Hf Hg s t Ls. apply in_map_iff in Hf, Hg. destruct Hf as (k & <- & Hk). destruct Hg as (k' & <- & Hk'). destruct H as [(H & U)|H]; rewrite Forall_forall in H; [apply C97_frequency|apply C97_time]; auto.
Qed.
Print Assumptions C97_line.

(* a fibre and a delay line, in both orders; both succeed *)
Example C97_case : forall x, length x = 5 -> exists y,
  then_ (component DispersiveFiber [Num 7] (mkGrid 5 1 1)) (component DelayLine [Num 3] (mkGrid 5 1 1)) x = Ok y /\
  then_ (component DelayLine [Num 3] (mkGrid 5 1 1)) (component DispersiveFiber [Num 7] (mkGrid 5 1 1)) x = Ok y.
Proof.
  intros x L. assert (U : usable (n_samples (mkGrid 5 1 1)) (window_t (mkGrid 5 1 1))) by (split; [cbn; lia|cbn; lra]).
  destruct (fiber_energy (Q2R 7) (mkGrid 5 1 1) x U L) as (s & Es & Ls & _). destruct (delay_energy (Q2R 3) (mkGrid 5 1 1) s U) as (y & Ey & _); [rewrite Ls; exact L|].
  assert (E : then_ (component DispersiveFiber [Num 7] (mkGrid 5 1 1)) (component DelayLine [Num 3] (mkGrid 5 1 1)) x = Ok y).
  { unfold then_. change (component DispersiveFiber [Num 7] (mkGrid 5 1 1) x) with (dispersive_fiber (Q2R 7) (mkGrid 5 1 1) x). rewrite Es. exact Ey. }
  exists y. split; [exact E|]. apply (C97_frequency DispersiveFiber DelayLine [Num 7] [Num 3] (mkGrid 5 1 1) x y); [left; reflexivity|right; left; reflexivity|exact U|exact L|exact E].
Qed.

(* three components, in two orders; both succeed *)
Example C97_line_case : forall x, length x = 5 -> exists y,
  line (mkGrid 5 1 1) [(DispersiveFiber, [Num 7]); (DelayLine, [Num 3]); (PhaseShifter, [Num 2])] x = Ok y /\
  line (mkGrid 5 1 1) [(PhaseShifter, [Num 2]); (DispersiveFiber, [Num 7]); (DelayLine, [Num 3])] x = Ok y.
Proof.
  intros x L. assert (U : usable (n_samples (mkGrid 5 1 1)) (window_t (mkGrid 5 1 1))) by (split; [cbn; lia|cbn; lra]).
  destruct (fiber_energy (Q2R 7) (mkGrid 5 1 1) x U L) as (s & Es & Ls & _). destruct (delay_energy (Q2R 3) (mkGrid 5 1 1) s U) as (t & Et & Lt & _); [rewrite Ls; exact L|].
  assert (Ey : phase_shifter (Q2R 2) (mkGrid 5 1 1) t = Ok (map (Cmul (cis (Q2R 2))) t)) by (apply phase_shifter_exact; [exact U|rewrite Lt, Ls; exact L]). exists (map (Cmul (cis (Q2R 2))) t).
  assert (E : line (mkGrid 5 1 1) [(DispersiveFiber, [Num 7]); (DelayLine, [Num 3]); (PhaseShifter, [Num 2])] x = Ok (map (Cmul (cis (Q2R 2))) t)).
  { unfold line. cbn [map fst snd chain]. apply then_ok. exists s. split; [exact Es|]. apply then_ok. exists t. split; [exact Et|]. apply then_ok. eexists. split; [exact Ey|reflexivity]. }
  split; [exact E|]. apply (C97_line [(DispersiveFiber, [Num 7]); (DelayLine, [Num 3]); (PhaseShifter, [Num 2])] _ (mkGrid 5 1 1) x _); [|left; split; [|exact U]|exact L|exact E].
  - apply Permutation_sym. apply (Permutation_cons_append [(DispersiveFiber, [Num 7]); (DelayLine, [Num 3])]).
  - repeat constructor; unfold by_frequency; cbn [In fst]; tauto.
Qed.

(** ** A frequency component and a time component *)
Local Open Scope R_scope.
(* two samples: a filter with opposite weights moves the first sample to the second place *)
Lemma filter_moves : forall p u z, n_samples p = 2%nat -> usable (n_samples p) (window_t p) -> filter_spectrum p [u; Copp u] [z; C0] = Ok [C0; Cmul u z].
Proof.
  intros p u z N2 U. destruct (filter_ok p [u; Copp u] [z; C0]) as (y & out & F & _ & E & I & _); [apply grid_dt_nz; exact U|cbn; lia|reflexivity|]. rewrite E. f_equal.
  assert (Y : y = [z; z]).
  { unfold fft in F. cbn [length tabulate map seq csum nth INR] in F. injection F as <-.
    replace (- (2 * PI * 0 * 0 / (1 + 1))) with 0 by (unfold Rdiv; ring). replace (- (2 * PI * 0 * 1 / (1 + 1))) with 0 by (unfold Rdiv; ring). rewrite cis_0. f_equal; [ring|f_equal; ring]. }
  subst y. unfold zipmul in I. cbn [combine map fst snd] in I. unfold ifft in I. cbn [length tabulate map seq csum nth INR] in I. injection I as <-.
  replace (2 * PI * 0 * 0 / (1 + 1)) with 0 by (unfold Rdiv; ring). replace (2 * PI * 0 * 1 / (1 + 1)) with 0 by (unfold Rdiv; ring). replace (2 * PI * 1 * 0 / (1 + 1)) with 0 by (unfold Rdiv; ring). replace (2 * PI * 1 * 1 / (1 + 1)) with PI by field.
  rewrite cis_0, cis_pi. assert (H : Cadd (RtoC (/ (1 + 1))) (RtoC (/ (1 + 1))) = C1) by (unfold Cadd, RtoC, C1, re, im; cbn [fst snd]; f_equal; lra).
  f_equal; [ring|f_equal]. transitivity (Cmul (Cadd (RtoC (/ (1 + 1))) (RtoC (/ (1 + 1)))) (Cmul u z)); [ring|]. rewrite H. ring.
Qed.

(* two samples in half a nanosecond *)
Definition pair_grid : grid := mkGrid 2 (/ 2 * / 10 ^ 9) 1.
Definition modulator_values : list pval := [Num 1; Num 1000000000; Num 1; Num 0].
Definition delay_values : list pval := [Num (1 # 8000000000)].
Lemma pair_usable : usable (n_samples pair_grid) (window_t pair_grid).
Proof. split; [cbn; lia|]. cbn [window_t pair_grid]. apply Rmult_lt_0_compat; [lra|]. apply Rinv_0_lt_compat, pow_lt. lra. Qed.

Lemma pair_delay : exists u, Cnorm2 u = 1 /\ forall z, component DelayLine delay_values pair_grid [z; C0] = Ok [C0; Cmul u z].
Proof.
  exists (cis (2 * PI * (2 * 10 ^ 9 + central_frequency pair_grid) * (/ 8 * / 10 ^ 9))). split; [apply cis_norm|]. intros z. rewrite <- (filter_moves pair_grid _ z eq_refl pair_usable).
  transitivity (delay_line (Q2R (1 # 8000000000)) pair_grid [z; C0]); [reflexivity|]. rewrite delay_plain. f_equal.
  assert (Q : Q2R (1 # 8000000000) = / 8 * / 10 ^ 9) by (unfold Q2R; cbn [Qnum Qden]; lra). rewrite Q. clear Q.
  assert (G : ifft_shift_ (grid_f pair_grid) = [2 * 10 ^ 9; - (2 * 10 ^ 9)]).
  { unfold grid_f, linspace, tabulate. cbn [n_samples pair_grid window_t seq map INR Nat.sub]. unfold ifft_shift_. cbn [length Nat.div Nat.divmod fst skipn firstn app]. f_equal; [field|f_equal; field]. }
  rewrite G. cbn [map]. f_equal. f_equal. set (fc := central_frequency pair_grid).
  replace (2 * PI * (2 * 10 ^ 9 + fc) * (/ 8 * / 10 ^ 9)) with (PI + 2 * PI * (- (2 * 10 ^ 9) + fc) * (/ 8 * / 10 ^ 9)) by field. rewrite cis_add, cis_pi. ring.
Qed.
Lemma pair_modulator : forall a b, component PhaseModulator modulator_values pair_grid [a; b] = Ok [Cmul a (cis (sin 1)); Cmul b (cis (- sin 1))].
Proof.
  intros a b. transitivity (phase_modulator (Q2R 1) (Q2R 1000000000) (Q2R 1) [0; 0] pair_grid [a; b]); [reflexivity|].
  assert (Q1 : Q2R 1 = 1) by (unfold Q2R; cbn [Qnum Qden]; lra). assert (Q2 : Q2R 1000000000 = 10 ^ 9) by (unfold Q2R; cbn [Qnum Qden]; lra). rewrite Q1, Q2. clear Q1 Q2.
  assert (G : grid_t pair_grid = [- (/ 4 * / 10 ^ 9); / 4 * / 10 ^ 9]).
  { unfold grid_t, linspace, tabulate. cbn [n_samples pair_grid window_t seq map INR Nat.sub]. f_equal; [field|f_equal; field]. }
  unfold phase_modulator. rewrite G, broadcast_same by reflexivity. cbn [bind]. rewrite broadcast_same by reflexivity. cbn [bind]. rewrite ratio_m0, scale_1. cbn [combine map fst snd].
  replace (2 * PI * 10 ^ 9 * - (/ 4 * / 10 ^ 9) + 1 + 0) with (- (PI / 2 - 1)) by field. replace (2 * PI * 10 ^ 9 * (/ 4 * / 10 ^ 9) + 1 + 0) with (PI / 2 + 1) by field.
  rewrite cos_neg, cos_shift. rewrite (sin_cos 1). do 3 f_equal; [f_equal; f_equal; ring|]. do 3 f_equal; ring.
Qed.

Lemma delay_allowed : allowed DelayLine delay_values.
Proof.
  split; [reflexivity|]. intros [|k] H; [left|cbn in H; lia]. split; [split; reflexivity|]. do 3 eexists. split; [reflexivity|]. split; [reflexivity|]. split; [reflexivity|]. split; vm_compute; discriminate.
Qed.
Lemma modulator_allowed : allowed PhaseModulator modulator_values.
Proof.
  split; [reflexivity|]. intros k H. assert (k = 3 \/ k < 3)%nat as [->|K] by (cbn in H; lia); [right; split; [intros [_ A]; vm_compute in A; discriminate A|reflexivity]|left].
  destruct k as [|[|[|k]]]; [| | |lia]; (split; [split; reflexivity|]; do 3 eexists; split; [reflexivity|]; split; [reflexivity|]; split; [reflexivity|]; split; vm_compute; discriminate).
Qed.

(* a delay line and a phase modulator with values within their bounds: both orders succeed, with different fields *)
Theorem C97_mixed_refuted : exists c d ps qs p x y z, by_frequency c /\ by_time d /\ allowed c ps /\ allowed d qs /\ usable (n_samples p) (window_t p) /\ length x = n_samples p /\
  then_ (component c ps p) (component d qs p) x = Ok y /\ then_ (component d qs p) (component c ps p) x = Ok z /\ y <> z.
Proof.
  destruct pair_delay as (u & Hu & D). exists DelayLine, PhaseModulator, delay_values, modulator_values, pair_grid, [C1; C0]. do 2 eexists.
  split; [right; left; reflexivity|]. split; [left; reflexivity|]. split; [exact delay_allowed|]. split; [exact modulator_allowed|]. split; [exact pair_usable|]. split; [reflexivity|].
  split; [unfold then_; rewrite D; apply pair_modulator|]. split; [unfold then_; rewrite pair_modulator; replace (Cmul C0 (cis (- sin 1))) with C0 by ring; apply D|].
  intros E. apply (f_equal (fun l => nth 1 l C0)) in E. cbn [nth] in E. assert (S : 0 < sin 1 < PI).
  { pose proof PI2_1. split; [apply sin_gt_0; lra|]. pose proof (SIN_bound 1). lra. }
  apply (cis_halves (sin 1) (sin 1) S S).
  assert (K : Cmul (Cconj u) u = C1) by (unfold Cmul, Cconj, C1, re, im; unfold Cnorm2, re, im in Hu; cbn [fst snd] in *; f_equal; [lra|ring]).
  transitivity (Cmul (Cmul (Cconj u) u) (cis (sin 1))); [rewrite K; ring|]. transitivity (Cmul (Cconj u) (Cmul u (Cmul C1 (cis (sin 1))))); [ring|]. rewrite <- E. transitivity (Cmul (Cmul (Cconj u) u) (cis (- sin 1))); [ring|]. rewrite K. ring.
Qed.
Print Assumptions C97_mixed_refuted.
