(** What each component does with values it may have (C65, C66). *)
From Coq Require Import Reals Qreals List Arith ZArith QArith Lia Lra Bool.
From Verif Require Import Base GraphModel GraphSpec ParamsModel ParamsSpec Complex ArrayModel ComponentModel ComponentSpec DetectorModel MoreComponentsModel MoreComponentsSpec
  FilterProofs ComponentProofs GridProofs SplitterProofs ShaperProofs DetectorProofs MoreComponentsProofs OpticsModel OpticsSpec.
Import ListNotations.
Local Open Scope nat_scope.

(** ** Reading parameters *)
Definition nums (l : list pval) : Prop := forall v, In v l -> exists q, v = Num q.

Lemma allowed_nums : forall c ps, allowed c ps -> nums (sp_def (spec_of c)) -> nums ps.
Proof.
  intros c ps [Ln H] D v Hv. apply In_nth_error in Hv as (k & Hk). assert (L : k < length ps) by (apply nth_error_Some; congruence).
  destruct (H k L) as [(_ & q & lo & hi & E & _)|(_ & E)]; [exists q; congruence|]. apply D. rewrite Hk in E. exact (nth_error_In _ _ (eq_sym E)).
Qed.
Lemma allowed_entry : forall c ps k, allowed c ps -> (exists q, nth_error (sp_def (spec_of c)) k = Some (Num q)) -> exists q, nth_error ps k = Some (Num q) /\ real_at ps k = Ok (Q2R q).
Proof.
  intros c ps k [Ln H] (d & D). assert (L : k < length ps) by (rewrite Ln; apply nth_error_Some; congruence).
  assert (X : exists q, nth_error ps k = Some (Num q)) by (destruct (H k L) as [(_ & q & lo & hi & E & _)|(_ & E)]; [exists q; exact E|exists d; congruence]).
  destruct X as (q & E). exists q. split; [exact E|]. unfold real_at, at_. rewrite E. reflexivity.
Qed.
Lemma allowed_bounds : forall c ps k q lo hi, allowed c ps -> adjustable c k -> nth_error ps k = Some (Num q) -> nth_error (sp_lo (spec_of c)) k = Some (Num lo) -> nth_error (sp_hi (spec_of c)) k = Some (Num hi) ->
  (lo <= q)%Q /\ (q <= hi)%Q.
Proof.
  intros c ps k q lo hi [Ln H] Ad E El Eh. assert (L : k < length ps) by (apply nth_error_Some; congruence).
  destruct (H k L) as [(_ & q' & lo' & hi' & E1 & E2 & E3 & B1 & B2)|(N & _)]; [|contradiction].
  rewrite E in E1. rewrite El in E2. rewrite Eh in E3. injection E1 as <-. injection E2 as <-. injection E3 as <-. auto.
Qed.
Lemma allowed_fixed : forall c ps k, allowed c ps -> ~ adjustable c k -> nth_error ps k = nth_error (sp_def (spec_of c)) k.
Proof.
  intros c ps k [Ln H] N. destruct (lt_dec k (length ps)) as [L|L]; [destruct (H k L) as [(Ad & _)|(_ & E)]; [contradiction|exact E]|].
  rewrite (proj2 (nth_error_None ps k)) by lia. symmetry. apply nth_error_None. lia.
Qed.
Lemma reals_nums : forall ps, nums ps -> reals ps = Ok (map number ps).
Proof.
  induction ps as [|v ps IH]; intros H; [reflexivity|]. destruct (H v (or_introl eq_refl)) as (q & ->).
  unfold reals in *. cbn [map_res as_number bind map]. rewrite IH by (intros v Hv; apply H; right; exact Hv). reflexivity.
Qed.
Lemma nums_firstn : forall n ps, nums ps -> nums (firstn n ps).
Proof. intros n ps H v Hv. apply H. rewrite <- (firstn_skipn n ps). apply in_or_app; left; exact Hv. Qed.
Lemma nums_skipn : forall n ps, nums ps -> nums (skipn n ps).
Proof. intros n ps H v Hv. apply H. rewrite <- (firstn_skipn n ps). apply in_or_app; right; exact Hv. Qed.

(* the classes whose defaults are all numbers *)
Fixpoint all_nums (l : list pval) : bool := match l with [] => true | Num _ :: r => all_nums r | Sym _ :: _ => false end.
Lemma all_nums_ok : forall l, all_nums l = true -> nums l.
Proof. induction l as [|[q|s] l IH]; intros H v Hv; [destruct Hv| |discriminate]. destruct Hv as [<-|Hv]; [eauto|exact (IH H v Hv)]. Qed.

Local Open Scope R_scope.
(* amplitudes of the wave shaper and of the programmable filter *)
Lemma entries_within : forall c ps m lo hi, allowed c ps -> nums (sp_def (spec_of c)) -> (forall k, (k < m)%nat -> adjustable c k) ->
  (forall k, (k < m)%nat -> nth_error (sp_lo (spec_of c)) k = Some (Num lo)) -> (forall k, (k < m)%nat -> nth_error (sp_hi (spec_of c)) k = Some (Num hi)) ->
  forall a, In a (map number (firstn m ps)) -> Q2R lo <= a <= Q2R hi.
Proof.
  intros c ps m lo hi A N Ad Lo Hi a Ha. apply in_map_iff in Ha as (v & <- & Hv). apply In_nth_error in Hv as (k & Hk).
  assert (K : (k < m)%nat). { assert (k < length (firstn m ps))%nat by (apply nth_error_Some; congruence). rewrite firstn_length in H. lia. }
  assert (E : nth_error ps k = Some v). { rewrite <- (firstn_skipn m ps), nth_error_app1; [exact Hk|]. apply nth_error_Some. congruence. }
  destruct (allowed_nums c ps A N v (nth_error_In _ _ E)) as (q & ->). destruct (allowed_bounds c ps k q lo hi A (Ad k K) E (Lo k K) (Hi k K)) as [B1 B2].
  cbn [number]. split; apply Qle_Rle; assumption.
Qed.

Tactic Notation "entry" constr(A) constr(k) ident(q) ident(E) ident(R) := destruct (allowed_entry _ _ k A (ex_intro _ _ eq_refl)) as (q & E & R).
Tactic Notation "locked" constr(A) constr(k) ident(E) := pose proof (allowed_fixed _ _ k A ltac:(intros [? ?]; discriminate)) as E; match type of E with ?l = ?r => let v := eval cbn in r in change (l = v) in E end.

Lemma zero_Q2R : forall q, (q == 0)%Q <-> Q2R q = 0.
Proof. intros q. rewrite <- RMicromega.Q2R_0. split; [apply Qeq_eqR|apply eqR_Qeq]. Qed.

(* the setting of a component with which it does not raise *)
Definition fine_setting (N n : nat) (c : cls) (ps : list pval) : Prop :=
  (c = SquareFilter -> forall v, nth_error ps 0 = Some v -> ~ zero v) /\ (c = WaveShaper -> shapeable N n).

Lemma yields_ok : forall x r P N, yields x r P -> length x = N -> exists y, r = Ok y /\ length y = N.
Proof. intros x r P N (y & E & L & _) H. exists y. split; [exact E|congruence]. Qed.

Lemma amplifier_works : forall a p x, usable (n_samples p) (window_t p) -> length x = n_samples p -> exists y, optical_amplifier a p x = Ok y /\ length y = n_samples p.
Proof.
  intros a p x U L. unfold optical_amplifier. destruct (filter_ok p (map (fun g => RtoC (sqrt g)) (amplifier_gain a p x)) x) as (y & out & _ & _ & E & _ & Lo).
  - apply grid_dt_nz; exact U.
  - apply (pos_len p); assumption.
  - rewrite map_length. unfold amplifier_gain. rewrite map_length, small_signal_length. congruence.
  - exists out. split; [exact E|congruence].
Qed.

Lemma programmable_works : forall am ph p x, usable (n_samples p) (window_t p) -> length x = n_samples p -> exists y, programmable_filter am ph p x = Ok y /\ length y = n_samples p.
Proof.
  intros am ph p x U L. unfold programmable_filter. destruct (programmable_masks am ph p) as (am' & ph' & E1 & E2 & E3 & L1 & L2 & _). cbv zeta. rewrite E1. cbn [bind]. rewrite E2. cbn [bind]. rewrite E3. cbn [bind].
  match goal with |- context [filter_spectrum p ?m x] => destruct (filter_ok p m x) as (y & out & _ & _ & E & _ & Lo) end.
  - apply grid_dt_nz; exact U.
  - apply (pos_len p); assumption.
  - rewrite ifft_shift_length, map_length, combine_length. lia.
  - rewrite E. cbn [bind]. eexists. split; [reflexivity|]. rewrite scale_length. congruence.
Qed.

Lemma shapeable_cases : forall N n, (2 <= N)%nat -> shapeable N n -> (15 * n <= N)%nat \/ Nat.Even (15 * n - N) \/ (N = 2 /\ N < 15 * n /\ Nat.Odd (15 * n - N))%nat.
Proof.
  intros N n H2 [E|[L|V]]; [|auto|auto]. destruct (le_lt_dec (15 * n) N) as [L|L]; [auto|]. destruct (Nat.Even_or_Odd (15 * n - N)) as [V|V]; [auto|]. right; right. auto.
Qed.

Lemma shaper_lists : forall ps, allowed WaveShaper ps -> exists am ph, reals (firstn 15 ps) = Ok am /\ reals (skipn 15 ps) = Ok ph /\ length am = 15%nat /\ length ph = 15%nat /\ forall a, In a am -> 0 <= a <= 1.
Proof.
  intros ps A. assert (N : nums (sp_def (spec_of WaveShaper))) by (apply all_nums_ok; reflexivity). pose proof (allowed_nums _ _ A N) as Np.
  exists (map number (firstn 15 ps)), (map number (skipn 15 ps)).
  assert (L : length ps = 30%nat) by (exact (proj1 A)). rewrite !map_length, firstn_length, skipn_length, L.
  repeat split; try reflexivity; try (apply reals_nums; first [apply nums_firstn|apply nums_skipn]; exact Np).
  all: destruct (entries_within WaveShaper ps 15 (31622776601683 # 100000000000000000) 1 A N) with (a := a) as [B1 B2]; try exact H.
  all: try (intros k Hk; do 15 (destruct k as [|k]; [split; reflexivity|]); lia).
  all: try (intros k Hk; do 15 (destruct k as [|k]; [reflexivity|]); lia).
  - eapply Rle_trans; [|exact B1]. rewrite <- RMicromega.Q2R_0. apply Qle_Rle. unfold Qle. cbn. lia.
  - eapply Rle_trans; [exact B2|]. rewrite RMicromega.Q2R_1. lra.
Qed.

Lemma programmable_lists : forall ps, allowed ProgrammableFilter ps -> exists am ph, reals (firstn 10 ps) = Ok am /\ reals (skipn 10 ps) = Ok ph /\ length am = 10%nat /\ forall a, In a am -> fraction a.
Proof.
  intros ps A. assert (N : nums (sp_def (spec_of ProgrammableFilter))) by (apply all_nums_ok; reflexivity). pose proof (allowed_nums _ _ A N) as Np.
  exists (map number (firstn 10 ps)), (map number (skipn 10 ps)).
  assert (L : length ps = 20%nat) by (exact (proj1 A)). rewrite !map_length, firstn_length, L.
  repeat split; try reflexivity; try (apply reals_nums; first [apply nums_firstn|apply nums_skipn]; exact Np).
  all: destruct (entries_within ProgrammableFilter ps 10 0 1 A N) with (a := a) as [B1 B2]; try exact H.
  all: try (intros k Hk; do 10 (destruct k as [|k]; [split; reflexivity|]); lia).
  all: try (intros k Hk; do 10 (destruct k as [|k]; [reflexivity|]); lia).
  - rewrite RMicromega.Q2R_0 in B1. lra.
  - rewrite RMicromega.Q2R_1 in B2. lra.
Qed.

Lemma amplifier_held : forall ps, allowed OpticalAmplifier ps -> exists q, nth_error ps 0 = Some (Num q) /\
  amplifier_of ps = Ok (mkAmp (Q2R q) (Q2R (1550 # 1000000000)) (Q2R (1520 # 1000000000)) (Q2R (1565 # 1000000000)) (Q2R (1 # 10)) (Q2R (15 # 10)) (Q2R 1)).
Proof.
  intros ps A. entry A 0%nat q E Rq. exists q. split; [exact E|]. unfold amplifier_of. rewrite Rq. cbn [bind].
  locked A 1%nat E1. locked A 2%nat E2. locked A 3%nat E3. locked A 4%nat E4. locked A 5%nat E5. locked A 6%nat E6. locked A 7%nat E7.
  unfold real_at, at_. rewrite E1, E2, E3, E4, E5, E6, E7. reflexivity.
Qed.

Lemma photodiode_held : forall ps, allowed Photodiode ps -> exists d, photodiode_of ps = Ok d /\ sound_photodiode d.
Proof.
  intros ps A. locked A 0%nat E0. locked A 1%nat E1. locked A 2%nat E2. locked A 3%nat E3. locked A 4%nat E4. unfold photodiode_of, real_at, at_. rewrite E0, E1, E2, E3, E4. cbn [of_option bind as_number].
  eexists. split; [reflexivity|]. unfold sound_photodiode. cbn [responsivity max_photocurrent load_resistance filter_order].
  repeat split; try (rewrite <- RMicromega.Q2R_0; apply Qlt_Rlt; reflexivity). 
Qed.

Lemma power_held : forall c ps k q lo hi, allowed c ps -> adjustable c k -> nth_error ps k = Some (Num q) -> nth_error (sp_lo (spec_of c)) k = Some (Num lo) -> nth_error (sp_hi (spec_of c)) k = Some (Num hi) -> (0 <= lo)%Q -> 0 <= Q2R q.
Proof.
  intros c ps k q lo hi A Ad E El Eh Z. destruct (allowed_bounds c ps k q lo hi A Ad E El Eh) as [B _]. rewrite <- RMicromega.Q2R_0. apply Qle_Rle. exact (Qle_trans _ _ _ Z B).
Qed.

Lemma component_ok : forall c ps p x n, allowed c ps -> family_of c <> MultiPath -> usable (n_samples p) (window_t p) -> length x = n_samples p -> bin_spans (n_samples p) (window_t p) n ->
  fine_setting (n_samples p) n c ps -> exists y, component c ps p x = Ok y /\ length y = n_samples p.
Proof.
  intros c ps p x n A F U L Hn [F1 F2]. destruct c; try (exfalso; apply F; reflexivity); cbn [component].
  - (* PulsedLaser *) locked A 0%nat E0. entry A 1%nat q1 E1 R1. entry A 2%nat q2 E2 R2. entry A 3%nat q3 E3 R3. unfold at_. rewrite E0. cbn [of_option bind]. rewrite R1, R2, R3. cbn [bind laser_shape sGauss].
    destruct (pulsed_laser_power ComponentModel.Gaussian (Q2R q1) (Q2R q2) (Q2R q3) p) as (y & E & Ly & _); [|discriminate|exists y; auto].
    eapply (power_held PulsedLaser ps 2); try exact A; try exact E2; try (split; reflexivity); try reflexivity. unfold Qle; cbn; lia.
  - (* ContinuousWaveLaser *) entry A 0%nat q E R0. rewrite R0. cbn [bind]. eexists. split; [reflexivity|]. unfold continuous_wave_laser. rewrite map_length. exact L.
  - (* NoisySignal *) locked A 0%nat E0. locked A 1%nat E1. locked A 2%nat E2. unfold real_at, at_. rewrite E0, E1, E2. cbn [of_option bind as_number]. cbn [signal_shape_of sGauss].
    unfold dec. cbn [as_number bind]. match goal with |- context [noisy_signal SignalGaussian ?w ?P p] => destruct (signal_power SignalGaussian w P p) as (y & E & Ly & _); [|discriminate|exists y; split; [exact E|exact Ly]] end.
    rewrite <- RMicromega.Q2R_0. apply Qle_Rle. unfold Qle; cbn; lia.
  - (* Impulse *) exact (yields_ok _ _ _ _ (impulse_exact p x U L) L).
  - eexists. split; [reflexivity|]. rewrite map_length. unfold measurement_device, power_. rewrite map_length. exact L.
  - eexists. split; [reflexivity|exact L].
  - (* Photodiode *) destruct (photodiode_held ps A) as (d & -> & Sd). cbn [bind]. exact (yields_ok _ _ _ _ (photodiode_bound d p x Sd U L) L).
  - entry A 0%nat q E R0. rewrite R0. cbn [bind]. exact (yields_ok _ _ _ _ (fiber_energy _ p x U L) L).
  - entry A 0%nat q E R0. rewrite R0. cbn [bind]. eexists. split; [reflexivity|]. unfold attenuator. rewrite scale_length. exact L.
  - entry A 0%nat q E R0. entry A 1%nat q1 E1 R1. entry A 2%nat q2 E2 R2. rewrite R0, R1, R2. cbn [bind].
    refine (yields_ok _ _ _ _ (phase_modulator_power _ _ _ _ p x U L _) L). left. apply repeat_length.
  - entry A 0%nat q E R0. entry A 1%nat q1 E1 R1. entry A 2%nat q2 E2 R2. rewrite R0, R1, R2. cbn [bind]. exact (yields_ok _ _ _ _ (intensity_modulator_power _ _ _ p x U L) L).
  - (* WaveShaper *) destruct (shaper_lists ps A) as (am & ph & -> & -> & La & Lp & Ra). cbn [bind].
    destruct (shapeable_cases _ _ (proj1 U) (F2 eq_refl)) as [Fi|[Fi|(N2 & Hl & Od)]].
    + refine (yields_ok _ _ _ _ (wave_shaper_energy am ph p x n 0 U L _ Hn _ _ _) L); [congruence|left; rewrite La; exact Fi|pose proof extinction_range; lra|exact Ra].
    + refine (yields_ok _ _ _ _ (wave_shaper_energy am ph p x n 0 U L _ Hn _ _ _) L); [congruence|right; rewrite La; exact Fi|pose proof extinction_range; lra|exact Ra].
    + destruct (wave_shaper_two am ph p x n U L) as (y & E & Ly); [congruence|exact Hn|rewrite La; exact Hl|rewrite La; exact Od|exact N2|]. exists y. split; [exact E|congruence].
  - (* split and delay line *) rewrite reals_nums by (apply (allowed_nums _ _ A); apply all_nums_ok; reflexivity). cbn [bind]. exact (yields_ok _ _ _ _ (proj1 (split_delay_energy _ p x U L)) L).
  - destruct (amplifier_held ps A) as (q & _ & ->). cbn [bind]. apply amplifier_works; assumption.
  - destruct (programmable_lists ps A) as (am & ph & -> & -> & _). cbn [bind]. apply programmable_works; assumption.
  - (* SquareFilter *) entry A 0%nat q E R0. rewrite R0. cbn [bind]. refine (yields_ok _ _ _ _ (square_filter_energy _ p x _ U L) L).
    intros Z. apply (F1 eq_refl _ E). exists q. split; [reflexivity|]. apply zero_Q2R. exact Z.
  - entry A 0%nat q E R0. rewrite R0. cbn [bind]. exact (yields_ok _ _ _ _ (delay_energy _ p x U L) L).
  - entry A 0%nat q E R0. rewrite R0. cbn [bind]. exact (yields_ok _ _ _ _ (delay_energy _ p x U L) L).
  - eexists. split; [reflexivity|exact L].
  - entry A 0%nat q E R0. rewrite R0. cbn [bind]. rewrite phase_shifter_exact by assumption. eexists. split; [reflexivity|]. rewrite map_length. exact L.
  - eexists. split; [reflexivity|exact L].
  - eexists. split; [reflexivity|exact L].
Qed.

Lemma fine_setting_dec : forall N n c ps, fine_setting N n c ps \/ ~ fine_setting N n c ps.
Proof.
  intros N n c ps. assert (T : forall d, d <> SquareFilter -> d <> WaveShaper -> fine_setting N n d ps) by (intros d H1 H2; split; intros; contradiction).
  destruct c; try (left; apply T; discriminate); clear T.
  - (* WaveShaper *) assert (D : shapeable N n \/ ~ shapeable N n).
    { unfold shapeable. destruct (Nat.eq_dec N 2); [tauto|]. destruct (le_dec (15 * n) N); [tauto|]. destruct (Nat.Even_or_Odd (15 * n - N)) as [V|V]; [tauto|].
      right. intros [X|[X|X]]; [contradiction|contradiction|]. exact (Nat.Even_Odd_False _ X V). }
    destruct D as [D|D]; [left; split; [discriminate|auto]|right; intros [_ X]; apply D, X; reflexivity].
  - destruct (nth_error ps 0) as [[q|s]|] eqn:E.
    + destruct (Qeq_dec q 0) as [Z|Z]; [right; intros [X _]; apply (X eq_refl _ E); exists q; auto|left]. split; [|discriminate]. intros _ v Hv (q' & -> & Z'). rewrite E in Hv. injection Hv as <-. contradiction.
    + left. split; [|discriminate]. intros _ v Hv (q' & -> & Z'). rewrite E in Hv. discriminate.
    + left. split; [|discriminate]. intros _ v Hv. rewrite E in Hv. discriminate.
Qed.

Lemma component_bad : forall c ps p x n, allowed c ps -> family_of c <> MultiPath -> usable (n_samples p) (window_t p) -> length x = n_samples p -> bin_spans (n_samples p) (window_t p) n ->
  ~ fine_setting (n_samples p) n c ps -> component c ps p x = Err (match c with SquareFilter => ZeroDivisionError | _ => ValueError end).
Proof.
  intros c ps p x n A F U L Hn Nf. destruct c; try (exfalso; apply Nf; split; discriminate); cbn [component].
  - destruct (shaper_lists ps A) as (am & ph & -> & -> & La & Lp & Ra). cbn [bind].
    assert (Ns : ~ shapeable (n_samples p) n) by (intros S; apply Nf; split; [discriminate|auto]). unfold shapeable in Ns.
    assert (H1 : (n_samples p < 15 * n)%nat) by (destruct (le_lt_dec (15 * n) (n_samples p)); [exfalso; apply Ns; auto|assumption]).
    apply (wave_shaper_misfit am ph p x n U L); [congruence|exact Hn|rewrite La; exact H1| |].
    + rewrite La. destruct (Nat.Even_or_Odd (15 * n - n_samples p)) as [V|V]; [exfalso; apply Ns; auto|exact V].
    + destruct U as [U _]. assert (n_samples p <> 2)%nat by (intros X; apply Ns; auto). lia.
  - entry A 0%nat q E R0. rewrite R0. cbn [bind].
    assert (Z : (q == 0)%Q) by (destruct (Qeq_dec q 0) as [Z|Z]; [exact Z|exfalso; apply Nf; split; [|discriminate]; intros _ v Hv (q' & -> & Z'); rewrite E in Hv; injection Hv as <-; contradiction]).
    apply (proj1 (zero_Q2R q)) in Z. unfold square_filter. destruct (Req_EM_T (Q2R q) 0); [reflexivity|contradiction].
Qed.

(** ** Gains *)
Lemma strength_nonneg : forall x, 0 <= strength x.
Proof. intros x. apply sqrt_pos. Qed.
Lemma strength_le : forall x y, energy y <= energy x -> strength y <= strength x.
Proof. intros x y H. apply sqrt_le_1; [apply energy_nonneg|apply energy_nonneg|exact H]. Qed.
Lemma strength_gain : forall x y k, 0 <= k -> energy y <= k * k * energy x -> strength y <= k * strength x.
Proof.
  intros x y k K H. unfold strength. rewrite <- (sqrt_square k K) at 1. rewrite <- sqrt_mult; [|nra|apply energy_nonneg]. apply sqrt_le_1; [apply energy_nonneg| |exact H].
  apply Rmult_le_pos; [nra|apply energy_nonneg].
Qed.
Lemma power_energy : forall x y, length y = length x -> (forall t, (t < length x)%nat -> sample_power y t <= sample_power x t) -> energy y <= energy x.
Proof. intros x y L H. rewrite !energy_sum, L. apply rsum_le. intros t Ht. apply H. exact Ht. Qed.

Lemma loss_small : ten_to (- (45 / 100)) <= 1.
Proof. pose proof loss_45. lra. Qed.

Lemma light_over : forall a b : Q, (0 < a)%Q -> (a < b)%Q -> speed_of_light / Q2R b < speed_of_light / Q2R a.
Proof.
  intros a b A B. apply Qlt_Rlt in A. apply Qlt_Rlt in B. rewrite RMicromega.Q2R_0 in A. unfold Rdiv. apply Rmult_lt_compat_l; [unfold speed_of_light; lra|]. apply Rinv_lt_contravar; [apply Rmult_lt_0_compat; lra|exact B].
Qed.

Lemma component_gain : forall c ps p x y n, allowed c ps -> family_of c = SinglePath -> usable (n_samples p) (window_t p) -> length x = n_samples p -> bin_spans (n_samples p) (window_t p) n ->
  (c = WaveShaper -> n_samples p <> 2%nat) -> (c = ProgrammableFilter -> fine_grid (n_samples p) (window_t p)) ->
  component c ps p x = Ok y -> strength y <= gain_limit c ps * strength x.
Proof.
  intros c ps p x y n A F U L Hn N2 Fg H. destruct c; try discriminate F; cbn [component] in H; cbn [gain_limit].
  - (* fibre *) entry A 0%nat q E R0. rewrite R0 in H. cbn [bind] in H. destruct (fiber_energy (Q2R q) p x U L) as (y' & E' & _ & P). rewrite H in E'. injection E' as <-. rewrite Rmult_1_l. apply strength_le. lra.
  - (* attenuator *) entry A 0%nat q E R0. rewrite R0 in H. cbn [bind] in H. injection H as <-. rewrite Rmult_1_l. apply strength_le. unfold attenuator. rewrite energy_scale, ratio_square.
    destruct (allowed_bounds _ _ 0 q _ _ A (conj eq_refl eq_refl) E eq_refl eq_refl) as [_ B]. apply Qle_Rle in B.
    assert (B' : Q2R q <= 0) by (rewrite <- RMicromega.Q2R_0; exact B).
    assert (ten_to (Q2R q / 10) <= 1) by (rewrite <- ten_to_0; apply ten_to_le; lra). pose proof (energy_nonneg x). nra.
  - entry A 0%nat q E R0. entry A 1%nat q1 E1 R1. entry A 2%nat q2 E2 R2. rewrite R0, R1, R2 in H. cbn [bind] in H.
    destruct (phase_modulator_power (Q2R q) (Q2R q1) (Q2R q2) (repeat 0 (n_samples p)) p x U L (or_introl (repeat_length _ _))) as (y' & E' & Ly & P). rewrite H in E'. injection E' as <-.
    rewrite Rmult_1_l. apply strength_le, power_energy; [exact Ly|]. intros t _. rewrite P. lra.
  - entry A 0%nat q E R0. entry A 1%nat q1 E1 R1. entry A 2%nat q2 E2 R2. rewrite R0, R1, R2 in H. cbn [bind] in H.
    destruct (intensity_modulator_power (Q2R q) (Q2R q1) (Q2R q2) p x U L) as (y' & E' & Ly & P). rewrite H in E'. injection E' as <-.
    rewrite Rmult_1_l. apply strength_le, power_energy; [exact Ly|]. intros t Ht. rewrite (P t Ht).
    assert (T : 0 < ten_to (- (4 / 10)) <= 1) by (split; [apply ten_to_pos|rewrite <- ten_to_0; apply ten_to_le; lra]).
    match goal with |- _ * Rsqr (cos ?a) * _ <= _ => assert (Cs : 0 <= Rsqr (cos a) <= 1) by (pose proof (sin2_cos2 a); pose proof (Rle_0_sqr (sin a)); pose proof (Rle_0_sqr (cos a)); lra); set (k := Rsqr (cos a)) in * end.
    assert (0 <= sample_power x t) by (unfold sample_power; apply Cnorm2_nonneg). rewrite <- (Rmult_1_l (sample_power x t)) at 2. apply Rmult_le_compat_r; [assumption|].
    rewrite <- (Rmult_1_l 1). apply Rmult_le_compat; lra.
  - (* wave shaper *) destruct (shaper_lists ps A) as (am & ph & E1 & E2 & La & Lp & Ra). rewrite E1, E2 in H. cbn [bind] in H.
    assert (Fi : fits (n_samples p) (length am * n)).
    { rewrite La. destruct (le_lt_dec (15 * n) (n_samples p)) as [X|X]; [left; exact X|]. destruct (Nat.Even_or_Odd (15 * n - n_samples p)) as [V|V]; [right; exact V|]. exfalso.
      rewrite (wave_shaper_misfit am ph p x n U L) in H; [discriminate|congruence|exact Hn|rewrite La; exact X|rewrite La; exact V|]. specialize (N2 eq_refl). destruct U as [U2 _]. lia. }
    destruct (wave_shaper_energy am ph p x n 0 U L ltac:(congruence) Hn Fi ltac:(pose proof extinction_range; lra) Ra) as (y' & E' & _ & P). rewrite H in E'. injection E' as <-.
    rewrite Rmult_1_l. apply strength_le. pose proof loss_small. pose proof (energy_nonneg x). nra.
  - (* split and delay line *) rewrite reals_nums in H by (apply (allowed_nums _ _ A); apply all_nums_ok; reflexivity). cbn [bind] in H.
    destruct (proj1 (split_delay_energy (map number ps) p x U L)) as (y' & E' & _ & P). rewrite H in E'. injection E' as <-.
    assert (G : strength y <= dB_to_amplitude_ratio 1 * strength x) by (apply strength_gain; [apply Rlt_le, ten_to_pos|rewrite ratio_square; exact P]).
    destruct ps; exact G.
  - (* amplifier *) destruct (amplifier_held ps A) as (q & E & Ea). rewrite Ea in H. cbn [bind] in H. destruct ps as [|v ps]; [discriminate|]. injection E as ->.
    match type of H with optical_amplifier ?a p x = _ => destruct (amplifier_small_signal a p x U L) as (y' & E' & _ & P) end; cbn [gain_flatness_dB peak_wl band_upper band_lower max_small_signal_gain_dB].
    + rewrite <- RMicromega.Q2R_0. apply Qle_Rle. unfold Qle; cbn; lia.
    + left. apply Rgt_not_eq, light_over; reflexivity.
    + split; apply Rlt_le, light_over; reflexivity.
    + cbn [max_small_signal_gain_dB] in P. rewrite H in E'. injection E' as <-. apply strength_gain; [apply Rlt_le, exp_pos|]. 
      change (Rpower 10 (Q2R q / 20)) with (dB_to_amplitude_ratio (Q2R q)). rewrite ratio_square. exact P.
  - (* programmable filter *) destruct (programmable_lists ps A) as (am & ph & E1 & E2 & La & Ra). rewrite E1, E2 in H. cbn [bind] in H. destruct (Fg eq_refl) as [F50 F40].
    destruct (programmable_passive am ph p x U L F50) as (y' & E' & _ & P); [rewrite grid_df_val; exact F40|exact La|exact Ra|]. rewrite H in E'. injection E' as <-. rewrite Rmult_1_l. apply strength_le. exact P.
  - (* square filter *) entry A 0%nat q E R0. rewrite R0 in H. cbn [bind] in H. assert (Z : Q2R q <> 0). { intros Z. rewrite Z in H. unfold square_filter in H. destruct (Req_EM_T 0 0); [discriminate|contradiction]. }
    destruct (square_filter_energy (Q2R q) p x Z U L) as (y' & E' & _ & P). rewrite H in E'. injection E' as <-. rewrite Rmult_1_l. apply strength_le. exact P.
  - entry A 0%nat q E R0. rewrite R0 in H. cbn [bind] in H. destruct (delay_energy (Q2R q) p x U L) as (y' & E' & _ & P). rewrite H in E'. injection E' as <-. rewrite Rmult_1_l. apply strength_le. lra.
  - entry A 0%nat q E R0. rewrite R0 in H. cbn [bind] in H. unfold integrated_delay_line in H. destruct (delay_energy (Q2R q * ten_to (-12)) p x U L) as (y' & E' & _ & P). rewrite H in E'. injection E' as <-. rewrite Rmult_1_l. apply strength_le. lra.
  - injection H as <-. unfold waveguide. lra.
  - entry A 0%nat q E R0. rewrite R0 in H. cbn [bind] in H. rewrite phase_shifter_exact in H by assumption. injection H as <-. rewrite Rmult_1_l. apply strength_le, power_energy; [apply map_length|].
    intros t _. unfold sample_power. rewrite map_Cmul_nth, Cnorm2_mul, cis_norm. lra.
Qed.
