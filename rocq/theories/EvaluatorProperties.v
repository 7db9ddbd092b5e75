(** C67 and C68: the pulse repetition and the radio frequency evaluator. *)
From Coq Require Import Reals List Arith Lia Lra.
From Verif Require Import Base Complex ArrayModel ComponentModel ComponentSpec OpticsSpec EvaluatorModel EvaluatorSpec EvaluatorProofs PulseProofs RadioProofs.
Import ListNotations.
Local Open Scope nat_scope.
Local Open Scope R_scope.

(** * C67 Pulse repetition evaluator *)

Theorem C67_errors : forall p target rep_t state, usable (n_samples p) (window_t p) -> length target = n_samples p -> length state = n_samples p -> 0 < rep_t ->
  (rep_t <= window_t p / INR (n_samples p) -> pulse_score p target rep_t state = Err IndexError) /\
  (window_t p / INR (n_samples p) < rep_t -> exists s, pulse_score p target rep_t state = Ok s).
Proof. exact pulse_errors. Qed.
Print Assumptions C67_errors.

Theorem C67_bounds : forall p target rep_t state s, usable (n_samples p) (window_t p) -> length target = n_samples p -> length state = n_samples p -> 0 < rep_t -> real_field state ->
  pulse_score p target rep_t state = Ok (Some s) -> im s = 0 /\ (strength state - strength target) ^ 2 <= re s <= (strength state + strength target) ^ 2.
Proof. exact pulse_bounds. Qed.
Print Assumptions C67_bounds.

Theorem C67_rotation : forall p target P m x y, usable (n_samples p) (window_t p) -> length target = n_samples p -> length x = n_samples p -> (2 <= P)%nat -> Nat.divide P (n_samples p) ->
  repeats P x -> harmonic_at x (n_samples p / P) <> C0 -> advanced m x y ->
  pulse_score p target (INR P * (window_t p / INR (n_samples p - 1))) y = pulse_score p target (INR P * (window_t p / INR (n_samples p - 1))) x.
Proof. exact pulse_rotation. Qed.
Print Assumptions C67_rotation.

Theorem C67_target : forall p target P m y, usable (n_samples p) (window_t p) -> length target = n_samples p -> (2 <= P)%nat -> Nat.divide P (n_samples p) ->
  repeats P (magnitudes target) -> harmonic_at (magnitudes target) (n_samples p / P) <> C0 -> advanced m (magnitudes target) y ->
  pulse_score p target (INR P * (window_t p / INR (n_samples p - 1))) y = Ok (Some C0).
Proof. exact pulse_target. Qed.
Print Assumptions C67_target.

(* a target that does not repeat with the given period is not recognised when delayed *)
Theorem C67_rotation_refuted : exists p target P m y s, usable (n_samples p) (window_t p) /\ length target = n_samples p /\ (2 <= P)%nat /\ Nat.divide P (n_samples p) /\
  harmonic_at (magnitudes target) (n_samples p / P) <> C0 /\ advanced m (magnitudes target) y /\
  pulse_score p target (INR P * (window_t p / INR (n_samples p - 1))) y = Ok (Some s) /\ s <> C0.
Proof.
  exists grid4, pulse4, 2%nat, 3%nat, late4, (RtoC 2). split; [exact grid4_usable|]. split; [reflexivity|]. split; [lia|]. split; [exists 2%nat; reflexivity|]. rewrite magnitudes_pulse4. split.
  { change (n_samples grid4 / 2)%nat with 2%nat. unfold pulse4. rewrite harmonic_4. intros X. apply (f_equal fst) in X. unfold Cadd, Cmul, C0, C1, re, im in X. cbn [fst snd] in X. ring_simplify in X. lra. }
  split; [split; [reflexivity|]; cbn [length pulse4]; intros [|[|[|[|j]]]] H; cbn; try reflexivity; lia|].
  replace (INR 2 * (window_t grid4 / INR (n_samples grid4 - 1))) with 2 by (cbn [window_t n_samples grid4 Nat.sub]; simpl INR; field).
  split; [exact late_score|]. intros X. apply (f_equal fst) in X. cbn in X. lra.
Qed.
Print Assumptions C67_rotation_refuted.

(* a train of two pulses, and the train delayed by one sample *)
Example C67_case : pulse_score grid4 [C1; C0; C1; C0] 2 [C0; C1; C0; C1] = Ok (Some C0) /\ pulse_score grid4 [C1; C0; C1; C0] (3 / 4) [C0; C1; C0; C1] = Err IndexError.
Proof.
  assert (Z : sqrt (Cnorm2 C0) = 0) by (unfold Cnorm2, C0, re, im; cbn [fst snd]; replace (0 * 0 + 0 * 0) with 0 by ring; apply sqrt_0). assert (O : sqrt (Cnorm2 C1) = 1) by (unfold Cnorm2, C1, re, im; cbn [fst snd]; replace (1 * 1 + 0 * 0) with 1 by ring; apply sqrt_1).
  assert (M : magnitudes [C1; C0; C1; C0] = [C1; C0; C1; C0]) by (unfold magnitudes; cbn [map]; rewrite Z, O; reflexivity). split.
  - replace 2 with (INR 2 * (window_t grid4 / INR (n_samples grid4 - 1))) by (cbn [window_t n_samples grid4 Nat.sub]; simpl INR; field).
    apply (C67_target grid4 _ 2 1); [exact grid4_usable|reflexivity|lia|exists 2%nat; reflexivity| | |]; rewrite M.
    + split; [reflexivity|]. cbn [length]. intros [|[|[|[|j]]]] H; cbn; try reflexivity; lia.
    + change (n_samples grid4 / 2)%nat with 2%nat. rewrite harmonic_4, !cis_quarter. cbn [Z.of_nat Pos.of_succ_nat Pos.succ Z.opp Z.mul Pos.mul]. change (-4 mod 4)%Z with 0%Z. cbn iota. intros X. apply (f_equal fst) in X. unfold Cadd, Cmul, C0, C1, re, im in X. cbn [fst snd] in X. ring_simplify in X. lra.
    + split; [reflexivity|]. cbn [length]. intros [|[|[|[|j]]]] H; cbn; try reflexivity; lia.
  - apply C67_errors; [exact grid4_usable|reflexivity|reflexivity|lra|]. cbn [window_t n_samples grid4]. simpl INR. lra.
Qed.

(** * C68 Radio frequency waveform evaluator *)

Theorem C68_waveforms : forall h A p,
  (exists x, waveform_target Saw h A p = Ok x /\ sampled falling h A (n_samples p) (window_t p) x) /\
  (exists x, waveform_target OtherSaw h A p = Ok x /\ sampled rising h A (n_samples p) (window_t p) x) /\
  (exists x, waveform_target Tri h A p = Ok x /\ sampled triangle h A (n_samples p) (window_t p) x) /\
  (exists x, waveform_target Square h A p = Ok x /\ sampled gate h A (n_samples p) (window_t p) x).
Proof. exact waveform_named. Qed.
Print Assumptions C68_waveforms.

Theorem C68_errors : forall p f A w target state, usable (n_samples p) (window_t p) -> waveform_target w f A p = Ok target -> length target = n_samples p -> real_field target -> length state = n_samples p -> 0 < f -> A <> 0 ->
  (INR (n_samples p) / window_t p <= f -> radio_score p f A w state = Err IndexError) /\
  (f < INR (n_samples p) / window_t p -> exists s, radio_score p f A w state = Ok s).
Proof. exact radio_errors. Qed.
Print Assumptions C68_errors.

Theorem C68_bounds : forall p f A w target state s, usable (n_samples p) (window_t p) -> waveform_target w f A p = Ok target -> length target = n_samples p -> real_field target -> length state = n_samples p -> 0 < f -> A <> 0 ->
  radio_score p f A w state = Ok (Some s) ->
  im s = 0 /\ (strength state - strength target) ^ 2 <= INR (n_samples p) * A ^ 2 * re s <= (strength state + strength target) ^ 2.
Proof. exact radio_bounds. Qed.
Print Assumptions C68_bounds.

Theorem C68_misaligned : forall p f A w target state k r phi, usable (n_samples p) (window_t p) -> waveform_target w f A p = Ok target -> length target = n_samples p -> real_field target -> length state = n_samples p -> 0 < f -> A <> 0 ->
  entry_above (n_samples p) (window_t p) f k -> (2 * k < n_samples p)%nat -> harmonic_at target k <> C0 -> 0 < r -> - PI < phi <= PI ->
  harmonic_at state k = Cmul (Cmul (RtoC r) (cis phi)) (harmonic_at target k) ->
  let rho := (INR k + offset (n_samples p)) * (INR (n_samples p) / window_t p / INR (n_samples p - 1)) / f in
  1 < rho /\ exists y, radio_shifted p f A w state = Ok (Some (magnitudes y)) /\ energy y = energy state /\
    harmonic_at y k = Cmul (Cmul (RtoC r) (cis (phi * (1 + rho)))) (harmonic_at target k).
Proof. exact radio_misaligned. Qed.
Print Assumptions C68_misaligned.

(* the target itself, delayed, is not recognised *)
Theorem C68_delay_refuted : exists p f A target m y s, usable (n_samples p) (window_t p) /\ length target = n_samples p /\ real_field target /\ 0 < f < INR (n_samples p) / window_t p /\ A <> 0 /\
  advanced m target y /\ radio_score p f A (Samples target) y = Ok (Some s) /\ s <> C0.
Proof.
  exists grid3, (1 / 3), 1, signal3, 1%nat, late3, (RtoC ((4 - 2 * sqrt 3) / 9)). split; [exact grid3_usable|]. split; [reflexivity|]. split; [intros z [<-|[<-|[<-|[]]]]; reflexivity|]. split; [cbn [window_t n_samples grid3]; simpl INR; lra|]. split; [lra|]. split; [exact late3_advanced|]. split; [exact late3_score|].
  intros X. apply (f_equal fst) in X. cbn [RtoC fst C0] in X. assert (sqrt 3 = 2) by lra. pose proof (sqrt_sqrt 3 ltac:(lra)). nra.
Qed.
Print Assumptions C68_delay_refuted.

Example C68_case : radio_score grid3 (3 / 2) 1 Tri late3 = Err IndexError /\ (exists s, radio_score grid3 (1 / 3) 1 Tri late3 = Ok s) /\ radio_score grid3 (1 / 3) 1 UnknownName late3 = Err NotImplementedError /\ radio_score grid3 (1 / 3) 1 NotAWaveform late3 = Err AttributeError.
Proof.
  split; [|split; [|split; reflexivity]].
  - destruct (C68_waveforms (3 / 2) 1 grid3) as (_ & _ & (x & E & S) & _). apply (C68_errors grid3 (3 / 2) 1 Tri x late3 grid3_usable E (proj1 S) (sampled_real _ _ _ _ _ _ S) eq_refl); [lra|lra|]. cbn [window_t n_samples grid3]. simpl INR. lra.
  - destruct (C68_waveforms (1 / 3) 1 grid3) as (_ & _ & (x & E & S) & _). apply (C68_errors grid3 (1 / 3) 1 Tri x late3 grid3_usable E (proj1 S) (sampled_real _ _ _ _ _ _ S) eq_refl); [lra|lra|]. cbn [window_t n_samples grid3]. simpl INR. lra.
Qed.
