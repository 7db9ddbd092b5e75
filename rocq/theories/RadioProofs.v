(** Proofs of C68: the RadioFrequencyWaveformGeneration evaluator. *)
From Coq Require Import Reals List Arith Bool Lia Lra ZArith.
From Verif Require Import Base Complex ArrayModel FourierProofs ComponentModel ComponentSpec ComponentProofs FilterProofs GridProofs OpticsSpec StrengthProofs EvaluatorModel EvaluatorSpec EvaluatorProofs PulseProofs.
Import ListNotations.
Local Open Scope nat_scope.
Local Open Scope R_scope.

(** ** The waveforms *)
Lemma mod_turn_frac : forall x, mod_turn (2 * PI * x) = 2 * PI * frac_part x.
Proof. intros x. pose proof PI_RGT_0. unfold mod_turn, frac_part. replace (2 * PI * x / (2 * PI)) with x by (field; lra). ring. Qed.
Lemma frac_bounds : forall x, 0 <= frac_part x < 1.
Proof. intros x. destruct (base_fp x). lra. Qed.
Lemma sawtooth_0 : forall x, 1 / 2 * (sawtooth (2 * PI * x) 0 + 1) = falling x.
Proof. intros x. pose proof PI_RGT_0. pose proof (frac_bounds x) as B. unfold sawtooth, falling. rewrite mod_turn_frac. destruct (Rlt_dec (2 * PI * frac_part x) (0 * 2 * PI)) as [L|_]; [exfalso; nra|]. field. lra. Qed.
Lemma sawtooth_1 : forall x, 1 / 2 * (sawtooth (2 * PI * x) 1 + 1) = rising x.
Proof. intros x. pose proof PI_RGT_0. pose proof (frac_bounds x) as B. unfold sawtooth, rising. rewrite mod_turn_frac. destruct (Rlt_dec (2 * PI * frac_part x) (1 * 2 * PI)) as [_|L]; [field; lra|exfalso; apply L; nra]. Qed.
Lemma sawtooth_half : forall x, 1 / 2 * (sawtooth (2 * PI * x) (1 / 2) + 1) = triangle x.
Proof.
  intros x. pose proof PI_RGT_0. pose proof (frac_bounds x) as B. unfold sawtooth, triangle. rewrite mod_turn_frac. destruct (Rlt_dec (2 * PI * frac_part x) (1 / 2 * 2 * PI)) as [L|L].
  - rewrite Rabs_left by nra. field. lra.
  - rewrite Rabs_pos_eq by nra. field. lra.
Qed.
Lemma square_half : forall x, 1 / 2 * (square (2 * PI * x) (1 / 2) + 1) = gate x.
Proof.
  intros x. pose proof PI_RGT_0. pose proof (frac_bounds x) as B. unfold square, gate. rewrite mod_turn_frac. destruct (Rlt_dec (2 * PI * frac_part x) (1 / 2 * 2 * PI)) as [L|L]; destruct (Rlt_dec (frac_part x) (/ 2)) as [L'|L']; try lra; exfalso.
  - apply L'. apply (Rmult_lt_reg_l (2 * PI)); lra.
  - apply L. replace (1 / 2 * 2 * PI) with (2 * PI * / 2) by field. apply Rmult_lt_compat_l; lra.
Qed.
Lemma named_sampled : forall f shape h A p, (forall x, 1 / 2 * (f (2 * PI * x) + 1) = shape x) -> sampled shape h A (n_samples p) (window_t p) (named_waveform f h A p).
Proof.
  intros f shape h A p E. unfold sampled, named_waveform. assert (L : length (grid_t p) = n_samples p) by (unfold grid_t, linspace; apply tabulate_length). split; [rewrite map_length; exact L|]. intros i Hi.
  rewrite (nth_indep _ C0 ((fun t => RtoC (A * (1 / 2 * (f (2 * PI * h * t) + 1)))) 0)) by (rewrite map_length; lia). rewrite (map_nth (fun t => RtoC (A * (1 / 2 * (f (2 * PI * h * t) + 1))))). rewrite grid_t_nth by exact Hi. rewrite Rmult_assoc with (r2 := h), E. reflexivity.
Qed.
Lemma waveform_named : forall h A p,
  (exists x, waveform_target Saw h A p = Ok x /\ sampled falling h A (n_samples p) (window_t p) x) /\
  (exists x, waveform_target OtherSaw h A p = Ok x /\ sampled rising h A (n_samples p) (window_t p) x) /\
  (exists x, waveform_target Tri h A p = Ok x /\ sampled triangle h A (n_samples p) (window_t p) x) /\
  (exists x, waveform_target Square h A p = Ok x /\ sampled gate h A (n_samples p) (window_t p) x).
Proof.
  intros h A p. repeat split; eexists; (split; [reflexivity|]).
  - apply named_sampled. exact sawtooth_0.
  - apply named_sampled. exact sawtooth_1.
  - apply named_sampled. exact sawtooth_half.
  - apply named_sampled. exact square_half.
Qed.
Lemma sampled_real : forall shape h A n w x, sampled shape h A n w x -> real_field x.
Proof. intros shape h A n w x (L & V) z Hz. apply (In_nth _ _ C0) in Hz. destruct Hz as (i & Hi & <-). rewrite V by lia. reflexivity. Qed.
Lemma shapes_bounded : forall x, 0 <= falling x <= 1 /\ 0 <= rising x <= 1 /\ 0 <= triangle x <= 1 /\ 0 <= gate x <= 1.
Proof.
  intros x. pose proof (frac_bounds x) as B. unfold falling, rising, triangle, gate. repeat split; try lra.
  - pose proof (Rabs_le (2 * frac_part x - 1) 1 ltac:(lra)). lra.
  - pose proof (Rabs_pos (2 * frac_part x - 1)). lra.
  - destruct (Rlt_dec (frac_part x) (/ 2)); lra.
  - destruct (Rlt_dec (frac_part x) (/ 2)); lra.
Qed.

(** ** The score *)
Section Radio.
Variable p : grid.
Variable f A : R.
Variable w : waveform.
Variable target : list C.
Variable k : nat.
Hypothesis U : usable (n_samples p) (window_t p).
Hypothesis Hw : waveform_target w f A p = Ok target.
Hypothesis Lt : length target = n_samples p.
Hypothesis Hf : 0 < f.
Hypothesis Hk : entry_above (n_samples p) (window_t p) f k.
Let n := n_samples p.
Let factors : list R := map (fun x => x / f) (ifft_shift_ (grid_f p)).

Lemma factors_length : length factors = n.
Proof. unfold factors. rewrite map_length, ifft_shift_length, grid_f_length. reflexivity. Qed.
Lemma radio_init : exists tf, fft_ target (grid_dt p) = Ok tf /\ length tf = n /\ (forall i, (i < n)%nat -> nth i tf C0 = Cmul (RtoC (grid_dt p)) (harmonic_at target i)) /\
  radio_waveform_init p f A w = Ok (mkRadioWaveform f A target tf factors (if (n <=? k)%nat then Z.of_nat n else Z.of_nat k)).
Proof.
  assert (Pt : (0 < length target)%nat) by (rewrite Lt; destruct U; lia). destruct (fft_total target Pt) as (tf & F). destruct (fft_ok _ _ F) as (L & _ & _). exists (scale (grid_dt p) tf).
  split; [unfold fft_; rewrite F; reflexivity|]. split; [rewrite scale_length, L; exact Lt|]. split; [intros i Hi; rewrite scale_nth, (harmonic_fft target tf i F) by (rewrite Lt; exact Hi); reflexivity|].
  unfold radio_waveform_init. rewrite Hw. cbn [bind]. unfold fft_. rewrite F. cbn [bind]. rewrite scale_length, L, Lt. rewrite (entry_index p f k U) by (try exact Hk; lra). f_equal. fold n. f_equal. destruct (Nat.leb_spec n k), (Z.leb_spec (Z.of_nat n) (Z.of_nat k)); try reflexivity; lia.
Qed.
Lemma radio_out : forall state, length state = n -> (n <= k)%nat -> radio_score p f A w state = Err IndexError.
Proof.
  intros state Ls H. destruct radio_init as (tf & _ & Lf & _ & E). unfold radio_score. rewrite E. cbn [bind]. unfold radio_similarity, radio_shift. assert (Ps : (0 < length state)%nat) by (rewrite Ls; unfold n; destruct U; lia). destruct (fft_total state Ps) as (s & F). destruct (fft_ok _ _ F) as (L & _ & _).
  unfold fft_ at 1. rewrite F. cbn [bind rw_harmonic_ind]. destruct (Nat.leb_spec n k) as [_|N]; [|lia]. rewrite item_out by (rewrite scale_length; lia). reflexivity.
Qed.
Definition twisted (phase : R) (state : list C) : list C := tabulate n (fun i => Cmul (cis (phase * nth i factors 0)) (harmonic_at state i)).
Lemma radio_in : forall state, length state = n -> (k < n)%nat ->
  (harmonic_at target k = C0 -> radio_score p f A w state = Ok None) /\
  (harmonic_at target k <> C0 -> A <> 0 -> real_field target -> exists y,
     ifft (twisted (angle (Cdiv (harmonic_at state k) (harmonic_at target k))) state) = Ok y /\ length y = n /\
     radio_shifted p f A w state = Ok (Some (magnitudes y)) /\
     radio_score p f A w state = Ok (Some (RtoC (misfit (magnitudes y) target / (INR n * A ^ 2))))).
Proof.
  intros state Ls H. destruct radio_init as (tf & _ & Lf & Vf & E). unfold radio_score, radio_shifted. rewrite E. cbn [bind]. clear E. unfold radio_similarity. destruct (Nat.leb_spec n k) as [N|_]; [lia|]. set (e := mkRadioWaveform f A target tf factors (Z.of_nat k)).
  assert (Pn : (0 < n)%nat) by lia. destruct (fft_total state) as (s & F); [lia|]. destruct (fft_ok _ _ F) as (L & _ & _). pose proof (grid_dt_nz p U) as Dt. set (dt := grid_dt p) in *. assert (Dc : RtoC dt <> C0) by (intros X; apply Dt; apply (f_equal fst) in X; exact X).
  assert (Ff : fft_ state dt = Ok (scale dt s)) by (unfold fft_; rewrite F; reflexivity). set (z := harmonic_at state k). set (t := harmonic_at target k).
  assert (Sh : radio_shift e p state = if Req_EM_T (Cnorm2 (Cmul (RtoC dt) t)) 0 then Ok None else
     do product <- broadcast (fun s z => Cmul (cis (angle (Cdiv (Cmul (RtoC dt) (harmonic_at state k)) (Cmul (RtoC dt) t)) * s)) z) factors (scale dt s); do y <- ifft_ product dt; Ok (Some (map (fun z => RtoC (Cabs z)) y))).
  { unfold radio_shift. fold dt. rewrite Ff. cbn [bind e rw_harmonic_ind rw_target_f rw_scale_array]. rewrite (item_in (scale dt s) k C0) by (rewrite scale_length; lia). cbn [bind]. rewrite (item_in tf k C0) by lia. cbn [bind]. rewrite scale_nth, (harmonic_fft state s k F) by lia. rewrite (Vf k H). reflexivity. }
  split.
  - intros T. rewrite Sh. destruct (Req_EM_T (Cnorm2 (Cmul (RtoC dt) t)) 0) as [_|N]; [|exfalso; apply N; rewrite T; cplx; ring]. reflexivity.
  - intros T HA Rt. destruct (Req_EM_T (Cnorm2 (Cmul (RtoC dt) t)) 0) as [N|_]; [exfalso; apply Cnorm2_zero in N; apply C_integral in N as [N|N]; contradiction|].
    assert (Q : Cdiv (Cmul (RtoC dt) z) (Cmul (RtoC dt) t) = Cdiv z t).
    { unfold Cdiv. assert (X : Cinv (Cmul (RtoC dt) t) = Cmul (Cinv (RtoC dt)) (Cinv t)).
      { assert (Y : Cmul (RtoC dt) t <> C0) by (intros N; apply C_integral in N as [N|N]; contradiction). pose proof (Cinv_r _ Y) as I1. pose proof (Cinv_r _ Dc) as I2. pose proof (Cinv_r _ T) as I3.
        transitivity (Cmul (Cinv (Cmul (RtoC dt) t)) (Cmul (Cmul (RtoC dt) (Cinv (RtoC dt))) (Cmul t (Cinv t)))); [rewrite I2, I3; ring|]. transitivity (Cmul (Cmul (Cmul (RtoC dt) t) (Cinv (Cmul (RtoC dt) t))) (Cmul (Cinv (RtoC dt)) (Cinv t))); [ring|]. rewrite I1. ring. }
      rewrite X. transitivity (Cmul (Cmul (RtoC dt) (Cinv (RtoC dt))) (Cmul z (Cinv t))); [ring|]. rewrite (Cinv_r _ Dc). ring. }
    fold z in Sh. rewrite Q in Sh. set (ph := angle (Cdiv z t)) in *. pose proof factors_length as Lfa. set (g := fun (s : R) (z : C) => Cmul (cis (ph * s)) z) in Sh. rewrite broadcast_same in Sh by (rewrite scale_length; lia). cbn [bind] in Sh.
    assert (Al : map (fun q => g (fst q) (snd q)) (combine factors (scale dt s)) = scale dt (twisted ph state)).
    { apply (list_eq_nth C0); [rewrite scale_length; unfold twisted; rewrite tabulate_length, map_length, combine_length, scale_length; lia|]. rewrite map_length, combine_length, scale_length. intros i Hi.
      rewrite (zip_nth g factors (scale dt s) 0 C0 C0) by (rewrite ?scale_length; lia). unfold g. rewrite !scale_nth. unfold twisted. rewrite tabulate_nth by lia. rewrite (harmonic_fft state s i F) by lia. ring. }
    rewrite Al in Sh. assert (La : length (twisted ph state) = n) by apply tabulate_length. destruct (ifft_total (twisted ph state)) as (y & I); [lia|]. destruct (ifft_ok _ _ I) as (Ly & _ & _). exists y. split; [exact I|]. split; [lia|].
    unfold ifft_ in Sh. rewrite (ifft_scale dt _ y I) in Sh. cbn [bind] in Sh. rewrite scale_scale, Rinv_l, scale_1 in Sh by exact Dt. change (map (fun z0 => RtoC (Cabs z0)) y) with (magnitudes y) in Sh. split; [exact Sh|]. rewrite Sh. cbn [bind e rw_target rw_amplitude]. set (d := fun a b : C => Cmul (Csub a b) (Csub a b)).
    assert (Lm : length (magnitudes y) = length target) by (rewrite magnitudes_length; unfold n in *; lia). rewrite broadcast_same by exact Lm. cbn [bind]. destruct (Req_EM_T A 0) as [X|_]; [contradiction|].
    f_equal. f_equal. rewrite ctotal_csum, (zip_length d), Lm, Lt by exact Lm. fold n. pose proof (INR_pos n Pn) as Nn. replace (misfit (magnitudes y) target / (INR n * A ^ 2)) with (/ INR n / A ^ 2 * misfit (magnitudes y) target) by (field; split; [exact HA|lra]).
    rewrite <- RtoC_mul. f_equal. unfold misfit. rewrite Lt, <- csum_RtoC. apply csum_ext. intros i Hi. rewrite (zip_nth d (magnitudes y) target C0 C0 C0) by (try exact Lm; rewrite Lm, Lt; exact Hi). unfold d.
    assert (Im : im (nth i target C0) = 0) by (apply Rt; apply nth_In; rewrite Lt; exact Hi). rewrite magnitudes_nth. destruct (nth i target C0) as [a b]. unfold im in Im. cbn [snd] in Im. subst b. cplx. f_equal; ring.
Qed.
Lemma twisted_energy : forall phase state y, length state = n -> ifft (twisted phase state) = Ok y -> energy y = energy state.
Proof.
  intros phase state y Ls I. assert (La : length (twisted phase state) = n) by apply tabulate_length. destruct (ifft_ok _ _ I) as (Ly & Pn & _). rewrite La in *. pose proof (parseval_inv _ _ I) as E. rewrite La in E. destruct (fft_total state) as (s & F); [lia|]. pose proof (parseval _ _ F) as E'. rewrite Ls in E'.
  unfold energy. rewrite !list_energy, Ly, Ls. pose proof (INR_pos n Pn). apply (Rmult_eq_reg_l (INR n)); [|lra]. rewrite <- E, <- E'. apply rsum_ext. intros i Hi. unfold twisted. rewrite tabulate_nth by exact Hi. rewrite Cnorm2_mul, cis_norm, (harmonic_fft state s i F) by lia. ring.
Qed.
Lemma twisted_harmonic : forall phase state y i, length state = n -> ifft (twisted phase state) = Ok y -> (i < n)%nat -> harmonic_at y i = Cmul (cis (phase * nth i factors 0)) (harmonic_at state i).
Proof.
  intros phase state y i Ls I Hi. assert (La : length (twisted phase state) = n) by apply tabulate_length. destruct (ifft_ok _ _ I) as (Ly & Pn & _). destruct (fft_total y) as (s & F); [lia|]. pose proof (fft_ifft _ _ _ I F) as E. subst s. rewrite <- (harmonic_fft y _ i F) by lia. unfold twisted. rewrite tabulate_nth by exact Hi. reflexivity.
Qed.
Lemma factor_above : (2 * k < n)%nat -> nth k factors 0 = (INR k + offset n) * (INR n / window_t p / INR (n - 1)) / f /\ 1 < (INR k + offset n) * (INR n / window_t p / INR (n - 1)) / f.
Proof.
  intros H. assert (Hkn : (k < n)%nat) by lia. unfold factors. rewrite (nth_indep _ 0 (0 / f)) by (rewrite map_length, ifft_shift_length, grid_f_length; exact Hkn). rewrite (map_nth (fun x => x / f)). rewrite ifft_shift_nth by (rewrite grid_f_length; exact Hkn). rewrite grid_f_length. fold n.
  assert (K2 : (k + n / 2 < n)%nat). { pose proof (Nat.div_mod n 2 ltac:(lia)). pose proof (Nat.mod_upper_bound n 2 ltac:(lia)). lia. }
  rewrite Nat.mod_small by exact K2. rewrite grid_f_nth by (try exact U; exact K2). fold n. rewrite plus_INR, half_offset. pose proof (grid_df_pos p U) as D. assert (G : INR n / window_t p / INR (n - 1) = grid_df p) by (rewrite grid_df_val; reflexivity). rewrite !G. split; [f_equal; f_equal; field|].
  apply (Rmult_lt_reg_r f); [exact Hf|]. unfold Rdiv at 1. rewrite Rmult_assoc, Rinv_l, Rmult_1_r, Rmult_1_l by lra. assert (O : 0 <= offset n) by (unfold offset; destruct (Nat.even n); lra).
  destruct Hk as (_ & B). assert (E : f = f * (window_t p * INR (n - 1) / INR n) * grid_df p). { destruct U as (Un & W). pose proof (samples_big _ Un). rewrite grid_df_val. fold n. fold n in H0, Un. rewrite pred_INR by lia. field. repeat split; lra. }
  rewrite E. fold n in B. apply Rmult_lt_compat_r; [exact D|]. lra.
Qed.
End Radio.

Lemma angle_of : forall r t, 0 < r -> - PI < t <= PI -> angle (Cmul (RtoC r) (cis t)) = t.
Proof.
  intros r t Hr B. set (z := Cmul (RtoC r) (cis t)). assert (Ab : Cabs z = r) by (unfold z; rewrite Cabs_mul, Cabs_cis, Cabs_RtoC by lra; ring). assert (Hz : z <> C0). { intros E. rewrite E in Ab. unfold Cabs, Cnorm2, C0, re, im in Ab. cbn [fst snd] in Ab. replace (0 * 0 + 0 * 0) with 0 in Ab by ring. rewrite sqrt_0 in Ab. lra. }
  pose proof (angle_cis z Hz) as E. rewrite Ab in E. unfold z at 1 in E. assert (E' : cis (angle z) = cis t).
  { assert (X : Cmul (RtoC (/ r)) (RtoC r) = C1) by (rewrite RtoC_mul, Rinv_l by lra; reflexivity). transitivity (Cmul (Cmul (RtoC (/ r)) (RtoC r)) (cis (angle z))); [rewrite X; ring|]. transitivity (Cmul (RtoC (/ r)) (Cmul (RtoC r) (cis (angle z)))); [ring|]. rewrite <- E. transitivity (Cmul (Cmul (RtoC (/ r)) (RtoC r)) (cis t)); [ring|]. rewrite X. ring. }
  apply cis_inj in E' as (k & K). pose proof (angle_bounds z) as Bz. pose proof PI_RGT_0 as P. assert (k = 0)%Z. { assert (A : -1 < IZR k) by nra. assert (D : IZR k < 1) by nra. apply lt_IZR in A, D. lia. } subst k. lra.
Qed.
Lemma radio_errors : forall p f A w target state, usable (n_samples p) (window_t p) -> waveform_target w f A p = Ok target -> length target = n_samples p -> real_field target -> length state = n_samples p -> 0 < f -> A <> 0 ->
  (INR (n_samples p) / window_t p <= f -> radio_score p f A w state = Err IndexError) /\
  (f < INR (n_samples p) / window_t p -> exists s, radio_score p f A w state = Ok s).
Proof.
  intros p f A w target state U Hw Lt Rt Ls Hf HA. destruct (entry_exists (n_samples p) (window_t p) f U ltac:(lra)) as (k & K). pose proof (entry_last _ _ _ _ U K) as E. split; intros H.
  - apply (radio_out p f A w target k U Hw Lt Hf K state Ls). apply E. exact H.
  - assert (L : (k < n_samples p)%nat). { destruct (lt_dec k (n_samples p)) as [L|L]; [exact L|]. exfalso. assert (INR (n_samples p) / window_t p <= f) by (apply E; lia). lra. }
    destruct (radio_in p f A w target k U Hw Lt Hf K state Ls L) as (B & D). destruct (Req_dec (Cnorm2 (harmonic_at target k)) 0) as [T|T].
    + eexists. apply B. apply Cnorm2_zero. exact T.
    + destruct D as (y & _ & _ & _ & D); [intros X; apply T; rewrite X; cplx; ring|exact HA|exact Rt|]. eexists. exact D.
Qed.
Lemma radio_bounds : forall p f A w target state s, usable (n_samples p) (window_t p) -> waveform_target w f A p = Ok target -> length target = n_samples p -> real_field target -> length state = n_samples p -> 0 < f -> A <> 0 ->
  radio_score p f A w state = Ok (Some s) ->
  im s = 0 /\ (strength state - strength target) ^ 2 <= INR (n_samples p) * A ^ 2 * re s <= (strength state + strength target) ^ 2.
Proof.
  intros p f A w target state s U Hw Lt Rt Ls Hf HA E. destruct (entry_exists (n_samples p) (window_t p) f U ltac:(lra)) as (k & K).
  destruct (lt_dec k (n_samples p)) as [L|L]; [|rewrite (radio_out p f A w target k U Hw Lt Hf K state Ls ltac:(lia)) in E; discriminate]. destruct (radio_in p f A w target k U Hw Lt Hf K state Ls L) as (B & D). destruct (Req_dec (Cnorm2 (harmonic_at target k)) 0) as [T|T].
  - apply Cnorm2_zero in T. rewrite (B T) in E. discriminate.
  - destruct D as (y & I & Ly & _ & D); [intros X; apply T; rewrite X; cplx; ring|exact HA|exact Rt|]. rewrite D in E. assert (Es : s = RtoC (misfit (magnitudes y) target / (INR (n_samples p) * A ^ 2))) by congruence. subst s. split; [reflexivity|]. assert (Pn : 0 < INR (n_samples p)) by (apply INR_pos; destruct U; lia).
    change (re (RtoC (misfit (magnitudes y) target / (INR (n_samples p) * A ^ 2)))) with (misfit (magnitudes y) target / (INR (n_samples p) * A ^ 2)). replace (INR (n_samples p) * A ^ 2 * (misfit (magnitudes y) target / (INR (n_samples p) * A ^ 2))) with (misfit (magnitudes y) target) by (field; split; [exact HA|lra]).
    assert (S : strength (magnitudes y) = strength state) by (rewrite magnitudes_strength; unfold strength; f_equal; eapply twisted_energy; eassumption). rewrite <- S. apply misfit_bounds. rewrite magnitudes_length. lia.
Qed.
Lemma radio_misaligned : forall p f A w target state k r phi, usable (n_samples p) (window_t p) -> waveform_target w f A p = Ok target -> length target = n_samples p -> real_field target -> length state = n_samples p -> 0 < f -> A <> 0 ->
  entry_above (n_samples p) (window_t p) f k -> (2 * k < n_samples p)%nat -> harmonic_at target k <> C0 -> 0 < r -> - PI < phi <= PI ->
  harmonic_at state k = Cmul (Cmul (RtoC r) (cis phi)) (harmonic_at target k) ->
  let rho := (INR k + offset (n_samples p)) * (INR (n_samples p) / window_t p / INR (n_samples p - 1)) / f in
  1 < rho /\ exists y, radio_shifted p f A w state = Ok (Some (magnitudes y)) /\ energy y = energy state /\
    harmonic_at y k = Cmul (Cmul (RtoC r) (cis (phi * (1 + rho)))) (harmonic_at target k).
Proof.
  intros p f A w target state k r phi U Hw Lt Rt Ls Hf HA K K2 T Hr Hp Hs rho. destruct (factor_above p f target k U Lt Hf K K2) as (Fe & F1). split; [exact F1|].
  assert (L : (k < n_samples p)%nat) by lia. destruct (radio_in p f A w target k U Hw Lt Hf K state Ls L) as (_ & D). destruct (D T HA Rt) as (y & I & Ly & Sh & _). exists y. split; [exact Sh|].
  assert (An : angle (Cdiv (harmonic_at state k) (harmonic_at target k)) = phi). { rewrite Hs. unfold Cdiv. transitivity (angle (Cmul (RtoC r) (cis phi))); [f_equal|apply angle_of; assumption]. transitivity (Cmul (Cmul (RtoC r) (cis phi)) (Cmul (harmonic_at target k) (Cinv (harmonic_at target k)))); [ring|]. rewrite Cinv_r by exact T. ring. }
  split; [eapply twisted_energy; eassumption|]. rewrite (twisted_harmonic p f target Lt _ state y k Ls I L), An, Fe, Hs. fold rho. rewrite Rmult_plus_distr_l, Rmult_1_r, cis_add. ring.
Qed.

(** ** A delayed copy of the target is not recognised *)
Lemma cis_third : cis (2 * PI / 3) = (- / 2, sqrt 3 / 2).
Proof. unfold cis. replace (2 * PI / 3) with (2 * (PI / 3)) by field. rewrite cos_2PI3, sin_2PI3. f_equal; field. Qed.
Lemma cis_minus_third : cis (- (2 * PI / 3)) = (- / 2, - sqrt 3 / 2).
Proof. rewrite <- cis_conj, cis_third. unfold Cconj, re, im. cbn [fst snd]. f_equal. field. Qed.
Lemma harmonic_3 : forall a b c i, harmonic_at [a; b; c] i = Cadd (Cadd a (Cmul b (cis (INR i * - (2 * PI / 3))))) (Cmul c (Cmul (cis (INR i * - (2 * PI / 3))) (cis (INR i * - (2 * PI / 3))))).
Proof.
  intros a b c i. unfold harmonic_at. cbn [length csum nth]. rewrite <- cis_add.
  replace (- (2 * PI * INR 0 * INR i / INR 3)) with 0 by (simpl INR; field). replace (- (2 * PI * INR 1 * INR i / INR 3)) with (INR i * - (2 * PI / 3)) by (simpl INR; field).
  replace (- (2 * PI * INR 2 * INR i / INR 3)) with (INR i * - (2 * PI / 3) + INR i * - (2 * PI / 3)) by (simpl INR; field). rewrite cis_0. ring.
Qed.
Definition grid3 : grid := mkGrid 3 2 1.
Definition signal3 : list C := [RtoC 2; RtoC 1; RtoC 1].
Definition late3 : list C := [RtoC 1; RtoC 1; RtoC 2].
Definition shifted3 : list C := [RtoC ((4 + sqrt 3) / 3); RtoC ((4 - sqrt 3) / 3); RtoC (4 / 3)].
Lemma grid3_usable : usable (n_samples grid3) (window_t grid3).
Proof. split; cbn [n_samples window_t grid3]; [lia|lra]. Qed.
Lemma late3_advanced : advanced 1 signal3 late3.
Proof. split; [reflexivity|]. cbn [length signal3]. intros [|[|[|j]]] H; cbn; try reflexivity. lia. Qed.
Lemma factors_grid3 : map (fun x => x / (1 / 3)) (ifft_shift_ (grid_f grid3)) = [0; 9 / 4; - (9 / 4)].
Proof. unfold grid_f, linspace, tabulate, ifft_shift_. cbn [map seq length app skipn firstn Nat.sub Nat.div Nat.divmod fst snd n_samples window_t grid3]. simpl INR. repeat (apply (f_equal2 (@cons R)); [field|]). reflexivity. Qed.
Lemma late3_score : radio_score grid3 (1 / 3) 1 (Samples signal3) late3 = Ok (Some (RtoC ((4 - 2 * sqrt 3) / 9))).
Proof.
  assert (S3 : sqrt 3 * sqrt 3 = 3) by (apply sqrt_sqrt; lra). assert (K : entry_above 3 2 (1 / 3) 1) by (unfold entry_above; simpl INR; split; lra). pose proof PI_RGT_0 as Pp.
  assert (T1 : harmonic_at signal3 1 = C1). { unfold signal3. rewrite harmonic_3. simpl INR. rewrite Rmult_1_l, cis_minus_third. cplx. f_equal; nra. }
  assert (H1 : harmonic_at late3 1 = Cmul (RtoC 1) (cis (2 * PI / 3))). { unfold late3. rewrite harmonic_3. simpl INR. rewrite Rmult_1_l, cis_minus_third, cis_third. cplx. f_equal; nra. }
  assert (Hf : 0 < 1 / 3) by lra. destruct (radio_in grid3 (1 / 3) 1 (Samples signal3) signal3 1 grid3_usable eq_refl eq_refl Hf K late3 eq_refl) as (_ & D); [cbn [n_samples grid3]; lia|]. rewrite T1 in D.
  destruct D as (y & I & Ly & _ & E). { intros X. apply (f_equal fst) in X. cbn in X. lra. } { lra. } { intros z [<-|[<-|[<-|[]]]]; reflexivity. }
  rewrite E. do 3 f_equal. assert (Q : Cdiv (harmonic_at late3 1) C1 = Cmul (RtoC 1) (cis (2 * PI / 3))). { unfold Cdiv. assert (X : Cinv C1 = C1). { transitivity (Cmul C1 (Cinv C1)); [ring|]. apply Cinv_r. intros X. apply (f_equal fst) in X. cbn in X. lra. } rewrite X, H1. ring. }
  rewrite Q, angle_of in I by lra. clear Q. assert (Y : y = shifted3).
  { destruct (fft_total shifted3) as (s & F); [cbn; lia|]. destruct (fft_ok _ _ F) as (Ls & _ & _). cbn [shifted3 length] in Ls.
    assert (Q : twisted grid3 (1 / 3) (2 * PI / 3) late3 = s).
    { apply (list_eq_nth C0); [unfold twisted; rewrite tabulate_length; cbn [n_samples grid3]; lia|]. unfold twisted. rewrite tabulate_length, factors_grid3. cbn [n_samples grid3]. intros i Hi. rewrite tabulate_nth by exact Hi. rewrite (harmonic_fft shifted3 s i F) by exact Hi.
      unfold shifted3, late3. rewrite !harmonic_3. assert (I3 : (i = 0 \/ i = 1 \/ i = 2)%nat) by lia. destruct I3 as [->|[->| ->]]; cbn [nth]; simpl INR.
      - rewrite Rmult_0_l, Rmult_0_r, cis_0. cplx. f_equal; field.
      - rewrite Rmult_1_l, cis_minus_third. replace (2 * PI / 3 * (9 / 4)) with (3 * (PI / 2)) by field. unfold cis. rewrite cos_3PI2, sin_3PI2. cplx. f_equal; nra.
      - replace ((1 + 1) * - (2 * PI / 3)) with (2 * PI / 3 + 2 * PI * IZR (-1)) by field. rewrite cis_add, cis_Z, cis_third. replace (2 * PI / 3 * - (9 / 4)) with (- (3 * (PI / 2))) by field. unfold cis. rewrite cos_neg, sin_neg, cos_3PI2, sin_3PI2. cplx. f_equal; nra. }
    rewrite Q in I. exact (ifft_fft _ _ _ F I). }
  subst y. pose proof (sqrt_pos 3) as S0. assert (S1 : 1 < sqrt 3 < 2) by (split; nra). unfold misfit. cbn [signal3 length rsum n_samples grid3]. rewrite !magnitudes_nth. unfold shifted3. cbn [nth]. rewrite !Cnorm2_RtoC, !sqrt_square by lra. cplx. cbn [signal3 nth RtoC fst snd]. simpl INR. field_simplify_eq. nra.
Qed.
