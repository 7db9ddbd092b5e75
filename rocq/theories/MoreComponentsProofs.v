(** Proofs for MoreComponentsModel.v. *)
From Coq Require Import Reals List Arith ZArith Lia Lra.
From Verif Require Import Base Complex ArrayModel ComponentModel MoreComponentsModel ComponentSpec MoreComponentsSpec FourierProofs FilterProofs ComponentProofs GridProofs ShaperProofs SplitterProofs DetectorProofs.
Import ListNotations.
Local Open Scope R_scope.

(** ** Bernstein polynomials *)
Lemma fold_rsum : forall n (f : nat -> R) acc, fold_left (fun y m => y + f m) (seq 0 n) acc = acc + rsum n f.
Proof.
  induction n as [|n IH]; intros f acc; [cbn; ring|]. rewrite seq_S, fold_left_app, IH. cbn [fold_left rsum Nat.add]. ring.
Qed.
Lemma waveform_sum : forall t c, get_waveform t c = rsum (length c) (fun m => nth m c 0 * bernstein t m (length c - 1)).
Proof. intros t c. unfold get_waveform. rewrite (fold_rsum (length c) (fun m => nth m c 0 * bernstein t m (length c - 1))). ring. Qed.
Lemma rsum_sum_f : forall n f, rsum (S n) f = sum_f_R0 f n.
Proof. induction n as [|n IH]; intros f; [cbn; ring|]. rewrite tech5, <- IH. reflexivity. Qed.

Lemma choose_nonneg : forall n i, 0 <= INR (fact n) / (INR (fact i) * INR (fact (n - i))).
Proof.
  intros n i. apply Rlt_le, Rdiv_lt_0_compat; [|apply Rmult_lt_0_compat]; apply INR_fact_lt_0.
Qed.
Lemma bernstein_total : forall a b n, rsum (S n) (fun i => INR (fact n) / (INR (fact i) * INR (fact (n - i))) * a ^ i * b ^ (n - i)) = (a + b) ^ n.
Proof. intros a b n. rewrite rsum_sum_f, binomial. apply sum_eq. intros i Hi. reflexivity. Qed.
Lemma bernstein_abs : forall t i n, Rabs (bernstein t i n) = INR (fact n) / (INR (fact i) * INR (fact (n - i))) * Rabs t ^ i * Rabs (1 - t) ^ (n - i).
Proof. intros t i n. unfold bernstein. rewrite !Rabs_mult, <- !RPow_abs. rewrite (Rabs_right (_ / _)) by (apply Rle_ge, choose_nonneg). reflexivity. Qed.
Lemma rsum_abs : forall n f, Rabs (rsum n f) <= rsum n (fun i => Rabs (f i)).
Proof. induction n as [|n IH]; intros f; cbn [rsum]; [rewrite Rabs_R0; lra|]. eapply Rle_trans; [apply Rabs_triang|]. specialize (IH f). lra. Qed.

Lemma waveform_bound : forall t c, (forall a, In a c -> fraction a) -> (1 <= length c)%nat -> Rabs (get_waveform t c) <= (Rabs t + Rabs (1 - t)) ^ (length c - 1).
Proof.
  intros t c H L. rewrite waveform_sum. eapply Rle_trans; [apply rsum_abs|]. rewrite <- bernstein_total. replace (S (length c - 1)) with (length c) by lia. apply rsum_le. intros i Hi.
  rewrite Rabs_mult, bernstein_abs. assert (F : fraction (nth i c 0)) by (apply H, nth_In; exact Hi). destruct F as [F1 F2]. rewrite (Rabs_right (nth i c 0)) by lra.
  rewrite <- (Rmult_1_l (_ * _ * _)) at 2. apply Rmult_le_compat_r; [|exact F2]. apply Rmult_le_pos; [apply Rmult_le_pos; [apply choose_nonneg|]|]; apply pow_le, Rabs_pos.
Qed.
Lemma waveform_inside : forall t c, (forall a, In a c -> fraction a) -> (1 <= length c)%nat -> 0 <= t <= 1 -> 0 <= get_waveform t c <= 1.
Proof.
  intros t c H L T. split.
  - rewrite waveform_sum. apply rsum_nonneg. intros i Hi. destruct (H _ (nth_In c 0 Hi)) as [F _]. apply Rmult_le_pos; [exact F|]. unfold bernstein. apply Rmult_le_pos; [apply Rmult_le_pos; [apply choose_nonneg|]|]; apply pow_le; lra.
  - pose proof (waveform_bound t c H L) as B. rewrite (Rabs_right t), (Rabs_right (1 - t)) in B by lra. replace (t + (1 - t)) with 1 in B by ring. rewrite pow1 in B. pose proof (Rle_abs (get_waveform t c)). lra.
Qed.

(** ** The grid of the programmable filter *)
Lemma round_near : forall x, Rabs (x - IZR (round_even x)) <= / 2.
Proof.
  intros x. destruct (base_Int_part x) as [B1 B2]. unfold round_even. set (f := Int_part x) in *. apply Rabs_le.
  destruct (Rlt_dec (x - IZR f) (/ 2)) as [H|H]; [split; lra|]. destruct (Rlt_dec (/ 2) (x - IZR f)) as [K|K]; [rewrite plus_IZR; split; lra|]. destruct (Z.even f); [split; lra|]. rewrite plus_IZR; split; lra.
Qed.
Lemma round_pos : forall x, / 2 < x -> (1 <= round_even x)%Z.
Proof.
  intros x H. destruct (Z_le_gt_dec 1 (round_even x)) as [K|K]; [exact K|exfalso].
  assert (Z : IZR (round_even x) <= 0) by (apply IZR_le; lia). pose proof (round_near x) as N. assert (N' : x - IZR (round_even x) <= / 2) by (eapply Rle_trans; [apply Rle_abs|exact N]). lra.
Qed.

Lemma positions_length : forall p, length (band_positions p) = n_samples p.
Proof. intros p. unfold band_positions. rewrite map_length. apply tabulate_length. Qed.
Lemma positions_nth : forall p i, usable (n_samples p) (window_t p) -> (1 <= band_half p)%Z -> (i < n_samples p)%nat ->
  nth i (band_positions p) 0 = / 2 + INR (n_samples p) / (INR (n_samples p) - 1) * (nth i (grid_f p) 0 / grid_df p) / (2 * IZR (band_half p)).
Proof.
  intros p i U B Hi. unfold band_positions. assert (Bp : 1 <= IZR (band_half p)) by (apply IZR_le; exact B). destruct U as [U W]. pose proof (samples_big _ U) as Nb.
  set (g := fun x => x / (2 * IZR (band_half p)) + 1). rewrite (nth_indep _ 0 (g 0)) by (rewrite map_length; unfold linspace; rewrite tabulate_length; exact Hi). rewrite map_nth. unfold linspace. rewrite tabulate_nth by exact Hi.
  rewrite grid_f_nth by (assumption || (split; assumption)). rewrite pred_INR by lia. pose proof (grid_df_pos p (conj U W)) as D. unfold g. field. repeat split; lra.
Qed.

(* how far outside the unit interval the positions can be, seen from its middle *)
Definition reach (p : grid) : R := INR (n_samples p) / (INR (n_samples p) - 1) * (band_width / 2 / grid_df p) / IZR (band_half p).

Lemma band_pos : forall p, usable (n_samples p) (window_t p) -> grid_df p < band_width -> (1 <= band_half p)%Z.
Proof.
  intros p U H. apply round_pos. pose proof (grid_df_pos p U) as D. replace (band_width / 2 / grid_df p) with (/ 2 * (band_width / grid_df p)) by (field; repeat split; lra). rewrite <- (Rmult_1_r (/ 2)) at 1. apply Rmult_lt_compat_l; [lra|].
  apply (Rmult_lt_reg_r (grid_df p)); [exact D|]. unfold Rdiv. rewrite Rmult_assoc, Rinv_l by lra. lra.
Qed.

Lemma two_abs : forall t, Rabs t + Rabs (1 - t) = Rmax 1 (2 * Rabs (t - / 2)).
Proof.
  intros t. unfold Rmax. destruct (Rle_dec 1 (2 * Rabs (t - / 2))) as [H|H]; revert H; unfold Rabs; destruct (Rcase_abs t), (Rcase_abs (1 - t)), (Rcase_abs (t - / 2)); lra.
Qed.
Lemma spread_bound : forall p i, usable (n_samples p) (window_t p) -> grid_df p < band_width -> (i < n_samples p)%nat -> Rabs (nth i (grid_f p) 0) <= band_width / 2 ->
  Rabs (nth i (band_positions p) 0) + Rabs (1 - nth i (band_positions p) 0) <= Rmax 1 (reach p).
Proof.
  intros p i U H Hi Hb. pose proof (band_pos p U H) as B. assert (Bp : 1 <= IZR (band_half p)) by (apply IZR_le; exact B). pose proof (grid_df_pos p U) as D. pose proof (samples_big _ (proj1 U)) as Nb.
  rewrite two_abs. apply Rle_max_compat_l. rewrite positions_nth by assumption. set (f := nth i (grid_f p) 0) in *. set (b := IZR (band_half p)) in *. set (N := INR (n_samples p)) in *.
  replace (/ 2 + N / (N - 1) * (f / grid_df p) / (2 * b) - / 2) with (N / (N - 1) / grid_df p / (2 * b) * f) by (field; repeat split; lra).
  assert (K : 0 < N / (N - 1) / grid_df p / (2 * b)) by (revert D; generalize (grid_df p); intros d D; repeat apply Rdiv_lt_0_compat; lra).
  rewrite Rabs_mult, (Rabs_right (N / (N - 1) / grid_df p / (2 * b))) by lra. unfold reach. fold N b.
  replace (N / (N - 1) * (band_width / 2 / grid_df p) / b) with (2 * (N / (N - 1) / grid_df p / (2 * b) * (band_width / 2))) by (field; repeat split; lra).
  apply Rmult_le_compat_l; [lra|]. apply Rmult_le_compat_l; [lra|exact Hb].
Qed.

(* the amplitude mask at one frequency *)
Lemma combine_nth_0 : forall {A B D} (f : A -> B -> D) (a : list A) (b : list B) i da db dd, length a = length b -> (i < length a)%nat ->
  nth i (map (fun q => f (fst q) (snd q)) (combine a b)) dd = f (nth i a da) (nth i b db).
Proof.
  intros A B D f a b i da db dd L Hi. rewrite (nth_indep _ dd (f da db)) by (rewrite map_length, combine_length, <- L, Nat.min_id; exact Hi).
  rewrite (map_nth (fun q => f (fst q) (snd q)) (combine a b) (da, db)), combine_nth by exact L. reflexivity.
Qed.
Lemma programmable_masks : forall amps phases p, exists am ph,
  broadcast Rmult (map (fun t => get_waveform t amps) (band_positions p)) (map (fun f => if Rle_dec (Rabs f) (band_width / 2) then 1 else 0) (grid_f p)) = Ok am /\
  broadcast Rmult (map (fun t => get_waveform t phases) (band_positions p)) (map (fun f => if Rle_dec (Rabs f) (band_width / 2) then 1 else 0) (grid_f p)) = Ok ph /\
  broadcast (fun a h => Cmul (RtoC a) (cis h)) am ph = Ok (map (fun q => Cmul (RtoC (fst q)) (cis (snd q))) (combine am ph)) /\
  length am = n_samples p /\ length ph = n_samples p /\
  forall i, (i < n_samples p)%nat -> nth i am 0 = get_waveform (nth i (band_positions p) 0) amps * (if Rle_dec (Rabs (nth i (grid_f p) 0)) (band_width / 2) then 1 else 0).
Proof.
  intros amps phases p. set (band := map _ (grid_f p)). assert (Lb : length band = n_samples p) by (unfold band; rewrite map_length; apply grid_f_length).
  assert (La : forall c, length (map (fun t => get_waveform t c) (band_positions p)) = n_samples p) by (intros c; rewrite map_length; apply positions_length).
  rewrite !broadcast_same by (rewrite La, Lb; reflexivity). eexists; eexists. split; [reflexivity|]. split; [reflexivity|].
  assert (Lm : forall c, length (map (fun q : R * R => fst q * snd q) (combine (map (fun t => get_waveform t c) (band_positions p)) band)) = n_samples p) by (intros c; rewrite map_length, combine_length, La, Lb; apply Nat.min_id).
  rewrite broadcast_same by (rewrite !Lm; reflexivity). split; [reflexivity|]. split; [apply Lm|]. split; [apply Lm|]. intros i Hi.
  rewrite (combine_nth_0 Rmult _ band i 0 0) by (rewrite La, ?Lb; (reflexivity || exact Hi)). f_equal.
  - rewrite (nth_indep _ 0 ((fun t => get_waveform t amps) 0)) by (rewrite La; exact Hi). apply (map_nth (fun t => get_waveform t amps)).
  - unfold band. set (h := fun f => if Rle_dec (Rabs f) (band_width / 2) then 1 else 0). rewrite (nth_indep _ 0 (h 0)) by (rewrite map_length, grid_f_length; exact Hi). apply (map_nth h).
Qed.

Lemma In_nth_R : forall (l : list R) a, In a l -> exists i, (i < length l)%nat /\ nth i l 0 = a.
Proof. intros l a H. destruct (In_nth l a 0 H) as (i & H1 & H2). exists i; auto. Qed.

Lemma combine_polar_norm : forall (am ph : list R) hi, (forall a, In a am -> a * a <= hi) -> forall m, In m (map (fun q => Cmul (RtoC (fst q)) (cis (snd q))) (combine am ph)) -> 0 <= Cnorm2 m <= hi.
Proof.
  intros am ph hi H m Hm. apply in_map_iff in Hm. destruct Hm as ([a h] & <- & Hq). apply in_combine_l in Hq. cbn [fst snd]. rewrite polar_norm. split; [apply Rle_0_sqr|apply H; exact Hq].
Qed.

Lemma programmable_energy : forall amps phases p x hi, usable (n_samples p) (window_t p) -> length x = n_samples p ->
  (forall i, (i < n_samples p)%nat -> Rabs (nth i (grid_f p) 0) <= band_width / 2 -> Rabs (get_waveform (nth i (band_positions p) 0) amps) <= hi) -> 0 <= hi ->
  yields x (programmable_filter amps phases p x) (fun y => energy y <= ten_to (- (45 / 100)) * (hi * hi) * energy x).
Proof.
  intros amps phases p x hi U L Hb H0. unfold programmable_filter. destruct (programmable_masks amps phases p) as (am & ph & E1 & E2 & E3 & L1 & L2 & V). rewrite E1. cbn [bind]. rewrite E2. cbn [bind]. rewrite E3. cbn [bind].
  set (mask := map _ (combine am ph)). assert (Lm : length mask = n_samples p) by (unfold mask; rewrite map_length, combine_length, L1, L2; apply Nat.min_id).
  assert (A : forall a, In a am -> a * a <= hi * hi).
  { intros a Ha. destruct (In_nth_R _ _ Ha) as (i & Hi & <-). rewrite L1 in Hi. rewrite V by exact Hi. destruct (Rle_dec (Rabs (nth i (grid_f p) 0)) (band_width / 2)) as [R|R]; [|rewrite Rmult_0_r, Rmult_0_r; apply Rle_0_sqr].
    rewrite Rmult_1_r. specialize (Hb i Hi R). rewrite <- (Rabs_right (get_waveform _ amps * _)) by (apply Rle_ge, Rle_0_sqr). rewrite Rabs_mult. apply Rmult_le_compat; try apply Rabs_pos; exact Hb. }
  eapply yields_scale; [apply (filter_bounds p (ifft_shift_ mask) x 0 (hi * hi)); [apply grid_dt_nz; exact U|apply (pos_len p); assumption|rewrite ifft_shift_length; lia|]|].
  - intros m Hm. apply (proj1 (ifft_shift_In _ _)) in Hm. apply (combine_polar_norm am ph _ A m Hm).
  - intros y _ [_ Hy]. cbn beta. rewrite energy_scale, ratio_square. replace (- (45 / 10) / 10) with (- (45 / 100)) by field. rewrite Rmult_assoc. apply Rmult_le_compat_l; [apply Rlt_le, ten_to_pos|exact Hy].
Qed.

Lemma programmable_reach : forall amps phases p x, usable (n_samples p) (window_t p) -> length x = n_samples p -> grid_df p < band_width ->
  (1 <= length amps)%nat -> (forall a, In a amps -> fraction a) ->
  yields x (programmable_filter amps phases p x) (fun y => energy y <= ten_to (- (45 / 100)) * Rmax 1 (reach p) ^ (2 * (length amps - 1)) * energy x).
Proof.
  intros amps phases p x U L H La Fa. set (m := Rmax 1 (reach p)). assert (M : 1 <= m) by apply Rmax_l.
  replace (m ^ (2 * (length amps - 1))) with (m ^ (length amps - 1) * m ^ (length amps - 1)) by (rewrite <- pow_add; f_equal; lia).
  apply programmable_energy; [exact U|exact L| |apply pow_le; lra]. intros i Hi Hb. eapply Rle_trans; [apply waveform_bound; assumption|]. apply pow_incr. split; [pose proof (Rabs_pos (nth i (band_positions p) 0)); pose proof (Rabs_pos (1 - nth i (band_positions p) 0)); lra|]. apply spread_bound; assumption.
Qed.

Lemma loss_45 : / 10 <= ten_to (- (45 / 100)) <= 2 / 5.
Proof.
  split.
  - replace (/ 10) with (ten_to (- (1))); [apply ten_to_le; lra|]. unfold ten_to. rewrite Rpower_Ropp, Rpower_1 by lra. reflexivity.
  - destruct (Rle_lt_dec (ten_to (- (45 / 100))) (2 / 5)) as [H|H]; [exact H|exfalso]. assert (Z : 0 <= 2 / 5 < ten_to (- (45 / 100))) by lra. pose proof (pow_strict 19 _ _ Z) as P.
    assert (E : ten_to (- (45 / 100)) ^ 20 * 10 ^ 9 = 1).
    { rewrite <- (ten_to_nat 9). unfold ten_to at 1. rewrite <- Rpower_pow by apply exp_pos. rewrite Rpower_mult. fold (ten_to (- (45 / 100) * INR 20)). rewrite <- ten_to_add. replace (- (45 / 100) * INR 20 + INR 9) with 0 by (cbn [INR]; field). apply ten_to_0. }
    assert (K : 1 < (2 / 5) ^ 20 * 10 ^ 9) by lra. assert (Q : (2 / 5) ^ 20 * 10 ^ 9 < ten_to (- (45 / 100)) ^ 20 * 10 ^ 9) by (apply Rmult_lt_compat_r; [apply pow_lt; lra|exact P]). lra.
Qed.

Lemma programmable_passive : forall amps phases p x, usable (n_samples p) (window_t p) -> length x = n_samples p -> (50 <= n_samples p)%nat -> 40 * grid_df p <= band_width ->
  length amps = 10%nat -> (forall a, In a amps -> fraction a) ->
  yields x (programmable_filter amps phases p x) (fun y => energy y <= energy x).
Proof.
  intros amps phases p x U L H50 H40 La Fa. pose proof (grid_df_pos p U) as D. assert (Hd : grid_df p < band_width) by lra.
  destruct (programmable_reach amps phases p x U L Hd) as (y & E & Ly & Hy); [lia|exact Fa|]. exists y. split; [exact E|]. split; [exact Ly|]. rewrite La in Hy. replace (2 * (10 - 1))%nat with 18%nat in Hy by reflexivity.
  assert (R : Rmax 1 (reach p) <= 105 / 100).
  { apply Rmax_lub; [lra|]. unfold reach. set (h := band_width / 2 / grid_df p). assert (Hh : 20 <= h). { unfold h. apply (Rmult_le_reg_r (2 * grid_df p)); [lra|]. replace (band_width / 2 / grid_df p * (2 * grid_df p)) with band_width by (field; lra). lra. }
    assert (Hb : h - / 2 <= IZR (band_half p)). { pose proof (round_near h) as Q. unfold band_half. fold h. pose proof (Rle_abs (h - IZR (round_even h))). lra. }
    assert (N : 50 <= INR (n_samples p)). { replace 50 with (INR 50) by (rewrite INR_IZR_INZ; reflexivity). apply le_INR. exact H50. }
    set (n := INR (n_samples p)) in *. set (b := IZR (band_half p)) in *. apply (Rmult_le_reg_r ((n - 1) * b)); [apply Rmult_lt_0_compat; lra|]. replace (n / (n - 1) * h / b * ((n - 1) * b)) with (n * h) by (field; split; lra).
    assert (A : n <= 50 / 49 * (n - 1)) by lra. assert (B : h <= 40 / 39 * b) by lra. assert (C' : n * h <= 50 / 49 * (n - 1) * (40 / 39 * b)) by (apply Rmult_le_compat; lra). assert (Pp : 0 <= (n - 1) * b) by (apply Rmult_le_pos; lra). lra. }
  assert (R1 : 1 <= Rmax 1 (reach p)) by apply Rmax_l.
  assert (P : Rmax 1 (reach p) ^ 18 <= (105 / 100) ^ 18) by (apply pow_incr; lra).
  assert (P0 : 0 <= Rmax 1 (reach p) ^ 18) by (apply pow_le; lra). assert (Q : (105 / 100) ^ 18 <= 5 / 2) by lra. destruct loss_45 as [T1 T2]. pose proof (energy_nonneg x) as E0.
  eapply Rle_trans; [exact Hy|]. rewrite <- (Rmult_1_l (energy x)) at 2. apply Rmult_le_compat_r; [exact E0|]. apply Rle_trans with (2 / 5 * (5 / 2)); [apply Rmult_le_compat; lra|lra].
Qed.

(* a pulse of one sample has a flat spectrum *)
Definition pulse (n : nat) : list C := C1 :: repeat C0 (n - 1).
Lemma pulse_length : forall n, (1 <= n)%nat -> length (pulse n) = n.
Proof. intros n H. unfold pulse. cbn [length]. rewrite repeat_length. lia. Qed.
Lemma pulse_nth : forall n i, nth i (pulse n) C0 = if Nat.eqb i 0 then C1 else C0.
Proof. intros n [|i]; [reflexivity|]. unfold pulse. cbn [nth Nat.eqb]. apply nth_repeat. Qed.
Lemma pulse_energy : forall n, energy (pulse n) = 1.
Proof.
  intros n. unfold pulse, energy. cbn [fold_right]. assert (Z : forall k, fold_right (fun z e => Cnorm2 z + e) 0 (repeat C0 k) = 0). { induction k as [|k IH]; [reflexivity|]. cbn [repeat fold_right]. rewrite IH. unfold Cnorm2, C0, re, im. cbn [fst snd]. ring. }
  rewrite Z. unfold Cnorm2, C1, re, im. cbn [fst snd]. ring.
Qed.
Lemma flat_energy : forall p n mask, grid_dt p <> 0 -> (1 <= n)%nat -> length mask = n ->
  exists out, filter_spectrum p mask (pulse n) = Ok out /\ length out = n /\ INR n * energy out = rsum n (fun k => Cnorm2 (nth k mask C0)).
Proof.
  intros p n mask D Hn Lm. pose proof (pulse_length n Hn) as Lp. destruct (filter_ok p mask (pulse n) D) as (y & out & F & L & E & I & Lo); [lia|lia|]. exists out. split; [exact E|]. split; [lia|].
  pose proof (parseval_inv _ _ I) as Q. rewrite zipmul_length in Q by lia. rewrite L, Lp in Q. unfold energy. rewrite list_energy, Lo, Lp, <- Q. apply rsum_ext. intros k Hk. rewrite zipmul_nth by lia. rewrite Cnorm2_mul.
  destruct (fft_ok _ _ F) as (_ & _ & V). rewrite V by lia. rewrite (csum_single _ 0); [|lia|].
  - rewrite pulse_nth. cbn [Nat.eqb]. rewrite Cnorm2_mul, cis_norm. unfold Cnorm2 at 2, C1, re, im. cbn [fst snd]. ring.
  - intros i Hi Hz. rewrite pulse_nth. apply Nat.eqb_neq in Hz. rewrite Hz. ring.
Qed.
Lemma rsum_term : forall n f k, (k < n)%nat -> (forall i, (i < n)%nat -> 0 <= f i) -> f k <= rsum n f.
Proof.
  induction n as [|n IH]; intros f k Hk P; [lia|]. cbn [rsum]. destruct (Nat.eq_dec k n) as [->|Z].
  - pose proof (rsum_nonneg n f (fun i Hi => P i (Nat.lt_lt_succ_r _ _ Hi))). lra.
  - pose proof (IH f k ltac:(lia) (fun i Hi => P i (Nat.lt_lt_succ_r _ _ Hi))). pose proof (P n (Nat.lt_succ_diag_r n)). lra.
Qed.

Definition coarse : grid := mkGrid 3 (3 / band_width) 1.
Definition last_only : list R := repeat 0 9 ++ [1].
Lemma coarse_usable : usable (n_samples coarse) (window_t coarse).
Proof. split; [cbn; lia|]. cbn. unfold band_width. apply Rdiv_lt_0_compat; [lra|]. apply Rmult_lt_0_compat; [lra|apply pow_lt; lra]. Qed.
Lemma band_width_pos : 0 < band_width.
Proof. unfold band_width. apply Rmult_lt_0_compat; [lra|apply pow_lt; lra]. Qed.
Lemma coarse_df : grid_df coarse = band_width / 2.
Proof. rewrite grid_df_val. cbn [coarse n_samples window_t Nat.sub]. pose proof band_width_pos. cbn [INR]. field. lra. Qed.
Lemma coarse_half : band_half coarse = 1%Z.
Proof.
  unfold band_half. rewrite coarse_df. pose proof band_width_pos. replace (band_width / 2 / (band_width / 2)) with 1 by (field; lra).
  pose proof (round_near 1) as N. assert (P : (1 <= round_even 1)%Z) by (apply round_pos; lra). assert (Q : IZR (round_even 1) < 2). { assert (- / 2 <= 1 - IZR (round_even 1)) by (revert N; unfold Rabs; destruct (Rcase_abs _); lra). lra. }
  apply lt_IZR in Q. lia.
Qed.

Lemma bernstein_last : forall t n, bernstein t n n = t ^ n.
Proof. intros t n. unfold bernstein. rewrite Nat.sub_diag. cbn [pow]. change (INR (fact 0)) with 1. field. apply INR_fact_neq_0. Qed.
Lemma last_only_wave : forall t, get_waveform t last_only = t ^ 9.
Proof.
  intros t. rewrite waveform_sum. change (length last_only) with 10%nat. change (10 - 1)%nat with 9%nat. cbn [rsum]. rewrite bernstein_last. unfold last_only. cbn [repeat app nth]. ring.
Qed.
Lemma programmable_amplifies : forall phases, exists y, programmable_filter last_only phases coarse (pulse 3) = Ok y /\ energy (pulse 3) < energy y.
Proof.
  intros phases. unfold programmable_filter. destruct (programmable_masks last_only phases coarse) as (am & ph & E1 & E2 & E3 & L1 & L2 & V). rewrite E1. cbn [bind]. rewrite E2. cbn [bind]. rewrite E3. cbn [bind].
  set (mask := map _ (combine am ph)). change (n_samples coarse) with 3%nat in *. assert (Lm : length mask = 3%nat) by (unfold mask; rewrite map_length, combine_length, L1, L2; reflexivity).
  pose proof coarse_usable as U. destruct (flat_energy coarse 3 (ifft_shift_ mask)) as (out & E & Lo & En); [apply grid_dt_nz; exact U|lia|rewrite ifft_shift_length; exact Lm|]. rewrite E. cbn [bind]. eexists; split; [reflexivity|].
  rewrite energy_scale, ratio_square, pulse_energy. replace (- (45 / 10) / 10) with (- (45 / 100)) by field.
  assert (K : (5 / 4) ^ 18 <= rsum 3 (fun k => Cnorm2 (nth k (ifft_shift_ mask) C0))).
  { assert (M : nth 1 (ifft_shift_ mask) C0 = nth 2 mask C0) by (rewrite ifft_shift_nth by lia; rewrite Lm; reflexivity).
    eapply Rle_trans; [|apply (rsum_term 3 _ 1); [lia|intros; apply Cnorm2_nonneg]]. cbn beta. rewrite M. unfold mask. rewrite (combine_nth_0 (fun a h => Cmul (RtoC a) (cis h)) am ph 2 0 0) by lia. rewrite polar_norm, V by lia.
    pose proof band_width_pos as B. pose proof coarse_df as D. assert (Ef : nth 2 (grid_f coarse) 0 = band_width / 2). { rewrite grid_f_nth by (exact U || (cbn; lia)). rewrite D. change (n_samples coarse) with 3%nat. cbn [INR]. field. }
    assert (Ep : nth 2 (band_positions coarse) 0 = 5 / 4). { rewrite positions_nth; [|exact U|rewrite coarse_half; lia|cbn; lia]. rewrite Ef, D, coarse_half. change (n_samples coarse) with 3%nat. cbn [INR]. field. lra. }
    rewrite Ef, Ep, last_only_wave. destruct (Rle_dec (Rabs (band_width / 2)) (band_width / 2)) as [R|R]; [|exfalso; apply R; rewrite Rabs_right; lra]. lra. }
  rewrite <- En in K. replace (INR 3) with 3 in K by (cbn [INR]; ring). destruct loss_45 as [T _]. assert (Eo : (5 / 4) ^ 18 / 3 <= energy out) by lra. assert (Z : / 10 * ((5 / 4) ^ 18 / 3) <= ten_to (- (45 / 100)) * energy out) by (apply Rmult_le_compat; lra). lra.
Qed.

(** ** The split-and-delay line *)
Definition pair_energy (f : list C * list C) : R := energy (fst f) + energy (snd f).
Lemma energy_sum : forall x, energy x = rsum (length x) (fun i => Cnorm2 (nth i x C0)).
Proof. intros x. unfold energy. apply list_energy. Qed.
Lemma coupler : forall c d s l, c * c + d * d = 1 ->
  Cnorm2 (Cadd (Cmul (RtoC c) s) (Cmul (Cmul Ci (RtoC d)) l)) + Cnorm2 (Cadd (Cmul (Cmul Ci (RtoC d)) s) (Cmul (RtoC c) l)) = Cnorm2 s + Cnorm2 l.
Proof.
  intros c d [s1 s2] [l1 l2] H. unfold Cnorm2, Cadd, Cmul, Ci, RtoC, re, im. cbn [fst snd].
  transitivity ((c * c + d * d) * (s1 * s1 + s2 * s2 + (l1 * l1 + l2 * l2))); [ring|]. rewrite H. ring.
Qed.
Lemma zipadd_nth : forall a b k, length a = length b -> nth k (map (fun q => Cadd (fst q) (snd q)) (combine a b)) C0 = Cadd (nth k a C0) (nth k b C0).
Proof.
  induction a as [|x a IH]; intros [|y b] k L; cbn in L; try lia; [destruct k; cbn; ring|]. destruct k as [|k]; cbn [combine map nth fst snd]; [reflexivity|]. apply IH. lia.
Qed.
Lemma map_Cmul_nth : forall c l k, nth k (map (Cmul c) l) C0 = Cmul c (nth k l C0).
Proof. intros c l k. apply map_nth_d. ring. Qed.

Lemma stage_ok : forall p r d short long, length short = n_samples p -> length long = n_samples p ->
  exists short' long', split_stage p r d (short, long) = Ok (short', long') /\ length short' = n_samples p /\ length long' = n_samples p /\ pair_energy (short', long') = pair_energy (short, long) /\ (r = 0 -> short' = short).
Proof.
  intros p r d short long Ls Ll. unfold split_stage. set (c := cos (PI / 2 * r)). set (s := sin (PI / 2 * r)).
  assert (CS : c * c + s * s = 1). { pose proof (sin2_cos2 (PI / 2 * r)) as H. unfold Rsqr in H. fold c s in H. lra. }
  rewrite !broadcast_same by (rewrite !map_length; lia). cbn [bind].
  set (ns := map _ (combine (map (Cmul (RtoC c)) short) _)). set (mx := map _ (combine (map (Cmul (Cmul Ci (RtoC s))) short) _)).
  assert (Lns : length ns = n_samples p) by (unfold ns; rewrite map_length, combine_length, !map_length, Ls, Ll; apply Nat.min_id).
  assert (Lmx : length mx = n_samples p) by (unfold mx; rewrite map_length, combine_length, !map_length, Ls, Ll; apply Nat.min_id).
  match goal with |- context [broadcast Cmul ?m mx] => set (ms := m) end.
  assert (Lms : length ms = n_samples p) by (unfold ms; rewrite map_length, ifft_shift_length, !map_length; apply grid_f_length).
  rewrite broadcast_same by lia. cbn [bind]. fold (zipmul ms mx). exists ns, (zipmul ms mx). split; [reflexivity|]. split; [exact Lns|]. split; [rewrite zipmul_length; lia|]. split.
  - unfold pair_energy. cbn [fst snd]. rewrite !energy_sum. rewrite zipmul_length by lia. rewrite Lns, Lmx, Ls, Ll, <- !rsum_add. apply rsum_ext. intros k Hk.
    rewrite zipmul_nth by lia. rewrite Cnorm2_mul. unfold ms at 1. rewrite (nth_indep (map cis _) C0 (cis 0)) by (rewrite map_length, ifft_shift_length, !map_length, grid_f_length; exact Hk). rewrite map_nth, cis_norm, Rmult_1_l.
    unfold ns, mx. rewrite !zipadd_nth by (rewrite !map_length; lia). rewrite !map_Cmul_nth. apply coupler. exact CS.
  - intros ->. apply (list_eq_nth C0); [lia|]. intros k Hk. unfold ns. rewrite zipadd_nth by (rewrite !map_length; lia). rewrite !map_Cmul_nth. unfold c, s. rewrite Rmult_0_r, cos_0, sin_0. change (RtoC 1) with C1. change (RtoC 0) with C0. ring.
Qed.
Lemma stages_ok : forall p rs k short long, length short = n_samples p -> length long = n_samples p ->
  exists short' long', split_stages p k rs (short, long) = Ok (short', long') /\ length short' = n_samples p /\ length long' = n_samples p /\ pair_energy (short', long') = pair_energy (short, long) /\ ((forall r, In r rs -> r = 0) -> short' = short).
Proof.
  intros p. induction rs as [|r rs IH]; intros k short long Ls Ll; cbn [split_stages].
  - exists short, long. repeat split; try assumption.
  - destruct (stage_ok p r (stage_delay k) short long Ls Ll) as (s1 & l1 & E1 & Ls1 & Ll1 & P1 & Z1). rewrite E1. cbn [bind]. destruct (IH (S k) s1 l1 Ls1 Ll1) as (s2 & l2 & E2 & Ls2 & Ll2 & P2 & Z2). exists s2, l2.
    split; [exact E2|]. split; [exact Ls2|]. split; [exact Ll2|]. split; [congruence|]. intros H. rewrite Z2 by (intros a Ha; apply H; right; exact Ha). apply Z1. apply H. left. reflexivity.
Qed.
Lemma zeros_energy : forall l, energy (map (fun _ : C => C0) l) = 0.
Proof. unfold energy. induction l as [|a l IH]; [reflexivity|]. cbn [map fold_right]. rewrite IH. unfold Cnorm2, C0, re, im. cbn [fst snd]. ring. Qed.
Lemma ifft_energy : forall x y, ifft x = Ok y -> energy x = INR (length x) * energy y.
Proof. intros x y H. pose proof (parseval_inv _ _ H) as P. destruct (ifft_ok _ _ H) as (L & _ & _). rewrite !energy_sum, L. exact P. Qed.
Lemma fft_energy : forall x y, fft x = Ok y -> energy y = INR (length x) * energy x.
Proof. intros x y H. pose proof (parseval _ _ H) as P. destruct (fft_ok _ _ H) as (L & _ & _). rewrite !energy_sum, L. exact P. Qed.

Lemma split_delay_energy : forall rs p x, usable (n_samples p) (window_t p) -> length x = n_samples p ->
  yields x (split_and_delay_line rs p x) (fun y => energy y <= ten_to (1 / 10) * energy x) /\ ((forall r, In r rs -> r = 0) -> split_and_delay_line rs p x = Ok (scale (dB_to_amplitude_ratio 1) x)).
Proof.
  intros rs p x U L. pose proof (pos_len p x U L) as Lp. pose proof (grid_dt_nz p U) as D. unfold split_and_delay_line, fft_. destruct (fft_total x Lp) as (y & F). rewrite F. cbn [bind]. destruct (fft_ok _ _ F) as (Ly & _ & _).
  destruct (stages_ok p (firstn 8 rs) 0 (scale (grid_dt p) y) (map (fun _ => C0) (scale (grid_dt p) y))) as (s & l & E & Ls & Ll & P & Z); [rewrite scale_length; lia|rewrite map_length, scale_length; lia|].
  rewrite E. cbn [bind fst]. unfold ifft_. destruct (ifft_total s) as (z & I); [lia|]. rewrite I. cbn [bind]. destruct (ifft_ok _ _ I) as (Lz & _ & _). split.
  - eexists; split; [reflexivity|]. split; [rewrite !scale_length; lia|]. rewrite !energy_scale, ratio_square. pose proof (ten_to_pos (1 / 10)) as T. apply Rmult_le_compat_l; [lra|].
    unfold pair_energy in P. cbn [fst snd] in P. rewrite zeros_energy, Rplus_0_r, energy_scale in P. rewrite (fft_energy _ _ F), (ifft_energy _ _ I) in P. rewrite Ls, <- L in P. pose proof (energy_nonneg l) as E0. pose proof (INR_pos _ Lp) as N.
    assert (Dd : 0 < grid_dt p * grid_dt p) by (apply Rsqr_pos_lt; exact D). apply (Rmult_le_reg_l (INR (length x) * (grid_dt p * grid_dt p))); [apply Rmult_lt_0_compat; assumption|].
    replace (INR (length x) * (grid_dt p * grid_dt p) * (/ grid_dt p * / grid_dt p * energy z)) with (INR (length x) * energy z) by (field; exact D). lra.
  - intros H. rewrite Z in I by (intros r Hr; apply H; apply (In_firstn' 8); exact Hr). destruct (ifft_total y) as (w & Iw); [lia|]. rewrite (ifft_scale _ _ _ Iw) in I. injection I as <-. rewrite (ifft_fft _ _ _ F Iw), !scale_scale. f_equal. f_equal. field. exact D.
Qed.

(** ** The frequency splitter *)
Lemma sum_states_ok : forall states n, states <> [] -> (forall s, In s states -> length s = n) ->
  exists s, sum_states states = Ok s /\ length s = n /\ forall t, (t < n)%nat -> nth t s C0 = plain_sum states t.
Proof.
  intros [|s0 states] n H L; [congruence|]. unfold sum_states. assert (F : forallb (fun s => Nat.eqb (length s) (length s0)) (s0 :: states) = true).
  { apply forallb_forall. intros s Hs. apply Nat.eqb_eq. rewrite (L s Hs). symmetry. apply L. left. reflexivity. }
  rewrite F. cbn [negb]. pose proof (L s0 (or_introl eq_refl)) as L0. eexists; split; [reflexivity|]. split; [rewrite tabulate_length; exact L0|]. intros t Ht. rewrite tabulate_nth by lia. reflexivity.
Qed.
Lemma cutoffs_length : forall a, length (cutoffs a) = S (S (length a)).
Proof. intros a. unfold cutoffs. rewrite app_length, map_length, seq_length. cbn [length]. rewrite weights_share, tabulate_length. lia. Qed.
Lemma band_mask_range : forall l r x, 0 < band_mask l r x < 1.
Proof.
  intros l r x. unfold band_mask. destruct (logistic_range (500 * (x - l))) as [A B]. destruct (logistic_range (- (500 * (x - r)))) as [A' B']. split; [apply Rmult_lt_0_compat; assumption|]. nra.
Qed.
Lemma logistic_opp : forall x, logistic x + logistic (- x) = 1.
Proof.
  intros x. unfold logistic. rewrite Ropp_involutive, exp_Ropp. pose proof (exp_pos x). field. split; lra.
Qed.
Lemma adjacent_masks : forall l m r x, band_mask l m x * band_mask l m x + band_mask m r x * band_mask m r x <= 1.
Proof.
  intros l m r x. pose proof (band_mask_range l m x) as A. pose proof (band_mask_range m r x) as B. assert (S : band_mask l m x + band_mask m r x <= 1).
  { unfold band_mask. pose proof (logistic_range (500 * (x - l))). pose proof (logistic_range (- (500 * (x - m)))). pose proof (logistic_range (500 * (x - m))). pose proof (logistic_range (- (500 * (x - r)))). pose proof (logistic_opp (500 * (x - m))). nra. }
  nra.
Qed.
Lemma filter_energy_at : forall p mask x y, fft x = Ok y -> grid_dt p <> 0 -> (0 < length x)%nat -> length mask = length x ->
  exists out, filter_spectrum p mask x = Ok out /\ length out = length x /\ INR (length x) * energy out = rsum (length x) (fun k => Cnorm2 (nth k mask C0) * Cnorm2 (nth k y C0)).
Proof.
  intros p mask x y F D Lx Lm. destruct (filter_ok p mask x D Lx Lm) as (y' & out & F' & L & E & I & Lo). rewrite F in F'. injection F' as <-. exists out. split; [exact E|]. split; [exact Lo|].
  pose proof (ifft_energy _ _ I) as P. rewrite zipmul_length in P by lia. rewrite L in P. rewrite <- P, energy_sum, zipmul_length by lia. rewrite L. apply rsum_ext. intros k Hk. rewrite zipmul_nth by lia. apply Cnorm2_mul.
Qed.
Definition splitter_mask (n : nat) (c : R * R) : list C := ifft_shift_ (map (fun x => RtoC (band_mask (fst c) (snd c) x)) (linspace 0 1 n)).
Lemma splitter_mask_length : forall n c, length (splitter_mask n c) = n.
Proof. intros n c. unfold splitter_mask. rewrite ifft_shift_length, map_length. apply tabulate_length. Qed.
Lemma splitter_mask_norm : forall n c k, (k < n)%nat -> exists x, Cnorm2 (nth k (splitter_mask n c) C0) = band_mask (fst c) (snd c) x * band_mask (fst c) (snd c) x /\ x = nth ((k + n / 2) mod n) (linspace 0 1 n) 0.
Proof.
  intros n c k Hk. eexists; split; [|reflexivity]. unfold splitter_mask. assert (Ll : length (linspace 0 1 n) = n) by apply tabulate_length. rewrite ifft_shift_nth by (rewrite map_length; lia). rewrite map_length, Ll.
  assert (Hm : ((k + n / 2) mod n < n)%nat) by (apply Nat.mod_upper_bound; lia).
  rewrite (nth_indep _ C0 (RtoC (band_mask (fst c) (snd c) 0))) by (rewrite map_length, Ll; exact Hm). rewrite (map_nth (fun x => RtoC (band_mask (fst c) (snd c) x))). unfold Cnorm2, RtoC, re, im. cbn [fst snd]. ring.
Qed.
Lemma bands_ok : forall p x y cs, fft x = Ok y -> usable (n_samples p) (window_t p) -> length x = n_samples p ->
  exists outs, map_res (fun c => filter_spectrum p (splitter_mask (n_samples p) c) x) cs = Ok outs /\ length outs = length cs /\
    (forall o, In o outs -> length o = n_samples p /\ energy o <= energy x) /\
    INR (length x) * outputs_energy outs = rsum (length x) (fun k => fold_right (fun c e => Cnorm2 (nth k (splitter_mask (n_samples p) c) C0) + e) 0 cs * Cnorm2 (nth k y C0)).
Proof.
  intros p x y cs F U L. pose proof (pos_len p x U L) as Lp. pose proof (grid_dt_nz p U) as D. pose proof (INR_pos _ Lp) as N. induction cs as [|c cs IH]; cbn [map_res].
  - exists []. split; [reflexivity|]. split; [reflexivity|]. split; [intros o []|]. cbn [outputs_energy fold_right]. rewrite Rmult_0_r. symmetry. rewrite (rsum_ext _ _ (fun _ => 0 * 0)) by (intros; ring). rewrite rsum_scale. ring.
  - destruct IH as (outs & E & Lo & Ho & S). destruct (filter_energy_at p (splitter_mask (n_samples p) c) x y F D Lp) as (o & Eo & Lo' & So); [rewrite splitter_mask_length; lia|]. rewrite Eo. cbn [bind]. rewrite E. cbn [bind].
    exists (o :: outs). split; [reflexivity|]. split; [cbn [length]; lia|]. split.
    + intros o' [<-|Ho']; [|apply Ho; exact Ho']. split; [lia|]. apply (Rmult_le_reg_l _ _ _ N). rewrite So, <- (fft_energy _ _ F), energy_sum. destruct (fft_ok _ _ F) as (Ly & _ & _). rewrite Ly. apply rsum_le. intros k Hk.
      destruct (splitter_mask_norm (n_samples p) c k ltac:(lia)) as (z & -> & _). pose proof (band_mask_range (fst c) (snd c) z) as B. rewrite <- (Rmult_1_l (Cnorm2 (nth k y C0))) at 2. apply Rmult_le_compat_r; [apply Cnorm2_nonneg|nra].
    + cbn [outputs_energy fold_right]. fold (outputs_energy outs). rewrite Rmult_plus_distr_l, So, S, <- rsum_add. apply rsum_ext. intros k Hk. ring.
Qed.
Lemma frequency_splitter_ok : forall a p states, usable (n_samples p) (window_t p) -> states <> [] -> (forall s, In s states -> length s = n_samples p) ->
  exists outs, frequency_splitter a p states = Ok outs /\ length outs = S (length a) /\
    (forall o, In o outs -> length o = n_samples p /\ energy o <= rsum (n_samples p) (fun t => Cnorm2 (plain_sum states t))) /\
    ((length a <= 1)%nat -> outputs_energy outs <= rsum (n_samples p) (fun t => Cnorm2 (plain_sum states t))).
Proof.
  intros a p states U Hs L. destruct (sum_states_ok states _ Hs L) as (x & E & Lx & V). pose proof (pos_len p x U Lx) as Lp. unfold frequency_splitter. rewrite E. cbn [bind]. destruct (fft_total x Lp) as (y & F).
  assert (Ex : energy x = rsum (n_samples p) (fun t => Cnorm2 (plain_sum states t))) by (rewrite energy_sum, Lx; apply rsum_ext; intros t Ht; rewrite V by exact Ht; reflexivity).
  destruct (bands_ok p x y (combine (cutoffs a) (tl (cutoffs a))) F U Lx) as (outs & Eo & Lo & Ho & S). unfold splitter_mask in Eo. rewrite Eo. exists outs. split; [reflexivity|].
  split; [rewrite Lo, combine_length; pose proof (cutoffs_length a) as Lc; destruct (cutoffs a); cbn [length tl] in *; lia|]. rewrite <- Ex. split; [exact Ho|]. intros Ha. pose proof (INR_pos _ Lp) as N. apply (Rmult_le_reg_l _ _ _ N). rewrite S, <- (fft_energy _ _ F), energy_sum. destruct (fft_ok _ _ F) as (Ly & _ & _). rewrite Ly. apply rsum_le. intros k Hk.
  rewrite <- (Rmult_1_l (Cnorm2 (nth k y C0))) at 2. apply Rmult_le_compat_r; [apply Cnorm2_nonneg|]. pose proof (cutoffs_length a) as Lc. destruct (cutoffs a) as [|c0 [|c1 l]]; cbn [length] in Lc; try lia. cbn [tl combine].
  destruct l as [|c2 l]; cbn [combine fold_right].
  - destruct (splitter_mask_norm (n_samples p) (c0, c1) k ltac:(lia)) as (z & -> & _). pose proof (band_mask_range (fst (c0, c1)) (snd (c0, c1)) z). nra.
  - destruct l as [|c3 l]; [|cbn [length] in Lc; lia]. cbn [combine fold_right]. destruct (splitter_mask_norm (n_samples p) (c0, c1) k ltac:(lia)) as (z & -> & Ez). destruct (splitter_mask_norm (n_samples p) (c1, c2) k ltac:(lia)) as (z' & -> & Ez'). rewrite <- Ez in Ez'. subst z'. cbn [fst snd]. pose proof (adjacent_masks c0 c1 c2 z). lra.
Qed.

(** ** The noisy signal *)
Lemma sinc_bound : forall x, Rabs (sinc x) <= 1.
Proof.
  intros x. unfold sinc. destruct (Req_EM_T x 0) as [_|H]; [rewrite Rabs_R1; lra|]. pose proof PI_RGT_0 as P.
  assert (K : forall u, 0 < u -> Rabs (sin u / u) <= 1).
  { intros u Hu. unfold Rdiv. rewrite Rabs_mult, (Rabs_right (/ u)) by (apply Rle_ge, Rlt_le, Rinv_0_lt_compat; exact Hu). apply (Rmult_le_reg_r u); [exact Hu|]. rewrite Rmult_assoc, Rinv_l, Rmult_1_r, Rmult_1_l by lra.
    pose proof (sin_lt_x u Hu) as S. apply Rabs_le. split; [|lra]. destruct (Rle_lt_dec 1 u) as [B|B]; [pose proof (SIN_bound u); lra|]. assert (0 <= sin u) by (apply sin_ge_0; pose proof PI2_3_2; lra). lra. }
  destruct (Rtotal_order x 0) as [N|[N|N]]; [|contradiction|apply K; apply Rmult_lt_0_compat; assumption].
  replace (sin (PI * x) / (PI * x)) with (sin (PI * - x) / (PI * - x)); [apply K; apply Rmult_lt_0_compat; lra|]. replace (PI * - x) with (- (PI * x)) by ring. rewrite sin_neg. field. split; lra.
Qed.
Lemma signal_power : forall shape w P p, 0 <= P -> shape <> SignalOther ->
  exists y, noisy_signal shape w P p = Ok y /\ length y = n_samples p /\ (forall t, sample_power y t <= P) /\
    (forall i, (i < n_samples p)%nat -> nth i (grid_t p) 0 = 0 -> sample_power y i = P).
Proof.
  intros shape w P p HP Hs. set (wd := w / (2 * sqrt (ln 2))).
  assert (G : forall g : R -> C, (forall t, Cnorm2 (g t) <= P) -> (Cnorm2 (g 0) = P) -> exists y, Ok (map g (grid_t p)) = Ok y /\ length y = n_samples p /\ (forall t, sample_power y t <= P) /\
    (forall i, (i < n_samples p)%nat -> nth i (grid_t p) 0 = 0 -> sample_power y i = P)).
  { intros g B Z. eexists; split; [reflexivity|]. split; [rewrite map_length; apply grid_t_length|]. unfold sample_power. split.
    - intros t. destruct (lt_dec t (length (grid_t p))) as [I|I]; [|rewrite nth_overflow by (rewrite map_length; lia); unfold Cnorm2, C0, re, im; cbn [fst snd]; lra]. rewrite (nth_indep _ C0 (g 0)) by (rewrite map_length; exact I). rewrite map_nth. apply B.
    - intros i Hi E. rewrite (nth_indep _ C0 (g 0)) by (rewrite map_length, grid_t_length; exact Hi). rewrite map_nth, E. exact Z. }
  assert (R : forall a, Cnorm2 (RtoC (a * sqrt P)) = a * a * P). { intros a. unfold Cnorm2, RtoC, re, im. cbn [fst snd]. replace (a * sqrt P * (a * sqrt P) + 0 * 0) with (a * a * (sqrt P * sqrt P)) by ring. rewrite sqrt_sqrt by exact HP. reflexivity. }
  assert (S : forall a, Rabs a <= 1 -> a * a * P <= P). { intros a Ha. assert (a * a <= 1). { rewrite <- (Rabs_right (a * a)) by (apply Rle_ge, Rle_0_sqr). rewrite Rabs_mult. pose proof (Rabs_pos a). nra. } nra. }
  assert (Z0 : 0 / wd = 0) by (unfold Rdiv; ring). assert (S0 : sinc 0 = 1) by (unfold sinc; destruct (Req_EM_T 0 0); [reflexivity|contradiction]).
  destruct shape; unfold noisy_signal; fold wd; try congruence; apply G.
  - intros t. rewrite R. apply S. rewrite Rabs_right by (apply Rle_ge, Rlt_le, exp_pos). assert (X : - (1 / 2) * (t / wd) ^ 2 <= 0) by nra. destruct (Rle_lt_or_eq_dec _ _ X) as [Y|Y]; [apply exp_increasing in Y; rewrite exp_0 in Y; lra|rewrite Y, exp_0; lra].
  - rewrite R, Z0. replace (- (1 / 2) * 0 ^ 2) with 0 by ring. rewrite exp_0. ring.
  - intros t. rewrite R. apply S. apply Rabs_le. pose proof (sech_range (t / wd)). lra.
  - rewrite R, Z0. unfold cosh. rewrite Ropp_0, exp_0. field.
  - intros t. rewrite R. apply S, sinc_bound.
  - rewrite R, Z0, S0. ring.
  - intros t. rewrite !Cnorm2_mul, cis_norm, Rmult_1_r, <- Cnorm2_mul, RtoC_mul, R. apply S, sinc_bound.
  - rewrite !Cnorm2_mul, cis_norm, Rmult_1_r, <- Cnorm2_mul, RtoC_mul, R, Z0, S0. ring.
Qed.

(** ** The statements *)
Lemma reach_overshoot : forall p, usable (n_samples p) (window_t p) -> Rmax 1 (reach p) = overshoot (window_t p) (band_half p).
Proof.
  intros p U. unfold overshoot, reach. f_equal. rewrite grid_df_val, pred_INR by (destruct U; lia). change shaped_band with band_width. destruct U as [U W]. pose proof (samples_big _ U) as N. set (n := INR (n_samples p)) in *. set (w := window_t p) in *. assert (E : n / (n - 1) * (band_width / 2 / (n / w / (n - 1))) = w * (band_width / 2)) by (field; repeat split; lra). rewrite E. reflexivity.
Qed.
Lemma programmable_bound : forall amps phases p x, usable (n_samples p) (window_t p) -> length x = n_samples p -> grid_df p < shaped_band ->
  (1 <= length amps)%nat -> (forall a, In a amps -> fraction a) ->
  exists h, half_band_steps (n_samples p) (window_t p) h /\ (1 <= h)%Z /\
  yields x (programmable_filter amps phases p x) (fun y => energy y <= ten_to (- (45 / 100)) * overshoot (window_t p) h ^ (2 * (length amps - 1)) * energy x).
Proof.
  intros amps phases p x U L D La Fa. exists (band_half p). split; [|split; [apply band_pos; assumption|rewrite <- reach_overshoot by exact U; apply programmable_reach; assumption]].
  unfold half_band_steps. change shaped_band with band_width. rewrite <- grid_df_val. apply round_near.
Qed.
Lemma plain_twice : forall x t, plain_sum [x; x] t = Cmul (RtoC 2) (nth t x C0).
Proof. intros x t. unfold plain_sum. cbn [length csum nth]. destruct (nth t x C0) as [a b]. unfold Cadd, Cmul, RtoC, C0, re, im. cbn [fst snd]. f_equal; ring. Qed.
Definition three : grid := mkGrid 3 1 1.
Lemma three_usable : usable (n_samples three) (window_t three).
Proof. split; cbn; [lia|lra]. Qed.
Lemma splitter_creates : exists outs, frequency_splitter [] three [repeat C1 3; repeat C1 3] = Ok outs /\ outputs_energy [repeat C1 3; repeat C1 3] < outputs_energy outs.
Proof.
  pose proof three_usable as U. unfold frequency_splitter. assert (E : sum_states [repeat C1 3; repeat C1 3] = Ok (repeat (Cmul (RtoC 2) C1) 3)).
  { assert (D : Cadd (Cadd C0 C1) C1 = Cmul (RtoC 2) C1) by (unfold Cadd, Cmul, C0, C1, RtoC, re, im; cbn [fst snd]; f_equal; ring). rewrite <- D. reflexivity. }
  rewrite E. cbn [bind]. unfold cutoffs, splitter_weights. cbn [length tabulate seq map app firstn product fold_right tl combine Nat.sub]. cbn [map_res].
  change (ifft_shift_ _) with (splitter_mask 3 (0 + 0, 1)). rewrite filter_constant; [|apply grid_dt_nz; exact U|lia|apply splitter_mask_length]. cbn [bind]. eexists; split; [reflexivity|].
  set (m := nth 0 (splitter_mask 3 (0 + 0, 1)) C0). unfold outputs_energy. cbn [fold_right]. assert (R : forall v, energy (repeat v 3) = 3 * Cnorm2 v) by (intros v; unfold energy; cbn [repeat fold_right]; ring).
  rewrite !R, !Cnorm2_mul. replace (Cnorm2 C1) with 1 by (unfold Cnorm2, C1, re, im; cbn [fst snd]; ring). replace (Cnorm2 (RtoC 2)) with 4 by (unfold Cnorm2, RtoC, re, im; cbn [fst snd]; ring).
  assert (M : 8 / 10 <= Cnorm2 m).
  { unfold m. destruct (splitter_mask_norm 3 (0 + 0, 1) 0 ltac:(lia)) as (z & -> & Ez). cbn [Nat.add] in Ez. replace ((3 / 2) mod 3)%nat with 1%nat in Ez by reflexivity. unfold linspace in Ez. rewrite tabulate_nth in Ez by lia. cbn [INR Nat.sub] in Ez. assert (Z : z = / 2) by (rewrite Ez; field). rewrite Z. unfold band_mask. cbn [fst snd].
    replace (500 * (/ 2 - (0 + 0))) with 250 by field. replace (- (500 * (/ 2 - 1))) with 250 by field. assert (G : 99 / 100 <= logistic 250).
    { unfold logistic. rewrite exp_Ropp. pose proof (exp_ineq1 250 ltac:(lra)) as X. set (a := exp 250) in *. assert (I : / a <= / 251) by (apply Rinv_le_contravar; lra). assert (I0 : 0 < / a) by (apply Rinv_0_lt_compat; lra). apply (Rmult_le_reg_r (1 + / a)); [lra|]. unfold Rdiv. rewrite (Rmult_assoc 1), Rinv_l by lra. lra. }
    assert (G2 : 98 / 100 <= logistic 250 * logistic 250) by nra. nra. }
  lra.
Qed.
Lemma split_delay_amplifies : forall p x, usable (n_samples p) (window_t p) -> length x = n_samples p -> 0 < energy x ->
  exists y, split_and_delay_line (repeat 0 8) p x = Ok y /\ energy x < energy y.
Proof.
  intros p x U L E. destruct (split_delay_energy (repeat 0 8) p x U L) as [_ Z]. eexists. split; [apply Z; intros r Hr; exact (repeat_spec _ _ _ Hr)|]. rewrite energy_scale, ratio_square. rewrite <- (Rmult_1_l (energy x)) at 1. apply Rmult_lt_compat_r; [exact E|].
  unfold ten_to, Rpower. assert (P : 0 < 1 / 10 * ln 10) by (apply Rmult_lt_0_compat; [lra|]; pose proof (ln_increasing 1 10 ltac:(lra) ltac:(lra)) as X; rewrite ln_1 in X; exact X). apply exp_increasing in P. rewrite exp_0 in P. exact P.
Qed.

(** ** Exact effects *)
Lemma repeat_nth_lt : forall {A} (a d : A) n m, (m < n)%nat -> nth m (repeat a n) d = a.
Proof. induction n as [|n IH]; intros m H; [lia|]. destruct m as [|m]; cbn [repeat nth]; [reflexivity|]. apply IH. lia. Qed.
Lemma waveform_flat : forall t a n, get_waveform t (repeat a (S n)) = a.
Proof.
  intros t a n. rewrite waveform_sum, repeat_length. replace (S n - 1)%nat with n by lia. rewrite (rsum_ext _ _ (fun m => a * bernstein t m n)) by (intros m Hm; rewrite repeat_nth_lt by exact Hm; reflexivity). rewrite rsum_scale. unfold bernstein. rewrite bernstein_total. replace (t + (1 - t)) with 1 by ring. rewrite pow1. ring.
Qed.
Lemma fft_scale : forall c x y, fft x = Ok y -> fft (scale c x) = Ok (scale c y).
Proof.
  intros c x y H. destruct (fft_ok x y H) as (L & P & V). destruct (fft_total (scale c x)) as (z & I); [rewrite scale_length; exact P|]. rewrite I. f_equal. destruct (fft_ok _ _ I) as (L' & _ & V'). rewrite scale_length in *.
  apply (list_eq_nth C0); [rewrite scale_length; lia|]. intros j Hj. rewrite scale_nth, V', V by lia. rewrite <- csum_scale. apply csum_ext. intros k Hk. rewrite scale_nth. ring.
Qed.
Lemma filter_spectra : forall p mask x, grid_dt p <> 0 -> (0 < length x)%nat -> length mask = length x ->
  exists out X, filter_spectrum p mask x = Ok out /\ length out = length x /\ fft x = Ok X /\ fft out = Ok (zipmul mask X).
Proof.
  intros p mask x D P L. destruct (filter_ok p mask x D P L) as (X & out & F & LX & E & I & Lo). exists out, X. split; [exact E|]. split; [exact Lo|]. split; [exact F|]. destruct (fft_total out ltac:(lia)) as (z & F'). rewrite F'. f_equal. exact (fft_ifft _ _ _ I F').
Qed.
Lemma programmable_flat : forall a h n m p x, usable (n_samples p) (window_t p) -> length x = n_samples p ->
  yields x (programmable_filter (repeat a (S n)) (repeat h (S m)) p x) (fun y => exists X Y, fft x = Ok X /\ fft y = Ok Y /\ forall k, (k < n_samples p)%nat ->
    nth k Y C0 = if Rle_dec (Rabs (nth k (ifft_shift_ (grid_f p)) 0)) (shaped_band / 2) then Cmul (Cmul (RtoC (ten_to (- (225 / 1000)) * a)) (cis h)) (nth k X C0) else C0).
Proof.
  intros a h n m p x U L. unfold programmable_filter. destruct (programmable_masks (repeat a (S n)) (repeat h (S m)) p) as (am & ph & E1 & E2 & E3 & L1 & L2 & V). rewrite E1. cbn [bind]. rewrite E2. cbn [bind]. rewrite E3. cbn [bind].
  assert (Vp : forall i, (i < n_samples p)%nat -> nth i ph 0 = h * (if Rle_dec (Rabs (nth i (grid_f p) 0)) (band_width / 2) then 1 else 0)).
  { intros i Hi. destruct (programmable_masks (repeat h (S m)) (repeat h (S m)) p) as (am' & _ & E1' & _ & _ & _ & _ & V'). rewrite E2 in E1'. injection E1' as <-. rewrite V' by exact Hi. rewrite waveform_flat. reflexivity. }
  set (mask := map _ (combine am ph)). assert (Lm : length mask = n_samples p) by (unfold mask; rewrite map_length, combine_length, L1, L2; apply Nat.min_id).
  pose proof (pos_len p x U L) as Lp. destruct (filter_spectra p (ifft_shift_ mask) x (grid_dt_nz p U) Lp) as (out & X & E & Lo & F & F'); [rewrite ifft_shift_length; lia|]. rewrite E. cbn [bind]. eexists; split; [reflexivity|]. split; [rewrite scale_length; exact Lo|].
  exists X. eexists. split; [exact F|]. split; [apply fft_scale; exact F'|]. intros k Hk. destruct (fft_ok _ _ F) as (LX & _ & _). rewrite scale_nth, zipmul_nth by (rewrite ifft_shift_length; lia). rewrite !ifft_shift_nth by (rewrite ?grid_f_length; lia). rewrite grid_f_length, Lm. set (j := ((k + n_samples p / 2) mod n_samples p)%nat). assert (Hj : (j < n_samples p)%nat) by (apply Nat.mod_upper_bound; lia).
  unfold mask. rewrite (combine_nth_0 (fun a h => Cmul (RtoC a) (cis h)) am ph j 0 0) by lia. rewrite V, Vp, waveform_flat by exact Hj. change shaped_band with band_width. replace (dB_to_amplitude_ratio (- (45 / 10))) with (ten_to (- (225 / 1000))) by (unfold dB_to_amplitude_ratio; f_equal; field).
  destruct (Rle_dec (Rabs (nth j (grid_f p) 0)) (band_width / 2)) as [R|R].
  - rewrite !Rmult_1_r, <- RtoC_mul. ring.
  - rewrite !Rmult_0_r. change (RtoC 0) with C0. ring.
Qed.

(* one stage, sample by sample *)
Definition stage_phase (p : grid) (d : R) (i : nat) : R := 2 * PI * (nth i (ifft_shift_ (grid_f p)) 0 + central_frequency p) * d.
Lemma stage_nth : forall p r d short long, length short = n_samples p -> length long = n_samples p ->
  exists short' long', split_stage p r d (short, long) = Ok (short', long') /\ length short' = n_samples p /\ length long' = n_samples p /\
    forall i, (i < n_samples p)%nat ->
      nth i short' C0 = Cadd (Cmul (RtoC (cos (PI / 2 * r))) (nth i short C0)) (Cmul (Cmul Ci (RtoC (sin (PI / 2 * r)))) (nth i long C0)) /\
      nth i long' C0 = Cmul (cis (stage_phase p d i)) (Cadd (Cmul (Cmul Ci (RtoC (sin (PI / 2 * r)))) (nth i short C0)) (Cmul (RtoC (cos (PI / 2 * r))) (nth i long C0))).
Proof.
  intros p r d short long Ls Ll. unfold split_stage. set (c := cos (PI / 2 * r)). set (s := sin (PI / 2 * r)).
  rewrite !broadcast_same by (rewrite !map_length; lia). cbn [bind].
  set (ns := map _ (combine (map (Cmul (RtoC c)) short) _)). set (mx := map _ (combine (map (Cmul (Cmul Ci (RtoC s))) short) _)).
  assert (Lns : length ns = n_samples p) by (unfold ns; rewrite map_length, combine_length, !map_length, Ls, Ll; apply Nat.min_id).
  assert (Lmx : length mx = n_samples p) by (unfold mx; rewrite map_length, combine_length, !map_length, Ls, Ll; apply Nat.min_id).
  match goal with |- context [broadcast Cmul ?m mx] => set (ms := m) end.
  assert (Lms : length ms = n_samples p) by (unfold ms; rewrite map_length, ifft_shift_length, !map_length; apply grid_f_length).
  rewrite broadcast_same by lia. cbn [bind]. fold (zipmul ms mx). exists ns, (zipmul ms mx). split; [reflexivity|]. split; [exact Lns|]. split; [rewrite zipmul_length; lia|]. intros i Hi. split.
  - unfold ns. rewrite zipadd_nth by (rewrite !map_length; lia). rewrite !map_Cmul_nth. reflexivity.
  - rewrite zipmul_nth by lia. unfold mx. rewrite zipadd_nth by (rewrite !map_length; lia). rewrite !map_Cmul_nth. f_equal. unfold ms. rewrite !ifft_shift_map, !map_map.
    assert (Lf : length (ifft_shift_ (grid_f p)) = n_samples p) by (rewrite ifft_shift_length; apply grid_f_length). match goal with |- nth i (map ?g _) C0 = _ => rewrite (nth_indep (map g _) C0 (g 0)) by (rewrite map_length, Lf; exact Hi); rewrite (map_nth g) end. unfold stage_phase. f_equal. field. split; [apply index_pos|apply light_pos].
Qed.
Lemma stages_zero : forall p n k short, length short = n_samples p ->
  split_stages p k (repeat 0 n) (short, map (fun _ => C0) short) = Ok (short, map (fun _ => C0) short).
Proof.
  intros p. induction n as [|n IH]; intros k short L; [reflexivity|]. cbn [repeat split_stages]. destruct (stage_nth p 0 (stage_delay k) short (map (fun _ => C0) short) L) as (s & l & E & Ls & Ll & V); [rewrite map_length; exact L|]. rewrite E. cbn [bind].
  assert (Z : forall i, nth i (map (fun _ : C => C0) short) C0 = C0). { intros i. apply (map_nth_d (fun _ => C0) short i C0). reflexivity. }
  assert (Es : s = short). { apply (list_eq_nth C0); [lia|]. intros i Hi. destruct (V i ltac:(lia)) as [-> _]. rewrite Z, Rmult_0_r, cos_0, sin_0. change (RtoC 1) with C1. ring. }
  assert (El : l = map (fun _ => C0) short). { apply (list_eq_nth C0); [rewrite map_length; lia|]. intros i Hi. destruct (V i ltac:(lia)) as [_ ->]. rewrite Z, Rmult_0_r, cos_0, sin_0. change (RtoC 0) with C0. ring. }
  rewrite Es, El. apply IH. exact L.
Qed.
Lemma stages_app : forall p a b k f, split_stages p k (a ++ b) f = bind (split_stages p k a f) (split_stages p (k + length a) b).
Proof.
  intros p. induction a as [|r a IH]; intros b k f; cbn [app split_stages length bind]; [rewrite Nat.add_0_r; reflexivity|]. destruct (split_stage p r (stage_delay k) f) as [f'|e]; [|reflexivity]. cbn [bind]. rewrite IH. replace (S k + length a)%nat with (k + S (length a))%nat by lia. reflexivity.
Qed.
Lemma Ci_square : Cmul Ci Ci = RtoC (-1).
Proof. unfold Cmul, Ci, RtoC, re, im. cbn [fst snd]. f_equal; ring. Qed.
Lemma stages_cross : forall p k short, length short = n_samples p -> exists s, split_stages p k [1; 1] (short, map (fun _ => C0) short) = Ok (s, map (fun _ => C0) s) /\
  length s = n_samples p /\ forall i, (i < n_samples p)%nat -> nth i s C0 = Cmul (RtoC (-1)) (Cmul (cis (stage_phase p (stage_delay k) i)) (nth i short C0)).
Proof.
  intros p k short L. cbn [split_stages]. destruct (stage_nth p 1 (stage_delay k) short (map (fun _ => C0) short) L) as (s & l & E & Ls & Ll & V); [rewrite map_length; exact L|]. rewrite E. cbn [bind]. destruct (stage_nth p 1 (stage_delay (S k)) s l Ls Ll) as (s' & l' & E' & Ls' & Ll' & V'). rewrite E'. cbn [bind].
  assert (Z : forall x i, nth i (map (fun _ : C => C0) x) C0 = C0). { intros x i. apply (map_nth_d (fun _ => C0) x i C0). reflexivity. }
  assert (Q : forall i, (i < n_samples p)%nat -> nth i s C0 = C0 /\ nth i l C0 = Cmul (cis (stage_phase p (stage_delay k) i)) (Cmul Ci (nth i short C0))).
  { intros i Hi. destruct (V i Hi) as [-> ->]. rewrite Z, Rmult_1_r, cos_PI2, sin_PI2. change (RtoC 0) with C0. change (RtoC 1) with C1. split; ring. }
  assert (Q' : forall i, (i < n_samples p)%nat -> nth i s' C0 = Cmul (RtoC (-1)) (Cmul (cis (stage_phase p (stage_delay k) i)) (nth i short C0)) /\ nth i l' C0 = C0).
  { intros i Hi. destruct (V' i Hi) as [-> ->]. destruct (Q i Hi) as [-> ->]. rewrite Rmult_1_r, cos_PI2, sin_PI2, <- Ci_square. change (RtoC 0) with C0. change (RtoC 1) with C1. split; ring. }
  exists s'. split; [|split; [exact Ls'|intros i Hi; apply Q'; exact Hi]]. f_equal. f_equal. apply (list_eq_nth C0); [rewrite map_length; lia|]. intros i Hi. rewrite Z. apply Q'. lia.
Qed.
Lemma scale_mapneg : forall x, map (Cmul (RtoC (-1))) x = scale (-1) x.
Proof. reflexivity. Qed.
Lemma split_delay_cross : forall k p x, (k <= 6)%nat -> usable (n_samples p) (window_t p) -> length x = n_samples p ->
  exists y, delay_line (2 ^ k * ten_to (-12)) p x = Ok y /\ split_and_delay_line (repeat 0 k ++ [1; 1] ++ repeat 0 (6 - k)) p x = Ok (scale (- dB_to_amplitude_ratio 1) y).
Proof.
  intros k p x Hk U L. pose proof (pos_len p x U L) as Lp. pose proof (grid_dt_nz p U) as D. rewrite delay_plain. set (mask := map _ (ifft_shift_ (grid_f p))). assert (Lm : length mask = n_samples p) by (unfold mask; rewrite map_length, ifft_shift_length; apply grid_f_length).
  destruct (filter_ok p mask x D Lp ltac:(lia)) as (X & out & F & LX & E & I & Lo). exists out. split; [exact E|]. unfold split_and_delay_line, fft_. rewrite F. cbn [bind].
  rewrite firstn_all2 by (rewrite !app_length, !repeat_length; cbn [length]; lia). rewrite stages_app. rewrite stages_zero by (rewrite scale_length; lia). cbn [bind]. rewrite repeat_length, stages_app.
  destruct (stages_cross p (0 + k) (scale (grid_dt p) X)) as (s & Es & Ls & V); [rewrite scale_length; lia|]. rewrite Es. cbn [bind]. rewrite stages_zero by exact Ls. cbn [bind fst].
  assert (S : s = scale (- grid_dt p) (zipmul mask X)).
  { apply (list_eq_nth C0); [rewrite scale_length, zipmul_length; lia|]. intros i Hi. rewrite V by lia. rewrite !scale_nth, zipmul_nth by lia. unfold mask. assert (Lf : length (ifft_shift_ (grid_f p)) = n_samples p) by (rewrite ifft_shift_length; apply grid_f_length).
    match goal with |- context [nth i (map ?g _) C0] => rewrite (nth_indep (map g _) C0 (g 0)) by (rewrite map_length, Lf; lia); rewrite (map_nth g) end. unfold stage_phase, stage_delay. cbn [Nat.add]. replace (- grid_dt p) with (-1 * grid_dt p) by ring. rewrite <- RtoC_mul. ring. }
  rewrite S. unfold ifft_. rewrite (ifft_scale _ _ _ I). cbn [bind]. rewrite !scale_scale. f_equal. f_equal. field. exact D.
Qed.

Lemma fold_firstn_tabulate : forall m f n, (n <= m)%nat -> fold_right Rplus 0 (firstn n (tabulate m f)) = rsum n f.
Proof.
  assert (A : forall l a, fold_right Rplus 0 (l ++ [a]) = fold_right Rplus 0 l + a) by (induction l as [|b l IH]; intros a; cbn [app fold_right]; [ring|]; rewrite IH; ring).
  intros m f n H. replace (firstn n (tabulate m f)) with (tabulate n f).
  - clear H. induction n as [|n IH]; [reflexivity|]. unfold tabulate in *. rewrite seq_S, map_app. cbn [map]. rewrite A, IH. reflexivity.
  - unfold tabulate. rewrite firstn_map. f_equal. clear f. assert (G : forall n m s, (n <= m)%nat -> seq s n = firstn n (seq s m)). { induction n0 as [|n0 IH]; intros m0 s H0; [reflexivity|]. destruct m0 as [|m0]; [lia|]. cbn [seq firstn]. f_equal. apply IH. lia. } apply G. exact H.
Qed.
Lemma cutoffs_nth : forall a j, (j <= S (length a))%nat -> nth j (cutoffs a) 0 = rsum j (share a).
Proof.
  intros a j H. unfold cutoffs. rewrite weights_share. set (g := 0 :: tabulate (S (length a)) (share a)). assert (Lg : (length g - 1)%nat = S (length a)) by (unfold g; cbn [length]; rewrite tabulate_length; lia). rewrite Lg.
  destruct (Nat.eq_dec j (S (length a))) as [->|N].
  - rewrite app_nth2 by (rewrite map_length, seq_length; lia). rewrite map_length, seq_length, Nat.sub_diag. cbn [nth]. symmetry. apply share_sum.
  - rewrite app_nth1 by (rewrite map_length, seq_length; lia). rewrite (nth_indep _ 0 (fold_right Rplus 0 (firstn 0 g))) by (rewrite map_length, seq_length; lia). rewrite (map_nth (fun n => fold_right Rplus 0 (firstn n g))), seq_nth by lia. unfold g. cbn [Nat.add firstn fold_right]. rewrite fold_firstn_tabulate by lia. ring.
Qed.
Lemma pairs_nth : forall (l : list R) j d, (S j < length l)%nat -> nth j (combine l (tl l)) (d, d) = (nth j l d, nth (S j) l d).
Proof.
  intros l. induction l as [|a l IH]; intros j d H; cbn [length] in H; [lia|]. destruct l as [|b l]; cbn [length] in H; [lia|]. cbn [tl combine]. destruct j as [|j]; [reflexivity|]. exact (IH j d ltac:(cbn [length]; lia)).
Qed.
Lemma map_res_nth : forall {A B} (f : A -> res B) l l' j a b, map_res f l = Ok l' -> (j < length l)%nat -> f (nth j l a) = Ok (nth j l' b).
Proof.
  intros A B f. induction l as [|x l IH]; intros l' j a b H Hj; cbn [length] in Hj; [lia|]. cbn [map_res] in H. destruct (f x) as [y|e] eqn:E; [|discriminate]. cbn [bind] in H. destruct (map_res f l) as [ys|e] eqn:E'; [|discriminate]. cbn [bind] in H. injection H as <-. destruct j as [|j]; [exact E|]. cbn [nth]. apply IH; [reflexivity|lia].
Qed.
Lemma frequency_splitter_spectrum : forall a p states outs x, usable (n_samples p) (window_t p) -> states <> [] -> (forall s, In s states -> length s = n_samples p) ->
  length x = n_samples p -> (forall t, (t < n_samples p)%nat -> nth t x C0 = plain_sum states t) -> frequency_splitter a p states = Ok outs ->
  exists X, fft x = Ok X /\ forall j, (j <= length a)%nat -> exists Y, fft (nth j outs []) = Ok Y /\ forall k, (k < n_samples p)%nat ->
    nth k Y C0 = Cmul (RtoC (soft_step (place_in_band (n_samples p) k - rsum j (share a)) * soft_step (rsum (S j) (share a) - place_in_band (n_samples p) k))) (nth k X C0).
Proof.
  intros a p states outs x U Hs L Lx Vx H. destruct (sum_states_ok states _ Hs L) as (x' & E & Lx' & V). assert (x' = x) by (apply (list_eq_nth C0); [lia|]; intros t Ht; rewrite V, Vx by lia; reflexivity). subst x'.
  pose proof (pos_len p x U Lx) as Lp. unfold frequency_splitter in H. rewrite E in H. cbn [bind] in H. destruct (fft_total x Lp) as (X & F). exists X. split; [exact F|]. intros j Hj. pose proof (cutoffs_length a) as Lc.
  assert (Lcomb : length (combine (cutoffs a) (tl (cutoffs a))) = S (length a)) by (rewrite combine_length; destruct (cutoffs a); cbn [length tl] in *; lia).
  pose proof (map_res_nth _ _ _ j (0, 0) [] H ltac:(lia)) as R. cbv beta in R. rewrite pairs_nth in R by lia. rewrite !cutoffs_nth in R by lia. cbn [fst snd] in R. set (c := (rsum j (share a), rsum (S j) (share a))).
  change (filter_spectrum p (splitter_mask (n_samples p) c) x = Ok (nth j outs [])) in R. destruct (filter_spectra p (splitter_mask (n_samples p) c) x (grid_dt_nz p U) Lp) as (out & X' & E1 & Lo & F1 & F2); [rewrite splitter_mask_length; lia|]. rewrite R in E1. injection E1 as <-. rewrite F in F1. injection F1 as <-. eexists; split; [exact F2|]. intros k Hk. destruct (fft_ok _ _ F) as (LX & _ & _). rewrite zipmul_nth by (rewrite splitter_mask_length; lia). f_equal.
  unfold splitter_mask. assert (Ll : length (linspace 0 1 (n_samples p)) = n_samples p) by apply tabulate_length. rewrite ifft_shift_nth by (rewrite map_length; lia). rewrite map_length, Ll. assert (Hm : ((k + n_samples p / 2) mod n_samples p < n_samples p)%nat) by (apply Nat.mod_upper_bound; lia).
  match goal with |- nth ?i (map ?g _) C0 = _ => rewrite (nth_indep (map g _) C0 (g 0)) by (rewrite map_length, Ll; exact Hm); rewrite (map_nth g) end. unfold linspace. rewrite tabulate_nth by exact Hm. f_equal. unfold band_mask, c, soft_step, logistic, place_in_band. cbn [fst snd]. set (q := INR ((k + n_samples p / 2) mod n_samples p)). set (d := INR (n_samples p - 1)).
  replace (0 + q * ((1 - 0) / d)) with (q / d) by (unfold Rdiv; ring). f_equal. f_equal. f_equal. f_equal. ring.
Qed.

Lemma signal_half : forall w P p y i, 0 < w -> 0 <= P -> noisy_signal SignalGaussian w P p = Ok y -> (i < n_samples p)%nat -> Rabs (nth i (grid_t p) 0) = w / 2 -> sample_power y i = P / 2.
Proof.
  intros w P p y i Hw HP E Hi A. unfold noisy_signal in E. injection E as <-. unfold sample_power. match goal with |- context [nth i (map ?g _) C0] => rewrite (nth_indep (map g _) C0 (g 0)) by (rewrite map_length, grid_t_length; exact Hi); rewrite (map_nth g) end. set (t := nth i (grid_t p) 0) in *.
  assert (L2 : 0 < ln 2) by (pose proof (ln_increasing 1 2 ltac:(lra) ltac:(lra)) as X; rewrite ln_1 in X; exact X). pose proof (sqrt_lt_R0 _ L2) as S. assert (T : t * t = w * w / 4) by (replace (t * t) with (Rabs t * Rabs t) by (rewrite <- Rabs_mult; apply Rabs_right, Rle_ge, Rle_0_sqr); rewrite A; field).
  assert (Q : (t / (w / (2 * sqrt (ln 2)))) ^ 2 = ln 2). { replace ((t / (w / (2 * sqrt (ln 2)))) ^ 2) with (t * t * 4 / (w * w) * (sqrt (ln 2) * sqrt (ln 2))) by (field; repeat split; lra). rewrite sqrt_sqrt, T by lra. field. lra. }
  cbv beta. fold t. cbn [pow] in Q. rewrite Q. unfold Cnorm2, RtoC, re, im. cbn [fst snd]. set (e := exp (- (1 / 2) * ln 2)). replace (e * sqrt P * (e * sqrt P) + 0 * 0) with (e * e * (sqrt P * sqrt P)) by ring. rewrite sqrt_sqrt by exact HP.
  assert (E2 : e * e = / 2). { unfold e. rewrite <- exp_plus. replace (- (1 / 2) * ln 2 + - (1 / 2) * ln 2) with (- ln 2) by field. rewrite exp_Ropp, exp_ln by lra. reflexivity. } rewrite E2. field.
Qed.
