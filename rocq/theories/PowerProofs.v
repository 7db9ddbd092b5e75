(** Proofs of C69 and C70: the evaluators that compare powers or spectra. *)
From Coq Require Import Reals List Arith Bool Lia Lra ZArith.
From Verif Require Import Base Complex ArrayModel FourierProofs ComponentModel ComponentSpec ComponentProofs FilterProofs GridProofs OpticsSpec StrengthProofs EvaluatorModel EvaluatorSpec EvaluatorProofs PulseProofs.
Import ListNotations.
Local Open Scope nat_scope.
Local Open Scope R_scope.

Lemma sum_of_rsum : forall x, sum_of x = rsum (length x) (fun i => nth i x 0).
Proof.
  intros x. induction x as [|a x IH] using rev_ind; [reflexivity|]. rewrite app_length, Nat.add_1_r. cbn [rsum length]. rewrite app_nth2, Nat.sub_diag by lia. cbn [nth]. rewrite (rsum_ext (length x) _ (fun i => nth i x 0)) by (intros i Hi; rewrite app_nth1 by exact Hi; reflexivity). rewrite <- IH.
  unfold sum_of. rewrite fold_right_app. cbn [fold_right]. clear IH. induction x as [|b x IH]; cbn [fold_right]; [ring|]. rewrite IH. ring.
Qed.
Lemma sum_nonneg : forall x, (forall a, In a x -> 0 <= a) -> 0 <= sum_of x.
Proof. induction x as [|a x IH]; intros H; unfold sum_of in *; cbn [fold_right]; [lra|]. pose proof (H a (or_introl eq_refl)). specialize (IH (fun b Hb => H b (or_intror Hb))). lra. Qed.
Lemma sum_zero : forall x, (forall a, In a x -> 0 <= a) -> (sum_of x = 0 <-> forall a, In a x -> a = 0).
Proof.
  induction x as [|a x IH]; intros H; unfold sum_of in *; cbn [fold_right].
  - split; [intros _ a []|reflexivity].
  - pose proof (H a (or_introl eq_refl)) as Ha. pose proof (sum_nonneg x (fun b Hb => H b (or_intror Hb))) as Hx. unfold sum_of in Hx. specialize (IH (fun b Hb => H b (or_intror Hb))). split.
    + intros E b [<-|Hb]; [lra|]. apply IH; [lra|exact Hb].
    + intros E. rewrite (E a (or_introl eq_refl)). rewrite (proj2 IH); [ring|]. intros b Hb. apply E. right. exact Hb.
Qed.
Lemma sum_le : forall {A} (f g : A -> R) l, (forall a, In a l -> f a <= g a) -> sum_of (map f l) <= sum_of (map g l).
Proof. intros A f g l. induction l as [|a l IH]; intros H; unfold sum_of in *; cbn [map fold_right]; [lra|]. pose proof (H a (or_introl eq_refl)). specialize (IH (fun b Hb => H b (or_intror Hb))). lra. Qed.
Lemma sum_scale : forall {A} c (f : A -> R) l, sum_of (map (fun a => c * f a) l) = c * sum_of (map f l).
Proof. intros A c f l. induction l as [|a l IH]; unfold sum_of in *; cbn [map fold_right]; [ring|]. rewrite IH. ring. Qed.
Lemma combine_fst : forall {A B} (a : list A) (b : list B), length a = length b -> map fst (combine a b) = a.
Proof. intros A B a. induction a as [|x a IH]; intros [|y b] L; try discriminate; [reflexivity|]. cbn [combine map fst]. rewrite IH by (injection L; auto). reflexivity. Qed.
Lemma combine_snd : forall {A B} (a : list A) (b : list B), length a = length b -> map snd (combine a b) = b.
Proof. intros A B a. induction a as [|x a IH]; intros [|y b] L; try discriminate; [reflexivity|]. cbn [combine map snd]. rewrite IH by (injection L; auto). reflexivity. Qed.

(** ** The filter design evaluator *)
Lemma response_ok : forall p state, usable (n_samples p) (window_t p) -> length state = n_samples p ->
  exists x, frequency_response p state = Ok x /\ length x = n_samples p /\ (forall a, In a x -> 0 <= a) /\
    forall i, (i < n_samples p)%nat -> nth i x 0 = Rabs (grid_dt p) * Cabs (harmonic_at state (centred_entry (n_samples p) i)).
Proof.
  intros p state U L. assert (P : (0 < length state)%nat) by (rewrite L; destruct U; lia). destruct (fft_total state P) as (s & F). destruct (fft_ok _ _ F) as (Ls & _ & _). unfold frequency_response, fft_. rewrite F. cbn [bind]. eexists. split; [reflexivity|].
  assert (Lx : length (map Cabs (fft_shift_ (scale (grid_dt p) s))) = n_samples p) by (rewrite map_length, fft_shift_length, scale_length; lia). split; [exact Lx|]. split; [intros a Ha; apply in_map_iff in Ha as (z & <- & _); apply Cabs_nonneg|].
  intros i Hi. rewrite (nth_indep _ 0 (Cabs C0)) by lia. rewrite (map_nth Cabs). rewrite fft_shift_nth by (rewrite scale_length; lia). rewrite scale_length, Ls, L, scale_nth. unfold centred_entry. rewrite (harmonic_fft state s _ F) by (rewrite L; apply Nat.mod_upper_bound; lia).
  rewrite Cabs_mul. f_equal. unfold Cabs. rewrite Cnorm2_RtoC. apply sqrt_Rsqr_abs.
Qed.
Lemma centred_onto : forall n k, (k < n)%nat -> exists i, (i < n)%nat /\ centred_entry n i = k.
Proof.
  intros n k H. set (h := (n - n / 2)%nat). assert (Hh : (h <= n)%nat) by (unfold h; lia). exists ((k + (n - h)) mod n)%nat. split; [apply Nat.mod_upper_bound; lia|]. unfold centred_entry. fold h. rewrite Nat.add_mod_idemp_l by lia. replace (k + (n - h) + h)%nat with (k + 1 * n)%nat by lia. rewrite Nat.mod_add by lia. apply Nat.mod_small. exact H.
Qed.
Lemma harmonics_dark : forall x, (0 < length x)%nat -> ((forall k, (k < length x)%nat -> harmonic_at x k = C0) <-> dark x).
Proof.
  intros x P. split.
  - intros H z Hz. destruct (fft_total x P) as (s & F). pose proof (parseval x s F) as E. destruct (fft_ok _ _ F) as (Ls & _ & _). rewrite (rsum_ext _ _ (fun _ => 0)) in E. 2: { intros k Hk. rewrite (harmonic_fft x s k F Hk), (H k Hk). cplx. ring. }
    rewrite rsum_const, Rmult_0_r in E. symmetry in E. apply Rmult_integral in E as [E|E]; [pose proof (INR_pos _ P); lra|]. assert (M : misfit x (map (fun _ => C0) x) = 0).
    { unfold misfit. rewrite map_length. refine (eq_trans _ E). apply rsum_ext. intros i Hi. assert (Q : nth i (map (fun _ : C => C0) x) C0 = C0) by exact (map_nth (fun _ : C => C0) x C0 i). rewrite Q. cplx. ring. }
    apply misfit_zero in M; [|rewrite map_length; reflexivity]. rewrite M in Hz. apply in_map_iff in Hz as (? & <- & _). reflexivity.
  - intros H k Hk. unfold harmonic_at. rewrite (csum_ext _ _ (fun _ => C0)); [apply csum_zero|]. intros j Hj. rewrite (H (nth j x C0)) by (apply nth_In; exact Hj). ring.
Qed.
Lemma response_dark : forall p state x, usable (n_samples p) (window_t p) -> length state = n_samples p -> frequency_response p state = Ok x -> (sum_of x = 0 <-> dark state).
Proof.
  intros p state x U L E. destruct (response_ok p state U L) as (x' & E' & Lx & Px & V). rewrite E in E'. injection E' as <-. rewrite (sum_zero x Px), <- harmonics_dark by (rewrite L; destruct U; lia). rewrite L. pose proof (grid_dt_nz p U) as D. split.
  - intros H k Hk. destruct (centred_onto _ k Hk) as (i & Hi & <-). specialize (V i Hi). rewrite (H (nth i x 0)) in V by (apply nth_In; lia). symmetry in V. apply Rmult_integral in V as [V|V]; [apply Rabs_no_R0 in V; [contradiction|exact D]|]. destruct (Req_dec (Cnorm2 (harmonic_at state (centred_entry (n_samples p) i))) 0) as [Z|Z]; [apply Cnorm2_zero; exact Z|exfalso].
    apply Z. rewrite <- Cabs_square, V. ring.
  - intros H a Ha. apply (In_nth _ _ 0) in Ha. destruct Ha as (i & Hi & <-). rewrite V by lia. rewrite H by (unfold centred_entry; apply Nat.mod_upper_bound; lia). unfold Cabs, Cnorm2, C0, re, im. cbn [fst snd]. replace (0 * 0 + 0 * 0) with 0 by ring. rewrite sqrt_0. ring.
Qed.
Lemma square_target : forall f, 1 / 2 * (square (f / free_spectral_range + duty * PI) duty + 1) = if Rlt_dec (mod_turn (f / free_spectral_range + duty * PI)) (duty * 2 * PI) then 1 else 0.
Proof. intros f. unfold square. destruct (Rlt_dec _ _); lra. Qed.
Lemma band_iff : forall f, mod_turn (f / free_spectral_range + duty * PI) < duty * 2 * PI <-> in_band (2 * PI * free_spectral_range) (2 * PI * (duty * free_spectral_range)) f.
Proof.
  intros f. pose proof PI_RGT_0 as Pp. set (F := free_spectral_range). assert (PF : 0 < F) by (unfold F, free_spectral_range; cbn [pow]; lra). set (x := f / F + duty * PI). assert (Ex : f = (x - duty * PI) * F) by (unfold x; field; lra). pose proof (mod_turn_bounds x) as B. unfold in_band, mod_turn in *. split.
  - intros H. exists (Int_part (x / (2 * PI))). set (z := IZR (Int_part (x / (2 * PI)))) in *. rewrite Ex. split; [|].
    + replace (z * (2 * PI * F) - 2 * PI * (duty * F) / 2) with ((2 * PI * z - duty * PI) * F) by field. apply Rmult_le_compat_r; lra.
    + replace (z * (2 * PI * F) + 2 * PI * (duty * F) / 2) with ((2 * PI * z + duty * PI) * F) by field. apply Rmult_lt_compat_r; lra.
  - intros (z & A & D). rewrite Ex in A, D. assert (A' : 2 * PI * IZR z <= x). { apply (Rmult_le_reg_r F); [exact PF|]. replace (IZR z * (2 * PI * F) - 2 * PI * (duty * F) / 2) with ((2 * PI * IZR z - duty * PI) * F) in A by field. nra. }
    assert (D' : x < 2 * PI * IZR z + duty * 2 * PI). { apply (Rmult_lt_reg_r F); [exact PF|]. replace (IZR z * (2 * PI * F) + 2 * PI * (duty * F) / 2) with ((2 * PI * IZR z + duty * PI) * F) in D by field. nra. }
    assert (Zq : Int_part (x / (2 * PI)) = z). { assert (Q : to_int (x / (2 * PI) - IZR z) = 0%Z). { apply to_int_at; [apply (Rmult_le_reg_r (2 * PI)); [lra|]; replace ((x / (2 * PI) - IZR z) * (2 * PI)) with (x - 2 * PI * IZR z) by (field; lra); lra|]. split; [apply (Rmult_le_reg_r (2 * PI)); [lra|]; replace ((x / (2 * PI) - IZR z) * (2 * PI)) with (x - 2 * PI * IZR z) by (field; lra); lra|].
        apply (Rmult_lt_reg_r (2 * PI)); [lra|]; replace ((x / (2 * PI) - IZR z) * (2 * PI)) with (x - 2 * PI * IZR z) by (field; lra). unfold duty in D'. lra. }
      pose proof (floor_bounds (x / (2 * PI))) as G. assert (A1 : IZR z <= x / (2 * PI)) by (apply (Rmult_le_reg_r (2 * PI)); [lra|]; replace (x / (2 * PI) * (2 * PI)) with x by (field; lra); lra).
      assert (A2 : x / (2 * PI) < IZR z + 1) by (apply (Rmult_lt_reg_r (2 * PI)); [lra|]; replace (x / (2 * PI) * (2 * PI)) with x by (field; lra); unfold duty in D'; lra).
      assert (A3 : IZR z < IZR (Int_part (x / (2 * PI)) + 1)) by (rewrite plus_IZR; lra). assert (A4 : IZR (Int_part (x / (2 * PI))) < IZR (z + 1)) by (rewrite plus_IZR; lra). apply lt_IZR in A3, A4. lia. }
    rewrite Zq. lra.
Qed.
Lemma target_length : forall p, length (target_transfer p) = n_samples p.
Proof. intros p. unfold target_transfer. rewrite map_length. apply grid_f_length. Qed.
Lemma target_nth : forall p i, usable (n_samples p) (window_t p) -> (i < n_samples p)%nat ->
  let band := in_band (2 * PI * free_spectral_range) (2 * PI * (duty * free_spectral_range)) (centred_frequency (n_samples p) (window_t p) i) in
  (band -> nth i (target_transfer p) 0 = 1) /\ (~ band -> nth i (target_transfer p) 0 = 0).
Proof.
  intros p i U H band. assert (E : nth i (target_transfer p) 0 = 1 / 2 * (square (nth i (grid_f p) 0 / free_spectral_range + duty * PI) duty + 1)).
  { unfold target_transfer. set (g := fun f => 1 / 2 * (square (f / free_spectral_range + duty * PI) duty + 1)). rewrite (nth_indep _ 0 (g 0)) by (rewrite map_length, grid_f_length; exact H). apply (map_nth g). }
  rewrite E, square_target, (grid_f_nth p i U H), grid_df_val. fold (centred_frequency (n_samples p) (window_t p) i). pose proof (band_iff (centred_frequency (n_samples p) (window_t p) i)) as B. fold band in B. destruct (Rlt_dec _ _) as [L|L]; split; intros X; try reflexivity; tauto.
Qed.
Lemma zip_sum : forall (f : R -> R -> R) a b n, length a = n -> length b = n -> exists c, broadcast f a b = Ok c /\ length c = n /\ sum_of c = rsum n (fun i => f (nth i a 0) (nth i b 0)).
Proof.
  intros f a b n La Lb. rewrite broadcast_same by lia. eexists. split; [reflexivity|]. assert (L : length (map (fun p => f (fst p) (snd p)) (combine a b)) = n) by (rewrite (zip_length f) by lia; exact La). split; [exact L|]. rewrite sum_of_rsum, L. apply rsum_ext. intros i Hi. apply (zip_nth f); lia.
Qed.
Lemma filter_value : forall p state, usable (n_samples p) (window_t p) -> length state = n_samples p ->
  (dark state -> filter_design_score p state = Ok None) /\
  (~ dark state -> exists (s : R) (b : nat -> R), filter_design_score p state = Ok (Some s) /\
    (forall i, (i < n_samples p)%nat -> let band := in_band (2 * PI * free_spectral_range) (2 * PI * (duty * free_spectral_range)) (centred_frequency (n_samples p) (window_t p) i) in (band -> b i = 1) /\ (~ band -> b i = 0)) /\
    let a := fun i => sqrt (Cnorm2 (harmonic_at state (centred_entry (n_samples p) i))) in
    0 < rsum (n_samples p) a /\ s = - (rsum (n_samples p) (fun i => b i * a i) / rsum (n_samples p) a)).
Proof.
  intros p state U L. destruct (response_ok p state U L) as (x & E & Lx & Px & V). pose proof (response_dark p state x U L E) as D. destruct (zip_sum Rmult x (target_transfer p) (n_samples p) Lx (target_length p)) as (xy & B & _ & Sxy).
  unfold filter_design_score. rewrite E. cbn [bind]. rewrite B. cbn [bind]. unfold quotient. split.
  - intros H. destruct (Req_EM_T (sum_of x) 0) as [_|N]; [reflexivity|]. exfalso. apply N, D, H.
  - intros H. destruct (Req_EM_T (sum_of x) 0) as [Z|N]; [exfalso; apply H, D, Z|]. exists (- sum_of xy / sum_of x), (fun i => nth i (target_transfer p) 0). split; [reflexivity|]. split; [intros i Hi; apply target_nth; assumption|]. set (a := fun i => sqrt (Cnorm2 (harmonic_at state (centred_entry (n_samples p) i)))).
    set (d := Rabs (grid_dt p)). assert (Pd : 0 < d) by (apply Rabs_pos_lt, grid_dt_nz, U).
    assert (Sx : sum_of x = d * rsum (n_samples p) a). { rewrite sum_of_rsum, Lx, <- rsum_scale. apply rsum_ext. intros i Hi. apply V, Hi. }
    assert (Sy : sum_of xy = d * rsum (n_samples p) (fun i => nth i (target_transfer p) 0 * a i)). { rewrite Sxy, <- rsum_scale. apply rsum_ext. intros i Hi. rewrite (V i Hi). unfold a, d, Cabs. ring. }
    assert (Pa : 0 < rsum (n_samples p) a). { pose proof (sum_nonneg x Px). assert (0 < sum_of x) by lra. rewrite Sx in *. nra. }
    cbv zeta. fold a. split; [exact Pa|]. rewrite Sx, Sy. change (fun i : nat => nth i (target_transfer p) 0 * sqrt (Cnorm2 (harmonic_at state (centred_entry (n_samples p) i)))) with (fun i : nat => nth i (target_transfer p) 0 * a i). set (X := rsum (n_samples p) a) in *. set (Y := rsum (n_samples p) (fun i : nat => nth i (target_transfer p) 0 * a i)). field. split; lra.
Qed.
Lemma rsum_zero : forall n f, (forall i, (i < n)%nat -> 0 <= f i) -> (rsum n f = 0 <-> forall i, (i < n)%nat -> f i = 0).
Proof.
  induction n as [|n IH]; intros f H; cbn [rsum]; [split; [intros _ i Hi; lia|reflexivity]|]. assert (H' : forall i, (i < n)%nat -> 0 <= f i) by (intros i Hi; apply H; lia). pose proof (rsum_nonneg n f H') as P. pose proof (H n ltac:(lia)) as Pn. specialize (IH f H'). split.
  - intros E i Hi. destruct (Nat.eq_dec i n) as [->|Ni]; [lra|]. apply IH; [lra|lia].
  - intros E. rewrite (E n) by lia. rewrite (proj2 IH); [ring|]. intros i Hi. apply E. lia.
Qed.
Lemma filter_bounds : forall p state s, usable (n_samples p) (window_t p) -> length state = n_samples p -> filter_design_score p state = Ok (Some s) ->
  -1 <= s <= 0 /\
  (s = -1 <-> forall i, (i < n_samples p)%nat -> in_band (2 * PI * free_spectral_range) (2 * PI * (duty * free_spectral_range)) (centred_frequency (n_samples p) (window_t p) i) \/ harmonic_at state (centred_entry (n_samples p) i) = C0).
Proof.
  intros p state s U L E. destruct (filter_value p state U L) as (D & V). destruct (Classical_Prop.classic (dark state)) as [X|X]; [rewrite (D X) in E; discriminate|]. destruct (V X) as (s' & b & E' & B & V'). cbv zeta in V'. destruct V' as (P & Vs). set (a := fun i => sqrt (Cnorm2 (harmonic_at state (centred_entry (n_samples p) i)))) in *. rewrite E in E'. assert (Hss : s' = s) by congruence. rewrite Hss in Vs. clear Hss.
  assert (Na : forall i, 0 <= a i) by (intros i; apply sqrt_pos). assert (Nb : forall i, (i < n_samples p)%nat -> b i = 0 \/ b i = 1). { intros i Hi. destruct (B i Hi) as (B1 & B0). destruct (Classical_Prop.classic (in_band (2 * PI * free_spectral_range) (2 * PI * (duty * free_spectral_range)) (centred_frequency (n_samples p) (window_t p) i))); auto. }
  change (fun i : nat => b i * sqrt (Cnorm2 (harmonic_at state (centred_entry (n_samples p) i)))) with (fun i => b i * a i) in Vs.
  assert (I1 : 0 <= rsum (n_samples p) (fun i => b i * a i)) by (apply rsum_nonneg; intros i Hi; specialize (Na i); destruct (Nb i Hi) as [-> | ->]; lra).
  assert (Es : rsum (n_samples p) (fun i => b i * a i) + rsum (n_samples p) (fun i => (1 - b i) * a i) = rsum (n_samples p) a) by (rewrite <- rsum_add; apply rsum_ext; intros; ring).
  assert (N2 : forall i, (i < n_samples p)%nat -> 0 <= (1 - b i) * a i) by (intros i Hi; specialize (Na i); destruct (Nb i Hi) as [-> | ->]; lra).
  pose proof (rsum_nonneg _ _ N2) as I2. set (X1 := rsum (n_samples p) (fun i => b i * a i)) in *. set (T := rsum (n_samples p) a) in *. assert (Q : X1 / T * T = X1) by (field; lra). split; [split; nra|].
  split.
  - intros Hs i Hi. assert (Z : rsum (n_samples p) (fun i => (1 - b i) * a i) = 0) by nra. apply (proj1 (rsum_zero _ _ N2)) with (i := i) in Z; [|exact Hi]. destruct (Classical_Prop.classic (in_band (2 * PI * free_spectral_range) (2 * PI * (duty * free_spectral_range)) (centred_frequency (n_samples p) (window_t p) i))) as [Y|Y]; [left; exact Y|right]. destruct (B i Hi) as (_ & B0). rewrite (B0 Y) in Z. assert (Za : a i = 0) by lra. unfold a in Za. apply sqrt_eq_0 in Za; [apply Cnorm2_zero; exact Za|unfold Cnorm2; nra].
  - intros H. assert (Z : rsum (n_samples p) (fun i => (1 - b i) * a i) = 0). { apply (rsum_zero _ _ N2). intros i Hi. destruct (H i Hi) as [Y|Y]; [rewrite (proj1 (B i Hi) Y); ring|]. unfold a. rewrite Y. unfold Cnorm2, C0, re, im. cbn [fst snd]. replace (0 * 0 + 0 * 0) with 0 by ring. rewrite sqrt_0. ring. }
    assert (X1 = T) by lra. rewrite Vs. replace X1 with T by auto. field. lra.
Qed.
Lemma harmonic_scaled : forall c x k, harmonic_at (map (Cmul c) x) k = Cmul c (harmonic_at x k).
Proof.
  intros c x k. unfold harmonic_at. rewrite map_length. rewrite <- csum_scale. apply csum_ext. intros j Hj. replace (nth j (map (Cmul c) x) C0) with (Cmul c (nth j x C0)); [ring|]. symmetry. rewrite (nth_indep _ C0 (Cmul c C0)) by (rewrite map_length; exact Hj). apply (map_nth (Cmul c)).
Qed.
Lemma dark_scaled : forall c x, c <> C0 -> (dark (map (Cmul c) x) <-> dark x).
Proof.
  intros c x H. split; intros D z Hz.
  - assert (E : Cmul c z = C0) by (apply D, in_map, Hz). apply Cnorm2_zero. assert (Q : Cnorm2 c * Cnorm2 z = 0) by (rewrite <- Cnorm2_mul, E; unfold Cnorm2, C0, re, im; cbn [fst snd]; ring). pose proof (Cnorm2_pos c H). nra.
  - apply in_map_iff in Hz as (y & <- & Hy). rewrite (D y Hy). ring.
Qed.
Lemma filter_scaled : forall p state c, usable (n_samples p) (window_t p) -> length state = n_samples p -> c <> C0 -> filter_design_score p (map (Cmul c) state) = filter_design_score p state.
Proof.
  intros p state c U L H. assert (L' : length (map (Cmul c) state) = n_samples p) by (rewrite map_length; exact L). destruct (response_ok p state U L) as (x & E & Lx & _ & V). destruct (response_ok p _ U L') as (x' & E' & Lx' & _ & V'). pose proof (Cabs_pos c H) as Pc.
  assert (Vx : forall i, (i < n_samples p)%nat -> nth i x' 0 = Cabs c * nth i x 0) by (intros i Hi; rewrite (V' i Hi), (V i Hi), harmonic_scaled, Cabs_mul; ring).
  destruct (zip_sum Rmult x (target_transfer p) _ Lx (target_length p)) as (xy & B & _ & S). destruct (zip_sum Rmult x' (target_transfer p) _ Lx' (target_length p)) as (xy' & B' & _ & S').
  unfold filter_design_score. rewrite E, E'. cbn [bind]. rewrite B, B'. cbn [bind]. apply f_equal. assert (Sx : sum_of x' = Cabs c * sum_of x) by (rewrite !sum_of_rsum, Lx, Lx', <- rsum_scale; apply rsum_ext; exact Vx).
  assert (Sy : sum_of xy' = Cabs c * sum_of xy) by (rewrite S, S', <- rsum_scale; apply rsum_ext; intros i Hi; rewrite (Vx i Hi); ring). rewrite Sx, Sy. unfold quotient. destruct (Req_EM_T (sum_of x) 0) as [Z|Z], (Req_EM_T (Cabs c * sum_of x) 0) as [Z'|Z']; try reflexivity.
  - exfalso. apply Z'. rewrite Z. ring.
  - exfalso. apply Rmult_integral in Z' as [Z'|Z']; [lra|contradiction].
  - f_equal. field. split; lra.
Qed.
(* the bands are not repeated with the free spectral range *)
Lemma bands_wrong : in_band (2 * PI * free_spectral_range) (2 * PI * (duty * free_spectral_range)) 0 /\ ~ in_band (2 * PI * free_spectral_range) (2 * PI * (duty * free_spectral_range)) free_spectral_range.
Proof.
  pose proof PI_RGT_0 as P0. pose proof PI_4 as P4. assert (P3 : 2 < PI) by (pose proof PI2_1; lra). set (F := free_spectral_range). assert (PF : 0 < F) by (unfold F, free_spectral_range; cbn [pow]; lra). unfold in_band, duty. split.
  - exists 0%Z. split; nra.
  - intros (z & A & B). replace (IZR z * (2 * PI * F) - 2 * PI * (1 / 10 * F) / 2) with ((2 * PI * IZR z - PI / 10) * F) in A by field. replace (IZR z * (2 * PI * F) + 2 * PI * (1 / 10 * F) / 2) with ((2 * PI * IZR z + PI / 10) * F) in B by field.
    assert (A' : 2 * PI * IZR z - PI / 10 <= 1) by (apply (Rmult_le_reg_r F); lra). assert (B' : 1 < 2 * PI * IZR z + PI / 10) by (apply (Rmult_lt_reg_r F); lra).
    destruct (Z_le_gt_dec z 0) as [Hz|Hz]; [apply IZR_le in Hz; nra|]. assert (Hz' : (1 <= z)%Z) by lia. apply IZR_le in Hz'. nra.
Qed.

(** ** The noise suppression evaluator *)
Lemma power_length : forall x, length (power_ x) = length x.
Proof. intros x. apply map_length. Qed.
Lemma power_nth : forall x i, nth i (power_ x) 0 = sample_power x i.
Proof. intros x i. unfold power_, sample_power. replace 0 with (Cnorm2 C0) at 1 by (unfold Cnorm2, C0, re, im; cbn [fst snd]; ring). apply (map_nth Cnorm2). Qed.
Lemma sample_nonneg : forall x i, 0 <= sample_power x i.
Proof. intros x i. unfold sample_power, Cnorm2. nra. Qed.
Lemma noise_value : forall signal tp state, noise_suppression_init (Some signal) = Ok tp -> length state = length signal -> noise_suppression_score tp state = Ok (power_misfit state signal).
Proof.
  intros signal tp state E L. cbn in E. assert (tp = power_ signal) by congruence. subst tp. unfold noise_suppression_score. destruct (zip_sum (fun a b => (a - b) ^ 2) (power_ state) (power_ signal) (length signal)) as (d & B & _ & S); [rewrite power_length; exact L|apply power_length|]. rewrite B. cbn [bind]. rewrite S. f_equal. unfold power_misfit. apply rsum_ext. intros i _. rewrite !power_nth. reflexivity.
Qed.
Lemma power_misfit_zero : forall x y, 0 <= power_misfit x y /\ (power_misfit x y = 0 <-> forall i, (i < length y)%nat -> sample_power x i = sample_power y i).
Proof.
  intros x y. assert (N : forall i, (i < length y)%nat -> 0 <= (sample_power x i - sample_power y i) ^ 2) by (intros; apply pow2_ge_0). split; [apply rsum_nonneg; exact N|]. unfold power_misfit. rewrite (rsum_zero _ _ N). split; intros H i Hi; specialize (H i Hi); [nra|rewrite H; ring].
Qed.

(** ** The NOT gate evaluator *)
Lemma rsum_entry : forall n f i, (forall j, (j < n)%nat -> 0 <= f j) -> (i < n)%nat -> f i <= rsum n f.
Proof.
  induction n as [|n IH]; intros f i H Hi; [lia|]. cbn [rsum]. assert (H' : forall j, (j < n)%nat -> 0 <= f j) by (intros j Hj; apply H; lia). pose proof (rsum_nonneg n f H'). pose proof (H n ltac:(lia)). destruct (Nat.eq_dec i n) as [->|N]; [lra|]. pose proof (IH f i H' ltac:(lia)). lra.
Qed.
Lemma rsum_product : forall n f g, (forall j, (j < n)%nat -> 0 <= f j) -> (forall j, (j < n)%nat -> 0 <= g j) -> rsum n (fun i => f i * g i) <= rsum n f * rsum n g.
Proof.
  intros n f g F G. rewrite (Rmult_comm (rsum n f)), <- rsum_scale. apply rsum_le. intros i Hi. rewrite Rmult_comm. apply Rmult_le_compat_r; [apply F; exact Hi|apply rsum_entry; assumption].
Qed.
Lemma roots_sum : forall x, sum_of (map (fun a => sqrt (a ^ 2)) (power_ x)) = rsum (length x) (sample_power x).
Proof.
  intros x. rewrite sum_of_rsum, map_length, power_length. apply rsum_ext. intros i Hi. set (f := fun a => sqrt (a ^ 2)). rewrite (nth_indep _ 0 (f 0)) by (rewrite map_length, power_length; exact Hi). rewrite (map_nth f), power_nth. unfold f. rewrite <- Rsqr_pow2. apply sqrt_Rsqr, sample_nonneg.
Qed.
Lemma total_dark : forall x, rsum (length x) (sample_power x) = 0 <-> dark x.
Proof.
  intros x. rewrite (rsum_zero _ _ (fun i _ => sample_nonneg x i)). split.
  - intros H z Hz. apply (In_nth _ _ C0) in Hz. destruct Hz as (i & Hi & <-). apply Cnorm2_zero, (H i Hi).
  - intros H i Hi. unfold sample_power. rewrite (H (nth i x C0)) by (apply nth_In; exact Hi). unfold Cnorm2, C0, re, im. cbn [fst snd]. ring.
Qed.
Lemma gate_value : forall target state, length state = length target ->
  (dark target \/ dark state -> not_gate_score target state = Ok None) /\
  (~ dark target -> ~ dark state -> let n := length target in
    0 < rsum n (sample_power state) * rsum n (sample_power target) /\
    not_gate_score target state = Ok (Some (rsum n (fun i => sample_power state i * sample_power target i) / (rsum n (sample_power state) * rsum n (sample_power target))))).
Proof.
  intros target state L. unfold not_gate_score, similarity_cosine. destruct (zip_sum Rmult (power_ state) (power_ target) (length target)) as (xy & B & _ & S); [rewrite power_length; exact L|apply power_length|]. rewrite B. cbn [bind]. rewrite !roots_sum, S, L. rewrite (rsum_ext _ _ (fun i => sample_power state i * sample_power target i)) by (intros i _; rewrite !power_nth; reflexivity).
  pose proof (total_dark target) as Dt. pose proof (total_dark state) as Ds. rewrite L in Ds. assert (Pt : 0 <= rsum (length target) (sample_power target)) by (apply rsum_nonneg; intros; apply sample_nonneg). assert (Ps : 0 <= rsum (length target) (sample_power state)) by (apply rsum_nonneg; intros; apply sample_nonneg).
  unfold quotient. split.
  - intros [H|H]; (destruct (Req_EM_T _ 0) as [_|N]; [reflexivity|exfalso; apply N]); [rewrite (proj2 Dt H)|rewrite (proj2 Ds H)]; ring.
  - intros Ht Hs. cbv zeta. set (n := length target) in *. assert (rsum n (sample_power target) <> 0) by tauto. assert (rsum n (sample_power state) <> 0) by tauto. split; [apply Rmult_lt_0_compat; lra|]. destruct (Req_EM_T _ 0) as [Z|_]; [|reflexivity]. apply Rmult_integral in Z. tauto.
Qed.
Lemma gate_bounds : forall target state s, length state = length target -> not_gate_score target state = Ok (Some s) ->
  0 <= s <= 1 /\ (s = 0 <-> forall i, (i < length target)%nat -> nth i target C0 = C0 \/ nth i state C0 = C0).
Proof.
  intros target state s L E. destruct (gate_value target state L) as (D & V). destruct (Classical_Prop.classic (dark target)) as [X|X]; [rewrite (D (or_introl X)) in E; discriminate|]. destruct (Classical_Prop.classic (dark state)) as [Y|Y]; [rewrite (D (or_intror Y)) in E; discriminate|]. destruct (V X Y) as (P & E'). rewrite E in E'. set (n := length target) in *. set (A := rsum n (fun i => sample_power state i * sample_power target i)) in *. set (T := rsum n (sample_power state) * rsum n (sample_power target)) in *. assert (Hs : s = A / T) by congruence.
  assert (NN : forall i, (i < n)%nat -> 0 <= sample_power state i * sample_power target i) by (intros i _; apply Rmult_le_pos; apply sample_nonneg). assert (A0 : 0 <= A) by (apply rsum_nonneg; exact NN). assert (AT : A <= T) by (apply rsum_product; intros; apply sample_nonneg). assert (Q : A / T * T = A) by (field; lra). split; [rewrite Hs; split; nra|].
  assert (Z : s = 0 <-> A = 0) by (rewrite Hs; split; intros H; [rewrite <- Q, H; ring|rewrite H; field; lra]). rewrite Z. unfold A. rewrite (rsum_zero _ _ NN). split; intros H i Hi; specialize (H i Hi).
  - apply Rmult_integral in H as [H|H]; [right|left]; apply Cnorm2_zero, H.
  - unfold sample_power. assert (N0 : Cnorm2 C0 = 0) by (unfold Cnorm2, C0, re, im; cbn [fst snd]; ring). destruct H as [-> | ->]; rewrite N0; ring.
Qed.

(** ** The lens evaluator *)
Lemma fold_max : forall l a, a <= fold_left Rmax l a /\ (forall b, In b l -> b <= fold_left Rmax l a).
Proof.
  induction l as [|c l IH]; intros a; cbn [fold_left]; [split; [lra|intros b []]|]. destruct (IH (Rmax a c)) as (H & K). pose proof (Rmax_l a c). pose proof (Rmax_r a c). split; [lra|]. intros b [<-|Hb]; [lra|apply K, Hb].
Qed.
Lemma fold_min : forall l a, (a = fold_left Rmin l a \/ In (fold_left Rmin l a) l) /\ fold_left Rmin l a <= a.
Proof.
  induction l as [|c l IH]; intros a; cbn [fold_left]; [split; [auto|lra]|]. destruct (IH (Rmin a c)) as (H & K). pose proof (Rmin_l a c). split; [|lra]. destruct H as [H|H]; [|right; right; exact H]. rewrite <- H. unfold Rmin. destruct (Rle_dec a c); [left; reflexivity|right; left; reflexivity].
Qed.
Lemma extremes : forall x hi lo, (forall a, In a x -> 0 <= a) -> maximum x = Ok hi -> minimum x = Ok lo -> 0 <= lo <= hi.
Proof.
  intros [|a x] hi lo P H K; [discriminate|]. cbn in H, K. assert (hi = fold_left Rmax x a) by congruence. assert (lo = fold_left Rmin x a) by congruence. subst. destruct (fold_max x a) as (M & _). destruct (fold_min x a) as (I & N). split; [|lra]. destruct I as [I|I]; [rewrite <- I; apply P; left; reflexivity|apply P; right; exact I].
Qed.
Lemma slice_In : forall {A} a b (x : list A) z, In z (slice a b x) -> In z x.
Proof.
  intros A a b x z H. unfold slice in H. assert (H' : In z (firstn b x)) by (rewrite <- (firstn_skipn a (firstn b x)); apply in_or_app; right; exact H). rewrite <- (firstn_skipn b x). apply in_or_app. left. exact H'.
Qed.
Lemma middle_length : forall {A} (x : list A) n, (2 <= n)%nat -> length x = n -> (0 < length (slice (n / 4) (3 * n / 4) x))%nat.
Proof.
  intros A x n H L. unfold slice. rewrite skipn_length, firstn_length, L. pose proof (Nat.div_mod n 4 ltac:(lia)). pose proof (Nat.mod_upper_bound n 4 ltac:(lia)). pose proof (Nat.div_mod (3 * n) 4 ltac:(lia)). pose proof (Nat.mod_upper_bound (3 * n) 4 ltac:(lia)). lia.
Qed.
Lemma maximum_ok : forall x, (0 < length x)%nat -> exists h, maximum x = Ok h.
Proof. intros [|a x] H; [cbn in H; lia|]. eexists. reflexivity. Qed.
Lemma minimum_ok : forall x, (0 < length x)%nat -> exists h, minimum x = Ok h.
Proof. intros [|a x] H; [cbn in H; lia|]. eexists. reflexivity. Qed.
Lemma lens_sound : forall p input state, usable (n_samples p) (window_t p) -> length input = n_samples p -> length state = n_samples p ->
  exists r, lens_score p input state = Ok r /\ forall s, r = Some s -> 0 <= s.
Proof.
  intros p input state U Li Ls. destruct (response_ok p input U Li) as (x & E & Lx & Px & _). destruct (response_ok p state U Ls) as (y & E' & Ly & Py & _). assert (Lt : length (lens_target p) = n_samples p) by (unfold lens_target; rewrite map_length; apply grid_f_length).
  destruct (zip_sum Rmult (lens_target p) x (n_samples p) Lt Lx) as (t & B & Lz & _). assert (Pt : forall a, In a t -> 0 <= a).
  { intros a Ha. rewrite broadcast_same in B by lia. assert (Et : t = map (fun q => fst q * snd q) (combine (lens_target p) x)) by congruence. rewrite Et in Ha. apply in_map_iff in Ha as ((u & v) & <- & Huv). cbn [fst snd]. apply Rmult_le_pos; [|apply Px; exact (in_combine_r _ _ _ _ Huv)]. apply in_combine_l in Huv. unfold lens_target in Huv. apply in_map_iff in Huv as (f & <- & _). pose proof (pow2_ge_0 (cos (f / (1235 * 10 ^ 7) + 19 / 10))). lra. }
  assert (U2 : (2 <= n_samples p)%nat) by (destruct U; assumption). unfold lens_score. rewrite E. cbn [bind]. rewrite B. cbn [bind]. rewrite E'. cbn [bind]. destruct (maximum_ok t ltac:(lia)) as (top & Mt). rewrite Mt. cbn [bind]. destruct (Req_EM_T top 0) as [Z|Z].
  - destruct (maximum_ok _ (middle_length y _ U2 Ly)) as (h & ->). cbn [bind]. eexists. split; [reflexivity|]. discriminate.
  - assert (Pp : 0 < top). { destruct t as [|a t]; [discriminate|]. cbn in Mt. assert (top = fold_left Rmax t a) by congruence. destruct (fold_max t a) as (M & _). pose proof (Pt a (or_introl eq_refl)). lra. }
    set (y' := map (fun a => a / top) y). assert (Ly' : length y' = n_samples p) by (unfold y'; rewrite map_length; exact Ly). assert (Py' : forall a, In a y' -> 0 <= a). { intros a Ha. apply in_map_iff in Ha as (b & <- & Hb). apply Rmult_le_pos; [apply Py, Hb|apply Rlt_le, Rinv_0_lt_compat, Pp]. }
    destruct (zip_sum (fun a b => (a - b) ^ 2) y' (map (fun a => a / top) t) (n_samples p) Ly') as (d & -> & _ & Sd); [rewrite map_length; exact Lz|]. cbn [bind]. destruct (maximum_ok _ (middle_length y' _ U2 Ly')) as (hi & Hh). rewrite Hh. cbn [bind]. destruct (minimum_ok _ (middle_length y' _ U2 Ly')) as (lo & Hl). rewrite Hl. cbn [bind]. eexists. split; [reflexivity|].
    pose proof (extremes _ hi lo (fun a Ha => Py' a (slice_In _ _ _ _ Ha)) Hh Hl) as X. assert (Pd : 0 <= sum_of d) by (rewrite Sd; apply rsum_nonneg; intros; apply pow2_ge_0). intros s. unfold quotient. destruct (Req_EM_T (hi + lo) 0) as [Q|Q]; [discriminate|]. destruct (Req_EM_T ((hi - lo) / (hi + lo)) 0) as [V|V]; [discriminate|]. intros Es. assert (Hs : s = sum_of d / ((hi - lo) / (hi + lo))) by congruence. rewrite Hs.
    assert (0 <= (hi - lo) / (hi + lo)) by (apply Rmult_le_pos; [lra|apply Rlt_le, Rinv_0_lt_compat; lra]). apply Rmult_le_pos; [exact Pd|]. apply Rlt_le, Rinv_0_lt_compat. lra.
Qed.

(** ** The signal to noise evaluator *)
Lemma abs_nth : forall x i, nth i (map Cabs x) 0 = Cabs (nth i x C0).
Proof. intros x i. replace 0 with (Cabs C0) at 1; [apply (map_nth Cabs)|]. unfold Cabs, Cnorm2, C0, re, im. cbn [fst snd]. replace (0 * 0 + 0 * 0) with 0 by ring. apply sqrt_0. Qed.
Lemma Cabs_zero : forall z, Cabs z = 0 -> z = C0.
Proof. intros z H. apply Cnorm2_zero. rewrite <- Cabs_square, H. ring. Qed.
Lemma snr_value : forall clean noisy, length noisy = length clean -> (0 < length clean)%nat ->
  ((exists z, In z clean /\ z = C0) -> snr_score clean noisy = Ok None) /\
  ((forall z, In z clean -> z <> C0) -> snr_score clean noisy = Ok (Some (1 - rsum (length clean) (fun i => sqrt (Cnorm2 (nth i noisy C0)) / sqrt (Cnorm2 (nth i clean C0))) / INR (length clean)))).
Proof.
  intros clean noisy L P. set (n := length clean) in *. pose proof (INR_pos _ P) as Pn. unfold snr_score. rewrite (broadcast_same Rminus) by (rewrite !map_length; lia). cbn [bind]. set (d := map (fun q : R * R => fst q - snd q) (combine (map Cabs clean) (map Cabs noisy))). assert (Ld : length d = n) by (unfold d; rewrite (zip_length Rminus); rewrite !map_length; unfold n; lia).
  assert (Vd : forall i, (i < n)%nat -> nth i d 0 = Cabs (nth i clean C0) - Cabs (nth i noisy C0)) by (intros i Hi; unfold d; rewrite (zip_nth Rminus _ _ 0 0) by (rewrite !map_length; fold n; lia); rewrite !abs_nth; reflexivity).
  rewrite (broadcast_same quotient) by (rewrite Ld, map_length; reflexivity). cbn [bind]. set (q := map (fun p : R * R => quotient (fst p) (snd p)) (combine d (map Cabs clean))). assert (Lq : length q = n) by (unfold q; rewrite (zip_length quotient); [exact Ld|rewrite map_length; exact Ld]).
  assert (Vq : forall i, (i < n)%nat -> nth i q None = quotient (Cabs (nth i clean C0) - Cabs (nth i noisy C0)) (Cabs (nth i clean C0))) by (intros i Hi; unfold q; rewrite (zip_nth quotient _ _ 0 0) by (rewrite ?map_length, ?Ld; fold n; lia); rewrite abs_nth, (Vd i Hi); reflexivity).
  split.
  - intros (z & Hz & Z). apply (In_nth _ _ C0) in Hz. destruct Hz as (i & Hi & E). fold n in Hi. destruct (forallb _ q) eqn:F; [|reflexivity]. exfalso. rewrite forallb_forall in F. assert (Hq : (i < length q)%nat) by lia. specialize (F (nth i q None) (nth_In q None Hq)). rewrite (Vq i Hi) in F. unfold quotient in F. rewrite E, Z in F. destruct (Req_EM_T (Cabs C0) 0) as [_|N].
    + discriminate F.
    + apply N. unfold Cabs, Cnorm2, C0, re, im. cbn [fst snd]. replace (0 * 0 + 0 * 0) with 0 by ring. apply sqrt_0.
  - intros H. assert (Vs : forall i, (i < n)%nat -> nth i q None = Some (1 - Cabs (nth i noisy C0) / Cabs (nth i clean C0))). { intros i Hi. rewrite (Vq i Hi). unfold quotient. assert (N : nth i clean C0 <> C0) by (apply H, nth_In; exact Hi). pose proof (Cabs_pos _ N). destruct (Req_EM_T _ 0) as [Z|_]; [lra|]. f_equal. field. lra. }
    assert (F : forallb (fun r : option R => match r with Some _ => true | None => false end) q = true). { apply forallb_forall. intros r Hr. apply (In_nth _ _ None) in Hr. destruct Hr as (i & Hi & <-). rewrite Vs by lia. reflexivity. }
    rewrite F. unfold quotient. rewrite Lq. destruct (Req_EM_T (INR n) 0) as [Z|_]; [lra|]. do 2 apply f_equal. rewrite sum_of_rsum, map_length, Lq. set (g := fun r : option R => match r with Some x => x | None => 0 end). rewrite (rsum_ext _ _ (fun i => 1 + (-1) * (Cabs (nth i noisy C0) / Cabs (nth i clean C0)))).
    + rewrite rsum_add, rsum_const, rsum_scale. unfold Cabs. field. lra.
    + intros i Hi. change 0 with (g None). rewrite (map_nth g), (Vs i Hi). unfold g. ring.
Qed.
