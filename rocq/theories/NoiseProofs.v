(** The noise vectors and their addition. *)
From Coq Require Import Reals Lra Lia List Arith ZArith Permutation.
From Verif Require Import Base Complex ArrayModel FourierProofs ComponentModel ComponentSpec FilterProofs ComponentProofs GridProofs DetectorModel DetectorSpec DetectorProofs NoiseModel.
Import ListNotations.
Local Open Scope R_scope.

(** ** Mean powers *)
Lemma mean_average : forall x, mean_power x = average_power x.
Proof. intros x. unfold mean_power, average_power, power_. f_equal. induction x as [|z x IH]; [reflexivity|]. cbn [map fold_right]. rewrite IH. reflexivity. Qed.
Lemma average_scale : forall c x, average_power (scale c x) = c * c * average_power x.
Proof. intros c x. unfold average_power. rewrite scale_length. pose proof (energy_scale c x) as E. unfold energy in E. rewrite E. unfold Rdiv. ring. Qed.
Lemma alive_power : forall x, alive x -> 0 < average_power x.
Proof.
  intros x (z & Hz & N). unfold average_power. assert (P : 0 < energy x).
  { induction x as [|w x IH]; [destruct Hz|]. change (energy (w :: x)) with (Cnorm2 w + energy x). pose proof (energy_nonneg x). pose proof (Cnorm2_nonneg w). destruct Hz as [-> |Hz].
    - destruct (Req_dec (Cnorm2 z) 0) as [E|E]; [apply Cnorm2_zero in E; contradiction|lra].
    - specialize (IH Hz). lra. }
  apply Rdiv_lt_0_compat; [exact P|]. apply INR_pos. destruct x; [destruct Hz|cbn; lia].
Qed.
Lemma alive_length : forall x, alive x -> (0 < length x)%nat.
Proof. intros x (z & Hz & _). destruct x; [destruct Hz|cbn; lia]. Qed.
Lemma ratio_pos : forall dB, 0 < osnr_ratio dB.
Proof. intros. apply ten_to_pos. Qed.

(* the vectors with a power of their own *)
Lemma absolute_vector : forall noise w, alive noise -> 0 <= w -> average_power (scale (sqrt (w / mean_power noise)) noise) = w.
Proof.
  intros noise w A Hw. pose proof (alive_power _ A) as P. rewrite average_scale, mean_average, sqrt_sqrt; [field; lra|]. apply Rmult_le_pos; [exact Hw|left; apply Rinv_0_lt_compat; exact P].
Qed.
Lemma rms_vector : forall noise r, alive noise -> average_power (scale (r / sqrt (mean_power noise)) noise) = r ^ 2.
Proof.
  intros noise r A. pose proof (alive_power _ A) as P. rewrite average_scale, mean_average. set (a := average_power noise) in *. pose proof (sqrt_lt_R0 a P) as S. assert (Q : sqrt a * sqrt a = a) by (apply sqrt_sqrt; lra).
  replace (r / sqrt a * (r / sqrt a) * a) with (r ^ 2 * (a / (sqrt a * sqrt a))) by (field; lra). rewrite Q. field. lra.
Qed.
Lemma osnr_vector : forall m v dB, alive v -> 0 <= m -> average_power (scale (sqrt (m / mean_power v / osnr_ratio dB)) v) = m / ten_to (dB / 10).
Proof.
  intros m v dB A Hm. pose proof (alive_power _ A) as P. pose proof (ratio_pos dB) as Q. rewrite average_scale, mean_average, sqrt_sqrt; [change (ten_to (dB / 10)) with (osnr_ratio dB); field; lra|].
  apply Rmult_le_pos; [|left; apply Rinv_0_lt_compat; exact Q]. apply Rmult_le_pos; [exact Hm|left; apply Rinv_0_lt_compat; exact P].
Qed.
Lemma shot_vector : forall t v, alive v -> 0 <= t -> average_power (scale (sqrt (t / mean_power v)) v) = t.
Proof. intros t v A Ht. apply absolute_vector; assumption. Qed.

Lemma osnr_read_back : forall x e dB, alive x -> average_power e = average_power x / ten_to (dB / 10) -> get_OSNR x e true = dB.
Proof.
  intros x e dB A E. pose proof (alive_power _ A) as P. pose proof (ten_to_pos (dB / 10)) as T. unfold get_OSNR, log10. rewrite !mean_average, E. replace (average_power x / (average_power x / ten_to (dB / 10))) with (ten_to (dB / 10)) by (field; lra).
  unfold ten_to, Rpower. rewrite ln_exp. assert (0 < ln 10) by (rewrite <- ln_1; apply ln_increasing; lra). field. lra.
Qed.

(** ** Phase noise *)
Lemma zero_frequency : forall p, existsb (fun f => if Req_EM_T f 0 then true else false) (grid_f p) = true <-> In 0 (grid_f p).
Proof.
  intros p. rewrite existsb_exists. split.
  - intros (f & H & E). destruct (Req_EM_T f 0) as [-> |]; [exact H|discriminate].
  - intros H. exists 0. split; [exact H|]. destruct (Req_EM_T 0 0); [reflexivity|contradiction].
Qed.
Lemma linewidth_odd : forall p fwhm white, usable (n_samples p) (window_t p) -> Nat.Odd (n_samples p) -> linewidth_phase p fwhm white = Ok None.
Proof. intros p fwhm white U O. unfold linewidth_phase. rewrite (proj2 (zero_frequency p)); [reflexivity|]. apply grid_has_zero; assumption. Qed.
Lemma linewidth_even : forall p fwhm white, usable (n_samples p) (window_t p) -> Nat.Even (n_samples p) -> length white = n_samples p -> exists phase, linewidth_phase p fwhm white = Ok (Some phase) /\ length phase = n_samples p.
Proof.
  intros p fwhm white U E L. unfold linewidth_phase. destruct (existsb _ (grid_f p)) eqn:X.
  - apply zero_frequency in X. apply grid_has_zero in X; [|exact U]. exfalso. apply (Nat.Even_Odd_False (n_samples p)); assumption.
  - assert (P : (0 < length (map RtoC white))%nat) by (rewrite map_length, L; destruct U; lia). destruct (fft_total _ P) as (y & F). rewrite F. cbn [bind]. destruct (fft_ok _ _ F) as (Ly & _ & _). rewrite map_length, L in Ly.
    rewrite broadcast_same by (rewrite !map_length, ifft_shift_length, map_length, grid_f_length; lia). cbn [bind]. set (z := map _ (combine _ y)). assert (Lz : length z = n_samples p) by (unfold z; rewrite map_length, combine_length, !map_length, ifft_shift_length, map_length, grid_f_length, Ly; lia).
    unfold ifft_. destruct (ifft_total z) as (s & I); [rewrite Lz; destruct U; lia|]. rewrite I. cbn [bind]. eexists. split; [reflexivity|]. destruct (ifft_ok _ _ I) as (Ls & _ & _). rewrite map_length, scale_length. lia.
Qed.
Lemma linewidth_vector : forall p fwhm draw white, usable (n_samples p) (window_t p) -> fwhm <> 0 ->
  (Nat.Odd (n_samples p) -> noise_vector p None (Linewidth fwhm) draw white = Ok None) /\
  (Nat.Even (n_samples p) -> length white = n_samples p -> exists v, noise_vector p None (Linewidth fwhm) draw white = Ok (Some v) /\ length v = n_samples p /\ forall z, In z v -> Cnorm2 z = 1).
Proof.
  intros p fwhm draw white U N. unfold noise_vector. cbn [bind]. destruct (Req_EM_T fwhm 0) as [?|_]; [contradiction|]. split.
  - intros O. rewrite linewidth_odd by assumption. reflexivity.
  - intros E L. destruct (linewidth_even p fwhm white U E L) as (phase & H & Lp). rewrite H. cbn [bind option_map]. eexists. split; [reflexivity|]. split; [rewrite map_length; exact Lp|]. intros z Hz. apply in_map_iff in Hz. destruct Hz as (a & <- & _). apply cis_norm.
Qed.
Lemma unit_product : forall x v, length x = length v -> (forall z, In z v -> Cnorm2 z = 1) -> same_power x (zipmul x v).
Proof.
  intros x v L H. split; [rewrite zipmul_length by exact L; exact L|]. intros j Hj. rewrite zipmul_nth by exact L. rewrite Cnorm2_mul, (H (nth j v C0)) by (apply nth_In; lia). ring.
Qed.

(** ** The outcome as a product of phases and a sum of addends *)
Definition zipadd (a b : list C) : list C := map (fun p => Cadd (fst p) (snd p)) (combine a b).
Lemma zipadd_length : forall a b, length a = length b -> length (zipadd a b) = length b.
Proof. intros a b H. unfold zipadd. rewrite map_length, combine_length. lia. Qed.
Lemma zipadd_nth : forall a b k, length a = length b -> nth k (zipadd a b) C0 = Cadd (nth k a C0) (nth k b C0).
Proof.
  intros a b k L. unfold zipadd. rewrite (map_nth_d (fun q => Cadd (fst q) (snd q)) (combine a b) k (C0, C0)) by (cbn [fst snd]; ring). rewrite combine_nth by exact L. reflexivity.
Qed.
(* what a source adds, given the mean of the signal's modulus *)
Definition addend (p : grid) (mean m : R) (s : noise_source) : res (list C) :=
  match ns_type s with
  | Osnr dB => Ok (scale (sqrt (mean / mean_power (ns_vector s) / osnr_ratio dB)) (ns_vector s))
  | AbsolutePower _ | Rms _ => Ok (ns_vector s)
  | Shot slope intercept => do b <- shot_bandwidth p (ns_filter s); Ok (scale (sqrt ((slope * m + intercept) * b / mean_power (ns_vector s))) (ns_vector s))
  | EdfaASE ase => do v <- broadcast Cmul (scale (/ sqrt 2) (ns_vector s)) (map (fun a => RtoC (a * sqrt (grid_dt p / grid_df p))) ase); ifft_ v (grid_dt p)
  | Linewidth _ | PhaseFromLinewidth _ => Ok (map (fun _ => C0) (ns_vector s))
  end.
Definition factor (s : noise_source) : list C := match ns_type s with Linewidth _ => ns_vector s | _ => map (fun _ => C1) (ns_vector s) end.
(* the vectors of a source fit a signal of n samples, and phase noise has modulus one *)
Definition fitting (n : nat) (s : noise_source) : Prop :=
  length (ns_vector s) = n /\ (forall ase, ns_type s = EdfaASE ase -> length ase = n) /\ (forall w, ns_type s = Linewidth w -> forall z, In z (ns_vector s) -> Cnorm2 z = 1).

Lemma factor_length : forall n s, fitting n s -> length (factor s) = n.
Proof. intros n s (L & _). unfold factor. destruct (ns_type s); rewrite ?map_length; exact L. Qed.
Lemma factor_unit : forall n s, fitting n s -> forall z, In z (factor s) -> Cnorm2 z = 1.
Proof.
  intros n s (_ & _ & H) z Hz. unfold factor in Hz. destruct (ns_type s) eqn:E; try (apply in_map_iff in Hz; destruct Hz as (? & <- & _); unfold Cnorm2, C1, re, im; cbn; ring). apply (H fwhm eq_refl). exact Hz.
Qed.
Lemma addend_length : forall p n mean m s a, (0 < n)%nat -> fitting n s -> addend p mean m s = Ok a -> length a = n.
Proof.
  intros p n mean m s a P (L & La & _) E. unfold addend in E. destruct (ns_type s) eqn:T; try (injection E as <-; rewrite ?scale_length, ?map_length; exact L).
  - rewrite broadcast_same in E by (rewrite scale_length, map_length, (La ase eq_refl); exact L). cbn [bind] in E. unfold ifft_ in E. set (z := map _ (combine _ _)) in E. assert (Lz : length z = n) by (unfold z; rewrite map_length, combine_length, scale_length, map_length, L, (La ase eq_refl); lia).
    destruct (ifft_total z) as (y & I); [lia|]. rewrite I in E. cbn [bind] in E. injection E as <-. destruct (ifft_ok _ _ I) as (Ly & _ & _). rewrite scale_length. lia.
  - destruct (shot_bandwidth p (ns_filter s)); cbn [bind] in E; [|discriminate]. injection E as <-. rewrite scale_length. exact L.
Qed.
Lemma zipmul_ones : forall (x v : list C), length x = length v -> zipmul x (map (fun _ => C1) v) = x.
Proof.
  intros x. induction x as [|a x IH]; intros [|b v] L; try reflexivity; try discriminate. unfold zipmul in *. cbn [map combine fst snd]. rewrite IH by (cbn in L; lia). f_equal. ring.
Qed.
Lemma zipadd_zeros : forall (x v : list C), length x = length v -> zipadd x (map (fun _ => C0) v) = x.
Proof.
  intros x. induction x as [|a x IH]; intros [|b v] L; try reflexivity; try discriminate. unfold zipadd in *. cbn [map combine fst snd]. rewrite IH by (cbn in L; lia). f_equal. ring.
Qed.
Lemma zipadd_zeros_l : forall (x a : list C), length a = length x -> zipadd (map (fun _ => C0) x) a = a.
Proof.
  intros x. induction x as [|z x IH]; intros [|b a] L; try reflexivity; try discriminate. unfold zipadd in *. cbn [map combine fst snd]. rewrite IH by (cbn in L; lia). f_equal. ring.
Qed.
Lemma add_source_view : forall p n mean s sg tt, (0 < n)%nat -> fitting n s -> length sg = n -> length tt = n ->
  add_source p mean s (sg, tt) = do a <- addend p mean (mean_abs sg) s; Ok (zipmul sg (factor s), zipadd tt a).
Proof.
  intros p n mean s sg tt P F Ls Lt. assert (Ladd := fun a => addend_length p n mean (mean_abs sg) s a P F). destruct F as (L & La & H). unfold add_source, addend, factor in *. destruct (ns_type s) eqn:T; cbn [bind].
  - rewrite broadcast_same by (rewrite scale_length; lia). cbn [bind]. rewrite zipmul_ones by lia. reflexivity.
  - rewrite broadcast_same by lia. cbn [bind]. rewrite zipmul_ones by lia. reflexivity.
  - destruct (broadcast Cmul _ _) as [v|e]; cbn [bind] in *; [|reflexivity]. destruct (ifft_ v (grid_dt p)) as [w|e]; cbn [bind]; [|reflexivity]. rewrite broadcast_same by (rewrite (Ladd w eq_refl); lia). cbn [bind]. rewrite zipmul_ones by lia. reflexivity.
  - rewrite broadcast_same by lia. cbn [bind]. rewrite zipmul_ones by lia. reflexivity.
  - destruct (shot_bandwidth p (ns_filter s)) as [b|e]; cbn [bind]; [|reflexivity]. rewrite broadcast_same by (rewrite scale_length; lia). cbn [bind]. rewrite zipmul_ones by lia. reflexivity.
  - rewrite broadcast_same by lia. cbn [bind]. rewrite zipadd_zeros by lia. reflexivity.
  - rewrite zipmul_ones, zipadd_zeros by lia. reflexivity.
Qed.
Lemma mean_abs_unit : forall x v, length x = length v -> (forall z, In z v -> Cnorm2 z = 1) -> mean_abs (zipmul x v) = mean_abs x.
Proof.
  intros x v L H. unfold mean_abs. rewrite zipmul_length, L by exact L. f_equal. revert v L H. induction x as [|a x IH]; intros [|b v] L H; try reflexivity; try discriminate. unfold zipmul. cbn [combine map fold_right fst snd]. change (map (fun z => sqrt (Cnorm2 z)) (map (fun q => Cmul (fst q) (snd q)) (combine x v))) with (map (fun z => sqrt (Cnorm2 z)) (zipmul x v)).
  rewrite IH; [|cbn in L; lia|intros z Hz; apply H; right; exact Hz]. f_equal. rewrite Cnorm2_mul, (H b) by (left; reflexivity). rewrite Rmult_1_r. reflexivity.
Qed.

(** ** The order of the sources *)
Lemma add_source_inv : forall p n mean s sg tt acc, (0 < n)%nat -> fitting n s -> length sg = n -> length tt = n -> add_source p mean s (sg, tt) = Ok acc ->
  length (fst acc) = n /\ length (snd acc) = n /\ mean_abs (fst acc) = mean_abs sg.
Proof.
  intros p n mean s sg tt acc P F Ls Lt E. pose proof (factor_length n s F) as Lf. rewrite (add_source_view p n) in E by assumption. destruct (addend p mean (mean_abs sg) s) as [a|] eqn:A; cbn [bind] in E; [|discriminate]. injection E as <-. cbn [fst snd].
  pose proof (addend_length p n _ _ _ _ P F A). split; [rewrite zipmul_length; lia|]. split; [rewrite zipadd_length; lia|]. apply mean_abs_unit; [lia|apply (factor_unit n); exact F].
Qed.
Lemma add_source_swap : forall p n mean s1 s2 sg tt a1 a2, (0 < n)%nat -> fitting n s1 -> fitting n s2 -> length sg = n -> length tt = n ->
  add_source p mean s1 (sg, tt) = Ok a1 -> add_source p mean s2 a1 = Ok a2 -> exists b1, add_source p mean s2 (sg, tt) = Ok b1 /\ add_source p mean s1 b1 = Ok a2.
Proof.
  intros p n mean s1 s2 sg tt a1 a2 P F1 F2 Ls Lt E1 E2. destruct (add_source_inv p n mean s1 sg tt a1 P F1 Ls Lt E1) as (I1 & I2 & I3). destruct a1 as (sg1, tt1). cbn [fst snd] in *. rewrite (add_source_view p n mean s2 sg1 tt1) in E2 by assumption. rewrite I3 in E2.
  rewrite (add_source_view p n) in E1 by assumption. rewrite (add_source_view p n mean s2) by assumption. destruct (addend p mean (mean_abs sg) s1) as [x1|] eqn:A1; cbn [bind] in E1; [|discriminate]. destruct (addend p mean (mean_abs sg) s2) as [x2|] eqn:A2; cbn [bind] in E2; [|discriminate]. injection E1 as <- <-. injection E2 as <-. cbn [bind]. eexists. split; [reflexivity|].
  pose proof (factor_length n s1 F1). pose proof (factor_length n s2 F2). pose proof (addend_length p n _ _ _ _ P F1 A1). pose proof (addend_length p n _ _ _ _ P F2 A2).
  rewrite (add_source_view p n mean s1) by (try assumption; rewrite ?zipmul_length, ?zipadd_length; lia). rewrite mean_abs_unit by (try lia; apply (factor_unit n); exact F2). rewrite A1. cbn [bind]. f_equal. f_equal; apply (list_eq_nth C0); repeat (rewrite ?zipmul_length, ?zipadd_length by (repeat (rewrite ?zipmul_length, ?zipadd_length by lia); lia)); try lia; intros j Hj.
  - rewrite !zipmul_nth by (repeat rewrite ?zipmul_length by lia; lia). ring.
  - rewrite !zipadd_nth by (repeat rewrite ?zipadd_length by lia; lia). ring.
Qed.
Lemma add_sources_permuted : forall p n mean ss ss', (0 < n)%nat -> Permutation ss ss' -> (forall s, In s ss -> fitting n s) -> forall sg tt acc, length sg = n -> length tt = n ->
  add_sources p mean ss (sg, tt) = Ok acc -> add_sources p mean ss' (sg, tt) = Ok acc.
Proof.
  intros p n mean ss ss' P Q. induction Q as [|s l l' Q IH|s1 s2 l|l1 l2 l3 Q1 IH1 Q2 IH2]; intros F sg tt acc Ls Lt E.
  - exact E.
  - cbn [add_sources] in *. destruct (add_source p mean s (sg, tt)) as [(sg1, tt1)|e] eqn:E1; cbn [bind] in *; [|discriminate]. destruct (add_source_inv p n mean s sg tt _ P (F s (or_introl eq_refl)) Ls Lt E1) as (I1 & I2 & _). apply IH; try assumption. intros x Hx. apply F. right. exact Hx.
  - cbn [add_sources] in *. destruct (add_source p mean s2 (sg, tt)) as [a1|e] eqn:E1; cbn [bind] in E; [|discriminate]. destruct (add_source p mean s1 a1) as [a2|e] eqn:E2; cbn [bind] in E; [|discriminate].
    destruct (add_source_swap p n mean s2 s1 sg tt a1 a2 P) as (b1 & B1 & B2); try assumption; [apply F; left; reflexivity|apply F; right; left; reflexivity|]. rewrite B1. cbn [bind]. rewrite B2. exact E.
  - apply IH2; try assumption; [|apply IH1; assumption]. intros x Hx. apply F. apply Permutation_sym in Q1. exact (Permutation_in x Q1 Hx).
Qed.
Lemma noisy_permuted : forall p ss ss' x y, Permutation ss ss' -> x <> [] -> (forall s, In s ss -> fitting (length x) s) -> noisy p ss x = Ok y -> noisy p ss' x = Ok y.
Proof.
  intros p ss ss' x y Q N F E. unfold noisy in *. destruct (add_sources p (mean_power x) ss (x, map (fun _ => C0) x)) as [acc|] eqn:A; cbn [bind] in E; [|discriminate]. rewrite (add_sources_permuted p (length x) (mean_power x) ss ss') with (acc := acc); try assumption; try reflexivity.
  - destruct x; [congruence|cbn; lia].
  - apply map_length.
Qed.

(** ** Single sources, and the laser *)
Lemma noisy_one : forall p s x a, x <> [] -> fitting (length x) s -> addend p (mean_power x) (mean_abs x) s = Ok a -> noisy p [s] x = Ok (zipadd (zipmul x (factor s)) a).
Proof.
  intros p s x a N F A. assert (P : (0 < length x)%nat) by (destruct x; [congruence|cbn; lia]). pose proof (factor_length _ _ F). pose proof (addend_length p _ _ _ _ _ P F A) as La. unfold noisy. cbn [add_sources]. rewrite (add_source_view p (length x)) by (try assumption; try reflexivity; apply map_length). rewrite A. cbn [bind fst snd].
  replace (zipadd (map (fun _ => C0) x) a) with a. { rewrite broadcast_same by (rewrite zipmul_length; lia). reflexivity. }
  symmetry. apply zipadd_zeros_l. exact La.
Qed.
Lemma added_zip : forall x e, length e = length x -> added x e (zipadd x e).
Proof. intros x e L. split; [exact L|]. split; [rewrite zipadd_length; lia|]. intros j Hj. apply zipadd_nth. lia. Qed.
Lemma noisy_additive : forall p s x a, alive x -> length (ns_vector s) = length x -> (forall ase, ns_type s <> EdfaASE ase) -> (forall w, ns_type s <> Linewidth w) -> addend p (mean_power x) (mean_abs x) s = Ok a ->
  yields x (noisy p [s] x) (added x a).
Proof.
  intros p s x a Ax L NE NL A. pose proof (alive_length x Ax) as P. assert (F : fitting (length x) s) by (split; [exact L|split; [intros ase E; exfalso; exact (NE ase E)|intros w E; exfalso; exact (NL w E)]]). pose proof (addend_length p _ _ _ _ _ P F A) as La.
  rewrite (noisy_one p s x a) by (try assumption; intros ->; cbn in P; lia). assert (E : zipmul x (factor s) = x). { unfold factor. destruct (ns_type s) eqn:T; try (apply zipmul_ones; lia). exfalso. apply (NL fwhm). reflexivity. } rewrite E.
  exists (zipadd x a). split; [reflexivity|]. split; [rewrite zipadd_length; lia|]. apply added_zip. exact La.
Qed.
Lemma noisy_laser : forall p fwhm dB v w x, alive x -> alive w -> length v = length x -> length w = length x -> (forall z, In z v -> Cnorm2 z = 1) ->
  yields x (noisy p (laser_sources fwhm dB v w) x) (fun y => exists x' e, same_power x x' /\ added x' e y /\ get_OSNR x' e true = dB).
Proof.
  intros p fwhm dB v w x Ax Aw Lv Lw Hv. pose proof (alive_length x Ax) as P. unfold noisy, laser_sources. cbn [add_sources]. unfold add_source at 1. cbn [ns_type ns_vector]. rewrite broadcast_same by lia. cbn [bind]. fold (zipmul x v). unfold add_source. cbn [ns_type ns_vector]. rewrite broadcast_same by (rewrite map_length, scale_length; lia). cbn [bind fst snd].
  set (e := scale (sqrt (mean_power x / mean_power w / osnr_ratio dB)) w). assert (Le : length e = length x) by (unfold e; rewrite scale_length; exact Lw). fold (zipadd (map (fun _ => C0) x) e).
  replace (zipadd (map (fun _ => C0) x) e) with e. 2: { symmetry. apply zipadd_zeros_l. exact Le. }
  assert (Lx : length (zipmul x v) = length x) by (rewrite zipmul_length; lia). rewrite broadcast_same by lia. fold (zipadd (zipmul x v) e). eexists. split; [reflexivity|]. split; [rewrite zipadd_length; lia|]. exists (zipmul x v), e. assert (S : same_power x (zipmul x v)) by (apply unit_product; [lia|exact Hv]). split; [exact S|]. split; [apply added_zip; lia|].
  assert (Ex : average_power (zipmul x v) = average_power x). { unfold average_power. rewrite Lx. f_equal. change (energy (zipmul x v) = energy x). unfold energy. rewrite !list_energy, Lx. apply rsum_ext. intros i Hi. symmetry. apply S. exact Hi. }
  assert (Ax' : alive (zipmul x v)). { apply alive_energy. apply alive_energy in Ax. replace (energy (zipmul x v)) with (energy x); [exact Ax|]. unfold energy. rewrite !list_energy, Lx. apply rsum_ext. intros i Hi. apply S. exact Hi. }
  apply osnr_read_back; [exact Ax'|]. rewrite Ex. unfold e. rewrite osnr_vector; [rewrite mean_average; reflexivity|exact Aw|]. rewrite mean_average. left. apply alive_power. exact Ax.
Qed.
