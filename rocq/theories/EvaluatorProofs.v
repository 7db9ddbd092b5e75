(** Proofs about the evaluators: angles, shifts of spectra, and the scores. *)
From Coq Require Import Reals List Arith Bool Lia Lra ZArith.
From Verif Require Import Base Complex ArrayModel FourierProofs ComponentModel ComponentSpec ComponentProofs FilterProofs GridProofs OpticsSpec StrengthProofs EvaluatorModel EvaluatorSpec.
Import ListNotations.
Local Open Scope nat_scope.
Local Open Scope R_scope.

(** ** Angles *)
Lemma Cabs_nonneg : forall z, 0 <= Cabs z.
Proof. intros z. apply sqrt_pos. Qed.
Lemma Cabs_square : forall z, Cabs z * Cabs z = Cnorm2 z.
Proof. intros z. unfold Cabs. apply sqrt_sqrt. apply Cnorm2_nonneg. Qed.
Lemma Cnorm2_pos : forall z, z <> C0 -> 0 < Cnorm2 z.
Proof. intros z H. pose proof (Cnorm2_nonneg z). destruct (Req_dec (Cnorm2 z) 0) as [E|E]; [|lra]. apply Cnorm2_zero in E. contradiction. Qed.
Lemma Cabs_pos : forall z, z <> C0 -> 0 < Cabs z.
Proof. intros z H. apply sqrt_lt_R0. apply Cnorm2_pos. exact H. Qed.
Lemma Cabs_mul : forall a b, Cabs (Cmul a b) = Cabs a * Cabs b.
Proof. intros a b. unfold Cabs. rewrite Cnorm2_mul. apply sqrt_mult; apply Cnorm2_nonneg. Qed.
Lemma Cabs_cis : forall a, Cabs (cis a) = 1.
Proof. intros a. unfold Cabs. rewrite cis_norm. apply sqrt_1. Qed.
Lemma Cabs_RtoC : forall x, 0 <= x -> Cabs (RtoC x) = x.
Proof. intros x H. unfold Cabs. rewrite Cnorm2_RtoC. apply sqrt_square. exact H. Qed.

Lemma angle_cis : forall z, z <> C0 -> z = Cmul (RtoC (Cabs z)) (cis (angle z)).
Proof.
  intros z Hz. pose proof (Cabs_pos z Hz) as P. pose proof (Cabs_square z) as Q. unfold angle. destruct (Req_EM_T (Cnorm2 z) 0) as [E|E]; [apply Cnorm2_zero in E; contradiction|]. clear E.
  set (r := Cabs z) in *. unfold Cnorm2 in Q. set (a := re z) in *. set (b := im z) in *.
  assert (B : -1 <= a / r <= 1).
  { split; [apply (Rmult_le_reg_r r); [exact P|]; replace (a / r * r) with a by (field; lra); nra|apply (Rmult_le_reg_r r); [exact P|]; replace (a / r * r) with a by (field; lra); nra]. }
  assert (S : sin (acos (a / r)) = Rabs b / r).
  { rewrite sin_acos by exact B. rewrite <- (sqrt_Rsqr (Rabs b / r)). f_equal. unfold Rsqr. replace (Rabs b / r * (Rabs b / r)) with (Rabs b * Rabs b / (r * r)) by (field; lra). rewrite <- Rabs_mult. rewrite (Rabs_pos_eq (b * b)) by nra. replace (b * b) with (r * r - a * a) by lra. field. lra.
    apply Rmult_le_pos; [apply Rabs_pos|left; apply Rinv_0_lt_compat; exact P]. }
  assert (K : cos (acos (a / r)) = a / r) by (apply cos_acos; exact B).
  assert (Z : z = (a, b)) by (unfold a, b, re, im; destruct z; reflexivity). rewrite Z. destruct (Rle_dec 0 b) as [L|L].
  - unfold cis, RtoC, Cmul, re, im. cbn [fst snd]. rewrite K, S, Rabs_pos_eq by exact L. f_equal; field; lra.
  - unfold cis, RtoC, Cmul, re, im. cbn [fst snd]. rewrite cos_neg, sin_neg, K, S, Rabs_left by lra. f_equal; field; lra.
Qed.
Lemma angle_bounds : forall z, - PI < angle z <= PI.
Proof.
  intros z. pose proof PI_RGT_0 as Pp. unfold angle. destruct (Req_EM_T (Cnorm2 z) 0) as [E|E]; [lra|]. assert (Hz : z <> C0) by (intros ->; apply E; cplx; ring).
  pose proof (acos_bound (re z / Cabs z)) as B. destruct (Rle_dec 0 (im z)) as [L|L]; [lra|]. split; [|lra]. apply Ropp_lt_contravar. destruct B as [_ [B|B]]; [exact B|exfalso].
  pose proof (angle_cis z Hz) as A. unfold angle in A. destruct (Req_EM_T (Cnorm2 z) 0); [contradiction|]. destruct (Rle_dec 0 (im z)); [contradiction|]. rewrite B in A.
  apply L. rewrite A. unfold cis, RtoC, Cmul, re, im. cbn [fst snd]. rewrite sin_neg, sin_PI. lra.
Qed.
Lemma angle_1 : angle C1 = 0.
Proof. unfold angle. destruct (Req_EM_T (Cnorm2 C1) 0) as [E|E]; [reflexivity|]. unfold Cabs, Cnorm2, C1, re, im. cbn [fst snd]. destruct (Rle_dec 0 0) as [_|N]; [|lra]. replace (1 * 1 + 0 * 0) with 1 by ring. rewrite sqrt_1. replace (1 / 1) with 1 by field. apply acos_1. Qed.

Lemma floor_bounds : forall x, IZR (Int_part x) <= x < IZR (Int_part x) + 1.
Proof. intros x. pose proof (base_Int_part x). lra. Qed.
Lemma mod_turn_bounds : forall x, 0 <= mod_turn x < 2 * PI.
Proof.
  intros x. pose proof PI_RGT_0 as Pp. unfold mod_turn. pose proof (floor_bounds (x / (2 * PI))) as [A B]. set (k := IZR (Int_part (x / (2 * PI)))) in *. assert (E : x = 2 * PI * (x / (2 * PI))) by (field; lra). split; rewrite E at 1.
  - assert (2 * PI * k <= 2 * PI * (x / (2 * PI))) by (apply Rmult_le_compat_l; lra). lra.
  - assert (2 * PI * (x / (2 * PI)) < 2 * PI * (k + 1)) by (apply Rmult_lt_compat_l; lra). lra.
Qed.
Lemma cis_mod_turn : forall x, cis (mod_turn x) = cis x.
Proof. intros x. unfold mod_turn. set (k := Int_part (x / (2 * PI))). replace (x - 2 * PI * IZR k) with (x + 2 * PI * IZR (- k)) by (rewrite opp_IZR; ring). rewrite cis_add, cis_Z. ring. Qed.
Lemma cis_inj : forall a b, cis a = cis b -> exists k : Z, a = b + 2 * PI * IZR k.
Proof.
  intros a b H. exists (Int_part ((a - b) / (2 * PI))). assert (E : cis (mod_turn (a - b)) = C1).
  { rewrite cis_mod_turn. unfold Rminus. rewrite cis_add, H, <- cis_add. replace (b + - b) with 0 by ring. apply cis_0. }
  pose proof (mod_turn_bounds (a - b)) as [L U]. destruct (Req_dec (mod_turn (a - b)) 0) as [Z|Z]; [|exfalso; apply (cis_not_1 (mod_turn (a - b))); [lra|exact E]]. unfold mod_turn in Z. lra.
Qed.
Lemma angle_turned : forall z t, z <> C0 -> exists k : Z, angle (Cmul (cis t) z) = angle z + t + 2 * PI * IZR k.
Proof.
  intros z t Hz. apply cis_inj. assert (Hw : Cmul (cis t) z <> C0). { intros E. apply C_integral in E as [E|E]; [|contradiction]. pose proof (cis_norm t) as N. rewrite E in N. unfold Cnorm2, C0, re, im in N. cbn [fst snd] in N. lra. }
  pose proof (angle_cis _ Hw) as A. rewrite (angle_cis z Hz) in A at 1. rewrite Cabs_mul, Cabs_cis, Rmult_1_l in A. pose proof (Cabs_pos z Hz) as P.
  assert (X : Cmul (RtoC (/ Cabs z)) (RtoC (Cabs z)) = C1) by (rewrite RtoC_mul, Rinv_l by lra; reflexivity).
  rewrite cis_add. transitivity (Cmul (Cmul (RtoC (/ Cabs z)) (RtoC (Cabs z))) (cis (angle (Cmul (cis t) z)))); [rewrite X; ring|].
  transitivity (Cmul (RtoC (/ Cabs z)) (Cmul (RtoC (Cabs z)) (cis (angle (Cmul (cis t) z))))); [ring|]. rewrite <- A. transitivity (Cmul (Cmul (RtoC (/ Cabs z)) (RtoC (Cabs z))) (Cmul (cis t) (cis (angle z)))); [ring|]. rewrite X. ring.
Qed.

(** ** Spectra of shifted fields *)
Lemma harmonic_fft : forall x y k, fft x = Ok y -> (k < length x)%nat -> nth k y C0 = harmonic_at x k.
Proof. intros x y k F H. destruct (fft_ok x y F) as (_ & _ & V). apply V. exact H. Qed.
Lemma advanced_fft : forall m x y k, (0 < length x)%nat -> (k < length x)%nat -> advanced m x y -> harmonic_at y k = Cmul (harmonic_at x k) (cis (2 * PI * INR k * INR m / INR (length x))).
Proof.
  intros m x y k P H (L & A). set (n := length x) in *. pose proof (INR_pos n P) as Pn. destruct (fft_total x P) as (X & F). destruct (fft_ok x X F) as (LX & _ & _). fold n in LX.
  set (Z := tabulate n (fun i => Cmul (nth i X C0) (cis (2 * PI * INR i * INR m / INR n)))). assert (LZ : length Z = n) by apply tabulate_length. destruct (ifft_total Z) as (z & I); [lia|].
  destruct (ifft_ok Z z I) as (Lz & _ & V). rewrite LZ in *. destruct (ifft_total X) as (x' & I'); [lia|]. pose proof (ifft_fft _ _ _ F I') as E. subst x'. destruct (ifft_ok X x I') as (_ & _ & V'). rewrite LX in V'.
  assert (E : z = y).
  { apply (list_eq_nth C0); [lia|]. rewrite Lz. intros j Hj. rewrite V, A by exact Hj. rewrite V' by (apply Nat.mod_upper_bound; lia). f_equal. apply csum_ext. intros i Hi. unfold Z. rewrite tabulate_nth by exact Hi.
    transitivity (Cmul (nth i X C0) (Cmul (cis (2 * PI * INR i * INR m / INR n)) (cis (2 * PI * INR j * INR i / INR n)))); [ring|]. f_equal. rewrite <- cis_add.
    replace (2 * PI * INR i * INR m / INR n + 2 * PI * INR j * INR i / INR n) with (2 * PI * INR ((j + m) mod n) * INR i / INR n + 2 * PI * INR ((j + m) / n * i)).
    2: { assert (D : INR (j + m) = INR n * INR ((j + m) / n) + INR ((j + m) mod n)) by (rewrite <- mult_INR, <- plus_INR; f_equal; apply Nat.div_mod; lia). rewrite plus_INR in D. rewrite mult_INR. transitivity (2 * PI * INR i * (INR n * INR ((j + m) / n) + INR ((j + m) mod n)) / INR n); [field; lra|]. rewrite <- D. field. lra. }
    rewrite cis_add, cis_turns. ring. }
  subst z. destruct (fft_total y) as (Y & G); [lia|]. pose proof (fft_ifft _ _ _ I G) as E. subst Y. rewrite <- (harmonic_fft y Z k G) by lia. unfold Z. rewrite tabulate_nth by exact H. rewrite (harmonic_fft x X k F) by exact H. reflexivity.
Qed.
Lemma cis_multiple : forall k i, (0 < k)%nat -> cis (2 * PI * INR i / INR k) = C1 -> Nat.divide k i.
Proof.
  intros k i P H. pose proof (INR_pos k P) as Pk. pose proof PI_RGT_0 as Pp. pose proof (Nat.div_mod i k ltac:(lia)) as D. pose proof (Nat.mod_upper_bound i k ltac:(lia)) as U. set (q := (i / k)%nat) in *. set (r := (i mod k)%nat) in *.
  destruct (Nat.eq_dec r 0) as [Z|Z]; [exists q; lia|exfalso]. apply (cis_not_1 (2 * PI * INR r / INR k)).
  - assert (0 < INR r) by (apply INR_pos; lia). assert (INR r < INR k) by (apply lt_INR; exact U). split; [apply Rdiv_lt_0_compat; [|exact Pk]; apply Rmult_lt_0_compat; lra|]. apply (Rmult_lt_reg_r (INR k)); [exact Pk|]. replace (2 * PI * INR r / INR k * INR k) with (2 * PI * INR r) by (field; lra). apply Rmult_lt_compat_l; lra.
  - rewrite <- H. rewrite D at 1. rewrite plus_INR, mult_INR. replace (2 * PI * (INR k * INR q + INR r) / INR k) with (2 * PI * INR q + 2 * PI * INR r / INR k) by (field; lra). rewrite cis_add, cis_turns. ring.
Qed.
(* a field that repeats has only the harmonics of the repetition *)
Lemma repeats_harmonics : forall P k x i, (0 < length x)%nat -> length x = (k * P)%nat -> repeats P x -> (i < length x)%nat -> harmonic_at x i = C0 \/ Nat.divide k i.
Proof.
  intros P k x i Px L H Hi. pose proof (advanced_fft P x x i Px Hi H) as A. assert (Pk : (0 < k)%nat) by nia. assert (PP : (0 < P)%nat) by nia. pose proof (INR_pos k Pk). pose proof (INR_pos P PP).
  rewrite L, mult_INR in A. replace (2 * PI * INR i * INR P / (INR k * INR P)) with (2 * PI * INR i / INR k) in A by (field; lra).
  assert (E : Cmul (harmonic_at x i) (Csub (cis (2 * PI * INR i / INR k)) C1) = C0). { transitivity (Csub (Cmul (harmonic_at x i) (cis (2 * PI * INR i / INR k))) (harmonic_at x i)); [ring|]. rewrite <- A. ring. }
  apply C_integral in E as [E|E]; [left; exact E|right]. apply cis_multiple; [exact Pk|]. transitivity (Cadd (Csub (cis (2 * PI * INR i / INR k)) C1) C1); [ring|]. rewrite E. ring.
Qed.

(** ** The pieces of the evaluators *)
Lemma fft_shift_nth : forall {A} (x : list A) k d, (k < length x)%nat -> nth k (fft_shift_ x) d = nth ((k + (length x - length x / 2)) mod length x) x d.
Proof.
  intros A x k d H. unfold fft_shift_. set (n := length x) in *. set (h := (n - n / 2)%nat). assert (Hh : (h <= n)%nat) by (unfold h; lia).
  assert (Ls : length (skipn h x) = (n - h)%nat) by (rewrite skipn_length; reflexivity).
  destruct (lt_dec k (n - h)) as [L|L].
  - rewrite app_nth1 by lia. rewrite Nat.mod_small by lia. rewrite <- (firstn_skipn h x) at 2. rewrite app_nth2; rewrite firstn_length; fold n; rewrite Nat.min_l by lia; [|lia]. f_equal. lia.
  - rewrite app_nth2 by lia. rewrite Ls. assert (Hn : (h < n \/ k + h = k + n)%nat) by lia. replace ((k + h) mod n)%nat with (k + h - n)%nat.
    2: { replace (k + h)%nat with ((k + h - n) + 1 * n)%nat at 2 by lia. rewrite Nat.mod_add by lia. symmetry. apply Nat.mod_small. lia. }
    rewrite <- (firstn_skipn h x) at 2. destruct (lt_dec (k + h - n) h) as [L'|L']; [|lia]. rewrite app_nth1; [f_equal; lia|]. rewrite firstn_length. fold n. lia.
Qed.
Lemma fft_shift_length : forall {A} (x : list A), length (fft_shift_ x) = length x.
Proof. intros A x. unfold fft_shift_. rewrite app_length, Nat.add_comm, <- app_length, firstn_skipn. reflexivity. Qed.
Lemma fft_shift_In : forall {A} (x : list A) m, In m (fft_shift_ x) <-> In m x.
Proof. intros A x m. unfold fft_shift_. set (h := (length x - length x / 2)%nat). transitivity (In m (firstn h x ++ skipn h x)); [rewrite !in_app_iff; tauto|rewrite firstn_skipn; reflexivity]. Qed.
Lemma item_in : forall {A} (x : list A) k d, (k < length x)%nat -> item x (Z.of_nat k) = Ok (nth k x d).
Proof.
  intros A x k d H. unfold item. destruct (Z.ltb_spec (Z.of_nat k) (- Z.of_nat (length x))); [lia|]. destruct (Z.ltb_spec (Z.of_nat k) 0); [lia|]. rewrite Nat2Z.id. rewrite (nth_error_nth' x d) by exact H. reflexivity.
Qed.
Lemma item_out : forall {A} (x : list A) k, (length x <= k)%nat -> item x (Z.of_nat k) = Err IndexError.
Proof.
  intros A x k H. unfold item. destruct (Z.ltb_spec (Z.of_nat k) (- Z.of_nat (length x))); [reflexivity|]. destruct (Z.ltb_spec (Z.of_nat k) 0); [lia|]. rewrite Nat2Z.id. apply nth_error_None in H. rewrite H. reflexivity.
Qed.
Lemma to_int_at : forall x (z : Z), 0 <= x -> IZR z <= x < IZR z + 1 -> to_int x = z.
Proof.
  intros x z H B. unfold to_int. destruct (Rle_dec 0 x) as [_|N]; [|contradiction]. pose proof (floor_bounds x) as F. assert (A : IZR z < IZR (Int_part x) + 1) by lra. assert (D : IZR (Int_part x) < IZR z + 1) by lra. rewrite <- plus_IZR in A, D. apply lt_IZR in A, D. lia.
Qed.
Lemma entry_index : forall p f k, usable (n_samples p) (window_t p) -> 0 <= f -> entry_above (n_samples p) (window_t p) f k -> (to_int (f / grid_df p) + 1)%Z = Z.of_nat k.
Proof.
  intros p f k (U & W) Hf (A & B). pose proof (samples_big _ U) as Pn. assert (E : f / grid_df p = f * (window_t p * INR (n_samples p - 1) / INR (n_samples p))). { rewrite grid_df_val, pred_INR by lia. field. repeat split; lra. }
  rewrite <- E in A, B. rewrite INR_IZR_INZ in A, B. enough (to_int (f / grid_df p) = Z.of_nat k - 1)%Z by lia. apply to_int_at; [|rewrite minus_IZR; lra]. rewrite E. rewrite pred_INR by lia.
  apply Rmult_le_pos; [exact Hf|]. apply Rmult_le_pos; [apply Rmult_le_pos; lra|]. left. apply Rinv_0_lt_compat. lra.
Qed.
Lemma ctotal_csum : forall x, ctotal x = csum (length x) (fun i => nth i x C0).
Proof. intros x. induction x as [|a x IH]; [reflexivity|]. cbn [length ctotal fold_right]. rewrite csum_first. cbn [nth]. unfold ctotal in IH. rewrite IH. reflexivity. Qed.
Lemma broadcast_nth : forall {A B D} (f : A -> B -> D) a b da db dd i, length a = length b -> (i < length a)%nat -> exists c, broadcast f a b = Ok c /\ length c = length a /\ nth i c dd = f (nth i a da) (nth i b db).
Proof.
  intros A B D f a b da db dd i L H. rewrite broadcast_same by exact L. eexists. split; [reflexivity|]. split; [rewrite map_length, combine_length; lia|]. rewrite (nth_indep _ dd (f (fst (da, db)) (snd (da, db)))) by (rewrite map_length, combine_length; lia).
  rewrite (map_nth (fun p => f (fst p) (snd p)) (combine a b) (da, db)). rewrite combine_nth by exact L. reflexivity.
Qed.
Lemma zip_nth : forall {A B D} (f : A -> B -> D) a b da db dd i, length a = length b -> (i < length a)%nat -> nth i (map (fun p => f (fst p) (snd p)) (combine a b)) dd = f (nth i a da) (nth i b db).
Proof. intros A B D f a b da db dd i L H. destruct (broadcast_nth f a b da db dd i L H) as (c & E & _ & V). rewrite broadcast_same in E by exact L. injection E as <-. exact V. Qed.
Lemma zip_length : forall {A B D} (f : A -> B -> D) a b, length a = length b -> length (map (fun p => f (fst p) (snd p)) (combine a b)) = length a.
Proof. intros A B D f a b L. rewrite map_length, combine_length. lia. Qed.
Lemma l2_sum : forall x y, length x = length y -> l2_norm x y = Ok (csum (length y) (fun i => Cmul (Csub (nth i x C0) (nth i y C0)) (Csub (nth i x C0) (nth i y C0)))).
Proof.
  intros x y L. unfold l2_norm. set (f := fun a b : C => Cmul (Csub a b) (Csub a b)). rewrite broadcast_same by exact L. cbn [bind]. f_equal. rewrite ctotal_csum, (zip_length f), L by exact L. apply csum_ext. intros i H. rewrite (zip_nth f x y C0 C0 C0) by (try exact L; lia). reflexivity.
Qed.
Lemma linspace_steps : forall n i, (i < n)%nat -> nth i (linspace 0 (INR (n - 1)) n) 0 = INR i.
Proof.
  intros n i H. unfold linspace. rewrite tabulate_nth by exact H. destruct (Nat.eq_dec n 1) as [->|N].
  - assert (i = 0)%nat by lia. subst i. cbn [INR Nat.sub]. ring.
  - assert (0 < INR (n - 1)) by (apply INR_pos; lia). field. lra.
Qed.
Lemma rotated_index : forall n h i, (i < n)%nat -> (h <= n)%nat -> exists w, INR ((i + h) mod n) = INR i + INR h - INR w * INR n.
Proof.
  intros n h i Hi Hh. exists ((i + h) / n)%nat. pose proof (Nat.div_mod (i + h) n ltac:(lia)) as D. apply (f_equal INR) in D. rewrite !plus_INR, mult_INR in D. lra.
Qed.

(** ** PulseRepetition *)
Section Pulse.
Variable p : grid.
Variable target : list C.
Variable rep_t : R.
Variable k : nat.
Hypothesis U : usable (n_samples p) (window_t p).
Hypothesis Lt : length target = n_samples p.
Hypothesis Hr : 0 < rep_t.
Hypothesis Hk : entry_above (n_samples p) (window_t p) (1 / rep_t) k.
Let n := n_samples p.
Let steps : list R := map (fun x => x / INR n) (fft_shift_ (linspace 0 (INR (n - 1)) n)).

Lemma steps_length : length steps = n.
Proof. unfold steps. rewrite map_length, fft_shift_length. unfold linspace. apply tabulate_length. Qed.
Lemma steps_nth : forall i, (i < n)%nat -> exists w, nth i steps 0 = (INR i + INR (n - n / 2) - INR w * INR n) / INR n.
Proof.
  intros i Hi. assert (Ln : length (linspace 0 (INR (n - 1)) n) = n) by apply tabulate_length. destruct (rotated_index n (n - n / 2) i Hi ltac:(lia)) as (w & E). exists w. unfold steps.
  rewrite (nth_indep _ 0 (0 / INR n)) by (rewrite map_length, fft_shift_length, Ln; exact Hi). rewrite (map_nth (fun x => x / INR n)). rewrite fft_shift_nth by (rewrite Ln; exact Hi). rewrite Ln. rewrite linspace_steps by (apply Nat.mod_upper_bound; lia). rewrite E. reflexivity.
Qed.
Lemma pulse_init : exists target_rf, fft (magnitudes target) = Ok target_rf /\
  pulse_repetition_init p target rep_t = Ok (mkPulseRepetition (map Cabs target) (1 / rep_t) target_rf steps (if (n <=? k)%nat then Z.of_nat n else Z.of_nat k)).
Proof.
  assert (Pt : (0 < length target)%nat) by (rewrite Lt; destruct U; lia). destruct (fft_total target Pt) as (tf & F). destruct (fft_ok _ _ F) as (L & _ & _). destruct (fft_total (magnitudes target)) as (rf & G); [unfold magnitudes; rewrite map_length; exact Pt|]. exists rf. split; [exact G|].
  unfold pulse_repetition_init. destruct (Req_EM_T rep_t 0) as [E|_]; [lra|]. rewrite F. cbn [bind]. rewrite map_map. change (map (fun x => RtoC (Cabs x)) target) with (magnitudes target). rewrite G. cbn [bind]. rewrite L, Lt, Nat.eqb_refl.
  rewrite (entry_index p (1 / rep_t) k U) by (try exact Hk; apply Rlt_le; apply Rdiv_lt_0_compat; lra). f_equal. fold n. f_equal. destruct (Nat.leb_spec n k), (Z.leb_spec (Z.of_nat n) (Z.of_nat k)); try reflexivity; lia.
Qed.
Lemma pulse_out : forall state, length state = n -> (n <= k)%nat -> pulse_score p target rep_t state = Err IndexError.
Proof.
  intros state Ls H. destruct pulse_init as (rf & G & E). unfold pulse_score. rewrite E. cbn [bind]. unfold pulse_similarity, pulse_shift. assert (Ps : (0 < length state)%nat) by (rewrite Ls; unfold n; destruct U; lia). destruct (fft_total state Ps) as (s & F). destruct (fft_ok _ _ F) as (L & _ & _).
  rewrite F. cbn [bind pr_harmonic_ind]. destruct (Nat.leb_spec n k) as [_|N]; [|lia]. rewrite item_out by lia. reflexivity.
Qed.
Definition aligned (phase : R) (state : list C) : list C := tabulate n (fun i => Cmul (harmonic_at state i) (cis (- (phase * (rep_t / grid_dt p) * nth i steps 0)))).
Lemma pulse_in : forall state, length state = n -> (k < n)%nat ->
  (harmonic_at state k = C0 -> pulse_score p target rep_t state = Ok (Some (csum n (fun i => Cmul (Csub (nth i state C0) (nth i (magnitudes target) C0)) (Csub (nth i state C0) (nth i (magnitudes target) C0)))))) /\
  (harmonic_at state k <> C0 -> harmonic_at (magnitudes target) k = C0 -> pulse_score p target rep_t state = Ok None) /\
  (harmonic_at state k <> C0 -> harmonic_at (magnitudes target) k <> C0 -> exists y,
     ifft (aligned (angle (Cdiv (harmonic_at state k) (harmonic_at (magnitudes target) k))) state) = Ok y /\ length y = n /\
     pulse_score p target rep_t state = Ok (Some (RtoC (misfit (magnitudes y) (magnitudes target))))).
Proof.
  intros state Ls H. destruct pulse_init as (rf & G & E). unfold pulse_score. rewrite E. cbn [bind]. clear E. unfold pulse_similarity, pulse_shift. cbn [pr_harmonic_ind pr_target_power pr_rep_f pr_target_rf pr_scale_array]. destruct (Nat.leb_spec n k) as [N|_]; [lia|].
  assert (Pn : (0 < n)%nat) by lia. assert (Lm : length (magnitudes target) = n) by (unfold magnitudes; rewrite map_length; exact Lt). destruct (fft_total state) as (s & F); [lia|]. destruct (fft_ok _ _ F) as (L & _ & _). destruct (fft_ok _ _ G) as (Lrf & _ & _).
  rewrite F. cbn [bind]. rewrite (item_in s k C0) by lia. cbn [bind]. rewrite (harmonic_fft state s k F) by lia. rewrite (item_in rf k C0) by lia. rewrite (harmonic_fft _ rf k G) by lia. rewrite map_map. change (map (fun x => RtoC (Cabs x)) target) with (magnitudes target).
  set (z := harmonic_at state k). set (t := harmonic_at (magnitudes target) k). split; [|split].
  - intros Z. destruct (Req_EM_T (Cnorm2 z) 0) as [_|N]; [|exfalso; apply N; rewrite Z; cplx; ring]. cbn [bind]. rewrite l2_sum by lia. cbn [bind]. rewrite Lm. reflexivity.
  - intros Z T. destruct (Req_EM_T (Cnorm2 z) 0) as [N|_]; [exfalso; apply Z; apply Cnorm2_zero; exact N|]. cbn [bind]. destruct (Req_EM_T (Cnorm2 t) 0) as [_|N]; [|exfalso; apply N; rewrite T; cplx; ring]. reflexivity.
  - intros Z T. destruct (Req_EM_T (Cnorm2 z) 0) as [N|_]; [exfalso; apply Z; apply Cnorm2_zero; exact N|]. cbn [bind]. destruct (Req_EM_T (Cnorm2 t) 0) as [N|_]; [exfalso; apply T; apply Cnorm2_zero; exact N|].
    pose proof steps_length as Lst. rewrite broadcast_same by lia. cbn [bind]. rewrite map_length, combine_length, Lst, L, Ls, Nat.min_id, Nat.eqb_refl. set (ph := angle (Cdiv z t)).
    assert (Al : map (fun q => Cmul (fst q) (cis (- (ph / (1 / rep_t * grid_dt p) * snd q)))) (combine s steps) = aligned ph state).
    { unfold aligned. apply (list_eq_nth C0); [rewrite tabulate_length, map_length, combine_length; lia|]. rewrite map_length, combine_length. intros i Hi. rewrite tabulate_nth by lia.
      rewrite (zip_nth (fun a b => Cmul a (cis (- (ph / (1 / rep_t * grid_dt p) * b)))) s steps C0 0 C0) by lia. rewrite (harmonic_fft state s i F) by lia. f_equal. f_equal. f_equal. f_equal. pose proof (grid_dt_nz p U). field. split; lra. }
    rewrite Al. assert (La : length (aligned ph state) = n) by apply tabulate_length. destruct (ifft_total (aligned ph state)) as (y & I); [lia|]. destruct (ifft_ok _ _ I) as (Ly & _ & _). exists y. split; [exact I|]. split; [lia|]. rewrite I. cbn [bind]. change (map (fun z0 => RtoC (Cabs z0)) y) with (magnitudes y).
    rewrite l2_sum by (rewrite Lm; unfold magnitudes; rewrite map_length; lia). cbn [bind]. f_equal. f_equal. unfold misfit. rewrite Lm. rewrite <- csum_RtoC. apply csum_ext. intros i Hi. unfold magnitudes.
    rewrite !(map_nth_d (fun z => RtoC (sqrt (Cnorm2 z))) _ i C0 C0) by (unfold Cnorm2, C0, RtoC, re, im; cbn [fst snd]; replace (0 * 0 + 0 * 0) with 0 by ring; rewrite sqrt_0; reflexivity). cplx. f_equal; ring.
Qed.
Lemma aligned_energy : forall phase state y, length state = n -> ifft (aligned phase state) = Ok y -> energy y = energy state.
Proof.
  intros phase state y Ls I. assert (La : length (aligned phase state) = n) by apply tabulate_length. destruct (ifft_ok _ _ I) as (Ly & Pn & _). rewrite La in *. pose proof (parseval_inv _ _ I) as E. rewrite La in E. destruct (fft_total state) as (s & F); [lia|]. pose proof (parseval _ _ F) as E'. rewrite Ls in E'.
  unfold energy. rewrite !list_energy, Ly, Ls. pose proof (INR_pos n Pn). apply (Rmult_eq_reg_l (INR n)); [|lra]. rewrite <- E, <- E'. apply rsum_ext. intros i Hi. unfold aligned. rewrite tabulate_nth by exact Hi. rewrite Cnorm2_mul, cis_norm, (harmonic_fft state s i F) by lia. ring.
Qed.
End Pulse.
