(** The fitted linewidth and the phase noise made from a linewidth. *)
From Coq Require Import Reals List Arith Bool Lia Lra.
From Verif Require Import Base Complex ArrayModel ComponentModel DetectorModel NoiseModel ComponentSpec FourierProofs FilterProofs GridProofs ComponentProofs DetectorProofs NoiseProofs LinewidthModel LinewidthSpec.
Import ListNotations.
Local Open Scope R_scope.

(** ** The fit *)
Fixpoint sum_a (xs : list R) : R := match xs with [] => 0 | x :: r => / (x * x) ^ 2 + sum_a r end.
Fixpoint sum_b (xs ys : list R) : R := match xs, ys with x :: xs', y :: ys' => y / (x * x) + sum_b xs' ys' | _, _ => 0 end.
Fixpoint sum_y (ys : list R) : R := match ys with [] => 0 | y :: r => y ^ 2 + sum_y r end.
Lemma deviation_quadratic : forall c xs ys, length xs = length ys -> (forall x, In x xs -> x <> 0) -> deviation c xs ys = c * c * sum_a xs - 2 * c * sum_b xs ys + sum_y ys.
Proof.
  intros c xs. induction xs as [|x xs IH]; intros [|y ys] L N; try discriminate L; cbn [deviation sum_a sum_b sum_y]; [ring|]. injection L as L. rewrite IH by (try exact L; intros z Hz; apply N; right; exact Hz).
  assert (x <> 0) by (apply N; left; reflexivity). field. assumption.
Qed.
Lemma sum_a_pos : forall xs, xs <> [] -> (forall x, In x xs -> x <> 0) -> 0 < sum_a xs.
Proof.
  assert (G : forall xs, (forall x, In x xs -> x <> 0) -> 0 <= sum_a xs).
  { induction xs as [|x xs IH]; intros N; cbn [sum_a]; [lra|]. assert (0 <= sum_a xs) by (apply IH; intros z Hz; apply N; right; exact Hz). assert (X : x <> 0) by (apply N; left; reflexivity). assert (0 < (x * x) ^ 2) by (apply pow_lt; nra). pose proof (Rinv_0_lt_compat _ H0). lra. }
  intros [|x xs] Ne N; [congruence|]. cbn [sum_a]. assert (0 <= sum_a xs) by (apply G; intros z Hz; apply N; right; exact Hz). assert (X : x <> 0) by (apply N; left; reflexivity). assert (0 < (x * x) ^ 2) by (apply pow_lt; nra). pose proof (Rinv_0_lt_compat _ H0). lra.
Qed.
Lemma least_unique : forall c xs ys, xs <> [] -> length xs = length ys -> (forall x, In x xs -> x <> 0) -> (forall c', deviation c xs ys <= deviation c' xs ys) -> c = sum_b xs ys / sum_a xs.
Proof.
  intros c xs ys Ne L N H. pose proof (sum_a_pos xs Ne N) as A. specialize (H (sum_b xs ys / sum_a xs)). rewrite !deviation_quadratic in H by assumption. set (a := sum_a xs) in *. set (b := sum_b xs ys) in *.
  assert (Q : a * (c - b / a) ^ 2 <= 0). { replace (a * (c - b / a) ^ 2) with ((c * c * a - 2 * c * b) - (b / a * (b / a) * a - 2 * (b / a) * b)) by (field; lra). lra. }
  assert (Z : (c - b / a) ^ 2 <= 0) by nra. pose proof (pow2_ge_0 (c - b / a)). assert (E : (c - b / a) * (c - b / a) = 0) by nra. apply Rmult_integral in E. lra.
Qed.
Lemma sum_a_app : forall xs ys, sum_a (xs ++ ys) = sum_a xs + sum_a ys.
Proof. induction xs as [|x xs IH]; intros ys; cbn [sum_a app]; [ring|]. rewrite IH. ring. Qed.
Lemma sum_b_app : forall xs us ys vs, length xs = length us -> sum_b (xs ++ ys) (us ++ vs) = sum_b xs us + sum_b ys vs.
Proof. induction xs as [|x xs IH]; intros [|u us] ys vs L; try discriminate L; cbn [sum_b app]; [ring|]. injection L as L. rewrite IH by exact L. ring. Qed.
Lemma inv_opp_square : forall x, -1 * x * (-1 * x) = x * x.
Proof. intros; ring. Qed.
Lemma mirrored : forall points : list (R * R), let m := map (fun x => -1 * x) (rev (map fst points)) in let v := map dBc_to_rad2 (rev (map snd points)) in
  sum_a m = sum_a (map fst points) /\ sum_b m v = sum_b (map fst points) (map dBc_to_rad2 (map snd points)).
Proof.
  induction points as [|[x y] l IH]; cbn zeta in *; [split; reflexivity|]. destruct IH as [A B]. cbn [map fst snd rev]. rewrite !map_app, sum_a_app, A. cbn [map sum_a sum_b]. rewrite sum_b_app by (rewrite !map_length, !rev_length, !map_length; reflexivity). rewrite B. cbn [sum_b]. rewrite inv_opp_square. split; ring.
Qed.
Lemma sums_points : forall points, sum_a (map fst points) = total (map (fun q => / fst q ^ 4) points) /\
  sum_b (map fst points) (map dBc_to_rad2 (map snd points)) = total (map (fun q => radians2 (snd q) / fst q ^ 2) points).
Proof.
  induction points as [|[x y] l [A B]]; [split; reflexivity|]. cbn [map fst snd sum_a sum_b total fold_right]. fold (total (map (fun q : R * R => / fst q ^ 4) l)). fold (total (map (fun q : R * R => radians2 (snd q) / fst q ^ 2) l)). rewrite A, B. split.
  - f_equal. f_equal. ring.
  - f_equal. unfold dBc_to_rad2, radians2, ten_to. f_equal. f_equal. ring.
Qed.
Lemma estimate_value : forall fit points, best_fit fit -> points <> [] -> (forall q, In q points -> fst q <> 0) ->
  estimated_linewidth fit points = Ok (2 * PI * (total (map (fun q => radians2 (snd q) / fst q ^ 2) points) / total (map (fun q => / fst q ^ 4) points))) /\ 0 < total (map (fun q => / fst q ^ 4) points).
Proof.
  intros fit points B Ne N. unfold estimated_linewidth, fit_points. set (m := map (fun x => -1 * x) (rev (map fst points))). rewrite map_app. set (v := map dBc_to_rad2 (rev (map snd points))).
  assert (Lm : length m = length v) by (unfold m, v; rewrite !map_length, !rev_length, !map_length; reflexivity).
  assert (Nz : forall x, In x (m ++ map fst points) -> x <> 0).
  { intros x Hx. apply in_app_iff in Hx as [Hx|Hx].
    - unfold m in Hx. apply in_map_iff in Hx as (z & <- & Hz). apply in_rev, in_map_iff in Hz as (q & <- & Hq). pose proof (N q Hq). lra.
    - apply in_map_iff in Hx as (q & <- & Hq). exact (N q Hq). }
  assert (Ne' : m ++ map fst points <> []) by (intros E; apply app_eq_nil in E as [_ E]; destruct points; [congruence|discriminate]).
  destruct (B (m ++ map fst points) (v ++ map dBc_to_rad2 (map snd points)) Ne') as (c & F & M); [rewrite !app_length, !map_length, Lm; reflexivity|exact Nz|]. rewrite F. cbn [bind].
  apply least_unique in M; [|exact Ne'|rewrite !app_length, !map_length, Lm; reflexivity|exact Nz]. rewrite sum_a_app, sum_b_app in M by exact Lm. destruct (mirrored points) as [A1 B1]. fold m in A1, B1. fold v in B1. rewrite A1, B1 in M.
  assert (P : 0 < sum_a (map fst points)) by (apply sum_a_pos; [destruct points; [congruence|discriminate]|intros x Hx; apply in_map_iff in Hx as (q & <- & Hq); exact (N q Hq)]).
  destruct (sums_points points) as [A2 B2]. rewrite A2, B2 in M. rewrite A2 in P. split; [|exact P]. f_equal. rewrite M. field. lra.
Qed.
(* a weighted mean of the linewidths of the single points *)
Lemma total_weighted : forall (points : list (R * R)) lo hi, (forall q, In q points -> fst q <> 0) -> (forall q, In q points -> lo <= 2 * PI * (radians2 (snd q) * fst q ^ 2) <= hi) ->
  lo * total (map (fun q => / fst q ^ 4) points) <= 2 * PI * total (map (fun q => radians2 (snd q) / fst q ^ 2) points) <= hi * total (map (fun q => / fst q ^ 4) points).
Proof.
  induction points as [|q l IH]; intros lo hi N H; cbn [map total fold_right]; [lra|]. destruct (IH lo hi) as [I1 I2]; [intros z Hz; apply N; right; exact Hz|intros z Hz; apply H; right; exact Hz|]. unfold total in I1, I2.
  assert (X : fst q <> 0) by (apply N; left; reflexivity). assert (P : 0 < / fst q ^ 4). { apply Rinv_0_lt_compat. replace (fst q ^ 4) with ((fst q * fst q) * (fst q * fst q)) by ring. assert (0 < fst q * fst q) by nra. nra. }
  destruct (H q (or_introl eq_refl)) as [H1 H2]. set (r := radians2 (snd q)) in *. replace (2 * PI * (r / fst q ^ 2 + fold_right Rplus 0 (map (fun q0 : R * R => radians2 (snd q0) / fst q0 ^ 2) l))) with (2 * PI * (r * fst q ^ 2) * / fst q ^ 4 + 2 * PI * fold_right Rplus 0 (map (fun q0 : R * R => radians2 (snd q0) / fst q0 ^ 2) l)) by (field; assumption).
  assert (lo * / fst q ^ 4 <= 2 * PI * (r * fst q ^ 2) * / fst q ^ 4) by (apply Rmult_le_compat_r; lra). assert (2 * PI * (r * fst q ^ 2) * / fst q ^ 4 <= hi * / fst q ^ 4) by (apply Rmult_le_compat_r; lra). rewrite !Rmult_plus_distr_l. lra.
Qed.
(* the closed form is such a fit *)
Definition plain_fit (xs ys : list R) : res R := Ok (sum_b xs ys / sum_a xs).
Lemma plain_fit_best : best_fit plain_fit.
Proof.
  intros xs ys Ne L N. eexists. split; [reflexivity|]. intros c'. rewrite !deviation_quadratic by assumption. pose proof (sum_a_pos xs Ne N) as A. set (a := sum_a xs) in *. set (b := sum_b xs ys).
  assert (Q : 0 <= a * (c' - b / a) ^ 2) by (apply Rmult_le_pos; [lra|apply pow2_ge_0]). replace (a * (c' - b / a) ^ 2) with ((c' * c' * a - 2 * c' * b) - (b / a * (b / a) * a - 2 * (b / a) * b)) in Q by (field; lra). lra.
Qed.

(** ** The phase noise of a linewidth *)
Lemma nth_mapped : forall {A B} (f : A -> B) l k d e, (k < length l)%nat -> nth k (map f l) e = f (nth k l d).
Proof. intros A B f l k d e H. rewrite (nth_indep _ e (f d)) by (rewrite map_length; exact H). apply map_nth. Qed.
Lemma nth_map : forall (f : C * C -> C) (l : list (C * C)) k a b d, (k < length l)%nat -> nth k (map f l) d = f (nth k l (a, b)).
Proof. intros. apply nth_mapped. assumption. Qed.
Lemma phase_anatomy : forall p fwhm white, usable (n_samples p) (window_t p) -> Nat.Even (n_samples p) -> length white = n_samples p ->
  exists W y, fft (map RtoC white) = Ok W /\ length W = n_samples p /\ length y = n_samples p /\
    (forall k, (k < n_samples p)%nat -> nth k (ifft_shift_ (grid_f p)) 0 <> 0 /\ nth k y C0 = Cmul (RtoC (sqrt (fwhm / PI / 2) / Rabs (nth k (ifft_shift_ (grid_f p)) 0) * sqrt (grid_dt p))) (nth k W C0)) /\
    exists s, ifft y = Ok s /\ length s = n_samples p /\ linewidth_phase p fwhm white = Ok (Some (map re (scale (/ grid_dt p) s))).
Proof.
  intros p fwhm white U E L. unfold linewidth_phase. destruct (existsb _ (grid_f p)) eqn:X.
  - apply zero_frequency in X. apply grid_has_zero in X; [|exact U]. exfalso. apply (Nat.Even_Odd_False (n_samples p)); assumption.
  - assert (P : (0 < length (map RtoC white))%nat) by (rewrite map_length, L; destruct U; lia). destruct (fft_total _ P) as (W & F). rewrite F. cbn [bind]. destruct (fft_ok _ _ F) as (Ly & _ & _). rewrite map_length, L in Ly.
    set (ex := map (fun f => sqrt (fwhm / PI / 2) / f * sqrt (grid_dt p)) (ifft_shift_ (map Rabs (grid_f p)))). assert (Lex : length ex = n_samples p) by (unfold ex; rewrite map_length, ifft_shift_length, map_length, grid_f_length; reflexivity).
    rewrite broadcast_same by (rewrite map_length; lia). cbn [bind]. set (y := map _ (combine _ W)). assert (Lz : length y = n_samples p) by (unfold y; rewrite map_length, combine_length, map_length; lia).
    exists W, y. split; [reflexivity|]. split; [exact Ly|]. split; [exact Lz|]. split.
    + intros k Hk. split.
      * intros Z. assert (In 0 (grid_f p)). { rewrite <- Z. apply ifft_shift_In, nth_In. rewrite ifft_shift_length, grid_f_length. exact Hk. } apply zero_frequency in H. congruence.
      * unfold y. rewrite (nth_map _ (combine (map RtoC ex) W) k (RtoC 0) C0 C0) by (rewrite combine_length, map_length; lia).
        rewrite combine_nth by (rewrite map_length; lia). cbn [fst snd]. f_equal. rewrite map_nth. f_equal. unfold ex. rewrite nth_mapped with (d := 0) by (rewrite ifft_shift_length, map_length, grid_f_length; exact Hk). rewrite ifft_shift_map. rewrite nth_mapped with (d := 0) by (rewrite ifft_shift_length, grid_f_length; exact Hk). reflexivity.
    + unfold ifft_. destruct (ifft_total y) as (s & I); [rewrite Lz; destruct U; lia|]. exists s. split; [exact I|]. destruct (ifft_ok _ _ I) as (Ls & _ & _). split; [lia|]. rewrite I. reflexivity.
Qed.
Lemma bin_frequency_grid : forall p k, usable (n_samples p) (window_t p) -> (k < n_samples p)%nat -> nth k (ifft_shift_ (grid_f p)) 0 = bin_frequency (n_samples p) (window_t p) k.
Proof.
  intros p k U Hk. rewrite ifft_shift_nth by (rewrite grid_f_length; exact Hk). rewrite grid_f_length. unfold bin_frequency, grid_f, linspace. rewrite tabulate_nth by (apply Nat.mod_upper_bound; lia). f_equal. f_equal. f_equal. field. destruct U; lra.
Qed.

(** ** The modulator's parameters *)
Lemma set_item_ok : forall l i v, (i < length l)%nat -> exists l', set_item l i v = Ok l' /\ length l' = length l /\ nth i l' 0 = v /\ forall j, j <> i -> nth j l' 0 = nth j l 0.
Proof.
  induction l as [|x l IH]; intros [|i] v H; cbn in H; try lia.
  - exists (v :: l). split; [reflexivity|]. split; [reflexivity|]. split; [reflexivity|]. intros [|j] N; [congruence|reflexivity].
  - destruct (IH i v) as (l' & E & L & V & O); [lia|]. exists (x :: l'). cbn [set_item]. rewrite E. split; [reflexivity|]. split; [cbn; lia|]. split; [exact V|]. intros [|j] N; [reflexivity|]. cbn. apply O. lia.
Qed.
Lemma set_item_short : forall l i v, (length l <= i)%nat -> set_item l i v = Err IndexError.
Proof. induction l as [|x l IH]; intros [|i] v H; cbn in H |- *; try reflexivity; try lia. rewrite IH by lia. reflexivity. Qed.
Lemma pm_index_inj : forall n m i, pm_index n = Ok i -> pm_index m = Ok i -> n = m.
Proof. intros [| | | |k] [| | | |k'] i; cbn; congruence. Qed.
Lemma pm_index_small : forall n i, pm_index n = Ok i -> (i < 4)%nat.
Proof. intros [| | | |k] i; cbn; intros H; injection H as <- || discriminate H; lia. Qed.
Lemma set_by_names_ok : forall d l, length l = 4%nat -> NoDup (map fst d) -> (forall n, In n (map fst d) -> exists i, pm_index n = Ok i) ->
  exists l', set_by_names l d = Ok l' /\ length l' = 4%nat /\ (forall n v i, In (n, v) d -> pm_index n = Ok i -> nth i l' 0 = v) /\
    (forall n i, pm_index n = Ok i -> ~ In n (map fst d) -> nth i l' 0 = nth i l 0).
Proof.
  induction d as [|[n v] d IH]; intros l L ND K; cbn [set_by_names map fst] in *.
  - exists l. split; [reflexivity|]. split; [exact L|]. split; [intros ? ? ? []|reflexivity].
  - destruct (K n (or_introl eq_refl)) as (i & Ei). rewrite Ei. cbn [bind]. destruct (set_item_ok l i v) as (l1 & E1 & L1 & V1 & O1); [rewrite L; exact (pm_index_small n i Ei)|]. rewrite E1. cbn [bind]. apply NoDup_cons_iff in ND as [Nn ND'].
    destruct (IH l1) as (l' & E & L' & V & O); [lia|exact ND'|intros m Hm; apply K; right; exact Hm|]. exists l'. split; [exact E|]. split; [exact L'|]. split.
    + intros m u j [H|H] Ej; [injection H as <- <-; rewrite Ei in Ej; injection Ej as <-; rewrite (O n i Ei Nn); exact V1|exact (V m u j H Ej)].
    + intros m j Ej N. rewrite (O m j Ej) by (intros H; apply N; right; exact H). apply O1. intros ->. apply N. left. exact (pm_index_inj n m i Ei Ej).
Qed.
Lemma set_by_names_bad : forall d l k v, length l = 4%nat -> In (Unknown k, v) d -> set_by_names l d = Err ValueError.
Proof.
  induction d as [|[n u] d IH]; intros l k v L H; [destruct H|]. cbn [set_by_names]. destruct (pm_index n) as [i|e] eqn:Ei; cbn [bind]; [|destruct n; cbn in Ei; congruence]. destruct (set_item_ok l i u) as (l1 & E1 & L1 & _); [rewrite L; exact (pm_index_small n i Ei)|]. rewrite E1. cbn [bind].
  destruct H as [H|H]; [injection H as -> ->; discriminate Ei|]. apply (IH l1 k v); [lia|exact H].
Qed.
Lemma set_linewidth_spec : forall d w, NoDup (map fst d) -> NoDup (map fst (set_linewidth d w)) /\ (forall n v, In (n, v) (set_linewidth d w) <-> (n = FwhmLinewidth /\ v = w) \/ (n <> FwhmLinewidth /\ In (n, v) d)).
Proof.
  assert (Dec : forall n : pm_name, n = FwhmLinewidth \/ n <> FwhmLinewidth) by (intros []; ((left; reflexivity) || (right; discriminate))).
  intros d w. induction d as [|[n v] d IH]; intros ND.
  - cbn. split; [repeat constructor; intros []|]. intros n v. split; [intros [H|[]]; injection H as <- <-; auto|intros [[-> ->]|[_ []]]; auto].
  - cbn [map fst] in ND. inversion ND as [|? ? Nn ND']; subst. destruct (IH ND') as [D1 D2]. destruct (Dec n) as [-> |Nn'].
    + cbn [set_linewidth map fst]. split; [constructor; assumption|]. intros m u. split.
      * intros [H|H]; [injection H as <- <-; auto|]. right. split; [|right; exact H]. intros ->. apply Nn. apply in_map_iff. exists (FwhmLinewidth, u). auto.
      * intros [[-> ->]|[N [H|H]]]; [left; reflexivity|injection H as <- _; congruence|right; exact H].
    + assert (E : set_linewidth ((n, v) :: d) w = (n, v) :: set_linewidth d w) by (destruct n; try reflexivity; congruence). rewrite E. cbn [map fst]. split.
      * constructor; [|exact D1]. intros H. apply in_map_iff in H as ([m u] & Em & H). cbn in Em. subst m. apply D2 in H as [[-> _]|[_ H]]; [congruence|]. apply Nn. apply in_map_iff. exists (n, u). auto.
      * intros m u. split.
        -- intros [H|H]; [injection H as <- <-; right; split; [exact Nn'|left; reflexivity]|]. apply D2 in H as [H|[H1 H2]]; [left; exact H|right; split; [exact H1|right; exact H2]].
        -- intros [H|[H1 [H2|H2]]]; [right; apply D2; left; exact H|left; exact H2|right; apply D2; right; auto].
Qed.
