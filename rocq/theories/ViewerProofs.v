(** Proofs about the interactive viewer. *)
From Coq Require Import List Arith Bool ZArith QArith Reals Qreals Lra Lia Psatz Permutation String Ascii DecimalString DecimalNat DecimalFacts.
From Verif Require Import Base GraphModel GraphSpec GraphProofs InitSpec OperatorsModel ParamsModel ParamsSpec SaveModel SaveSpec SaveProofs LoadProofs LayoutModel LayoutSpec LayoutProofs ViewerModel ViewerSpec.
Import ListNotations.
Local Open Scope R_scope.

(** * Lists of results *)
Lemma map_res_ok {A B} (f : A -> res B) (l : list A) : (forall a, In a l -> exists b, f a = Ok b) -> exists bs, map_res f l = Ok bs.
Proof.
  induction l as [|a l IH]; intros H; [now exists []|]. destruct (H a (or_introl eq_refl)) as (b & E). destruct IH as (bs & Es); [intros x Hx; apply H; now right|].
  exists (b :: bs). cbn. now rewrite E; cbn; rewrite Es.
Qed.
Lemma map_res_nth {A B} (f : A -> res B) : forall l bs, map_res f l = Ok bs -> Forall2 (fun a b => f a = Ok b) l bs.
Proof.
  induction l as [|a l IH]; intros bs H; cbn in H; [injection H as <-; constructor|].
  destruct (f a) as [b|] eqn:E; cbn in H; [|discriminate]. destruct (map_res f l) as [r|] eqn:Er; cbn in H; [|discriminate]. injection H as <-. constructor; auto.
Qed.
Lemma Forall2_nth_l {A B} (P : A -> B -> Prop) : forall l r i a, Forall2 P l r -> nth_error l i = Some a -> exists b, nth_error r i = Some b /\ P a b.
Proof.
  intros l r i a H. revert i. induction H as [|x y l r Hxy H IH]; intros i E; [destruct i; discriminate|]. destruct i as [|i]; cbn in E |- *; [injection E as <-; eauto|]. now apply IH.
Qed.
Lemma Forall2_nth_r {A B} (P : A -> B -> Prop) : forall l r i b, Forall2 P l r -> nth_error r i = Some b -> exists a, nth_error l i = Some a /\ P a b.
Proof.
  intros l r i a H. revert i. induction H as [|x y l r Hxy H IH]; intros i E; [destruct i; discriminate|]. destruct i as [|i]; cbn in E |- *; [injection E as <-; eauto|]. now apply IH.
Qed.
Lemma Forall2_len {A B} (P : A -> B -> Prop) : forall l r, Forall2 P l r -> List.length l = List.length r.
Proof. intros l r H; induction H; cbn; congruence. Qed.

(** * Least and greatest elements *)
Lemma fold_min : forall l x, (In (fold_left Rmin l x) (x :: l)) /\ (forall y, In y (x :: l) -> fold_left Rmin l x <= y).
Proof.
  induction l as [|a l IH]; intros x; cbn [fold_left].
  - split; [now left|]. intros y [<-|[]]. lra.
  - destruct (IH (Rmin x a)) as (I & L). split.
    + destruct I as [I|I]; [|right; now right]. rewrite <- I. unfold Rmin. destruct (Rle_dec x a); [now left|right; now left].
    + intros y [<-|[<-|Hy]]; [eapply Rle_trans; [apply L; now left|apply Rmin_l]|eapply Rle_trans; [apply L; now left|apply Rmin_r]|apply L; now right].
Qed.
Lemma fold_max : forall l x, (In (fold_left Rmax l x) (x :: l)) /\ (forall y, In y (x :: l) -> y <= fold_left Rmax l x).
Proof.
  induction l as [|a l IH]; intros x; cbn [fold_left].
  - split; [now left|]. intros y [<-|[]]. lra.
  - destruct (IH (Rmax x a)) as (I & L). split.
    + destruct I as [I|I]; [|right; now right]. rewrite <- I. unfold Rmax. destruct (Rle_dec x a); [right; now left|now left].
    + intros y [<-|[<-|Hy]]; [eapply Rle_trans; [apply Rmax_l|apply L; now left]|eapply Rle_trans; [apply Rmax_r|apply L; now left]|apply L; now right].
Qed.
Lemma list_min_ok l : l <> [] -> exists m, list_min l = Ok m /\ In m l /\ forall x, In x l -> m <= x.
Proof. destruct l as [|x l]; [congruence|]. intros _. eexists. split; [reflexivity|apply fold_min]. Qed.
Lemma list_max_ok l : l <> [] -> exists m, list_max l = Ok m /\ In m l /\ forall x, In x l -> x <= m.
Proof. destruct l as [|x l]; [congruence|]. intros _. eexists. split; [reflexivity|apply fold_max]. Qed.

(** * Rescaling *)
Definition scaled (lo hi v : R) : R := ((v - lo) / (hi - lo) - / 2) * 2.
Lemma scaled_range lo hi v : lo < hi -> lo <= v <= hi -> -1 <= scaled lo hi v <= 1.
Proof.
  intros H [L U]. unfold scaled. assert (D : 0 < hi - lo) by lra.
  assert (0 <= (v - lo) / (hi - lo)) by (apply Rmult_le_pos; [lra|left; now apply Rinv_0_lt_compat]).
  assert ((v - lo) / (hi - lo) <= 1) by (apply (Rmult_le_reg_r (hi - lo)); [lra|]; unfold Rdiv; rewrite Rmult_assoc, Rinv_l by lra; lra). lra.
Qed.
Lemma scaled_mono lo hi v w : lo < hi -> v < w -> scaled lo hi v < scaled lo hi w.
Proof.
  intros H L. unfold scaled. assert (0 < (w - v) / (hi - lo)) by (apply Rmult_lt_0_compat; [lra|apply Rinv_0_lt_compat; lra]).
  replace ((w - lo) / (hi - lo)) with ((v - lo) / (hi - lo) + (w - v) / (hi - lo)) by (field; lra). lra.
Qed.
Lemma scaled_lo lo hi : lo < hi -> scaled lo hi lo = -1.
Proof. intros H. unfold scaled. field. lra. Qed.
Lemma scaled_hi lo hi : lo < hi -> scaled lo hi hi = 1.
Proof. intros H. unfold scaled. field. lra. Qed.
Lemma rescale_ok lo hi v : lo < hi -> rescale lo hi v = Ok (scaled lo hi v).
Proof. intros H. unfold rescale. destruct (Req_EM_T (hi - lo) 0); [lra|reflexivity]. Qed.
Lemma rescale_err lo v : rescale lo lo v = Err ZeroDivisionError.
Proof. unfold rescale. destruct (Req_EM_T (lo - lo) 0); [reflexivity|lra]. Qed.

Lemma map_res_total {A B} (f : A -> res B) (h : A -> B) : forall l, (forall a, In a l -> f a = Ok (h a)) -> map_res f l = Ok (map h l).
Proof. induction l as [|a l IH]; intros H; [reflexivity|]. cbn. rewrite H by now left. cbn. rewrite IH by (intros; apply H; now right). reflexivity. Qed.

Definition xs_of (l : layout) : list R := map (fun p => fst (snd p)) l.
Definition ys_of (l : layout) : list R := map (fun p => snd (snd p)) l.
Lemma normalise_ok (l : layout) : l <> [] -> (exists p q, In p l /\ In q l /\ fst (snd p) <> fst (snd q)) -> (exists p q, In p l /\ In q l /\ snd (snd p) <> snd (snd q)) ->
  exists xl xh yl yh, xl < xh /\ yl < yh /\
    normalise l = Ok (map (fun p => (fst p, (scaled xl xh (fst (snd p)), scaled yl yh (snd (snd p))))) l) /\
    In xl (xs_of l) /\ In xh (xs_of l) /\ In yl (ys_of l) /\ In yh (ys_of l) /\
    (forall p, In p l -> xl <= fst (snd p) <= xh /\ yl <= snd (snd p) <= yh).
Proof.
  intros N (p & q & Hp & Hq & D) (p' & q' & Hp' & Hq' & D').
  assert (Nx : xs_of l <> []) by (destruct l; [congruence|discriminate]). assert (Ny : ys_of l <> []) by (destruct l; [congruence|discriminate]).
  destruct (list_min_ok _ Nx) as (xl & Exl & Ixl & Lxl). destruct (list_max_ok _ Nx) as (xh & Exh & Ixh & Lxh).
  destruct (list_min_ok _ Ny) as (yl & Eyl & Iyl & Lyl). destruct (list_max_ok _ Ny) as (yh & Eyh & Iyh & Lyh).
  assert (Fx : forall r, In r l -> xl <= fst (snd r) <= xh) by (intros r Hr; split; [apply Lxl|apply Lxh]; apply (in_map (fun p => fst (snd p))); exact Hr).
  assert (Fy : forall r, In r l -> yl <= snd (snd r) <= yh) by (intros r Hr; split; [apply Lyl|apply Lyh]; apply (in_map (fun p => snd (snd p))); exact Hr).
  assert (Hx : xl < xh) by (destruct (Rtotal_order (fst (snd p)) (fst (snd q))) as [?|[?|?]]; [|contradiction|]; pose proof (Fx p Hp); pose proof (Fx q Hq); lra).
  assert (Hy : yl < yh) by (destruct (Rtotal_order (snd (snd p')) (snd (snd q'))) as [?|[?|?]]; [|contradiction|]; pose proof (Fy p' Hp'); pose proof (Fy q' Hq'); lra).
  exists xl, xh, yl, yh. split; [exact Hx|]. split; [exact Hy|]. split.
  - unfold normalise. unfold xs_of, ys_of in *. rewrite Exl. cbn [bind]. rewrite Exh. cbn [bind]. rewrite Eyl. cbn [bind]. rewrite Eyh. cbn [bind].
    apply map_res_total. intros r Hr. rewrite (rescale_ok _ _ _ Hx). cbn [bind]. rewrite (rescale_ok _ _ _ Hy). reflexivity.
  - repeat (split; [assumption|]). intros r Hr. split; auto.
Qed.
Lemma normalise_flat (l : layout) : l <> [] -> (exists p q, In p l /\ In q l /\ fst (snd p) <> fst (snd q)) -> (forall p q, In p l -> In q l -> snd (snd p) = snd (snd q)) ->
  normalise l = Err ZeroDivisionError.
Proof.
  intros N (p & q & Hp & Hq & D) F.
  assert (Nx : xs_of l <> []) by (destruct l; [congruence|discriminate]). assert (Ny : ys_of l <> []) by (destruct l; [congruence|discriminate]).
  destruct (list_min_ok _ Nx) as (xl & Exl & Ixl & Lxl). destruct (list_max_ok _ Nx) as (xh & Exh & Ixh & Lxh).
  destruct (list_min_ok _ Ny) as (yl & Eyl & Iyl & Lyl). destruct (list_max_ok _ Ny) as (yh & Eyh & Iyh & Lyh).
  assert (Fx : forall r, In r l -> xl <= fst (snd r) <= xh) by (intros r Hr; split; [apply Lxl|apply Lxh]; apply (in_map (fun p => fst (snd p))); exact Hr).
  assert (Hx : xl < xh) by (destruct (Rtotal_order (fst (snd p)) (fst (snd q))) as [?|[?|?]]; [|contradiction|]; pose proof (Fx p Hp); pose proof (Fx q Hq); lra).
  assert (yl = yh) as <-. { unfold ys_of in Iyl, Iyh. apply in_map_iff in Iyl. apply in_map_iff in Iyh. destruct Iyl as (a & <- & Ha), Iyh as (b & <- & Hb). auto. }
  unfold normalise, xs_of, ys_of in *. rewrite Exl. cbn [bind]. rewrite Exh. cbn [bind]. rewrite Eyl. cbn [bind]. rewrite Eyh. cbn [bind].
  destruct l as [|r l]; [congruence|]. cbn [map_res]. rewrite (rescale_ok _ _ _ Hx). cbn [bind]. rewrite rescale_err. reflexivity.
Qed.

(** * Curves *)
Definition sweep (c s : R) : R := 3 * c * s * (1 - s) + s ^ 3.
Lemma bezier_x a b c s : bezier_at a b (a + (b - a) * c) (a + (b - a) * c) s = a + (b - a) * sweep c s.
Proof. unfold bezier_at, sweep. ring. Qed.
Lemma bezier_y a b s : bezier_at a b a b s = a + (b - a) * (3 * s ^ 2 - 2 * s ^ 3).
Proof. unfold bezier_at. ring. Qed.
Lemma sweep_mono c s t : 0 < c < 1 -> 0 <= s < t -> t <= 1 -> sweep c s < sweep c t.
Proof.
  intros [C0 C1] [S0 ST] T1. unfold sweep.
  assert (E : 3 * c * t * (1 - t) + t ^ 3 - (3 * c * s * (1 - s) + s ^ 3) = (t - s) * (c * ((1 - s) ^ 2 + (1 - s) * (1 - t) + (1 - t) ^ 2) + (1 - c) * (s ^ 2 + s * t + t ^ 2))) by ring.
  assert (P : 0 < c * ((1 - s) ^ 2 + (1 - s) * (1 - t) + (1 - t) ^ 2)).
  { apply Rmult_lt_0_compat; [lra|]. assert (0 < (1 - s) ^ 2) by (apply pow_lt; lra). assert (0 <= (1 - s) * (1 - t)) by (apply Rmult_le_pos; lra). assert (0 <= (1 - t) ^ 2) by (apply pow_le; lra). lra. }
  assert (Q : 0 <= (1 - c) * (s ^ 2 + s * t + t ^ 2)).
  { apply Rmult_le_pos; [lra|]. assert (0 <= s ^ 2) by (apply pow_le; lra). assert (0 <= s * t) by (apply Rmult_le_pos; lra). assert (0 <= t ^ 2) by (apply pow_le; lra). lra. }
  assert (0 < (t - s) * (c * ((1 - s) ^ 2 + (1 - s) * (1 - t) + (1 - t) ^ 2) + (1 - c) * (s ^ 2 + s * t + t ^ 2))) by (apply Rmult_lt_0_compat; lra). lra.
Qed.
Lemma sweep_0 c : sweep c 0 = 0. Proof. unfold sweep. ring. Qed.
Lemma sweep_1 c : sweep c 1 = 1. Proof. unfold sweep. ring. Qed.
Lemma sweep_range c s : 0 < c < 1 -> 0 <= s < 1 -> 0 <= sweep c s < 1.
Proof.
  intros C [S0 S1]. split.
  - destruct S0 as [S0|<-]; [|rewrite sweep_0; lra]. left. rewrite <- (sweep_0 c). apply sweep_mono; lra.
  - rewrite <- (sweep_1 c). apply sweep_mono; lra.
Qed.
Lemma smooth_range s : 0 <= s <= 1 -> 0 <= 3 * s ^ 2 - 2 * s ^ 3 <= 1.
Proof.
  intros [A B]. split.
  - replace (3 * s ^ 2 - 2 * s ^ 3) with (s ^ 2 * (3 - 2 * s)) by ring. apply Rmult_le_pos; [apply pow_le; lra|lra].
  - assert (0 <= (1 - s) ^ 2 * (1 + 2 * s)) by (apply Rmult_le_pos; [apply pow_le; lra|lra]).
    replace ((1 - s) ^ 2 * (1 + 2 * s)) with (1 - (3 * s ^ 2 - 2 * s ^ 3)) in H by ring. lra.
Qed.
Lemma between a b w : 0 <= w <= 1 -> Rmin a b <= a + (b - a) * w <= Rmax a b.
Proof.
  intros [W0 W1]. destruct (Rle_dec a b) as [L|L].
  - rewrite Rmin_left, Rmax_right by exact L. assert (0 <= (b - a) * w) by (apply Rmult_le_pos; lra). assert ((b - a) * w <= (b - a) * 1) by (apply Rmult_le_compat_l; lra). lra.
  - apply Rnot_le_lt in L. rewrite Rmin_right, Rmax_left by lra. assert (0 <= (a - b) * w) by (apply Rmult_le_pos; lra). assert ((a - b) * w <= (a - b) * 1) by (apply Rmult_le_compat_l; lra). lra.
Qed.

Lemma climbing_seq (f : R -> R) : (forall s t, 0 <= s < t -> t <= 1 -> f s < f t) -> forall n k, (k + n <= 101)%nat -> climbing (map f (map (fun i => INR i / 100) (seq k n))).
Proof.
  intros M. induction n as [|n IH]; intros k H; [exact I|]. cbn [seq map]. destruct n as [|n]; [exact I|]. cbn [seq map]. split.
  - apply M; [|].
    + rewrite S_INR. split; [|lra]. apply Rmult_le_pos; [apply pos_INR|lra].
    + assert (INR (S k) <= INR 100) by (apply le_INR; lia). change (INR 100) with (INR (100)) in H0. replace (INR 100) with 100 in H0 by (rewrite INR_IZR_INZ; reflexivity). lra.
  - apply (IH (S k)). lia.
Qed.
Lemma steps_range s : In s curve_steps -> 0 <= s < 1.
Proof.
  unfold curve_steps. intros H. apply in_map_iff in H. destruct H as (i & <- & Hi). apply in_seq in Hi. split.
  - apply Rmult_le_pos; [apply pos_INR|lra].
  - assert (INR i < INR 100) by (apply lt_INR; lia). replace (INR 100) with 100 in H by (rewrite INR_IZR_INZ; reflexivity). lra.
Qed.

Definition fraction (n k : nat) : R := (1 + INR k) / (INR n + 1).
Lemma fraction_range n k : (k < n)%nat -> 0 < fraction n k < 1.
Proof.
  intros H. unfold fraction. assert (INR k < INR n) by now apply lt_INR. assert (0 <= INR k) by apply pos_INR. split.
  - apply Rmult_lt_0_compat; [lra|]. apply Rinv_0_lt_compat. lra.
  - apply (Rmult_lt_reg_r (INR n + 1)); [lra|]. unfold Rdiv. rewrite Rmult_assoc, Rinv_l by lra. lra.
Qed.
Lemma fraction_inj n k j : fraction n k = fraction n j -> k = j.
Proof.
  unfold fraction. intros H. assert (0 <= INR n) by apply pos_INR. apply (f_equal (fun x => x * (INR n + 1))) in H.
  unfold Rdiv in H. rewrite !Rmult_assoc, Rinv_l in H by lra. apply INR_eq. lra.
Qed.

Definition curve_of (a b : R * R) (w : R) : list R * list R :=
  (map (fun s => fst a + (fst b - fst a) * sweep w s) curve_steps, map (fun s => snd a + (snd b - snd a) * (3 * s ^ 2 - 2 * s ^ 3)) curve_steps).
Lemma curve_eq g l e a b : assoc (e_src e) l = Some a -> assoc (e_dst e) l = Some b ->
  curve g l e = Ok (curve_of a b (fraction (number_of_edges g (e_src e) (e_dst e)) (e_key e))).
Proof.
  intros Ea Eb. unfold curve. rewrite Ea, Eb. cbn [of_option bind]. unfold curve_of, bezier. f_equal. f_equal; apply map_ext; intros s.
  - assert (0 <= INR (number_of_edges g (e_src e) (e_dst e))) by apply pos_INR.
    replace ((fst b - fst a) / (INR (number_of_edges g (e_src e) (e_dst e)) + 1) * (1 + INR (e_key e))) with ((fst b - fst a) * fraction (number_of_edges g (e_src e) (e_dst e)) (e_key e)) by (unfold fraction; field; lra).
    apply bezier_x.
  - apply bezier_y.
Qed.
Lemma curve_line a b w : fst a < fst b -> 0 < w < 1 -> line_between a b (curve_of a b w).
Proof.
  intros L W. unfold line_between, curve_of. cbn [fst snd].
  split; [unfold curve_steps; now rewrite !map_length, seq_length|]. split; [unfold curve_steps; now rewrite !map_length, seq_length|].
  split; [unfold curve_steps; cbn [seq map hd_error]; f_equal; unfold sweep; cbn [INR]; field|].
  split; [unfold curve_steps; cbn [seq map hd_error]; f_equal; cbn [INR]; field|].
  split; [|split].
  - apply climbing_seq; [|lia]. intros s t Hs Ht. assert (sweep w s < sweep w t) by now apply sweep_mono.
    assert ((fst b - fst a) * sweep w s < (fst b - fst a) * sweep w t) by (apply Rmult_lt_compat_l; lra). lra.
  - intros x Hx. apply in_map_iff in Hx. destruct Hx as (s & <- & Hs). apply steps_range in Hs. destruct (sweep_range w s W Hs) as (R0 & R1). split.
    + assert (0 <= (fst b - fst a) * sweep w s) by (apply Rmult_le_pos; lra). lra.
    + assert ((fst b - fst a) * sweep w s < (fst b - fst a) * 1) by (apply Rmult_lt_compat_l; lra). lra.
  - intros y Hy. apply in_map_iff in Hy. destruct Hy as (s & <- & Hs). apply steps_range in Hs. apply between. apply smooth_range. lra.
Qed.
Lemma curves_apart a b v w : fst a < fst b -> v <> w -> apart (curve_of a b v) (curve_of a b w).
Proof.
  intros L D i x y Hi Ex Ey. unfold curve_of in Ex, Ey. cbn [fst] in Ex, Ey. rewrite nth_error_map in Ex, Ey.
  destruct (nth_error curve_steps i) as [s|] eqn:Es; [|discriminate]. cbn in Ex, Ey. injection Ex as <-. injection Ey as <-.
  assert (S : 0 < s < 1).
  { split; [|apply steps_range; eapply nth_error_In; exact Es]. unfold curve_steps in Es. rewrite nth_error_map in Es. destruct (nth_error (seq 0 100) i) as [j|] eqn:Ej; [|discriminate]. cbn in Es. injection Es as <-.
    assert (i < 100)%nat by (rewrite <- (seq_length 100 0); apply nth_error_Some; congruence).
    assert (j = i) as ->. { assert (H0 : nth i (seq 0 100) 0%nat = i) by (rewrite seq_nth; lia). rewrite (nth_error_nth _ _ _ Ej) in H0. lia. }
    apply Rmult_lt_0_compat; [|lra]. apply lt_0_INR. exact Hi. }
  intros E. apply D. assert (K : (fst b - fst a) * (sweep v s - sweep w s) = 0) by lra. apply Rmult_integral in K. destruct K as [K|K]; [lra|].
  unfold sweep in K. assert (K' : (v - w) * (3 * s * (1 - s)) = 0) by (ring_simplify; ring_simplify in K; lra). apply Rmult_integral in K'. destruct K' as [K'|K']; [lra|].
  assert (0 < 3 * s * (1 - s)) by (apply Rmult_lt_0_compat; lra). lra.
Qed.

(** * The drawing of a loaded graph *)
Lemma key_below g e : renumbered g -> In e (g_edges g) -> (e_key e < number_of_edges g (e_src e) (e_dst e))%nat.
Proof.
  intros R He. unfold number_of_edges. pose proof (R (e_src e) (e_dst e)) as K.
  assert (I : In (e_key e) (map e_key (filter (fun x => Nat.eqb (e_src x) (e_src e) && Nat.eqb (e_dst x) (e_dst e)) (g_edges g)))).
  { apply in_map. apply filter_In. split; [exact He|]. now rewrite !Nat.eqb_refl. }
  rewrite K in I. apply in_seq in I. lia.
Qed.
Lemma keys_differ g e f : wf g -> In e (g_edges g) -> In f (g_edges g) -> e <> f -> e_src e = e_src f -> e_dst e = e_dst f -> e_key e <> e_key f.
Proof.
  intros W He Hf D S T K. apply D. pose proof (wf_keys g W) as N. clear W.
  induction (g_edges g) as [|a l IH]; [destruct He|]. cbn in N. apply NoDup_cons_iff in N. destruct N as (N1 & N2).
  assert (E : (e_src e, e_dst e, e_key e) = (e_src f, e_dst f, e_key f)) by congruence.
  destruct He as [<-|He], Hf as [<-|Hf]; [reflexivity| | |auto].
  - exfalso. apply N1. rewrite E. apply (in_map (fun e => (e_src e, e_dst e, e_key e))). exact Hf.
  - exfalso. apply N1. rewrite <- E. apply (in_map (fun e => (e_src e, e_dst e, e_key e))). exact He.
Qed.
Lemma start_fst pos : map fst (start_layout pos) = map fst pos.
Proof. unfold start_layout. rewrite map_map. reflexivity. Qed.
Lemma In_start pos n r y : In (n, (r, y)) pos -> In (n, (INR r, Q2R y)) (start_layout pos).
Proof. intros H. unfold start_layout. apply in_map_iff. exists (n, (r, y)). auto. Qed.
Lemma start_In pos p : In p (start_layout pos) -> exists n r y, In (n, (r, y)) pos /\ p = (n, (INR r, Q2R y)).
Proof. unfold start_layout. intros H. apply in_map_iff in H. destruct H as ((n, (r, y)) & <- & Hi). exists n, r, y. auto. Qed.

Lemma table_ok st g : wf g -> backed g st -> exists t, table_edge_data st g = Ok t.
Proof.
  intros W B. apply map_res_ok. intros (e, name) H. apply in_combine_l in H. apply (In_edges_view g e W) in H. cbn [fst snd].
  destruct (In_edge_backed g st e B H) as (o & ps & Ho & Hl). unfold table_entry, get_params, get_obj, get_list. rewrite Ho. cbn [of_option bind]. rewrite Hl. cbn [of_option bind]. eexists. reflexivity.
Qed.

Lemma drawing enum rand st g s : (forall l, Permutation (enum l) l) -> wf g -> acyclic g -> renumbered g -> backed g st -> g_edges g <> [] ->
  no_input g s -> (forall n, no_input g n -> n = s) ->
  exists pos, (forall fuel, (List.length (g_nodes g) < fuel)%nat -> optical_system_layout enum rand g fuel = Ok pos) /\
    (~ uneven pos -> forall fuel, (List.length (g_nodes g) < fuel)%nat -> load_view enum rand fuel st g = Err ZeroDivisionError) /\
    (uneven pos -> exists v, (forall fuel, (List.length (g_nodes g) < fuel)%nat -> load_view enum rand fuel st g = Ok v) /\
      NoDup (map fst (v_layout v)) /\ (forall n, In n (map fst (v_layout v)) <-> is_node g n) /\
      (forall n p, placed_at (v_layout v) n p -> in_frame p) /\
      (exists y, placed_at (v_layout v) s (-1, y)) /\ (exists n y, placed_at (v_layout v) n (1, y)) /\
      (exists n x, placed_at (v_layout v) n (x, -1)) /\ (exists n x, placed_at (v_layout v) n (x, 1)) /\
      List.length (v_curves v) = List.length (edges_view g) /\
      (forall i e c, nth_error (edges_view g) i = Some e -> nth_error (v_curves v) i = Some c ->
         exists a b, placed_at (v_layout v) (e_src e) a /\ placed_at (v_layout v) (e_dst e) b /\ fst a < fst b /\ line_between a b c) /\
      (forall i j e f c d, nth_error (edges_view g) i = Some e -> nth_error (edges_view g) j = Some f -> e <> f -> e_src e = e_src f -> e_dst e = e_dst f ->
         nth_error (v_curves v) i = Some c -> nth_error (v_curves v) j = Some d -> apart c d) /\
      v_nodes v = combine (map fst (g_nodes g)) (node_names g) /\
      v_edges v = combine (map (fun e => (e_src e, e_dst e)) (edges_view g)) (edge_names g) /\
      table_edge_data st g = Ok (v_table v)).
Proof.
  intros P W A RN B NE Hs Us. destruct (layout_ends enum rand g s P W A Hs Us) as (pos & Run & ND & Nodes & Longest & Order).
  exists pos. split; [exact Run|].
  assert (At : forall n, is_node g n -> exists r y, In (n, (r, y)) pos).
  { intros n Hn. apply Nodes in Hn. apply in_map_iff in Hn. destruct Hn as ((m, (r, y)) & <- & Hi). eauto. }
  destruct (g_edges g) as [|e0 es] eqn:Eg; [congruence|]. assert (He0 : In e0 (g_edges g)) by (rewrite Eg; now left). rewrite <- Eg in *. clear NE es Eg.
  destruct (wf_ends g W e0 He0) as (Hsrc & Hdst). destruct (At _ Hsrc) as (r0 & y0 & I0). destruct (At _ Hdst) as (r1 & y1 & I1).
  pose proof (Order e0 r0 y0 r1 y1 He0 I0 I1) as L01.
  assert (Nn : start_layout pos <> []) by (destruct pos; [destruct I0|discriminate]).
  assert (Dx : exists p q, In p (start_layout pos) /\ In q (start_layout pos) /\ fst (snd p) <> fst (snd q)).
  { exists (e_src e0, (INR r0, Q2R y0)), (e_dst e0, (INR r1, Q2R y1)). repeat split; [now apply In_start|now apply In_start|]. cbn. apply lt_INR in L01. lra. }
  split.
  - intros Fl fuel Hf. unfold load_view. rewrite Run by exact Hf. cbn [bind]. rewrite normalise_flat; [reflexivity|exact Nn|exact Dx|].
    intros p q Hp Hq. apply start_In in Hp, Hq. destruct Hp as (n & r & y & Hp & ->), Hq as (n' & r' & y' & Hq & ->). cbn.
    destruct (Qeq_dec y y') as [E|E]; [now apply Qeq_eqR|]. exfalso. apply Fl. exists (n, (r, y)), (n', (r', y')). auto.
  - intros ((np & (rp & yp)) & (nq & (rq & yq)) & Hp & Hq & Dq). cbn in Dq.
    assert (Dy : exists p q, In p (start_layout pos) /\ In q (start_layout pos) /\ snd (snd p) <> snd (snd q)).
    { exists (np, (INR rp, Q2R yp)), (nq, (INR rq, Q2R yq)). repeat split; [now apply In_start|now apply In_start|]. cbn. intros E. apply Dq. now apply eqR_Qeq. }
    destruct (normalise_ok _ Nn Dx Dy) as (xl & xh & yl & yh & Lx & Ly & En & Ixl & Ixh & Iyl & Iyh & Fr).
    set (f := fun p : node * (R * R) => (fst p, (scaled xl xh (fst (snd p)), scaled yl yh (snd (snd p))))) in *.
    set (l := map f (start_layout pos)) in *.
    assert (Fst : map fst l = map fst pos) by (unfold l; rewrite map_map; cbn; rewrite <- start_fst; reflexivity).
    assert (NDl : NoDup (map fst l)) by (rewrite Fst; exact ND).
    assert (Pl : forall n r y, In (n, (r, y)) pos -> In (n, (scaled xl xh (INR r), scaled yl yh (Q2R y))) l).
    { intros n r y H. unfold l. apply in_map_iff. exists (n, (INR r, Q2R y)). split; [reflexivity|]. now apply In_start. }
    assert (Fwd : forall e, In e (g_edges g) -> exists a b, In (e_src e, a) l /\ In (e_dst e, b) l /\ fst a < fst b).
    { intros e He. destruct (wf_ends g W e He) as (H1 & H2). destruct (At _ H1) as (r & y & J1). destruct (At _ H2) as (r' & y' & J2).
      do 2 eexists. split; [apply Pl; exact J1|]. split; [apply Pl; exact J2|]. cbn. apply scaled_mono; [exact Lx|]. apply lt_INR. eapply Order; eassumption. }
    assert (Cv : exists cs, map_res (curve g l) (edges_view g) = Ok cs).
    { apply map_res_ok. intros e He. apply (In_edges_view g e W) in He. destruct (Fwd e He) as (a & b & Ha & Hb & _).
      eexists. apply curve_eq; apply In_assoc; eassumption. }
    destruct Cv as (cs & Ecs). destruct (table_ok st g W B) as (t & Et).
    pose proof (map_res_nth _ _ _ Ecs) as F2.
    exists (mkShown l cs (combine (map fst (g_nodes g)) (node_names g)) (combine (map (fun e => (e_src e, e_dst e)) (edges_view g)) (edge_names g)) t). cbn [v_layout v_curves v_nodes v_edges v_table].
    split. { intros fuel Hf. unfold load_view. rewrite Run by exact Hf. cbn [bind]. rewrite En. cbn [bind]. fold l. rewrite Ecs. cbn [bind]. rewrite Et. reflexivity. }
    split; [exact NDl|]. split; [intros n; rewrite Fst; apply Nodes|].
    split. { intros n p H. unfold placed_at, l in H. apply in_map_iff in H. destruct H as (q & Eq & Hq'). unfold f in Eq. injection Eq as <- <-. destruct (Fr q Hq') as (F1 & F3). split; cbn; now apply scaled_range. }
    assert (Src : forall n r y, In (n, (r, y)) pos -> xl <= INR r <= xh) by (intros n r y H; apply In_start in H; apply Fr in H; exact (proj1 H)).
    split. { destruct (At s (proj1 Hs)) as (r & y & Hi). exists (scaled yl yh (Q2R y)). assert (r = 0%nat) as ->.
      { destruct (Longest s r y Hi) as ((Wk & _) & _). destruct r as [|r]; [reflexivity|]. exfalso. assert (exists v, connects g v s) as (v & e & He & _ & Ed) by (inversion Wk; subst; eauto). destruct Hs as (_ & No). exact (No e He Ed). }
      assert (xl = INR 0) as Exl.
      { apply Rle_antisym; [exact (proj1 (Src _ _ _ Hi))|]. unfold xs_of in Ixl. apply in_map_iff in Ixl. destruct Ixl as (p & <- & Hp'). apply start_In in Hp'. destruct Hp' as (n & r & y' & _ & ->). cbn [fst snd]. apply le_INR. lia. }
      apply Pl in Hi. rewrite <- Exl in Hi. rewrite scaled_lo in Hi by exact Lx. exact Hi. }
    assert (Pick : forall x, In x (xs_of (start_layout pos)) -> exists n y, In (n, (scaled xl xh x, y)) l).
    { intros x Hx. unfold xs_of in Hx. apply in_map_iff in Hx. destruct Hx as (p & <- & Hp'). exists (fst p), (scaled yl yh (snd (snd p))). unfold l. apply in_map_iff. exists p. auto. }
    assert (Pick' : forall y, In y (ys_of (start_layout pos)) -> exists n x, In (n, (x, scaled yl yh y)) l).
    { intros y Hx. unfold ys_of in Hx. apply in_map_iff in Hx. destruct Hx as (p & <- & Hp'). exists (fst p), (scaled xl xh (fst (snd p))). unfold l. apply in_map_iff. exists p. auto. }
    split. { destruct (Pick _ Ixh) as (n & y & H). rewrite scaled_hi in H by exact Lx. exists n, y. exact H. }
    split. { destruct (Pick' _ Iyl) as (n & x & H). rewrite scaled_lo in H by exact Ly. exists n, x. exact H. }
    split. { destruct (Pick' _ Iyh) as (n & x & H). rewrite scaled_hi in H by exact Ly. exists n, x. exact H. }
    split; [symmetry; eapply Forall2_len; exact F2|].
    assert (Cur : forall i e c, nth_error (edges_view g) i = Some e -> nth_error cs i = Some c -> In e (g_edges g) /\ forall a b, In (e_src e, a) l -> In (e_dst e, b) l ->
              c = curve_of a b (fraction (number_of_edges g (e_src e) (e_dst e)) (e_key e))).
    { intros i e c Ee Ec. assert (He : In e (g_edges g)) by (apply (In_edges_view g e W); eapply nth_error_In; exact Ee). split; [exact He|]. intros a b Ha Hb.
      destruct (Forall2_nth_l _ _ _ _ _ F2 Ee) as (c' & Ec' & Ev). rewrite Ec in Ec'. injection Ec' as <-.
      rewrite (curve_eq g l e a b (In_assoc _ _ _ NDl Ha) (In_assoc _ _ _ NDl Hb)) in Ev. injection Ev as <-. reflexivity. }
    split. { intros i e c Ee Ec. destruct (Cur i e c Ee Ec) as (He & Eq). destruct (Fwd e He) as (a & b & Ha & Hb & L). exists a, b. repeat (split; [assumption|]).
      rewrite (Eq a b Ha Hb). apply curve_line; [exact L|]. apply fraction_range. now apply key_below. }
    split. { intros i j e f' c d Ee Ef D Es Ed Ec Edd. destruct (Cur i e c Ee Ec) as (He & Eqe). destruct (Cur j f' d Ef Edd) as (Hf & Eqf). destruct (Fwd e He) as (a & b & Ha & Hb & L).
      rewrite (Eqe a b Ha Hb). rewrite (Eqf a b) by (rewrite <- ?Es, <- ?Ed; assumption). rewrite <- Es, <- Ed. apply curves_apart; [exact L|]. intros E. apply fraction_inj in E.
      exact (keys_differ g e f' W He Hf D Es Ed E). }
    repeat split. exact Et.
Qed.

(** * Names *)
Definition letter (a : ascii) : bool := Nat.leb 65 (nat_of_ascii a).
Fixpoint letters (s : string) : string := match s with EmptyString => EmptyString | String a r => if letter a then String a (letters r) else EmptyString end.
Fixpoint after (s : string) : string := match s with EmptyString => EmptyString | String a r => if letter a then after r else s end.
Lemma digits_letters d : letters (NilEmpty.string_of_uint d) = EmptyString.
Proof. destruct d; reflexivity. Qed.
Lemma digits_after d : after (NilEmpty.string_of_uint d) = NilEmpty.string_of_uint d.
Proof. destruct d; reflexivity. Qed.
Lemma show_letters c n : letters (show c n) = acronym c.
Proof. unfold show. destruct c; cbn -[NilEmpty.string_of_uint Nat.to_uint]; rewrite digits_letters; reflexivity. Qed.
Lemma show_after c n : after (show c n) = NilEmpty.string_of_uint (Nat.to_uint n).
Proof. unfold show. destruct c; cbn -[NilEmpty.string_of_uint Nat.to_uint]; apply digits_after. Qed.
Lemma digits_inj n m : NilEmpty.string_of_uint (Nat.to_uint n) = NilEmpty.string_of_uint (Nat.to_uint m) -> n = m.
Proof.
  intros H. apply (f_equal NilEmpty.uint_of_string) in H. rewrite !NilEmpty.usu in H. injection H as H. now apply DecimalNat.Unsigned.to_uint_inj.
Qed.
Lemma show_inj c n d m : show c n = show d m -> acronym c = acronym d /\ n = m.
Proof.
  intros H. split; [rewrite <- (show_letters c n), <- (show_letters d m); congruence|]. apply digits_inj. rewrite <- (show_after c n), <- (show_after d m). congruence.
Qed.
Definition delays (c d : cls) : Prop := (c = DelayLine /\ d = IntegratedDelayLine) \/ (c = IntegratedDelayLine /\ d = DelayLine).
Lemma acronym_inj c d : acronym c = acronym d -> c = d \/ delays c d.
Proof. unfold delays. destruct c, d; intros H; try discriminate H; auto. Qed.

Lemma numbered_nth : forall cs counts i, nth_error (number_components counts cs) i =
  match nth_error cs i with Some c => Some (show c (counts c + occurrences c (firstn i cs))%nat) | None => None end.
Proof.
  induction cs as [|c cs IH]; intros counts i; [destruct i; reflexivity|]. destruct i as [|i]; cbn [number_components nth_error firstn].
  - unfold occurrences. cbn. now rewrite Nat.add_0_r.
  - rewrite IH. destruct (nth_error cs i) as [d|]; [|reflexivity]. unfold occurrences. cbn [count_occ]. f_equal. f_equal. unfold cls_eqb.
    destruct (cls_eq_dec d c) as [->|N]; [destruct (cls_eq_dec c c) as [_|N]; [lia|congruence]|destruct (cls_eq_dec c d); [congruence|reflexivity]].
Qed.
Lemma numbered_length : forall cs counts, List.length (number_components counts cs) = List.length cs.
Proof. induction cs as [|c cs IH]; intros counts; cbn; [reflexivity|]. now rewrite IH. Qed.
Lemma occurrences_grow cs c : forall i j, nth_error cs i = Some c -> (i < j)%nat -> (occurrences c (firstn i cs) < occurrences c (firstn j cs))%nat.
Proof.
  unfold occurrences. induction cs as [|d cs IH]; intros i j E L; [destruct i; discriminate|]. destruct j as [|j]; [lia|]. destruct i as [|i]; cbn [firstn count_occ].
  - cbn in E. injection E as ->. destruct (cls_eq_dec c c); [lia|congruence].
  - cbn in E. assert (H := IH i j E ltac:(lia)). destruct (cls_eq_dec d c); lia.
Qed.
Lemma first_of cs c : In c cs -> exists i, nth_error cs i = Some c /\ occurrences c (firstn i cs) = 0%nat.
Proof.
  unfold occurrences. induction cs as [|d cs IH]; [intros []|]. intros H. destruct (cls_eq_dec d c) as [->|N]; [exists 0%nat; auto|].
  destruct H as [H|H]; [congruence|]. destruct (IH H) as (i & E & O). exists (S i). split; [exact E|]. cbn. destruct (cls_eq_dec d c); [congruence|exact O].
Qed.
Lemma numbered_distinct cs : NoDup (number_components (fun _ => 0%nat) cs) <-> ~ (In DelayLine cs /\ In IntegratedDelayLine cs).
Proof.
  split.
  - intros N (H1 & H2). destruct (first_of cs _ H1) as (i & Ei & Oi). destruct (first_of cs _ H2) as (j & Ej & Oj).
    assert (i = j) as E.
    { rewrite NoDup_nth_error in N. apply N.
      - rewrite numbered_length. apply nth_error_Some. congruence.
      - rewrite !numbered_nth, Ei, Ej, Oi, Oj. reflexivity. }
    subst. congruence.
  - intros N. apply NoDup_nth_error. intros i j Li E. rewrite numbered_length in Li.
    rewrite !numbered_nth in E. destruct (nth_error cs i) as [c|] eqn:Ei; [|apply nth_error_Some in Li; congruence].
    destruct (nth_error cs j) as [d|] eqn:Ej; [|discriminate]. injection E as E. apply show_inj in E. destruct E as (Ea & En). cbn in En.
    destruct (acronym_inj c d Ea) as [<-|D].
    + destruct (lt_eq_lt_dec i j) as [[L|L]|L]; [|exact L|].
      * pose proof (occurrences_grow cs c i j Ei L). lia.
      * pose proof (occurrences_grow cs c j i Ej L). lia.
    + exfalso. apply N. destruct D as [(-> & ->)|(-> & ->)]; split; eapply nth_error_In; eassumption.
Qed.

(** * The table *)
Lemma names_number c : names_given c = match family_of c with MultiPath => 0%nat | _ => Z.to_nat (sp_num (spec_of c)) end.
Proof. destruct c; reflexivity. Qed.
Lemma update_from table : forall indices t0, (forall i, In i indices -> (i < List.length table)%nat) ->
  exists rows, Forall2 (fun i e => nth_error table i = Some e) indices rows /\
    fold_res (fun t i => do e <- of_option KeyError (nth_error table i); Ok (mkEntry (t_parameters t ++ t_parameters e) (t_names t ++ t_names e) (t_model t ++ t_model e))) indices t0 =
    Ok (mkEntry (t_parameters t0 ++ flat_map t_parameters rows) (t_names t0 ++ flat_map t_names rows) (t_model t0 ++ flat_map t_model rows)).
Proof.
  induction indices as [|i is IH]; intros t0 H.
  - exists []. split; [constructor|]. cbn. rewrite !List.app_nil_r. now destruct t0.
  - destruct (nth_error table i) as [e|] eqn:E; [|exfalso; apply (nth_error_None table i) in E; pose proof (H i (or_introl eq_refl)); lia].
    cbn [fold_res]. rewrite E. cbn [of_option bind]. destruct (IH (mkEntry (t_parameters t0 ++ t_parameters e) (t_names t0 ++ t_names e) (t_model t0 ++ t_model e))) as (rows & F & R); [intros j Hj; apply H; now right|].
    exists (e :: rows). split; [constructor; assumption|]. rewrite R. cbn [t_parameters t_names t_model flat_map]. now rewrite !List.app_assoc.
Qed.
Lemma update_ok table indices : (forall i, In i indices -> (i < List.length table)%nat) ->
  exists rows, Forall2 (fun i e => nth_error table i = Some e) indices rows /\
    update_table_data table indices = Ok (mkEntry (flat_map t_parameters rows) (flat_map t_names rows) (flat_map t_model rows)).
Proof. intros H. destruct (update_from table indices (mkEntry [] [] []) H) as (rows & F & E). exists rows. split; [exact F|exact E]. Qed.
Lemma update_err table : forall indices t0, (exists i, In i indices /\ (List.length table <= i)%nat) ->
  fold_res (fun t i => do e <- of_option KeyError (nth_error table i); Ok (mkEntry (t_parameters t ++ t_parameters e) (t_names t ++ t_names e) (t_model t ++ t_model e))) indices t0 = Err KeyError.
Proof.
  induction indices as [|i is IH]; intros t0 (j & Hj & L); [destruct Hj|]. cbn [fold_res]. destruct (nth_error table i) as [e|] eqn:E; cbn [of_option bind]; [|reflexivity].
  apply IH. destruct Hj as [<-|Hj]; [|exists j; auto]. assert (i < List.length table)%nat by (apply nth_error_Some; congruence). lia.
Qed.
Lemma flat_map_len {A B C} (f : A -> list B) (h : A -> list C) : forall l, (forall a, In a l -> List.length (f a) = List.length (h a)) -> List.length (flat_map f l) = List.length (flat_map h l).
Proof. induction l as [|a l IH]; intros H; [reflexivity|]. cbn. rewrite !List.app_length, H by now left. rewrite IH; [reflexivity|]. intros b Hb. apply H. now right. Qed.

(** * Selecting *)
Definition good (es : list event) (s : panel) : Prop :=
  List.length (p_table s) = size_after es /\ (forall i, In i (p_lines s) <-> load_worked es = true /\ (i < size_after es)%nat) /\
  (forall i, In i (p_visible s) -> In i (p_selected s) /\ In i (p_lines s)).
Lemma mem_In n l : mem n l = true <-> In n l.
Proof. unfold mem. rewrite existsb_exists. split; [intros (x & H & E); apply Nat.eqb_eq in E; now subst|intros H; exists n; split; [exact H|apply Nat.eqb_refl]]. Qed.
Lemma selects_visible s new rows i : update_table_data (p_table s) new = Ok rows -> (forall i, In i (p_visible s) -> In i (p_selected s) /\ In i (p_lines s)) ->
  (In i (p_visible (step s (Selects new))) <-> In i new /\ In i (p_lines s)).
Proof.
  intros E V. cbn [step]. rewrite E. cbn [p_visible]. rewrite filter_In, in_app_iff, filter_In, negb_true_iff, mem_In. split.
  - intros ([H|H] & N); [exact H|]. destruct (V i H) as (Hs & Hl). split; [|exact Hl]. destruct (mem i new) eqn:M; [now apply mem_In|].
    exfalso. assert (mem i (filter (fun i => negb (mem i new)) (p_selected s)) = true) as K; [|congruence]. apply mem_In, filter_In. now rewrite M.
  - intros (H & L). split; [left; auto|]. destruct (mem i (filter _ _)) eqn:M; [|reflexivity]. apply mem_In, filter_In in M. destruct M as (_ & M). apply negb_true_iff in M. apply mem_In in H. congruence.
Qed.
Lemma offered_app : forall es size e, offered size (es ++ [e]) -> offered size es /\ match e with Selects new => forall i, In i new -> (i < fold_left (fun n e => match e with Loads t => List.length t | _ => n end) es size)%nat | _ => True end.
Proof.
  induction es as [|a es IH]; intros size e H; cbn in H |- *.
  - destruct e; cbn in H; tauto.
  - destruct a; [apply IH in H; exact H|apply IH in H; exact H|]. destruct H as (H1 & H2). apply IH in H2. tauto.
Qed.
Lemma session_good es : offered 0 es -> good es (session es).
Proof.
  induction es as [|e es IH] using rev_ind; intros O.
  - unfold good. cbn. repeat split; try tauto; try discriminate. intros (H & _). discriminate.
  - apply offered_app in O. destruct O as (O & Oe). specialize (IH O). destruct IH as (I1 & I2 & I3).
    unfold good, session, size_after, load_worked. rewrite !fold_left_app. cbn [fold_left]. fold (session es). fold (size_after es). fold (load_worked es).
    destruct e as [t| |new].
    + cbn. split; [reflexivity|]. split; [intros i; rewrite in_seq; split; [intros H; split; [reflexivity|lia]|lia]|intros i []].
    + cbn. split; [exact I1|]. split; [intros i; split; [intros []|intros (H & _); discriminate]|intros i []].
    + destruct (update_ok (p_table (session es)) new) as (rows & F & E); [intros i Hi; rewrite I1; exact (Oe i Hi)|].
      split; [cbn; rewrite E; exact I1|]. split; [cbn [step]; rewrite E; exact I2|].
      intros i Hi. apply (selects_visible _ _ _ i E I3) in Hi. cbn [step]. rewrite E. exact Hi.
Qed.

Lemma names_complete c : names_given c = Z.to_nat (sp_num (spec_of c)).
Proof. destruct c; reflexivity. Qed.
Lemma entry_of st e name o ps : has st (cid (e_model (e_dat e))) o ps ->
  table_entry st e name = Ok (mkEntry ps (map (fun i => (ccls (e_model (e_dat e)), i)) (seq 0 (names_given (ccls (e_model (e_dat e)))))) (repeat name (Z.to_nat (sp_num (spec_of (ccls (e_model (e_dat e)))))))).
Proof. intros (Ho & Hl). unfold table_entry, get_params, get_obj, get_list. rewrite Ho. cbn [of_option bind]. rewrite Hl. reflexivity. Qed.
Lemma edge_names_length g : List.length (edge_names g) = List.length (edges_view g).
Proof. unfold edge_names, component_names. rewrite skipn_length, numbered_length, List.app_length, !map_length. lia. Qed.
Lemma node_names_length g : List.length (node_names g) = List.length (g_nodes g).
Proof. unfold node_names, component_names. rewrite firstn_length, numbered_length, List.app_length, !map_length. lia. Qed.
Lemma combine_nth_error {A B} : forall (l : list A) (r : list B) i, nth_error (combine l r) i = match nth_error l i, nth_error r i with Some a, Some b => Some (a, b) | _, _ => None end.
Proof.
  induction l as [|a l IH]; intros r i; [destruct i; reflexivity|]. destruct r as [|b r]; [destruct i; cbn; [reflexivity|destruct (nth_error l i); reflexivity]|]. destruct i as [|i]; [reflexivity|]. cbn. apply IH.
Qed.
