(** Strengths of fields add up at most (C66). *)
From Coq Require Import Reals List Arith Lia Lra.
From Verif Require Import Base Complex ArrayModel ComponentModel ComponentSpec MoreComponentsModel MoreComponentsSpec FilterProofs ComponentProofs SplitterProofs MoreComponentsProofs OpticsSpec OpticsComponentProofs.
Import ListNotations.
Local Open Scope R_scope.

Definition norm (n : nat) (f : nat -> C) : R := sqrt (rsum n (fun i => Cnorm2 (f i))).
Definition inner_re (a b : C) : R := fst a * fst b + snd a * snd b.

Lemma norm_nonneg : forall n f, 0 <= norm n f.
Proof. intros. apply sqrt_pos. Qed.
Lemma norm_square : forall n f, norm n f * norm n f = rsum n (fun i => Cnorm2 (f i)).
Proof. intros. apply sqrt_sqrt, rsum_nonneg. intros; apply Cnorm2_nonneg. Qed.

Lemma quadratic_point : forall a b t, Cnorm2 (Cadd a (Cmul (RtoC t) b)) = Cnorm2 a + 2 * t * inner_re a b + t * t * Cnorm2 b.
Proof. intros [a1 a2] [b1 b2] t. unfold inner_re. cplx. ring. Qed.
Lemma quadratic : forall n f g t, rsum n (fun i => Cnorm2 (Cadd (f i) (Cmul (RtoC t) (g i)))) =
  rsum n (fun i => Cnorm2 (f i)) + 2 * t * rsum n (fun i => inner_re (f i) (g i)) + t * t * rsum n (fun i => Cnorm2 (g i)).
Proof.
  induction n as [|n IH]; intros f g t; cbn [rsum]; [ring|]. rewrite IH, quadratic_point. ring.
Qed.

Lemma discriminant : forall F P G, 0 <= F -> 0 <= G -> (forall t, 0 <= F + 2 * t * P + t * t * G) -> P * P <= F * G.
Proof.
  intros F P G HF HG H. destruct (Rle_lt_or_eq_dec 0 G HG) as [Gp|G0].
  - specialize (H (- P / G)). assert (E : F + 2 * (- P / G) * P + - P / G * (- P / G) * G = F - P * P / G) by (field; lra). rewrite E in H.
    assert (P * P / G <= F) by lra. apply (Rmult_le_compat_r G) in H0; [|lra]. unfold Rdiv in H0. rewrite Rmult_assoc, Rinv_l in H0 by lra. lra.
  - subst G. destruct (Req_dec P 0) as [->|N]; [lra|]. exfalso. specialize (H (- (F + 1) / (2 * P))). assert (E : F + 2 * (- (F + 1) / (2 * P)) * P + - (F + 1) / (2 * P) * (- (F + 1) / (2 * P)) * 0 = -1) by (field; exact N). lra.
Qed.

Lemma schwarz : forall n f g, rsum n (fun i => inner_re (f i) (g i)) <= norm n f * norm n g.
Proof.
  intros n f g. pose proof (norm_nonneg n f). pose proof (norm_nonneg n g).
  assert (D : rsum n (fun i => inner_re (f i) (g i)) * rsum n (fun i => inner_re (f i) (g i)) <= (norm n f * norm n f) * (norm n g * norm n g)).
  { rewrite !norm_square. apply discriminant; try (apply rsum_nonneg; intros; apply Cnorm2_nonneg). intros t. rewrite <- quadratic. apply rsum_nonneg. intros; apply Cnorm2_nonneg. }
  set (P := rsum n (fun i => inner_re (f i) (g i))) in *. assert (0 <= norm n f * norm n g) by (apply Rmult_le_pos; assumption).
  destruct (Rle_dec P 0); [lra|]. apply Rsqr_incr_0; [unfold Rsqr; nra|lra|assumption].
Qed.

Lemma minkowski : forall n f g, norm n (fun i => Cadd (f i) (g i)) <= norm n f + norm n g.
Proof.
  intros n f g. pose proof (norm_nonneg n f). pose proof (norm_nonneg n g). unfold norm at 1. apply Rsqr_incr_0_var; [|lra]. rewrite Rsqr_sqrt by (apply rsum_nonneg; intros; apply Cnorm2_nonneg).
  pose proof (quadratic n f g 1) as Q. pose proof (schwarz n f g). pose proof (norm_square n f). pose proof (norm_square n g).
  assert (E : rsum n (fun i => Cnorm2 (Cadd (f i) (g i))) = rsum n (fun i => Cnorm2 (Cadd (f i) (Cmul (RtoC 1) (g i))))).
  { apply rsum_ext. intros i _. f_equal. f_equal. cplx. destruct (g i). cbn [fst snd]. f_equal; ring. }
  rewrite E, Q. unfold Rsqr. nra.
Qed.

Lemma norm_zero : forall n, norm n (fun _ => C0) = 0.
Proof.
  intros n. unfold norm. replace (rsum n (fun _ => Cnorm2 C0)) with 0; [apply sqrt_0|]. induction n as [|n IH]; cbn [rsum]; [reflexivity|]. rewrite <- IH. cplx. ring.
Qed.
Lemma norm_ext : forall n f g, (forall i, (i < n)%nat -> f i = g i) -> norm n f = norm n g.
Proof. intros n f g H. unfold norm. f_equal. apply rsum_ext. intros i Hi. rewrite H by exact Hi. reflexivity. Qed.

Lemma norm_csum : forall m n (f : nat -> nat -> C), norm n (fun t => csum m (fun i => f i t)) <= rsum m (fun i => norm n (f i)).
Proof.
  induction m as [|m IH]; intros n f; cbn [csum rsum].
  - rewrite norm_zero. lra.
  - eapply Rle_trans; [apply minkowski|]. specialize (IH n f). lra.
Qed.

Lemma norm_strength : forall N x, length x = N -> norm N (fun t => nth t x C0) = strength x.
Proof. intros N x L. unfold norm, strength. rewrite energy_sum, L. reflexivity. Qed.

Lemma norm_scaled : forall n c f, norm n (fun i => Cmul c (f i)) = sqrt (Cnorm2 c) * norm n f.
Proof.
  intros n c f. unfold norm. rewrite <- sqrt_mult; [|apply Cnorm2_nonneg|apply rsum_nonneg; intros; apply Cnorm2_nonneg]. f_equal. rewrite <- rsum_scale. apply rsum_ext. intros i _. apply Cnorm2_mul.
Qed.

Definition strengths (xs : list (list C)) : R := fold_right (fun x a => strength x + a) 0 xs.
Lemma strengths_sum : forall xs, strengths xs = rsum (length xs) (fun i => strength (nth i xs [])).
Proof.
  induction xs as [|x xs IH] using rev_ind; [reflexivity|]. unfold strengths in *. rewrite fold_right_app. cbn [fold_right].
  assert (E : forall l a, fold_right (fun x a => strength x + a) a l = fold_right (fun x a => strength x + a) 0 l + a) by (induction l as [|y l IHl]; intros a; cbn [fold_right]; [ring|rewrite IHl; ring]).
  rewrite E, IH, app_length. cbn [length]. rewrite Nat.add_1_r. cbn [rsum]. rewrite app_nth2, Nat.sub_diag by lia. cbn [nth]. rewrite Rplus_0_r. f_equal.
  apply rsum_ext. intros i Hi. rewrite app_nth1 by exact Hi. reflexivity.
Qed.

Lemma superposed_strength : forall n_in states N, length states = n_in -> (forall s, In s states -> length s = N) -> norm N (superposed n_in states) <= strengths states.
Proof.
  intros n_in states N L H. unfold superposed. eapply Rle_trans; [apply (norm_csum n_in N (fun i t => Cmul (cis (- (2 * PI * INR i / INR n_in))) (nth t (nth i states []) C0)))|].
  rewrite strengths_sum, L. apply rsum_le. intros i Hi. rewrite norm_scaled, cis_norm, sqrt_1, Rmult_1_l. rewrite norm_strength; [lra|]. apply H. apply nth_In. lia.
Qed.
Lemma plain_strength : forall states N, (forall s, In s states -> length s = N) -> norm N (plain_sum states) <= strengths states.
Proof.
  intros states N H. unfold plain_sum. eapply Rle_trans; [apply (norm_csum (length states) N (fun i t => nth t (nth i states []) C0))|].
  rewrite strengths_sum. apply rsum_le. intros i Hi. rewrite norm_strength; [lra|]. apply H. apply nth_In. exact Hi.
Qed.

(* the shares of a splitter, as strengths *)
Lemma share_strengths : forall a n_out, length a = (n_out - 1)%nat -> (forall x, In x a -> fraction x) -> (1 <= n_out)%nat -> rsum n_out (fun j => sqrt (share a j) / sqrt (INR n_out)) <= 1.
Proof.
  intros a n_out L Fr O. assert (Ip : 0 < INR n_out) by (apply lt_0_INR; lia). pose proof (sqrt_lt_R0 _ Ip) as Sp.
  pose proof (cauchy_sum n_out (fun j => RtoC (sqrt (share a j)))) as Cs. rewrite csum_RtoC, Cnorm2_RtoC in Cs.
  assert (E : rsum n_out (fun j => Cnorm2 (RtoC (sqrt (share a j)))) = 1).
  { rewrite <- (share_sum a). replace (S (length a)) with n_out by lia. apply rsum_ext. intros j _. rewrite Cnorm2_RtoC. apply sqrt_sqrt. apply (share_range a Fr j). }
  rewrite E, Rmult_1_r in Cs. set (Z := rsum n_out (fun j => sqrt (share a j))) in *.
  assert (Z0 : 0 <= Z) by (apply rsum_nonneg; intros; apply sqrt_pos).
  assert (Zs : Z <= sqrt (INR n_out)). { apply Rsqr_incr_0_var; [|lra]. rewrite Rsqr_sqrt by lra. exact Cs. }
  replace (rsum n_out (fun j => sqrt (share a j) / sqrt (INR n_out))) with (/ sqrt (INR n_out) * Z).
  - apply (Rmult_le_reg_l (sqrt (INR n_out))); [exact Sp|]. rewrite <- Rmult_assoc, Rinv_r by lra. lra.
  - unfold Z. rewrite <- rsum_scale. apply rsum_ext. intros j _. unfold Rdiv. ring.
Qed.

Lemma splitter_strength : forall a n_in n_out states N outs, length a = (n_out - 1)%nat -> (forall x, In x a -> fraction x) -> (1 <= n_out)%nat -> (1 <= n_in)%nat -> length states = n_in -> (forall s, In s states -> length s = N) ->
  splitter a n_in n_out states = Ok outs -> strengths outs <= strengths states.
Proof.
  intros a n_in n_out states N outs La Fr O I L H E. destruct (splitter_ok a n_in n_out states N La O I L H) as (o' & E' & Lo & Ho & V). rewrite E in E'. injection E' as <-.
  assert (Ip : 0 < INR n_out) by (apply lt_0_INR; lia). pose proof (sqrt_lt_R0 _ Ip) as Sp.
  rewrite strengths_sum, Lo. eapply Rle_trans; [apply (rsum_le n_out _ (fun j => strengths states * (sqrt (share a j) / sqrt (INR n_out))))|].
  - intros j Hj. rewrite <- (norm_strength N) by (apply Ho; apply nth_In; lia).
    rewrite (norm_ext N _ (fun t => Cmul (Cmul (RtoC (sqrt (share a j) / sqrt (INR n_out))) (cis (- (2 * PI * INR j / INR n_out)))) (superposed n_in states t))) by (intros t Ht; apply V; assumption).
    rewrite norm_scaled, Cnorm2_mul, cis_norm, Rmult_1_r, Cnorm2_RtoC. rewrite sqrt_square by (apply Rmult_le_pos; [apply sqrt_pos|apply Rlt_le, Rinv_0_lt_compat; exact Sp]).
    rewrite Rmult_comm. apply Rmult_le_compat_r; [apply Rmult_le_pos; [apply sqrt_pos|apply Rlt_le, Rinv_0_lt_compat; exact Sp]|]. apply superposed_strength; assumption.
  - rewrite rsum_scale. rewrite <- (Rmult_1_r (strengths states)) at 2. apply Rmult_le_compat_l; [|apply share_strengths; assumption]. rewrite strengths_sum. apply rsum_nonneg. intros; apply strength_nonneg.
Qed.

Lemma frequency_strength : forall a p states outs, usable (n_samples p) (window_t p) -> states <> [] -> (forall s, In s states -> length s = n_samples p) ->
  frequency_splitter a p states = Ok outs -> strengths outs <= INR (S (length a)) * strengths states.
Proof.
  intros a p states outs U Ne H E. destruct (frequency_splitter_ok a p states U Ne H) as (o' & E' & Lo & Ho & _). rewrite E in E'. injection E' as <-.
  rewrite strengths_sum, Lo. assert (B : forall j, (j < S (length a))%nat -> strength (nth j outs []) <= strengths states).
  { intros j Hj. eapply Rle_trans; [|apply (plain_strength states (n_samples p) H)]. unfold strength, norm. destruct (Ho (nth j outs [])) as [_ B]; [apply nth_In; lia|]. apply sqrt_le_1; [apply energy_nonneg|apply rsum_nonneg; intros; apply Cnorm2_nonneg|exact B]. }
  clear - B. induction (S (length a)) as [|m IH]; cbn [rsum]; [simpl; lra|]. rewrite S_INR. assert (rsum m (fun i => strength (nth i outs [])) <= INR m * strengths states) by (apply IH; intros; apply B; lia). specialize (B m ltac:(lia)). lra.
Qed.
