(** The variable power splitter. *)
From Coq Require Import Reals Lra Lia List Arith ZArith QArith Qreals.
From Verif Require Import Base GraphModel ParamsModel Complex ArrayModel FourierProofs ComponentModel ComponentSpec FilterProofs ComponentProofs.
Import ListNotations.
Local Open Scope R_scope.

Lemma product_cons : forall x l, product (x :: l) = x * product l.
Proof. reflexivity. Qed.
(* the weights are the shares of the cascade *)
Lemma weights_share : forall a, splitter_weights a = tabulate (S (length a)) (share a).
Proof.
  intros a. unfold splitter_weights, tabulate. rewrite seq_S, map_app. cbn [map Nat.add]. assert (E : product a = share a (length a)).
  { induction a as [|x a IH]; [reflexivity|]. rewrite product_cons, IH. reflexivity. }
  rewrite E. f_equal. clear E. apply map_ext_in. intros n Hn. apply in_seq in Hn. destruct Hn as [_ Hn]. cbn [Nat.add] in Hn. revert n Hn. induction a as [|x a IH]; intros n Hn; [cbn in Hn; lia|]. destruct n as [|n]; cbn [nth firstn share]; [unfold product; cbn; ring|]. cbn [length] in Hn. rewrite <- IH by lia. rewrite product_cons. ring.
Qed.
Lemma share_sum : forall a, rsum (S (length a)) (share a) = 1.
Proof.
  assert (shift : forall n f, rsum (S n) f = f 0%nat + rsum n (fun i => f (S i))). { induction n as [|n IH]; intros f; [cbn [rsum]; ring|]. cbn [rsum] in *. rewrite IH. ring. }
  induction a as [|x a IH]; [cbn [rsum length share]; ring|]. cbn [length]. rewrite shift. cbn [share]. rewrite rsum_scale, IH. ring.
Qed.
Lemma share_range : forall a, (forall x, In x a -> fraction x) -> forall j, fraction (share a j).
Proof.
  unfold fraction. induction a as [|x a IH]; intros H j; [destruct j; cbn [share]; lra|]. pose proof (H x (or_introl eq_refl)). destruct j as [|j]; cbn [share]; [lra|]. pose proof (IH (fun y Hy => H y (or_intror Hy)) j). nra.
Qed.
(* equal shares by default *)
Lemma defaults_S : forall n, splitter_defaults (S n) = (1 - 1 / INR (n + 2)) :: splitter_defaults n.
Proof. intros n. unfold splitter_defaults. rewrite seq_S, rev_app_distr. reflexivity. Qed.
Lemma defaults_length : forall n, length (splitter_defaults n) = n.
Proof. intros n. unfold splitter_defaults. rewrite map_length, rev_length, seq_length. reflexivity. Qed.
Lemma defaults_share : forall n j, (j <= n)%nat -> share (splitter_defaults n) j = 1 / INR (n + 1).
Proof.
  induction n as [|n IH]; intros j Hj; [assert (j = 0)%nat by lia; subst; cbn [splitter_defaults share]; unfold splitter_defaults; cbn; field|].
  rewrite defaults_S. assert (P : 0 < INR (n + 1)) by (apply INR_pos; lia). replace (S n + 1)%nat with (n + 2)%nat by lia. replace (INR (n + 2)) with (INR (n + 1) + 1) by (rewrite <- S_INR; f_equal; lia). destruct j as [|j]; cbn [share]; [field; lra|]. rewrite IH by lia. field. lra.
Qed.
Lemma defaults_range : forall n x, In x (splitter_defaults n) -> fraction x.
Proof.
  intros n x H. unfold splitter_defaults in H. apply in_map_iff in H. destruct H as (i & <- & _). unfold fraction. assert (1 <= INR (i + 2)) by (replace 1 with (INR 1) by reflexivity; apply le_INR; lia). assert (0 < 1 / INR (i + 2) <= 1); [|lra]. split; [apply Rdiv_lt_0_compat; lra|]. apply (Rmult_le_reg_r (INR (i + 2))); [lra|]. unfold Rdiv. rewrite Rmult_assoc, Rinv_l by lra. lra.
Qed.
(* the defaults written to the store of the optimiser's model are these *)
Definition number (v : pval) : R := match v with Num q => Q2R q | _ => 0 end.
Lemma defaults_store : forall n, map number (split_default n) = splitter_defaults n.
Proof.
  intros n. unfold split_default, splitter_defaults. rewrite map_map. rewrite <- (seq_shift _ 1), <- seq_shift, !map_map. rewrite <- !map_rev, !map_map. apply map_ext. intros i. cbn [number]. rewrite Q2R_minus. unfold Q2R. cbn [Qnum Qden]. replace (i + 2)%nat with (S (S i)) by lia. rewrite <- (positive_nat_Z (Pos.of_nat (S (S i)))). rewrite Nat2Pos.id by lia. rewrite <- INR_IZR_INZ. unfold Rdiv. rewrite Rinv_1. ring.
Qed.

(** ** The fields at the outputs *)

Lemma splitter_rows_ok : forall a n_in n_out, length a = (n_out - 1)%nat -> (1 <= n_out)%nat ->
  splitter_rows a n_in n_out = Ok (tabulate n_out (fun j => tabulate n_in (fun i => Cmul (RtoC (sqrt (share a j) / sqrt (INR n_out))) (cis (- (2 * PI) * (INR i / INR n_in + INR j / INR n_out)))))).
Proof.
  intros a n_in n_out La Hn. unfold splitter_rows. rewrite weights_share, La. replace (S (n_out - 1)) with n_out by lia. rewrite broadcast_same by (rewrite tabulate_length, seq_length; reflexivity). f_equal.
  assert (X : forall (f : nat -> R) l, combine (map f l) l = map (fun j => (f j, j)) l) by (intros f l; induction l as [|b l IH]; [reflexivity|]; cbn [map combine]; rewrite IH; reflexivity).
  change (tabulate n_out (share a)) with (map (share a) (seq 0 n_out)). rewrite X, map_map. reflexivity.
Qed.
Lemma splitter_ok : forall a n_in n_out states N, length a = (n_out - 1)%nat -> (1 <= n_out)%nat -> (1 <= n_in)%nat -> length states = n_in -> (forall s, In s states -> length s = N) ->
  exists outs, splitter a n_in n_out states = Ok outs /\ length outs = n_out /\ (forall o, In o outs -> length o = N) /\
    forall j t, (j < n_out)%nat -> (t < N)%nat -> nth t (nth j outs []) C0 = Cmul (Cmul (RtoC (sqrt (share a j) / sqrt (INR n_out))) (cis (- (2 * PI * INR j / INR n_out)))) (superposed n_in states t).
Proof.
  intros a n_in n_out states N La Ho Hi Ls HN. unfold splitter. rewrite (splitter_rows_ok a n_in n_out La Ho). cbn [bind]. destruct states as [|s0 r]; [cbn in Ls; lia|].
  assert (L0 : length s0 = N) by (apply HN; left; reflexivity).
  assert (F : forallb (fun s => Nat.eqb (length s) (length s0)) (s0 :: r) = true). { apply forallb_forall. intros s Hs. rewrite L0, (HN s Hs). apply Nat.eqb_refl. }
  rewrite F. cbn [negb]. rewrite Ls, Nat.eqb_refl. cbn [negb]. eexists; split; [reflexivity|]. split; [rewrite map_length; apply tabulate_length|]. rewrite L0. split.
  - intros o Ho'. apply in_map_iff in Ho'. destruct Ho' as (row & <- & _). apply tabulate_length.
  - intros j t Hj Ht. unfold tabulate at 2. rewrite map_map.
    match goal with |- nth t (nth j ?l []) C0 = _ => match l with map ?f (seq 0 n_out) => change l with (tabulate n_out f) end end.
    rewrite (tabulate_nth n_out) by exact Hj. rewrite (tabulate_nth N) by exact Ht. unfold superposed. rewrite <- csum_scale. apply csum_ext. intros i Hi'. rewrite tabulate_nth by exact Hi'.
    replace (- (2 * PI) * (INR i / INR n_in + INR j / INR n_out)) with (- (2 * PI * INR j / INR n_out) + - (2 * PI * INR i / INR n_in)) by (unfold Rdiv; ring). rewrite cis_add. ring.
Qed.

Lemma total_power_sum : forall outs t, total_power outs t = rsum (length outs) (fun j => sample_power (nth j outs []) t).
Proof.
  intros outs t. unfold total_power. induction outs as [|a x IH] using rev_ind; [reflexivity|]. rewrite app_length. cbn [length]. rewrite Nat.add_1_r. cbn [rsum]. rewrite app_nth2, Nat.sub_diag by lia. cbn [nth].
  rewrite (rsum_ext (length x) _ (fun i => sample_power (nth i x []) t)) by (intros i Hi; rewrite app_nth1 by exact Hi; reflexivity). rewrite <- IH. rewrite fold_right_app. cbn [fold_right].
  clear IH. induction x as [|b x IH]; cbn [fold_right]; [ring|]. rewrite IH. ring.
Qed.
Lemma splitter_power : forall a n_in n_out states N, length a = (n_out - 1)%nat -> (forall x, In x a -> fraction x) -> (1 <= n_out)%nat -> (1 <= n_in)%nat -> length states = n_in -> (forall s, In s states -> length s = N) ->
  exists outs, splitter a n_in n_out states = Ok outs /\ length outs = n_out /\ (forall o, In o outs -> length o = N) /\
    (forall j t, (j < n_out)%nat -> (t < N)%nat -> sample_power (nth j outs []) t = share a j * (Cnorm2 (superposed n_in states t) / INR n_out)) /\
    (forall t, (t < N)%nat -> total_power outs t = Cnorm2 (superposed n_in states t) / INR n_out).
Proof.
  intros a n_in n_out states N La Ra Ho Hi Ls HN. destruct (splitter_ok a n_in n_out states N La Ho Hi Ls HN) as (outs & E & Lo & LN & V). exists outs. split; [exact E|]. split; [exact Lo|]. split; [exact LN|].
  assert (P : 0 < INR n_out) by (apply INR_pos; lia).
  assert (A : forall j t, (j < n_out)%nat -> (t < N)%nat -> sample_power (nth j outs []) t = share a j * (Cnorm2 (superposed n_in states t) / INR n_out)).
  { intros j t Hj Ht. unfold sample_power. rewrite V by assumption. rewrite !Cnorm2_mul, Cnorm2_RtoC, cis_norm. destruct (share_range a Ra j) as [S0 _]. assert (Q : sqrt (INR n_out) <> 0) by (apply Rgt_not_eq, sqrt_lt_R0; exact P).
    replace (sqrt (share a j) / sqrt (INR n_out) * (sqrt (share a j) / sqrt (INR n_out))) with (sqrt (share a j) * sqrt (share a j) / (sqrt (INR n_out) * sqrt (INR n_out))) by (field; exact Q). rewrite !sqrt_sqrt by lra. field. lra. }
  split; [exact A|]. intros t Ht. rewrite total_power_sum, Lo. rewrite (rsum_ext n_out _ (fun j => Cnorm2 (superposed n_in states t) / INR n_out * share a j)) by (intros j Hj; rewrite A by assumption; ring). rewrite rsum_scale. pose proof (share_sum a) as S1. rewrite La in S1. replace (S (n_out - 1)) with n_out in S1 by lia. rewrite S1. ring.
Qed.
Lemma superposed_one : forall s t, superposed 1 [s] t = nth t s C0.
Proof. intros s t. unfold superposed. cbn [csum nth]. replace (- (2 * PI * INR 0 / INR 1)) with 0 by (cbn [INR]; field). rewrite cis_0. ring. Qed.
Lemma superposed_bound : forall n_in states t, length states = n_in -> Cnorm2 (superposed n_in states t) <= INR n_in * total_power states t.
Proof.
  intros n_in states t L. unfold superposed. eapply Rle_trans; [apply cauchy_sum|]. rewrite total_power_sum, L. apply Rmult_le_compat_l; [apply pos_INR|]. right. apply rsum_ext. intros i Hi. rewrite Cnorm2_mul, cis_norm. unfold sample_power. ring.
Qed.
