(** Complex numbers over the standard library's reals, with finite sums. *)
From Coq Require Import Reals Lra Lia List Arith Ring.
Local Open Scope R_scope.

Definition C : Type := (R * R)%type.
Definition re (z : C) : R := fst z.
Definition im (z : C) : R := snd z.
Definition RtoC (x : R) : C := (x, 0).
Definition C0 : C := (0, 0).
Definition C1 : C := (1, 0).
Definition Cadd (a b : C) : C := (re a + re b, im a + im b).
Definition Copp (a : C) : C := (- re a, - im a).
Definition Csub (a b : C) : C := Cadd a (Copp b).
Definition Cmul (a b : C) : C := (re a * re b - im a * im b, re a * im b + im a * re b).
Definition Cconj (a : C) : C := (re a, - im a).
(* the square of the absolute value *)
Definition Cnorm2 (a : C) : R := re a * re a + im a * im a.
(* exp(i x) *)
Definition cis (x : R) : C := (cos x, sin x).

Declare Scope C_scope.
Delimit Scope C_scope with C.
Notation "a + b" := (Cadd a b) : C_scope.
Notation "a * b" := (Cmul a b) : C_scope.
Notation "a - b" := (Csub a b) : C_scope.
Notation "- a" := (Copp a) : C_scope.

Ltac cplx := unfold Csub, Cadd, Cmul, Copp, Cconj, Cnorm2, RtoC, C0, C1, re, im; repeat match goal with z : C |- _ => destruct z as [? ?] end; cbn [fst snd].

Lemma C_ring : ring_theory C0 C1 Cadd Cmul Csub Copp (@eq C).
Proof. split; intros; cplx; f_equal; ring. Qed.
Add Ring Cring : C_ring.

Lemma Cnorm2_mul : forall a b, Cnorm2 (Cmul a b) = Cnorm2 a * Cnorm2 b.
Proof. intros a b. cplx. ring. Qed.
Lemma Cnorm2_nonneg : forall a, 0 <= Cnorm2 a.
Proof. intros [x y]. unfold Cnorm2, re, im. cbn. nra. Qed.
Lemma Cnorm2_zero : forall a, Cnorm2 a = 0 -> a = C0.
Proof. intros [x y] H. unfold Cnorm2, re, im in H. cbn in H. assert (x = 0) by nra. assert (y = 0) by nra. subst. reflexivity. Qed.
Lemma Cnorm2_conj : forall a, Cmul a (Cconj a) = RtoC (Cnorm2 a).
Proof. intros a. cplx. f_equal; ring. Qed.
Lemma Cnorm2_RtoC : forall x, Cnorm2 (RtoC x) = x * x.
Proof. intros x. cplx. ring. Qed.
Lemma Cnorm2_conj_same : forall a, Cnorm2 (Cconj a) = Cnorm2 a.
Proof. intros a. cplx. ring. Qed.
Lemma C_integral : forall a b, Cmul a b = C0 -> a = C0 \/ b = C0.
Proof. intros a b H. assert (N : Cnorm2 a * Cnorm2 b = 0) by (rewrite <- Cnorm2_mul, H; cplx; ring). apply Rmult_integral in N. destruct N as [N|N]; apply Cnorm2_zero in N; auto. Qed.
Lemma Cconj_add : forall a b, Cconj (Cadd a b) = Cadd (Cconj a) (Cconj b).
Proof. intros a b. cplx. f_equal; ring. Qed.
Lemma Cconj_mul : forall a b, Cconj (Cmul a b) = Cmul (Cconj a) (Cconj b).
Proof. intros a b. cplx. f_equal; ring. Qed.
Lemma RtoC_mul : forall x y, Cmul (RtoC x) (RtoC y) = RtoC (x * y).
Proof. intros x y. cplx. f_equal; ring. Qed.
Lemma RtoC_add : forall x y, Cadd (RtoC x) (RtoC y) = RtoC (x + y).
Proof. intros x y. cplx. f_equal; ring. Qed.

(** ** The unit circle *)
Lemma cis_add : forall a b, cis (a + b) = Cmul (cis a) (cis b).
Proof. intros a b. unfold cis, Cmul, re, im. cbn [fst snd]. rewrite cos_plus, sin_plus. f_equal; ring. Qed.
Lemma cis_0 : cis 0 = C1.
Proof. unfold cis. rewrite cos_0, sin_0. reflexivity. Qed.
Lemma cis_norm : forall a, Cnorm2 (cis a) = 1.
Proof. intros a. unfold Cnorm2, cis, re, im. cbn [fst snd]. pose proof (sin2_cos2 a) as H. unfold Rsqr in H. lra. Qed.
Lemma cis_conj : forall a, Cconj (cis a) = cis (- a).
Proof. intros a. unfold Cconj, cis, re, im. cbn [fst snd]. rewrite cos_neg, sin_neg. reflexivity. Qed.
Lemma cis_period : forall a k, cis (a + 2 * INR k * PI) = cis a.
Proof. intros a k. unfold cis. rewrite cos_period, sin_period. reflexivity. Qed.
Lemma cis_turns : forall k, cis (2 * PI * INR k) = C1.
Proof. intros k. rewrite <- cis_0. rewrite <- (cis_period 0 k). f_equal. ring. Qed.
Lemma cis_turns_neg : forall k, cis (- (2 * PI * INR k)) = C1.
Proof. intros k. rewrite <- cis_conj, cis_turns. cplx. f_equal; ring. Qed.
Lemma cis_Z : forall z, cis (2 * PI * IZR z) = C1.
Proof.
  intros z. destruct z as [|p|p]; [rewrite Rmult_0_r; apply cis_0| |].
  - rewrite <- (INR_IZR_INZ (Pos.to_nat p)) || idtac. replace (IZR (Z.pos p)) with (INR (Pos.to_nat p)) by (rewrite INR_IZR_INZ, positive_nat_Z; reflexivity). apply cis_turns.
  - replace (IZR (Z.neg p)) with (- INR (Pos.to_nat p)) by (rewrite INR_IZR_INZ, positive_nat_Z; rewrite <- opp_IZR; reflexivity). rewrite <- Ropp_mult_distr_r. apply cis_turns_neg.
Qed.
(* not a full turn *)
Lemma cis_not_1 : forall a, 0 < a < 2 * PI -> cis a <> C1.
Proof.
  intros a H E. assert (X : cos a = 1) by (apply (f_equal fst) in E; exact E). replace a with (2 * (a / 2)) in X by field. rewrite cos_2a_sin in X. assert (S : 0 < sin (a / 2)) by (apply sin_gt_0; lra). nra.
Qed.

(** ** Sums over 0, ..., n - 1 *)
Fixpoint csum (n : nat) (f : nat -> C) : C := match n with O => C0 | S m => Cadd (csum m f) (f m) end.
Fixpoint rsum (n : nat) (f : nat -> R) : R := match n with O => 0 | S m => rsum m f + f m end.

Lemma csum_ext : forall n f g, (forall i, (i < n)%nat -> f i = g i) -> csum n f = csum n g.
Proof. induction n as [|n IH]; intros f g H; cbn [csum]; [reflexivity|]. rewrite (IH f g) by (intros; apply H; lia). rewrite H by lia. reflexivity. Qed.
Lemma rsum_ext : forall n f g, (forall i, (i < n)%nat -> f i = g i) -> rsum n f = rsum n g.
Proof. induction n as [|n IH]; intros f g H; cbn [rsum]; [reflexivity|]. rewrite (IH f g) by (intros; apply H; lia). rewrite H by lia. reflexivity. Qed.
Lemma csum_zero : forall n, csum n (fun _ => C0) = C0.
Proof. induction n as [|n IH]; cbn [csum]; [reflexivity|]. rewrite IH. ring. Qed.
Lemma csum_add : forall n f g, csum n (fun i => Cadd (f i) (g i)) = Cadd (csum n f) (csum n g).
Proof. induction n as [|n IH]; intros f g; cbn [csum]; [ring|]. rewrite IH. ring. Qed.
Lemma csum_scale : forall n c f, csum n (fun i => Cmul c (f i)) = Cmul c (csum n f).
Proof. induction n as [|n IH]; intros c f; cbn [csum]; [ring|]. rewrite IH. ring. Qed.
Lemma csum_scale_r : forall n c f, csum n (fun i => Cmul (f i) c) = Cmul (csum n f) c.
Proof. induction n as [|n IH]; intros c f; cbn [csum]; [ring|]. rewrite IH. ring. Qed.
Lemma csum_swap : forall n m f, csum n (fun i => csum m (fun j => f i j)) = csum m (fun j => csum n (fun i => f i j)).
Proof.
  induction n as [|n IH]; intros m f; cbn [csum]; [symmetry; apply csum_zero|]. rewrite IH. rewrite <- csum_add. reflexivity.
Qed.
Lemma csum_conj : forall n f, Cconj (csum n f) = csum n (fun i => Cconj (f i)).
Proof. induction n as [|n IH]; intros f; cbn [csum]; [cplx; f_equal; ring|]. rewrite Cconj_add, IH. reflexivity. Qed.
Lemma csum_const : forall n c, csum n (fun _ => c) = Cmul (RtoC (INR n)) c.
Proof. induction n as [|n IH]; intros c; cbn [csum]; [cplx; f_equal; cbn [INR]; ring|]. rewrite IH, S_INR. cplx. f_equal; ring. Qed.
Lemma csum_single : forall n a f, (a < n)%nat -> (forall i, (i < n)%nat -> i <> a -> f i = C0) -> csum n f = f a.
Proof.
  induction n as [|n IH]; intros a f Ha H; [lia|]. cbn [csum]. destruct (Nat.eq_dec a n) as [->|N].
  - rewrite (csum_ext n f (fun _ => C0)) by (intros i Hi; apply H; lia). rewrite csum_zero. ring.
  - rewrite (IH a f) by (try lia; intros; apply H; lia). rewrite (H n) by lia. ring.
Qed.
Lemma csum_RtoC : forall n f, csum n (fun i => RtoC (f i)) = RtoC (rsum n f).
Proof. induction n as [|n IH]; intros f; cbn [csum rsum]; [reflexivity|]. rewrite IH. apply RtoC_add. Qed.
Lemma rsum_scale : forall n c f, rsum n (fun i => c * f i) = c * rsum n f.
Proof. induction n as [|n IH]; intros c f; cbn [rsum]; [ring|]. rewrite IH. ring. Qed.
Lemma rsum_add : forall n f g, rsum n (fun i => f i + g i) = rsum n f + rsum n g.
Proof. induction n as [|n IH]; intros f g; cbn [rsum]; [ring|]. rewrite IH. ring. Qed.
Lemma rsum_le : forall n f g, (forall i, (i < n)%nat -> f i <= g i) -> rsum n f <= rsum n g.
Proof. induction n as [|n IH]; intros f g H; cbn [rsum]; [lra|]. assert (A : rsum n f <= rsum n g) by (apply IH; intros; apply H; lia). assert (B : f n <= g n) by (apply H; lia). lra. Qed.
Lemma rsum_nonneg : forall n f, (forall i, (i < n)%nat -> 0 <= f i) -> 0 <= rsum n f.
Proof. induction n as [|n IH]; intros f H; cbn [rsum]; [lra|]. assert (0 <= rsum n f) by (apply IH; intros; apply H; lia). assert (0 <= f n) by (apply H; lia). lra. Qed.
Lemma rsum_const : forall n c, rsum n (fun _ => c) = INR n * c.
Proof. induction n as [|n IH]; intros c; cbn [rsum]; [cbn [INR]; ring|]. rewrite IH, S_INR. ring. Qed.

(** ** Roots of unity *)
Lemma geometric : forall n t, Cmul (csum n (fun k => cis (INR k * t))) (Csub (cis t) C1) = Csub (cis (INR n * t)) C1.
Proof.
  induction n as [|n IH]; intros t; cbn [csum]; [cbn [INR]; rewrite Rmult_0_l, cis_0; ring|].
  replace (INR (S n) * t) with (INR n * t + t) by (rewrite S_INR; ring). rewrite cis_add.
  transitivity (Cadd (Cmul (csum n (fun k => cis (INR k * t))) (Csub (cis t) C1)) (Cmul (cis (INR n * t)) (Csub (cis t) C1))); [ring|]. rewrite IH. ring.
Qed.
(* the n-th roots of unity cancel unless the angle is a full turn *)
Lemma roots_cancel : forall n z, (0 < n)%nat -> (0 < Z.abs z < Z.of_nat n)%Z -> csum n (fun k => cis (INR k * (2 * PI * IZR z / INR n))) = C0.
Proof.
  intros n z Hn Hz. assert (Pn : 0 < INR n) by (apply lt_0_INR; exact Hn). pose proof (geometric n (2 * PI * IZR z / INR n)) as G.
  replace (INR n * (2 * PI * IZR z / INR n)) with (2 * PI * IZR z) in G by (field; lra). rewrite cis_Z in G. replace (Csub C1 C1) with C0 in G by ring.
  apply C_integral in G. destruct G as [G|G]; [exact G|]. exfalso.
  assert (E : cis (2 * PI * IZR z / INR n) = C1) by (replace (cis (2 * PI * IZR z / INR n)) with (Cadd (Csub (cis (2 * PI * IZR z / INR n)) C1) C1) by ring; rewrite G; ring).
  pose proof PI_RGT_0 as Pp. assert (Rn : INR n = IZR (Z.of_nat n)) by apply INR_IZR_INZ.
  destruct (Z_lt_le_dec 0 z) as [P|P].
  - assert (0 < IZR z) by (apply IZR_lt; lia). assert (IZR z < INR n) by (rewrite Rn; apply IZR_lt; lia).
    apply (cis_not_1 (2 * PI * IZR z / INR n)); [|exact E]. split; [apply Rdiv_lt_0_compat; nra|]. apply (Rmult_lt_reg_r (INR n)); [exact Pn|]. replace (2 * PI * IZR z / INR n * INR n) with (2 * PI * IZR z) by (field; lra). nra.
  - assert (IZR z < 0) by (apply IZR_lt; lia). assert (- INR n < IZR z) by (rewrite Rn, <- opp_IZR; apply IZR_lt; lia).
    apply (cis_not_1 (2 * PI * IZR z / INR n + 2 * PI)); [|rewrite <- E; rewrite <- (cis_period (2 * PI * IZR z / INR n) 1); f_equal; cbn [INR]; ring].
    assert (X : (2 * PI * IZR z / INR n + 2 * PI) * INR n = 2 * PI * (IZR z + INR n)) by (field; lra).
    split; apply (Rmult_lt_reg_r (INR n)); try exact Pn; rewrite X; nra.
Qed.
Lemma orthogonal : forall n a b, (a < n)%nat -> (b < n)%nat -> csum n (fun k => cis (2 * PI * INR k * (INR a - INR b) / INR n)) = if Nat.eq_dec a b then RtoC (INR n) else C0.
Proof.
  intros n a b Ha Hb. destruct (Nat.eq_dec a b) as [->|N].
  - rewrite (csum_ext n _ (fun _ => C1)); [rewrite csum_const; ring|]. intros i _. replace (2 * PI * INR i * (INR b - INR b) / INR n) with 0 by (unfold Rdiv; ring). apply cis_0.
  - rewrite <- (roots_cancel n (Z.of_nat a - Z.of_nat b)); [|lia|lia]. apply csum_ext. intros i _. f_equal. rewrite minus_IZR, <- !INR_IZR_INZ. unfold Rdiv. ring.
Qed.

(** ** Cauchy-Schwarz *)
Lemma cauchy_sum : forall n f, Cnorm2 (csum n f) <= INR n * rsum n (fun i => Cnorm2 (f i)).
Proof.
  induction n as [|n IH]; intros f; cbn [csum rsum]; [unfold Cnorm2, C0, re, im; cbn; lra|]. rewrite S_INR. set (s := csum n f) in *. set (q := rsum n (fun i => Cnorm2 (f i))). specialize (IH f). fold s q in IH.
  assert (Hn : 0 <= INR n) by apply pos_INR. assert (Hq : 0 <= q) by (apply rsum_nonneg; intros; apply Cnorm2_nonneg).
  (* |s + z|^2 <= (n+1)(q + |z|^2) *)
  destruct s as [s1 s2], (f n) as [z1 z2]. unfold Cnorm2, Cadd, re, im in *. cbn [fst snd] in *.
  assert (A : 2 * (s1 * z1 + s2 * z2) <= q + INR n * (z1 * z1 + z2 * z2)); [|nra].
  destruct (Req_dec (INR n) 0) as [E|E]; [rewrite E in *; assert (s1 = 0) by nra; assert (s2 = 0) by nra; subst; nra|].
  assert (P : 0 < INR n) by lra. apply (Rmult_le_reg_l (INR n)); [exact P|]. pose proof (Rle_0_sqr (s1 - INR n * z1)) as H1. pose proof (Rle_0_sqr (s2 - INR n * z2)) as H2. unfold Rsqr in *. nra.
Qed.

(** ** Division, powers, products *)
Definition Ci : C := (0, 1).
Definition Cinv (a : C) : C := (re a / Cnorm2 a, - im a / Cnorm2 a).
Definition Cdiv (a b : C) : C := Cmul a (Cinv b).
Lemma Cinv_r : forall a, a <> C0 -> Cmul a (Cinv a) = C1.
Proof.
  intros a H. assert (N : Cnorm2 a <> 0) by (intros E; apply H, Cnorm2_zero, E). unfold Cinv, Cmul, C1. cbn [re im fst snd]. unfold re, im. cbn [fst snd]. destruct a as (x, y). unfold Cnorm2, re, im in *. cbn [fst snd] in *. f_equal; field; exact N.
Qed.
Lemma Cnorm2_inv : forall a, a <> C0 -> Cnorm2 (Cinv a) = / Cnorm2 a.
Proof.
  intros a H. assert (N : Cnorm2 a <> 0) by (intros E; apply H, Cnorm2_zero, E). assert (E : Cnorm2 a * Cnorm2 (Cinv a) = 1). { rewrite <- Cnorm2_mul, Cinv_r by exact H. unfold Cnorm2, C1, re, im. cbn. ring. }
  apply (Rmult_eq_reg_l (Cnorm2 a)); [|exact N]. rewrite E. field. exact N.
Qed.
Lemma Cinv_conj : forall a, Cinv (Cconj a) = Cconj (Cinv a).
Proof. intros a. unfold Cinv. rewrite Cnorm2_conj_same. unfold Cconj, re, im. cbn [fst snd]. f_equal. unfold Rdiv. ring. Qed.
Fixpoint Cpow (a : C) (n : nat) : C := match n with O => C1 | S m => Cmul a (Cpow a m) end.
Lemma cis_pow : forall a n, Cpow (cis a) n = cis (INR n * a).
Proof.
  intros a n. induction n as [|n IH]; [cbn [Cpow INR]; rewrite Rmult_0_l, cis_0; reflexivity|]. cbn [Cpow]. rewrite IH, <- cis_add. f_equal. rewrite S_INR. ring.
Qed.
Lemma Cpow_RtoC : forall x n, Cpow (RtoC x) n = RtoC (x ^ n).
Proof. intros x n. induction n as [|n IH]; [reflexivity|]. cbn [Cpow pow]. rewrite IH, RtoC_mul. reflexivity. Qed.
Lemma csum_first : forall n f, csum (S n) f = Cadd (f O) (csum n (fun i => f (S i))).
Proof. intros n f. induction n as [|n IH]; [cbn [csum]; ring|]. change (csum (S (S n)) f) with (Cadd (csum (S n) f) (f (S n))). rewrite IH. cbn [csum]. ring. Qed.
Lemma csum_rev : forall n f, csum n f = csum n (fun i => f (n - 1 - i)%nat).
Proof.
  intros n. induction n as [|n IH]; intros f; [reflexivity|]. rewrite (csum_first n (fun i => f (S n - 1 - i)%nat)). cbn [csum]. rewrite IH. replace (S n - 1 - 0)%nat with n by lia.
  rewrite (csum_ext n (fun i => f (S n - 1 - S i)%nat) (fun i => f (n - 1 - i)%nat)) by (intros i Hi; f_equal; lia). ring.
Qed.
(* the sum over the entries of a spectrum, in the order of the opposite frequencies *)
Lemma csum_mirror : forall n f, csum n f = csum n (fun k => f ((n - k) mod n)%nat).
Proof.
  intros n f. destruct n as [|m]; [reflexivity|]. rewrite !csum_first. f_equal.
  - rewrite Nat.sub_0_r, Nat.mod_same by lia. reflexivity.
  - rewrite csum_rev. apply csum_ext. intros i Hi. f_equal. rewrite Nat.mod_small by lia. lia.
Qed.
