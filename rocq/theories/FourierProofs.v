(** The discrete Fourier transform: inversion and Parseval's theorem. *)
From Coq Require Import Reals Lra Lia List Arith.
From Verif Require Import Base Complex ArrayModel.
Import ListNotations.
Local Open Scope R_scope.

Lemma tabulate_length : forall {A} n (f : nat -> A), length (tabulate n f) = n.
Proof. intros A n f. unfold tabulate. rewrite map_length. apply seq_length. Qed.
Lemma tabulate_nth : forall {A} n (f : nat -> A) i d, (i < n)%nat -> nth i (tabulate n f) d = f i.
Proof. intros A n f i d H. unfold tabulate. rewrite (nth_indep _ d (f 0%nat)) by (rewrite map_length, seq_length; exact H). rewrite map_nth, seq_nth by exact H. reflexivity. Qed.
Lemma list_eq_nth : forall {A} (d : A) (l l' : list A), length l = length l' -> (forall i, (i < length l)%nat -> nth i l d = nth i l' d) -> l = l'.
Proof. intros A d l l' H E. apply (nth_ext l l' d d H E). Qed.

Lemma fft_ok : forall x y, fft x = Ok y -> length y = length x /\ (0 < length x)%nat /\
  forall k, (k < length x)%nat -> nth k y C0 = csum (length x) (fun j => Cmul (nth j x C0) (cis (- (2 * PI * INR j * INR k / INR (length x))))).
Proof.
  intros x y H. unfold fft in H. destruct x as [|a x]; [discriminate|]. injection H as <-. split; [apply tabulate_length|]. split; [cbn; lia|]. intros k Hk. rewrite tabulate_nth by exact Hk. reflexivity.
Qed.
Lemma ifft_ok : forall x y, ifft x = Ok y -> length y = length x /\ (0 < length x)%nat /\
  forall j, (j < length x)%nat -> nth j y C0 = Cmul (RtoC (/ INR (length x))) (csum (length x) (fun k => Cmul (nth k x C0) (cis (2 * PI * INR j * INR k / INR (length x))))).
Proof.
  intros x y H. unfold ifft in H. destruct x as [|a x]; [discriminate|]. injection H as <-. split; [apply tabulate_length|]. split; [cbn; lia|]. intros k Hk. rewrite tabulate_nth by exact Hk. reflexivity.
Qed.
Lemma fft_total : forall x, (0 < length x)%nat -> exists y, fft x = Ok y.
Proof. intros [|a x] H; [cbn in H; lia|]. unfold fft. eexists; reflexivity. Qed.
Lemma ifft_total : forall x, (0 < length x)%nat -> exists y, ifft x = Ok y.
Proof. intros [|a x] H; [cbn in H; lia|]. unfold ifft. eexists; reflexivity. Qed.

Lemma INR_pos : forall n, (0 < n)%nat -> 0 < INR n.
Proof. intros n H. apply lt_0_INR. exact H. Qed.

(* inverse after forward *)
Lemma ifft_fft : forall x y z, fft x = Ok y -> ifft y = Ok z -> z = x.
Proof.
  intros x y z F I. destruct (fft_ok x y F) as (L & P & V). destruct (ifft_ok y z I) as (L' & _ & W). rewrite L in L', W. set (n := length x) in *. pose proof (INR_pos n P) as Pn.
  apply (list_eq_nth C0); [rewrite L'; reflexivity|]. intros a Ha. rewrite L' in Ha. rewrite W by exact Ha.
  rewrite (csum_ext n _ (fun k => csum n (fun j => Cmul (nth j x C0) (cis (2 * PI * INR k * (INR a - INR j) / INR n))))).
  2: { intros k Hk. rewrite V by exact Hk. rewrite <- csum_scale_r. apply csum_ext. intros j Hj.
       transitivity (Cmul (nth j x C0) (Cmul (cis (- (2 * PI * INR j * INR k / INR n))) (cis (2 * PI * INR a * INR k / INR n)))); [ring|]. f_equal. rewrite <- cis_add. f_equal. field. lra. }
  rewrite csum_swap. rewrite (csum_ext n _ (fun j => Cmul (nth j x C0) (if Nat.eq_dec a j then RtoC (INR n) else C0))).
  2: { intros j Hj. rewrite csum_scale. f_equal. apply (orthogonal n a j); assumption. }
  rewrite (csum_single n a) by first [exact Ha | intros i Hi N; destruct (Nat.eq_dec a i) as [E|_]; [congruence|ring]].
  destruct (Nat.eq_dec a a) as [_|N]; [|congruence]. transitivity (Cmul (nth a x C0) (Cmul (RtoC (/ INR n)) (RtoC (INR n)))); [ring|]. rewrite RtoC_mul, Rinv_l by lra. unfold RtoC. fold C1. ring.
Qed.

(* forward after inverse *)
Lemma fft_ifft : forall x y z, ifft x = Ok y -> fft y = Ok z -> z = x.
Proof.
  intros x y z I F. destruct (ifft_ok x y I) as (L & P & V). destruct (fft_ok y z F) as (L' & _ & W). rewrite L in L', W. set (n := length x) in *. pose proof (INR_pos n P) as Pn.
  apply (list_eq_nth C0); [rewrite L'; reflexivity|]. intros a Ha. rewrite L' in Ha. rewrite W by exact Ha.
  rewrite (csum_ext n _ (fun j => csum n (fun k => Cmul (Cmul (RtoC (/ INR n)) (nth k x C0)) (cis (2 * PI * INR j * (INR k - INR a) / INR n))))).
  2: { intros j Hj. rewrite V by exact Hj. rewrite <- csum_scale, <- csum_scale_r. apply csum_ext. intros k Hk.
       transitivity (Cmul (Cmul (RtoC (/ INR n)) (nth k x C0)) (Cmul (cis (2 * PI * INR j * INR k / INR n)) (cis (- (2 * PI * INR j * INR a / INR n))))); [ring|]. f_equal. rewrite <- cis_add. f_equal. field. lra. }
  rewrite csum_swap. rewrite (csum_ext n _ (fun k => Cmul (Cmul (RtoC (/ INR n)) (nth k x C0)) (if Nat.eq_dec k a then RtoC (INR n) else C0))).
  2: { intros k Hk. rewrite csum_scale. f_equal. apply (orthogonal n k a); assumption. }
  rewrite (csum_single n a) by first [exact Ha | intros i Hi N; destruct (Nat.eq_dec i a) as [E|_]; [congruence|ring]].
  destruct (Nat.eq_dec a a) as [_|N]; [|congruence]. transitivity (Cmul (nth a x C0) (Cmul (RtoC (/ INR n)) (RtoC (INR n)))); [ring|]. rewrite RtoC_mul, Rinv_l by lra. unfold RtoC. fold C1. ring.
Qed.

Lemma RtoC_inj : forall a b, RtoC a = RtoC b -> a = b.
Proof. intros a b H. apply (f_equal fst) in H. exact H. Qed.

(* Parseval *)
Lemma parseval : forall x y, fft x = Ok y -> rsum (length x) (fun k => Cnorm2 (nth k y C0)) = INR (length x) * rsum (length x) (fun j => Cnorm2 (nth j x C0)).
Proof.
  intros x y F. destruct (fft_ok x y F) as (L & P & V). set (n := length x) in *. pose proof (INR_pos n P) as Pn. apply RtoC_inj. rewrite <- RtoC_mul, <- !csum_RtoC.
  rewrite (csum_ext n _ (fun k => csum n (fun j => csum n (fun l => Cmul (Cmul (nth j x C0) (Cconj (nth l x C0))) (cis (2 * PI * INR k * (INR l - INR j) / INR n)))))).
  2: { intros k Hk. rewrite <- Cnorm2_conj. rewrite V by exact Hk. rewrite csum_conj, <- csum_scale_r. apply csum_ext. intros j Hj. rewrite <- csum_scale. apply csum_ext. intros l Hl. rewrite Cconj_mul, cis_conj.
       transitivity (Cmul (Cmul (nth j x C0) (Cconj (nth l x C0))) (Cmul (cis (- (2 * PI * INR j * INR k / INR n))) (cis (- - (2 * PI * INR l * INR k / INR n))))); [ring|]. f_equal. rewrite <- cis_add. f_equal. field. lra. }
  rewrite csum_swap. rewrite <- csum_scale. apply csum_ext. intros j Hj. rewrite csum_swap.
  rewrite (csum_ext n _ (fun l => Cmul (Cmul (nth j x C0) (Cconj (nth l x C0))) (if Nat.eq_dec l j then RtoC (INR n) else C0))).
  2: { intros l Hl. rewrite csum_scale. f_equal. apply (orthogonal n l j); assumption. }
  rewrite (csum_single n j) by first [exact Hj | intros i Hi N; destruct (Nat.eq_dec i j) as [E|_]; [congruence|ring]].
  destruct (Nat.eq_dec j j) as [_|N]; [|congruence]. rewrite Cnorm2_conj. ring.
Qed.
Lemma parseval_inv : forall x y, ifft x = Ok y -> rsum (length x) (fun k => Cnorm2 (nth k x C0)) = INR (length x) * rsum (length x) (fun j => Cnorm2 (nth j y C0)).
Proof.
  intros x y I. destruct (ifft_ok x y I) as (L & P & _). destruct (fft_total y ltac:(lia)) as (z & F). pose proof (fft_ifft x y z I F) as E. subst z. pose proof (parseval y x F) as H. rewrite L in H. exact H.
Qed.

(** ** The sum of the powers of a list *)
Lemma list_energy : forall (x : list C), fold_right (fun z e => Cnorm2 z + e) 0 x = rsum (length x) (fun i => Cnorm2 (nth i x C0)).
Proof.
  intros x. induction x as [|a x IH] using rev_ind; [reflexivity|]. rewrite app_length. cbn [length]. rewrite Nat.add_1_r. cbn [rsum]. rewrite app_nth2, Nat.sub_diag by lia. cbn [nth].
  rewrite (rsum_ext (length x) _ (fun i => Cnorm2 (nth i x C0))) by (intros i Hi; rewrite app_nth1 by exact Hi; reflexivity). rewrite <- IH. rewrite fold_right_app. cbn [fold_right].
  clear IH. induction x as [|b x IH]; cbn [fold_right]; [ring|]. rewrite IH. ring.
Qed.
