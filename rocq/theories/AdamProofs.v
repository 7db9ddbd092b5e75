(** Proofs about bounded Adam. *)
From Coq Require Import List Arith Bool QArith Lia Lqa.
From Verif Require Import Base FloatModel FloatArith AdamModel AdamSpec.
Import ListNotations.
Local Open Scope nat_scope.

Lemma zip_length : forall f a b c, zip_with f a b = Ok c -> length a = length b /\ length c = length a.
Proof.
  intros f. induction a as [|x a IH]; intros [|y b] c E; try discriminate; [injection E as <-; auto|]. cbn [zip_with] in E. destruct (zip_with f a b) as [l|] eqn:Z; [|discriminate]. cbn [bind] in E. injection E as <-.
  destruct (IH _ _ Z) as [H1 H2]. cbn [length]. lia.
Qed.
Lemma zip_nth : forall f a b c j x y, zip_with f a b = Ok c -> nth_error a j = Some x -> nth_error b j = Some y -> nth_error c j = Some (f x y).
Proof.
  intros f. induction a as [|x a IH]; intros [|y b] c j u w E Ha Hb; try discriminate; [destruct j; discriminate|]. cbn [zip_with] in E. destruct (zip_with f a b) as [l|] eqn:Z; [|discriminate]. cbn [bind] in E. injection E as <-.
  destruct j as [|j]; cbn [nth_error] in *; [congruence|]. exact (IH _ _ _ _ _ Z Ha Hb).
Qed.
Lemma zip_total : forall f a b, length a = length b -> exists c, zip_with f a b = Ok c.
Proof.
  intros f. induction a as [|x a IH]; intros [|y b] L; try discriminate; [exists []; reflexivity|]. injection L as L. destruct (IH b L) as (c & E). cbn [zip_with]. rewrite E. eexists. reflexivity.
Qed.
Lemma nth_some : forall (A : Type) (l : list A) j, j < length l -> exists a, nth_error l j = Some a.
Proof. intros A l j H. apply nth_error_Some in H. destruct (nth_error l j) as [a|]; [exists a; reflexivity|congruence]. Qed.

Lemma clip_one : forall x l u, (l <= u)%Q -> np_min (np_max x (Fin l)) (Fin u) = NaN /\ x = NaN \/ exists q, np_min (np_max x (Fin l)) (Fin u) = Fin q /\ (l <= q)%Q /\ (q <= u)%Q.
Proof.
  intros x l u H. destruct x as [q| | |]; [| | |left; auto]; right.
  - cbn [np_max fltb]. destruct (Qle_bool l q) eqn:B; cbn [negb np_min fltb].
    + apply Qle_bool_iff in B. destruct (Qle_bool q u) eqn:C; cbn [negb].
      * apply Qle_bool_iff in C. exists q. auto.
      * exists u. split; [reflexivity|]. split; [exact H|apply Qle_refl].
    + destruct (Qle_bool l u) eqn:C; cbn [negb].
      * exists l. split; [reflexivity|]. split; [apply Qle_refl|exact H].
      * exfalso. apply (proj2 (Qle_bool_iff l u)) in H. congruence.
  - cbn [np_max fltb np_min]. exists u. split; [reflexivity|]. split; [exact H|apply Qle_refl].
  - cbn [np_max fltb np_min]. destruct (Qle_bool l u) eqn:C; cbn [negb].
    + exists l. split; [reflexivity|]. split; [apply Qle_refl|exact H].
    + exfalso. apply (proj2 (Qle_bool_iff l u)) in H. congruence.
Qed.

(* the shrunk bounds *)
Definition tenth8 : Q := 1 # 100000000.
Lemma bounds_facts : forall lower upper delta lo hi, box lower upper -> margin lower upper = Ok delta -> zip_with fadd lower delta = Ok lo -> zip_with fsub upper delta = Ok hi ->
  length lo = length lower /\ length hi = length lower /\
  forall j, j < length lower -> exists l u l' u', nth_error lower j = Some (Fin l) /\ nth_error upper j = Some (Fin u) /\ nth_error lo j = Some (Fin l') /\ nth_error hi j = Some (Fin u') /\ (l' == l + (u - l) * tenth8)%Q /\ (u' == u - (u - l) * tenth8)%Q /\ (l' <= u')%Q.
Proof.
  intros lower upper delta lo hi [Len B] M L H. destruct (zip_length _ _ _ _ M) as [M1 M2]. destruct (zip_length _ _ _ _ L) as [L1 L2]. destruct (zip_length _ _ _ _ H) as [H1 H2].
  split; [lia|]. split; [lia|]. intros j Hj. destruct (nth_some _ lower j Hj) as (a & Ea). destruct (nth_some _ upper j ltac:(lia)) as (b & Eb). destruct (B j a b Ea Eb) as (l & u & -> & -> & Le).
  pose proof (zip_nth _ _ _ _ _ _ _ M Eb Ea) as Ed. cbn [fsub fopp fadd fmul] in Ed. pose proof (zip_nth _ _ _ _ _ _ _ L Ea Ed) as El. pose proof (zip_nth _ _ _ _ _ _ _ H Eb Ed) as Eh. cbn [fsub fopp fadd] in El, Eh.
  exists l, u. eexists _, _. split; [exact Ea|]. split; [exact Eb|]. split; [exact El|]. split; [exact Eh|]. unfold tenth8. split; [lra|]. split; lra.
Qed.
Lemma bounds_exist : forall lower upper, length lower = length upper -> exists delta lo hi, margin lower upper = Ok delta /\ zip_with fadd lower delta = Ok lo /\ zip_with fsub upper delta = Ok hi.
Proof.
  intros lower upper L. unfold margin. destruct (zip_total (fun u l => fmul (fsub u l) (Fin (1 # 100000000))) upper lower (eq_sym L)) as (d & Ed). destruct (zip_length _ _ _ _ Ed) as [_ Ld].
  destruct (zip_total fadd lower d ltac:(lia)) as (lo & El). destruct (zip_total fsub upper d ltac:(lia)) as (hi & Eh). exists d, lo, hi. auto.
Qed.

Section Loop.
Variable root : fl -> fl.
Variable norm : arr -> fl.
Variable grad : arr -> res arr.
Variable st : settings.
Variable lower upper lo hi delta : arr.
Hypothesis bx : box lower upper.
Hypothesis Hd : margin lower upper = Ok delta.
Hypothesis Hl : zip_with fadd lower delta = Ok lo.
Hypothesis Hh : zip_with fsub upper delta = Ok hi.

Definition safe (x : arr) : Prop := length x = length lower /\ forall j, j < length lower -> nth_error x j = Some NaN \/ within tenth8 lower upper x j.

Lemma clip_safe : forall x y, clip x lo hi = Ok y -> safe y /\ length x = length lower.
Proof.
  intros x y E. unfold clip in E. destruct (zip_with np_max x lo) as [z|] eqn:Z; [|discriminate]. cbn [bind] in E. destruct (bounds_facts _ _ _ _ _ bx Hd Hl Hh) as (L1 & L2 & F). destruct (zip_length _ _ _ _ Z) as [Z1 Z2]. destruct (zip_length _ _ _ _ E) as [E1 E2].
  split; [|lia]. split; [lia|]. intros j Hj. destruct (F j Hj) as (l & u & l' & u' & N1 & N2 & N3 & N4 & Q1 & Q2 & Le). destruct (nth_some _ x j ltac:(lia)) as (a & Na).
  pose proof (zip_nth _ _ _ _ _ _ _ Z Na N3) as Nz. pose proof (zip_nth _ _ _ _ _ _ _ E Nz N4) as Ny. destruct (clip_one a l' u' Le) as [[C _]|(q & C & Q3 & Q4)]; rewrite C in Ny; [left; exact Ny|right].
  exists l, u, q. split; [exact N1|]. split; [exact N2|]. split; [exact Ny|]. split; [rewrite <- Q1; exact Q3|rewrite <- Q2; exact Q4].
Qed.

Lemma loop_cases : forall todo i x m v y k m' v', adam_loop root norm grad st lo hi todo i x m v = Ok (y, k, m', v') ->
  (todo = 0 /\ y = x /\ k = a_iters st /\ m' = m /\ v' = v) \/ (0 < todo /\ safe y /\ (k = a_iters st \/ (i <= k /\ k < i + todo))).
Proof.
  induction todo as [|t IH]; intros i x m v y k m' v' E; cbn [adam_loop] in E; [injection E as <- <- <- <-; left; auto|].
  destruct (grad x) as [g|]; [|discriminate]. cbn [bind] in E. destruct (moment1 st g m) as [m1|]; [|discriminate]. cbn [bind] in E. destruct (moment2 st g v) as [v1|]; [|discriminate]. cbn [bind] in E.
  destruct (the_step root st i m1 v1) as [d|]; [|discriminate]. cbn [bind] in E. destruct (zip_with fsub x d) as [x1|]; [|discriminate]. cbn [bind] in E. destruct (period st =? 0); [discriminate|].
  destruct (clip x1 lo hi) as [z|] eqn:C; [|discriminate]. cbn [bind] in E. destruct (clip_safe _ _ C) as [Sz _]. right. split; [lia|].
  destruct ((i mod period st =? period st - 1) && fltb (norm d) (a_thresh st)); [injection E as <- <- <- <-; split; [exact Sz|right; lia]|].
  destruct (IH _ _ _ _ _ _ _ _ E) as [(-> & -> & -> & _)|(_ & S' & K)]; [split; [exact Sz|left; reflexivity]|]. split; [exact S'|]. destruct K; [auto|right; lia].
Qed.

(* gradients that agree on the start vector and inside the box are indistinguishable *)
Lemma loop_agree : forall grad', (forall x, safe x -> grad x = grad' x) -> forall todo i x m v, grad x = grad' x ->
  adam_loop root norm grad st lo hi todo i x m v = adam_loop root norm grad' st lo hi todo i x m v.
Proof.
  intros grad' A. induction todo as [|t IH]; intros i x m v Ex; cbn [adam_loop]; [reflexivity|]. rewrite Ex. destruct (grad' x) as [g|]; [|reflexivity]. cbn [bind]. destruct (moment1 st g m) as [m1|]; [|reflexivity]. cbn [bind].
  destruct (moment2 st g v) as [v1|]; [|reflexivity]. cbn [bind]. destruct (the_step root st i m1 v1) as [d|]; [|reflexivity]. cbn [bind]. destruct (zip_with fsub x d) as [x1|]; [|reflexivity]. cbn [bind].
  destruct (period st =? 0); [reflexivity|]. destruct (clip x1 lo hi) as [z|] eqn:C; [|reflexivity]. cbn [bind]. destruct ((i mod period st =? period st - 1) && fltb (norm d) (a_thresh st)); [reflexivity|]. apply IH. apply A. exact (proj1 (clip_safe _ _ C)).
Qed.

(* finite gradients *)
Hypothesis isroot : is_root root.
Variable s b1 b2 eps : Q.
Hypothesis Hs : a_step st = Fin s.
Hypothesis Hb1 : a_b1 st = Fin b1.
Hypothesis Hb2 : a_b2 st = Fin b2.
Hypothesis He : a_eps st = Fin eps.
Hypothesis R1 : (0 <= b1 < 1)%Q.
Hypothesis R2 : (0 <= b2 < 1)%Q.
Hypothesis Re : (0 < eps)%Q.
Notation n := (length lower).
Hypothesis gfin : forall x, length x = n -> all_finite x -> exists g, grad x = Ok g /\ length g = n /\ all_finite g.
Hypothesis Hp : a_period st <> Some 0.

Lemma zip_fin : forall (P Q R : fl -> Prop) f a b c, (forall x y, P x -> Q y -> R (f x y)) -> Forall P a -> Forall Q b -> zip_with f a b = Ok c -> Forall R c.
Proof.
  intros P Q R f. induction a as [|x a IH]; intros [|y b] c K Fa Fb E; try discriminate; [injection E as <-; constructor|]. cbn [zip_with] in E. destruct (zip_with f a b) as [l|] eqn:Z; [|discriminate]. cbn [bind] in E. injection E as <-.
  inversion Fa; inversion Fb; subst. constructor; [apply K; assumption|]. eapply IH; eassumption.
Qed.
Definition nonneg (a : fl) : Prop := exists q, a = Fin q /\ (0 <= q)%Q.
Lemma pow_lt : forall b k, (0 <= b < 1)%Q -> exists r, fpow (Fin b) k = Fin r /\ (0 <= r)%Q /\ (r <= 1)%Q /\ (0 < k -> (r < 1)%Q).
Proof.
  intros b k H. induction k as [|k (r & E & P0 & P1 & _)]; cbn [fpow]; [exists 1%Q; repeat split; [lra|lra|lia]|]. rewrite E. cbn [fmul]. exists (b * r)%Q. split; [reflexivity|].
  assert (X : (b * r <= b)%Q) by nra. split; [nra|]. split; [lra|]. intros _. lra.
Qed.
Lemma div_pos : forall a b, (0 < b)%Q -> fdiv (Fin a) (Fin b) = Fin (a / b).
Proof. intros a b H. cbn [fdiv]. destruct (Qeq_bool b 0) eqn:E; [|reflexivity]. apply Qeq_bool_iff in E. lra. Qed.
Lemma moment1_fin : forall g m c, all_finite g -> all_finite m -> moment1 st g m = Ok c -> all_finite c.
Proof. intros g m c Fg Fm E. unfold moment1 in E. eapply zip_fin; [|exact Fg|exact Fm|exact E]. intros x y (p & ->) (q & ->). rewrite Hb1. unfold one_less. cbn [fsub fopp fadd fmul]. eexists. reflexivity. Qed.
Lemma moment2_fin : forall g v c, all_finite g -> Forall nonneg v -> moment2 st g v = Ok c -> Forall nonneg c.
Proof.
  intros g v c Fg Fv E. unfold moment2 in E. eapply zip_fin; [|exact Fg|exact Fv|exact E]. intros x y (p & ->) (q & -> & Q0). rewrite Hb2. unfold one_less. cbn [fpow fsub fopp fadd fmul]. eexists. split; [reflexivity|].
  assert (S0 : (0 <= p * (p * 1))%Q) by nra. assert (X : (0 <= (1 + - b2) * (p * (p * 1)))%Q) by (apply Qmult_le_0_compat; [lra|exact S0]). assert (Y : (0 <= b2 * q)%Q) by (apply Qmult_le_0_compat; lra). lra.
Qed.
Lemma step_fin : forall i m v d, all_finite m -> Forall nonneg v -> the_step root st i m v = Ok d -> all_finite d.
Proof.
  intros i m v d Fm Fv E. unfold the_step in E. eapply zip_fin; [|exact Fm|exact Fv|exact E]. intros x y (p & ->) (q & -> & Q0). cbv zeta. rewrite Hb1, Hb2, Hs, He.
  destruct (pow_lt b1 (S i) R1) as (r1 & E1 & _ & _ & L1). destruct (pow_lt b2 (S i) R2) as (r2 & E2 & _ & _ & L2). rewrite E1, E2. unfold one_less. cbn [fsub fopp fadd].
  specialize (L1 ltac:(lia)). specialize (L2 ltac:(lia)). rewrite (div_pos p (1 + - r1)) by lra. rewrite (div_pos q (1 + - r2)) by lra.
  assert (N : (0 <= q / (1 + - r2))%Q) by (apply Qle_shift_div_l; lra). destruct (isroot _ N) as (w & Ew & W0). rewrite Ew. cbn [fmul fadd]. rewrite div_pos by lra. eexists. reflexivity.
Qed.
Lemma sub_fin : forall x d c, all_finite x -> all_finite d -> zip_with fsub x d = Ok c -> all_finite c.
Proof. intros x d c Fx Fd E. eapply zip_fin; [|exact Fx|exact Fd|exact E]. intros a b (p & ->) (q & ->). cbn [fsub fopp fadd]. eexists. reflexivity. Qed.
Lemma clip_fin : forall x, length x = n -> all_finite x -> exists y, clip x lo hi = Ok y /\ length y = n /\ all_finite y.
Proof.
  intros x Lx Fx. destruct (bounds_facts _ _ _ _ _ bx Hd Hl Hh) as (L1 & L2 & F). unfold clip. destruct (zip_total np_max x lo ltac:(lia)) as (z & Ez). destruct (zip_length _ _ _ _ Ez) as [_ Lz]. rewrite Ez. cbn [bind].
  destruct (zip_total np_min z hi ltac:(lia)) as (y & Ey). destruct (zip_length _ _ _ _ Ey) as [_ Ly]. exists y. split; [exact Ey|]. split; [lia|].
  apply Forall_forall. intros a I. apply In_nth_error in I as (j & Nj). assert (Hj : j < length y) by (apply nth_error_Some; congruence). destruct (F j ltac:(lia)) as (l & u & l' & u' & _ & _ & N3 & N4 & _ & _ & Le).
  destruct (nth_some _ x j ltac:(lia)) as (b & Nb). pose proof (zip_nth _ _ _ _ _ _ _ Ez Nb N3) as Nz. pose proof (zip_nth _ _ _ _ _ _ _ Ey Nz N4) as Ny. rewrite Nj in Ny. injection Ny as ->.
  destruct (clip_one b l' u' Le) as [[_ C]|(q & C & _)]; [|rewrite C; exists q; reflexivity]. subst b. apply nth_error_In in Nb. destruct (proj1 (Forall_forall _ _) Fx _ Nb) as (q & Z). discriminate.
Qed.
Lemma loop_fin : forall todo i x m v, length x = n -> length m = n -> length v = n -> all_finite x -> all_finite m -> Forall nonneg v ->
  exists y k m' v', adam_loop root norm grad st lo hi todo i x m v = Ok (y, k, m', v') /\ length y = n /\ all_finite y.
Proof.
  induction todo as [|t IH]; intros i x m v Lx Lm Lv Fx Fm Fv; cbn [adam_loop]; [exists x, (a_iters st), m, v; auto|].
  destruct (gfin x Lx Fx) as (g & Eg & Lg & Fg). rewrite Eg. cbn [bind].
  destruct (zip_total (fun g m => fadd (fmul (one_less (a_b1 st)) g) (fmul (a_b1 st) m)) g m ltac:(lia)) as (m1 & E1). fold (moment1 st g m) in E1. rewrite E1. cbn [bind]. pose proof (moment1_fin _ _ _ Fg Fm E1) as F1. apply zip_length in E1 as [_ L1].
  destruct (zip_total (fun g v => fadd (fmul (one_less (a_b2 st)) (fpow g 2)) (fmul (a_b2 st) v)) g v ltac:(lia)) as (v1 & E2). fold (moment2 st g v) in E2. rewrite E2. cbn [bind]. pose proof (moment2_fin _ _ _ Fg Fv E2) as F2. apply zip_length in E2 as [_ L2].
  assert (X : exists d, the_step root st i m1 v1 = Ok d) by (apply zip_total; lia). destruct X as (d & E3). rewrite E3. cbn [bind]. pose proof (step_fin _ _ _ _ F1 F2 E3) as F3. apply zip_length in E3 as [_ L3].
  destruct (zip_total fsub x d ltac:(lia)) as (x1 & E4). rewrite E4. cbn [bind]. pose proof (sub_fin _ _ _ Fx F3 E4) as F4. apply zip_length in E4 as [_ L4].
  destruct (Nat.eqb_spec (period st) 0) as [Z|_]; [exfalso; unfold period in Z; destruct (a_period st) as [p|]; [subst p; exact (Hp eq_refl)|discriminate]|].
  destruct (clip_fin x1 ltac:(lia) F4) as (y & Ey & Ly & Fy). rewrite Ey. cbn [bind]. destruct ((i mod period st =? period st - 1) && fltb (norm d) (a_thresh st)); [eexists _, _, _, _; split; [reflexivity|auto]|].
  apply IH; [exact Ly|lia|lia|exact Fy|exact F1|exact F2].
Qed.
End Loop.

(** ** The whole function *)
Lemma adam_inside : forall root norm grad st lower upper x m v y k m' v', box lower upper -> 0 < a_iters st ->
  adam_bounded root norm grad st lower upper x m v = Ok (y, k, m', v') ->
  length y = length lower /\ k <= a_iters st /\ forall j, j < length lower -> nth_error y j = Some NaN \/ within (1 # 100000000) lower upper y j.
Proof.
  intros root norm grad st lower upper x m v y k m' v' Bx It E. unfold adam_bounded in E. destruct (margin lower upper) as [d|] eqn:Ed; [|discriminate]. cbn [bind] in E. destruct (zip_with fadd lower d) as [lo|] eqn:El; [|discriminate]. cbn [bind] in E.
  destruct (zip_with fsub upper d) as [hi|] eqn:Eh; [|discriminate]. cbn [bind] in E. cbv zeta in E. destruct (loop_cases _ _ _ _ _ _ _ _ _ Bx Ed El Eh _ _ _ _ _ _ _ _ _ E) as [(Z & _)|(_ & (L & S') & K)]; [lia|]. split; [exact L|]. split; [lia|exact S'].
Qed.
Lemma adam_zero : forall root norm grad st lower upper x m v, length lower = length upper -> a_iters st = 0 ->
  exists m' v', adam_bounded root norm grad st lower upper x m v = Ok (x, 0, m', v').
Proof.
  intros root norm grad st lower upper x m v L It. unfold adam_bounded. destruct (bounds_exist lower upper L) as (d & lo & hi & -> & E1 & E2). cbn [bind]. rewrite E1. cbn [bind]. rewrite E2. cbn [bind]. cbv zeta. rewrite It. cbn [adam_loop]. rewrite It. eexists _, _. reflexivity.
Qed.
Lemma adam_finite : forall root norm grad st lower upper x s b1 b2 eps, box lower upper -> 0 < a_iters st -> length x = length lower -> all_finite x -> is_root root ->
  a_step st = Fin s -> a_b1 st = Fin b1 -> a_b2 st = Fin b2 -> a_eps st = Fin eps -> (0 <= b1 < 1)%Q -> (0 <= b2 < 1)%Q -> (0 < eps)%Q -> a_period st <> Some 0 ->
  (forall x, length x = length lower -> all_finite x -> exists g, grad x = Ok g /\ length g = length lower /\ all_finite g) ->
  exists y k m' v', adam_bounded root norm grad st lower upper x None None = Ok (y, k, m', v') /\ forall j, j < length lower -> within (1 # 100000000) lower upper y j.
Proof.
  intros root norm grad st lower upper x s b1 b2 eps Bx It Lx Fx Ir Hs H1 H2 He R1 R2 Re Hp G. destruct (bounds_exist lower upper (proj1 Bx)) as (d & lo & hi & Ed & El & Eh).
  assert (Fz : forall k, all_finite (zeros k)) by (intros k; apply Forall_forall; intros a I; apply repeat_spec in I; subst a; exists 0%Q; reflexivity).
  assert (Nz : forall k, Forall nonneg (zeros k)) by (intros k; apply Forall_forall; intros a I; apply repeat_spec in I; subst a; exists 0%Q; split; [reflexivity|lra]).
  destruct (loop_fin root norm grad st lower upper lo hi d Bx Ed El Eh Ir s b1 b2 eps Hs H1 H2 He R1 R2 Re G Hp (a_iters st) 0 x (zeros (length x)) (zeros (length x)) Lx) as (y & k & m' & v' & E & Ly & Fy); [rewrite <- Lx; apply repeat_length|rewrite <- Lx; apply repeat_length|exact Fx|apply Fz|apply Nz|].
  assert (A : adam_bounded root norm grad st lower upper x None None = Ok (y, k, m', v')) by (unfold adam_bounded; rewrite Ed; cbn [bind]; rewrite El; cbn [bind]; rewrite Eh; cbn [bind]; exact E).
  exists y, k, m', v'. split; [exact A|]. intros j Hj. destruct (adam_inside _ _ _ _ _ _ _ _ _ _ _ _ _ Bx It A) as (_ & _ & K). destruct (K j Hj) as [N|W]; [|exact W]. apply nth_error_In in N. destruct (proj1 (Forall_forall _ _) Fy _ N) as (q & Z). discriminate.
Qed.
Lemma adam_agree : forall root norm grad grad' st lower upper x m v, box lower upper -> grad x = grad' x ->
  (forall y, length y = length lower -> (forall j, j < length lower -> nth_error y j = Some NaN \/ within (1 # 100000000) lower upper y j) -> grad y = grad' y) ->
  adam_bounded root norm grad st lower upper x m v = adam_bounded root norm grad' st lower upper x m v.
Proof.
  intros root norm grad grad' st lower upper x m v Bx Ex A. unfold adam_bounded. destruct (bounds_exist lower upper (proj1 Bx)) as (d & lo & hi & Ed & El & Eh). rewrite Ed. cbn [bind]. rewrite El. cbn [bind]. rewrite Eh. cbn [bind]. cbv zeta.
  apply (loop_agree root norm grad st lower upper lo hi d Bx Ed El Eh); [|exact Ex]. intros y [L S']. apply A; assumption.
Qed.
