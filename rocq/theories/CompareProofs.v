(** Proofs about the condensed comparison of parameter optimisers. *)
From Coq Require Import List Bool Arith Reals Lia Lra.
From Verif Require Import Base CompareModel CompareSpec.
Import ListNotations.
Local Open Scope R_scope.

Lemma less_spec : forall x y, less x y = true <-> x < y.
Proof. intros x y. unfold less. destruct (Rlt_dec x y); split; intros; auto; try discriminate; lra. Qed.
Lemma less_no : forall x y, less x y = false <-> y <= x.
Proof. intros x y. unfold less. destruct (Rlt_dec x y); split; intros; auto; try discriminate; lra. Qed.

Definition inc (l : log) : Prop := forall i j a b, (i < j)%nat -> nth_error l i = Some a -> nth_error l j = Some b -> fst a < fst b.
Lemma inc_tail : forall p l, inc (p :: l) -> inc l.
Proof. intros p l H i j a b L A B. exact (H (S i) (S j) a b ltac:(lia) A B). Qed.

Lemma search_spec : forall l t i a, inc l -> nth_error l i = Some a -> (fst a < t <-> (i < search l t)%nat).
Proof.
  induction l as [|p l IH]; intros t i a I A; [destruct i; discriminate|].
  unfold search. cbn [filter]. destruct (less (fst p) t) eqn:E.
  - apply less_spec in E. cbn [List.length]. destruct i as [|i].
    + injection A as <-. split; intros; [lia|exact E].
    + rewrite (IH t i a (inc_tail p l I) A). fold (search l t). split; intros; lia.
  - apply less_no in E. assert (Z : filter (fun q : R * R => less (fst q) t) l = []).
    { clear A IH. assert (All : forall q, In q l -> less (fst q) t = false).
      { intros q Hq. apply In_nth_error in Hq. destruct Hq as (j & Hj). apply less_no. pose proof (I 0%nat (S j) p q ltac:(lia) eq_refl Hj). lra. }
      clear -All. induction l as [|q l IH]; [reflexivity|]. cbn [filter]. rewrite (All q (or_introl eq_refl)). apply IH. intros x Hx. apply All. right. exact Hx. }
    rewrite Z. cbn [List.length]. split; [|lia]. intros Lt. exfalso. destruct i as [|i].
    + injection A as ->. lra.
    + pose proof (I 0%nat (S i) p a ltac:(lia) eq_refl A). lra.
Qed.

Lemma final_nth : forall (l : log) r, final_record l r <-> nth_error l (List.length l - 1) = Some r.
Proof.
  intros l r. split.
  - intros (b & ->). rewrite app_length. cbn [List.length]. rewrite nth_error_app2 by lia. replace (List.length b + 1 - 1 - List.length b)%nat with 0%nat by lia. reflexivity.
  - intros H. pose proof (nth_error_Some l (List.length l - 1)) as N. assert (List.length l - 1 < List.length l)%nat by (apply N; congruence).
    apply nth_error_split in H. destruct H as (a & b & E & L). exists a. rewrite E. rewrite E in L, H0. rewrite app_length in L, H0. cbn [List.length] in L, H0. destruct b; [reflexivity|cbn [List.length] in *; lia].
Qed.

Lemma consecutive : forall (l : log) i a b, nth_error l i = Some a -> nth_error l (S i) = Some b -> exists before after, l = before ++ a :: b :: after.
Proof.
  intros l i a b A B. apply nth_error_split in A. destruct A as (x & y & -> & L). rewrite nth_error_app2 in B by lia. replace (S i - List.length x)%nat with 1%nat in B by lia.
  destruct y as [|c y]; [discriminate|]. injection B as ->. exists x, y. reflexivity.
Qed.

Lemma log_value_in : forall l t r, in_time l -> started l t -> final_record l r -> t <= fst r -> exists v, log_value l t = Some v /\ on_line l t v.
Proof.
  intros l t r (L & _ & I) (t0 & (v0 & rest & El) & T0) F T. apply final_nth in F. unfold log_value.
  assert (F0 : nth_error l 0 = Some (t0, v0)) by (rewrite El; reflexivity). rewrite F0, F.
  set (s := search l t). set (i := Nat.min (Nat.max s 1) (List.length l - 1)).
  assert (Hi : (1 <= i < List.length l)%nat) by (unfold i; lia).
  destruct (nth_error l (i - 1)) as [lo|] eqn:A; [|apply nth_error_None in A; lia].
  destruct (nth_error l i) as [hi|] eqn:B; [|apply nth_error_None in B; lia].
  cbn [fst]. replace (less t t0) with false by (symmetry; apply less_no; exact T0). replace (less (fst r) t) with false by (symmetry; apply less_no; exact T).
  eexists. split; [reflexivity|]. destruct (consecutive l (i - 1) lo hi A ltac:(replace (S (i - 1)) with i by lia; exact B)) as (x & y & E).
  exists x, lo, hi, y. split; [exact E|].
  assert (Lo : fst lo <= t).
  { destruct (Nat.eq_dec s 0) as [Z|N].
    - assert (i - 1 = 0)%nat as Z1 by (unfold i; lia). rewrite Z1, F0 in A. injection A as <-. exact T0.
    - assert (fst lo < t) by (apply (search_spec l t (i - 1) lo I A); fold s; unfold i; lia). lra. }
  assert (Hi' : t <= fst hi).
  { destruct (Rlt_dec (fst hi) t) as [C|C]; [|lra]. apply (search_spec l t i hi I B) in C. fold s in C. exfalso.
    assert (fst r < t) by (apply (search_spec l t _ r I F); fold s; unfold i in C; lia). lra. }
  split; [split; assumption|]. assert (fst lo < fst hi) by (apply (I (i - 1)%nat i lo hi); [lia|exact A|exact B]). unfold Rdiv. ring.
Qed.
Lemma log_value_wait : forall l t, in_time l -> ~ started l t -> log_value l t = None.
Proof.
  intros l t (L & _ & I) N. unfold log_value. destruct l as [|[t0 v0] l]; [reflexivity|]. cbn [nth_error].
  destruct (nth_error _ (List.length ((t0, v0) :: l) - 1)); [|reflexivity]. destruct (nth_error _ (_ - 1)); [|reflexivity]. destruct (nth_error _ _); [|reflexivity]. cbn [fst].
  replace (less t t0) with true; [reflexivity|]. symmetry. apply less_spec. destruct (Rlt_dec t t0) as [X|X]; [exact X|]. exfalso. apply N. exists t0. split; [exists v0, l; reflexivity|lra].
Qed.

Lemma final_exists : forall l, in_time l -> exists r, final_record l r.
Proof.
  intros l (L & _). destruct (nth_error l (List.length l - 1)) as [r|] eqn:E; [exists r; apply final_nth; exact E|apply nth_error_None in E; lia].
Qed.
Lemma started_dec : forall l t, in_time l -> started l t \/ ~ started l t.
Proof.
  intros l t (L & _). destruct l as [|[t0 v0] l]; [cbn in L; lia|]. destruct (Rle_dec t0 t) as [X|X]; [left; exists t0; split; [exists v0, l; reflexivity|exact X]|].
  right. intros (t1 & (v1 & r1 & E) & T). injection E as -> _ _. contradiction.
Qed.

Lemma values_of : forall logs t, (forall l, In l logs -> in_time l) -> (forall l r, In l logs -> final_record l r -> t <= fst r) ->
  values_at t logs (numbers (map (fun l => log_value l t) logs)).
Proof.
  induction logs as [|l logs IH]; intros t I E; [constructor|]. cbn [map]. unfold numbers. cbn [flat_map]. fold (numbers (map (fun x => log_value x t) logs)).
  assert (R : values_at t logs (numbers (map (fun x => log_value x t) logs))) by (apply IH; intros; [apply I|eapply E]; try (right; eassumption); eassumption).
  pose proof (I l (or_introl eq_refl)) as Il. destruct (started_dec l t Il) as [S|S].
  - destruct (final_exists l Il) as (r & F). destruct (log_value_in l t r Il S F (E l r (or_introl eq_refl) F)) as (v & -> & O). exact (values_take t l logs v _ S O R).
  - rewrite (log_value_wait l t Il S). exact (values_wait t l logs _ S R).
Qed.

Lemma total_sum : forall vs, total vs (fold_right Rplus 0 vs).
Proof. induction vs; constructor; assumption. Qed.
Lemma fold_max : forall r x, In (fold_left Rmax r x) (x :: r) /\ forall y, In y (x :: r) -> y <= fold_left Rmax r x.
Proof.
  induction r as [|z r IH]; intros x; cbn [fold_left]; [split; [left; reflexivity|intros y [->|[]]; lra]|].
  destruct (IH (Rmax x z)) as (A & B). split.
  - destruct A as [A|A]; [|right; right; exact A]. rewrite <- A. unfold Rmax. destruct (Rle_dec x z); [right; left|left]; reflexivity.
  - intros y Hy. destruct Hy as [->|[->|Hy]]; [| |apply B; right; exact Hy]; eapply Rle_trans; try apply (B (Rmax _ _) (or_introl eq_refl)); [apply Rmax_l|apply Rmax_r].
Qed.
Lemma fold_min : forall r x, In (fold_left Rmin r x) (x :: r) /\ forall y, In y (x :: r) -> fold_left Rmin r x <= y.
Proof.
  induction r as [|z r IH]; intros x; cbn [fold_left]; [split; [left; reflexivity|intros y [->|[]]; lra]|].
  destruct (IH (Rmin x z)) as (A & B). split.
  - destruct A as [A|A]; [|right; right; exact A]. rewrite <- A. unfold Rmin. destruct (Rle_dec x z); [left|right; left]; reflexivity.
  - intros y Hy. destruct Hy as [->|[->|Hy]]; [| |apply B; right; exact Hy]; eapply Rle_trans; try apply (B (Rmin _ _) (or_introl eq_refl)); [apply Rmin_l|apply Rmin_r].
Qed.

Lemma point_shows : forall logs t, shows (point_at logs t) (numbers (map (fun l => log_value l t) logs)).
Proof.
  intros logs t. unfold point_at, nan_mean, nan_min, nan_max. destruct (numbers _) as [|v vs]; cbn [shows p_line p_low p_high]; [auto|].
  do 3 eexists. split; [reflexivity|]. split; [reflexivity|]. split; [reflexivity|]. split; [|split; [exact (fold_min vs v)|exact (fold_max vs v)]].
  exists (fold_right Rplus 0 (v :: vs)). split; [apply total_sum|]. field. apply not_0_INR. cbn [List.length]. lia.
Qed.

Lemma last_time_final : forall l r, in_time l -> final_record l r -> last_time l = Some (fst r).
Proof.
  intros l r (L & _ & I) F. unfold last_time. destruct l as [|p l]; [cbn in L; lia|]. cbn [map]. f_equal. destruct (fold_max (map fst l) (fst p)) as (A & B).
  apply Rle_antisym.
  - change (fst p :: map fst l) with (map fst (p :: l)) in A. apply in_map_iff in A. destruct A as (q & <- & Hq). apply In_nth_error in Hq. destruct Hq as (i & Hi).
    apply final_nth in F. destruct (Nat.eq_dec i (List.length (p :: l) - 1)) as [->|N]; [rewrite F in Hi; injection Hi as ->; lra|].
    assert (i < List.length (p :: l))%nat by (apply nth_error_Some; congruence). apply Rlt_le. apply (I i (List.length (p :: l) - 1)%nat q r); [lia|exact Hi|exact F].
  - apply B. change (In (fst r) (map fst (p :: l))). apply in_map. destruct F as (b & ->). apply in_or_app. right. left. reflexivity.
Qed.

Lemma lower_ends : forall logs (e0 : R), (forall l, In l logs -> in_time l) ->
  exists e, fold_left lower_end logs (Some e0) = Some e /\ e <= e0 /\ (e = e0 \/ exists l r, In l logs /\ final_record l r /\ fst r = e) /\
    forall l r, In l logs -> final_record l r -> e <= fst r.
Proof.
  induction logs as [|l logs IH]; intros e0 I; cbn [fold_left]; [exists e0; split; [reflexivity|]; split; [lra|]; split; [left; reflexivity|intros ? ? []]|].
  pose proof (I l (or_introl eq_refl)) as Il. destruct (final_exists l Il) as (r & F). unfold lower_end at 2. rewrite (last_time_final l r Il F).
  assert (U : forall r', final_record l r' -> r' = r) by (intros r' F'; apply final_nth in F, F'; congruence).
  assert (S : exists e1, (if less (fst r) e0 then Some (fst r) else Some e0) = Some e1 /\ e1 <= e0 /\ e1 <= fst r /\ (e1 = e0 \/ e1 = fst r)).
  { destruct (less (fst r) e0) eqn:C; [apply less_spec in C; exists (fst r)|apply less_no in C; exists e0]; repeat split; auto; lra. }
  destruct S as (e1 & -> & A & B & C). destruct (IH e1 ltac:(intros; apply I; right; assumption)) as (e & -> & D & G & H). exists e. split; [reflexivity|]. split; [lra|]. split.
  - destruct G as [->|(l1 & r1 & X & Y & Z)]; [|right; exists l1, r1; split; [right; exact X|auto]]. destruct C as [->| ->]; [left; reflexivity|right; exists l, r; split; [left; reflexivity|auto]].
  - intros l1 r1 [<-|X] Y; [rewrite (U r1 Y); lra|exact (H l1 r1 X Y)].
Qed.
Lemma end_time_spec : forall logs, logs <> [] -> (forall l, In l logs -> in_time l) -> exists e, end_time logs = Some e /\ first_end logs e.
Proof.
  intros [|l logs] N I; [congruence|]. pose proof (I l (or_introl eq_refl)) as Il. destruct (final_exists l Il) as (r & F). unfold end_time. cbn [fold_left]. unfold lower_end at 2. rewrite (last_time_final l r Il F).
  destruct (lower_ends logs (fst r) ltac:(intros; apply I; right; assumption)) as (e & -> & D & G & H). exists e. split; [reflexivity|]. split.
  - destruct G as [->|(l1 & r1 & X & Y & Z)]; [exists l, r; split; [left; reflexivity|auto]|exists l1, r1; split; [right; exact X|auto]].
  - intros l1 r1 [<-|X] Y; [|exact (H l1 r1 X Y)]. assert (r1 = r) by (apply final_nth in F, Y; congruence). subst. lra.
Qed.
Lemma first_end_nonneg : forall logs e, (forall l, In l logs -> in_time l) -> first_end logs e -> 0 <= e.
Proof. intros logs e I ((l & r & Hl & (b & E) & <-) & _). destruct (I l Hl) as (_ & Z & _). apply Z. rewrite E. apply in_or_app. right. left. reflexivity. Qed.

Lemma in_firstn : forall (l : log) n logs, In l (firstn n logs) -> In l logs.
Proof. intros l n logs H. rewrite <- (firstn_skipn n logs). apply in_or_app. left. exact H. Qed.

Theorem condensed_ok : forall n logs, (forall l, In l logs -> in_time l) -> (1 <= n <= List.length logs)%nat ->
  exists e pts, condensed n logs = Ok pts /\ first_end logs e /\ List.length pts = 1000%nat /\
  forall i p, nth_error pts i = Some p -> p_time p = INR i / 999 * e /\ 0 <= p_time p <= e /\
    exists vs, values_at (p_time p) (firstn n logs) vs /\ shows p vs.
Proof.
  intros n logs I L. destruct (end_time_spec logs) as (e & E & F); [intros ->; cbn in L; lia|exact I|]. exists e.
  unfold condensed. replace (Nat.ltb (List.length logs) n) with false by (symmetry; apply Nat.ltb_ge; lia). replace (Nat.eqb n 0) with false by (symmetry; apply Nat.eqb_neq; lia). rewrite E.
  eexists. split; [reflexivity|]. split; [exact F|]. split; [unfold times; rewrite !map_length; apply seq_length|].
  intros i p Hp. rewrite nth_error_map in Hp. unfold times in Hp. rewrite nth_error_map in Hp.
  destruct (nth_error (seq 0 1000) i) as [k|] eqn:K; [|discriminate]. cbn [option_map] in Hp. injection Hp as <-.
  assert (i < 1000)%nat as Hi by (rewrite <- (seq_length 1000 0); apply nth_error_Some; congruence).
  assert (k = i) as -> by (apply nth_error_nth with (d := 0%nat) in K; rewrite seq_nth in K by exact Hi; lia). clear K.
  unfold point_at at 1 2 3 4. cbn [p_time]. pose proof (first_end_nonneg logs e I F) as P.
  assert (T : INR i * (e / 999) = INR i / 999 * e) by field.
  assert (B : 0 <= INR i * (e / 999) <= e).
  { assert (0 <= INR i) by apply pos_INR. assert (INR i <= INR 999) by (apply le_INR; lia). replace (INR 999) with 999 in H0 by (rewrite INR_IZR_INZ; reflexivity). split; [apply Rmult_le_pos; lra|]. apply Rle_trans with (999 * (e / 999)); [apply Rmult_le_compat_r; lra|lra]. }
  split; [exact T|]. split; [exact B|]. eexists. split; [|apply point_shows]. apply values_of; [intros l Hl; apply I; exact (in_firstn l n logs Hl)|].
  intros l r Hl Fl. destruct F as (_ & F). specialize (F l r). eapply Rle_trans; [apply B|]. apply F; [|exact Fl]. exact (in_firstn l n logs Hl).
Qed.

Lemma on_line_between : forall l t v a b, in_time l -> on_line l t v -> (forall r, In r l -> a <= snd r <= b) -> a <= v <= b.
Proof.
  intros l t v a b (_ & _ & I) (x & p & q & y & E & (T1 & T2) & ->) H. pose proof (H p) as Hp. pose proof (H q) as Hq. rewrite E in Hp, Hq.
  assert (In p (x ++ p :: q :: y)) as Ip by (apply in_or_app; right; left; reflexivity). assert (In q (x ++ p :: q :: y)) as Iq by (apply in_or_app; right; right; left; reflexivity). specialize (Hp Ip). specialize (Hq Iq).
  assert (D : fst p < fst q).
  { apply (I (List.length x) (S (List.length x)) p q); [lia| |]; rewrite E; rewrite nth_error_app2 by lia; [rewrite Nat.sub_diag|replace (S (List.length x) - List.length x)%nat with 1%nat by lia]; reflexivity. }
  set (w := (t - fst p) / (fst q - fst p)). assert (W : 0 <= w <= 1).
  { unfold w. split; [apply Rmult_le_pos; [lra|]; apply Rlt_le, Rinv_0_lt_compat; lra|]. apply (Rmult_le_reg_r (fst q - fst p)); [lra|]. replace ((t - fst p) / (fst q - fst p) * (fst q - fst p)) with (t - fst p) by (field; lra). lra. }
  replace (snd p + w * (snd q - snd p)) with ((1 - w) * snd p + w * snd q) by ring.
  assert (A1 : (1 - w) * a <= (1 - w) * snd p) by (apply Rmult_le_compat_l; lra). assert (A2 : w * a <= w * snd q) by (apply Rmult_le_compat_l; lra).
  assert (B1 : (1 - w) * snd p <= (1 - w) * b) by (apply Rmult_le_compat_l; lra). assert (B2 : w * snd q <= w * b) by (apply Rmult_le_compat_l; lra). lra.
Qed.
Lemma values_on_line : forall t logs vs, values_at t logs vs -> forall v, In v vs -> exists l, In l logs /\ started l t /\ on_line l t v.
Proof.
  induction 1 as [|l r vs N V IH|l r v vs S O V IH]; intros x Hx; [destruct Hx| |].
  - destruct (IH x Hx) as (k & A & B). exists k. split; [right; exact A|exact B].
  - destruct Hx as [<-|Hx]; [exists l; split; [left; reflexivity|auto]|]. destruct (IH x Hx) as (k & A & B). exists k. split; [right; exact A|exact B].
Qed.
Lemma values_all : forall t logs vs, values_at t logs vs -> (forall l, In l logs -> started l t) -> Forall2 (fun l v => on_line l t v) logs vs.
Proof.
  induction 1 as [|l r vs N V IH|l r v vs S O V IH]; intros H; [constructor| |].
  - exfalso. apply N, H. left. reflexivity.
  - constructor; [exact O|]. apply IH. intros k Hk. apply H. right. exact Hk.
Qed.
Lemma values_nobody : forall t logs vs, values_at t logs vs -> (forall l, In l logs -> ~ started l t) -> vs = [].
Proof.
  induction 1 as [|l r vs N V IH|l r v vs S O V IH]; intros H; [reflexivity| |].
  - apply IH. intros k Hk. apply H. right. exact Hk.
  - exfalso. apply (H l (or_introl eq_refl)), S.
Qed.
Lemma total_unique : forall vs s, total vs s -> s = fold_right Rplus 0 vs.
Proof. induction 1 as [|x r s T IH]; [reflexivity|]. cbn. rewrite IH. reflexivity. Qed.
Lemma mean_unique : forall vs m m', vs <> [] -> mean_of vs m -> mean_of vs m' -> m = m'.
Proof.
  intros vs m m' N (s & T & E) (s' & T' & E'). apply total_unique in T, T'. subst s s'. apply (Rmult_eq_reg_r (INR (List.length vs))); [congruence|]. apply not_0_INR. destruct vs; [congruence|cbn; lia].
Qed.
Lemma sum_bounds : forall vs a b, (forall x, In x vs -> a <= x <= b) -> INR (List.length vs) * a <= fold_right Rplus 0 vs <= INR (List.length vs) * b.
Proof.
  induction vs as [|v vs IH]; intros a b H; [cbn; lra|]. cbn [List.length fold_right]. rewrite S_INR. pose proof (H v (or_introl eq_refl)). destruct (IH a b ltac:(intros; apply H; right; assumption)). lra.
Qed.
Lemma mean_between : forall vs m a b, vs <> [] -> mean_of vs m -> (forall x, In x vs -> a <= x <= b) -> a <= m <= b.
Proof.
  intros vs m a b N (s & T & E) H. apply total_unique in T. subst s. destruct (sum_bounds vs a b H) as (A & B). rewrite <- E in A, B.
  assert (P : 0 < INR (List.length vs)) by (apply lt_0_INR; destruct vs; [congruence|cbn; lia]). split; apply (Rmult_le_reg_r (INR (List.length vs))); lra.
Qed.
Lemma on_line_final : forall l r v, in_time l -> final_record l r -> on_line l (fst r) v -> v = snd r.
Proof.
  intros l r v (_ & _ & I) F (x & p & q & y & E & (T1 & T2) & ->). apply final_nth in F.
  assert (P : nth_error l (List.length x) = Some p) by (rewrite E, nth_error_app2, Nat.sub_diag by lia; reflexivity).
  assert (Q : nth_error l (S (List.length x)) = Some q) by (rewrite E, nth_error_app2 by lia; replace (S (List.length x) - List.length x)%nat with 1%nat by lia; reflexivity).
  pose proof (I _ _ p q (Nat.lt_succ_diag_r _) P Q) as D.
  assert (q = r).
  { destruct (Nat.eq_dec (S (List.length x)) (List.length l - 1)) as [Z|Z]; [rewrite Z, F in Q; congruence|]. exfalso.
    assert (S (List.length x) < List.length l)%nat by (apply nth_error_Some; congruence). pose proof (I (S (List.length x)) (List.length l - 1)%nat q r ltac:(lia) Q F). lra. }
  subst q. field. lra.
Qed.

(* logs of two records *)
Lemma on_line_two : forall a b t v, on_line [a; b] t v -> fst a <= t <= fst b /\ v = snd a + (t - fst a) / (fst b - fst a) * (snd b - snd a).
Proof.
  intros a b t v (x & p & q & y & E & T & V). destruct x as [|x0 [|x1 [|x2 x]]]; try discriminate. injection E as <- <- <-. auto.
Qed.
Lemma started_two : forall t0 v0 b t, started [(t0, v0); b] t <-> t0 <= t.
Proof.
  intros t0 v0 b t. split; [intros (t1 & (v1 & r1 & E) & T); injection E as -> _ _; exact T|intros T; exists t0; split; [exists v0, [b]; reflexivity|exact T]].
Qed.
Lemma in_time_two : forall a b, 0 <= fst a -> fst a < fst b -> in_time [a; b].
Proof.
  intros a b Z L. split; [cbn; lia|]. split; [intros r [<-|[<-|[]]]; lra|]. intros i j x y H A B. destruct i as [|[|i]]; destruct j as [|[|j]]; try lia; try discriminate; cbn in A, B; try (destruct j; discriminate); try (destruct i; discriminate). injection A as <-. injection B as <-. exact L.
Qed.
Lemma first_end_unique : forall logs e e', first_end logs e -> first_end logs e' -> e = e'.
Proof. intros logs e e' ((l & r & A & B & <-) & H) ((l' & r' & A' & B' & <-) & H'). apply Rle_antisym; [exact (H l' r' A' B')|exact (H' l r A B)]. Qed.
