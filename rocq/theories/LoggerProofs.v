(** Proofs about the optimisation log. *)
From Coq Require Import List Arith Bool ZArith QArith Lia Lqa.
From Verif Require Import Base FloatModel FloatArith LoggerModel LoggerSpec HofProofs.
Import ListNotations.
Local Open Scope nat_scope.

(* the running value of a column *)
Definition running (best : fl -> fl -> fl) (l : list fl) : fl := match l with [] => NaN | x :: r => fold_left (fun acc s => best s acc) r x end.
Definition pad (n : nat) (l : list fl) : list fl := l ++ repeat (Fin 0) (n - length l).
Definition exact_row (a : option alg) (n r : nat) (ss : list fl) : row :=
  let g := generation n r ss in mkRow a (Z.of_nat r) (Z.of_nat n) (running py_min g) (fmean (pad n g)) (running py_max g) (fvar (pad n g)).

Lemma running_snoc : forall best l x, l <> [] -> running best (l ++ [x]) = best x (running best l).
Proof. intros best [|y l] x H; [congruence|]. cbn [app running]. rewrite fold_left_app. reflexivity. Qed.

Lemma gen_old : forall n r ss x, S r * n <= length ss -> generation n r (ss ++ [x]) = generation n r ss.
Proof.
  intros n r ss x H. unfold generation. rewrite skipn_app. rewrite firstn_app. rewrite skipn_length. replace (n - (length ss - r * n)) with 0 by lia. cbn [firstn]. apply app_nil_r.
Qed.
Lemma gen_new : forall n r ss x, r * n <= length ss -> length ss < S r * n -> generation n r (ss ++ [x]) = generation n r ss ++ [x] /\ length (generation n r ss) = length ss - r * n.
Proof.
  intros n r ss x H H'. unfold generation. rewrite skipn_app. replace (r * n - length ss) with 0 by lia. cbn [skipn]. assert (L : length (skipn (r * n) ss) = length ss - r * n) by apply skipn_length.
  rewrite firstn_all2 by (rewrite app_length; cbn [length]; lia). rewrite (firstn_all2 (skipn (r * n) ss)) by lia. auto.
Qed.

Lemma row_put_same : forall k r l, row_at k (put_row k r l) = Some r.
Proof. intros k r. induction l as [|[i x] l IH]; cbn [put_row row_at]; [rewrite Z.eqb_refl; reflexivity|]. destruct (Z.eqb_spec k i) as [->|N]; cbn [row_at]; [rewrite Z.eqb_refl; reflexivity|]. destruct (Z.eqb_spec k i); [congruence|exact IH]. Qed.
Lemma row_put_other : forall k j r l, j <> k -> row_at j (put_row k r l) = row_at j l.
Proof. intros k j r l N. induction l as [|[i x] l IH]; cbn [put_row row_at]; [destruct (Z.eqb_spec j k); [congruence|reflexivity]|]. destruct (Z.eqb_spec k i) as [->|M]; cbn [row_at]; [destruct (Z.eqb_spec j i); [congruence|reflexivity]|]. rewrite IH. reflexivity. Qed.

Lemma set_nth_pad : forall (l : list fl) n x, length l < n -> set_nth (length l) x (pad n l) = Some (pad n (l ++ [x])).
Proof.
  intros l n x H. unfold pad. rewrite app_length. cbn [length]. replace (n - length l) with (S (n - (length l + 1))) by lia. generalize (n - (length l + 1)) as k. clear H n. intros k. induction l as [|y l IH]; [reflexivity|]. cbn [length app set_nth]. rewrite IH. reflexivity.
Qed.

(* the state of the logger after the scores ss of one algorithm *)
Record at_state (a : option alg) (n : nat) (off : Z) (old : list (Z * row)) (ss : list fl) (lg : logger) : Prop := {
  as_started : l_started lg = true;
  as_alg : l_alg lg = a;
  as_pop : l_pop lg = Z.of_nat n;
  as_num : l_num lg = Z.of_nat (length ss);
  as_off : l_off lg = off;
  as_scores : l_scores lg = pad n (generation n (length ss / n) ss);
  as_rows : forall r, r * n < length ss -> row_at (off + Z.of_nat r)%Z (l_rows lg) = Some (exact_row a n r ss);
  as_frame : forall k, (forall r, r * n < length ss -> k <> (off + Z.of_nat r)%Z) -> row_at k (l_rows lg) = row_at k old }.

Lemma log_one : forall a n off old ss lg x, 0 < n -> at_state a n off old ss lg -> exists lg', log_score x lg = Ok lg' /\ at_state a n off old (ss ++ [x]) lg'.
Proof.
  intros a n off old ss lg x Pn H. destruct H as [H1 H2 H3 H4 H5 H6 H7 H8]. unfold log_score, py_mod, py_div, update_extreme, py_mod. rewrite H3, H4.
  assert (Z0 : (Z.of_nat n =? 0)%Z = false) by (apply Z.eqb_neq; lia). rewrite !Z0. cbn [bind].
  set (k := length ss) in *. set (i := k mod n). set (r := k / n) in *. assert (Dm : k = n * r + i) by (apply Nat.div_mod; lia). assert (Li : i < n) by (apply Nat.mod_upper_bound; lia).
  rewrite <- Nat2Z.inj_mod, <- Nat2Z.inj_div. fold i r.
  destruct (gen_new n r ss x ltac:(unfold k in *; nia) ltac:(unfold k in *; nia)) as [G1 G2]. assert (G3 : length (generation n r ss) = i) by (rewrite G2; unfold k in *; nia).
  unfold set_entry. destruct (Z.ltb_spec (Z.of_nat i) 0); [lia|]. cbv zeta. destruct (Z.ltb_spec (Z.of_nat i) 0); [lia|]. rewrite Nat2Z.id, H6. rewrite <- G3. rewrite set_nth_pad by lia. cbn [of_option bind]. rewrite G3, H1, H5. cbn [negb].
  set (row_new := exact_row a n r (ss ++ [x])).
  assert (Ext : forall best column, (forall g, column (exact_row a n r g) = running best (generation n r g)) ->
    (if (Z.of_nat i =? 0)%Z then Ok x else do r0 <- of_option KeyError (row_at (off + Z.of_nat r)%Z (l_rows lg)); Ok (best x (column r0))) = Ok (running best (generation n r (ss ++ [x])))).
  { intros best column Hc. destruct (Z.eqb_spec (Z.of_nat i) 0) as [E|E].
    - rewrite G1. destruct (generation n r ss) as [|y l] eqn:Eg; [reflexivity|cbn [length] in G3; lia].
    - rewrite H7 by nia. cbn [of_option bind]. rewrite Hc, G1, running_snoc; [reflexivity|]. intros Eg. rewrite Eg in G3. cbn [length] in G3. lia. }
  rewrite (Ext py_min r_min (fun g => eq_refl)). cbn [bind]. rewrite (Ext py_max r_max (fun g => eq_refl)). cbn [bind]. rewrite H2. rewrite <- G1.
  eexists. split; [reflexivity|]. constructor; cbn [l_started l_alg l_pop l_num l_off l_scores l_rows]; try assumption; try reflexivity.
  - rewrite app_length. cbn [length]. fold k. lia.
  - rewrite app_length. cbn [length]. fold k. replace (Z.of_nat k + 1)%Z with (Z.of_nat (k + 1)) by lia. rewrite <- Nat2Z.inj_mod.
    destruct (Nat.eq_dec (S i) n) as [E|E].
    + assert (D1 : (k + 1) / n = S r) by (symmetry; apply (Nat.div_unique (k + 1) n (S r) 0); nia). assert (M1 : (k + 1) mod n = 0) by (symmetry; apply (Nat.mod_unique (k + 1) n (S r) 0); nia).
      rewrite D1, M1. cbn [Z.of_nat Z.eqb]. assert (Eg : generation n (S r) (ss ++ [x]) = []). { unfold generation. rewrite skipn_all2 by (rewrite app_length; cbn [length]; fold k; nia). apply firstn_nil. } rewrite Eg. unfold pad. cbn [length app]. rewrite Nat.sub_0_r, Nat2Z.id. reflexivity.
    + assert (D1 : (k + 1) / n = r) by (symmetry; apply (Nat.div_unique (k + 1) n r (S i)); nia). assert (M1 : (k + 1) mod n = S i) by (symmetry; apply (Nat.mod_unique (k + 1) n r (S i)); nia).
      rewrite D1, M1. destruct (Z.eqb_spec (Z.of_nat (S i)) 0); [lia|]. reflexivity.
  - intros q Hq. rewrite app_length in Hq. cbn [length] in Hq. fold k in Hq. destruct (Nat.eq_dec q r) as [->|N]; [apply row_put_same|]. assert (Lq : q < r) by nia. rewrite row_put_other by lia. rewrite H7 by nia. unfold exact_row. rewrite (gen_old n q ss x) by (fold k; nia). reflexivity.
  - intros q Hq. rewrite row_put_other; [apply H8|]; [intros z Hz; apply Hq; rewrite app_length; cbn [length]; fold k; lia|]. apply Hq. rewrite app_length. cbn [length]. fold k. nia.
Qed.
Lemma log_many : forall a n off old more ss lg, 0 < n -> at_state a n off old ss lg -> exists lg', log_all more lg = Ok lg' /\ at_state a n off old (ss ++ more) lg'.
Proof.
  intros a n off old more. induction more as [|x more IH]; intros ss lg Pn H; cbn [log_all]; [exists lg; rewrite app_nil_r; auto|]. destruct (log_one _ _ _ _ _ _ x Pn H) as (lg1 & E1 & H1). rewrite E1. cbn [bind]. destruct (IH _ _ Pn H1) as (lg' & E & H'). exists lg'. rewrite <- app_assoc in H'. auto.
Qed.
Lemma log_all_app : forall a b lg, log_all (a ++ b) lg = do lg' <- log_all a lg; log_all b lg'.
Proof. induction a as [|x a IH]; intros b lg; cbn [app log_all bind]; [reflexivity|]. destruct (log_score x lg) as [l|]; [|reflexivity]. cbn [bind]. apply IH. Qed.

(* setting an algorithm *)
Lemma set_facts : forall a n lg lg1, set_optimization_algorithm a (Z.of_nat n) lg = Ok lg1 ->
  a <> AlgOther /\ l_pop lg <> 0%Z /\ l_off lg1 = (l_num lg / l_pop lg)%Z /\ l_rows lg1 = l_rows lg /\ l_started lg1 = l_started lg /\ l_alg lg1 = Some a /\ l_pop lg1 = Z.of_nat n /\ l_num lg1 = 0%Z /\ l_scores lg1 = repeat (Fin 0) n.
Proof.
  intros a n lg lg1 E. unfold set_optimization_algorithm, py_div in E. destruct (Z.eqb_spec (l_pop lg) 0) as [Z|N]; [discriminate|]. cbn [bind] in E. destruct (Z.ltb_spec (Z.of_nat n) 0); [lia|].
  destruct a; try discriminate; injection E as <-; cbn; rewrite Nat2Z.id; repeat split; auto; discriminate.
Qed.
Lemma set_works : forall a n lg, a <> AlgOther -> l_pop lg <> 0%Z -> exists lg1, set_optimization_algorithm a (Z.of_nat n) lg = Ok lg1.
Proof. intros a n lg A P. unfold set_optimization_algorithm, py_div. destruct (Z.eqb_spec (l_pop lg) 0); [congruence|]. cbn [bind]. destruct (Z.ltb_spec (Z.of_nat n) 0); [lia|]. destruct a; try congruence; eexists; reflexivity. Qed.
Lemma state_start : forall a n lg lg1 lg2, set_optimization_algorithm a (Z.of_nat n) lg = Ok lg1 -> (lg2 = start_logger_time lg1 \/ lg2 = lg1 /\ l_started lg = true) ->
  at_state (Some a) n (l_num lg / l_pop lg)%Z (l_rows lg) [] lg2.
Proof.
  intros a n lg lg1 lg2 E D. destruct (set_facts _ _ _ _ E) as (_ & _ & F1 & F2 & F3 & F4 & F5 & F6 & F7).
  assert (G : pad n (generation n (length (@nil fl) / n) []) = repeat (Fin 0) n) by (unfold generation, pad; rewrite skipn_nil, firstn_nil; cbn [length app]; rewrite Nat.sub_0_r; reflexivity).
  destruct D as [->|[-> D]]; constructor; cbn [start_logger_time l_started l_alg l_pop l_num l_off l_scores l_rows length]; cbn [length] in G; try congruence; try (intros; lia).
Qed.

(* what the columns are *)
Lemma running_in : forall best l, (forall a b, best a b = a \/ best a b = b) -> l <> [] -> In (running best l) l.
Proof.
  intros best l H N. destruct l as [|x l]; [congruence|]. clear N. cbn [running]. revert x. induction l as [|y l IH]; intros x; cbn [fold_left]; [left; reflexivity|].
  destruct (H y x) as [E|E]; rewrite E; [right; apply IH|]. destruct (IH x) as [I|I]; [left; exact I|right; right; exact I].
Qed.
Lemma running_min : forall l, l <> [] -> ~ In NaN l -> least (running py_min l) l.
Proof.
  intros l N0 NN. split; [apply running_in; [intros a b; unfold py_min; destruct (fltb b a); auto|exact N0]|].
  destruct l as [|x l]; [congruence|]. clear N0. cbn [running].
  assert (X : forall l x, ~ In NaN (x :: l) -> fltb x (fold_left (fun acc s => py_min s acc) l x) = false /\ (forall y, In y l -> fltb y (fold_left (fun acc s => py_min s acc) l x) = false)).
  { clear. induction l as [|z l IH]; intros x NN; cbn [fold_left]; [split; [apply fltb_irrefl|intros y []]|].
    assert (Nx : x <> NaN) by (intros ->; apply NN; left; reflexivity). assert (Nz : z <> NaN) by (intros ->; apply NN; right; left; reflexivity).
    assert (M : py_min z x <> NaN /\ fltb x (py_min z x) = false /\ fltb z (py_min z x) = false) by (unfold py_min; destruct (fltb x z) eqn:E; repeat split; auto using fltb_irrefl, fltb_asym).
    destruct M as (M0 & M1 & M2). set (m := py_min z x) in *. assert (Nm : ~ In NaN (m :: l)) by (intros [E|I]; [congruence|apply NN; right; right; exact I]).
    destruct (IH _ Nm) as [I1 I2]. split; [exact (fltb_neg_trans _ _ _ M0 M1 I1)|]. intros y [<-|I]; [exact (fltb_neg_trans _ _ _ M0 M2 I1)|exact (I2 y I)]. }
  destruct (X l x NN) as [X1 X2]. intros y [<-|I]; [exact X1|apply X2; exact I].
Qed.
Lemma running_max : forall l, l <> [] -> ~ In NaN l -> greatest (running py_max l) l.
Proof.
  intros l N0 NN. split; [apply running_in; [intros a b; unfold py_max; destruct (fltb a b); auto|exact N0]|].
  destruct l as [|x l]; [congruence|]. clear N0. cbn [running].
  assert (X : forall l x, ~ In NaN (x :: l) -> fltb (fold_left (fun acc s => py_max s acc) l x) x = false /\ (forall y, In y l -> fltb (fold_left (fun acc s => py_max s acc) l x) y = false)).
  { clear. induction l as [|z l IH]; intros x NN; cbn [fold_left]; [split; [apply fltb_irrefl|intros y []]|].
    assert (Nx : x <> NaN) by (intros ->; apply NN; left; reflexivity). assert (Nz : z <> NaN) by (intros ->; apply NN; right; left; reflexivity).
    assert (M : py_max z x <> NaN /\ fltb (py_max z x) x = false /\ fltb (py_max z x) z = false) by (unfold py_max; destruct (fltb z x) eqn:E; repeat split; auto using fltb_irrefl, fltb_asym).
    destruct M as (M0 & M1 & M2). set (m := py_max z x) in *. assert (Nm : ~ In NaN (m :: l)) by (intros [E|I]; [congruence|apply NN; right; right; exact I]).
    destruct (IH _ Nm) as [I1 I2]. split; [exact (fltb_neg_trans _ _ _ M0 I1 M1)|]. intros y [<-|I]; [exact (fltb_neg_trans _ _ _ M0 I1 M2)|exact (I2 y I)]. }
  destruct (X l x NN) as [X1 X2]. intros y [<-|I]; [exact X1|apply X2; exact I].
Qed.
(* the mean column is the sum so far divided by the population size *)
Lemma sum_total : forall l s, total l s -> exists t, fsum l = Fin t /\ (t == s)%Q.
Proof.
  unfold fsum. assert (X : forall l s b, total l s -> exists t, fold_left fadd l (Fin b) = Fin t /\ (t == b + s)%Q).
  { induction l as [|x l IH]; intros s b H; cbn [total fold_left] in *; [exists b; split; [reflexivity|lra]|]. destruct x as [q| | |]; try contradiction. destruct H as (t & Ht & E). cbn [fadd]. destruct (IH t (b + q)%Q Ht) as (u & Eu & Qu). exists u. split; [exact Eu|lra]. }
  intros l s H. destruct (X l s 0%Q H) as (t & E & Q'). exists t. split; [exact E|lra].
Qed.
Lemma total_pad : forall l k s, total l s -> total (l ++ repeat (Fin 0) k) s.
Proof.
  induction l as [|x l IH]; intros k s H; cbn [total app] in *.
  - revert s H. induction k as [|k IH]; intros s H; cbn [repeat total]; [exact H|]. exists 0%Q. split; [apply IH; reflexivity|lra].
  - destruct x as [q| | |]; try contradiction. destruct H as (t & Ht & E). exists t. split; [apply IH; exact Ht|exact E].
Qed.
Lemma mean_column : forall n g s, 0 < n -> length g <= n -> total g s -> exists q, fmean (pad n g) = Fin q /\ (q * inject_Z (Z.of_nat n) == s)%Q.
Proof.
  intros n g s Pn L T. unfold fmean, count. assert (Lp : length (pad n g) = n) by (unfold pad; rewrite app_length, repeat_length; lia). rewrite Lp. destruct (sum_total _ _ (total_pad g (n - length g) s T)) as (t & Et & Qt). fold (pad n g) in Et. rewrite Et. cbn [fdiv].
  assert (Nz : ~ (inject_Z (Z.of_nat n) == 0)%Q) by (unfold Qeq, inject_Z; cbn [Qnum Qden]; lia). destruct (Qeq_bool (inject_Z (Z.of_nat n)) 0) eqn:B; [apply Qeq_bool_iff in B; contradiction|].
  exists (t / inject_Z (Z.of_nat n))%Q. split; [reflexivity|]. rewrite Qmult_comm, Qmult_div_r by exact Nz. exact Qt.
Qed.

(** ** Statements *)
Lemma exact_ok : forall a n r ss, 0 < n -> r * n < length ss -> row_of a n r ss (exact_row (Some a) n r ss).
Proof.
  intros a n r ss Pn H. unfold row_of, exact_row. cbv zeta. cbn [r_alg r_gen r_pop r_min r_max r_mean]. split; [reflexivity|]. split; [reflexivity|]. split; [reflexivity|].
  assert (Ne : generation n r ss <> []). { unfold generation. intros E. apply (f_equal (@length fl)) in E. rewrite firstn_length, skipn_length in E. cbn [length] in E. lia. }
  split; [intros NN; split; [apply running_min|apply running_max]; assumption|]. intros s T. apply mean_column; [exact Pn|unfold generation; apply firstn_le_length|exact T].
Qed.
Lemma rows_ok : forall a n lg lg1 lg2 scores, 0 < n -> set_optimization_algorithm a (Z.of_nat n) lg = Ok lg1 -> (lg2 = start_logger_time lg1 \/ lg2 = lg1 /\ l_started lg = true) ->
  exists lg', log_all scores lg2 = Ok lg' /\
    (forall r, r * n < length scores -> exists w, row_at (l_off lg1 + Z.of_nat r)%Z (l_rows lg') = Some w /\ row_of a n r scores w) /\
    (forall k, (forall r, r * n < length scores -> k <> (l_off lg1 + Z.of_nat r)%Z) -> row_at k (l_rows lg') = row_at k (l_rows lg)).
Proof.
  intros a n lg lg1 lg2 scores Pn E D. pose proof (state_start _ _ _ _ _ E D) as H. destruct (log_many _ _ _ _ scores _ _ Pn H) as (lg' & E' & H'). cbn [app] in H'. destruct (set_facts _ _ _ _ E) as (_ & _ & F1 & _). rewrite F1.
  exists lg'. split; [exact E'|]. split; [|exact (as_frame _ _ _ _ _ _ H')]. intros r Hr. exists (exact_row (Some a) n r scores). split; [exact (as_rows _ _ _ _ _ _ H' r Hr)|apply exact_ok; assumption].
Qed.
Lemma two_algorithms : forall a b n m ss tt, 0 < n -> 0 < m -> a <> AlgOther -> b <> AlgOther -> length ss mod n = 0 ->
  exists lg lg', (do l1 <- set_optimization_algorithm a (Z.of_nat n) new_logger; log_all ss (start_logger_time l1)) = Ok lg /\
    (do l2 <- set_optimization_algorithm b (Z.of_nat m) lg; log_all tt l2) = Ok lg' /\
    (forall r, r * n < length ss -> exists w, row_at (Z.of_nat r) (l_rows lg') = Some w /\ row_of a n r ss w) /\
    (forall r, r * m < length tt -> exists w, row_at (Z.of_nat (length ss / n + r)) (l_rows lg') = Some w /\ row_of b m r tt w) /\
    (forall k w, row_at k (l_rows lg') = Some w -> exists r, k = Z.of_nat r /\ (r * n < length ss \/ length ss / n <= r /\ (r - length ss / n) * m < length tt)).
Proof.
  intros a b n m ss tt Pn Pm Na Nb Md. destruct (set_works a n new_logger Na ltac:(discriminate)) as (l1 & E1). rewrite E1. cbn [bind]. pose proof (state_start _ _ _ _ _ E1 (or_introl eq_refl)) as H1. change (l_num new_logger / l_pop new_logger)%Z with 0%Z in H1.
  destruct (log_many _ _ _ _ ss _ _ Pn H1) as (lg & Eg & Hg). cbn [app] in Hg. rewrite Eg. assert (Np : l_pop lg <> 0%Z) by (rewrite (as_pop _ _ _ _ _ _ Hg); lia). destruct (set_works b m lg Nb Np) as (l2 & E2).
  pose proof (state_start _ _ _ _ _ E2 (or_intror (conj eq_refl (as_started _ _ _ _ _ _ Hg)))) as H2. destruct (log_many _ _ _ _ tt _ _ Pm H2) as (lg' & Eg' & Hg'). cbn [app] in Hg'.
  rewrite (as_num _ _ _ _ _ _ Hg), (as_pop _ _ _ _ _ _ Hg), <- Nat2Z.inj_div in Hg'. assert (Dv : length ss = n * (length ss / n)) by (pose proof (Nat.div_mod (length ss) n); lia).
  exists lg, lg'. split; [reflexivity|]. split; [rewrite E2; cbn [bind]; exact Eg'|]. split; [|split].
  - intros r Hr. exists (exact_row (Some a) n r ss). split; [|apply exact_ok; assumption]. rewrite (as_frame _ _ _ _ _ _ Hg'); [exact (as_rows _ _ _ _ _ _ Hg r Hr)|]. intros q _ Z. assert (r = length ss / n + q) by lia. subst r. nia.
  - intros r Hr. exists (exact_row (Some b) m r tt). split; [|apply exact_ok; assumption]. rewrite Nat2Z.inj_add. exact (as_rows _ _ _ _ _ _ Hg' r Hr).
  - intros k w Hk.
    assert (Dec : (exists r, r * m < length tt /\ k = (Z.of_nat (length ss / n) + Z.of_nat r)%Z) \/ (forall r, r * m < length tt -> k <> (Z.of_nat (length ss / n) + Z.of_nat r)%Z)).
    { destruct (Z_le_gt_dec (Z.of_nat (length ss / n)) k) as [L|L]; [|right; intros r _; lia]. destruct (Nat.lt_ge_cases ((Z.to_nat k - length ss / n) * m) (length tt)) as [C|C]; [left; exists (Z.to_nat k - length ss / n); split; [exact C|lia]|]. right. intros r Hr Z. assert (Z.to_nat k - length ss / n = r) by lia. subst r. lia. }
    destruct Dec as [(r & Hr & ->)|Dec].
    + exists (length ss / n + r). split; [lia|]. right. split; [lia|]. replace (length ss / n + r - length ss / n) with r by lia. exact Hr.
    + rewrite (as_frame _ _ _ _ _ _ Hg' k Dec) in Hk.
      assert (Dec2 : (exists r, r * n < length ss /\ k = (0 + Z.of_nat r)%Z) \/ (forall r, r * n < length ss -> k <> (0 + Z.of_nat r)%Z)).
      { destruct (Z_le_gt_dec 0 k) as [L|L]; [|right; intros r _; lia]. destruct (Nat.lt_ge_cases (Z.to_nat k * n) (length ss)) as [C|C]; [left; exists (Z.to_nat k); split; [exact C|lia]|]. right. intros r Hr Z. assert (Z.to_nat k = r) by lia. subst r. lia. }
      destruct Dec2 as [(r & Hr & ->)|Dec2]; [exists r; split; [lia|left; exact Hr]|]. rewrite (as_frame _ _ _ _ _ _ Hg k Dec2) in Hk. discriminate.
Qed.

(* errors *)
Lemma log_unset : forall x, log_score x new_logger = Err IndexError /\ log_score x (start_logger_time new_logger) = Err IndexError.
Proof. intros x. split; reflexivity. Qed.
Lemma log_not_started : forall a n lg lg1 x, 0 < n -> set_optimization_algorithm a (Z.of_nat n) lg = Ok lg1 -> l_started lg = false -> log_score x lg1 = Err TypeError.
Proof.
  intros a n lg lg1 x Pn E D. destruct (set_facts _ _ _ _ E) as (_ & _ & F1 & F2 & F3 & F4 & F5 & F6 & F7). unfold log_score, py_mod. rewrite F5, F6. destruct (Z.eqb_spec (Z.of_nat n) 0); [lia|]. cbn [bind]. rewrite Z.mod_0_l by lia.
  unfold set_entry. cbn [Z.ltb Z.compare]. cbv zeta. rewrite F7. destruct n as [|k]; [lia|]. cbn. rewrite F3, D. reflexivity.
Qed.
Lemma log_empty_population : forall a lg lg1 x, set_optimization_algorithm a 0 lg = Ok lg1 -> log_score x lg1 = Err ZeroDivisionError /\ log_score x (start_logger_time lg1) = Err ZeroDivisionError /\ forall b k, set_optimization_algorithm b k lg1 = Err ZeroDivisionError.
Proof.
  intros a lg lg1 x E. destruct (set_facts a 0 lg lg1 E) as (_ & _ & _ & _ & _ & _ & F5 & _). unfold log_score, py_mod, set_optimization_algorithm, py_div. cbn [start_logger_time l_pop]. rewrite F5. cbn. auto.
Qed.
