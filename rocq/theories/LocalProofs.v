(** Proofs about the scaled matrix of second derivatives. *)
From Coq Require Import Reals Lra List Arith Bool Lia ZArith Permutation FunctionalExtensionality.
From Verif Require Import Base GraphModel GraphSpec GraphProofs ParamsModel ParamsSpec ParamsProofs Complex ArrayModel EvolveSpec BuildProofs OpticsSessionProofs LocalModel LocalSpec.
Import ListNotations.
Local Open Scope nat_scope.
Local Open Scope R_scope.

(** ** Matrices *)
Lemma tab_nth : forall {A} n (f : nat -> A) i d, (i < n)%nat -> nth i (tabulate n f) d = f i.
Proof.
  intros A n f i d H. unfold tabulate. rewrite (nth_indep _ d (f 0%nat)) by (rewrite map_length, seq_length; exact H). rewrite (map_nth f (seq 0 n) 0%nat i), seq_nth by exact H. reflexivity.
Qed.
Lemma tab_length : forall {A} n (f : nat -> A), length (tabulate n f) = n.
Proof. intros A n f. unfold tabulate. rewrite map_length, seq_length. reflexivity. Qed.
Lemma tab_In : forall {A} n (f : nat -> A) a, In a (tabulate n f) <-> exists i, (i < n)%nat /\ a = f i.
Proof.
  intros A n f a. unfold tabulate. rewrite in_map_iff. split.
  - intros (i & <- & H). apply in_seq in H. exists i. split; [lia|reflexivity].
  - intros (i & H & ->). exists i. split; [reflexivity|]. apply in_seq. lia.
Qed.
Lemma tab_square : forall {A} n (f : nat -> nat -> A), square_matrix n (tabulate n (fun i => tabulate n (f i))).
Proof. intros A n f. split; [apply tab_length|]. intros r H. apply tab_In in H. destruct H as (i & _ & ->). apply tab_length. Qed.
Lemma tab_entry : forall n f i j, (i < n)%nat -> (j < n)%nat -> entry (tabulate n (fun i => tabulate n (f i))) i j = f i j.
Proof. intros n f i j Hi Hj. unfold entry. rewrite tab_nth by exact Hi. apply tab_nth. exact Hj. Qed.
Lemma scale_entry : forall u i j, (i < length u)%nat -> (j < length u)%nat -> entry (scale_matrix u) i j = nth i u 0 * nth j u 0.
Proof.
  intros u i j Hi Hj. unfold entry, scale_matrix. rewrite (nth_indep _ [] (map (fun b => 0 * b) u)) by (rewrite map_length; exact Hi).
  rewrite (map_nth (fun a => map (fun b => a * b) u) u 0 i). rewrite (nth_indep _ 0 (nth i u 0 * 0)) by (rewrite map_length; exact Hj). rewrite (map_nth (fun b => nth i u 0 * b)). reflexivity.
Qed.
Lemma scaled_spec : forall hess g s x u h, scales g s = Ok u -> hess x = Ok h -> square_matrix (length u) h ->
  exists sh, scaled_hess hess g s x = Ok sh /\ square_matrix (length u) sh /\
    forall i j, (i < length u)%nat -> (j < length u)%nat -> entry sh i j = nth i u 0 * nth j u 0 * entry h i j.
Proof.
  intros hess g s x u h Eu Eh [Lh Rh]. unfold scaled_hess. rewrite Eu, Eh. cbn [bind]. unfold times.
  assert (Ls : length (scale_matrix u) = length u) by (unfold scale_matrix; apply map_length). rewrite Ls, Lh, Nat.eqb_refl.
  eexists. split; [reflexivity|]. split; [apply tab_square|]. intros i j Hi Hj. rewrite tab_entry by assumption. rewrite scale_entry by assumption. ring.
Qed.

(** ** Units *)
Lemma upd_same : forall z i t, upd z i t i = t.
Proof. intros z i t. unfold upd. rewrite Nat.eqb_refl. reflexivity. Qed.
Lemma units : forall f x u i j d, second_derivative f x i j d ->
  second_derivative (fun y => f (fun k => x k + u k * y k)) (fun _ => 0) i j (u i * u j * d).
Proof.
  intros f x u i j d (f1 & H1 & H2). set (at_ := fun (y : nat -> R) k => x k + u k * y k).
  assert (Sh : forall y k t, at_ (upd y k t) = upd (at_ y) k (x k + u k * t)).
  { intros y k t. apply functional_extensionality. intros m. unfold at_, upd. destruct (Nat.eqb_spec m k) as [->|N]; reflexivity. }
  assert (Lin : forall k t, derivable_pt_lim (fun t => x k + u k * t) t (u k)).
  { intros k t. pose proof (derivable_pt_lim_plus (fun _ => x k) (mult_real_fct (u k) id) t 0 (u k * 1) (derivable_pt_lim_const (x k) t) (derivable_pt_lim_scal id (u k) t 1 (derivable_pt_lim_id t))) as D.
    replace (0 + u k * 1) with (u k) in D by ring. exact D. }
  exists (fun y => u i * f1 (at_ y)). split.
  - intros z. change (derivable_pt_lim (fun t => f (at_ (upd z i t))) (z i) (u i * f1 (at_ z))).
    replace (fun t => f (at_ (upd z i t))) with (Ranalysis1.comp (fun r => f (upd (at_ z) i r)) (fun t => x i + u i * t)) by (apply functional_extensionality; intros t; unfold Ranalysis1.comp; rewrite Sh; reflexivity).
    rewrite Rmult_comm. apply derivable_pt_lim_comp; [apply Lin|]. change (x i + u i * z i) with (at_ z i). apply H1.
  - assert (Z : at_ (fun _ => 0) = x) by (apply functional_extensionality; intros k; unfold at_; ring).
    replace (u i * u j * d) with (u i * (d * u j)) by ring. apply (derivable_pt_lim_scal (fun t => f1 (at_ (upd (fun _ => 0) j t))) (u i)).
    replace (fun t => f1 (at_ (upd (fun _ => 0) j t))) with (Ranalysis1.comp (fun r => f1 (upd x j r)) (fun t => x j + u j * t)) by (apply functional_extensionality; intros t; unfold Ranalysis1.comp; rewrite Sh, Z; reflexivity).
    apply derivable_pt_lim_comp; [apply Lin|]. replace (x j + u j * 0) with (x j) by ring. exact H2.
Qed.

(** ** The check of symmetry *)
Lemma fold_max : forall l a, let m := fold_left Rmax l a in (forall b, In b (a :: l) -> b <= m) /\ In m (a :: l).
Proof.
  induction l as [|b l IH]; intros a; cbn [fold_left].
  - split; [intros b [<-|[]]; lra|left; reflexivity].
  - destruct (IH (Rmax a b)) as [I1 I2]. split.
    + intros c [<-|[<-|Hc]].
      * apply Rle_trans with (Rmax a b); [apply Rmax_l|apply I1; left; reflexivity].
      * apply Rle_trans with (Rmax a b); [apply Rmax_r|apply I1; left; reflexivity].
      * apply I1. right; exact Hc.
    + destruct I2 as [E|Hm]; [|right; right; exact Hm]. rewrite <- E. unfold Rmax. destruct (Rle_dec a b); [right; left|left]; reflexivity.
Qed.
Lemma asymmetry_max : forall h, h <> [] -> exists m, amax (asymmetry h) = Ok m /\
  (forall i j, (i < length h)%nat -> (j < length h)%nat -> Rabs (entry h i j - entry h j i) <= m) /\
  exists i j, (i < length h)%nat /\ (j < length h)%nat /\ m = Rabs (entry h i j - entry h j i).
Proof.
  intros h N. set (n := length h). assert (Pn : (0 < n)%nat) by (unfold n; destruct h; [congruence|cbn; lia]).
  assert (In_ : forall a, In a (concat (asymmetry h)) <-> exists i j, (i < n)%nat /\ (j < n)%nat /\ a = entry h i j - entry h j i).
  { intros a. rewrite in_concat. unfold asymmetry. fold n. split.
    - intros (r & Hr & Ha). apply tab_In in Hr. destruct Hr as (i & Hi & ->). apply tab_In in Ha. destruct Ha as (j & Hj & ->). exists i, j. auto.
    - intros (i & j & Hi & Hj & ->). exists (tabulate n (fun j => entry h i j - entry h j i)). split; apply tab_In; [exists i|exists j]; auto. }
  unfold amax. destruct (concat (asymmetry h)) as [|a l] eqn:E.
  - exfalso. assert (X : In (entry h 0 0 - entry h 0 0) (@nil R)) by (apply In_; exists 0%nat, 0%nat; auto). exact X.
  - destruct (fold_max l a) as [M1 M2]. eexists. split; [reflexivity|]. split.
    + intros i j Hi Hj. unfold Rabs. destruct (Rcase_abs (entry h i j - entry h j i)).
      * replace (- (entry h i j - entry h j i)) with (entry h j i - entry h i j) by ring. apply M1. apply In_. exists j, i. auto.
      * apply M1. apply In_. exists i, j. auto.
    + pose proof M2 as M3. apply In_ in M3. destruct M3 as (i & j & Hi & Hj & Em). exists i, j. split; [exact Hi|]. split; [exact Hj|]. rewrite Em. symmetry. apply Rabs_pos_eq.
      assert (M4 : entry h j i - entry h i j <= fold_left Rmax l a) by (apply M1; apply In_; exists j, i; auto). lra.
Qed.

(** ** Sorting *)
Lemma take_nth : forall {A} (l : list A) inds r d, take l inds = Ok r -> length r = length inds /\ (forall i, In i inds -> (i < length l)%nat) /\ forall a, (a < length inds)%nat -> nth a r d = nth (nth a inds 0%nat) l d.
Proof.
  intros A l inds. induction inds as [|i inds IH]; intros r d H; cbn [take map_res] in H.
  - injection H as <-. split; [reflexivity|]. split; [intros i []|]. intros a Ha. cbn in Ha. lia.
  - unfold take in *. cbn [map_res] in H. apply bind_ok in H. destruct H as (b & Hb & H). apply bind_ok in H. destruct H as (bs & Hbs & H). injection H as <-. destruct (IH bs d Hbs) as (I1 & I2 & I3).
    unfold at_ in Hb. destruct (nth_error l i) as [b'|] eqn:E; [|discriminate]. cbn [of_option] in Hb. injection Hb as ->. split; [cbn [length]; rewrite I1; reflexivity|]. split.
    + intros k [<-|Hk]; [apply nth_error_Some; congruence|exact (I2 k Hk)].
    + intros [|a] Ha; cbn [nth].
      * symmetry. apply nth_error_nth. exact E.
      * apply I3. cbn [length] in Ha. lia.
Qed.
Lemma take_ok : forall {A} (l : list A) inds, (forall i, In i inds -> (i < length l)%nat) -> exists r, take l inds = Ok r.
Proof.
  intros A l. induction inds as [|i inds IH]; intros H; unfold take; cbn [map_res]; [eexists; reflexivity|].
  destruct (IH (fun k Hk => H k (or_intror Hk))) as (r & Er). unfold take in Er. unfold at_ at 1. destruct (nth_error l i) as [a|] eqn:E; [|apply nth_error_None in E; specialize (H i (or_introl eq_refl)); lia].
  cbn [of_option bind]. rewrite Er. eexists. reflexivity.
Qed.
Lemma rows_ok : forall {A} (rows : list (list A)) inds n, (forall r, In r rows -> length r = n) -> (forall i, In i inds -> (i < n)%nat) -> exists r, map_res (fun row => take row inds) rows = Ok r.
Proof.
  intros A rows inds n. induction rows as [|row rows IH]; intros Hr Hi; cbn [map_res]; [eexists; reflexivity|].
  destruct (take_ok row inds) as (a & Ea). { intros i H. rewrite (Hr row (or_introl eq_refl)). exact (Hi i H). }
  destruct (IH (fun r H => Hr r (or_intror H)) Hi) as (b & Eb). rewrite Ea. cbn [bind]. rewrite Eb. eexists. reflexivity.
Qed.
Lemma rows_column : forall rows inds r, map_res (fun row => take row inds) rows = Ok r ->
  length r = length rows /\ (forall q, In q r -> length q = length inds) /\ forall a, (a < length inds)%nat -> column r a = column rows (nth a inds 0%nat).
Proof.
  induction rows as [|row rows IH]; intros inds r H; cbn [map_res] in H.
  - injection H as <-. split; [reflexivity|]. split; [intros q []|]. reflexivity.
  - apply bind_ok in H. destruct H as (q & Hq & H). apply bind_ok in H. destruct H as (qs & Hqs & H). injection H as <-. destruct (IH inds qs Hqs) as (I1 & I2 & I3). destruct (take_nth row inds q C0 Hq) as (J1 & J2 & J3).
    split; [cbn [length]; rewrite I1; reflexivity|]. split; [intros p [<-|Hp]; [exact J1|exact (I2 p Hp)]|]. intros a Ha. unfold column in *. cbn [map]. rewrite (I3 a Ha), (J3 a Ha). reflexivity.
Qed.
Lemma map_Cabs_nth : forall l k, (k < length l)%nat -> nth k (map Cabs l) 0 = Cabs (nth k l C0).
Proof. intros l k H. rewrite (nth_indep _ 0 (Cabs C0)) by (rewrite map_length; exact H). apply map_nth. Qed.
Lemma analysis_spec : forall eig argsort hess x h values vectors n, (0 < n)%nat -> hess x = Ok h -> square_matrix n h -> eig h = Ok (values, vectors) -> eigenpairs n h values vectors -> sorts (argsort (map Cabs values)) (map Cabs values) ->
  exists a, lha_analysis eig argsort hess x = Ok a /\ a_matrix a = h /\
    (forall m, amax (asymmetry h) = Ok m -> a_warning a = if Rlt_dec (sci 1 (-5)) m then Some m else None) /\
    (length (a_diagonal a) = n /\ forall i, (i < n)%nat -> nth i (a_diagonal a) 0 = entry h i i) /\
    length (a_values a) = n /\ square_matrix n (a_vectors a) /\
    (forall k, (k < n)%nat -> eigenpair h (nth k (a_values a) C0) (column (a_vectors a) k)) /\
    (forall k m, (k < m < n)%nat -> Cabs (nth k (a_values a) C0) <= Cabs (nth m (a_values a) C0)) /\
    (exists p, Permutation p (seq 0 n) /\ forall k, (k < n)%nat -> nth k (a_values a) C0 = nth (nth k p 0%nat) values C0 /\ column (a_vectors a) k = column vectors (nth k p 0%nat)).
Proof.
  intros eig argsort hess x h values vectors n Pn Eh Sq Ee (Lv & [Lw Rw] & Pr) [Pe Or]. destruct Sq as [Lh Rh].
  destruct (asymmetry_max h) as (m & Em & _). { intros ->. cbn in Lh. lia. }
  set (inds := argsort (map Cabs values)). fold inds in Pe, Or. rewrite map_length, Lv in Pe, Or.
  assert (Li : length inds = n) by (rewrite (Permutation_length Pe), seq_length; reflexivity).
  assert (Ii : forall i, In i inds -> (i < n)%nat) by (intros i H; apply (Permutation_in _ Pe) in H; apply in_seq in H; lia).
  destruct (take_ok values inds) as (vs & Evs); [intros i H; rewrite Lv; exact (Ii i H)|]. destruct (rows_ok vectors inds n Rw Ii) as (ws & Ews).
  unfold lha_analysis. rewrite Eh. cbn [bind]. rewrite Em. cbn [bind]. rewrite Ee. cbn [bind]. fold inds. rewrite Evs. cbn [bind]. rewrite Ews. cbn [bind].
  destruct (take_nth values inds vs C0 Evs) as (T1 & _ & T3). destruct (rows_column vectors inds ws Ews) as (W1 & W2 & W3). rewrite Li in *.
  assert (In_nth : forall k, (k < n)%nat -> (nth k inds 0%nat < n)%nat) by (intros k Hk; apply Ii; apply nth_In; lia).
  eexists. split; [reflexivity|]. cbn [a_matrix a_diagonal a_values a_vectors a_warning]. split; [reflexivity|]. split; [intros m' E'; injection E' as ->; reflexivity|].
  split; [unfold diagonal; rewrite Lh; split; [apply tab_length|intros i Hi; exact (tab_nth n (fun i => entry h i i) i 0 Hi)]|]. split; [exact T1|]. split; [split; [congruence|exact W2]|].
  split; [intros k Hk; rewrite (T3 k Hk), (W3 k Hk); apply Pr; exact (In_nth k Hk)|]. split.
  - intros k q Hkq. rewrite (T3 k), (T3 q) by lia. pose proof (Or k q Hkq) as O. rewrite !map_Cabs_nth in O by (rewrite Lv; apply In_nth; lia). exact O.
  - exists inds. split; [exact Pe|]. intros k Hk. split; [exact (T3 k Hk)|exact (W3 k Hk)].
Qed.

(** ** The scales *)
Lemma lined_app : forall s ms m1 i1 u1 m2 i2 u2, lined s ms m1 i1 u1 -> lined s ms m2 i2 u2 -> lined s ms (m1 ++ m2) (i1 ++ i2) (u1 ++ u2).
Proof.
  intros s ms m1 i1 u1 m2 i2 u2 (A1 & A2 & A3) (B1 & B2 & B3). split; [rewrite !app_length; lia|]. split; [rewrite !app_length; lia|]. intros pos i k a.
  destruct (lt_dec pos (length u1)) as [L|L].
  - rewrite !nth_error_app1 by lia. apply A3.
  - rewrite !nth_error_app2 by lia. rewrite A1, A2. apply B3.
Qed.
Lemma locks_lined : forall s ms c (pl : place) o locks i x x' u, In c ms -> assoc (cid c) (s_objs s) = Some o -> o_lock o = false ->
  (forall j b, nth_error locks j = Some b -> nth_error (o_locks o) (i + j) = Some b) ->
  extract_locks s (c, pl) locks i x = Ok x' -> unlocked (imprecisions (ccls c) (length (o_locks o))) locks i = Ok u ->
  exists m2 i2, x_models x' = x_models x ++ m2 /\ x_index x' = x_index x ++ i2 /\ lined s ms m2 i2 u.
Proof.
  intros s ms c pl o. induction locks as [|b locks IH]; intros i x x' u Hm Ho Hl Hk H Hu; cbn [extract_locks unlocked] in H, Hu.
  - injection H as <-. injection Hu as <-. exists [], []. rewrite !app_nil_r. split; [reflexivity|]. split; [reflexivity|]. split; [reflexivity|]. split; [reflexivity|]. intros [|pos] q k a Q; discriminate.
  - assert (Hk' : forall j b, nth_error locks j = Some b -> nth_error (o_locks o) (S i + j) = Some b) by (intros j b' Hj; replace (S i + j)%nat with (i + S j)%nat by lia; apply Hk; exact Hj).
    destruct b; [exact (IH (S i) x x' u Hm Ho Hl Hk' H Hu)|]. apply bind_ok in H. destruct H as (x1 & H1 & H). apply bind_ok in Hu. destruct Hu as (a & Ha & Hu). apply bind_ok in Hu. destruct Hu as (u2 & Hu2 & Hu). injection Hu as <-.
    destruct (IH (S i) x1 x' u2 Hm Ho Hl Hk' H Hu2) as (m2 & i2 & E1 & E2 & L2).
    assert (E : x_models x1 = x_models x ++ [cid c] /\ x_index x1 = x_index x ++ [i]).
    { unfold extract_one in H1. cbn [fst snd] in H1. repeat (apply bind_ok in H1; destruct H1 as (? & _ & H1)). injection H1 as <-. split; reflexivity. }
    destruct E as [F1 F2]. exists ([cid c] ++ m2), ([i] ++ i2). rewrite E1, E2, F1, F2, <- !app_assoc. split; [reflexivity|]. split; [reflexivity|]. change (a :: u2) with ([a] ++ u2). apply lined_app; [|exact L2].
    split; [reflexivity|]. split; [reflexivity|]. intros [|pos] q k a' Q1 Q2 Q3; cbn [nth_error] in *; [|destruct pos; discriminate]. injection Q1 as <-. injection Q2 as <-. injection Q3 as <-. exists c. split; [exact Hm|]. split; [reflexivity|].
    exists o. split; [exact Ho|]. split; [|apply at_ok in Ha; exact Ha]. split; [exact Hl|]. specialize (Hk 0%nat false eq_refl). rewrite Nat.add_0_r in Hk. exact Hk.
Qed.
Lemma models_lined : forall s ms0 ms x x' ls, (forall m, In m ms -> In (fst m) ms0) -> fold_res (extract_model s) ms x = Ok x' -> map_res (model_imprecisions s) ms = Ok ls ->
  exists m2 i2, x_models x' = x_models x ++ m2 /\ x_index x' = x_index x ++ i2 /\ lined s ms0 m2 i2 (concat ls).
Proof.
  intros s ms0. induction ms as [|[c pl] ms IH]; intros x x' ls Hi H Hl; cbn [fold_res map_res] in H, Hl.
  - injection H as <-. injection Hl as <-. exists [], []. rewrite !app_nil_r. split; [reflexivity|]. split; [reflexivity|]. split; [reflexivity|]. split; [reflexivity|]. intros [|pos] q k a Q; discriminate.
  - apply bind_ok in H. destruct H as (x1 & H1 & H). apply bind_ok in Hl. destruct Hl as (u & Hu & Hl). apply bind_ok in Hl. destruct Hl as (us & Hus & Hl). injection Hl as <-.
    destruct (IH x1 x' us (fun m Hm => Hi m (or_intror Hm)) H Hus) as (m2 & i2 & E1 & E2 & L2). cbn [concat].
    enough (T : exists m1 i1, x_models x1 = x_models x ++ m1 /\ x_index x1 = x_index x ++ i1 /\ lined s ms0 m1 i1 u).
    { destruct T as (m1 & i1 & F1 & F2 & L1). exists (m1 ++ m2), (i1 ++ i2). rewrite E1, E2, F1, F2, <- !app_assoc. split; [reflexivity|]. split; [reflexivity|]. apply lined_app; assumption. }
    unfold extract_model in H1. unfold model_imprecisions in Hu. cbn [fst] in H1, Hu. apply bind_ok in H1. destruct H1 as (o & Ho & H1). rewrite Ho in Hu. cbn [bind] in Hu. apply get_obj_ok in Ho.
    destruct (o_lock o) eqn:El.
    + injection H1 as <-. injection Hu as <-. exists [], []. rewrite !app_nil_r. split; [reflexivity|]. split; [reflexivity|]. split; [reflexivity|]. split; [reflexivity|]. intros [|pos] q k a Q; discriminate.
    + exact (locks_lined s ms0 c pl o (o_locks o) 0 x x1 u (Hi _ (or_introl eq_refl)) Ho El (fun j b Hj => Hj) H1 Hu).
Qed.
(* enough imprecisions for the locks *)
Lemma unlocked_ok : forall l locks i, (i + length locks <= length l)%nat -> exists r, unlocked l locks i = Ok r.
Proof.
  intros l. induction locks as [|b locks IH]; intros i L; cbn [unlocked]; [eexists; reflexivity|]. cbn [length] in L. destruct (IH (S i)) as (r & Er); [lia|]. destruct b; [exists r; exact Er|].
  unfold at_. destruct (nth_error l i) as [a|] eqn:E; [|apply nth_error_None in E; lia]. cbn [of_option bind]. rewrite Er. eexists. reflexivity.
Qed.
Lemma map_res_all : forall {A B} (f : A -> res B) l, (forall a, In a l -> exists b, f a = Ok b) -> exists r, map_res f l = Ok r.
Proof.
  intros A B f. induction l as [|a l IH]; intros H; cbn [map_res]; [eexists; reflexivity|]. destruct (H a (or_introl eq_refl)) as (b & Eb). destruct (IH (fun c Hc => H c (or_intror Hc))) as (r & Er).
  rewrite Eb. cbn [bind]. rewrite Er. eexists. reflexivity.
Qed.
Lemma sci_pos : forall m e, (0 < m)%Z -> 0 < sci m e.
Proof. intros m e H. unfold sci. apply Rmult_lt_0_compat; [apply (IZR_lt 0); exact H|apply powerRZ_lt; lra]. Qed.
Lemma map_res_In : forall {A B} (f : A -> res B) l r, map_res f l = Ok r -> forall b, In b r -> exists a, In a l /\ f a = Ok b.
Proof.
  intros A B f. induction l as [|a l IH]; intros r H b Hb; cbn [map_res] in H; [injection H as <-; destruct Hb|]. apply bind_ok in H. destruct H as (b0 & E0 & H). apply bind_ok in H. destruct H as (r0 & Er & H). injection H as <-.
  destruct Hb as [<-|Hb]; [exists a; split; [left; reflexivity|exact E0]|]. destruct (IH r0 Er b Hb) as (a' & Ha & Ea). exists a'. split; [right; exact Ha|exact Ea].
Qed.
Lemma unlocked_In : forall l locks i r a, unlocked l locks i = Ok r -> In a r -> exists j, nth_error locks j = Some false /\ nth_error l (i + j) = Some a.
Proof.
  intros l. induction locks as [|b locks IH]; intros i r a H Ha; cbn [unlocked] in H; [injection H as <-; destruct Ha|].
  assert (N : forall r', unlocked l locks (S i) = Ok r' -> In a r' -> exists j, nth_error (b :: locks) j = Some false /\ nth_error l (i + j) = Some a).
  { intros r' E Hr. destruct (IH _ _ _ E Hr) as (j & J1 & J2). exists (S j). split; [exact J1|]. replace (i + S j)%nat with (S i + j)%nat by lia. exact J2. }
  destruct b; [exact (N r H Ha)|]. apply bind_ok in H. destruct H as (a0 & E0 & H). apply bind_ok in H. destruct H as (r0 & Er & H). injection H as <-.
  destruct Ha as [<-|Ha]; [|exact (N r0 Er Ha)]. exists 0%nat. split; [reflexivity|]. rewrite Nat.add_0_r. apply at_ok. exact E0.
Qed.
Lemma imprecisions_length : forall c n, family_of c <> MultiPath -> length (imprecisions c n) = length (sp_locks (spec_of c)).
Proof. intros c n H. destruct c; try reflexivity; exfalso; apply H; reflexivity. Qed.
Lemma splitter_imprecisions : forall c n, family_of c = MultiPath -> imprecisions c n = repeat (sci 5 (-2)) n.
Proof. intros c n H. destruct c; try discriminate H; reflexivity. Qed.
Lemma imprecisions_pos : forall c n k a, (family_of c <> MultiPath -> nth_error (sp_locks (spec_of c)) k = Some false) -> nth_error (imprecisions c n) k = Some a -> 0 < a.
Proof.
  assert (Pi : forall m e, (0 < m)%Z -> 0 < sci m e * PI) by (intros m e H; apply Rmult_lt_0_compat; [apply sci_pos; exact H|exact PI_RGT_0]).
  assert (Pi2 : forall m e, (0 < m)%Z -> 0 < sci m e * 2 * PI) by (intros m e H; apply Rmult_lt_0_compat; [apply Rmult_lt_0_compat; [apply sci_pos; exact H|lra]|exact PI_RGT_0]).
  intros c n k a Hf Ha. destruct (family_eq_dec (family_of c) MultiPath) as [F|F].
  - rewrite (splitter_imprecisions c n F) in Ha. apply nth_error_In, repeat_spec in Ha. subst a. apply sci_pos. reflexivity.
  - specialize (Hf F). destruct c; try (exfalso; apply F; reflexivity); cbn [imprecisions] in Ha;
    try (destruct k; discriminate Ha);
    try (destruct k as [|[|k]]; [injection Ha as <-; apply sci_pos; reflexivity| |]; solve [destruct k; discriminate Hf|discriminate Hf|destruct k as [|[|[|k]]]; discriminate Hf|discriminate Ha|destruct k; discriminate Ha]);
    apply nth_error_In in Ha; try (apply in_app_iff in Ha; destruct Ha as [Ha|Ha]); try (apply repeat_spec in Ha; subst a; solve [apply sci_pos; reflexivity|apply Pi2; reflexivity]);
    cbn [In] in Ha; repeat (destruct Ha as [Ha|Ha]; [subst a; solve [apply sci_pos; reflexivity|apply Pi; reflexivity]|]); destruct Ha.
Qed.
Lemma models_in : forall g c pl, wf g -> In (c, pl) (get_models g) -> In c (components g).
Proof. intros g c pl W H. apply (sits_comp g c pl), get_models_In; assumption. Qed.
Lemma scales_lined : forall g s x u, wf g -> extract g s = Ok x -> scales g s = Ok u -> lined s (components g) (x_models x) (x_index x) u.
Proof.
  intros g s x u W Ex Es. unfold scales in Es. apply bind_ok in Es. destruct Es as (ls & El & Es). injection Es as <-. unfold extract in Ex.
  destruct (models_lined s (components g) (get_models g) x_empty x ls) as (m2 & i2 & E1 & E2 & L); [intros [c pl] H; exact (models_in g c pl W H)|exact Ex|exact El|]. cbn in E1, E2. rewrite E1, E2. exact L.
Qed.
Lemma scales_ok : forall g s, wf g -> kept g s -> exists u, scales g s = Ok u /\ (forall a, In a u -> 0 < a).
Proof.
  intros g s W [K _].
  assert (T : exists ls, map_res (model_imprecisions s) (get_models g) = Ok ls).
  { apply map_res_all. intros [c pl] Hc. destruct (K c (models_in g c pl W Hc)) as (o & ps & (Ho & _) & Lk & R). unfold model_imprecisions. cbn [fst]. unfold get_obj. rewrite Ho. cbn [of_option bind].
    destruct (o_lock o); [eexists; reflexivity|]. apply unlocked_ok. cbn [Nat.add]. destruct (family_eq_dec (family_of (ccls c)) MultiPath) as [F|F].
    - rewrite (splitter_imprecisions _ _ F), repeat_length. lia.
    - rewrite (imprecisions_length _ _ F). destruct (R F) as (_ & _ & R3 & _). rewrite R3. lia. }
  destruct T as (ls & El). unfold scales. rewrite El. exists (concat ls). split; [reflexivity|]. intros a Ha. apply in_concat in Ha. destruct Ha as (l & Hl & Ha).
  destruct (map_res_In _ _ _ El l Hl) as ([c pl] & Hc & Em). destruct (K c (models_in g c pl W Hc)) as (o & ps & (Ho & _) & Lk & R). unfold model_imprecisions in Em. cbn [fst] in Em. unfold get_obj in Em. rewrite Ho in Em. cbn [of_option bind] in Em.
  destruct (o_lock o); [injection Em as <-; destruct Ha|]. destruct (unlocked_In _ _ _ _ _ Em Ha) as (j & Hj & Hn). cbn [Nat.add] in Hn.
  apply (imprecisions_pos (ccls c) (length (o_locks o)) j a); [|exact Hn]. intros F. destruct (R F) as (_ & _ & R3 & _). rewrite <- R3. exact Hj.
Qed.

(** ** Parts of a matrix *)
Lemma partial_spec : forall h inds n, square_matrix n h -> (forall i, In i inds -> (i < n)%nat) ->
  exists p, partial_hessian h inds = Ok p /\ square_matrix (length inds) p /\
    forall a b, (a < length inds)%nat -> (b < length inds)%nat -> entry p a b = entry h (nth a inds 0%nat) (nth b inds 0%nat).
Proof.
  intros h inds n [Lh Rh] Hi. unfold partial_hessian. destruct (take_ok h inds) as (rows & Er); [intros i H; rewrite Lh; exact (Hi i H)|]. rewrite Er. cbn [bind].
  assert (Rr : forall r, In r rows -> length r = n). { intros r Hr. unfold take in Er. destruct (map_res_In _ _ _ Er r Hr) as (i & _ & E). apply at_ok, nth_error_In in E. exact (Rh r E). }
  destruct (rows_ok rows inds n Rr Hi) as (p & Ep). exists p. split; [exact Ep|].
  destruct (take_nth h inds rows [] Er) as (L1 & _ & N1).
  assert (G : length p = length rows /\ forall k, (k < length rows)%nat -> take (nth k rows []) inds = Ok (nth k p [])).
  { clear -Ep. revert p Ep. induction rows as [|r rows IH]; intros p E; cbn [map_res] in E; [injection E as <-; split; [reflexivity|intros k Hk; cbn in Hk; lia]|].
    apply bind_ok in E. destruct E as (q & Eq & E). apply bind_ok in E. destruct E as (p' & Ep' & E). injection E as <-. destruct (IH p' Ep') as [I1 I2]. split; [cbn; lia|]. intros [|k] Hk; cbn [nth]; [exact Eq|apply I2; cbn in Hk; lia]. }
  destruct G as [G1 G2]. split.
  - split; [congruence|]. intros r Hr. destruct (In_nth p r [] Hr) as (k & Hk & <-). rewrite G1 in Hk. exact (proj1 (take_nth _ _ _ 0 (G2 k Hk))).
  - intros a b Ha Hb. unfold entry. rewrite <- L1 in Ha. destruct (take_nth _ _ _ 0 (G2 a Ha)) as (_ & _ & N2). rewrite (N2 b Hb), (N1 a) by lia. reflexivity.
Qed.
Lemma partial_only : forall h inds n p, square_matrix n h -> partial_hessian h inds = Ok p -> forall i, In i inds -> (i < n)%nat.
Proof.
  intros h inds n p [Lh Rh] E i Hi. unfold partial_hessian in E. apply bind_ok in E. destruct E as (rows & Er & _). rewrite <- Lh. exact (proj1 (proj2 (take_nth h inds rows [] Er)) i Hi).
Qed.
Lemma binarize_spec : forall h t n, square_matrix n h -> square_matrix n (binarize h t) /\
  forall i j, (i < n)%nat -> (j < n)%nat -> (entry (binarize h t) i j = 1 /\ t < Rabs (entry h i j)) \/ (entry (binarize h t) i j = 0 /\ Rabs (entry h i j) <= t).
Proof.
  intros h t n [Lh Rh]. split.
  - split; [unfold binarize; rewrite map_length; exact Lh|]. intros r Hr. unfold binarize in Hr. apply in_map_iff in Hr. destruct Hr as (q & <- & Hq). rewrite map_length. exact (Rh q Hq).
  - intros i j Hi Hj. unfold entry, binarize. set (f := fun a => if Rlt_dec t (Rabs a) then 1 else 0). rewrite <- Lh in Hi.
    rewrite (nth_indep _ [] (map f [])) by (rewrite map_length; exact Hi). rewrite (map_nth (map f)). assert (Lr : (j < length (nth i h []))%nat) by (rewrite (Rh _ (nth_In h [] Hi)); exact Hj).
    rewrite (nth_indep _ 0 (f 0)) by (rewrite map_length; exact Lr). rewrite (map_nth f). unfold f. destruct (Rlt_dec t (Rabs (nth j (nth i h []) 0))) as [L|L]; [left|right]; (split; [reflexivity|lra]).
Qed.
Lemma none_selected : forall (ms : list nat) nodes k, (forall v, In v nodes -> exists pl, v = APlace pl) -> filter (fun i => existsb (value_eqb (AModel (nth i ms 0%nat))) nodes) (seq k (length ms)) = [].
Proof.
  intros ms nodes k H. assert (F : forall i, existsb (value_eqb (AModel (nth i ms 0%nat))) nodes = false).
  { intros i. induction nodes as [|v nodes IH]; [reflexivity|]. cbn [existsb]. destruct (H v (or_introl eq_refl)) as (pl & ->). cbn [value_eqb orb]. apply IH. intros v Hv. apply H. right. exact Hv. }
  induction (seq k (length ms)) as [|i l IH]; [reflexivity|]. cbn [filter]. rewrite F. exact IH.
Qed.
