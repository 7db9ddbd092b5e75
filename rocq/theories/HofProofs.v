(** Proofs about the hall of fame. *)
From Coq Require Import List Arith Bool QArith Qabs Sorted Lia.
From Verif Require Import Base FloatModel HofModel HofSpec.
Import ListNotations.
Local Open Scope nat_scope.

(** ** Comparison of floats *)
Lemma fltb_irrefl : forall a, fltb a a = false.
Proof. intros [q| | |]; cbn; auto. rewrite negb_false_iff. apply Qle_bool_iff, Qle_refl. Qed.
Lemma fltb_fin : forall x y, fltb (Fin x) (Fin y) = true <-> (x < y)%Q.
Proof.
  intros. cbn. rewrite negb_true_iff. split; intro H.
  - destruct (Qlt_le_dec x y) as [L|L]; [exact L|]. apply Qle_bool_iff in L. congruence.
  - apply not_true_is_false. intro E. apply Qle_bool_iff in E. exact (Qlt_not_le _ _ H E).
Qed.
Lemma fltb_trans : forall a b c, fltb a b = true -> fltb b c = true -> fltb a c = true.
Proof.
  intros [x| | |] [y| | |] [z| | |]; try (cbn; congruence). rewrite !fltb_fin. apply Qlt_trans.
Qed.
Lemma fltb_asym : forall a b, fltb a b = true -> fltb b a = false.
Proof. intros a b H. apply not_true_is_false. intro E. pose proof (fltb_trans a b a H E) as X. rewrite fltb_irrefl in X. discriminate. Qed.
Lemma fltb_neg_trans : forall a b c, b <> NaN -> fltb a b = false -> fltb b c = false -> fltb a c = false.
Proof.
  intros a b c N H1 H2. apply not_true_is_false. intro E.
  destruct a as [x| | |], b as [y| | |], c as [z| | |]; try (cbn in *; congruence).
  apply fltb_fin in E. assert (L1 : (y <= x)%Q). { apply Qnot_lt_le. intro X. apply fltb_fin in X. congruence. }
  assert (L2 : (z <= y)%Q). { apply Qnot_lt_le. intro X. apply fltb_fin in X. congruence. }
  apply (Qlt_irrefl x). eapply Qlt_le_trans; [exact E|]. eapply Qle_trans; eassumption.
Qed.
Lemma fltb_le_lt : forall a b c, b <> NaN -> fltb b a = false -> fltb b c = true -> a <> NaN -> fltb a c = true.
Proof.
  intros a b c N H1 H2 Na. destruct (fltb a c) eqn:E; [reflexivity|]. exfalso.
  assert (X : fltb b c = false) by (apply (fltb_neg_trans b a c); auto). congruence.
Qed.

Section Proofs.
Variable G : Type.
Variable sim : G -> G -> res Q.
Variable threshold : Q.
Notation similar := (similar sim threshold).
Notation update_one := (update_one G sim threshold).
Notation update_hof := (update_hof G sim threshold).
Notation hof_run := (hof_run G sim threshold).
Notation replace := (replace G).

Lemma too_similar_spec : forall d, too_similar threshold d = true <-> (d <= threshold \/ Qabs (d - threshold) <= (1 # 100000000) + (1 # 100000) * Qabs threshold)%Q.
Proof. intro d. unfold too_similar, isclose. rewrite orb_true_iff, !Qle_bool_iff. reflexivity. Qed.

(** ** The list surgery *)
Lemma mark_app : forall (a : list (option (slot G))) x b, mark G (length a) (a ++ x :: b) = a ++ None :: b.
Proof. induction a as [|y a IH]; intros; cbn; [reflexivity|]. rewrite IH. reflexivity. Qed.
Lemma insert_app : forall (a : list (option (slot G))) s b, insert_at G (length a) s (a ++ b) = a ++ Some s :: b.
Proof. induction a as [|y a IH]; intros; cbn; [destruct b; reflexivity|]. rewrite IH. reflexivity. Qed.
Lemma remove_mark_app : forall a b, remove_mark G (map Some a ++ None :: b) = map Some a ++ b.
Proof. induction a as [|y a IH]; intros; cbn; [reflexivity|]. rewrite IH. reflexivity. Qed.
Lemma unwrap_some : forall l, unwrap G (map Some l) = l.
Proof. induction l as [|y l IH]; cbn; [reflexivity|]. rewrite IH. reflexivity. Qed.

Lemma replace_app : forall l1 m x r e, replace (l1 ++ m ++ x :: r) (length l1 + length m) (length l1) e = l1 ++ Some e :: m ++ r.
Proof.
  intros. unfold HofModel.replace.
  replace (map Some (l1 ++ m ++ x :: r)) with (map Some (l1 ++ m) ++ Some x :: map Some r) by (rewrite (app_assoc l1 m), (map_app _ (l1 ++ m)); reflexivity).
  replace (length l1 + length m) with (length (map (@Some (slot G)) (l1 ++ m))) by (rewrite map_length, app_length; reflexivity).
  rewrite mark_app, map_app, <- app_assoc.
  pose proof (insert_app (map (@Some (slot G)) l1) (Some e) (map Some m ++ None :: map Some r)) as X. rewrite map_length in X. rewrite X. clear X.
  change (Some (Some e) :: map Some m ++ None :: map Some r) with (map Some (Some e :: m) ++ None :: map Some r).
  rewrite app_assoc, <- map_app.
  rewrite remove_mark_app, <- map_app, unwrap_some, <- app_assoc. reflexivity.
Qed.

(** ** The two searches *)
Definition not_worse (score : fl) (x : slot G) : Prop := exists s g, x = Some (s, g) /\ fltb score s = false.
Definition behind (score : fl) (x : slot G) : Prop := x = None \/ exists s g, x = Some (s, g) /\ fltb score s = true.
Lemma insert_index_spec : forall h score j0,
  match insert_index G h score j0 with
  | None => Forall (not_worse score) h
  | Some j => exists l1 x l2, h = l1 ++ x :: l2 /\ j = j0 + length l1 /\ Forall (not_worse score) l1 /\ behind score x
  end.
Proof.
  induction h as [|[[s g]|] h IH]; intros score j0; cbn [insert_index].
  - constructor.
  - destruct (fltb score s) eqn:E.
    + exists [], (Some (s, g)), h. split; [reflexivity|]. split; [cbn; lia|]. split; [constructor|]. right. eauto.
    + specialize (IH score (S j0)). destruct (insert_index G h score (S j0)).
      * destruct IH as (l1 & x & l2 & -> & -> & F & B). exists (Some (s, g) :: l1), x, l2. split; [reflexivity|]. split; [cbn; lia|].
        split; [constructor; [exists s, g; auto|exact F]|exact B].
      * constructor; [exists s, g; auto|exact IH].
  - exists [], None, h. split; [reflexivity|]. split; [cbn; lia|]. split; [constructor|]. left. reflexivity.
Qed.

Definition clash (graph : G) (x : slot G) : Prop := exists s g, x = Some (s, g) /\ similar graph g.
Definition no_clash (graph : G) (x : slot G) : Prop := ~ clash graph x.
Lemma similar_index_spec : forall h graph k0 r, similar_index G sim threshold h graph k0 = Ok r ->
  match r with
  | None => Forall (no_clash graph) h
  | Some k => exists a x b, h = a ++ x :: b /\ k = k0 + length a /\ Forall (no_clash graph) a /\ clash graph x
  end.
Proof.
  induction h as [|[[s g]|] h IH]; intros graph k0 r H; cbn [similar_index] in H.
  - injection H as <-. constructor.
  - destruct (sim graph g) as [d|e] eqn:E; [|discriminate]. destruct (too_similar threshold d) eqn:T.
    + injection H as <-. exists [], (Some (s, g)), h. split; [reflexivity|]. split; [cbn; lia|]. split; [constructor|].
      exists s, g. split; [reflexivity|]. exists d. split; [exact E|apply too_similar_spec, T].
    + assert (N : no_clash graph (Some (s, g))).
      { intros (s' & g' & Q & d' & E' & C). injection Q as <- <-. rewrite E in E'. injection E' as <-. apply too_similar_spec in C. congruence. }
      specialize (IH graph (S k0) r H). destruct r.
      * destruct IH as (a & x & b & -> & -> & F & C). exists (Some (s, g) :: a), x, b. split; [reflexivity|]. split; [cbn; lia|]. split; [constructor; assumption|exact C].
      * constructor; assumption.
  - assert (N : no_clash graph None) by (intros (s & g & Q & _); discriminate).
    specialize (IH graph (S k0) r H). destruct r.
    + destruct IH as (a & x & b & -> & -> & F & C). exists (None :: a), x, b. split; [reflexivity|]. split; [cbn; lia|]. split; [constructor; assumption|exact C].
    + constructor; assumption.
Qed.

(** ** One individual: ignored, or put in at the right place for exactly one other slot *)
Inductive one_step (score : fl) (graph : G) (h : hof G) : hof G -> Prop :=
| skip_bad : Forall (not_worse score) h -> one_step score graph h h
| skip_similar : forall l1 l2, h = l1 ++ l2 -> Forall (not_worse score) l1 -> Exists (clash graph) l1 -> one_step score graph h h
| put_for_similar : forall l1 m x r, h = l1 ++ m ++ x :: r -> Forall (not_worse score) l1 -> behind score (hd x m) ->
    Forall (no_clash graph) (l1 ++ m) -> clash graph x -> one_step score graph h (l1 ++ Some (score, graph) :: m ++ r)
| put_for_last : forall l1 m x, h = l1 ++ m ++ [x] -> Forall (not_worse score) l1 -> behind score (hd x m) ->
    Forall (no_clash graph) h -> one_step score graph h (l1 ++ Some (score, graph) :: m).

Lemma split_at : forall A (l1 : list A) x l2 a y b, l1 ++ x :: l2 = a ++ y :: b -> length l1 <= length a -> exists m, a = l1 ++ m /\ x :: l2 = m ++ y :: b.
Proof.
  intros A l1. induction l1 as [|z l1 IH]; intros x l2 a y b E L.
  - exists a. auto.
  - destruct a as [|w a]; [cbn in L; lia|]. cbn in E. injection E as <- E. cbn in L. apply IH in E; [|lia]. destruct E as (m & -> & E).
    exists m. auto.
Qed.
Lemma last_split : forall A (x : A) l, exists m y, x :: l = m ++ [y].
Proof. intros A x l. destruct (exists_last (l := x :: l)) as (m & y & E); [discriminate|]. eauto. Qed.

Lemma update_one_cases : forall h score graph h', update_one h (score, graph) = Ok h' -> one_step score graph h h'.
Proof.
  intros h score graph h' H. unfold HofModel.update_one in H. pose proof (insert_index_spec h score 0) as I.
  destruct (insert_index G h score 0) as [j|]; [|injection H as <-; apply skip_bad; exact I].
  destruct I as (l1 & x & l2 & -> & -> & F & B). cbn [Nat.add] in H.
  destruct (similar_index G sim threshold (l1 ++ x :: l2) graph 0) as [r|e] eqn:S; [|discriminate].
  apply similar_index_spec in S. destruct r as [k|].
  - destruct S as (a & y & b & E & -> & Fa & C). cbn [Nat.add] in H. destruct (length a <? length l1) eqn:L.
    + injection H as <-. apply Nat.ltb_lt in L. symmetry in E. destruct (split_at _ a y b l1 x l2 E (Nat.lt_le_incl _ _ L)) as (m & -> & E').
      rewrite app_length in L. destruct m as [|z m]; [cbn in L; lia|]. cbn in E'. injection E' as <- E'.
      apply skip_similar with (l1 := a ++ y :: m) (l2 := x :: l2); [reflexivity|exact F|].
      apply Exists_app. right. left. exact C.
    + apply Nat.ltb_ge in L. destruct (split_at _ l1 x l2 a y b E L) as (m & -> & E').
      rewrite E' in *. rewrite app_length in H. rewrite replace_app in H. injection H as <-.
      apply put_for_similar with (x := y); auto. destruct m as [|z m]; cbn in *; injection E' as <- E'; exact B.
  - destruct (last_split _ x l2) as (m & y & E). rewrite E in *.
    replace (length (l1 ++ m ++ [y]) - 1) with (length l1 + length m) in H by (rewrite !app_length; cbn; lia).
    rewrite replace_app, app_nil_r in H. injection H as <-. apply put_for_last with (x := y); auto.
    destruct m as [|z m]; cbn in *; injection E as <- E; exact B.
Qed.

(** ** Size, order, provenance *)
Lemma step_length : forall score graph h h', one_step score graph h h' -> length h' = length h.
Proof. intros score graph h h' S. destruct S as [|l1 l2 ->|l1 m x r ->|l1 m x ->]; auto; repeat (rewrite app_length; cbn); lia. Qed.

Lemma step_in : forall score graph h h' x, one_step score graph h h' -> In x h' -> In x h \/ x = Some (score, graph).
Proof.
  intros score graph h h' z S. destruct S as [|l1 l2 ->|l1 m x r ->|l1 m x ->]; auto;
  rewrite !in_app_iff; cbn; rewrite ?in_app_iff; cbn; intuition.
Qed.

Definition slot_le (x y : slot G) : Prop :=
  match x, y with
  | Some (s, _), Some (s', _) => fltb s' s = false
  | Some _, None => True
  | None, None => True
  | None, Some _ => False
  end.
Lemma ranked_iff : forall h, ranked h <-> StronglySorted slot_le h.
Proof.
  split.
  - intros (es & k & -> & S). induction S as [|[s g] es S IH F]; cbn.
    + induction k; cbn; constructor; [assumption|]. apply Forall_forall. intros y Hy. apply repeat_spec in Hy as ->. exact I.
    + constructor; [exact IH|]. apply Forall_app. split.
      * apply Forall_forall. intros y Hy. apply in_map_iff in Hy as ([s' g'] & <- & Hy). rewrite Forall_forall in F. exact (F _ Hy).
      * apply Forall_forall. intros y Hy. apply repeat_spec in Hy as ->. exact I.
  - induction 1 as [|[[s g]|] h S IH F].
    + exists [], 0. split; [reflexivity|constructor].
    + destruct IH as (es & k & -> & IH). exists ((s, g) :: es), k. split; [reflexivity|]. constructor; [exact IH|].
      apply Forall_forall. intros [s' g'] Hy. rewrite Forall_forall in F. apply (F (Some (s', g'))). apply in_app_iff. left. apply in_map. exact Hy.
    + exists [], (1 + length h). split; [|constructor]. cbn. f_equal. clear IH S. induction h as [|y h IH]; [reflexivity|].
      inversion F as [|? ? Y F']; subst. destruct y as [[? ?]|]; [contradiction|]. cbn. f_equal. apply IH. exact F'.
Qed.

Lemma sorted_app : forall A (R : A -> A -> Prop) a b, StronglySorted R (a ++ b) <-> StronglySorted R a /\ StronglySorted R b /\ forall x y, In x a -> In y b -> R x y.
Proof.
  intros A R a b. induction a as [|x a IH]; cbn.
  - split; [intro H; split; [constructor|split; [exact H|contradiction]]|intros (_ & H & _); exact H].
  - split.
    + intro H. inversion H as [|? ? S F]; subst. apply IH in S as (S1 & S2 & S3). apply Forall_app in F as [F1 F2]. split; [constructor; assumption|]. split; [exact S2|].
      intros y z [<-|Hy] Hz; [rewrite Forall_forall in F2; auto|auto].
    + intros (S1 & S2 & S3). inversion S1 as [|? ? S F]; subst. constructor; [apply IH; auto|]. apply Forall_app. split; [exact F|]. apply Forall_forall. auto.
Qed.

Lemma slot_le_trans_new : forall score graph y x, behind score y -> slot_le y x -> slot_le (Some (score, graph)) x.
Proof.
  intros score graph y x B L. destruct x as [[s g]|]; [|exact I]. cbn. destruct B as [->|(s' & g' & -> & B)]; [contradiction|].
  cbn in *. apply (fltb_neg_trans s s' score); auto. { intros ->. destruct score; discriminate. } apply fltb_asym. exact B.
Qed.

Lemma step_sorted : forall score graph h h', one_step score graph h h' -> StronglySorted slot_le h -> StronglySorted slot_le h'.
Proof.
  intros score graph h h' S So.
  assert (X : forall l1 m x r, h = l1 ++ m ++ x :: r -> Forall (not_worse score) l1 -> behind score (hd x m) -> StronglySorted slot_le (l1 ++ Some (score, graph) :: m ++ r)).
  { intros l1 m x r -> F B. apply sorted_app in So as (S1 & S2 & S3). apply sorted_app in S2 as (S4 & S5 & S6).
    inversion S5 as [|? ? S7 S8]; subst.
    assert (L : Forall (slot_le (Some (score, graph))) (m ++ r)).
    { rewrite Forall_forall in *. intros z Hz. apply in_app_iff in Hz.
      destruct m as [|y m]; cbn in *.
      - destruct Hz as [[]|Hz]. apply (slot_le_trans_new score graph x z B); auto.
      - destruct Hz as [[<-|Hz]|Hz].
        + destruct B as [->|(s & g & -> & B)]; [exact I|cbn; apply fltb_asym; exact B].
        + apply (slot_le_trans_new score graph y z B); auto. inversion S4 as [|? ? S9 S10]; subst. rewrite Forall_forall in S10. auto.
        + apply (slot_le_trans_new score graph y z B); auto. }
    apply sorted_app. split; [exact S1|]. split.
    - constructor; [|exact L]. apply sorted_app. split; [exact S4|]. split; [exact S7|]. intros y z Hy Hz. apply S6; [exact Hy|right; exact Hz].
    - intros y z Hy [<-|Hz].
      + rewrite Forall_forall in F. destruct (F y Hy) as (s & g & -> & Le). exact Le.
      + apply S3; [exact Hy|]. apply in_app_iff. apply in_app_iff in Hz as [Hz|Hz]; [left|right; right]; exact Hz. }
  destruct S as [F|l1 l2 E F C|l1 m x r E F B N C|l1 m x E F B N]; auto.
  - exact (X l1 m x r E F B).
  - specialize (X l1 m x [] E F B). rewrite app_nil_r in X. exact X.
Qed.

(* a run is a fold over everything presented *)
Lemma update_hof_app : forall p q h, update_hof h (p ++ q) = match update_hof h p with Ok h' => update_hof h' q | Err e => Err e end.
Proof. induction p as [|i p IH]; intros q h; cbn; [reflexivity|]. destruct (update_one h i); [apply IH|reflexivity]. Qed.
Lemma hof_run_concat : forall ps h, hof_run h ps = update_hof h (concat ps).
Proof. induction ps as [|p ps IH]; intro h; cbn; [reflexivity|]. rewrite update_hof_app. destruct (update_hof h p); [apply IH|reflexivity]. Qed.

Lemma update_hof_ind : forall (P : hof G -> Prop) pop h h', update_hof h pop = Ok h' -> P h ->
  (forall s g a b, In (s, g) pop -> P a -> one_step s g a b -> P b) -> P h'.
Proof.
  intros P pop. induction pop as [|[s g] pop IH]; intros h h' E H0 HS; cbn [HofModel.update_hof] in E; [injection E as <-; exact H0|].
  destruct (update_one h (s, g)) as [h1|] eqn:E1; [|discriminate]. apply (IH h1 h' E).
  - apply (HS s g h h1); [left; reflexivity|exact H0|apply update_one_cases, E1].
  - intros s' g' a b Hi. apply HS. right. exact Hi.
Qed.

Lemma hof_shape : forall n ps h, hof_run (init_hof G n) ps = Ok h ->
  length h = n /\ (forall s g, In (Some (s, g)) h -> In (s, g) (concat ps)) /\ ranked h.
Proof.
  intros n ps h E. rewrite hof_run_concat in E. split; [|split].
  - apply (update_hof_ind (fun a => length a = n) _ _ _ E); [apply repeat_length|]. intros s g a b _ L S. rewrite (step_length _ _ _ _ S). exact L.
  - apply (update_hof_ind (fun a => forall s g, In (Some (s, g)) a -> In (s, g) (concat ps)) _ _ _ E).
    + intros s g Hi. unfold init_hof in Hi. apply repeat_spec in Hi. discriminate Hi.
    + intros s g a b Hi L S s' g' Hb. destruct (step_in _ _ _ _ _ S Hb) as [Ha|Q]; [auto|injection Q as -> ->; exact Hi].
  - apply ranked_iff. apply (update_hof_ind (fun a => StronglySorted slot_le a) _ _ _ E).
    + apply ranked_iff. exists [], n. split; [reflexivity|constructor].
    + intros s g a b _ L S. exact (step_sorted s g a b S L).
Qed.

(* nobody is admitted behind a similar graph *)
Lemma hof_admission : forall h s g h', update_hof h [(s, g)] = Ok h' ->
  h' = h \/ exists l1 t l2, h = l1 ++ t /\ h' = l1 ++ Some (s, g) :: l2 /\ forall s' g', In (Some (s', g')) l1 -> fltb s s' = false /\ ~ similar g g'.
Proof.
  intros h s g h' E. cbn [HofModel.update_hof] in E. destruct (update_one h (s, g)) as [h1|] eqn:E1; [|discriminate]. injection E as <-. apply update_one_cases in E1.
  assert (K : forall l1, Forall (not_worse s) l1 -> Forall (no_clash g) l1 -> forall s' g', In (Some (s', g')) l1 -> fltb s s' = false /\ ~ similar g g').
  { intros l1 F N s' g' Hi. rewrite Forall_forall in F, N. split.
    - destruct (F _ Hi) as (s0 & g0 & Q & L). injection Q as <- <-. exact L.
    - intro C. apply (N _ Hi). exists s', g'. auto. }
  destruct E1 as [F|l1 l2 -> F C|l1 m x r -> F B N C|l1 m x -> F B N]; auto; right; apply Forall_app in N as [N _].
  - exists l1, (m ++ x :: r), (m ++ r). split; [reflexivity|]. split; [reflexivity|exact (K l1 F N)].
  - exists l1, (m ++ [x]), m. split; [reflexivity|]. split; [reflexivity|exact (K l1 F N)].
Qed.

(** ** The best score *)
Definition first_ok (seen : list (fl * G)) (h : hof G) : Prop :=
  match h with
  | Some (s, g) :: _ => In (s, g) seen /\ forall s' g', In (s', g') seen -> fltb s' s = false
  | _ => seen = []
  end.
Lemma step_first : forall score graph h h' seen, one_step score graph h h' -> score <> NaN -> no_nan seen -> h <> [] -> first_ok seen h -> first_ok (seen ++ [(score, graph)]) h'.
Proof.
  intros score graph h h' seen S Ns N Ne F.
  assert (K : forall s g, In (s, g) seen -> (forall s' g', In (s', g') seen -> fltb s' s = false) -> fltb score s = false ->
     In (s, g) (seen ++ [(score, graph)]) /\ forall s' g', In (s', g') (seen ++ [(score, graph)]) -> fltb s' s = false).
  { intros s g Hi Hm L. split; [apply in_app_iff; left; exact Hi|]. intros s' g' Hi'. apply in_app_iff in Hi' as [Hi'|[Q|[]]]; [eapply Hm; exact Hi'|]. injection Q as <- <-. exact L. }
  assert (K2 : forall x, behind score x -> first_ok seen [x] -> first_ok (seen ++ [(score, graph)]) [Some (score, graph)]).
  { intros x B Fx. cbn. split; [apply in_app_iff; right; left; reflexivity|]. intros s' g' Hi. apply in_app_iff in Hi as [Hi|[Q|[]]]; [|injection Q as <- <-; apply fltb_irrefl].
    destruct B as [->|(s & g & -> & B)]; cbn in Fx; [subst seen; contradiction|]. destruct Fx as [F0 Fx].
    apply (fltb_neg_trans s' s score); [apply (N s g); exact F0|eapply Fx; exact Hi|apply fltb_asym, B]. }
  assert (K3 : forall l1 y t u, h = l1 ++ y :: t -> Forall (not_worse score) l1 -> behind score y -> first_ok (seen ++ [(score, graph)]) (l1 ++ Some (score, graph) :: u)).
  { intros l1 y t u -> Fl B. destruct l1 as [|z l1]; cbn in *.
    - apply (K2 y B). destruct y as [[? ?]|]; exact F.
    - inversion Fl as [|? ? (s & g & -> & L) _]; subst. destruct F as [F1 F2]. exact (K s g F1 F2 L). }
  destruct S as [Fl|l1 l2 E Fl C|l1 m x r E Fl B Nc C|l1 m x E Fl B Nc].
  - destruct h as [|y h]; [contradiction|]. inversion Fl as [|? ? (s & g & -> & L) _]; subst. destruct F as [F1 F2]. exact (K s g F1 F2 L).
  - destruct l1 as [|y l1]; [inversion C|]. subst h. inversion Fl as [|? ? (s & g & -> & L) _]; subst. destruct F as [F1 F2]. exact (K s g F1 F2 L).
  - destruct m as [|y m]; cbn [hd app] in *; [exact (K3 l1 x r r E Fl B)|exact (K3 l1 y (m ++ x :: r) _ E Fl B)].
  - destruct m as [|y m]; cbn [hd app] in *; [exact (K3 l1 x [] [] E Fl B)|exact (K3 l1 y (m ++ [x]) _ E Fl B)].
Qed.

Lemma run_first : forall pop h h' seen, update_hof h pop = Ok h' -> h <> [] -> no_nan (seen ++ pop) -> first_ok seen h -> first_ok (seen ++ pop) h'.
Proof.
  induction pop as [|[s g] pop IH]; intros h h' seen E Ne N F; cbn [HofModel.update_hof] in E.
  - injection E as <-. rewrite app_nil_r. exact F.
  - destruct (update_one h (s, g)) as [h1|] eqn:E1; [|discriminate]. apply update_one_cases in E1.
    replace (seen ++ (s, g) :: pop) with ((seen ++ [(s, g)]) ++ pop) in * by (rewrite <- app_assoc; reflexivity).
    apply (IH h1 h' _ E).
    + intros ->. apply step_length in E1. destruct h; [contradiction|discriminate].
    + exact N.
    + apply (step_first s g h h1 seen E1); auto.
      * apply (N s g). apply in_app_iff. left. apply in_app_iff. right. left. reflexivity.
      * intros s' g' Hi. apply (N s' g'). apply in_app_iff. left. apply in_app_iff. left. exact Hi.
Qed.

Lemma hof_best : forall n ps h, 0 < n -> hof_run (init_hof G n) ps = Ok h -> no_nan (concat ps) -> concat ps <> [] ->
  exists s g rest, h = Some (s, g) :: rest /\ In (s, g) (concat ps) /\ forall s' g', In (s', g') (concat ps) -> fltb s' s = false.
Proof.
  intros n ps h Ln E N Ne. rewrite hof_run_concat in E.
  pose proof (run_first (concat ps) (init_hof G n) h [] E) as X. cbn [app] in X.
  assert (H0 : init_hof G n <> []) by (destruct n; [lia|discriminate]).
  assert (F0 : first_ok [] (init_hof G n)) by (destruct n; reflexivity).
  specialize (X H0 N F0). destruct h as [|[[s g]|] h]; cbn in X; try contradiction. destruct X as [X1 X2]. exists s, g, h. auto.
Qed.

(* NaN at the top stays there *)
Lemma nan_sticks : forall pop h h' g, update_hof (Some (NaN, g) :: h) pop = Ok h' -> exists r, h' = Some (NaN, g) :: r.
Proof.
  induction pop as [|[s x] pop IH]; intros h h' g E; cbn [HofModel.update_hof] in E; [injection E as <-; eauto|].
  destruct (update_one (Some (NaN, g) :: h) (s, x)) as [h1|] eqn:E1; [|discriminate]. apply update_one_cases in E1.
  assert (X : exists r, h1 = Some (NaN, g) :: r).
  { assert (B : behind s (Some (NaN, g)) -> False). { intros [Q|(s' & g' & Q & B)]; [discriminate|]. injection Q as <- <-. destruct s; discriminate. }
    inversion E1 as [F|l1 l2 Q F C|l1 m y r Q F Bh N C|l1 m y Q F Bh N]; subst; eauto.
    - destruct l1 as [|z l1]; [|injection Q as <- Q; cbn; eauto]. destruct m as [|w m]; cbn in *; injection Q as <- Q; destruct (B Bh).
    - destruct l1 as [|z l1]; [|injection Q as <- Q; cbn; eauto]. destruct m as [|w m]; cbn in *; injection Q as <- Q; destruct (B Bh). }
  destruct X as (r & ->). exact (IH r h' g E).
Qed.
End Proofs.
