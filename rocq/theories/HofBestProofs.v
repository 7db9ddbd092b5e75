(** With an equivalence for similarity, the hall of fame holds the best champions. *)
From Coq Require Import List Arith Bool QArith Qabs Sorted Lia.
From Verif Require Import Base FloatModel HofModel HofSpec HofProofs.
Import ListNotations.
Local Open Scope nat_scope.

Section Best.
Variable G : Type.
Variable sim : G -> G -> res Q.
Variable threshold : Q.
Notation similar := (similar sim threshold).
Notation update_one := (update_one G sim threshold).
Notation update_hof := (update_hof G sim threshold).
Notation champion := (champion sim threshold).
Notation clash := (clash G sim threshold).
Notation no_clash := (no_clash G sim threshold).
Hypothesis Total : forall a b, exists d, sim a b = Ok d.
Hypothesis Sym : forall a b, similar a b -> similar b a.
Hypothesis Trans : forall a b c, similar a b -> similar b c -> similar a c.

Lemma similar_dec : forall a b, {similar a b} + {~ similar a b}.
Proof.
  intros a b. destruct (sim a b) as [d|e] eqn:E.
  - destruct (too_similar threshold d) eqn:T.
    + left. exists d. split; [exact E|apply too_similar_spec; exact T].
    + right. intros (d' & E' & C). rewrite E in E'. injection E' as <-. apply too_similar_spec in C. congruence.
  - right. intros (d' & E' & _). congruence.
Qed.

(** ** Evaluation of one update *)
Lemma si_none : forall h g k, Forall (no_clash g) h -> similar_index G sim threshold h g k = Ok None.
Proof.
  induction h as [|[[s x]|] h IH]; intros g k F; cbn [similar_index]; [reflexivity| |]; inversion F as [|? ? N F']; subst; [|apply IH; exact F'].
  destruct (Total g x) as [d E]. rewrite E. destruct (too_similar threshold d) eqn:T; [|apply IH; exact F'].
  exfalso. apply N. exists s, x. split; [reflexivity|]. exists d. split; [exact E|apply too_similar_spec; exact T].
Qed.
Lemma si_some : forall a g k x b, Forall (no_clash g) a -> clash g x -> similar_index G sim threshold (a ++ x :: b) g k = Ok (Some (k + length a)).
Proof.
  induction a as [|[[s y]|] a IH]; intros g k x b F C; cbn [similar_index app length].
  - destruct C as (s & y & -> & d & E & C). rewrite E. apply too_similar_spec in C. rewrite C. f_equal. f_equal. lia.
  - inversion F as [|? ? N F']; subst. destruct (Total g y) as [d E]. rewrite E. destruct (too_similar threshold d) eqn:T.
    + exfalso. apply N. exists s, y. split; [reflexivity|]. exists d. split; [exact E|apply too_similar_spec; exact T].
    + rewrite IH; auto. f_equal. f_equal. lia.
  - inversion F as [|? ? N F']; subst. rewrite IH; auto. f_equal. f_equal. lia.
Qed.
Lemma ii_none : forall h s j, Forall (not_worse G s) h -> insert_index G h s j = None.
Proof.
  induction h as [|x h IH]; intros s j F; [reflexivity|]. inversion F as [|? ? (s' & g' & -> & L) F']; subst. cbn. rewrite L. apply IH, F'.
Qed.
Lemma ii_some : forall l1 s j x t, Forall (not_worse G s) l1 -> behind G s x -> insert_index G (l1 ++ x :: t) s j = Some (j + length l1).
Proof.
  induction l1 as [|y l1 IH]; intros s j x t F B; cbn [app insert_index length].
  - destruct B as [->|(s' & g' & -> & B)]; [f_equal; lia|]. rewrite B. f_equal. lia.
  - inversion F as [|? ? (s' & g' & -> & L) F']; subst. rewrite L, IH; auto. f_equal. lia.
Qed.

Lemma clash_dec : forall g x, {clash g x} + {no_clash g x}.
Proof.
  intros g [[s y]|].
  - destruct (similar_dec g y) as [D|D]; [left; exists s, y; auto|right]. intros (s' & y' & Q & C). injection Q as <- <-. contradiction.
  - right. intros (s' & y' & Q & _). discriminate.
Qed.
Lemma first_clash : forall g l, Forall (no_clash g) l \/ exists a x b, l = a ++ x :: b /\ Forall (no_clash g) a /\ clash g x.
Proof.
  intros g l. induction l as [|y l IH]; [left; constructor|]. destruct (clash_dec g y) as [C|C].
  - right. exists [], y, l. split; [reflexivity|]. split; [constructor|exact C].
  - destruct IH as [F|(a & x & b & -> & F & C')]; [left; constructor; assumption|right]. exists (y :: a), x, b. split; [reflexivity|]. split; [constructor; assumption|exact C'].
Qed.

Lemma upd_skip : forall h s g, Forall (not_worse G s) h -> update_one h (s, g) = Ok h.
Proof. intros h s g F. unfold HofModel.update_one. rewrite ii_none; auto. Qed.
Lemma upd_similar : forall l1 y t s g, Forall (not_worse G s) l1 -> behind G s y -> Exists (clash g) l1 -> update_one (l1 ++ y :: t) (s, g) = Ok (l1 ++ y :: t).
Proof.
  intros l1 y t s g F B C. unfold HofModel.update_one. rewrite ii_some by auto. destruct (first_clash g l1) as [N|(a & x & b & -> & N & Cx)].
  - apply Exists_exists in C as (x & Hx & C). rewrite Forall_forall in N. destruct (N x Hx C).
  - rewrite <- app_assoc. cbn [app]. rewrite si_some by auto. rewrite app_length. cbn [length Nat.add].
    destruct (Nat.ltb_spec (length a) (length a + S (length b))); [reflexivity|lia].
Qed.
Lemma upd_swap : forall l1 m x r s g, Forall (not_worse G s) l1 -> behind G s (hd x m) -> Forall (no_clash g) (l1 ++ m) -> clash g x ->
  update_one (l1 ++ m ++ x :: r) (s, g) = Ok (l1 ++ Some (s, g) :: m ++ r).
Proof.
  intros l1 m x r s g F B N C. unfold HofModel.update_one.
  assert (X : exists y t, m ++ x :: r = y :: t /\ behind G s y) by (destruct m as [|y m]; cbn in *; eauto). destruct X as (y & t & E & By). rewrite E.
  rewrite ii_some by auto. rewrite <- E. rewrite app_assoc. rewrite si_some by auto. rewrite app_length. cbn [Nat.add].
  destruct (Nat.ltb_spec (length l1 + length m) (length l1)); [lia|]. rewrite <- app_assoc, replace_app. reflexivity.
Qed.
Lemma upd_last : forall l1 m x s g, Forall (not_worse G s) l1 -> behind G s (hd x m) -> Forall (no_clash g) (l1 ++ m ++ [x]) ->
  update_one (l1 ++ m ++ [x]) (s, g) = Ok (l1 ++ Some (s, g) :: m).
Proof.
  intros l1 m x s g F B N. unfold HofModel.update_one.
  assert (X : exists y t, m ++ [x] = y :: t /\ behind G s y) by (destruct m as [|y m]; cbn in *; eauto). destruct X as (y & t & E & By). rewrite E.
  rewrite ii_some by auto. rewrite <- E. rewrite si_none by auto. cbn [Nat.add].
  replace (length (l1 ++ m ++ [x]) - 1) with (length l1 + length m) by (rewrite !app_length; cbn; lia). rewrite replace_app, app_nil_r. reflexivity.
Qed.

(** ** Champions *)
Notation ent := (nat * (fl * G))%type.
Definition lt3 (a b : ent) : Prop := fltb (fst (snd a)) (fst (snd b)) = true \/ fltb (fst (snd b)) (fst (snd a)) = false /\ fst a < fst b.
Definition arch (hist : list (fl * G)) (A : list ent) : Prop :=
  StronglySorted lt3 A /\ forall i s g, In (i, (s, g)) A <-> nth_error hist i = Some (s, g) /\ champion hist i.

Lemma champion_at : forall hist i s g, nth_error hist i = Some (s, g) ->
  (champion hist i <->
    (forall i' s' g', i' < i -> nth_error hist i' = Some (s', g') -> similar g g' -> fltb s s' = true) /\
    (forall i' s' g', i < i' -> nth_error hist i' = Some (s', g') -> similar g g' -> fltb s' s = false)).
Proof.
  intros hist i s g E. split.
  - intros (s0 & g0 & E0 & C). rewrite E in E0. injection E0 as <- <-. exact C.
  - intro C. exists s, g. auto.
Qed.

Lemma nth_last : forall (hist : list (fl * G)) e, nth_error (hist ++ [e]) (length hist) = Some e.
Proof. intros. rewrite nth_error_app2, Nat.sub_diag; auto. Qed.
Lemma nth_old : forall (hist : list (fl * G)) e i, i < length hist -> nth_error (hist ++ [e]) i = nth_error hist i.
Proof. intros. apply nth_error_app1. assumption. Qed.
Lemma nth_lt : forall (hist : list (fl * G)) i e, nth_error hist i = Some e -> i < length hist.
Proof. intros hist i e E. apply nth_error_Some. congruence. Qed.
Lemma nth_cases : forall (hist : list (fl * G)) e i x, nth_error (hist ++ [e]) i = Some x -> (i < length hist /\ nth_error hist i = Some x) \/ (i = length hist /\ x = e).
Proof.
  intros hist e i x E. destruct (Nat.lt_trichotomy i (length hist)) as [L|[->|L]].
  - left. rewrite nth_old in E; auto.
  - right. rewrite nth_last in E. injection E as ->. auto.
  - apply nth_lt in E. rewrite app_length in E. cbn in E. lia.
Qed.

Lemma champion_old : forall hist s g i si gi, nth_error hist i = Some (si, gi) ->
  (champion (hist ++ [(s, g)]) i <-> champion hist i /\ (similar gi g -> fltb s si = false)).
Proof.
  intros hist s g i si gi E. pose proof (nth_lt _ _ _ E) as L.
  rewrite (champion_at hist i si gi E). rewrite (champion_at _ i si gi) by (rewrite nth_old; auto). split.
  - intros [C1 C2]. split; [split|].
    + intros i' s' g' Li Ei. apply (C1 i'); auto. rewrite nth_old; [exact Ei|lia].
    + intros i' s' g' Li Ei. apply (C2 i'); auto. rewrite nth_old; [exact Ei|apply (nth_lt _ _ _ Ei)].
    + apply (C2 (length hist) s g L). apply nth_last.
  - intros [[C1 C2] C3]. split.
    + intros i' s' g' Li Ei. apply (C1 i'); auto. rewrite nth_old in Ei; [exact Ei|lia].
    + intros i' s' g' Li Ei. apply nth_cases in Ei as [[Li' Ei]|[-> Q]]; [apply (C2 i'); auto|]. injection Q as -> ->. exact C3.
Qed.
Lemma champion_new : forall hist s g,
  champion (hist ++ [(s, g)]) (length hist) <-> forall i si gi, nth_error hist i = Some (si, gi) -> similar g gi -> fltb s si = true.
Proof.
  intros hist s g. rewrite (champion_at _ _ s g) by apply nth_last. split.
  - intros [C _] i si gi E. apply (C i); [apply (nth_lt _ _ _ E)|]. rewrite nth_old; [exact E|apply (nth_lt _ _ _ E)].
  - intros C. split.
    + intros i' s' g' L E. apply (C i'). rewrite nth_old in E; auto.
    + intros i' s' g' L E. apply nth_lt in E. rewrite app_length in E. cbn in E. lia.
Qed.

Lemma champions_apart : forall hist i i' s g s' g', nth_error hist i = Some (s, g) -> nth_error hist i' = Some (s', g') ->
  champion hist i -> champion hist i' -> similar g g' -> i = i'.
Proof.
  assert (K : forall hist i i' s g s' g', nth_error hist i = Some (s, g) -> nth_error hist i' = Some (s', g') -> champion hist i -> champion hist i' -> similar g g' -> i < i' -> False).
  { intros hist i i' s g s' g' E E' C C' S L. apply (champion_at hist i s g E) in C as [_ C]. apply (champion_at hist i' s' g' E') in C' as [C' _].
    specialize (C i' s' g' L E' S). specialize (C' i s g L E (Sym _ _ S)). congruence. }
  intros hist i i' s g s' g' E E' C C' S. destruct (Nat.lt_trichotomy i i') as [L|[L|L]]; [exfalso|exact L|exfalso].
  - exact (K hist i i' s g s' g' E E' C C' S L).
  - exact (K hist i' i s' g' s g E' E C' C (Sym _ _ S) L).
Qed.

(* the champion of a kind is as good as everyone of that kind *)
Lemma champion_best : forall hist c sc gc i si gi, no_nan hist -> nth_error hist c = Some (sc, gc) -> champion hist c -> nth_error hist i = Some (si, gi) -> similar gc gi -> fltb si sc = false.
Proof.
  intros hist c sc gc i si gi N Ec C Ei S. apply (champion_at hist c sc gc Ec) in C as [C1 C2]. destruct (Nat.lt_trichotomy i c) as [L|[->|L]].
  - apply fltb_asym. exact (C1 i si gi L Ei S).
  - rewrite Ec in Ei. injection Ei as <- <-. apply fltb_irrefl.
  - exact (C2 i si gi L Ei S).
Qed.

Lemma in_hist_nan : forall hist i s (g : G), no_nan hist -> nth_error hist i = Some (s, g) -> s <> NaN.
Proof. intros hist i s g N E. apply (N s g). eapply nth_error_In. exact E. Qed.

Lemma champion_exists : forall hist, no_nan hist -> forall i si gi, nth_error hist i = Some (si, gi) ->
  exists c sc gc, nth_error hist c = Some (sc, gc) /\ champion hist c /\ (c = i \/ similar gi gc) /\ fltb si sc = false.
Proof.
  intro hist. induction hist as [|[s g] hist IH] using rev_ind; intros N i si gi E; [destruct i; discriminate|].
  assert (N' : no_nan hist). { intros s' g' Hi. apply (N s' g'). apply in_app_iff. left. exact Hi. }
  assert (Ns : s <> NaN). { apply (N s g). apply in_app_iff. right. left. reflexivity. }
  specialize (IH N').
  assert (New : forall c sc gc, nth_error hist c = Some (sc, gc) -> champion hist c -> similar g gc -> fltb s sc = true -> champion (hist ++ [(s, g)]) (length hist)).
  { intros c sc gc Ec Cc Sc L. apply champion_new. intros i' si' gi' Ei' Si'.
    assert (Scc : similar gc gi') by (apply (Trans _ g); auto).
    pose proof (champion_best hist c sc gc i' si' gi' N' Ec Cc Ei' Scc) as Le. destruct (fltb s si') eqn:Q; [reflexivity|].
    assert (X : fltb s sc = false) by (apply (fltb_neg_trans s si' sc); [apply (in_hist_nan hist i' si' gi' N' Ei')|exact Q|exact Le]). congruence. }
  apply nth_cases in E as [[L E]|[-> Q]].
  - destruct (IH i si gi E) as (c & sc & gc & Ec & Cc & K & Le).
    destruct (similar_dec gc g) as [S|S]; [destruct (fltb s sc) eqn:F|].
    + exists (length hist), s, g. split; [apply nth_last|]. split; [apply (New c sc gc); auto|]. split.
      * right. destruct K as [->|K]; [rewrite E in Ec; injection Ec as <- <-; exact S|apply (Trans _ gc); auto].
      * apply (fltb_neg_trans si sc s); [apply (in_hist_nan hist c sc gc N' Ec)|exact Le|apply fltb_asym; exact F].
    + exists c, sc, gc. split; [rewrite nth_old; [exact Ec|apply (nth_lt _ _ _ Ec)]|]. split; [apply (champion_old hist s g c sc gc Ec); auto|auto].
    + exists c, sc, gc. split; [rewrite nth_old; [exact Ec|apply (nth_lt _ _ _ Ec)]|]. split; [apply (champion_old hist s g c sc gc Ec); split; [exact Cc|contradiction]|auto].
  - injection Q as -> ->.
    (* is there already someone similar? *)
    assert (D : (exists j sj gj, nth_error hist j = Some (sj, gj) /\ similar g gj) \/ forall j sj gj, nth_error hist j = Some (sj, gj) -> ~ similar g gj).
    { clear. induction hist as [|[s' g'] hist IH]; [right; intros [|j] ? ? E; discriminate|]. destruct (similar_dec g g') as [S|S].
      - left. exists 0, s', g'. auto.
      - destruct IH as [(j & sj & gj & E & Sj)|IH]; [left; exists (1 + j), sj, gj; auto|]. right. intros [|j] sj gj E; cbn in E; [injection E as <- <-; exact S|exact (IH j sj gj E)]. }
    destruct D as [(j & sj & gj & Ej & Sj)|D].
    + destruct (IH j sj gj Ej) as (c & sc & gc & Ec & Cc & K & Le).
      assert (Sc : similar g gc). { destruct K as [->|K]; [rewrite Ej in Ec; injection Ec as <- <-; exact Sj|apply (Trans _ gj); auto]. }
      destruct (fltb s sc) eqn:F.
      * exists (length hist), s, g. split; [apply nth_last|]. split; [apply (New c sc gc); auto|]. split; [auto|apply fltb_irrefl].
      * exists c, sc, gc. split; [rewrite nth_old; [exact Ec|apply (nth_lt _ _ _ Ec)]|]. split; [apply (champion_old hist s g c sc gc Ec); auto|auto].
    + exists (length hist), s, g. split; [apply nth_last|]. split; [|split; [auto|apply fltb_irrefl]].
      apply champion_new. intros j sj gj Ej Sj. destruct (D j sj gj Ej Sj).
Qed.

(** ** The full ranking after one more presentation *)
Definition simb (g : G) (a : ent) : bool := if similar_dec g (snd (snd a)) then true else false.
Lemma simb_true : forall g a, simb g a = true <-> similar g (snd (snd a)).
Proof. intros g a. unfold simb. destruct (similar_dec g (snd (snd a))); split; auto; discriminate. Qed.
Lemma simb_false : forall g a, simb g a = false <-> ~ similar g (snd (snd a)).
Proof. intros g a. unfold simb. destruct (similar_dec g (snd (snd a))); split; auto; try discriminate; contradiction. Qed.

Lemma arch_stays : forall hist A s g c sc gc, no_nan hist -> arch hist A -> In (c, (sc, gc)) A -> similar g gc -> fltb s sc = false -> arch (hist ++ [(s, g)]) A.
Proof.
  intros hist A s g c sc gc N [So Mem] Hc Sc Le. split; [exact So|]. intros i si gi. apply Mem in Hc as [Ec Cc]. split.
  - intro Hi. apply Mem in Hi as [Ei Ci]. split; [rewrite nth_old; [exact Ei|apply (nth_lt _ _ _ Ei)]|].
    apply (champion_old hist s g i si gi Ei). split; [exact Ci|]. intro S.
    assert (i = c). { apply (champions_apart hist i c si gi sc gc Ei Ec Ci Cc). apply (Trans _ g); auto. } subst i.
    rewrite Ec in Ei. injection Ei as <- <-. exact Le.
  - intros [Ei Ci]. apply nth_cases in Ei as [[L Ei]|[-> Q]].
    + apply Mem. split; [exact Ei|]. apply (champion_old hist s g i si gi Ei) in Ci. apply Ci.
    + exfalso. rewrite champion_new in Ci. specialize (Ci c sc gc Ec Sc). congruence.
Qed.

Lemma filter_sorted : forall (R : ent -> ent -> Prop) f l, StronglySorted R l -> StronglySorted R (filter f l).
Proof.
  intros R f l S. induction S as [|a l S IH F]; cbn; [constructor|]. destruct (f a); [|exact IH]. constructor; [exact IH|].
  apply Forall_forall. intros x Hx. apply filter_In in Hx as [Hx _]. rewrite Forall_forall in F. auto.
Qed.

Lemma arch_grows : forall hist A1 B s g, no_nan hist -> s <> NaN -> arch hist (A1 ++ B) ->
  Forall (fun a => fltb s (fst (snd a)) = false) A1 -> Forall (fun a => fltb s (fst (snd a)) = true) B -> Forall (fun a => ~ similar g (snd (snd a))) A1 ->
  arch (hist ++ [(s, g)]) (A1 ++ (length hist, (s, g)) :: filter (fun a => negb (simb g a)) B).
Proof.
  intros hist A1 B s g N Ns [So Mem] F1 FB NS.
  assert (Idx : forall a, In a (A1 ++ B) -> fst a < length hist). { intros [i [si gi]] Ha. apply Mem in Ha as [E _]. exact (nth_lt _ _ _ E). }
  split.
  - apply sorted_app in So as (S1 & S2 & S3). apply sorted_app. split; [exact S1|]. split.
    + constructor; [apply filter_sorted; exact S2|]. apply Forall_forall. intros b Hb. apply filter_In in Hb as [Hb _]. rewrite Forall_forall in FB. left. cbn. apply FB. exact Hb.
    + intros a b Ha [<-|Hb].
      * right. cbn. split; [rewrite Forall_forall in F1; apply F1; exact Ha|apply Idx, in_app_iff; left; exact Ha].
      * apply filter_In in Hb as [Hb _]. apply S3; assumption.
  - intros i si gi. split.
    + intro Hi. apply in_app_iff in Hi as [Hi|[Q|Hi]].
      * assert (Hi' : In (i, (si, gi)) (A1 ++ B)) by (apply in_app_iff; left; exact Hi). apply Mem in Hi' as [Ei Ci].
        split; [rewrite nth_old; [exact Ei|apply (nth_lt _ _ _ Ei)]|]. apply (champion_old hist s g i si gi Ei). split; [exact Ci|]. intros _.
        rewrite Forall_forall in F1. apply (F1 _ Hi).
      * injection Q as <- <- <-. split; [apply nth_last|]. apply champion_new. intros j sj gj Ej Sj.
        destruct (champion_exists hist N j sj gj Ej) as (c & sc & gc & Ec & Cc & K & Le).
        assert (Sc : similar g gc). { destruct K as [->|K]; [rewrite Ej in Ec; injection Ec as <- <-; exact Sj|apply (Trans _ gj); auto]. }
        assert (Hc : In (c, (sc, gc)) (A1 ++ B)) by (apply Mem; auto). apply in_app_iff in Hc as [Hc|Hc].
        { rewrite Forall_forall in NS. destruct (NS _ Hc Sc). }
        rewrite Forall_forall in FB. specialize (FB _ Hc). cbn in FB. destruct (fltb s sj) eqn:Q; [reflexivity|].
        assert (X : fltb s sc = false) by (apply (fltb_neg_trans s sj sc); [apply (in_hist_nan hist j sj gj N Ej)|exact Q|exact Le]). congruence.
      * apply filter_In in Hi as [Hi Fi]. apply negb_true_iff, simb_false in Fi. cbn in Fi.
        assert (Hi' : In (i, (si, gi)) (A1 ++ B)) by (apply in_app_iff; right; exact Hi). apply Mem in Hi' as [Ei Ci].
        split; [rewrite nth_old; [exact Ei|apply (nth_lt _ _ _ Ei)]|]. apply (champion_old hist s g i si gi Ei). split; [exact Ci|]. intro S. destruct (Fi (Sym _ _ S)).
    + intros [Ei Ci]. apply nth_cases in Ei as [[L Ei]|[-> Q]].
      * apply (champion_old hist s g i si gi Ei) in Ci as [Ci K]. assert (Hi : In (i, (si, gi)) (A1 ++ B)) by (apply Mem; auto).
        apply in_app_iff in Hi as [Hi|Hi]; apply in_app_iff; [left; exact Hi|right; right]. apply filter_In. split; [exact Hi|].
        apply negb_true_iff, simb_false. cbn. intro S. rewrite Forall_forall in FB. specialize (FB _ Hi). cbn in FB. specialize (K (Sym _ _ S)). congruence.
      * injection Q as -> ->. apply in_app_iff. right. left. reflexivity.
Qed.

Definition view (a : ent) : slot G := Some (snd a).
Definition shown (n : nat) (A : list ent) : hof G := firstn n (map view A ++ repeat None n).

Lemma split_rank : forall A s, s <> NaN -> (forall a, In a A -> fst (snd a) <> NaN) -> StronglySorted lt3 A ->
  exists A1 B, A = A1 ++ B /\ Forall (fun a => fltb s (fst (snd a)) = false) A1 /\ Forall (fun a => fltb s (fst (snd a)) = true) B.
Proof.
  intros A s Ns N So. induction So as [|a A So IH F]; [exists [], []; split; [reflexivity|split; constructor]|].
  destruct IH as (A1 & B & -> & F1 & F2); [intros b Hb; apply N; right; exact Hb|]. destruct (fltb s (fst (snd a))) eqn:E.
  - exists [], (a :: A1 ++ B). split; [reflexivity|]. split; [constructor|]. constructor; [exact E|]. apply Forall_forall. intros b Hb.
    rewrite Forall_forall in F. specialize (F b Hb). destruct F as [F|[F _]]; [apply (fltb_trans _ _ _ E F)|].
    destruct (fltb s (fst (snd b))) eqn:Q; [reflexivity|]. exfalso.
    assert (X : fltb s (fst (snd a)) = false) by (apply (fltb_neg_trans s (fst (snd b)) (fst (snd a))); [apply N; right; exact Hb|exact Q|exact F]). congruence.
  - exists (a :: A1), B. split; [reflexivity|]. split; [constructor; assumption|exact F2].
Qed.

Lemma map_view_nw : forall A s, Forall (fun a => fltb s (fst (snd a)) = false) A -> Forall (not_worse G s) (map view A).
Proof. intros A s F. apply Forall_forall. intros x Hx. apply in_map_iff in Hx as ([i [si gi]] & <- & Hx). rewrite Forall_forall in F. exists si, gi. split; [reflexivity|exact (F _ Hx)]. Qed.
Lemma view_clash : forall g a, clash g (view a) <-> similar g (snd (snd a)).
Proof.
  intros g [i [si gi]]. cbn. split.
  - intros (s & x & Q & C). injection Q as <- <-. exact C.
  - intro C. exists si, gi. auto.
Qed.

Lemma shown_nil_pad : forall n k (X : list (slot G)), n <= length X + k -> firstn n (X ++ repeat None k) = firstn n (X ++ repeat None n).
Proof.
  intros n k X L. rewrite !firstn_app. f_equal. revert k L. generalize (length X) as t. intros t k L.
  assert (P : forall a b, a <= b -> firstn a (repeat (@None (fl * G)) b) = repeat None a).
  { induction a as [|a IH]; intros b Lb; [reflexivity|]. destruct b as [|b]; [lia|]. cbn. rewrite IH; [reflexivity|lia]. }
  rewrite !P by lia. reflexivity.
Qed.

Lemma filter_all : forall (f : ent -> bool) l, (forall a, In a l -> f a = true) -> filter f l = l.
Proof. intros f l. induction l as [|a l IH]; intro H; [reflexivity|]. cbn. rewrite (H a) by (left; reflexivity). rewrite IH; [reflexivity|]. intros b Hb. apply H. right. exact Hb. Qed.

Lemma step_shown : forall n hist A s g, no_nan hist -> s <> NaN -> arch hist A ->
  exists A', arch (hist ++ [(s, g)]) A' /\ update_one (shown n A) (s, g) = Ok (shown n A').
Proof.
  intros n hist A s g N Ns Ar.
  assert (NA : forall a, In a A -> fst (snd a) <> NaN). { intros [i [si gi]] Ha. apply (proj2 Ar) in Ha as [E _]. exact (in_hist_nan hist i si gi N E). }
  destruct (split_rank A s Ns NA (proj1 Ar)) as (A1 & B & -> & F1 & FB). pose proof (map_view_nw A1 s F1) as NW.
  (* at most one similar graph in the ranking *)
  assert (One : forall x y R T, A1 ++ B = R ++ x :: T -> In y (R ++ T) -> similar g (snd (snd x)) -> ~ similar g (snd (snd y))).
  { intros x y R T E Hy Sx Sy. destruct Ar as [So Mem]. destruct x as [i [si gi]], y as [j [sj gj]]. cbn in *.
    assert (Hx : In (i, (si, gi)) (A1 ++ B)) by (rewrite E; apply in_app_iff; right; left; reflexivity).
    assert (Hy' : In (j, (sj, gj)) (A1 ++ B)) by (rewrite E; apply in_app_iff; apply in_app_iff in Hy as [Hy|Hy]; [left|right; right]; exact Hy).
    apply Mem in Hx as [Ei Ci]. apply Mem in Hy' as [Ej Cj].
    assert (i = j). { apply (champions_apart hist i j si gi sj gj Ei Ej Ci Cj). apply (Trans _ g); auto. } subst j.
    rewrite Ei in Ej. injection Ej as <- <-. rewrite E in So. apply sorted_app in So as (_ & So & Cross). inversion So as [|? ? So' Fx]; subst.
    apply in_app_iff in Hy as [Hy|Hy].
    - specialize (Cross _ (i, (si, gi)) Hy (or_introl eq_refl)). destruct Cross as [X|[_ X]]; [rewrite fltb_irrefl in X; discriminate|lia].
    - rewrite Forall_forall in Fx. destruct (Fx _ Hy) as [X|[_ X]]; [rewrite fltb_irrefl in X; discriminate|cbn in X; lia]. }
  destruct (existsb (simb g) A1) eqn:Ex.
  { (* a similar graph that is as good *)
    apply existsb_exists in Ex as ([c [sc gc]] & Hc & Sc). apply simb_true in Sc. cbn in Sc.
    exists (A1 ++ B). split.
    - apply (arch_stays hist _ s g c sc gc N Ar); [apply in_app_iff; left; exact Hc|exact Sc|]. rewrite Forall_forall in F1. exact (F1 _ Hc).
    - unfold shown. rewrite map_app, <- app_assoc. destruct (le_lt_dec n (length A1)) as [L|L].
      + apply upd_skip. rewrite firstn_app, map_length. replace (n - length A1) with 0 by lia. rewrite app_nil_r. apply Forall_forall. intros x Hx.
        rewrite Forall_forall in NW. apply NW. rewrite <- (firstn_skipn n). apply in_app_iff. left. exact Hx.
      + rewrite firstn_app, map_length, firstn_all2 by (rewrite map_length; lia). destruct (n - length A1) as [|d] eqn:D; [lia|].
        destruct B as [|b B]; cbn [map app].
        * destruct n as [|n]; [lia|]. cbn [repeat firstn]. apply upd_similar; auto; [left; reflexivity|]. apply Exists_exists. exists (view (c, (sc, gc))). split; [apply in_map; exact Hc|apply view_clash; exact Sc].
        * cbn [firstn]. apply upd_similar; auto.
          -- right. destruct b as [ib [sb gb]]. exists sb, gb. split; [reflexivity|]. inversion FB; assumption.
          -- apply Exists_exists. exists (view (c, (sc, gc))). split; [apply in_map; exact Hc|apply view_clash; exact Sc]. }
  assert (NS : Forall (fun a => ~ similar g (snd (snd a))) A1).
  { apply Forall_forall. intros a Ha. apply simb_false. apply not_true_is_false. intro T. apply not_true_iff_false in Ex. apply Ex. apply existsb_exists. eauto. }
  exists (A1 ++ (length hist, (s, g)) :: filter (fun a => negb (simb g a)) B). split; [apply arch_grows; assumption|].
  assert (NC1 : Forall (no_clash g) (map view A1)).
  { apply Forall_forall. intros x Hx. apply in_map_iff in Hx as (a & <- & Ha). rewrite Forall_forall in NS. intro C. apply view_clash in C. exact (NS a Ha C). }
  unfold shown. rewrite !map_app, <- !app_assoc. cbn [map].
  destruct (le_lt_dec n (length A1)) as [L|L].
  { rewrite !(firstn_app n (map view A1)), map_length. replace (n - length A1) with 0 by lia. cbn [firstn]. rewrite !app_nil_r. apply upd_skip. apply Forall_forall. intros x Hx.
    rewrite Forall_forall in NW. apply NW. rewrite <- (firstn_skipn n). apply in_app_iff. left. exact Hx. }
  rewrite !(firstn_app n (map view A1)), map_length, !firstn_all2 by (rewrite map_length; lia).
  remember (n - length A1) as d eqn:D. assert (Dp : 0 < d) by lia.
  assert (BehB : forall b, In b B -> behind G s (view b)). { intros [ib [sb gb]] Hb. right. exists sb, gb. split; [reflexivity|]. rewrite Forall_forall in FB. exact (FB _ Hb). }
  (* the visible part of B *)
  destruct (existsb (simb g) (firstn d B)) eqn:Vis.
  - (* the similar graph is visible *)
    assert (X : exists R x T, B = R ++ x :: T /\ length R < d /\ similar g (snd (snd x))).
    { apply existsb_exists in Vis as (x & Hx & Sx). apply simb_true in Sx. apply in_split in Hx as (R & T & E).
      exists R, x, (T ++ skipn d B). split; [rewrite <- (firstn_skipn d B) at 1; rewrite E, <- app_assoc; reflexivity|]. split; [|exact Sx].
      assert (Y : length (firstn d B) <= d) by apply firstn_le_length. rewrite E, app_length in Y. cbn in Y. lia. }
    destruct X as (R & x & T & -> & LR & Sx).
    assert (FR : forall y, In y (R ++ T) -> simb g y = false).
    { intros y Hy. apply simb_false. apply (One x y (A1 ++ R) T); [rewrite <- app_assoc; reflexivity| |exact Sx]. rewrite <- app_assoc. apply in_app_iff. right. exact Hy. }
    assert (FE : filter (fun a => negb (simb g a)) (R ++ x :: T) = R ++ T).
    { rewrite filter_app. cbn [filter]. apply simb_true in Sx. rewrite Sx. cbn [negb]. rewrite <- filter_app. apply filter_all. intros y Hy. rewrite FR; auto. }
    rewrite FE. rewrite !map_app. cbn [map app]. rewrite <- !app_assoc. cbn [app].
    destruct d as [|d]; [lia|].
    assert (E1 : firstn (S d) (map view R ++ view x :: map view T ++ repeat None n) = map view R ++ view x :: firstn (d - length R) (map view T ++ repeat None n)).
    { rewrite firstn_app, map_length, firstn_all2 by (rewrite map_length; lia). f_equal. replace (S d - length R) with (S (d - length R)) by lia. reflexivity. }
    assert (E2 : firstn (S d) (view (length hist, (s, g)) :: map view R ++ map view T ++ repeat None n) = Some (s, g) :: map view R ++ firstn (d - length R) (map view T ++ repeat None n)).
    { cbn [firstn]. f_equal. rewrite firstn_app, map_length, firstn_all2 by (rewrite map_length; lia). reflexivity. }
    rewrite E1, E2. apply upd_swap; auto.
    + destruct R as [|y R]; cbn; apply BehB; cbn; [left; reflexivity|left; reflexivity].
    + apply Forall_app. split; [exact NC1|]. apply Forall_forall. intros z Hz. apply in_map_iff in Hz as (a & <- & Ha). intro C. apply view_clash in C.
      apply (proj1 (simb_false g a)); [apply FR, in_app_iff; left; exact Ha|exact C].
    + apply view_clash. exact Sx.
  - (* no similar graph is visible: the last slot goes *)
    assert (FV : forall a, In a (firstn d B) -> simb g a = false).
    { intros a Ha. apply not_true_is_false. intro T. apply not_true_iff_false in Vis. apply Vis. apply existsb_exists. eauto. }
    remember (firstn d (map view B ++ repeat None n)) as T eqn:ET.
    assert (LT : length T = d). { rewrite ET. apply firstn_length_le. rewrite app_length, repeat_length. lia. }
    assert (BT : forall x, In x T -> behind G s x /\ no_clash g x).
    { intros x Hx. rewrite ET, firstn_app in Hx. apply in_app_iff in Hx as [Hx|Hx].
      - rewrite firstn_map in Hx. apply in_map_iff in Hx as (a & <- & Ha). split.
        + apply BehB. rewrite <- (firstn_skipn d B). apply in_app_iff. left. exact Ha.
        + intro C. apply view_clash in C. apply (proj1 (simb_false g a) (FV a Ha) C).
      - assert (In x (repeat None n)) as Hx'. { rewrite <- (firstn_skipn (d - length (map view B)) (repeat None n)). apply in_app_iff. left. exact Hx. }
        apply repeat_spec in Hx'.
        subst x. split; [left; reflexivity|]. intros (? & ? & Q & _). discriminate. }
    assert (XT : exists m x, T = m ++ [x]). { destruct T as [|t T]; [cbn in LT; lia|]. destruct (last_split _ t T) as (m & x & E). eauto. }
    destruct XT as (m & x & EQ).
    assert (E2 : firstn d (view (length hist, (s, g)) :: map view (filter (fun a => negb (simb g a)) B) ++ repeat None n) = Some (s, g) :: m).
    { destruct d as [|d]; [lia|]. cbn [firstn]. f_equal.
      assert (Em : m = firstn d T). { rewrite EQ, firstn_app. rewrite EQ, app_length in LT. cbn in LT. replace (d - length m) with 0 by lia. rewrite app_nil_r, firstn_all2 by lia. reflexivity. }
      rewrite Em, ET, firstn_firstn. replace (Nat.min d (S d)) with d by lia.
      assert (Hf : filter (fun a => negb (simb g a)) B = firstn (S d) B ++ filter (fun a => negb (simb g a)) (skipn (S d) B)).
      { rewrite <- (firstn_skipn (S d) B) at 1. rewrite filter_app. f_equal. apply filter_all. intros a Ha. rewrite FV; auto. }
      rewrite Hf. destruct (le_lt_dec (S d) (length B)) as [LB|LB].
      - rewrite <- (firstn_skipn (S d) B) at 3. rewrite !map_app, <- !app_assoc.
        rewrite !(firstn_app d (map view (firstn (S d) B))). assert (LF : length (map view (firstn (S d) B)) = S d) by (rewrite map_length; apply firstn_length_le; exact LB). rewrite LF. replace (d - S d) with 0 by lia. rewrite !firstn_O. reflexivity.
      - rewrite skipn_all2 by lia. cbn [filter]. rewrite app_nil_r, (firstn_all2 B) by lia. reflexivity. }
    cbn [app]. rewrite E2. rewrite EQ. apply upd_last; auto.
    + destruct m as [|y m]; cbn; apply BT; rewrite EQ; [left; reflexivity|left; reflexivity].
    + apply Forall_app. split; [exact NC1|]. rewrite <- EQ. apply Forall_forall. intros y Hy. apply BT. exact Hy.
Qed.

Lemma arch_nil : arch [] [].
Proof. split; [constructor|]. intros i s g. split; [intros []|]. intros [E _]. destruct i; discriminate. Qed.

Lemma run_shown : forall pop n hist A, no_nan (hist ++ pop) -> arch hist A ->
  exists A', arch (hist ++ pop) A' /\ update_hof (shown n A) pop = Ok (shown n A').
Proof.
  induction pop as [|[s g] pop IH]; intros n hist A N Ar.
  - exists A. rewrite app_nil_r. split; [exact Ar|reflexivity].
  - assert (N1 : no_nan hist). { intros s' g' Hi. apply (N s' g'). apply in_app_iff. left. exact Hi. }
    assert (Ns : s <> NaN). { apply (N s g). apply in_app_iff. right. left. reflexivity. }
    destruct (step_shown n hist A s g N1 Ns Ar) as (A1 & Ar1 & E1). cbn [HofModel.update_hof]. rewrite E1.
    replace (hist ++ (s, g) :: pop) with ((hist ++ [(s, g)]) ++ pop) in * by (rewrite <- app_assoc; reflexivity).
    exact (IH n _ A1 N Ar1).
Qed.

Lemma hof_holds_best : forall n ps, no_nan (concat ps) ->
  exists h, hof_run G sim threshold (init_hof G n) ps = Ok h /\ holds_best sim threshold (concat ps) n h.
Proof.
  intros n ps N. rewrite hof_run_concat. destruct (run_shown (concat ps) n [] [] N arch_nil) as (A & [So Mem] & E). cbn [app] in *.
  exists (shown n A). split.
  - rewrite <- E. f_equal. unfold shown, init_hof. cbn [map app]. rewrite firstn_all2; [reflexivity|rewrite repeat_length; lia].
  - exists (map fst A). split; [|split].
    + clear E. assert (K : forall a, In a A -> nth_error (concat ps) (fst a) = Some (snd a)). { intros [i [s g]] Ha. apply Mem in Ha as [Ei _]. exact Ei. }
      clear Mem. induction So as [|a A So IH F]; cbn; [constructor|]. constructor; [apply IH; intros b Hb; apply K; right; exact Hb|].
      apply Forall_forall. intros i Hi. apply in_map_iff in Hi as (b & <- & Hb). rewrite Forall_forall in F. specialize (F b Hb).
      exists (fst (snd a)), (snd (snd a)), (fst (snd b)), (snd (snd b)). rewrite <- !surjective_pairing.
      split; [apply K; left; reflexivity|]. split; [apply K; right; exact Hb|exact F].
    + intro i. split.
      * intro Hi. apply in_map_iff in Hi as ([j [s g]] & <- & Ha). apply Mem in Ha. apply Ha.
      * intro C. destruct C as (s & g & Ei & C). apply in_map_iff. exists (i, (s, g)). split; [reflexivity|]. apply Mem. split; [exact Ei|]. exists s, g. auto.
    + unfold shown. rewrite map_map. f_equal. f_equal. apply map_ext_in. intros [i [s g]] Ha. apply Mem in Ha as [Ei _]. cbn. rewrite Ei. reflexivity.
Qed.

(* no two similar graphs *)
Lemma holds_best_diverse : forall hist n h, holds_best sim threshold hist n h ->
  forall a x b y c, h = a ++ Some x :: b ++ Some y :: c -> ~ similar (snd x) (snd y).
Proof.
  intros hist n h (R & So & Mem & E) a x b y c Eh S. rewrite Eh in E.
  assert (X : exists T, map (nth_error hist) R ++ repeat None n = (a ++ Some x :: b ++ [Some y]) ++ T).
  { exists (c ++ skipn n (map (nth_error hist) R ++ repeat None n)). rewrite <- (firstn_skipn n (map (nth_error hist) R ++ repeat None n)) at 1. rewrite <- E.
    rewrite <- !app_assoc. cbn. rewrite <- !app_assoc. reflexivity. }
  destruct X as (T & X). clear E.
  assert (Cut : forall (m : list nat) P z Q k, map (nth_error hist) m ++ repeat None k = P ++ Some z :: Q -> exists m1 i m2, m = m1 ++ i :: m2 /\ P = map (nth_error hist) m1 /\ nth_error hist i = Some z /\ Q = map (nth_error hist) m2 ++ repeat None k).
  { intros m P. revert m. induction P as [|p P IH]; intros m z Q k Em.
    - destruct m as [|i m]; cbn in Em; [destruct k; discriminate|]. injection Em as E1 E2. exists [], i, m. auto.
    - destruct m as [|i m]; cbn in Em.
      + destruct k as [|k]; [discriminate|]. cbn in Em. injection Em as <- Em. exfalso. assert (Y : In (Some z) (repeat (@None (fl * G)) k)) by (rewrite Em; apply in_app_iff; right; left; reflexivity). apply repeat_spec in Y. discriminate.
      + injection Em as <- Em. destruct (IH m z Q k Em) as (m1 & i' & m2 & -> & -> & E1 & E2). exists (i :: m1), i', m2. auto. }
  replace ((a ++ Some x :: b ++ [Some y]) ++ T) with (a ++ Some x :: b ++ Some y :: T) in X by (rewrite <- !app_assoc; cbn; rewrite <- !app_assoc; reflexivity).
  destruct (Cut R a x _ n X) as (m1 & i & m2 & -> & _ & Ei & X2). symmetry in X2. destruct (Cut m2 b y T n X2) as (m3 & j & m4 & -> & _ & Ej & _).
  assert (i = j). { destruct x as [s g], y as [s' g']. apply (champions_apart hist i j s g s' g' Ei Ej); [apply Mem, in_app_iff; right; left; reflexivity| |exact S].
    apply Mem, in_app_iff. right. right. apply in_app_iff. right. left. reflexivity. }
  subst j. apply sorted_app in So as (_ & So & _). inversion So as [|? ? _ F]; subst. rewrite Forall_forall in F.
  destruct (F i) as (s & g & s' & g' & E1 & E2 & K); [apply in_app_iff; right; left; reflexivity|]. rewrite E1 in E2. injection E2 as <- <-.
  rewrite fltb_irrefl in K. destruct K as [K|[_ K]]; [discriminate|lia].
Qed.
End Best.
