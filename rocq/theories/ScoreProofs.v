(** Sensitivity scores (C43). *)
From Coq Require Import List Arith Bool Lia ZArith QArith Qabs Lqa Permutation.
From Verif Require Import Base GraphModel GraphSpec GraphProofs OperatorsModel ParamsModel ParamsSpec ParamsProofs EvolverModel ScoreSpec MatrixProofs.
Import ListNotations.
Local Open Scope nat_scope.

Lemma sums_qsum : forall l, sums l (qsum l).
Proof. induction l as [|a r IH]; [constructor|]. econstructor; [exact IH|reflexivity]. Qed.

Lemma sums_eq : forall l s s', sums l s -> sums l s' -> (s == s')%Q.
Proof.
  induction l as [|a r IH]; intros s s' H H'; inversion H; inversion H'; subst; [reflexivity|].
  match goal with A : sums r ?x, B : sums r ?y |- _ => pose proof (IH _ _ A B) end. lra.
Qed.

Lemma nth_error_nth' : forall {A} (l : list A) i d a, nth_error l i = Some a -> nth i l d = a.
Proof. intros A l; induction l as [|x r IH]; intros [|i] d a H; simpl in *; try discriminate; [congruence|apply IH; exact H]. Qed.

Lemma nth_error_seq_id : forall n i a, i < n -> nth_error (seq a n) i = Some (a + i).
Proof.
  induction n as [|n IH]; intros i a H; [lia|]. destruct i as [|i]; simpl; [f_equal; lia|]. rewrite IH by lia. f_equal; lia.
Qed.

Lemma param_scores_length : forall h, length (param_scores h) = length h.
Proof. intros h; unfold param_scores. rewrite map_length, seq_length. reflexivity. Qed.

Lemma param_score_nth : forall h i, i < length h ->
  nth_error (param_scores h) i = Some ((qsum (map Qabs (col i h)) + qsum (map Qabs (nth i h []))) / (2 * inject_Z (Z.of_nat (length h))))%Q.
Proof.
  intros h i H. unfold param_scores. rewrite (map_nth_error _ i (seq 0 (length h)) (d := i)); [reflexivity|].
  rewrite nth_error_seq_id by exact H. reflexivity.
Qed.

Lemma two_n_pos : forall n, 0 < n -> (0 < 2 * inject_Z (Z.of_nat n))%Q.
Proof. intros n H. assert (0 < inject_Z (Z.of_nat n))%Q. { change 0%Q with (inject_Z 0). rewrite <- Zlt_Qlt. lia. } lra. Qed.

Lemma param_score_coupling : forall h i q, square h -> nth_error (param_scores h) i = Some q -> coupling h i q.
Proof.
  intros h i q Sq H. assert (Hi : i < length h) by (rewrite <- (param_scores_length h); apply nth_error_Some; congruence).
  rewrite (param_score_nth h i Hi) in H. injection H as <-.
  destruct (nth_error h i) as [ri|] eqn:Er; [|apply nth_error_None in Er; lia].
  assert (Hri : length ri = length h) by (apply Sq; eapply nth_error_In; exact Er).
  rewrite (nth_error_nth' h i [] ri Er).
  exists (map Qabs ri), (map Qabs (col i h)), (qsum (map Qabs ri)), (qsum (map Qabs (col i h))).
  split; [rewrite map_length; exact Hri|]. split; [unfold col; rewrite !map_length; reflexivity|]. split; [|split; [apply sums_qsum|split; [apply sums_qsum|]]].
  - intros j Hj. destruct (nth_error ri j) as [a|] eqn:Ea; [|apply nth_error_None in Ea; lia].
    destruct (nth_error h j) as [rj|] eqn:Ej; [|apply nth_error_None in Ej; lia].
    assert (Hrj : length rj = length h) by (apply Sq; eapply nth_error_In; exact Ej).
    destruct (nth_error rj i) as [b|] eqn:Eb; [|apply nth_error_None in Eb; lia].
    exists a, b. split; [exists ri; auto|]. split; [exists rj; auto|]. split; [apply map_nth_error; exact Ea|].
    apply map_nth_error. unfold col. erewrite map_nth_error by exact Ej. f_equal. apply nth_error_nth'. exact Eb.
  - pose proof (two_n_pos (length h) ltac:(lia)). field. lra.
Qed.

Lemma qsum_nonneg : forall l, (forall q, In q l -> 0 <= q)%Q -> (0 <= qsum l)%Q.
Proof. induction l as [|a r IH]; intros H; simpl; [lra|]. pose proof (H a (or_introl eq_refl)). specialize (IH (fun q Hq => H q (or_intror Hq))). lra. Qed.

Lemma qsum_zero : forall l, (forall q, In q l -> 0 <= q)%Q -> (qsum l == 0)%Q -> forall q, In q l -> (q == 0)%Q.
Proof.
  induction l as [|a r IH]; intros H Z q Hq; [destruct Hq|]. simpl in Z. destruct Hq as [->|Hq].
  - pose proof (H q (or_introl eq_refl)). pose proof (qsum_nonneg r (fun x Hx => H x (or_intror Hx))). lra.
  - pose proof (H a (or_introl eq_refl)). pose proof (qsum_nonneg r (fun x Hx => H x (or_intror Hx))). apply IH; [intros; apply H; right; assumption|lra|exact Hq].
Qed.

Lemma param_score_sign : forall h i q, square h -> nth_error (param_scores h) i = Some q ->
  (0 <= q)%Q /\ ((q == 0)%Q <-> forall j a b, entry h i j a -> entry h j i b -> (a == 0)%Q /\ (b == 0)%Q).
Proof.
  intros h i q Sq H. assert (Hi : i < length h) by (rewrite <- (param_scores_length h); apply nth_error_Some; congruence).
  destruct (param_score_coupling h i q Sq H) as (r & c & sr & sc & Lr & Lc & El & Hr & Hc & Eq).
  pose proof (two_n_pos (length h) ltac:(lia)) as P.
  pose proof (sums_eq _ _ _ Hr (sums_qsum r)) as E1. pose proof (sums_eq _ _ _ Hc (sums_qsum c)) as E2.
  assert (Nr : forall x, In x r -> (0 <= x)%Q).
  { intros x Hx. apply In_nth_error in Hx; destruct Hx as (j & Hj). assert (j < length h) by (rewrite <- Lr; apply nth_error_Some; congruence).
    destruct (El j ltac:(assumption)) as (a & b & _ & _ & E & _). assert (x = Qabs a) by congruence. subst x. apply Qabs_nonneg. }
  assert (Nc : forall x, In x c -> (0 <= x)%Q).
  { intros x Hx. apply In_nth_error in Hx; destruct Hx as (j & Hj). assert (j < length h) by (rewrite <- Lc; apply nth_error_Some; congruence).
    destruct (El j ltac:(assumption)) as (a & b & _ & _ & _ & E). assert (x = Qabs b) by congruence. subst x. apply Qabs_nonneg. }
  pose proof (qsum_nonneg r Nr). pose proof (qsum_nonneg c Nc). split.
  - destruct (Qlt_le_dec q 0) as [L|L]; [|exact L]. exfalso.
    assert (q * (2 * inject_Z (Z.of_nat (length h))) < 0)%Q. { setoid_replace 0%Q with (0 * (2 * inject_Z (Z.of_nat (length h))))%Q by ring. apply Qmult_lt_compat_r; assumption. } lra.
  - split.
    + intros Z j a b Ha Hb. assert (Hj : j < length h). { destruct Hb as (rj & E & _). apply nth_error_Some. congruence. }
      rewrite Z in Eq. assert (qsum r == 0)%Q by lra. assert (qsum c == 0)%Q by lra.
      destruct (El j Hj) as (a' & b' & Ha' & Hb' & Er & Ec).
      assert (a' = a) by (destruct Ha as (? & ? & ?), Ha' as (? & ? & ?); congruence). assert (b' = b) by (destruct Hb as (? & ? & ?), Hb' as (? & ? & ?); congruence). subst a' b'.
      assert (Ab : forall x, (Qabs x == 0 -> x == 0)%Q). { intros x E. pose proof (Qle_Qabs x). pose proof (Qle_Qabs (- x)). rewrite Qabs_opp in *. lra. }
      split; apply Ab; [apply (qsum_zero r Nr); [assumption|eapply nth_error_In; exact Er]|apply (qsum_zero c Nc); [assumption|eapply nth_error_In; exact Ec]].
    + intros Al. assert (Zr : forall l, (forall x, In x l -> (x == 0)%Q) -> (qsum l == 0)%Q).
      { induction l as [|x l IH]; intros Hl; simpl; [reflexivity|]. rewrite (Hl x (or_introl eq_refl)), IH by (intros; apply Hl; right; assumption). reflexivity. }
      assert (Z1 : (qsum r == 0)%Q).
      { apply Zr. intros x Hx. apply In_nth_error in Hx; destruct Hx as (j & Hj). assert (Hjl : j < length h) by (rewrite <- Lr; apply nth_error_Some; congruence).
        destruct (El j Hjl) as (a & b & Ha & Hb & E & _). assert (x = Qabs a) by congruence. subst x. destruct (Al j a b Ha Hb) as [Za _]. rewrite Za. reflexivity. }
      assert (Z2 : (qsum c == 0)%Q).
      { apply Zr. intros x Hx. apply In_nth_error in Hx; destruct Hx as (j & Hj). assert (Hjl : j < length h) by (rewrite <- Lc; apply nth_error_Some; congruence).
        destruct (El j Hjl) as (a & b & Ha & Hb & _ & E). assert (x = Qabs b) by congruence. subst x. destruct (Al j a b Ha Hb) as [_ Zb]. rewrite Zb. reflexivity. }
      assert (Z : (q * (2 * inject_Z (Z.of_nat (length h))) == 0)%Q) by lra. apply Qmult_integral in Z. destruct Z as [Z|Z]; [exact Z|lra].
Qed.

(** ** Edges *)

Lemma qsum_perm : forall l l', Permutation l l' -> (qsum l == qsum l')%Q.
Proof. intros l l' H; induction H; simpl; try lra; try reflexivity. Qed.

Lemma mine_spec : forall e places sc a, length places = length sc ->
  map snd (filter (fun p => place_eqb (fst p) e) (combine places sc)) =
  map (fun i => nth (i - a) sc 0%Q) (filter (fun i => match nth_error places (i - a) with Some p => place_eqb p e | None => false end) (seq a (length places))).
Proof.
  induction places as [|p ps IH]; intros [|q sc] a L; simpl in *; try discriminate; [reflexivity|].
  rewrite Nat.sub_diag. simpl.
  assert (Sh : map (fun i => nth (i - a) (q :: sc) 0%Q) (filter (fun i => match nth_error (p :: ps) (i - a) with Some p => place_eqb p e | None => false end) (seq (S a) (length ps))) =
               map (fun i => nth (i - S a) sc 0%Q) (filter (fun i => match nth_error ps (i - S a) with Some p => place_eqb p e | None => false end) (seq (S a) (length ps)))).
  { assert (Ge : forall i, In i (seq (S a) (length ps)) -> S a <= i) by (intros i Hi; apply in_seq in Hi; lia).
    induction (seq (S a) (length ps)) as [|i l IHl]; simpl; [reflexivity|].
    pose proof (Ge i (or_introl eq_refl)) as G. replace (i - a) with (S (i - S a)) by lia. simpl.
    destruct (nth_error ps (i - S a)) as [p'|]; [|apply IHl; intros; apply Ge; right; assumption].
    destruct (place_eqb p' e); simpl; [|apply IHl; intros; apply Ge; right; assumption].
    replace (i - a) with (S (i - S a)) by lia. simpl. f_equal. apply IHl; intros; apply Ge; right; assumption. }
  destruct (place_eqb p e); simpl; rewrite ?Nat.sub_diag; cbn [nth]; [f_equal|]; rewrite (IH sc (S a) ltac:(congruence)); symmetry; exact Sh.
Qed.

Lemma place_eqb_eq : forall p e, place_eqb p e = true <-> p = PEdge e.
Proof. intros [n|j] e; simpl; [split; discriminate|]. destruct (eid_eq_dec j e); split; congruence. Qed.

Lemma edge_score_mean : forall places sc e own, length places = length sc -> NoDup own ->
  (forall i, In i own <-> nth_error places i = Some (PEdge e)) ->
  (own = [] -> edge_score places sc e = 1%Q) /\
  (own <> [] -> exists s, sums (map (fun i => nth i sc 0%Q) own) s /\ (edge_score places sc e * inject_Z (Z.of_nat (length own)) == s)%Q).
Proof.
  intros places sc e own L ND Ho. unfold edge_score. rewrite (mine_spec e places sc 0 L).
  set (own0 := filter _ (seq 0 (length places))).
  assert (P : Permutation own0 own).
  { apply NoDup_Permutation; [apply NoDup_filter, seq_NoDup|exact ND|]. intros i. unfold own0. rewrite filter_In, in_seq, Nat.sub_0_r. rewrite Ho. split.
    - intros [_ H]. destruct (nth_error places i); [|discriminate]. apply place_eqb_eq in H. congruence.
    - intros H. split; [split; [lia|]; apply nth_error_Some; congruence|]. rewrite H. apply place_eqb_eq. reflexivity. }
  assert (P' : Permutation (map (fun i => nth (i - 0) sc 0%Q) own0) (map (fun i => nth i sc 0%Q) own)).
  { erewrite map_ext; [apply Permutation_map; exact P|]. intros i; cbv beta. rewrite Nat.sub_0_r. reflexivity. }
  split.
  - intros E. rewrite E in P. apply Permutation_sym, Permutation_nil in P. rewrite P. reflexivity.
  - intros N. exists (qsum (map (fun i => nth i sc 0%Q) own)). split; [apply sums_qsum|].
    pose proof (qsum_perm _ _ P') as Eq. pose proof (Permutation_length P') as Len. rewrite !map_length in Len.
    destruct (map (fun i => nth (i - 0) sc 0%Q) own0) as [|x r] eqn:E.
    { exfalso. apply N. apply (f_equal (@length Q)) in E. rewrite map_length in E. simpl in E. rewrite E in Len. destruct own; [reflexivity|discriminate]. }
    rewrite <- E. rewrite map_length, Len, E, Eq. field. change 0%Q with (inject_Z 0). rewrite inject_Z_injective. destruct own; [congruence|]. simpl length. lia.
Qed.

Lemma edge_scores_ok : forall g s h x sc, wf g -> extract g s = Ok x -> x_params x <> [] -> all_edge_scores g s (Some h) = Ok sc ->
  length h = length (x_params x) /\
  (forall e, In e (g_edges g) -> exists v, In ((e_src e, e_dst e, e_key e), v) sc /\ (forall v', In ((e_src e, e_dst e, e_key e), v') sc -> v' = v)) /\
  (forall i v, In (i, v) sc -> (exists e, In e (g_edges g) /\ i = (e_src e, e_dst e, e_key e)) /\
     forall own, NoDup own -> (forall k, In k own <-> nth_error (x_place x) k = Some (PEdge i)) ->
       (own = [] -> v = 1%Q) /\
       (own <> [] -> exists t, sums (map (fun k => nth k (param_scores h) 0%Q) own) t /\ (v * inject_Z (Z.of_nat (length own)) == t)%Q)).
Proof.
  intros g s h x sc W Hx Ne H. unfold all_edge_scores in H. rewrite Hx in H. cbn [bind] in H.
  pose proof (extract_aligned g s x W Hx) as (_ & _ & _ & _ & _ & _ & LP & _).
  destruct (x_params x) as [|p ps] eqn:E; [congruence|]. destruct (Nat.eqb_spec (length (p :: ps)) (length h)) as [L|L]; cbn [negb] in H; [|discriminate].
  injection H as <-. split; [congruence|]. split.
  - intros e He. exists (edge_score (x_place x) (param_scores h) (e_id e)). split.
    + apply in_map_iff. exists e. split; [reflexivity|apply In_edges_view; assumption].
    + intros v' Hv. apply in_map_iff in Hv; destruct Hv as (e' & Ee & _). unfold e_id in Ee. injection Ee as E1 E2 E3 <-. unfold e_id. rewrite E1, E2, E3. reflexivity.
  - intros i v Hv. apply in_map_iff in Hv; destruct Hv as (e & Ee & He). apply (In_edges_view g e W) in He. injection Ee as Ei Ev.
    split; [exists e; split; [exact He|rewrite <- Ei; reflexivity]|]. intros own ND Ho. rewrite Ei in Ev. rewrite <- Ev.
    apply edge_score_mean; [rewrite param_scores_length; congruence|exact ND|exact Ho].
Qed.

Lemma edge_scores_none_free : forall g s hs x, wf g -> extract g s = Ok x -> x_params x = [] ->
  exists sc, all_edge_scores g s hs = Ok sc /\ (forall i v, In (i, v) sc <-> v = 1%Q /\ exists e, In e (g_edges g) /\ i = (e_src e, e_dst e, e_key e)).
Proof.
  intros g s hs x W Hx E. unfold all_edge_scores. rewrite Hx. cbn [bind]. rewrite E. eexists; split; [reflexivity|]. intros i v. rewrite in_map_iff. split.
  - intros (e & Ee & He). apply (In_edges_view g e W) in He. injection Ee as <- <-. split; [reflexivity|exists e; auto].
  - intros [-> (e & He & ->)]. exists e. split; [reflexivity|apply In_edges_view; assumption].
Qed.
