(** Kahn's algorithm as used by networkx: sound and complete. *)
From Coq Require Import List Arith Bool Lia Relations Permutation.
From Verif Require Import GraphModel GraphSpec GraphProofs.
Import ListNotations.

(* edges into c whose source is not yet processed *)
Definition cnt (g : graph) (D : list node) (c : node) : nat :=
  length (filter (fun e => Nat.eqb (e_dst e) c && negb (mem (e_src e) D)) (g_edges g)).

Lemma cnt_nil : forall g c, cnt g [] c = in_degree g c.
Proof.
  intros; unfold cnt, in_degree, nx_in_edges; f_equal; apply filter_ext; intros e.
  simpl; apply andb_true_r.
Qed.

Lemma cnt_cons : forall g D n c, ~ In n D ->
  cnt g D c = cnt g (n :: D) c + count_occ Nat.eq_dec (map e_dst (nx_out_edges g n)) c.
Proof.
  intros g D n c Hn; unfold cnt, nx_out_edges; induction (g_edges g) as [|e r IH]; [reflexivity|].
  assert (M : mem (e_src e) (n :: D) = Nat.eqb (e_src e) n || mem (e_src e) D) by reflexivity.
  cbn [filter]. rewrite M.
  destruct (Nat.eqb_spec (e_src e) n) as [En|En]; cbn [map].
  - assert (Hm : mem (e_src e) D = false) by (apply mem_false; rewrite En; exact Hn).
    rewrite Hm; cbn [negb orb]. rewrite andb_true_r, andb_false_r.
    destruct (Nat.eqb_spec (e_dst e) c) as [Ec|Ec].
    + rewrite count_occ_cons_eq by exact Ec. cbn [length]. lia.
    + rewrite count_occ_cons_neq by exact Ec. exact IH.
  - cbn [orb]. destruct (Nat.eqb (e_dst e) c && negb (mem (e_src e) D)); cbn [length]; lia.
Qed.

Lemma cnt_pos : forall g D c, cnt g D c > 0 -> exists e, In e (g_edges g) /\ e_dst e = c /\ ~ In (e_src e) D.
Proof.
  intros g D c; unfold cnt; destruct (filter _ _) as [|e r] eqn:E; [simpl; lia|]; intros _.
  assert (H : In e (e :: r)) by (left; reflexivity); rewrite <- E in H; apply filter_In in H.
  destruct H as [H1 H2]; apply andb_true_iff in H2; destruct H2 as [H2 H3].
  apply Nat.eqb_eq in H2; apply negb_true_iff, mem_false in H3; exists e; auto.
Qed.

Lemma cnt_zero : forall g D c, cnt g D c = 0 -> forall e, In e (g_edges g) -> e_dst e = c -> In (e_src e) D.
Proof.
  intros g D c H e He Ec. destruct (mem (e_src e) D) eqn:E; [apply mem_true; exact E|exfalso].
  apply length_zero_iff_nil in H.
  assert (Hin : In e (filter (fun e => Nat.eqb (e_dst e) c && negb (mem (e_src e) D)) (g_edges g))).
  { apply filter_In; split; [exact He|]. rewrite E; apply andb_true_iff; split; [apply Nat.eqb_eq; exact Ec|reflexivity]. }
  rewrite H in Hin; exact Hin.
Qed.

Lemma bump_down_fst : forall c m, map fst (bump_down c m) = map fst m.
Proof.
  intros c m; unfold bump_down; rewrite map_map; apply map_ext; intros [a b]; simpl; destruct (Nat.eqb a c); reflexivity.
Qed.

Lemma In_bump_down : forall c m x k, In (x, k) (bump_down c m) ->
  exists k0, In (x, k0) m /\ k = if Nat.eqb x c then pred k0 else k0.
Proof.
  intros c m x k H; apply in_map_iff in H; destruct H as ([a b] & E & H); simpl in E.
  destruct (Nat.eqb_spec a c) as [->|Hne]; injection E as <- <-.
  - exists b; rewrite Nat.eqb_refl; auto.
  - exists b; destruct (Nat.eqb_spec a c); [congruence|auto].
Qed.

Lemma drop_fst_perm : forall c (m : list (nat * nat)), NoDup (map fst m) -> In c (map fst m) ->
  Permutation (map fst m) (c :: map fst (drop c m)).
Proof.
  intros c m; induction m as [|[a b] r IH]; simpl; [tauto|].
  intros ND Hin; inversion ND as [|? ? Hn Hr]; subst.
  destruct (Nat.eqb_spec a c) as [->|Hne]; simpl.
  - constructor. unfold drop; rewrite filter_true; [apply Permutation_refl|].
    intros [x y] Hx; simpl; apply negb_true_iff, Nat.eqb_neq; intros ->; apply Hn.
    change c with (fst (c, y)); apply in_map; exact Hx.
  - destruct Hin as [->|Hin]; [congruence|].
    eapply Permutation_trans; [constructor; apply IH; assumption|apply perm_swap].
Qed.

Lemma In_drop : forall c m x (k : nat), In (x, k) (drop c m) -> In (x, k) m /\ x <> c.
Proof.
  intros c m x k H; apply filter_In in H; destruct H as [H E]; simpl in E.
  apply negb_true_iff, Nat.eqb_neq in E; auto.
Qed.

Lemma kahn_children_spec : forall (f : node -> nat) cs m st,
  NoDup (map fst m ++ st) ->
  (forall c k, In (c, k) m -> k = f c + count_occ Nat.eq_dec cs c /\ k > 0) ->
  (forall c, In c st -> f c + count_occ Nat.eq_dec cs c = 0) ->
  incl cs (map fst m ++ st) ->
  exists m' st', kahn_children cs m st = Some (m', st') /\
    Permutation (map fst m' ++ st') (map fst m ++ st) /\
    (forall c k, In (c, k) m' -> k = f c /\ k > 0) /\
    (forall c, In c st' -> f c = 0).
Proof.
  intros f cs; induction cs as [|c cs IH]; intros m st ND Hm Hs Hi.
  - exists m, st; simpl; split; [reflexivity|]. split; [apply Permutation_refl|]. split.
    + intros c k H; destruct (Hm c k H) as [E P]; simpl in E; split; [lia|exact P].
    + intros c H; specialize (Hs c H); simpl in Hs; lia.
  - assert (Hc : In c (map fst m)).
    { destruct (in_app_or _ _ _ (Hi c (or_introl eq_refl))) as [H|H]; [exact H|exfalso].
      specialize (Hs c H); rewrite count_occ_cons_eq in Hs by reflexivity; lia. }
    assert (NDm : NoDup (map fst m)).
    { clear - ND. induction (map fst m) as [|x r IHr]; [constructor|]. simpl in ND; inversion ND; subst.
      constructor; [intros H; apply H1; apply in_or_app; left; exact H|apply IHr; assumption]. }
    destruct (proj1 (In_fst_ex c m) Hc) as [k0 Hk0].
    pose proof (In_assoc _ _ _ NDm Hk0) as Ak. simpl. rewrite Ak.
    assert (Eb : forall x k, In (x, k) (bump_down c m) -> k = f x + count_occ Nat.eq_dec cs x).
    { intros x k H; apply In_bump_down in H; destruct H as (k1 & H & ->).
      destruct (Hm x k1 H) as [E P].
      destruct (Nat.eqb_spec x c) as [->|Hne].
      - rewrite count_occ_cons_eq in E by reflexivity; lia.
      - rewrite count_occ_cons_neq in E by congruence; exact E. }
    destruct (Nat.eqb_spec (pred k0) 0) as [Ez|Ez].
    + assert (P0 : Permutation (map fst (drop c (bump_down c m)) ++ c :: st) (map fst m ++ st)).
      { eapply Permutation_trans; [apply Permutation_sym, Permutation_middle|].
        rewrite app_comm_cons; apply Permutation_app_tail.
        apply Permutation_sym; rewrite <- (bump_down_fst c m) at 1; apply drop_fst_perm; rewrite bump_down_fst; assumption. }
      destruct (IH (drop c (bump_down c m)) (c :: st)) as (m' & st' & E & P & A & B).
      * eapply Permutation_NoDup; [apply Permutation_sym; exact P0|exact ND].
      * intros x k H; apply In_drop in H; destruct H as [H Hne].
        split; [apply Eb; exact H|]. apply In_bump_down in H; destruct H as (k1 & H & ->).
        destruct (Nat.eqb_spec x c); [congruence|]. apply (Hm x k1 H).
      * intros x [<-|Hx].
        -- destruct (Hm c k0 Hk0) as [E P]; rewrite count_occ_cons_eq in E by reflexivity. lia.
        -- specialize (Hs x Hx). destruct (Nat.eq_dec c x) as [->|Hne].
           ++ rewrite count_occ_cons_eq in Hs by reflexivity; lia.
           ++ rewrite count_occ_cons_neq in Hs by exact Hne; exact Hs.
      * intros x Hx; eapply Permutation_in; [apply Permutation_sym; exact P0|]; apply Hi; right; exact Hx.
      * exists m', st'; split; [exact E|]. split; [eapply Permutation_trans; eassumption|]. split; assumption.
    + destruct (IH (bump_down c m) st) as (m' & st' & E & P & A & B).
      * rewrite bump_down_fst; exact ND.
      * intros x k H; split; [apply Eb; exact H|]. apply In_bump_down in H; destruct H as (k1 & H & ->).
        destruct (Nat.eqb_spec x c) as [->|Hne]; [|apply (Hm x k1 H)].
        pose proof (In_assoc _ _ _ NDm H) as Ak'; rewrite Ak in Ak'; injection Ak' as <-; lia.
      * intros x Hx; specialize (Hs x Hx). destruct (Nat.eq_dec c x) as [->|Hne].
        -- rewrite count_occ_cons_eq in Hs by reflexivity; lia.
        -- rewrite count_occ_cons_neq in Hs by exact Hne; exact Hs.
      * rewrite bump_down_fst; intros x Hx; apply Hi; right; exact Hx.
      * exists m', st'; split; [exact E|]. rewrite bump_down_fst in P. split; [exact P|]. split; assumption.
Qed.

Lemma walk_path1 : forall g n l m, walk g n l m -> l <> [] -> path1 g n m.
Proof.
  intros g n l m H Hl; inversion H; subst; [congruence|].
  apply path1_step_path; eexists; split; [eassumption|eapply walk_path; eassumption].
Qed.

Lemma not_NoDup_split : forall (l : list nat), ~ NoDup l -> exists x l1 l2 l3, l = l1 ++ x :: l2 ++ x :: l3.
Proof.
  induction l as [|a l IH]; intros H; [exfalso; apply H; constructor|].
  destruct (mem_dec_In a l) as [Hin|Hn].
  - apply in_split in Hin; destruct Hin as (l2 & l3 & ->). exists a, [], l2, l3; reflexivity.
  - destruct IH as (x & l1 & l2 & l3 & ->); [intros ND; apply H; constructor; assumption|].
    exists x, (a :: l1), l2, l3; reflexivity.
Qed.

Lemma pred_closed_cycle : forall g (R : list node), R <> [] ->
  (forall c, In c R -> exists e, In e (g_edges g) /\ e_dst e = c /\ In (e_src e) R) ->
  exists n, path1 g n n.
Proof.
  intros g R HR H.
  assert (Chain : forall k, exists n l m, walk g n l m /\ length l = k /\ incl (n :: l) R).
  { induction k as [|k (n & l & m & W & L & I)].
    - destruct R as [|r R']; [congruence|]. exists r, [], r; split; [constructor|]. split; [reflexivity|].
      intros x [<-|[]]; left; reflexivity.
    - destruct (H n (I n (or_introl eq_refl))) as (e & He & Ed & Es).
      exists (e_src e), (n :: l), m; split.
      + econstructor; [|exact W]. exists e; auto.
      + split; [simpl; lia|]. intros x [<-|Hx]; [exact Es|apply I; exact Hx]. }
  destruct (Chain (length R)) as (n & l & m & W & L & I).
  destruct (not_NoDup_split (n :: l)) as (x & l1 & l2 & l3 & E).
  { intros ND; pose proof (NoDup_incl_length ND I) as Len; simpl in Len; lia. }
  exists x. destruct l1 as [|y l1]; simpl in E; injection E as -> ->.
  - apply walk_split in W; destruct W as [W _]; eapply walk_path1; [exact W|destruct l2; discriminate].
  - apply walk_split in W; destruct W as [_ W]; apply walk_split in W; destruct W as [W _].
    eapply walk_path1; [exact W|destruct l2; discriminate].
Qed.

Lemma kahn_spec : forall fuel g D m st, wf g ->
  Permutation (D ++ st ++ map fst m) (node_ids g) ->
  (forall c k, In (c, k) m -> k = cnt g D c /\ k > 0) ->
  (forall c, In c (D ++ st) -> cnt g D c = 0) ->
  length st + length m <= fuel ->
  match kahn fuel g m st with
  | Some o => Permutation o (st ++ map fst m) /\
              (forall l1 n l2 c, o = l1 ++ n :: l2 -> connects g n c -> In c l2)
  | None => exists n, path1 g n n
  end.
Proof.
  induction fuel as [|fuel IH]; intros g D m st W P Hm Hs L.
  - destruct st; [|simpl in L; lia]. destruct m; [|simpl in L; lia]. simpl.
    split; [constructor|]. intros [|? ?] ? ? ? E; discriminate.
  - assert (ND : NoDup (D ++ st ++ map fst m)).
    { eapply Permutation_NoDup; [apply Permutation_sym; exact P|exact (wf_nodes g W)]. }
    destruct st as [|n st].
    + destruct m as [|[c0 k0] r] eqn:Em; cbn [kahn].
      * split; [constructor|]. intros [|? ?] ? ? ? E; discriminate.
      * rewrite <- Em in *. apply (pred_closed_cycle g (map fst m)); [rewrite Em; discriminate|].
        intros c Hc. apply In_fst_ex in Hc; destruct Hc as [k Hk]. destruct (Hm c k Hk) as [Ek Pk].
        subst k. apply cnt_pos in Pk; destruct Pk as (e & He & Ed & Es). exists e; split; [exact He|]. split; [exact Ed|].
        assert (Hin : In (e_src e) (D ++ [] ++ map fst m)).
        { eapply Permutation_in; [apply Permutation_sym; exact P|]. apply node_ids_is_node; apply (wf_ends g W e He). }
        apply in_app_or in Hin; destruct Hin as [Hin|Hin]; [contradiction|exact Hin].
    + cbn [kahn].
      assert (HnD : ~ In n D).
      { intros H. simpl in ND. apply NoDup_remove_2 in ND; apply ND; apply in_or_app; left; exact H. }
      assert (P' : Permutation ((n :: D) ++ st ++ map fst m) (node_ids g)).
      { eapply Permutation_trans; [|exact P]. simpl. apply Permutation_middle. }
      assert (ND3 : NoDup (st ++ map fst m)).
      { clear - ND. apply NoDup_remove_1 in ND.
        induction D as [|d D IHD]; [exact ND|]. simpl in ND; inversion ND; subst; apply IHD; assumption. }
      assert (Hchild : incl (map e_dst (nx_out_edges g n)) (map fst m)).
      { intros c Hc.
        assert (Pc : cnt g D c > 0).
        { rewrite (cnt_cons g D n c HnD). pose proof (proj1 (count_occ_In Nat.eq_dec _ _) Hc). lia. }
        assert (Hin : In c (D ++ (n :: st) ++ map fst m)).
        { eapply Permutation_in; [apply Permutation_sym; exact P|]. apply in_map_iff in Hc; destruct Hc as (e & <- & He).
          apply filter_In in He; apply node_ids_is_node; apply (wf_ends g W e); tauto. }
        rewrite app_assoc in Hin. apply in_app_or in Hin; destruct Hin as [Hin|Hin]; [|exact Hin].
        apply Hs in Hin; lia. }
      destruct (kahn_children_spec (cnt g (n :: D)) (map e_dst (nx_out_edges g n)) m st)
        as (m' & st' & E & Pm & A & B).
      * eapply Permutation_NoDup; [apply Permutation_app_comm|exact ND3].
      * intros c k H; destruct (Hm c k H) as [Ek Pk]; split; [|exact Pk].
        rewrite Ek; apply cnt_cons; exact HnD.
      * intros c H; rewrite <- cnt_cons by exact HnD; apply Hs; apply in_or_app; right; right; exact H.
      * intros c Hc; apply in_or_app; left; apply Hchild; exact Hc.
      * rewrite E.
        assert (Pm' : Permutation (st' ++ map fst m') (st ++ map fst m)).
        { eapply Permutation_trans; [apply Permutation_app_comm|].
          eapply Permutation_trans; [exact Pm|apply Permutation_app_comm]. }
        assert (IHuse := IH g (n :: D) m' st' W).
        destruct (kahn fuel g m' st') as [o|].
        -- destruct IHuse as [Po Ho].
           ++ eapply Permutation_trans; [apply Permutation_app_head; exact Pm'|exact P'].
           ++ exact A.
           ++ intros c Hc. apply in_app_or in Hc; destruct Hc as [Hc|Hc]; [|apply B; exact Hc].
              assert (Z : cnt g D c = 0).
              { apply Hs; destruct Hc as [<-|Hc]; apply in_or_app; [right; left; reflexivity|left; exact Hc]. }
              rewrite (cnt_cons g D n c HnD) in Z; lia.
           ++ apply Permutation_length in Pm'. rewrite !app_length, !map_length in Pm'. simpl in L. lia.
           ++ split.
              ** simpl. constructor. eapply Permutation_trans; [exact Po|exact Pm'].
              ** intros l1 x l2 c Eo C. destruct l1 as [|y l1]; simpl in Eo; injection Eo as -> ->.
                 --- eapply Permutation_in; [apply Permutation_sym; exact Po|].
                     eapply Permutation_in; [apply Permutation_sym; exact Pm'|].
                     apply in_or_app; right; apply Hchild. destruct C as (e & He & Es & Ed).
                     apply in_map_iff; exists e; split; [exact Ed|]. apply filter_In; split; [exact He|apply Nat.eqb_eq; exact Es].
                 --- eapply Ho; [reflexivity|exact C].
        -- apply IHuse.
           ++ eapply Permutation_trans; [apply Permutation_app_head; exact Pm'|exact P'].
           ++ exact A.
           ++ intros c Hc. apply in_app_or in Hc; destruct Hc as [Hc|Hc]; [|apply B; exact Hc].
              assert (Z : cnt g D c = 0).
              { apply Hs; destruct Hc as [<-|Hc]; apply in_or_app; [right; left; reflexivity|left; exact Hc]. }
              rewrite (cnt_cons g D n c HnD) in Z; lia.
           ++ apply Permutation_length in Pm'. rewrite !app_length, !map_length in Pm'. simpl in L. lia.
Qed.

Lemma init_split : forall g (ns : list node),
  Permutation (filter (fun n => Nat.eqb (in_degree g n) 0) ns ++
               map fst (filter (fun p => negb (Nat.eqb (snd p) 0)) (map (fun n => (n, in_degree g n)) ns))) ns.
Proof.
  intros g ns; induction ns as [|n ns IH]; simpl; [constructor|].
  destruct (Nat.eqb (in_degree g n) 0); simpl; [constructor; exact IH|].
  eapply Permutation_trans; [apply Permutation_sym, Permutation_middle|]. constructor; exact IH.
Qed.

Lemma topological_sort_spec : forall g, wf g ->
  match topological_sort g with
  | Some o => valid_order g o
  | None => exists n, path1 g n n
  end.
Proof.
  intros g W; unfold topological_sort.
  assert (P : Permutation (zero_indegree g ++ map fst (indegree_map g)) (node_ids g)).
  { eapply Permutation_trans; [|apply (init_split g (node_ids g))].
    apply Permutation_app_tail. unfold zero_indegree; apply Permutation_sym, Permutation_rev. }
  pose proof (kahn_spec (length (g_nodes g)) g [] (indegree_map g) (zero_indegree g) W) as K.
  destruct (kahn _ _ _ _) as [o|].
  - destruct K as [Po Ho].
    + exact P.
    + intros c k H. unfold indegree_map in H; apply filter_In in H; destruct H as [H N].
      apply in_map_iff in H; destruct H as (n & E & _); injection E as -> <-.
      simpl in N; apply negb_true_iff, Nat.eqb_neq in N. rewrite cnt_nil; split; [reflexivity|lia].
    + intros c H; simpl in H; unfold zero_indegree in H; apply in_rev in H; apply filter_In in H.
      destruct H as [_ H]; apply Nat.eqb_eq in H; rewrite cnt_nil; exact H.
    + apply Permutation_length in P. rewrite app_length, !map_length in P. unfold node_ids in P; rewrite map_length in P. lia.
    + split; [eapply Permutation_trans; [exact Po|exact P]|]. exact Ho.
  - apply K.
    + exact P.
    + intros c k H. unfold indegree_map in H; apply filter_In in H; destruct H as [H N].
      apply in_map_iff in H; destruct H as (n & E & _); injection E as -> <-.
      simpl in N; apply negb_true_iff, Nat.eqb_neq in N. rewrite cnt_nil; split; [reflexivity|lia].
    + intros c H; simpl in H; unfold zero_indegree in H; apply in_rev in H; apply filter_In in H.
      destruct H as [_ H]; apply Nat.eqb_eq in H; rewrite cnt_nil; exact H.
    + apply Permutation_length in P. rewrite app_length, !map_length in P. unfold node_ids in P; rewrite map_length in P. lia.
Qed.

(* position in a list *)
Fixpoint index_of (n : nat) (l : list nat) : nat :=
  match l with [] => 0 | x :: r => if Nat.eqb n x then 0 else S (index_of n r) end.

Lemma index_of_app_in : forall n l1 l2, In n l1 -> index_of n (l1 ++ l2) < length l1.
Proof.
  intros n l1 l2; induction l1 as [|x r IH]; simpl; [tauto|].
  intros H; destruct (Nat.eqb_spec n x); [lia|]. destruct H as [->|H]; [congruence|]. specialize (IH H); lia.
Qed.

Lemma index_of_app_notin : forall n l1 l2, ~ In n l1 -> index_of n (l1 ++ l2) = length l1 + index_of n l2.
Proof.
  intros n l1 l2; induction l1 as [|x r IH]; simpl; [reflexivity|].
  intros H; destruct (Nat.eqb_spec n x) as [->|]; [exfalso; apply H; left; reflexivity|].
  rewrite IH; [reflexivity|]. intros Hr; apply H; right; exact Hr.
Qed.

Lemma index_of_split : forall l1 n l2 m, NoDup (l1 ++ n :: l2) -> In m l2 ->
  index_of n (l1 ++ n :: l2) < index_of m (l1 ++ n :: l2).
Proof.
  intros l1 n l2 m ND Hm.
  assert (Hn : ~ In n l1). { intros H; apply NoDup_remove_2 in ND; apply ND; apply in_or_app; left; exact H. }
  assert (Hm1 : ~ In m l1).
  { intros H. clear Hn. induction l1 as [|x r IH]; [exact H|]. simpl in ND; inversion ND; subst.
    destruct H as [->|H]; [|apply IH; assumption]. apply H2; apply in_or_app; right; right; exact Hm. }
  assert (Hnm : m <> n). { intros ->; apply NoDup_remove_2 in ND; apply ND; apply in_or_app; right; exact Hm. }
  rewrite !index_of_app_notin by assumption. simpl. rewrite Nat.eqb_refl.
  destruct (Nat.eqb_spec m n); [congruence|lia].
Qed.

Lemma valid_order_rank : forall g o, wf g -> valid_order g o ->
  forall u v, connects g u v -> index_of u o < index_of v o.
Proof.
  intros g o W [P H] u v C.
  assert (Hu : In u o).
  { eapply Permutation_in; [apply Permutation_sym; exact P|]. destruct C as (e & He & <- & _).
    apply node_ids_is_node; apply (wf_ends g W e He). }
  apply in_split in Hu; destruct Hu as (l1 & l2 & ->).
  apply index_of_split; [eapply Permutation_NoDup; [apply Permutation_sym; exact P|exact (wf_nodes g W)]|].
  eapply H; [reflexivity|exact C].
Qed.

Lemma valid_order_acyclic : forall g o, wf g -> valid_order g o -> acyclic g.
Proof. intros g o W H; apply (rank_acyclic g (fun n => index_of n o)); apply valid_order_rank; assumption. Qed.

Lemma toposort_some : forall g, wf g -> acyclic g -> exists o, topological_sort g = Some o /\ valid_order g o.
Proof.
  intros g W A; pose proof (topological_sort_spec g W) as S; destruct (topological_sort g) as [o|].
  - exists o; auto.
  - destruct S as (n & P); exfalso; exact (A n P).
Qed.

Lemma toposort_iff : forall g, wf g -> ((exists o, topological_sort g = Some o) <-> acyclic g).
Proof.
  intros g W; split.
  - intros (o & E); pose proof (topological_sort_spec g W) as S; rewrite E in S; eapply valid_order_acyclic; eassumption.
  - intros A; destruct (toposort_some g W A) as (o & E & _); exists o; exact E.
Qed.

Lemma acyclic_rank : forall g, wf g -> acyclic g -> exists r : node -> nat, forall u v, connects g u v -> r u < r v.
Proof.
  intros g W A; destruct (toposort_some g W A) as (o & _ & V); exists (fun n => index_of n o).
  apply valid_order_rank; assumption.
Qed.
