(** Quantities that nodes pass on and edges raise by at most a factor (C66). *)
From Coq Require Import Reals List Arith Lia Lra Bool Permutation.
From Verif Require Import Base GraphModel GraphSpec GraphProofs ParamsProofs TopoProofs OperatorsProofs TypingProofs PropagateSpec PropagateProofs ComponentSpec OpticsSpec.
Import ListNotations.
Local Open Scope R_scope.

Lemma total_ext : forall l f h, (forall e, In e l -> f e = h e) -> total l f = total l h.
Proof. intros l f h H. unfold total. induction l as [|e l IH]; [reflexivity|]. cbn [fold_right]. rewrite IH by (intros; apply H; right; assumption). rewrite H by (left; reflexivity). reflexivity. Qed.
Lemma total_le : forall l f h, (forall e, In e l -> f e <= h e) -> total l f <= total l h.
Proof. intros l f h H. unfold total. induction l as [|e l IH]; cbn [fold_right]; [lra|]. assert (f e <= h e) by (apply H; left; reflexivity). assert (fold_right (fun e a => f e + a) 0 l <= fold_right (fun e a => h e + a) 0 l) by (apply IH; intros; apply H; right; assumption). lra. Qed.
Lemma total_nonneg : forall l f, (forall e, In e l -> 0 <= f e) -> 0 <= total l f.
Proof. intros l f H. unfold total. induction l as [|e l IH]; cbn [fold_right]; [lra|]. assert (0 <= f e) by (apply H; left; reflexivity). assert (0 <= fold_right (fun e a => f e + a) 0 l) by (apply IH; intros; apply H; right; assumption). lra. Qed.
Lemma total_add : forall l f h, total l (fun e => f e + h e) = total l f + total l h.
Proof. intros l f h. unfold total. induction l as [|e l IH]; cbn [fold_right]; [lra|]. rewrite IH. ring. Qed.
Lemma total_sub : forall l f h, total l (fun e => f e - h e) = total l f - total l h.
Proof. intros l f h. unfold total. induction l as [|e l IH]; cbn [fold_right]; [lra|]. rewrite IH. ring. Qed.
Lemma total_scale : forall l k f, total l (fun e => k * f e) = k * total l f.
Proof. intros l k f. unfold total. induction l as [|e l IH]; cbn [fold_right]; [lra|]. rewrite IH. ring. Qed.
Lemma total_perm : forall l l' f, Permutation l l' -> total l f = total l' f.
Proof. intros l l' f H. unfold total. induction H; cbn [fold_right]; lra. Qed.
Lemma total_filter : forall q l f, total (filter q l) f = total l (fun e => if q e then f e else 0).
Proof. intros q l f. unfold total. induction l as [|e l IH]; cbn [fold_right filter]; [reflexivity|]. destruct (q e); cbn [fold_right]; rewrite IH; ring. Qed.
Lemma total_term : forall l f e, In e l -> (forall e, In e l -> 0 <= f e) -> f e <= total l f.
Proof.
  intros l f e He H. unfold total. induction l as [|x l IH]; [contradiction|]. cbn [fold_right]. assert (0 <= fold_right (fun e a => f e + a) 0 l) by (apply (total_nonneg l f); intros; apply H; right; assumption).
  destruct He as [->|He]; [lra|]. assert (0 <= f x) by (apply H; left; reflexivity). specialize (IH He). assert (f e <= fold_right (fun e a => f e + a) 0 l) by (apply IH; intros; apply H; right; assumption). lra.
Qed.

Section Network.
Variable g : graph.
Hypothesis W : wf g.
Hypothesis A : acyclic g.
Variables a b lim : edge -> R.
Variable nl : node -> R.
Hypothesis a_pos : forall e, 0 <= a e.
Hypothesis b_pos : forall e, 0 <= b e.
Hypothesis lim_pos : forall e, In e (g_edges g) -> 0 <= lim e.
Hypothesis nl_one : forall n, is_node g n -> 1 <= nl n.
Hypothesis raised : forall e, In e (g_edges g) -> ~ no_input g (e_src e) -> ~ no_output g (e_dst e) -> b e <= lim e * a e.
Hypothesis passed : forall n, is_node g n -> ~ no_input g n -> ~ no_output g n -> total (leaving g n) a <= nl n * total (arriving g n) b.

Definition source_b (n : node) : bool := Nat.eqb (arrivals g n) 0.
Definition sink_b (n : node) : bool := Nat.eqb (departures g n) 0.
Lemma source_iff : forall n, is_node g n -> (source_b n = true <-> no_input g n).
Proof.
  intros n Hn. unfold source_b. rewrite Nat.eqb_eq. unfold arrivals, no_input. split.
  - intros H. split; [exact Hn|]. intros e He Ed. assert (X : In e (filter (fun e => Nat.eqb (e_dst e) n) (g_edges g))) by (apply filter_In; split; [exact He|apply Nat.eqb_eq; exact Ed]).
    destruct (filter _ _); [contradiction|discriminate].
  - intros [_ H]. destruct (filter (fun e => Nat.eqb (e_dst e) n) (g_edges g)) as [|e l] eqn:E; [reflexivity|]. exfalso.
    assert (X : In e (filter (fun e => Nat.eqb (e_dst e) n) (g_edges g))) by (rewrite E; left; reflexivity). apply filter_In in X as [X1 X2]. apply Nat.eqb_eq in X2. exact (H e X1 X2).
Qed.
Lemma sink_iff : forall n, is_node g n -> (sink_b n = true <-> no_output g n).
Proof. intros n Hn. unfold sink_b. rewrite Nat.eqb_eq. symmetry. apply no_output_dep; exact Hn. Qed.
Definition start_b (e : edge) : bool := source_b (e_src e).
Definition end_b (e : edge) : bool := negb (source_b (e_src e)) && sink_b (e_dst e).
Definition inner_b (e : edge) : bool := negb (sink_b (e_dst e)).

(** ** The best continuation of a route *)
Fixpoint route (n : node) (l : list edge) : R := match l with [] => 1 | e :: r => lim e * (nl (e_dst e) * route (e_dst e) r) end.
Fixpoint best (r : list node) (n : node) : R :=
  match r with
  | [] => 1
  | m :: r' => if Nat.eqb n m then fold_right Rmax 1 (map (fun e => lim e * (nl (e_dst e) * best r' (e_dst e))) (filter inner_b (leaving g m))) else best r' n
  end.

Lemma max_above : forall l x, In x l -> x <= fold_right Rmax 1 l.
Proof. induction l as [|y l IH]; intros x H; [contradiction|]. cbn [fold_right]. destruct H as [->|H]; [apply Rmax_l|]. eapply Rle_trans; [exact (IH x H)|apply Rmax_r]. Qed.
Lemma max_one : forall l, 1 <= fold_right Rmax 1 l.
Proof. induction l as [|y l IH]; cbn [fold_right]; [lra|]. eapply Rle_trans; [exact IH|apply Rmax_r]. Qed.
Lemma max_attained : forall l, fold_right Rmax 1 l = 1 \/ In (fold_right Rmax 1 l) l.
Proof. induction l as [|y l IH]; cbn [fold_right]; [left; reflexivity|]. set (z := fold_right Rmax 1 l) in *. destruct (Rle_dec y z) as [Y|Y]; [rewrite (Rmax_right y z Y); destruct IH as [IH|IH]; [left; exact IH|right; right; exact IH]|rewrite (Rmax_left y z) by lra; right; left; reflexivity]. Qed.

Lemma best_one : forall r n, 1 <= best r n.
Proof. induction r as [|m r IH]; intros n; cbn [best]; [lra|]. destruct (Nat.eqb n m); [apply max_one|apply IH]. Qed.
Lemma best_attained : forall r n, exists l, chain g n l /\ route n l = best r n.
Proof.
  induction r as [|m r IH]; intros n; cbn [best]; [exists []; split; [exact Logic.I|reflexivity]|]. destruct (Nat.eqb_spec n m) as [->|Ne]; [|apply IH].
  destruct (max_attained (map (fun e => lim e * (nl (e_dst e) * best r (e_dst e))) (filter inner_b (leaving g m)))) as [E|E]; [rewrite E; exists []; split; [exact Logic.I|reflexivity]|].
  apply in_map_iff in E as (e & Ee & He). apply filter_In in He as [He Hi]. apply In_leaving in He as [H1 H2]. destruct (IH (e_dst e)) as (l & C & R0). exists (e :: l). split.
  - split; [exact H1|]. split; [exact H2|]. split; [|exact C]. intros X. apply (sink_iff (e_dst e)) in X; [|apply (wf_ends g W e H1)]. unfold inner_b in Hi. rewrite X in Hi. discriminate.
  - cbn [route]. rewrite R0. exact Ee.
Qed.

Definition forward (r : list node) : Prop := forall l1 l2 e, In e (g_edges g) -> r = l1 ++ e_dst e :: l2 -> ~ In (e_src e) (e_dst e :: l2).
Lemma best_step : forall r e, forward r -> In e (g_edges g) -> In (e_src e) r -> inner_b e = true -> lim e * (nl (e_dst e) * best r (e_dst e)) <= best r (e_src e).
Proof.
  induction r as [|m r IH]; intros e F He Hs Hi; [contradiction|]. assert (Nd : e_dst e <> m). { intros E. apply (F [] r e He); [rewrite E; reflexivity|]. rewrite E. exact Hs. }
  cbn [best]. rewrite (proj2 (Nat.eqb_neq _ _) Nd). destruct (Nat.eqb_spec (e_src e) m) as [E|Ne].
  - apply max_above. apply (in_map (fun e => lim e * (nl (e_dst e) * best r (e_dst e)))). apply filter_In. split; [|exact Hi]. apply In_leaving. auto.
  - apply IH; [|exact He|destruct Hs as [Hs|Hs]; [congruence|exact Hs]|exact Hi]. intros l1 l2 e' He' E. apply (F (m :: l1) l2 e' He'). rewrite E. reflexivity.
Qed.

(** ** The cut *)
Variable o : list node.
Hypothesis Oo : NoDup o /\ (forall n, In n o <-> is_node g n) /\ closed g [] o.
Definition worth (n : node) : R := nl n * best o n.
Definition inD (D : list node) (n : node) : bool := mem n D.
Definition held (D : list node) (e : edge) : R :=
  if end_b e then (if inD D (e_src e) then a e else 0)
  else if inD D (e_src e) && negb (inD D (e_dst e)) then b e * worth (e_dst e) else 0.
Definition fed (D : list node) (e : edge) : R := if start_b e && inD D (e_src e) then b e * worth (e_dst e) else 0.
Definition cut (D : list node) : R := total (g_edges g) (held D).
Definition feed (D : list node) : R := total (g_edges g) (fed D).

Lemma forward_o : forward o.
Proof.
  destruct Oo as (Nd & Mem & Cl). intros l1 l2 e He E Hin. specialize (Cl l1 (e_dst e) l2 e E He eq_refl). cbn [app] in Cl.
  rewrite E in Nd. apply NoDup_remove in Nd as [Nd Nn]. destruct Hin as [Hin|Hin].
  - apply Nn. rewrite Hin. apply in_or_app; left; exact Cl.
  - exact (NoDup_app_disjoint' l1 l2 (e_src e) Nd Cl Hin).
Qed.

Lemma mem_true : forall n D, mem n D = true <-> In n D.
Proof. intros n D. unfold mem. rewrite existsb_exists. split; [intros (x & H & E); apply Nat.eqb_eq in E; subst; exact H|intros H; exists n; split; [exact H|apply Nat.eqb_refl]]. Qed.
Lemma mem_snoc : forall n D m, mem n (D ++ [m]) = mem n D || Nat.eqb n m.
Proof. intros n D m. unfold mem. rewrite existsb_app. cbn [existsb]. rewrite orb_false_r. reflexivity. Qed.

Lemma worth_pos : forall n, is_node g n -> 0 <= worth n.
Proof. intros n H. unfold worth. apply Rmult_le_pos; [pose proof (nl_one n H); lra|pose proof (best_one o n); lra]. Qed.

Lemma total_leaving : forall n f, total (leaving g n) f = total (g_edges g) (fun e => if Nat.eqb (e_src e) n then f e else 0).
Proof. intros n f. unfold leaving. apply total_filter. Qed.
Lemma arriving_perm : forall n, Permutation (arriving g n) (filter (fun e => Nat.eqb (e_dst e) n) (g_edges g)).
Proof.
  intros n. apply Permutation_sym. apply NoDup_Permutation.
  - apply NoDup_filter. exact (NoDup_map_inv _ _ (wf_keys g W)).
  - unfold arriving. assert (Nd : NoDup (map fst (g_nodes g))) by exact (wf_nodes g W).
    induction (map fst (g_nodes g)) as [|m l IH]; simpl; [constructor|]. apply NoDup_cons_iff in Nd as [Nm Nl].
    apply NoDup_app_intro; [apply NoDup_filter; exact (NoDup_map_inv _ _ (wf_keys g W))|exact (IH Nl)|].
    intros x Hx Hy. apply filter_In in Hx as [_ Hx]. apply in_flat_map in Hy as (m' & Hm' & Hy). apply filter_In in Hy as [_ Hy].
    apply andb_true_iff in Hx as [Hx _]. apply andb_true_iff in Hy as [Hy _]. apply Nat.eqb_eq in Hx. apply Nat.eqb_eq in Hy. subst. contradiction.
  - intro e. rewrite (In_arriving g n e W). rewrite filter_In, Nat.eqb_eq. reflexivity.
Qed.
Lemma total_arriving : forall n f, total (arriving g n) f = total (g_edges g) (fun e => if Nat.eqb (e_dst e) n then f e else 0).
Proof. intros n f. rewrite (total_perm _ _ f (arriving_perm n)). apply total_filter. Qed.

Definition given (e : edge) : R := if end_b e then a e else b e * worth (e_dst e).
Definition taken (e : edge) : R := if end_b e then 0 else b e * worth (e_dst e).

Lemma cut_step : forall D n r, o = D ++ n :: r -> cut (D ++ [n]) = cut D + total (leaving g n) given - total (arriving g n) taken /\ feed (D ++ [n]) = feed D + total (leaving g n) (fun e => if start_b e then b e * worth (e_dst e) else 0).
Proof.
  intros D n r E. destruct Oo as (Nd & Mem & Cl). rewrite E in Nd. assert (Nn : ~ In n D). { apply NoDup_remove in Nd as [_ Nd]. intros X. apply Nd, in_or_app; left; exact X. }
  rewrite total_leaving, total_leaving, total_arriving. unfold cut, feed. split.
  - rewrite <- total_add, <- total_sub. apply total_ext. intros e He. unfold held, given, taken, inD. rewrite !mem_snoc.
    assert (S1 : e_src e = n -> mem (e_src e) D = false) by (intros ->; destruct (mem n D) eqn:X; [apply mem_true in X; contradiction|reflexivity]).
    assert (S2 : e_src e = n -> mem (e_dst e) D = false /\ e_dst e <> n).
    { intros Es. assert (Dn : forall l1 l2, o <> l1 ++ e_dst e :: l2 \/ In n l1).
      { intros l1 l2. destruct (list_eq_dec Nat.eq_dec o (l1 ++ e_dst e :: l2)) as [X|X]; [|left; exact X]. right. rewrite <- Es. exact (Cl l1 (e_dst e) l2 e X He eq_refl). }
      split.
      - destruct (mem (e_dst e) D) eqn:X; [|reflexivity]. exfalso. apply mem_true in X. apply in_split in X as (l1 & l2 & X). destruct (Dn l1 (l2 ++ n :: r)) as [Q|Q].
        + apply Q. rewrite E, X, <- app_assoc. reflexivity.
        + apply Nn. rewrite X. apply in_or_app; left; exact Q.
      - intros X. destruct (Dn D r) as [Q|Q]; [apply Q; rewrite X; exact E|contradiction]. }
    assert (S3 : e_dst e = n -> mem (e_src e) D = true /\ mem (e_dst e) D = false).
    { intros Ed. split; [apply mem_true; apply (Cl D (e_dst e) r e); [rewrite Ed; exact E|exact He|reflexivity]|]. rewrite Ed. destruct (mem n D) eqn:X; [apply mem_true in X; contradiction|reflexivity]. }
    destruct (Nat.eqb_spec (e_src e) n) as [Es|Es]; destruct (Nat.eqb_spec (e_dst e) n) as [Ed|Ed].
    + exfalso. destruct (S2 Es) as [_ X]. contradiction.
    + rewrite (S1 Es), (proj1 (S2 Es)). cbn [orb andb negb]. destruct (end_b e); ring.
    + rewrite (proj1 (S3 Ed)), (proj2 (S3 Ed)). cbn [orb andb negb]. destruct (end_b e); ring.
    + rewrite !orb_false_r. destruct (end_b e), (mem (e_src e) D), (mem (e_dst e) D); cbn [andb negb]; ring.
  - rewrite <- total_add. apply total_ext. intros e He. unfold fed, inD. rewrite mem_snoc.
    destruct (Nat.eqb_spec (e_src e) n) as [Es|Es].
    + assert (S1 : mem (e_src e) D = false) by (rewrite Es; destruct (mem n D) eqn:X; [apply mem_true in X; contradiction|reflexivity]). rewrite S1. destruct (start_b e); cbn [orb andb]; ring.
    + rewrite orb_false_r. ring.
Qed.

Lemma arriving_none : forall n, no_input g n -> arriving g n = [].
Proof. intros n [_ H]. destruct (arriving g n) as [|e l] eqn:E; [reflexivity|]. exfalso. assert (X : In e (arriving g n)) by (rewrite E; left; reflexivity). apply (In_arriving g n e W) in X as [X1 X2]. exact (H e X1 X2). Qed.
Lemma leaving_none : forall n, no_output g n -> leaving g n = [].
Proof. intros n [_ H]. destruct (leaving g n) as [|e l] eqn:E; [reflexivity|]. exfalso. assert (X : In e (leaving g n)) by (rewrite E; left; reflexivity). apply In_leaving in X as [X1 X2]. exact (H e X1 X2). Qed.

(* what an inner node gives is at most what it takes *)
Lemma inner_gives : forall n, is_node g n -> ~ no_input g n -> ~ no_output g n ->
  total (leaving g n) given <= total (arriving g n) taken /\ total (leaving g n) a <= total (arriving g n) taken /\ total (arriving g n) taken = worth n * total (arriving g n) b.
Proof.
  intros n Hn Ni No. assert (Tk : total (arriving g n) taken = worth n * total (arriving g n) b).
  { rewrite <- total_scale. apply total_ext. intros e He. apply (In_arriving g n e W) in He as [H1 H2]. unfold taken, end_b. rewrite H2. destruct (sink_b n) eqn:X; [apply (sink_iff n Hn) in X; contradiction|]. rewrite andb_false_r. ring. }
  assert (B0 : 0 <= total (arriving g n) b) by (apply total_nonneg; intros; apply b_pos). assert (A0 : 0 <= total (leaving g n) a) by (apply total_nonneg; intros; apply a_pos).
  pose proof (best_one o n) as B1. pose proof (passed n Hn Ni No) as P. split; [|split; [|exact Tk]].
  - rewrite Tk. unfold worth. apply Rle_trans with (best o n * total (leaving g n) a).
    + rewrite <- total_scale. apply total_le. intros e He. apply In_leaving in He as [H1 H2]. unfold given. destruct (wf_ends g W e H1) as [Ns Nd].
      destruct (source_b n) eqn:Sn; [apply (source_iff n Hn) in Sn; contradiction|]. unfold end_b. rewrite H2, Sn. cbn [negb andb].
      destruct (sink_b (e_dst e)) eqn:X.
      * pose proof (a_pos e). nra.
      * assert (Nod : ~ no_output g (e_dst e)) by (intros Q; apply (sink_iff _ Nd) in Q; congruence).
        pose proof (raised e H1 ltac:(rewrite H2; exact Ni) Nod) as Ra.
        assert (St : lim e * worth (e_dst e) <= best o n). { rewrite <- H2. apply best_step; [apply forward_o|exact H1|apply Oo; exact Ns|unfold inner_b; rewrite X; reflexivity]. }
        pose proof (worth_pos _ Nd) as Wp. pose proof (a_pos e). apply Rle_trans with (lim e * a e * worth (e_dst e)); [apply Rmult_le_compat_r; assumption|].
        replace (lim e * a e * worth (e_dst e)) with (lim e * worth (e_dst e) * a e) by ring. apply Rmult_le_compat_r; assumption.
    + replace (nl n * best o n * total (arriving g n) b) with (best o n * (nl n * total (arriving g n) b)) by ring. apply Rmult_le_compat_l; lra.
  - rewrite Tk. unfold worth. eapply Rle_trans; [exact P|]. pose proof (nl_one n Hn). apply Rmult_le_compat_r; [exact B0|]. nra.
Qed.

Lemma cut_feed : forall D r, o = D ++ r -> cut D <= feed D.
Proof.
  induction D as [|n D IH] using rev_ind; intros r E.
  - unfold cut, feed. apply total_le. intros e He. unfold held, fed, inD. cbn [mem existsb andb]. rewrite andb_false_r. destruct (end_b e); lra.
  - rewrite <- app_assoc in E. cbn [app] in E. specialize (IH (n :: r) E). destruct (cut_step D n r E) as [-> ->].
    assert (Hn : is_node g n) by (apply Oo; rewrite E; apply in_or_app; right; left; reflexivity).
    destruct (source_b n) eqn:Sn.
    + assert (Ni : no_input g n) by (apply (source_iff n Hn); exact Sn). rewrite (arriving_none n Ni). cbn [total fold_right].
      assert (Eq : total (leaving g n) given = total (leaving g n) (fun e => if start_b e then b e * worth (e_dst e) else 0)).
      { apply total_ext. intros e He. apply In_leaving in He as [H1 H2]. unfold given, end_b, start_b. rewrite H2, Sn. reflexivity. }
      rewrite Eq. unfold total in *. lra.
    + assert (Ni : ~ no_input g n) by (intros X; apply (source_iff n Hn) in X; congruence).
      assert (Eq : total (leaving g n) (fun e => if start_b e then b e * worth (e_dst e) else 0) = 0).
      { rewrite (total_ext _ _ (fun _ => 0 * 0)); [rewrite total_scale; ring|]. intros e He. apply In_leaving in He as [H1 H2]. unfold start_b. rewrite H2, Sn. ring. }
      rewrite Eq. destruct (sink_b n) eqn:Kn.
      * assert (No : no_output g n) by (apply (sink_iff n Hn); exact Kn). rewrite (leaving_none n No). unfold total at 1. cbn [fold_right].
        assert (0 <= total (arriving g n) taken); [|lra]. apply total_nonneg. intros e He. apply (In_arriving g n e W) in He as [H1 H2]. unfold taken. destruct (end_b e); [lra|]. apply Rmult_le_pos; [apply b_pos|apply worth_pos; apply (wf_ends g W e H1)].
      * assert (No : ~ no_output g n) by (intros X; apply (sink_iff n Hn) in X; congruence). destruct (inner_gives n Hn Ni No) as [G _]. lra.
Qed.

Variable K : R.
Hypothesis K_bound : forall e l, starting g e -> chain g (e_dst e) l -> nl (e_dst e) * route (e_dst e) l <= K.

Lemma lists_perm : forall P q l, lists P l -> (forall e, P e <-> In e (g_edges g) /\ q e = true) -> Permutation l (filter q (g_edges g)).
Proof.
  intros P q l [Nd H] Q. apply NoDup_Permutation; [exact Nd|apply NoDup_filter; exact (NoDup_map_inv _ _ (wf_keys g W))|]. intros e. rewrite H, Q, filter_In. reflexivity.
Qed.
Lemma starting_iff : forall e, starting g e <-> In e (g_edges g) /\ start_b e = true.
Proof. intros e. unfold starting, start_b. split; intros [H1 H2]; (split; [exact H1|]); apply (source_iff _ (proj1 (wf_ends g W e H1))); exact H2. Qed.
Lemma ending_iff : forall e, ending g e <-> In e (g_edges g) /\ end_b e = true.
Proof.
  intros e. unfold ending, end_b. split.
  - intros (H1 & H2 & H3). split; [exact H1|]. destruct (wf_ends g W e H1) as [Ns Nd]. apply (sink_iff _ Nd) in H3. rewrite H3. destruct (source_b (e_src e)) eqn:X; [apply (source_iff _ Ns) in X; contradiction|reflexivity].
  - intros (H1 & H2). destruct (wf_ends g W e H1) as [Ns Nd]. apply andb_true_iff in H2 as [H2 H3]. split; [exact H1|]. split; [|apply (sink_iff _ Nd); exact H3].
    intros X. apply (source_iff _ Ns) in X. rewrite X in H2. discriminate.
Qed.

Lemma feed_bound : forall D starts, lists (starting g) starts -> feed D <= K * total starts b.
Proof.
  intros D starts Ls. rewrite (total_perm _ _ b (lists_perm _ start_b _ Ls starting_iff)), total_filter, <- total_scale. apply total_le. intros e He. unfold fed.
  destruct (start_b e) eqn:S; cbn [andb]; [|lra]. assert (St : starting g e) by (apply starting_iff; auto).
  assert (Kw : worth (e_dst e) <= K). { unfold worth. destruct (best_attained o (e_dst e)) as (l & C & <-). exact (K_bound e l St C). }
  pose proof (b_pos e). pose proof (worth_pos _ (proj2 (wf_ends g W e He))). destruct (inD D (e_src e)); nra.
Qed.

Lemma network_ends : forall starts ends, lists (starting g) starts -> lists (ending g) ends -> total ends a <= K * total starts b.
Proof.
  intros starts ends Ls Le. eapply Rle_trans; [|apply (feed_bound o starts Ls)]. eapply Rle_trans; [|apply (cut_feed o []); rewrite app_nil_r; reflexivity].
  rewrite (total_perm _ _ a (lists_perm _ end_b _ Le ending_iff)), total_filter. unfold cut. apply total_le. intros e He. unfold held, inD.
  destruct (wf_ends g W e He) as [Ns Nd]. rewrite (proj2 (mem_true (e_src e) o)) by (apply Oo; exact Ns). destruct (end_b e); [lra|]. cbn [andb].
  destruct (negb (mem (e_dst e) o)); [|lra]. apply Rmult_le_pos; [apply b_pos|apply worth_pos; exact Nd].
Qed.

Lemma network_arriving : forall starts n, lists (starting g) starts -> is_node g n -> ~ no_input g n -> ~ no_output g n -> total (arriving g n) b <= K * total starts b.
Proof.
  intros starts n Ls Hn Ni No. destruct (inner_gives n Hn Ni No) as (_ & _ & Tk).
  assert (Hi : In n o) by (apply Oo; exact Hn). apply in_split in Hi as (D & r & E). apply Rle_trans with (total (arriving g n) taken).
  { rewrite Tk. assert (0 <= total (arriving g n) b) by (apply total_nonneg; intros; apply b_pos). pose proof (nl_one n Hn). pose proof (best_one o n). assert (1 <= worth n) by (unfold worth; nra). nra. }
  eapply Rle_trans; [|apply (feed_bound D starts Ls)]. eapply Rle_trans; [|apply (cut_feed D (n :: r) E)].
  rewrite total_arriving. unfold cut. apply total_le. intros e He. unfold held, taken, inD. destruct (wf_ends g W e He) as [Ns Nd].
  destruct (Nat.eqb_spec (e_dst e) n) as [Ed|Ed].
  + assert (Si : In (e_src e) D) by (apply (proj2 (proj2 Oo) D (e_dst e) r e); [rewrite Ed; exact E|exact He|reflexivity]). rewrite (proj2 (mem_true _ _) Si).
    assert (Nn : mem (e_dst e) D = false). { rewrite Ed. destruct (mem n D) eqn:X; [|reflexivity]. exfalso. apply mem_true in X. destruct Oo as (Nd' & _). rewrite E in Nd'. apply NoDup_remove in Nd' as [_ Nd']. apply Nd', in_or_app; left; exact X. }
    rewrite Nn. destruct (end_b e); [apply a_pos|cbn [andb negb]; lra].
  + destruct (end_b e), (mem (e_src e) D), (mem (e_dst e) D); cbn [andb negb]; try lra; try apply a_pos. apply Rmult_le_pos; [apply b_pos|apply worth_pos; exact Nd].
Qed.
End Network.
