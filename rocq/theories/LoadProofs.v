(** Saving in the minimal format and loading again (C14). *)
From Coq Require Import List Arith Bool Lia ZArith QArith Permutation FinFun.
From Verif Require Import Base GraphModel GraphSpec GraphProofs TopoProofs OperatorsModel OperatorsSpec OperatorsProofs EvolutionProofs
  TypingProofs EffectsProofs InitSpec InitProofs ParamsModel ParamsSpec EvolverModel EvolverSpec EvolveSpec ParamsProofs EvolveProofs BuildProofs
  SaveModel SaveSpec RebuildProofs SaveProofs.
Import ListNotations.
Local Open Scope nat_scope.

(** ** Names *)

Definition names (i : nat) (cs : list comp) : list nick := combine (map ccls cs) (seq i (length cs)).
Definition lid (s : store) (c : comp) : nat := match assoc (cid c) (s_objs s) with Some o => o_list o | None => 0 end.

Lemma names_length : forall i cs, length (names i cs) = length cs.
Proof. intros i cs; unfold names, nick. rewrite combine_length, map_length, seq_length. apply Nat.min_id. Qed.
Lemma names_snd : forall i cs, map snd (names i cs) = seq i (length cs).
Proof. intros i cs; unfold names, nick. apply map_combine_r. rewrite map_length, seq_length; reflexivity. Qed.
Lemma names_fst : forall i cs, map fst (names i cs) = map ccls cs.
Proof. intros i cs; unfold names, nick. apply map_combine_l. rewrite map_length, seq_length; reflexivity. Qed.
Lemma names_NoDup : forall i cs, NoDup (names i cs).
Proof. intros i cs. apply (NoDup_map_inv snd). rewrite names_snd. apply seq_NoDup. Qed.

Lemma position_lt : forall c, position c all_classes < 24.
Proof. intros []; vm_compute; lia. Qed.
Lemma position_inj : forall c c', position c all_classes = position c' all_classes -> c = c'.
Proof. intros [] []; vm_compute; intros H; try reflexivity; discriminate H. Qed.

Lemma label_inj : forall x y, label x = label y -> x = y.
Proof.
  intros [c i] [c' i'] H. unfold label in H; cbn [fst snd] in H. pose proof (position_lt c); pose proof (position_lt c').
  assert (i = i') by lia. subst i'. assert (position c all_classes = position c' all_classes) by lia. f_equal; apply position_inj; assumption.
Qed.

Lemma list_of_ok : forall s c o ps, has s (cid c) o ps -> list_of s (cid c) = Ok (lid s c).
Proof. intros s c o ps [H _]. unfold list_of, lid. rewrite (proj2 (get_obj_ok s _ o) H). cbn [bind]. rewrite H. reflexivity. Qed.

Lemma save_nodes_spec : forall s ns i, (forall p, In p ns -> exists o ps, has s (cid (n_model (snd p))) o ps) ->
  save_nodes s ns i = Ok (combine (map fst ns) (names i (map (fun p => n_model (snd p)) ns)),
                          combine (names i (map (fun p => n_model (snd p)) ns)) (map (fun p => lid s (n_model (snd p))) ns)).
Proof.
  induction ns as [|[n d] ns IH]; intros i B; cbn [save_nodes]; [reflexivity|].
  destruct (B (n, d) (or_introl eq_refl)) as (o & ps & H). cbn [snd] in H. rewrite (list_of_ok _ _ _ _ H). cbn [bind].
  rewrite IH by (intros p Hp; apply B; right; exact Hp). reflexivity.
Qed.

Definition nm (ns : list (node * nick)) (n : node) : nick := match assoc n ns with Some x => x | None => (TerminalSource, 0) end.

Lemma save_edges_spec : forall s ns es i, (forall e, In e es -> exists o ps, has s (cid (e_model (e_dat e))) o ps) ->
  (forall e, In e es -> In (e_src e) (map fst ns) /\ In (e_dst e) (map fst ns)) ->
  save_edges s ns es i = Ok (combine (names i (map (fun e => e_model (e_dat e)) es)) (map (fun e => (nm ns (e_src e), nm ns (e_dst e), e_key e)) es),
                             combine (names i (map (fun e => e_model (e_dat e)) es)) (map (fun e => lid s (e_model (e_dat e))) es)).
Proof.
  intros s ns es; induction es as [|e es IH]; intros i B N; cbn [save_edges]; [reflexivity|].
  destruct (B e (or_introl eq_refl)) as (o & ps & H). destruct (N e (or_introl eq_refl)) as [N1 N2].
  assert (X : forall n, In n (map fst ns) -> assoc n ns = Some (nm ns n)).
  { intros n Hn. unfold nm. destruct (assoc n ns) eqn:E; [reflexivity|]. apply assoc_None in E. exact (False_ind _ (E Hn)). }
  rewrite (X _ N1), (X _ N2). cbn [of_option bind]. rewrite (list_of_ok _ _ _ _ H). cbn [bind].
  rewrite IH by (intros x Hx; first [apply B|apply N]; right; exact Hx). reflexivity.
Qed.

(** ** Files *)

Lemma transport_spec : forall ls (xs : list nick) s, length xs = length ls -> (forall l, In l ls -> exists ps, assoc l (s_lists s) = Some ps) ->
  exists ls' s', transport_lists (combine xs ls) s = Ok (combine xs ls', s') /\ length ls' = length ls /\ s_objs s' = s_objs s /\ grows s s' /\
    Forall2 (fun l l' => exists ps, assoc l (s_lists s) = Some ps /\ assoc l' (s_lists s') = Some ps) ls ls' /\
    NoDup ls' /\ (forall l, In l ls' -> ~ In l (map fst (s_lists s))).
Proof.
  induction ls as [|l ls IH]; intros [|x xs] s Len H; try discriminate; cbn [combine transport_lists].
  - exists [], s. split; [reflexivity|]. split; [reflexivity|]. split; [reflexivity|]. split; [apply grows_refl|]. split; [constructor|]. split; [constructor|intros l []].
  - destruct (H l (or_introl eq_refl)) as (ps & E). rewrite (proj2 (get_list_ok s l ps) E). cbn [bind].
    set (j := fresh_key (s_lists s)). set (s1 := mkStore (s_objs s) (s_lists s ++ [(j, ps)])).
    assert (Nj : ~ In j (map fst (s_lists s))) by apply fresh_key_not_In.
    assert (G : grows s s1) by apply grows_add.
    destruct (IH xs s1) as (ls' & s' & E' & L' & O' & G' & F' & ND & Fr).
    { simpl in Len; lia. }
    { intros k Hk. destruct (H k (or_intror Hk)) as (qs & Eq). exists qs. apply G; exact Eq. }
    rewrite E'. cbn [bind fst snd]. exists (j :: ls'), s'. split; [reflexivity|]. split; [simpl; congruence|]. split; [exact O'|]. split; [eapply grows_trans; eassumption|].
    assert (Hj : assoc j (s_lists s1) = Some ps) by (cbn [s1 s_lists]; apply assoc_app_new; exact Nj).
    split; [|split].
    + constructor; [exists ps; split; [exact E|apply G'; exact Hj]|]. eapply Forall2_imp; [|apply Forall2_with_In; exact F'].
      intros a b (Ha & _ & qs & X1 & X2). exists qs. split; [|exact X2]. destruct (H a (or_intror Ha)) as (qs' & Y). rewrite (G _ _ Y) in X1; congruence.
    + constructor; [|exact ND]. intros C. apply (Fr j C). eapply assoc_In_fst; exact Hj.
    + intros k [<-|Hk]; [exact Nj|]. intros C; apply (Fr k Hk). eapply grows_keys; eassumption.
Qed.

(** ** Building the components *)

Fixpoint new_comps (cs : list cls) (next : nat) : list comp :=
  match cs with [] => [] | c :: r => mkComp next c false :: new_comps r (S next) end.
Lemma new_comps_length : forall cs k, length (new_comps cs k) = length cs.
Proof. induction cs; intros k; simpl; congruence. Qed.
Lemma new_comps_cid : forall cs k, map cid (new_comps cs k) = seq k (length cs).
Proof. induction cs; intros k; simpl; congruence. Qed.
Lemma new_comps_cls : forall cs k, map ccls (new_comps cs k) = cs.
Proof. induction cs; intros k; simpl; congruence. Qed.
Lemma new_comps_prot : forall cs k c, In c (new_comps cs k) -> cprot c = false.
Proof. induction cs; intros k c; simpl; [tauto|]. intros [<-|H]; [reflexivity|eapply IHcs; exact H]. Qed.

Lemma lookup_ok : forall c, registered c = true -> lookup c = Ok c.
Proof. intros c H; unfold lookup; rewrite H; reflexivity. Qed.

Lemma load_nodes_spec : forall (l : list (nick * nat)) next s, (forall x, In x l -> registered (fst (fst x)) = true) -> unused_from next s ->
  exists s', load_nodes l next s = Ok (combine (map (fun x => label (fst x)) l) (new_comps (map (fun x : nick * nat => fst (fst x)) l) next), s') /\
    unused_from (next + length l) s' /\ (forall i, i < next -> assoc i (s_objs s') = assoc i (s_objs s)) /\ grows s s' /\
    (forall c, In c (new_comps (map (fun x : nick * nat => fst (fst x)) l) next) -> exists k, assoc (cid c) (s_objs s') = Some (obj_of_spec k (spec_of (ccls c)))).
Proof.
  induction l as [|[x a] l IH]; intros next s R U; cbn [load_nodes].
  - exists s. split; [reflexivity|]. split; [rewrite Nat.add_0_r; exact U|]. split; [auto|]. split; [apply grows_refl|intros c []].
  - pose proof (R (x, a) (or_introl eq_refl)) as Rx. cbn [fst] in Rx. rewrite (lookup_ok _ Rx). cbn [bind].
    set (cm := mkComp next (fst x) false). destruct (IH (S next) (construct s cm)) as (s' & E & U' & K' & G' & H').
    { intros y Hy; apply R; right; exact Hy. }
    { unfold construct. apply (unused_put s next); exact U. }
    assert (G0 : grows s (construct s cm)) by (unfold construct; apply grows_add).
    rewrite E. cbn [bind fst snd map combine new_comps]. exists s'. split; [reflexivity|]. split; [cbn [length]; rewrite <- Nat.add_succ_comm; exact U'|].
    split; [|split; [eapply grows_trans; eassumption|]].
    + intros i L. rewrite K' by lia. unfold construct; cbn [s_objs cid cm]. apply put_unused; assumption.
    + intros c [<-|Hc]; [|apply H'; exact Hc]. cbn [cid ccls]. eexists. rewrite K' by lia. unfold construct; cbn [s_objs cid cm]. rewrite assoc_put, Nat.eqb_refl. reflexivity.
Qed.

Lemma load_edges_spec : forall (l : list (nick * (nick * nick * nat))) ep ls next s, (forall x, In x l -> registered (fst (fst x)) = true) -> unused_from next s ->
  Forall2 (fun x k => assoc_nick (fst x) ep = Some k) l ls ->
  exists s', load_edges l ep next s = Ok (combine (map (fun x => (label (fst (fst (snd x))), label (snd (fst (snd x))), snd (snd x))) l) (new_comps (map (fun x : nick * (nick * nick * nat) => fst (fst x)) l) next), s') /\
    unused_from (next + length l) s' /\ (forall i, i < next -> assoc i (s_objs s') = assoc i (s_objs s)) /\ s_lists s' = s_lists s /\
    Forall2 (fun c k => assoc (cid c) (s_objs s') = Some (obj_of_spec k (spec_of (ccls c)))) (new_comps (map (fun x : nick * (nick * nick * nat) => fst (fst x)) l) next) ls.
Proof.
  induction l as [|[x [[a b] k]] l IH]; intros ep ls next s R U F; cbn [load_edges].
  - inversion F; subst. exists s. split; [reflexivity|]. split; [rewrite Nat.add_0_r; exact U|]. split; [auto|]. split; [reflexivity|constructor].
  - inversion F as [|? k0 ? ls0 F1 F2]; subst. cbn [fst] in F1. rewrite F1. cbn [of_option bind].
    pose proof (R _ (or_introl eq_refl)) as Rx. cbn [fst] in Rx. rewrite (lookup_ok _ Rx). cbn [bind].
    set (cm := mkComp next (fst x) false). destruct (IH ep ls0 (S next) (construct_with s cm k0)) as (s' & E & U' & K' & G' & H'); [| |exact F2|].
    { intros y Hy; apply R; right; exact Hy. }
    { unfold construct_with. apply (unused_put s next); exact U. }
    rewrite E. cbn [bind fst snd map combine new_comps]. exists s'. split; [reflexivity|]. split; [cbn [length]; rewrite <- Nat.add_succ_comm; exact U'|].
    split; [|split; [rewrite G'; reflexivity|]].
    + intros i L. rewrite K' by lia. unfold construct_with; cbn [s_objs cid cm]. apply put_unused; assumption.
    + constructor; [|exact H']. cbn [cid ccls]. rewrite K' by lia. unfold construct_with; cbn [s_objs cid cm]. rewrite assoc_put, Nat.eqb_refl. reflexivity.
Qed.

(** ** Writing the node parameters *)

Definition with_list (o : obj) (l : nat) : obj := mkObj l (o_lock o) (o_lo o) (o_hi o) (o_types o) (o_steps o) (o_locks o) (o_num o).

Lemma load_params_spec : forall np ns s, NoDup (map (fun p => cid (n_model (snd p))) ns) ->
  (forall p, In p ns -> exists l ps o, assoc (fst p) np = Some l /\ assoc l (s_lists s) = Some ps /\ assoc (cid (n_model (snd p))) (s_objs s) = Some o /\ o_num o = Z.of_nat (length ps)) ->
  exists s', fold_res (load_params np) ns s = Ok s' /\ s_lists s' = s_lists s /\ map fst (s_objs s') = map fst (s_objs s) /\
    (forall j, ~ In j (map (fun p => cid (n_model (snd p))) ns) -> assoc j (s_objs s') = assoc j (s_objs s)) /\
    (forall p l o, In p ns -> assoc (fst p) np = Some l -> assoc (cid (n_model (snd p))) (s_objs s) = Some o -> assoc (cid (n_model (snd p))) (s_objs s') = Some (with_list o l)).
Proof.
  intros np ns; induction ns as [|p ns IH]; intros s ND H; cbn [fold_res].
  - exists s. split; [reflexivity|]. split; [reflexivity|]. split; [reflexivity|]. split; [auto|intros p l o []].
  - inversion ND as [|? ? Np NDr]; subst. destruct (H p (or_introl eq_refl)) as (l & ps & o & E1 & E2 & E3 & E4).
    unfold load_params at 1. rewrite E1. cbn [of_option bind]. rewrite (proj2 (get_list_ok s l ps) E2). cbn [bind]. rewrite (proj2 (get_obj_ok s _ o) E3). cbn [bind].
    rewrite (proj2 (Z.eqb_eq _ _) E4). unfold set_param_list. rewrite (proj2 (get_obj_ok s _ o) E3). cbn [bind].
    set (s1 := mkStore _ _). assert (Hin : In (cid (n_model (snd p))) (map fst (s_objs s))) by (eapply assoc_In_fst; exact E3).
    assert (A1 : forall j, assoc j (s_objs s1) = if Nat.eqb j (cid (n_model (snd p))) then Some (with_list o l) else assoc j (s_objs s)).
    { intros j. cbn [s1 s_objs]. apply (assoc_set_assoc _ j _ _ Hin). }
    assert (A2 : forall q, In q ns -> assoc (cid (n_model (snd q))) (s_objs s1) = assoc (cid (n_model (snd q))) (s_objs s)).
    { intros q Hq. rewrite A1. destruct (Nat.eqb_spec (cid (n_model (snd q))) (cid (n_model (snd p)))) as [C|_]; [|reflexivity].
      exfalso; apply Np. rewrite <- C. apply (in_map (fun p => cid (n_model (snd p)))); exact Hq. }
    destruct (IH s1 NDr) as (s' & E' & L' & M' & K' & H').
    { intros q Hq. destruct (H q (or_intror Hq)) as (l' & ps' & o' & X1 & X2 & X3 & X4). exists l', ps', o'. rewrite (A2 q Hq). auto. }
    exists s'. split; [exact E'|]. split; [rewrite L'; reflexivity|]. split; [rewrite M'; cbn [s1 s_objs]; apply set_assoc_fst|]. split.
    + intros j Nj. cbn [map] in Nj. rewrite K' by (intros C; apply Nj; right; exact C). rewrite A1. destruct (Nat.eqb_spec j (cid (n_model (snd p)))); [exfalso; apply Nj; left; congruence|reflexivity].
    + intros q l' o' [<-|Hq] X1 X2.
      * rewrite K' by exact Np. rewrite A1, Nat.eqb_refl. rewrite E1 in X1; injection X1 as <-. rewrite E3 in X2; injection X2 as <-. reflexivity.
      * apply (H' q l' o' Hq X1). rewrite (A2 q Hq). exact X2.
Qed.

(** ** The round trip *)

Lemma map_nm : forall ks xs, NoDup ks -> length ks = length xs -> map (nm (combine ks xs)) ks = xs.
Proof.
  induction ks as [|k ks IH]; intros [|x xs] ND L; try discriminate; [reflexivity|]. inversion ND as [|? ? Nk NDr]; subst. cbn [combine map].
  f_equal; [unfold nm; cbn [assoc]; rewrite Nat.eqb_refl; reflexivity|].
  rewrite <- (IH xs NDr) at 2 by (simpl in L; lia). apply map_ext_in. intros a Ha. unfold nm; cbn [assoc].
  destruct (Nat.eqb_spec a k); [subst; contradiction|reflexivity].
Qed.

Lemma assoc_nick_combine : forall xs (ls : list nat), NoDup xs -> length xs = length ls -> Forall2 (fun x l => assoc_nick x (combine xs ls) = Some l) xs ls.
Proof.
  induction xs as [|x xs IH]; intros [|l ls] ND L; try discriminate; [constructor|]. inversion ND as [|? ? Nx NDr]; subst. constructor.
  - simpl. destruct (nick_eq_dec x x); [reflexivity|contradiction].
  - eapply Forall2_imp; [|apply Forall2_with_In, (IH ls NDr); simpl in L; lia]. intros y k (Hy & _ & H). simpl. destruct (nick_eq_dec y x); [subst; contradiction|exact H].
Qed.

Lemma assoc_combine : forall {X} (key : X -> nat) (R : X -> nat -> Prop) xs vs x, NoDup (map key xs) -> Forall2 R xs vs -> In x xs ->
  exists v, assoc (key x) (combine (map key xs) vs) = Some v /\ R x v /\ In v vs.
Proof.
  intros X key R xs vs x ND F; induction F as [|y v xs vs H F IH]; intros Hx; [contradiction|]. cbn [map] in ND. inversion ND as [|? ? Ny NDr]; subst. cbn [map combine assoc].
  destruct Hx as [<-|Hx]; [rewrite Nat.eqb_refl; exists v; simpl; auto|]. destruct (Nat.eqb_spec (key x) (key y)) as [C|_].
  - exfalso; apply Ny. rewrite <- C. apply in_map; exact Hx.
  - destruct (IH NDr Hx) as (w & E & Rw & Iw). exists w; simpl; auto.
Qed.

Lemma assoc_combine_inj : forall (ks vs : list nat) a b v, NoDup vs -> assoc a (combine ks vs) = Some v -> assoc b (combine ks vs) = Some v -> a = b.
Proof.
  assert (X : forall (ks vs : list nat) a v, assoc a (combine ks vs) = Some v -> In v vs).
  { induction ks as [|k ks IH]; intros [|w vs] a v H; simpl in H; try discriminate. destruct (Nat.eqb a k); [injection H as <-; left; reflexivity|right; eapply IH; exact H]. }
  induction ks as [|k ks IH]; intros [|w vs] a b v ND Ha Hb; simpl in Ha, Hb; try discriminate. inversion ND as [|? ? Nw NDr]; subst.
  destruct (Nat.eqb_spec a k), (Nat.eqb_spec b k); subst; try reflexivity.
  - injection Ha as <-. exfalso; apply Nw. eapply X; exact Hb.
  - injection Hb as <-. exfalso; apply Nw. eapply X; exact Ha.
  - eapply IH; eassumption.
Qed.

Lemma Forall2_compose : forall {A B C} (R : A -> B -> Prop) (S : C -> B -> Prop) a b c, Forall2 R a b -> Forall2 S c b -> Forall2 (fun x y => exists z, R x z /\ S y z /\ In z b) a c.
Proof.
  intros A B C R S a b c F; revert c; induction F as [|x z a b H F IH]; intros c F'; inversion F' as [|y ? c' ? H' F'']; subst; constructor.
  - exists z; simpl; auto.
  - eapply Forall2_imp; [|apply IH; exact F'']. intros u w (z' & X1 & X2 & X3). exists z'; simpl; auto.
Qed.

Lemma Forall2_inj : forall {A B} (R : A -> B -> Prop) a b x y v, NoDup b -> Forall2 R a b -> In x a -> In y a -> (forall w, R x w -> w = v) -> (forall w, R y w -> w = v) -> x = y.
Proof.
  intros A B R a b x y v ND F; induction F as [|c d a b H F IH]; [intros []|]. inversion ND as [|? ? Nd NDr]; subst.
  assert (X : forall z, In z a -> exists w, In w b /\ R z w).
  { clear -F. intros z; induction F; [intros []|]. intros [<-|Hz]; [exists y; simpl; auto|]. destruct (IHF Hz) as (w & Hw & Rw). exists w; simpl; auto. }
  intros [<-|Hx] [<-|Hy] E1 E2; [reflexivity| | |apply IH; assumption].
  - destruct (X y Hy) as (w & Hw & Rw). apply E2 in Rw. apply E1 in H. subst. contradiction.
  - destruct (X x Hx) as (w & Hw & Rw). apply E1 in Rw. apply E2 in H. subst. contradiction.
Qed.

Lemma Forall2_In_l : forall {A B} (R : A -> B -> Prop) l l' a, Forall2 R l l' -> In a l -> exists b, In b l' /\ R a b.
Proof. intros A B R l l' a F; induction F; [intros []|]. intros [<-|H']; [exists y; simpl; auto|]. destruct (IHF H') as (b & Hb & Hr). exists b; simpl; auto. Qed.

Lemma new_comps_rel : forall {X} (h : X -> cls) l k, Forall2 (fun x c => ccls c = h x /\ cprot c = false) l (new_comps (map h l) k).
Proof. intros X h l; induction l; intros k; simpl; constructor; auto. Qed.

Lemma loadable_registered : forall c, ccls c <> FrequencySplitter /\ ccls c <> IntegratedSplitAndDelayLine -> registered (ccls c) = true.
Proof. intros c [H1 H2]. destruct (ccls c); try reflexivity; congruence. Qed.

Lemma multipath_unlocked : forall c, family_of c = MultiPath -> sp_lock (spec_of c) = false.
Proof. intros []; intros H; try discriminate H; reflexivity. Qed.

Lemma terminal_num : forall c, family_of c = TermSource \/ family_of c = TermSink -> sp_num (spec_of c) = 0%Z.
Proof. intros [] [H|H]; try discriminate H; reflexivity. Qed.

Lemma has_lid : forall s c o ps, has s (cid c) o ps -> assoc (lid s c) (s_lists s) = Some ps.
Proof. intros s c o ps [H1 H2]. unfold lid. rewrite H1. exact H2. Qed.

Definition name_of (g : graph) (n : node) : nick := nm (combine (node_ids g) (names 0 (map (fun p => n_model (snd p)) (g_nodes g)))) n.

Lemma name_of_nth : forall g i p, wf g -> nth_error (g_nodes g) i = Some p -> name_of g (fst p) = (ccls (n_model (snd p)), i).
Proof.
  intros g i p W H. unfold name_of. assert (ND : NoDup (node_ids g)) by (exact (wf_nodes g W)).
  assert (E := map_nm (node_ids g) (names 0 (map (fun p => n_model (snd p)) (g_nodes g))) ND ltac:(rewrite names_length, map_length; unfold node_ids; apply map_length)).
  apply (f_equal (fun l => nth_error l i)) in E.
  assert (Hi : nth_error (node_ids g) i = Some (fst p)) by (unfold node_ids; rewrite (map_nth_error fst i (g_nodes g) H); reflexivity).
  rewrite (map_nth_error _ i (node_ids g) Hi) in E.
  assert (X : nth_error (names 0 (map (fun p => n_model (snd p)) (g_nodes g))) i = Some (ccls (n_model (snd p)), i)).
  { clear -H. unfold names. rewrite !map_length. rewrite map_map. change i with (0 + i) at 2. revert i H. generalize 0 as k. induction (g_nodes g) as [|q r IH]; intros k [|i] H; try discriminate; cbn.
    - injection H as ->. rewrite Nat.add_0_r. reflexivity.
    - rewrite IH by exact H. rewrite Nat.add_succ_comm. reflexivity. }
  rewrite X in E. congruence.
Qed.

Lemma match_cons : forall {X Y} (l : list X) (a b : Y), l <> [] -> match l with [] => a | _ :: _ => b end = b.
Proof. intros X Y [|x l] a b H; [congruence|reflexivity]. Qed.

Lemma map_combine_h : forall {X Y Z} (h : X -> Z) (l : list X) (l' : list Y), length l = length l' -> map (fun x => h (fst x)) (combine l l') = map h l.
Proof. intros X Y Z h l; induction l; intros [|b l'] H; simpl in *; try discriminate; [reflexivity|]. f_equal; apply IHl; lia. Qed.
Lemma map_combine_k : forall {X Y Z} (h : Y -> Z) (l : list X) (l' : list Y), length l = length l' -> map (fun x => h (snd x)) (combine l l') = map h l'.
Proof. intros X Y Z h l; induction l; intros [|b l'] H; simpl in *; try discriminate; [reflexivity|]. f_equal; apply IHl; lia. Qed.

Lemma forallb_false : forall {X} (h : X -> bool) l, forallb h l = false -> exists x, In x l /\ h x = false.
Proof.
  intros X h l; induction l as [|x l IH]; simpl; [discriminate|]. destruct (h x) eqn:E; simpl; intros H.
  - destruct (IH H) as (y & Hy & Ey). exists y; auto.
  - exists x; auto.
Qed.

(* the length check of one node *)
Lemma num_sized : forall c outputs (ps : list pval), can_be_node c ->
  (match family_of (ccls c) with MultiPath => S (length ps) = outputs | _ => ps = [] end <-> o_num (new_object (ccls c) outputs) = Z.of_nat (length ps)).
Proof.
  intros c outputs ps Hf. unfold new_object. destruct (family_of (ccls c)) eqn:Ef; cbn [o_num obj_of_spec]; try (destruct Hf as [Hf|[Hf|Hf]]; congruence).
  - lia.
  - rewrite terminal_num by auto. destruct ps; cbn [length]; split; intros H; try reflexivity; try discriminate; lia.
  - rewrite terminal_num by auto. destruct ps; cbn [length]; split; intros H; try reflexivity; try discriminate; lia.
Qed.

Lemma load_params_raises : forall np ns s, NoDup (map (fun p => cid (n_model (snd p))) ns) ->
  (forall p, In p ns -> exists l ps o, assoc (fst p) np = Some l /\ assoc l (s_lists s) = Some ps /\ assoc (cid (n_model (snd p))) (s_objs s) = Some o) ->
  (exists p l ps o, In p ns /\ assoc (fst p) np = Some l /\ assoc l (s_lists s) = Some ps /\ assoc (cid (n_model (snd p))) (s_objs s) = Some o /\ o_num o <> Z.of_nat (length ps)) ->
  fold_res (load_params np) ns s = Err ValueError.
Proof.
  intros np ns; induction ns as [|p ns IH]; intros s ND H (q & lq & psq & oq & Hq & Q1 & Q2 & Q3 & Q4); [contradiction|]. cbn [fold_res].
  inversion ND as [|? ? Np NDr]; subst. destruct (H p (or_introl eq_refl)) as (l & ps & o & E1 & E2 & E3).
  unfold load_params at 1. rewrite E1. cbn [of_option bind]. rewrite (proj2 (get_list_ok s l ps) E2). cbn [bind]. rewrite (proj2 (get_obj_ok s _ o) E3). cbn [bind].
  destruct (Z.eqb_spec (o_num o) (Z.of_nat (length ps))) as [E4|E4]; [|reflexivity].
  destruct Hq as [<-|Hq]; [congruence|]. unfold set_param_list. rewrite (proj2 (get_obj_ok s _ o) E3). cbn [bind].
  assert (Hin : In (cid (n_model (snd p))) (map fst (s_objs s))) by (eapply assoc_In_fst; exact E3).
  assert (A2 : forall q x, In q ns -> assoc (cid (n_model (snd q))) (set_assoc (cid (n_model (snd p))) x (s_objs s)) = assoc (cid (n_model (snd q))) (s_objs s)).
  { intros r x Hr. rewrite (assoc_set_assoc _ _ _ _ Hin). destruct (Nat.eqb_spec (cid (n_model (snd r))) (cid (n_model (snd p)))) as [C|_]; [|reflexivity].
    exfalso; apply Np. rewrite <- C. apply (in_map (fun p => cid (n_model (snd p)))); exact Hr. }
  apply (IH _ NDr).
  - intros r Hr. destruct (H r (or_intror Hr)) as (l' & ps' & o' & X1 & X2 & X3). exists l', ps', o'. cbn [s_objs s_lists]. rewrite (A2 r _ Hr). auto.
  - exists q, lq, psq, oq. cbn [s_objs s_lists]. rewrite (A2 q _ Hq). auto 6.
Qed.

Theorem save_load_gen : forall g s next, wf g -> acyclic g -> grouped g -> (forall n c, model_at g n c -> can_be_node c) -> g_nodes g <> [] ->
  backed g s -> loadable g -> unused_from next s ->
  exists f, (forall i p, nth_error (g_nodes g) i = Some p -> f (fst p) = label (ccls (n_model (snd p)), i)) /\ one_to_one f g /\
  (sized g s -> exists g' s', save_and_load g s next = Ok (g', s') /\
    wf g' /\ acyclic g' /\ grouped g' /\ renumbered g' /\
    nodes_match f (fun n => node_loaded s s' (departures g n)) g g' /\ edges_match f (edge_loaded s s') g g' /\
    (forall i o ps, has s i o ps -> has s' i o ps) /\
    distinct_objects g' /\ (forall c, In c (components g') -> next <= cid c) /\ (separate s -> separate s')) /\
  (~ sized g s -> save_and_load g s next = Err ValueError).
Proof.
  intros g s next W A Gr Cn Ne B Ld U.
  set (f := fun n => label (name_of g n)). exists f.
  set (N := map (fun p => n_model (snd p)) (g_nodes g)). set (E := map (fun e => e_model (e_dat e)) (edges_view g)).
  assert (Bn : forall p, In p (g_nodes g) -> exists o ps, has s (cid (n_model (snd p))) o ps) by (intros p; apply In_node_backed; exact B).
  assert (Be : forall e, In e (edges_view g) -> exists o ps, has s (cid (e_model (e_dat e))) o ps).
  { intros e He; apply (In_edges_view g e W) in He. eapply In_edge_backed; eassumption. }
  assert (Lab : forall i p, nth_error (g_nodes g) i = Some p -> f (fst p) = label (ccls (n_model (snd p)), i)).
  { intros i p Hp. unfold f. rewrite (name_of_nth g i p W Hp). reflexivity. }
  assert (Ln : length N = length (g_nodes g)) by apply map_length. assert (Le : length E = length (edges_view g)) by apply map_length.
  (* names of the nodes *)
  assert (Mf : map f (node_ids g) = map label (names 0 N)).
  { unfold f. rewrite <- (map_map (name_of g) label). f_equal. apply map_nm; [exact (wf_nodes g W)|]. rewrite names_length, Ln. apply map_length. }
  assert (NDf : NoDup (map f (node_ids g))).
  { rewrite Mf. apply FinFun.Injective_map_NoDup; [exact label_inj|apply names_NoDup]. }
  assert (Inj : one_to_one f g).
  { intros a b Ha Hb. apply (NoDup_map_inj_In f (node_ids g) a b NDf); apply node_ids_is_node; assumption. }
  split; [exact Lab|]. split; [exact Inj|].
  (* saving *)
  unfold save_and_load, extract_minimal. rewrite (match_cons (g_nodes g) _ _ Ne).
  rewrite (save_nodes_spec s (g_nodes g) 0 Bn). cbn [bind fst snd]. fold N.
  rewrite (save_edges_spec s _ (edges_view g) (length (g_nodes g) - 1) Be).
  2: { intros e He. apply (In_edges_view g e W) in He. rewrite map_combine_l by (rewrite names_length, Ln; apply map_length).
       destruct (wf_ends g W e He). split; apply node_ids_is_node; assumption. }
  cbn [bind fst snd]. fold E. unfold transport. cbn [m_np m_ep m_adj].
  (* the file *)
  destruct (transport_spec (map (fun p => lid s (n_model (snd p))) (g_nodes g)) (names 0 N) s) as (ls1 & s1 & T1 & Tl1 & To1 & Tg1 & Tf1 & Tn1 & Tx1).
  { rewrite names_length, Ln, map_length; reflexivity. }
  { intros l Hl. apply in_map_iff in Hl; destruct Hl as (p & <- & Hp). destruct (Bn p Hp) as (o & ps & H). exists ps. exact (has_lid _ _ _ _ H). }
  rewrite T1. cbn [bind fst snd]. rewrite map_length in Tl1.
  destruct (transport_spec (map (fun e => lid s (e_model (e_dat e))) (edges_view g)) (names (length (g_nodes g) - 1) E) s1) as (ls2 & s2 & T2 & Tl2 & To2 & Tg2 & Tf2 & Tn2 & Tx2).
  { rewrite names_length, Le, map_length; reflexivity. }
  { intros l Hl. apply in_map_iff in Hl; destruct Hl as (p & <- & Hp). destruct (Be p Hp) as (o & ps & H). exists ps. apply Tg1. exact (has_lid _ _ _ _ H). }
  rewrite T2. cbn [bind fst snd]. rewrite map_length in Tl2.
  unfold build_minimal. cbn [m_np m_ep m_adj].
  assert (Us2 : unused_from next s2) by (intros i o H; rewrite To2, To1 in H; exact (U i o H)).
  (* node components *)
  assert (Lc1 : length (names 0 N) = length ls1) by (rewrite names_length, Ln, Tl1; reflexivity).
  assert (Cls1 : map (fun x : nick * nat => fst (fst x)) (combine (names 0 N) ls1) = map ccls N).
  { etransitivity; [apply (map_combine_h (@fst cls nat) _ _ Lc1)|apply names_fst]. }
  destruct (load_nodes_spec (combine (names 0 N) ls1) next s2) as (s3 & E3 & U3 & K3 & G3 & O3).
  { intros x Hx. assert (Y : In (fst (fst x)) (map ccls N)) by (rewrite <- Cls1; apply (in_map (fun x : nick * nat => fst (fst x))); exact Hx).
    apply in_map_iff in Y; destruct Y as (c & <- & Hc). apply loadable_registered, Ld. unfold components. apply in_or_app; left; exact Hc. }
  { exact Us2. }
  rewrite E3. cbn [bind fst snd]. rewrite Cls1. rewrite Cls1 in O3.
  assert (Lab1 : map (fun x : nick * nat => label (fst x)) (combine (names 0 N) ls1) = map f (node_ids g)).
  { etransitivity; [apply (map_combine_h label _ _ Lc1)|symmetry; exact Mf]. }
  rewrite Lab1. set (ncs := new_comps (map ccls N) next) in *.
  assert (Lcm : length (combine (names 0 N) ls1) = length (g_nodes g)) by (rewrite combine_length, Lc1, Tl1; apply Nat.min_id).
  rewrite Lcm. rewrite Lcm in U3.
  (* edge components *)
  set (en := names (length (g_nodes g) - 1) E) in *.
  set (adj := map (fun e => (nm (combine (map fst (g_nodes g)) (names 0 N)) (e_src e), nm (combine (map fst (g_nodes g)) (names 0 N)) (e_dst e), e_key e)) (edges_view g)).
  assert (Len : length en = length (edges_view g)) by (unfold en; rewrite names_length; exact Le).
  assert (Ladj : length adj = length (edges_view g)) by apply map_length.
  assert (Lea : length en = length adj) by (exact (eq_trans Len (eq_sym Ladj))).
  assert (Lel : length en = length ls2) by (exact (eq_trans Len (eq_sym Tl2))).
  assert (Cls2 : map (fun x : nick * (nick * nick * nat) => fst (fst x)) (combine en adj) = map ccls E).
  { etransitivity; [apply (map_combine_h (@fst cls nat) en adj Lea)|apply names_fst]. }
  destruct (load_edges_spec (combine en adj) (combine en ls2) ls2 (next + length (g_nodes g)) s3) as (s4 & E4 & U4 & K4 & L4 & O4).
  { intros x Hx. assert (Y : In (fst (fst x)) (map ccls E)) by (rewrite <- Cls2; apply (in_map (fun x : nick * (nick * nick * nat) => fst (fst x))); exact Hx).
    apply in_map_iff in Y; destruct Y as (c & <- & Hc). apply loadable_registered, Ld. unfold components. apply in_or_app; right.
    apply in_map_iff in Hc; destruct Hc as (e & <- & He). apply (In_edges_view g e W) in He. apply (in_map (fun e => e_model (e_dat e))); exact He. }
  { exact U3. }
  { apply (Forall2_map_l (fun x l => assoc_nick x (combine en ls2) = Some l) fst). rewrite (map_combine_l en adj Lea). exact (assoc_nick_combine en ls2 (names_NoDup _ _) Lel). }
  rewrite E4. cbn [bind fst snd]. rewrite Cls2. rewrite Cls2 in O4.
  assert (Adj : map (fun x : nick * (nick * nick * nat) => (label (fst (fst (snd x))), label (snd (fst (snd x))), snd (snd x))) (combine en adj) =
                map (fun e => (f (e_src e), f (e_dst e), e_key e)) (edges_view g)).
  { etransitivity; [apply (map_combine_k (fun y : nick * nick * nat => (label (fst (fst y)), label (snd (fst y)), snd y)) en adj Lea)|]. unfold adj. rewrite map_map. reflexivity. }
  rewrite Adj. set (ecs := new_comps (map ccls E) (next + length (g_nodes g))) in *.
  assert (Lcm2 : length (combine en adj) = length (edges_view g)) by (rewrite combine_length, Len, Ladj; apply Nat.min_id).
  rewrite Lcm2 in U4.
  (* the graph *)
  assert (Lnc : length ncs = length (g_nodes g)) by (unfold ncs; rewrite new_comps_length, map_length; exact Ln).
  assert (Lec : length ecs = length (edges_view g)) by (unfold ecs; rewrite new_comps_length, map_length; exact Le).
  assert (Relc : Forall2 (fun p c => ccls c = ccls (n_model (snd p)) /\ cprot c = false) (g_nodes g) ncs).
  { unfold ncs, N. rewrite map_map. apply (new_comps_rel (fun p => ccls (n_model (snd p)))). }
  assert (Up : forall c, In c ncs -> can_be_node c).
  { intros c Hc. destruct (Forall2_In_r _ _ _ c Relc Hc) as ([n d] & H0 & (Ec & _)). cbn [snd] in Ec.
    pose proof (Cn n (n_model d)) as X. unfold can_be_node in *. rewrite Ec. apply X. exists d; auto. }
  destruct (rebuild g f ncs ecs W A Gr Inj Lnc Lec Up) as (g' & Ei & W' & A' & Gr' & Rn & NM & EM & Ids & Mn & Me & Vw & Dp).
  rewrite Ei. cbn [of_option bind].
  assert (Idn : map cid ncs = seq next (length (g_nodes g))) by (unfold ncs; rewrite new_comps_cid, map_length, Ln; reflexivity).
  assert (Ide : map cid ecs = seq (next + length (g_nodes g)) (length (edges_view g))) by (unfold ecs; rewrite new_comps_cid, map_length, Le; reflexivity).
  assert (Nn : NoDup (map (fun p => cid (n_model (snd p))) (g_nodes g'))).
  { rewrite <- (map_map (fun p => n_model (snd p)) cid), Mn, Idn. apply seq_NoDup. }
  assert (Inn : forall p', In p' (g_nodes g') -> In (n_model (snd p')) ncs) by (intros p' Hp; rewrite <- Mn; apply (in_map (fun p => n_model (snd p))); exact Hp).
  assert (Rng : forall p', In p' (g_nodes g') -> next <= cid (n_model (snd p')) < next + length (g_nodes g)).
  { intros p' Hp. apply in_seq. rewrite <- Idn. apply in_map, Inn, Hp. }
  assert (Rne : forall c, In c ecs -> next + length (g_nodes g) <= cid c).
  { intros c Hc. assert (X : In (cid c) (seq (next + length (g_nodes g)) (length (edges_view g)))) by (rewrite <- Ide; apply in_map; exact Hc). apply in_seq in X; lia. }
  assert (O4n : forall p', In p' (g_nodes g') -> exists k, assoc (cid (n_model (snd p'))) (s_objs s4) = Some (obj_of_spec k (spec_of (ccls (n_model (snd p')))))).
  { intros p' Hp. rewrite K4 by (apply (Rng p' Hp)). apply O3, Inn, Hp. }
  assert (Fam : forall p', In p' (g_nodes g') -> can_be_node (n_model (snd p'))) by (intros p' Hp; apply Up, Inn, Hp).
  destruct (update_graph_full g' s4 A' W') as (s5 & E5 & D5 & K5 & M5 & G5 & _); [|exact Nn|].
  { intros p' Hp. split; [|apply Fam; exact Hp]. destruct (O4n p' Hp) as (k & Hk). eapply assoc_In_fst; exact Hk. }
  rewrite E5. cbn [bind].
  destruct (update_graph_full g' s5 A' W') as (s6 & E6 & D6 & K6 & M6 & G6 & _); [|exact Nn|].
  { intros p' Hp. split; [|apply Fam; exact Hp]. apply D5. destruct (O4n p' Hp) as (k & Hk). eapply assoc_In_fst; exact Hk. }
  rewrite E6. cbn [bind].
  assert (O6 : forall p', In p' (g_nodes g') -> exists o, assoc (cid (n_model (snd p'))) (s_objs s6) = Some o /\ same_attributes (new_object (ccls (n_model (snd p'))) (departures g' (fst p'))) o).
  { intros p' Hp. destruct (O4n p' Hp) as (k & Hk). destruct (family_of (ccls (n_model (snd p')))) eqn:Ef.
    3: { destruct (M5 p' _ Hp Ef Hk) as (l & [Hl _]). destruct (M6 p' _ Hp Ef Hl) as (l' & [Hl' _]). eexists; split; [exact Hl'|]. unfold new_object. rewrite Ef.
         unfold same_attributes; cbn. rewrite (multipath_unlocked _ Ef). auto 10. }
    all: exists (obj_of_spec k (spec_of (ccls (n_model (snd p'))))); split; [|unfold new_object; rewrite Ef; unfold same_attributes; cbn; auto 10];
         rewrite K6, K5; [exact Hk| |]; intros q Hq Fq C; assert (q = p') by (apply (NoDup_map_inj_In (fun p => cid (n_model (snd p))) _ _ _ Nn Hq Hp C)); subst q; congruence. }
  (* the parameters *)
  assert (Np : map (fun p : nick * nat => (label (fst p), snd p)) (combine (names 0 N) ls1) = combine (map f (node_ids g)) ls1).
  { rewrite Mf. clear. revert ls1. generalize (names 0 N) as xs. induction xs as [|x xs IH]; intros [|l ls]; simpl; try reflexivity. f_equal; apply IH. }
  rewrite Np. set (np := combine (map f (node_ids g)) ls1) in *.
  assert (G16 : grows s1 s6).
  { eapply grows_trans; [exact Tg2|]. eapply grows_trans; [exact G3|]. eapply grows_trans; [|eapply grows_trans; [exact G5|exact G6]]. intros l ps H; rewrite L4; exact H. }
  assert (G26 : grows s2 s6).
  { eapply grows_trans; [exact G3|]. eapply grows_trans; [|eapply grows_trans; [exact G5|exact G6]]. intros l ps H; rewrite L4; exact H. }
  assert (Anp : forall p, In p (g_nodes g) -> exists l, assoc (f (fst p)) np = Some l /\ In l ls1 /\ forall o ps, has s (cid (n_model (snd p))) o ps -> assoc l (s_lists s6) = Some ps).
  { intros p Hp. apply (Forall2_map_l _ (fun p => lid s (n_model (snd p)))) in Tf1.
    destruct (assoc_combine (fun p => f (fst p)) _ (g_nodes g) ls1 p ltac:(rewrite <- (map_map fst f); exact NDf) Tf1 Hp) as (l & El & (ps & X1 & X2) & Il).
    exists l. rewrite <- (map_map fst f) in El. split; [exact El|]. split; [exact Il|]. intros o qs Ho. apply has_lid in Ho. apply G16. congruence. }
  assert (Rel := nodes_rel f _ g g' ncs Ids Mn Relc).
  assert (Back : forall p', In p' (g_nodes g') -> exists p, In p (g_nodes g) /\ fst p' = f (fst p) /\ ccls (n_model (snd p')) = ccls (n_model (snd p)) /\ cprot (n_model (snd p')) = false).
  { intros p' Hp. destruct (Forall2_In_r _ _ _ p' Rel Hp) as (p & Hq & X1 & _ & _ & X2 & X3). exists p; auto. }
  assert (NodeOf : forall p, In p (g_nodes g) -> is_node g (fst p)) by (intros [n d] Hp; exists d; exact Hp).
  assert (Num : forall p p' o ps, In p (g_nodes g) -> fst p' = f (fst p) -> ccls (n_model (snd p')) = ccls (n_model (snd p)) -> has s (cid (n_model (snd p))) o ps ->
    (match family_of (ccls (n_model (snd p))) with MultiPath => S (length ps) = departures g (fst p) | _ => ps = [] end <->
     o_num (new_object (ccls (n_model (snd p'))) (departures g' (fst p'))) = Z.of_nat (length ps))).
  { intros p p' o ps Hp X1 X2 Ho. rewrite X1, (Dp _ (NodeOf p Hp)), X2. apply num_sized. destruct p as [n d]. apply (Cn n). exists d; auto. }
  assert (Pre : forall p', In p' (g_nodes g') -> exists p l ps o o0, In p (g_nodes g) /\ fst p' = f (fst p) /\ ccls (n_model (snd p')) = ccls (n_model (snd p)) /\
     has s (cid (n_model (snd p))) o0 ps /\
     assoc (fst p') np = Some l /\ assoc l (s_lists s6) = Some ps /\ assoc (cid (n_model (snd p'))) (s_objs s6) = Some o /\
     o_num o = o_num (new_object (ccls (n_model (snd p'))) (departures g' (fst p')))).
  { intros p' Hp. destruct (Back p' Hp) as (p & Hq & X1 & X2 & X3). destruct (Anp p Hq) as (l & El & Il & Hl). destruct (Bn p Hq) as (o0 & ps & Ho).
    destruct (O6 p' Hp) as (o & Eo & At). exists p, l, ps, o, o0. rewrite X1 at 2. do 4 (split; [assumption|]). split; [exact El|]. split; [exact (Hl _ _ Ho)|]. split; [exact Eo|].
    destruct At as (_ & _ & _ & _ & _ & _ & At). exact At. }
  split.
  2: { intros Ns. rewrite (load_params_raises np (g_nodes g') s6 Nn); [reflexivity| |].
    - intros p' Hp. destruct (Pre p' Hp) as (p & l & ps & o & o0 & _ & _ & _ & _ & X1 & X2 & X3 & _). exists l, ps, o; auto.
    - set (check := fun p' : node * ndata => match assoc (fst p') np, assoc (cid (n_model (snd p'))) (s_objs s6) with
                      | Some l, Some o => match assoc l (s_lists s6) with Some ps => Z.eqb (o_num o) (Z.of_nat (length ps)) | None => true end | _, _ => true end).
      destruct (forallb check (g_nodes g')) eqn:Ck.
      + exfalso; apply Ns. intros n c o ps (d & Hd & <-) Ho. rewrite forallb_forall in Ck.
        destruct (Forall2_In_l _ _ _ (n, d) Rel Hd) as (p' & Hp & X1 & _ & _ & X2 & _). cbn [fst snd] in X1, X2. specialize (Ck p' Hp). unfold check in Ck.
        destruct (Pre p' Hp) as (p & l & qs & o6 & o0 & Y1 & Y2 & Y3 & Y4 & Y5 & Y6 & Y7 & Y8). rewrite Y5, Y7, Y6 in Ck. apply Z.eqb_eq in Ck.
        assert (p = (n, d)).
        { apply (NoDup_map_inj_In fst _ _ _ (wf_nodes g W) Y1 Hd). cbn [fst]. apply Inj; [apply NodeOf; exact Y1|exists d; exact Hd|congruence]. }
        subst p. cbn [fst snd] in *. destruct (has_fun _ _ _ _ _ _ Ho Y4) as [-> ->].
        apply (proj2 (Num (n, d) p' o0 qs Hd Y2 Y3 Ho)). congruence.
      + apply forallb_false in Ck. destruct Ck as (p' & Hp & Ck). destruct (Pre p' Hp) as (p & l & ps & o & o0 & _ & _ & _ & _ & X1 & X2 & X3 & _).
        exists p', l, ps, o. do 4 (split; [assumption|]). unfold check in Ck. rewrite X1, X3, X2 in Ck. apply Z.eqb_neq in Ck. exact Ck. }
  intros Sz.
  destruct (load_params_spec np (g_nodes g') s6 Nn) as (s7 & E7 & L7 & D7 & K7 & O7).
  { intros p' Hp. destruct (Pre p' Hp) as ([n d] & l & ps & o & o0 & Y1 & Y2 & Y3 & Y4 & Y5 & Y6 & Y7 & Y8). exists l, ps, o. do 3 (split; [assumption|]).
    rewrite Y8. apply (proj1 (Num (n, d) p' o0 ps Y1 Y2 Y3 Y4)). cbn [fst snd]. apply (Sz n (n_model d) o0 ps); [exists d; auto|exact Y4]. }
  rewrite E7. cbn [bind].
  assert (Below : forall i, i < next -> assoc i (s_objs s7) = assoc i (s_objs s)).
  { intros i L. rewrite K7.
    2: { intros C. apply in_map_iff in C; destruct C as (p' & <- & Hp). specialize (Rng p' Hp); lia. }
    rewrite K6, K5 by (intros p' Hp _ C; specialize (Rng p' Hp); lia). rewrite K4, K3 by lia. rewrite To2, To1. reflexivity. }
  assert (Gall : grows s s7) by (intros l ps H; rewrite L7; apply G16, Tg1, H).
  assert (Edges : forall c k, In c ecs -> assoc (cid c) (s_objs s4) = Some (obj_of_spec k (spec_of (ccls c))) -> assoc (cid c) (s_objs s7) = Some (obj_of_spec k (spec_of (ccls c)))).
  { intros c k Hc H. specialize (Rne c Hc). rewrite K7.
    2: { intros C. apply in_map_iff in C; destruct C as (p' & X & Hp). specialize (Rng p' Hp); lia. }
    rewrite K6, K5 by (intros p' Hp _ C; specialize (Rng p' Hp); lia). exact H. }
  assert (Nodes7 : forall p', In p' (g_nodes g') -> exists p l o, In p (g_nodes g) /\ fst p' = f (fst p) /\ assoc (fst p') np = Some l /\ In l ls1 /\
    assoc (cid (n_model (snd p'))) (s_objs s7) = Some (with_list o l)).
  { intros p' Hp. destruct (Back p' Hp) as (p & Hq & X1 & X2 & X3). destruct (Anp p Hq) as (l & El & Il & Hl). destruct (O6 p' Hp) as (o & Eo & At).
    rewrite <- X1 in El. exists p, l, o. split; [exact Hq|]. split; [exact X1|]. split; [exact El|]. split; [exact Il|]. exact (O7 p' l o Hp El Eo). }
  assert (Cids : map cid (components g') = seq next (length (g_nodes g) + length (edges_view g))).
  { unfold components. rewrite Mn, Me, map_app, Idn, Ide, <- seq_app. reflexivity. }
  exists g', s7. split; [reflexivity|]. split; [exact W'|]. split; [exact A'|]. split; [exact Gr'|]. split; [exact Rn|].
  split; [|split; [|split; [|split; [|split]]]].
  - apply NM. rewrite <- Mn. apply Forall2_map_r'. eapply Forall2_imp; [|exact Rel]. intros p p' (X1 & X2 & X3 & X4 & X5).
    split; [exact X4|]. split; [exact X5|]. intros o ps Ho. destruct (Anp p X2) as (l & El & Il & Hl). destruct (O6 p' X3) as (o6 & Eo & At).
    rewrite <- X1 in El. pose proof (O7 p' l o6 X3 El Eo) as Ef. exists (with_list o6 l). split; [split; [exact Ef|rewrite L7; exact (Hl o ps Ho)]|].
    rewrite X4, X1, (Dp _ (NodeOf p X2)) in At. exact At.
  - apply EM. assert (F1 := Forall2_compose _ _ _ _ _ Tf2 O4). apply (Forall2_map_l _ (fun e => lid s (e_model (e_dat e)))) in F1.
    assert (F2 := new_comps_rel (fun e => ccls (e_model (e_dat e))) (edges_view g) (next + length (g_nodes g))).
    assert (Ec : new_comps (map (fun e => ccls (e_model (e_dat e))) (edges_view g)) (next + length (g_nodes g)) = ecs) by (unfold ecs, E; rewrite map_map; reflexivity).
    rewrite Ec in F2. pose proof (Forall2_with_In _ _ _ (Forall2_and _ _ _ _ F1 F2)) as F3. unfold E. clear -F3 Be Tg1 G26 L7 Edges.
    assert (Z : Forall2 (fun e c => edge_loaded s s7 (e_model (e_dat e)) c) (edges_view g) ecs).
    { eapply Forall2_imp; [|exact F3]. intros e c (He & Hc & (l & (ps & X1 & X2) & X3 & X4) & X5 & X6). split; [exact X5|]. split; [exact X6|].
      intros o qs Ho. apply has_lid in Ho. apply Tg1 in Ho. assert (ps = qs) by congruence. subst qs.
      eexists; split; [split; [exact (Edges c l Hc X3)|cbn [o_list obj_of_spec]; rewrite L7; apply G26; exact X2]|]. rewrite X5. unfold same_attributes; cbn; auto 10. }
    clear -Z. induction Z; simpl; constructor; auto.
  - intros i o ps H. apply (same_has s s7 i); [apply Below, (U i o (proj1 H))|exact Gall|exact H].
  - unfold distinct_objects. rewrite Cids. apply seq_NoDup.
  - intros c Hc. assert (X : In (cid c) (map cid (components g'))) by (apply in_map; exact Hc). rewrite Cids in X. apply in_seq in X; lia.
  - intros [S1 S2].
    assert (Known : forall i o, assoc i (s_objs s7) = Some o -> (i < next /\ assoc i (s_objs s) = Some o) \/
      (exists p', In p' (g_nodes g') /\ cid (n_model (snd p')) = i /\ assoc (fst p') np = Some (o_list o) /\ In (o_list o) ls1) \/
      (exists c, In c ecs /\ cid c = i /\ In (o_list o) ls2 /\ assoc (cid c) (s_objs s4) = Some o)).
    { intros i o H. destruct (Nat.lt_ge_cases i next) as [L|L]; [left; split; [exact L|rewrite <- (Below i L); exact H]|right].
      assert (Hi : In i (map fst (s_objs s4))).
      { apply D5, D6. rewrite <- D7. eapply assoc_In_fst; exact H. }
      destruct (assoc i (s_objs s4)) as [o4|] eqn:E4i; [|apply assoc_None in E4i; contradiction].
      pose proof (U4 i o4 E4i) as Lt. assert (Hin : In i (map cid (components g'))) by (rewrite Cids; apply in_seq; lia).
      apply in_map_iff in Hin; destruct Hin as (c & <- & Hc). unfold components in Hc. rewrite Me in Hc. apply in_app_or in Hc; destruct Hc as [Hc|Hc].
      - left. apply in_map_iff in Hc; destruct Hc as (p' & <- & Hp). destruct (Nodes7 p' Hp) as (p & l & o6 & X1 & X2 & X3 & X4 & X5). rewrite X5 in H; injection H as <-. exists p'; auto.
      - right. destruct (Forall2_In_l _ _ _ c O4 Hc) as (k & Hk & Ek). rewrite (Edges c k Hc Ek) in H. injection H as <-. exists c. auto. }
    split.
    + intros i o H. rewrite L7. destruct (Known i o H) as [[_ H0]|[(p' & _ & _ & _ & Il)|(c & _ & _ & Il & _)]].
      * apply (grows_keys s s6); [exact (grows_trans _ _ _ Tg1 G16)|]. exact (S1 i o H0).
      * apply (grows_keys s1 s6 _ G16). destruct (Forall2_In_r _ _ _ _ Tf1 Il) as (l0 & _ & ps & _ & X). eapply assoc_In_fst; exact X.
      * apply (grows_keys s2 s6 _ G26). destruct (Forall2_In_r _ _ _ _ Tf2 Il) as (l0 & _ & ps & _ & X). eapply assoc_In_fst; exact X.
    + intros i j o o' Hi Hj El.
      assert (I1 : forall l, In l ls1 -> In l (map fst (s_lists s1))).
      { intros l Il. destruct (Forall2_In_r _ _ _ _ Tf1 Il) as (l0 & _ & ps & _ & X). eapply assoc_In_fst; exact X. }
      assert (I0 : forall k x, assoc k (s_objs s) = Some x -> In (o_list x) (map fst (s_lists s1))).
      { intros k x Hx. apply (grows_keys s s1 _ Tg1). exact (S1 k x Hx). }
      destruct (Known i o Hi) as [[_ H0]|[(p' & Hp & <- & Ep & Il)|(c & Hc & <- & Il & Oc)]];
      destruct (Known j o' Hj) as [[_ H0']|[(q' & Hq & <- & Eq & Il')|(c' & Hc' & <- & Il' & Oc')]].
      * exact (S2 i j o o' H0 H0' El).
      * exfalso. apply (Tx1 _ Il'). rewrite <- El. exact (S1 i o H0).
      * exfalso. apply (Tx2 _ Il'). rewrite <- El. exact (I0 i o H0).
      * exfalso. apply (Tx1 _ Il). rewrite El. exact (S1 j o' H0').
      * rewrite <- El in Eq. pose proof (assoc_combine_inj _ _ _ _ _ Tn1 Ep Eq) as X.
        assert (p' = q') by (apply (NoDup_map_inj_In fst _ _ _ (wf_nodes g' W') Hp Hq X)). congruence.
      * exfalso. apply (Tx2 _ Il'). rewrite <- El. apply I1; exact Il.
      * exfalso. apply (Tx2 _ Il). rewrite El. exact (I0 j o' H0').
      * exfalso. apply (Tx2 _ Il). rewrite El. apply I1; exact Il'.
      * f_equal. apply (Forall2_inj _ ecs ls2 c c' (o_list o) Tn2 O4 Hc Hc').
        -- intros w Hw. rewrite Oc in Hw. injection Hw as ->. reflexivity.
        -- intros w Hw. rewrite Oc' in Hw. injection Hw as ->. rewrite El. reflexivity.
Qed.

(** ** Files that cannot be loaded *)

Lemma load_nodes_unknown : forall (l : list (nick * nat)) next s x, In x l -> registered (fst (fst x)) = false -> load_nodes l next s = Err KeyError.
Proof.
  induction l as [|[y a] l IH]; intros next s x Hx R; [contradiction|]; destruct Hx as [<-|Hx]; cbn [load_nodes].
  - cbn [fst] in R. unfold lookup. rewrite R. reflexivity.
  - unfold lookup. destruct (registered (fst y)); [|reflexivity]. cbn [bind]. rewrite (IH _ _ x Hx R). reflexivity.
Qed.
Lemma load_edges_unknown : forall (l : list (nick * (nick * nick * nat))) ep next s x, In x l -> registered (fst (fst x)) = false -> load_edges l ep next s = Err KeyError.
Proof.
  induction l as [|[y [[a b] k]] l IH]; intros ep next s x Hx R; [contradiction|]; destruct Hx as [<-|Hx]; cbn [load_edges].
  - cbn [fst] in R. destruct (assoc_nick y ep); [|reflexivity]. cbn [of_option bind]. unfold lookup. rewrite R. reflexivity.
  - destruct (assoc_nick y ep); [|reflexivity]. cbn [of_option bind]. unfold lookup. destruct (registered (fst y)); [|reflexivity]. cbn [bind]. rewrite (IH _ _ _ x Hx R). reflexivity.
Qed.
Lemma load_nodes_only_key : forall (l : list (nick * nat)) next s e, load_nodes l next s = Err e -> e = KeyError.
Proof.
  induction l as [|[y a] l IH]; intros next s e; cbn [load_nodes]; [discriminate|]. unfold lookup. destruct (registered (fst y)); [|intros H; injection H as <-; reflexivity]. cbn [bind].
  destruct (load_nodes l (S next) _) eqn:E; cbn [bind]; [discriminate|]. intros H; injection H as <-. eapply IH; exact E.
Qed.

Theorem load_unknown_class : forall g s next, wf g -> g_nodes g <> [] -> backed g s -> ~ loadable g -> save_and_load g s next = Err KeyError.
Proof.
  intros g s next W Ne B Nl.
  assert (X : exists c, In c (components g) /\ registered (ccls c) = false).
  { destruct (forallb (fun c => registered (ccls c)) (components g)) eqn:E.
    - exfalso; apply Nl. intros c Hc. rewrite forallb_forall in E. specialize (E c Hc). split; intros C; rewrite C in E; discriminate E.
    - apply forallb_false in E. exact E. }
  set (N := map (fun p => n_model (snd p)) (g_nodes g)). set (E := map (fun e => e_model (e_dat e)) (edges_view g)).
  assert (Bn : forall p, In p (g_nodes g) -> exists o ps, has s (cid (n_model (snd p))) o ps) by (intros p; apply In_node_backed; exact B).
  assert (Be : forall e, In e (edges_view g) -> exists o ps, has s (cid (e_model (e_dat e))) o ps).
  { intros e He; apply (In_edges_view g e W) in He. eapply In_edge_backed; eassumption. }
  unfold save_and_load, extract_minimal. rewrite (match_cons (g_nodes g) _ _ Ne). rewrite (save_nodes_spec s (g_nodes g) 0 Bn). cbn [bind fst snd]. fold N.
  assert (Ln : length N = length (g_nodes g)) by apply map_length. assert (Le : length E = length (edges_view g)) by apply map_length.
  rewrite (save_edges_spec s _ (edges_view g) (length (g_nodes g) - 1) Be).
  2: { intros e He. apply (In_edges_view g e W) in He. rewrite map_combine_l by (rewrite names_length, Ln; apply map_length).
       destruct (wf_ends g W e He). split; apply node_ids_is_node; assumption. }
  cbn [bind fst snd]. fold E. unfold transport. cbn [m_np m_ep m_adj].
  destruct (transport_spec (map (fun p => lid s (n_model (snd p))) (g_nodes g)) (names 0 N) s) as (ls1 & s1 & T1 & Tl1 & _ & Tg1 & _).
  { rewrite names_length, Ln, map_length; reflexivity. }
  { intros l Hl. apply in_map_iff in Hl; destruct Hl as (p & <- & Hp). destruct (Bn p Hp) as (o & ps & H). exists ps. exact (has_lid _ _ _ _ H). }
  rewrite T1. cbn [bind fst snd]. rewrite map_length in Tl1.
  destruct (transport_spec (map (fun e => lid s (e_model (e_dat e))) (edges_view g)) (names (length (g_nodes g) - 1) E) s1) as (ls2 & s2 & T2 & Tl2 & _).
  { rewrite names_length, Le, map_length; reflexivity. }
  { intros l Hl. apply in_map_iff in Hl; destruct Hl as (p & <- & Hp). destruct (Be p Hp) as (o & ps & H). exists ps. apply Tg1. exact (has_lid _ _ _ _ H). }
  rewrite T2. cbn [bind fst snd]. rewrite map_length in Tl2. unfold build_minimal. cbn [m_np m_ep m_adj].
  assert (Lc1 : length (names 0 N) = length ls1) by (rewrite names_length, Ln, Tl1; reflexivity).
  destruct (load_nodes (combine (names 0 N) ls1) next s2) as [[rn s3]|e] eqn:En; [|rewrite (load_nodes_only_key _ _ _ _ En); reflexivity].
  cbn [bind fst snd]. set (en := names (length (g_nodes g) - 1) E) in *.
  set (adj := map (fun e => (nm (combine (map fst (g_nodes g)) (names 0 N)) (e_src e), nm (combine (map fst (g_nodes g)) (names 0 N)) (e_dst e), e_key e)) (edges_view g)).
  assert (Lea : length en = length adj) by (unfold en, adj; rewrite names_length, Le, map_length; reflexivity).
  destruct X as (c & Hc & Rc). unfold components in Hc. apply in_app_or in Hc; destruct Hc as [Hc|Hc].
  - exfalso. assert (Y : In (ccls c) (map (fun x : nick * nat => fst (fst x)) (combine (names 0 N) ls1))).
    { pose proof (map_combine_h (@fst cls nat) _ _ Lc1) as Q. change (cls * nat)%type with nick in Q. rewrite Q, names_fst. apply in_map; exact Hc. }
    apply in_map_iff in Y; destruct Y as (x & Ex & Hx). rewrite (load_nodes_unknown _ next s2 x Hx) in En by (rewrite Ex; exact Rc). discriminate.
  - assert (Y : In (ccls c) (map (fun x : nick * (nick * nick * nat) => fst (fst x)) (combine en adj))).
    { pose proof (map_combine_h (@fst cls nat) _ _ Lea) as Q. change (cls * nat)%type with nick in Q. rewrite Q. unfold en. rewrite names_fst. apply in_map. unfold E.
      apply in_map_iff in Hc; destruct Hc as (e & <- & He). apply (in_map (fun e => e_model (e_dat e))). apply (In_edges_view g e W); exact He. }
    apply in_map_iff in Y; destruct Y as (x & Ex & Hx). rewrite (load_edges_unknown _ _ _ _ x Hx) by (rewrite Ex; exact Rc). reflexivity.
Qed.
