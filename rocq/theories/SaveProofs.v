(** Copying a graph, saving it in the minimal format and loading it again (C13, C14). *)
From Coq Require Import List Arith Bool Lia ZArith QArith Permutation.
From Verif Require Import Base GraphModel GraphSpec GraphProofs TopoProofs OperatorsModel OperatorsSpec OperatorsProofs EvolutionProofs
  TypingProofs EffectsProofs InitSpec InitProofs ParamsModel ParamsSpec EvolverModel EvolverSpec EvolveSpec ParamsProofs EvolveProofs BuildProofs
  SaveModel SaveSpec RebuildProofs.
Import ListNotations.
Local Open Scope nat_scope.

(** ** Stores that only grow *)

Definition grows (s s' : store) : Prop := forall l ps, assoc l (s_lists s) = Some ps -> assoc l (s_lists s') = Some ps.
Lemma grows_refl : forall s, grows s s. Proof. intros s l ps H; exact H. Qed.
Lemma grows_trans : forall s s' s'', grows s s' -> grows s' s'' -> grows s s''.
Proof. intros s s' s'' G G' l ps H; apply G', G, H. Qed.
Lemma grows_keys : forall s s' l, grows s s' -> In l (map fst (s_lists s)) -> In l (map fst (s_lists s')).
Proof.
  intros s s' l G H. apply In_fst_ex in H; destruct H as (ps & H).
  destruct (assoc l (s_lists s)) eqn:E; [apply G in E; eapply assoc_In_fst; exact E|]. apply assoc_None in E. exfalso; apply E, In_fst_ex. exists ps; exact H.
Qed.
Lemma grows_add : forall s os k ps, grows s (mkStore os (s_lists s ++ [(k, ps)])).
Proof. intros s os k ps l qs H; cbn [s_lists]. apply assoc_app_l; exact H. Qed.
Lemma same_has : forall s s' i, assoc i (s_objs s') = assoc i (s_objs s) -> grows s s' -> keeps s s' i.
Proof. intros s s' i E G o ps [H1 H2]. split; [congruence|apply G; exact H2]. Qed.

Lemma put_unused : forall s j (o : obj) i, unused_from j s -> i < j -> assoc i (put j o (s_objs s)) = assoc i (s_objs s).
Proof. intros s j o i U L. rewrite assoc_put. destruct (Nat.eqb_spec i j); [lia|reflexivity]. Qed.

Lemma unused_put : forall s j o ls, unused_from j s -> unused_from (S j) (mkStore (put j o (s_objs s)) ls).
Proof.
  intros s j o ls U i o' H. cbn [s_objs] in H. rewrite assoc_put in H. destruct (Nat.eqb_spec i j); [lia|]. specialize (U i o' H); lia.
Qed.

Lemma unused_le : forall a b s, unused_from a s -> a <= b -> unused_from b s.
Proof. intros a b s U L i o H; specialize (U i o H); lia. Qed.

Lemma Forall2_imp : forall {A B} (R R' : A -> B -> Prop) l l', (forall a b, R a b -> R' a b) -> Forall2 R l l' -> Forall2 R' l l'.
Proof. intros A B R R' l l' H F; induction F; constructor; auto. Qed.

Lemma Forall2_len : forall {A B} (R : A -> B -> Prop) l l', Forall2 R l l' -> length l = length l'.
Proof. intros A B R l l' F; induction F; simpl; congruence. Qed.

(** ** Copies *)

Definition copied (s s' : store) (c c' : comp) : Prop :=
  ccls c' = ccls c /\ cprot c' = cprot c /\ forall o ps, has s (cid c) o ps -> exists o', has s' (cid c') o' ps /\ same_attributes o o'.

Lemma copy_obj_spec : forall s i j o ps, has s i o ps -> unused_from j s -> exists s',
  copy_obj s i j = Ok s' /\ unused_from (S j) s' /\ (forall k, k < j -> assoc k (s_objs s') = assoc k (s_objs s)) /\ grows s s' /\
  (exists o', has s' j o' ps /\ same_attributes o o') /\ (separate s -> separate s').
Proof.
  intros s i j o ps [H1 H2] U. unfold copy_obj. rewrite (proj2 (get_obj_ok s i o) H1). cbn [bind]. rewrite (proj2 (get_list_ok s _ ps) H2). cbn [bind].
  eexists; split; [reflexivity|]. split; [apply unused_put; exact U|]. split; [intros k L; cbn [s_objs]; apply put_unused; assumption|]. split; [apply grows_add|].
  split.
  - eexists; split; [split; cbn [s_objs s_lists]; [rewrite assoc_put, Nat.eqb_refl; reflexivity|apply assoc_app_new, fresh_key_not_In]|]. unfold same_attributes; cbn; auto 10.
  - intros [S1 S2]. assert (Nl := fresh_key_not_In (s_lists s)). split; cbn [s_objs s_lists].
    + intros k x E. rewrite assoc_put in E. rewrite map_app. apply in_or_app. destruct (Nat.eqb_spec k j); [injection E as <-; right; left; reflexivity|left; apply (S1 k x E)].
    + intros k m x y Ek Em E. rewrite assoc_put in Ek, Em. destruct (Nat.eqb_spec k j), (Nat.eqb_spec m j); subst; try reflexivity.
      * injection Ek as <-. cbn in E. exfalso; apply Nl. rewrite E. apply (S1 m y Em).
      * injection Em as <-. cbn in E. exfalso; apply Nl. rewrite <- E. apply (S1 k x Ek).
      * apply (S2 k m x y Ek Em E).
Qed.

Lemma copy_all_spec : forall cs j s, (forall c, In c cs -> exists o ps, has s (cid c) o ps) -> unused_from j s -> exists cs' s',
  copy_all cs j s = Ok (cs', s') /\ map cid cs' = seq j (length cs) /\ unused_from (j + length cs) s' /\
  (forall k, k < j -> assoc k (s_objs s') = assoc k (s_objs s)) /\ grows s s' /\ Forall2 (copied s s') cs cs' /\ (separate s -> separate s').
Proof.
  induction cs as [|c cs IH]; intros j s B U; cbn [copy_all].
  - exists [], s. split; [reflexivity|]. split; [reflexivity|]. split; [rewrite Nat.add_0_r; exact U|]. split; [auto|]. split; [apply grows_refl|]. split; [constructor|auto].
  - destruct (B c (or_introl eq_refl)) as (o & ps & H). destruct (copy_obj_spec s (cid c) j o ps H U) as (s1 & E & U1 & K1 & G1 & (o' & H' & At) & Sp).
    rewrite E. cbn [bind]. assert (Kp : forall k x qs, has s k x qs -> has s1 k x qs).
    { intros k x qs Hk. apply (same_has s s1 k); [apply K1, (U k x), (proj1 Hk)|exact G1|exact Hk]. }
    destruct (IH (S j) s1) as (cs' & s' & E' & Id & U' & K' & G' & F & Sp'); [|exact U1|].
    { intros d Hd. destruct (B d (or_intror Hd)) as (x & qs & Hx). exists x, qs. apply Kp; exact Hx. }
    rewrite E'. cbn [bind fst snd]. do 2 eexists. split; [reflexivity|]. cbn [map cid length seq]. split; [rewrite Id; reflexivity|].
    split; [rewrite <- Nat.add_succ_comm; exact U'|]. split; [intros k L; rewrite K' by lia; apply K1; exact L|]. split; [eapply grows_trans; eassumption|]. split; [|auto].
    constructor.
    + split; [reflexivity|]. split; [reflexivity|]. cbn [cid]. intros x qs Hx. destruct (has_fun _ _ _ _ _ _ H Hx) as [<- <-].
      exists o'. split; [|exact At]. apply (same_has s1 s' j); [apply K'; lia|exact G'|exact H'].
    + eapply Forall2_imp; [|exact F]. intros d d' (X1 & X2 & X3). split; [exact X1|]. split; [exact X2|]. intros x qs Hx. apply X3, Kp, Hx.
Qed.

(** ** Resetting splitters *)

Lemma splitter_separate : forall s i n s', separate s -> splitter_update s i n = Ok s' -> separate s'.
Proof.
  intros s i n s' [In_ Inj] H. unfold splitter_update in H. apply bind_ok in H; destruct H as (o0 & Ho & H). apply get_obj_ok in Ho.
  injection H as <-. set (l := fresh_key (s_lists s)). assert (Nl : ~ In l (map fst (s_lists s))) by apply fresh_key_not_In.
  assert (Hin : In i (map fst (s_objs s))) by (eapply assoc_In_fst; exact Ho).
  split; cbn [s_objs s_lists].
  - intros j o E. rewrite (assoc_set_assoc i j _ _ Hin) in E. rewrite map_app. apply in_or_app. destruct (Nat.eqb_spec j i).
    + injection E as <-. right; left; reflexivity.
    + left; apply (In_ j o E).
  - intros j k o o' Ej Ek E. rewrite (assoc_set_assoc i j _ _ Hin) in Ej. rewrite (assoc_set_assoc i k _ _ Hin) in Ek.
    destruct (Nat.eqb_spec j i), (Nat.eqb_spec k i); subst; try reflexivity.
    + injection Ej as <-. cbn in E. exfalso; apply Nl. rewrite E. apply (In_ k o' Ek).
    + injection Ek as <-. cbn in E. exfalso; apply Nl. rewrite <- E. apply (In_ j o Ej).
    + apply (Inj j k o o' Ej Ek E).
Qed.

Lemma update_full : forall g ns s, (forall p, In p ns -> resettable s p) -> NoDup (map (fun p => cid (n_model (snd p))) ns) ->
  exists s', fold_res (fun s p => update_attributes s (n_model (snd p)) (get_out_degree g (fst p))) ns s = Ok s' /\
    (forall j, In j (map fst (s_objs s)) <-> In j (map fst (s_objs s'))) /\
    (forall j, (forall p, In p ns -> family_of (ccls (n_model (snd p))) = MultiPath -> cid (n_model (snd p)) <> j) -> assoc j (s_objs s') = assoc j (s_objs s)) /\
    (forall p o, In p ns -> family_of (ccls (n_model (snd p))) = MultiPath -> assoc (cid (n_model (snd p))) (s_objs s) = Some o ->
       exists l, let n := get_out_degree g (fst p) in
         has s' (cid (n_model (snd p))) (mkObj l (o_lock o) (rep (pred n) (dec 0 0)) (rep (pred n) (dec 1 0)) (rep (pred n) DFloat) (rep (pred n) None)
                  (rep (pred n) false) (Z.of_nat n - 1)%Z) (split_default (pred n))) /\
    grows s s' /\ (separate s -> separate s').
Proof.
  induction ns as [|p ns IH]; intros s H ND; cbn [fold_res].
  - exists s. split; [reflexivity|]. split; [tauto|]. split; [auto|]. split; [intros p o []|]. split; [apply grows_refl|auto].
  - inversion ND as [|? ? Np NDr]; subst.
    assert (Step : exists s1, update_attributes s (n_model (snd p)) (get_out_degree g (fst p)) = Ok s1 /\
      (forall j, In j (map fst (s_objs s)) <-> In j (map fst (s_objs s1))) /\
      (forall j, (family_of (ccls (n_model (snd p))) = MultiPath -> cid (n_model (snd p)) <> j) -> assoc j (s_objs s1) = assoc j (s_objs s)) /\
      (family_of (ccls (n_model (snd p))) = MultiPath -> forall o, assoc (cid (n_model (snd p))) (s_objs s) = Some o ->
         exists l, let n := get_out_degree g (fst p) in
         has s1 (cid (n_model (snd p))) (mkObj l (o_lock o) (rep (pred n) (dec 0 0)) (rep (pred n) (dec 1 0)) (rep (pred n) DFloat) (rep (pred n) None)
                  (rep (pred n) false) (Z.of_nat n - 1)%Z) (split_default (pred n))) /\
      grows s s1 /\ (separate s -> separate s1)).
    { destruct (H p (or_introl eq_refl)) as [I F]. unfold update_attributes.
      destruct (family_of (ccls (n_model (snd p)))) eqn:Ef; try (destruct F as [F|[F|F]]; discriminate).
      2: { exists s; split; [reflexivity|]. split; [tauto|]. split; [auto|]. split; [discriminate|]. split; [apply grows_refl|auto]. }
      2: { exists s; split; [reflexivity|]. split; [tauto|]. split; [auto|]. split; [discriminate|]. split; [apply grows_refl|auto]. }
      assert (Ho : exists o, assoc (cid (n_model (snd p))) (s_objs s) = Some o).
      { destruct (assoc (cid (n_model (snd p))) (s_objs s)) eqn:E; [eexists; reflexivity|]. exfalso. apply assoc_None in E. exact (E I). }
      destruct Ho as (o & Ho). destruct (splitter_spec s (cid (n_model (snd p))) (get_out_degree g (fst p)) o Ho) as (s1 & l & E & _ & D & _ & Hh).
      exists s1. split; [exact E|]. split; [exact D|]. split; [|split; [|split]].
      - intros j N. unfold splitter_update in E. rewrite (proj2 (get_obj_ok s _ o) Ho) in E. cbn [bind] in E. injection E as <-. cbn [s_objs].
        rewrite (assoc_set_assoc _ j _ _ I). destruct (Nat.eqb_spec j (cid (n_model (snd p)))) as [X|X]; [exfalso; apply (N eq_refl); congruence|reflexivity].
      - intros _ o' Ho'. rewrite Ho in Ho'; injection Ho' as <-. exists l. exact Hh.
      - unfold splitter_update in E. rewrite (proj2 (get_obj_ok s _ o) Ho) in E. cbn [bind] in E. injection E as <-. apply grows_add.
      - intros Sp; eapply splitter_separate; eassumption. }
    destruct Step as (s1 & E & D & K & M & G & Sp). rewrite E. cbn [bind].
    destruct (IH s1) as (s' & E' & D' & K' & M' & G' & Sp'); [|exact NDr|].
    { intros q Hq. destruct (H q (or_intror Hq)) as [I F]. split; [apply D; exact I|exact F]. }
    exists s'. split; [exact E'|]. split; [intros j; rewrite D; apply D'|]. split; [|split; [|split; [eapply grows_trans; eassumption|auto]]].
    + intros j N. rewrite K' by (intros q Hq F; apply N; [right; exact Hq|exact F]). apply K. intros F; apply N; [left; reflexivity|exact F].
    + intros q o Hq F Ho. destruct Hq as [<-|Hq].
      * destruct (M F o Ho) as (l & Hh). exists l. cbv zeta in *. eapply (same_has s1 s'); [|exact G'|exact Hh]. apply K'.
        intros r Hr _ C. apply Np. rewrite <- C. apply (in_map (fun p => cid (n_model (snd p)))); exact Hr.
      * apply (M' q o Hq F). rewrite K; [exact Ho|]. intros _ C. apply Np. rewrite C. apply (in_map (fun p => cid (n_model (snd p)))); exact Hq.
Qed.

Lemma update_graph_full : forall g s, acyclic g -> wf g -> (forall p, In p (g_nodes g) -> resettable s p) -> NoDup (map (fun p => cid (n_model (snd p))) (g_nodes g)) ->
  exists s', update_graph g s = Ok s' /\
    (forall j, In j (map fst (s_objs s)) <-> In j (map fst (s_objs s'))) /\
    (forall j, (forall p, In p (g_nodes g) -> family_of (ccls (n_model (snd p))) = MultiPath -> cid (n_model (snd p)) <> j) -> assoc j (s_objs s') = assoc j (s_objs s)) /\
    (forall p o, In p (g_nodes g) -> family_of (ccls (n_model (snd p))) = MultiPath -> assoc (cid (n_model (snd p))) (s_objs s) = Some o ->
       exists l, let n := departures g (fst p) in
         has s' (cid (n_model (snd p))) (mkObj l (o_lock o) (rep (pred n) (dec 0 0)) (rep (pred n) (dec 1 0)) (rep (pred n) DFloat) (rep (pred n) None)
                  (rep (pred n) false) (Z.of_nat n - 1)%Z) (split_default (pred n))) /\
    grows s s' /\ (separate s -> separate s').
Proof.
  intros g s A W H ND. unfold update_graph. destruct (topological_sort g) eqn:E.
  2: { exfalso. apply (toposort_iff g W) in A. destruct A; congruence. }
  destruct (update_full g (g_nodes g) s H ND) as (s' & E1 & D & K & M & G). exists s'. split; [exact E1|]. split; [exact D|]. split; [exact K|]. split; [|exact G].
  intros p o Hp F Ho. destruct (M p o Hp F Ho) as (k & Hl). exists k. cbv zeta in *. rewrite (get_out_degree_eq g (fst p) W) in Hl. exact Hl.
Qed.

(** ** duplicate_and_simplify_graph (C13) *)

Lemma combine_seq_NoDup : forall {A} (h : A -> nat) (l : list A) k, map h l = seq k (length l) -> NoDup (map h l).
Proof. intros A h l k ->; apply seq_NoDup. Qed.

Lemma In_node_backed : forall g s p, backed g s -> In p (g_nodes g) -> exists o ps, has s (cid (n_model (snd p))) o ps.
Proof. intros g s [n d] B H. apply B. exists (n_model d), (PNode n). split; [exists d; auto|reflexivity]. Qed.
Lemma In_edge_backed : forall g s e, backed g s -> In e (g_edges g) -> exists o ps, has s (cid (e_model (e_dat e))) o ps.
Proof. intros g s e B H. apply B. exists (e_model (e_dat e)), (PEdge (e_src e, e_dst e, e_key e)). split; [exists e; auto|reflexivity]. Qed.

Lemma Forall2_In_r : forall {A B} (R : A -> B -> Prop) l l' b, Forall2 R l l' -> In b l' -> exists a, In a l /\ R a b.
Proof. intros A B R l l' b F; induction F; [intros []|]. intros [<-|H']; [exists x; split; [left; reflexivity|assumption]|]. destruct (IHF H') as (a & Ha & Hr). exists a; split; [right; exact Ha|exact Hr]. Qed.

Lemma Forall2_with_In : forall {A B} (R : A -> B -> Prop) l l', Forall2 R l l' -> Forall2 (fun a b => In a l /\ In b l' /\ R a b) l l'.
Proof.
  intros A B R l l' F; induction F; constructor; [simpl; auto|]. eapply Forall2_imp; [|exact IHF]. simpl. intros a b (X1 & X2 & X3); auto.
Qed.

Lemma map_combine_l : forall {A B} (l : list A) (l' : list B), length l = length l' -> map fst (combine l l') = l.
Proof. induction l; intros [|b l'] H; simpl in *; try discriminate; [reflexivity|]. f_equal; apply IHl; lia. Qed.
Lemma map_combine_r : forall {A B} (l : list A) (l' : list B), length l = length l' -> map snd (combine l l') = l'.
Proof. induction l; intros [|b l'] H; simpl in *; try discriminate; [reflexivity|]. f_equal; apply IHl; lia. Qed.

Lemma Forall2_and : forall {A B} (R R' : A -> B -> Prop) l l', Forall2 R l l' -> Forall2 R' l l' -> Forall2 (fun a b => R a b /\ R' a b) l l'.
Proof. intros A B R R' l l' F; induction F; intros F'; inversion F'; subst; constructor; auto. Qed.
Lemma Forall2_map_r' : forall {X Y Z} (R : X -> Z -> Prop) (h : Y -> Z) l l', Forall2 (fun x y => R x (h y)) l l' -> Forall2 R l (map h l').
Proof. intros X Y Z R h l l' F; induction F; simpl; constructor; auto. Qed.

Lemma nodes_rel : forall (f : node -> node) (R : node * ndata -> comp -> Prop) g g' ncs, node_ids g' = map f (node_ids g) -> map (fun p => n_model (snd p)) (g_nodes g') = ncs ->
  Forall2 R (g_nodes g) ncs -> Forall2 (fun p p' => fst p' = f (fst p) /\ In p (g_nodes g) /\ In p' (g_nodes g') /\ R p (n_model (snd p'))) (g_nodes g) (g_nodes g').
Proof.
  intros f R g g' ncs Ids Mn F. rewrite <- Mn in F. apply Forall2_map_r in F. apply Forall2_with_In in F. apply Forall2_and; [|exact F].
  clear F Mn. unfold node_ids in Ids. revert Ids. generalize (g_nodes g'). induction (g_nodes g) as [|p r IH]; intros [|q r'] E; simpl in E; try discriminate; constructor; [congruence|]. apply IH; congruence.
Qed.

Theorem duplicate_spec : forall g s next, wf g -> acyclic g -> grouped g -> (forall n c, model_at g n c -> can_be_node c) -> backed g s -> unused_from next s ->
  exists g' s', duplicate g s next = Ok (g', s') /\ wf g' /\ acyclic g' /\ grouped g' /\ renumbered g' /\
    nodes_match (fun n => n) (fun n => node_copy s s' (departures g n)) g g' /\ edges_match (fun n => n) (edge_copy s s') g g' /\
    (forall i o ps, has s i o ps -> has s' i o ps) /\
    distinct_objects g' /\ (forall c, In c (components g') -> next <= cid c) /\ (separate s -> separate s').
Proof.
  intros g s next W A Gr Cn B U. unfold duplicate.
  destruct (copy_all_spec (map (fun p => n_model (snd p)) (g_nodes g)) next s) as (ncs & s1 & E1 & Id1 & U1 & K1 & G1 & F1 & Sp1); [|exact U|].
  { intros c Hc. apply in_map_iff in Hc; destruct Hc as (p & <- & Hp). exact (In_node_backed g s p B Hp). }
  rewrite E1. cbn [bind fst snd]. rewrite map_length in Id1, U1.
  assert (Kp1 : forall k x qs, has s k x qs -> has s1 k x qs).
  { intros k x qs Hk. apply (same_has s s1 k); [apply K1, (U k x), (proj1 Hk)|exact G1|exact Hk]. }
  destruct (copy_all_spec (map (fun e => e_model (e_dat e)) (edges_view g)) (next + length (g_nodes g)) s1) as (ecs & s2 & E2 & Id2 & U2 & K2 & G2 & F2 & Sp2); [|exact U1|].
  { intros c Hc. apply in_map_iff in Hc; destruct Hc as (e & <- & He). apply (In_edges_view g e W) in He. destruct (In_edge_backed g s e B He) as (o & ps & H). exists o, ps. apply Kp1; exact H. }
  rewrite E2. cbn [bind fst snd]. rewrite map_length in Id2, U2.
  assert (Kp2 : forall k x qs, has s1 k x qs -> has s2 k x qs).
  { intros k x qs Hk. apply (same_has s1 s2 k); [apply K2, (U1 k x), (proj1 Hk)|exact G2|exact Hk]. }
  pose proof (Forall2_len _ _ _ F1) as L1. pose proof (Forall2_len _ _ _ F2) as L2. rewrite map_length in L1, L2.
  assert (Up : forall c, In c ncs -> can_be_node c).
  { intros c Hc. destruct (Forall2_In_r _ _ _ c F1 Hc) as (c0 & H0 & (Ec & _)). apply in_map_iff in H0; destruct H0 as ([n d] & <- & Hp).
    pose proof (Cn n (n_model d)) as X. unfold can_be_node in *. cbn [snd] in Ec. rewrite Ec. cbn [snd]. apply X. exists d; auto. }
  destruct (rebuild g (fun n => n) ncs ecs W A Gr (fun a b _ _ E => E) (eq_sym L1) (eq_sym L2) Up)
    as (g' & Ei & W' & A' & Gr' & Rn & NM & EM & Ids & Mn & Me & Vw & Dp).
  assert (Ei' : init_graph (combine (node_ids g) ncs) (combine (map e_id (edges_view g)) ecs) = Some g').
  { rewrite <- Ei. f_equal. f_equal. symmetry; apply map_id. }
  rewrite Ei'. cbn [of_option bind].
  assert (Nn : NoDup (map (fun p => cid (n_model (snd p))) (g_nodes g'))).
  { rewrite <- (map_map (fun p => n_model (snd p)) cid), Mn, Id1. apply seq_NoDup. }
  assert (Res : forall p, In p (g_nodes g') -> resettable s2 p).
  { intros p Hp. assert (Hc : In (n_model (snd p)) ncs) by (rewrite <- Mn; apply (in_map (fun p => n_model (snd p))); exact Hp).
    split; [|apply Up; exact Hc]. destruct (Forall2_In_r _ _ _ _ F1 Hc) as (c0 & H0 & (_ & _ & Hx)). apply in_map_iff in H0; destruct H0 as (q & <- & Hq).
    destruct (In_node_backed g s q B Hq) as (o & ps & Ho). destruct (Hx o ps Ho) as (o' & Ho' & _). apply Kp2 in Ho'. eapply assoc_In_fst; exact (proj1 Ho'). }
  destruct (update_graph_full g' s2 A' W' Res Nn) as (s3 & E3 & D3 & K3 & M3 & G3 & Sp3). rewrite E3. cbn [bind].
  assert (Old : forall i o ps, has s i o ps -> has s3 i o ps).
  { intros i o ps H. apply (same_has s2 s3 i); [|exact G3|apply Kp2, Kp1, H]. apply K3. intros p Hp _ C.
    assert (X : In (cid (n_model (snd p))) (seq next (length (g_nodes g)))) by (rewrite <- Id1, <- Mn, map_map; apply (in_map (fun p => cid (n_model (snd p)))); exact Hp).
    apply in_seq in X. specialize (U i o (proj1 H)); lia. }
  assert (Dist : NoDup (map cid (components g'))).
  { unfold components. rewrite Mn, Me, map_app, Id1, Id2, <- seq_app. apply seq_NoDup. }
  exists g', s3. split; [reflexivity|]. split; [exact W'|]. split; [exact A'|]. split; [exact Gr'|]. split; [exact Rn|]. split; [|split; [|split; [exact Old|split; [exact Dist|split]]]].
  - apply NM. clear NM EM. rewrite <- Mn. apply Forall2_map_r'.
    eapply Forall2_imp; [|apply (nodes_rel (fun n => n) (fun p c => copied s s1 (n_model (snd p)) c) g g' ncs Ids Mn);
      apply (Forall2_map_l (copied s s1) (fun p => n_model (snd p))); exact F1].
    intros p p' (X1 & X2 & X3 & X4 & X5 & X6).
    split; [exact X4|]. split; [exact X5|]. intros o ps Ho. destruct (X6 o ps Ho) as (o' & Ho' & At). apply Kp2 in Ho'.
    destruct (family_of (ccls (n_model (snd p)))) eqn:Ef.
    3: { destruct (M3 p' o' X3 ltac:(rewrite X4; exact Ef) (proj1 Ho')) as (l & Hl). cbv zeta in Hl. eexists. rewrite X1 in Hl.
         assert (Nd : is_node g (fst p)) by (unfold is_node; destruct p as [n d]; exists d; exact X2). rewrite (Dp (fst p) Nd) in Hl. split; [exact Hl|]. cbn.
         destruct At as (At & _). rewrite At. auto. }
    all: exists o'; split; [|exact At]; apply (same_has s2 s3 _); [|exact G3|exact Ho']; apply K3; intros q Hq Fq C;
         assert (q = p') by (apply (NoDup_map_inj_In (fun p => cid (n_model (snd p))) _ _ _ Nn Hq X3 C)); subst q; rewrite X4 in Fq; congruence.
  - apply EM. assert (F2' := Forall2_with_In _ _ _ F2). eapply Forall2_imp; [|exact F2']. intros c c' (X1 & X2 & X3 & X4 & X5). split; [exact X3|]. split; [exact X4|].
    intros o ps Ho. destruct (X5 o ps (Kp1 _ _ _ Ho)) as (o' & Ho' & At). exists o'; split; [|exact At]. apply (same_has s2 s3 _); [|exact G3|exact Ho'].
    apply K3. intros q Hq _ C. assert (Y1 : In (cid c') (seq (next + length (g_nodes g)) (length (edges_view g)))) by (rewrite <- Id2; apply in_map; exact X2).
    assert (Y2 : In (cid (n_model (snd q))) (seq next (length (g_nodes g)))) by (rewrite <- Id1, <- Mn, map_map; apply (in_map (fun p => cid (n_model (snd p)))); exact Hq).
    apply in_seq in Y1, Y2. lia.
  - intros c Hc. assert (Y : In (cid c) (map cid (components g'))) by (apply in_map; exact Hc). unfold components in Y. rewrite Mn, Me, map_app, Id1, Id2, <- seq_app in Y.
    apply in_seq in Y; lia.
  - auto.
Qed.
