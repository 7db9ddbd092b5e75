(** Which graphs can be simulated (C47). *)
From Coq Require Import List Arith Bool Lia Permutation.
From Verif Require Import Base GraphModel GraphSpec GraphProofs TopoProofs OperatorsModel OperatorsSpec OperatorsProofs EvolutionProofs InitProofs TypingProofs ParamsProofs
  ParamsModel ParamsSpec EvolverModel EvolverSpec EvolveSpec EvolveProofs BuildProofs SaveModel SaveSpec SessionSaveProofs
  PropagateModel PropagateSpec PropagateProofs SimulateModel SimulateSpec SimulateProofs SwitchProofs FlowSpec.
Import ListNotations.

(** ** Any components with a known number of outputs *)
Section Widths.
Context {S X : Type}.
Variable B : behaviour S X.
Variable g : graph.
Variable src : S.
Hypothesis W : wf g.
Variable P : X -> Prop.
Variable width : node -> option nat.
Variable edge_fine : edge -> Prop.
Hypothesis fine_dec : forall e, edge_fine e \/ ~ edge_fine e.
Hypothesis edge_total : forall e s x, In e (g_edges g) -> P x ->
  (edge_fine e -> exists x' s', edge_act B (e_model (e_dat e)) s x = (x', Ok s') /\ P x') /\
  (~ edge_fine e -> exists x' er, edge_act B (e_model (e_dat e)) s x = (x', Err er)).
Hypothesis node_width : forall n c ss x, model_at g n c -> P x -> length ss = Nat.max 1 (arrivals g n) ->
  match width n with
  | Some k => exists x' states, node_act B c ss (arrivals g n) (departures g n) x = (x', Ok states) /\ P x' /\ length states = k
  | None => exists x' er, node_act B c ss (arrivals g n) (departures g n) x = (x', Err er)
  end.

Lemma send_outcome : forall es i states x sv, incl es (g_edges g) -> P x ->
  ((forall e, In e es -> edge_fine e) -> i + length es <= length states \/ es = [] -> exists x' sv', send B es i states x sv = (x', sv', Ok tt) /\ P x') /\
  ((forall e, In e es -> edge_fine e) -> es <> [] -> length states < i + length es -> exists x' sv', send B es i states x sv = (x', sv', Err IndexError)) /\
  ((exists e, In e es /\ ~ edge_fine e) -> exists x' sv' er, send B es i states x sv = (x', sv', Err er)).
Proof.
  induction es as [|e es IH]; intros i states x sv Inc Px.
  - split; [intros _ _; exists x, sv; split; [reflexivity|exact Px]|]. split; [intros _ H; congruence|intros (e & [] & _)].
  - simpl. assert (He : In e (g_edges g)) by (apply Inc; left; reflexivity).
    assert (Inc' : incl es (g_edges g)) by (intros a Ha; apply Inc; right; exact Ha).
    destruct (nth_error states i) as [s|] eqn:Es.
    + assert (Hi : i < length states) by (apply nth_error_Some; congruence).
      destruct (edge_total e s x He Px) as [T1 T2]. split; [|split].
      * intros Hf Hl. destruct T1 as (x' & s' & -> & Px'); [apply Hf; left; reflexivity|].
        destruct Hl as [Hl|Hl]; [|discriminate]. apply (IH (Datatypes.S i) states x' _ Inc' Px'); [intros e' He'; apply Hf; right; exact He'|lia].
      * intros Hf _ Hl. destruct T1 as (x' & s' & -> & Px'); [apply Hf; left; reflexivity|].
        apply (IH (Datatypes.S i) states x' _ Inc' Px'); [intros e' He'; apply Hf; right; exact He'| |lia]. intro Z; subst es; simpl in Hl; lia.
      * intros (e' & Hin & Hb). destruct (fine_dec e) as [F|F].
        -- destruct (T1 F) as (x' & s' & -> & Px'). apply (IH (Datatypes.S i) states x' _ Inc' Px').
           destruct Hin as [<-|Hin]; [contradiction|]. exists e'; split; assumption.
        -- destruct (T2 F) as (x' & er & ->). exists x', sv, er; reflexivity.
    + apply nth_error_None in Es. split; [intros _ [Hl|Hl]; [lia|discriminate]|]. split.
      * intros _ _ _. exists x, sv; reflexivity.
      * intros _. exists x, sv, IndexError; reflexivity.
Qed.

Definition good (n : node) : Prop :=
  (exists k, width n = Some k /\ departures g n <= k /\ 1 <= k) /\ (forall e, In e (g_edges g) -> e_src e = n -> edge_fine e).

Hypothesis width_pos : forall n k, width n = Some k -> 1 <= k.

Lemma fine_all_dec : forall es, (forall e, In e es -> edge_fine e) \/ (exists e, In e es /\ ~ edge_fine e).
Proof.
  induction es as [|e es [IH|(e' & H1 & H2)]].
  - left; intros e [].
  - destruct (fine_dec e) as [F|F]; [left; intros e' [<-|H]; auto|right; exists e; split; [left; reflexivity|exact F]].
  - right; exists e'; split; [right; exact H1|exact H2].
Qed.

Lemma received_length : forall val n, wf g -> length (received g src val n) = Nat.max 1 (arrivals g n).
Proof.
  intros val n _. unfold received. assert (E : arrivals g n = length (arriving g n)).
  { unfold arrivals. apply Permutation_length. apply NoDup_Permutation.
    - apply NoDup_filter. exact (NoDup_map_inv _ _ (wf_keys g W)).
    - unfold arriving. assert (Nd : NoDup (map fst (g_nodes g))) by exact (wf_nodes g W).
      induction (map fst (g_nodes g)) as [|m l IH]; simpl; [constructor|]. apply NoDup_cons_iff in Nd as [Nm Nl].
      apply NoDup_app_intro; [apply NoDup_filter; exact (NoDup_map_inv _ _ (wf_keys g W))|exact (IH Nl)|].
      intros x Hx Hy. apply filter_In in Hx as [_ Hx]. apply in_flat_map in Hy as (m' & Hm' & Hy). apply filter_In in Hy as [_ Hy].
      apply andb_true_iff in Hx as [Hx _]. apply andb_true_iff in Hy as [Hy _]. apply Nat.eqb_eq in Hx. apply Nat.eqb_eq in Hy. subst. contradiction.
    - intro e. rewrite (In_arriving g n e W). rewrite filter_In, Nat.eqb_eq. reflexivity. }
  rewrite E. destruct (arriving g n) as [|e l]; [reflexivity|]. rewrite map_length. simpl. lia.
Qed.

Lemma visit_outcome : forall n x sv, is_node g n -> P x ->
  (forall e, In e (g_edges g) -> e_dst e = n -> saved sv (PEdge (e_id e)) <> None) ->
  (good n -> exists x' sv', visit B g src n x sv = (x', sv', Ok tt) /\ P x') /\
  (~ good n -> exists x' sv' er, visit B g src n x sv = (x', sv', Err er) /\
     (width n <> None -> (forall e, In e (g_edges g) -> edge_fine e) -> er = IndexError)).
Proof.
  intros n x sv Hn Px Hs. unfold visit. rewrite (get_out_degree_dep g W n Hn), (out_edges_leaving g n W Hn), (inputs_spec g src W sv n Hs).
  destruct (node_data_ex g n Hn) as (nd & End). rewrite End.
  assert (M : model_at g n (n_model nd)) by (exists nd; split; [apply (node_data_iff g n nd W); exact End|reflexivity]).
  change (in_degree g n) with (arrivals g n). change (out_degree g n) with (departures g n).
  pose proof (node_width n (n_model nd) (received g src (get src sv) n) x M Px (received_length _ n W)) as K.
  destruct (width n) as [k|] eqn:Ew.
  - destruct K as (x1 & states & -> & Px1 & Ls).
    assert (K1 : 1 <= k) by exact (width_pos n k Ew).
    assert (Sd : forall sv1, exists sv2, (if departures g n =? 0 then match states with [] => (x1, sv1, Err IndexError)
         | s0 :: _ => send B (leaving g n) 0 states x1 (save (PNode n) s0 sv1) end else send B (leaving g n) 0 states x1 sv1) = send B (leaving g n) 0 states x1 sv2).
    { intro sv1. destruct (departures g n =? 0); [|exists sv1; reflexivity]. destruct states as [|s0 r]; [simpl in Ls; lia|]. exists (save (PNode n) s0 sv1); reflexivity. }
    destruct (Sd sv) as (sv2 & ->). destruct (send_outcome (leaving g n) 0 states x1 sv2 (leaving_incl g n) Px1) as (O1 & O2 & O3).
    rewrite <- departures_leaving in O1, O2. split.
    + intros ((k' & Ek & Hd & _) & Hf). rewrite Ew in Ek. injection Ek as <-. apply O1; [|left; simpl; lia]. intros e He. apply In_leaving in He as [H1 H2]. apply Hf; assumption.
    + intro Ng. destruct (fine_all_dec (leaving g n)) as [F|F].
      * assert (Hd : k < departures g n).
        { destruct (le_lt_dec (departures g n) k) as [Q|Q]; [|exact Q]. exfalso. apply Ng. split; [exists k; auto|]. intros e H1 H2. apply F. apply In_leaving; tauto. }
        destruct (O2 F) as (x' & sv' & E).
        -- intro Z. rewrite departures_leaving, Z in Hd. simpl in Hd. lia.
        -- simpl. lia.
        -- exists x', sv', IndexError. split; [exact E|auto].
      * destruct (O3 F) as (x' & sv' & er & E). exists x', sv', er. split; [exact E|]. intros _ A. destruct F as (e & H1 & H2). exfalso. apply H2. apply A. apply In_leaving in H1 as [H1 _]; exact H1.
  - destruct K as (x1 & er & ->). split; [intros ((k & Ek & _) & _); congruence|]. intros _. exists x1, sv, er. split; [reflexivity|]. intro Z; congruence.
Qed.

Lemma good_dec : forall n, good n \/ ~ good n.
Proof.
  intro n. destruct (fine_all_dec (leaving g n)) as [F|(e & H1 & H2)].
  - destruct (width n) as [k|] eqn:Ew.
    + destruct (le_lt_dec (departures g n) k) as [Q|Q].
      * left. split; [exists k; split; [exact Ew|split; [exact Q|exact (width_pos n k Ew)]]|]. intros e H1 H2. apply F. apply In_leaving; tauto.
      * right. intros ((k' & Ek & Hd & _) & _). assert (k' = k) by congruence. subst k'. lia.
    + right. intros ((k' & Ek & _) & _). congruence.
  - right. intros (_ & F). apply H2. apply In_leaving in H1 as [H1 H3]. apply F; assumption.
Qed.

Lemma visit_all_outcome : forall r D x sv, P x -> (forall n, In n r -> is_node g n) -> closed g D r ->
  (forall e, In e (g_edges g) -> In (e_src e) D -> saved sv (PEdge (e_id e)) <> None) ->
  ((forall n, In n r -> good n) -> exists x' sv', visit_all B g src r x sv = (x', sv', Ok tt) /\ P x') /\
  ((exists n, In n r /\ ~ good n) -> exists x' sv' er, visit_all B g src r x sv = (x', sv', Err er) /\
     ((forall n, In n r -> width n <> None) -> (forall e, In e (g_edges g) -> edge_fine e) -> er = IndexError)).
Proof.
  induction r as [|n r IH]; intros D x sv Px Hn Cl Hs; simpl.
  - split; [intros _; exists x, sv; auto|intros (n & [] & _)].
  - assert (In1 : is_node g n) by (apply Hn; left; reflexivity).
    assert (Hp : forall e, In e (g_edges g) -> e_dst e = n -> saved sv (PEdge (e_id e)) <> None).
    { intros e H1 H2. apply Hs; [exact H1|]. specialize (Cl [] n r e eq_refl H1 H2). rewrite app_nil_r in Cl. exact Cl. }
    destruct (visit_outcome n x sv In1 Px Hp) as [V1 V2].
    assert (Step : forall x1 sv1, visit B g src n x sv = (x1, sv1, Ok tt) -> P x1 ->
      ((forall n, In n r -> good n) -> exists x' sv', visit_all B g src r x1 sv1 = (x', sv', Ok tt) /\ P x') /\
      ((exists n, In n r /\ ~ good n) -> exists x' sv' er, visit_all B g src r x1 sv1 = (x', sv', Err er) /\
         ((forall n, In n r -> width n <> None) -> (forall e, In e (g_edges g) -> edge_fine e) -> er = IndexError))).
    { intros x1 sv1 Ev Px1. apply (IH (D ++ [n])); [exact Px1|intros m Hm; apply Hn; right; exact Hm| |].
      - intros l1 m l2 e E H1 H2. rewrite <- app_assoc. simpl. apply (Cl (n :: l1) m l2 e); [rewrite E; reflexivity|exact H1|exact H2].
      - intros e H1 H2. apply in_app_or in H2 as [H2|[H2|[]]].
        + apply (visit_mono B g src n x sv x1 sv1 _ Ev). apply Hs; assumption.
        + apply (visit_saved B g src W n x sv x1 sv1 In1 Ev); [exact H1|congruence]. }
    split.
    + intro Hg. destruct V1 as (x1 & sv1 & E1 & Px1); [apply Hg; left; reflexivity|]. rewrite E1. apply (Step x1 sv1 E1 Px1). intros m Hm; apply Hg; right; exact Hm.
    + intros (m & Hm & Bm). destruct (good_dec n) as [G|G].
      * destruct (V1 G) as (x1 & sv1 & E1 & Px1). rewrite E1. destruct Hm as [<-|Hm]; [contradiction|].
        destruct (proj2 (Step x1 sv1 E1 Px1)) as (x' & sv' & er & E2 & K); [exists m; auto|]. exists x', sv', er. split; [exact E2|]. intros A1 A2. apply K; [intros a Ha; apply A1; right; exact Ha|exact A2].
      * destruct (V2 G) as (x' & sv' & er & E2 & K). rewrite E2. exists x', sv', er. split; [reflexivity|]. intros A1 A2. apply K; [apply A1; left; reflexivity|exact A2].
Qed.

Lemma propagate_outcome : forall x old, acyclic g -> P x ->
  ((forall n, is_node g n -> good n) -> exists x' sv', propagate B g src x old = (x', sv', Ok tt) /\ P x') /\
  ((exists n, is_node g n /\ ~ good n) -> exists x' sv' er, propagate B g src x old = (x', sv', Err er) /\
     ((forall n, is_node g n -> width n <> None) -> (forall e, In e (g_edges g) -> edge_fine e) -> er = IndexError)).
Proof.
  intros x old A Px. unfold propagate. destruct (toposort_some g W A) as (o & -> & V). unfold propagate_along.
  destruct (valid_closed g W o V) as (Nd & Mem & Cl).
  destruct (visit_all_outcome o [] x [] Px) as [O1 O2]; [intros n Hn; apply Mem; exact Hn|exact Cl|intros e _ []|]. split.
  - intro Hg. apply O1. intros n Hn. apply Hg. apply Mem; exact Hn.
  - intros (n & Hn & Bn). destruct O2 as (x' & sv' & er & E & K); [exists n; split; [apply Mem; exact Hn|exact Bn]|].
    exists x', sv', er. split; [exact E|]. intros A1 A2. apply K; [intros m Hm; apply A1; apply Mem; exact Hm|exact A2].
Qed.
End Widths.

(** ** The components of the library *)
Lemma has_params : forall st i o ps, has st i o ps -> get_params st i = Ok ps.
Proof. intros st i o ps [H1 H2]. unfold get_params, get_obj, get_list. rewrite H1. simpl. rewrite H2. reflexivity. Qed.

Lemma In_set_assoc_cases : forall {A} i (d : A) l j m, In (j, m) (set_assoc i d l) -> In (j, m) l \/ (j = i /\ m = d).
Proof.
  induction l as [|[k y] r IH]; intros j m; simpl; [tauto|]. destruct (Nat.eqb_spec i k) as [->|Nk]; simpl.
  - intros [E|H]; [injection E as <- <-; right; auto|left; right; exact H].
  - intros [E|H]; [left; left; exact E|]. destruct (IH _ _ H) as [K|K]; [left; right; exact K|right; exact K].
Qed.
Lemma set_assoc_keeps : forall {A} i (d : A) l j m, In (j, m) l -> exists m', In (j, m') (set_assoc i d l).
Proof.
  induction l as [|[k y] r IH]; intros j m; simpl; [tauto|]. destruct (Nat.eqb_spec i k) as [->|Nk]; simpl.
  - intros [E|H]; [injection E as <- <-; eexists; left; reflexivity|exists m; right; exact H].
  - intros [E|H]; [injection E as <- <-; eexists; left; reflexivity|]. destruct (IH _ _ H) as (m' & K). exists m'; right; exact K.
Qed.
Lemma In_some_assoc : forall {A} i (l : list (nat * A)) m, In (i, m) l -> exists m', assoc i l = Some m' /\ In (i, m') l.
Proof.
  induction l as [|[k y] r IH]; intros m; simpl; [tauto|]. destruct (Nat.eqb_spec i k) as [->|Nk].
  - intros _. exists y. split; [reflexivity|left; reflexivity].
  - intros [E|H]; [congruence|]. destruct (IH _ H) as (m' & K1 & K2). exists m'; split; [exact K1|right; exact K2].
Qed.

Section Ready.
Context {S V R : Type}.
Variable ph : physics S V R.
Variable g : graph.

Definition phased (m : nmodel V) : Prop := exists s, In s (nm_sources m) /\ so_type s = PhaseFromLinewidth.
Definition full (m : nmodel V) : Prop := nm_prop m <> None -> forall s, In s (nm_sources m) -> so_vec s <> None.

Lemma draw_all_full : forall p l r l' r', draw_all ph p l r = (l', r') ->
  (forall s, In s l' -> so_vec s <> None) /\ map so_type l' = map so_type l.
Proof.
  induction l as [|s l IH]; intros r l' r' H; simpl in H.
  - injection H as <- <-. split; [intros s []|reflexivity].
  - destruct (draw_vector ph (so_type s) (so_tag s) p r) as [v r1]. destruct (draw_all ph p l r1) as [l1 r2] eqn:E. injection H as <- <-.
    destruct (IH _ _ _ E) as [I1 I2]. split; [intros a [<-|Ha]; [discriminate|apply I1; exact Ha]|simpl; rewrite I2; reflexivity].
Qed.

Lemma phased_types : forall (m m' : nmodel V), map so_type (nm_sources m') = map so_type (nm_sources m) -> phased m -> phased m'.
Proof.
  intros m m' E (s & Hs & Ht). apply (in_map so_type) in Hs. rewrite <- E in Hs. apply in_map_iff in Hs as (s' & E' & Hs'). exists s'. split; [exact Hs'|congruence].
Qed.

Lemma resample_full : forall b seed m r m' r' o, resample ph b seed m r = (m', r', o) ->
  (full m -> full m') /\ (phased m -> phased m').
Proof.
  intros b seed m r m' r' o. unfold resample. destruct b; simpl; [|intro H; injection H as <- <- <-; auto].
  destruct (nm_prop m) as [p|] eqn:Ep; [|intro H; injection H as <- <- <-; auto].
  destruct (draw_all ph p (nm_sources m) match seed with Some k => seeded ph k | None => r end) as [ss r1] eqn:Ed. intro H. injection H as <- <- <-.
  destruct (draw_all_full _ _ _ _ _ Ed) as [D1 D2]. split; [intros _ _ s Hs; apply D1; exact Hs|]. apply phased_types. exact D2.
Qed.

Lemma attach_full : forall p m r m' r', attach ph p m r = (m', r') -> full m ->
  (forall s, In s (nm_sources m') -> so_vec s <> None) /\ full m' /\ (phased m -> phased m').
Proof.
  intros p m r m' r'. unfold attach, same_propagator. intros H F.
  destruct (match nm_prop m with Some q => Nat.eqb p q | None => false end) eqn:Es.
  - injection H as <- <-. assert (Q : nm_prop m <> None) by (destruct (nm_prop m); [discriminate|congruence]).
    split; [exact (F Q)|]. split; [exact F|auto].
  - unfold resample in H. cbn [negb nm_prop nm_sources nm_seed nm_on] in H. destruct (draw_all ph p (nm_sources m) match nm_seed m with Some k => seeded ph k | None => r end) as [ss r1] eqn:Ed. injection H as <- <-.
    destruct (draw_all_full _ _ _ _ _ Ed) as [D1 D2]. split; [exact D1|]. split; [intros _; exact D1|]. apply phased_types. exact D2.
Qed.

Lemma set_model_ready : forall i m m' r (x : noise V R), ready g x -> assoc i (n_models x) = Some m -> full m' -> (phased m -> phased m') -> ready g (set_model i m' r x).
Proof.
  intros i m m' r x [R1 R2] Ha F Ph. split.
  - intros j a Hj. simpl in Hj. apply In_set_assoc_cases in Hj as [Hj|[-> ->]]; [apply R1 with j; exact Hj|exact F].
  - intros e He Hc. destruct (R2 e He Hc) as [(m0 & E0) A0]. simpl. split.
    + apply (set_assoc_keeps i m' _ _ _ E0).
    + intros a Hj. apply In_set_assoc_cases in Hj as [Hj|[Hi ->]]; [apply A0; exact Hj|]. apply Ph. apply A0. rewrite Hi. exact (assoc_In _ _ _ Ha).
Qed.

Lemma ready_full : forall i m (x : noise V R), ready g x -> assoc i (n_models x) = Some m -> full m.
Proof. intros i m x [R1 _] H. exact (R1 i m (assoc_In _ _ _ H)). Qed.

Lemma with_noise_ready : forall c ps p sin sout (x : noise V R), ready g x -> exists x' s', with_noise ph c ps p sin sout x = (x', Ok s') /\ ready g x'.
Proof.
  intros c ps p sin sout x Rd. unfold with_noise. destruct (assoc (cid c) (n_models x)) as [m|] eqn:Ea; [|exists x, sout; auto].
  destruct (negb (nm_on m) || negb (n_switch x)); [exists x, sout; auto|].
  destruct (attach ph p m (n_rng x)) as [m' r'] eqn:E. destruct (attach_full _ _ _ _ _ E (ready_full _ _ _ Rd Ea)) as (D & F & Ph).
  assert (Dr : drawn (nm_sources m') = true).
  { unfold drawn. apply forallb_forall. intros s Hs. specialize (D s Hs). destruct (so_vec s); [apply orb_true_r|congruence]. }
  rewrite Dr. eexists; eexists. split; [reflexivity|]. apply (set_model_ready (cid c) m m' r' x Rd Ea F Ph).
Qed.

Lemma phase_noise_ready : forall e p (x : noise V R), ready g x -> In e (g_edges g) -> ccls (e_model (e_dat e)) = PhaseModulator ->
  exists x' v, phase_noise ph (e_model (e_dat e)) p x = (x', Ok v) /\ ready g x'.
Proof.
  intros e p x Rd He Hc. unfold phase_noise. destruct (proj2 Rd e He Hc) as [(m0 & E0) A0].
  destruct (In_some_assoc _ _ _ E0) as (m & Ea & Hm). rewrite Ea. destruct (negb (n_switch x)); [exists x, (no_phase ph p); auto|].
  destruct (attach ph p m (n_rng x)) as [m' r'] eqn:E. destruct (attach_full _ _ _ _ _ E (ready_full _ _ _ Rd Ea)) as (D & F & Ph).
  destruct (Ph (A0 m Hm)) as (s & Hs & Ht). destruct (find (fun s => is_phase (so_type s)) (nm_sources m')) as [s'|] eqn:Ef.
  - apply find_some in Ef as [Ef _]. specialize (D s' Ef). destruct (so_vec s') as [v|]; [|congruence]. eexists; eexists. split; [reflexivity|].
    apply (set_model_ready _ m m' r' x Rd Ea F Ph).
  - exfalso. pose proof (find_none _ _ Ef s Hs) as K. cbn beta in K. rewrite Ht in K. discriminate.
Qed.

Variable st : store.
Variable p : nat.
Hypothesis T : tame ph p.
Hypothesis Bk : backed g st.

Lemma edge_used : forall e, In e (g_edges g) -> used g (cid (e_model (e_dat e))).
Proof. intros e He. exists (e_model (e_dat e)), (PEdge (e_id e)). split; [|reflexivity]. exists e. auto. Qed.
Lemma node_used : forall n c, model_at g n c -> used g (cid c).
Proof. intros n c H. exists c, (PNode n). split; [exact H|reflexivity]. Qed.

Lemma edge_step_total : forall e s (x : noise V R), In e (g_edges g) -> ready g x ->
  (family_of (ccls (e_model (e_dat e))) <> MultiPath -> exists x' s', edge_step ph st p (e_model (e_dat e)) s x = (x', Ok s') /\ ready g x') /\
  (~ family_of (ccls (e_model (e_dat e))) <> MultiPath -> exists x' er, edge_step ph st p (e_model (e_dat e)) s x = (x', Err er)).
Proof.
  intros e s x He Rd. destruct (Bk _ (edge_used e He)) as (o & ps & Hps). apply has_params in Hps.
  unfold edge_step. rewrite Hps. set (c := e_model (e_dat e)) in *. split.
  - intro Hf. destruct (ccls c) eqn:Ec; try (simpl in Hf; congruence); try (apply with_noise_ready; exact Rd);
      try (destruct (T c ps s) as (s' & ->); apply with_noise_ready; exact Rd).
    destruct (phase_noise_ready e p x Rd He Ec) as (x' & v & E & Rd'). fold c in E. rewrite E. apply with_noise_ready; exact Rd'.
  - intro Hf. destruct (ccls c) eqn:Ec; try (exfalso; apply Hf; discriminate); eexists; eexists; reflexivity.
Qed.

Hypothesis W : wf g.
Hypothesis Sz : sized g st.

Definition outputs (n : node) : option nat :=
  match node_data g n with
  | None => None
  | Some nd => match ccls (n_model nd) with
               | TerminalSource | TerminalSink => Some (Nat.max 1 (arrivals g n))
               | VariablePowerSplitter => if arrivals g n =? 0 then None else Some (departures g n)
               | FrequencySplitter => Some (departures g n)
               | _ => None
               end
  end.

Lemma broadcast_same : forall a, broadcast a a = Some a.
Proof. intro a. unfold broadcast. rewrite Nat.eqb_refl. reflexivity. Qed.

Lemma node_step_width : forall n c ss (x : noise V R), model_at g n c -> ready g x -> length ss = Nat.max 1 (arrivals g n) ->
  match outputs n with
  | Some k => exists x' states, node_step ph st c ss (arrivals g n) (departures g n) x = (x', Ok states) /\ ready g x' /\ length states = k
  | None => exists x' er, node_step ph st c ss (arrivals g n) (departures g n) x = (x', Err er)
  end.
Proof.
  intros n c ss x M Rd Ls. destruct (Bk _ (node_used n c M)) as (o & ps & Hps). pose proof (Sz n c o ps M Hps) as Hz. apply has_params in Hps.
  destruct (model_at_data g W n c M) as (nd & End & Ec). unfold outputs. rewrite End, Ec. unfold node_step. rewrite Hps.
  destruct (ccls c) eqn:Ecl; try (eexists; eexists; reflexivity); try (exists x, ss; split; [reflexivity|split; [exact Rd|exact Ls]]); simpl in Hz.
  - rewrite Hz, broadcast_same, Ls. destruct (Nat.eqb_spec (arrivals g n) 0) as [Z|Z].
    + rewrite Z. simpl. eexists; eexists; reflexivity.
    + assert (E : Nat.max 1 (arrivals g n) = arrivals g n) by lia. rewrite E, Nat.eqb_refl. eexists; eexists. split; [reflexivity|]. split; [exact Rd|].
      rewrite map_length, seq_length. reflexivity.
  - eexists; eexists. split; [reflexivity|]. split; [exact Rd|]. rewrite map_length, seq_length. exact Hz.
Qed.

Lemma outputs_pos : forall n k, outputs n = Some k -> 1 <= k.
Proof.
  intros n k. unfold outputs. destruct (node_data g n) as [nd|] eqn:End; [|discriminate].
  assert (M : model_at g n (n_model nd)) by (apply data_model_at; [exact W|exact End]).
  destruct (Bk _ (node_used n _ M)) as (o & ps & Hps). pose proof (Sz n _ o ps M Hps) as Hz.
  destruct (ccls (n_model nd)) eqn:Ec; try discriminate; simpl in Hz;
    try (intro H; apply (f_equal (fun o => match o with Some a => a | None => 0 end)) in H; cbv beta iota in H; lia).
  destruct (arrivals g n =? 0); [discriminate|]. intro H; injection H as <-. lia.
Qed.

Lemma good_flows : (forall n, is_node g n -> good g outputs (fun e => family_of (ccls (e_model (e_dat e))) <> MultiPath) n) <-> flows g.
Proof.
  split.
  - intro G. split.
    + intros n c M. destruct (model_at_data g W n c M) as (nd & End & Ec). destruct (G n) as [(k & Ek & Hd & _) _]; [exact (model_at_is_node _ _ _ M)|].
      unfold outputs in Ek. rewrite End, Ec in Ek. destruct (ccls c); try discriminate; try exact I; try (injection Ek as <-; exact Hd).
      destruct (Nat.eqb_spec (arrivals g n) 0); [discriminate|lia].
    + intros e He. destruct (G (e_src e)) as [_ F]; [apply (wf_ends g W e He)|]. apply F; [exact He|reflexivity].
  - intros [F1 F2] n Hn. split; [|intros e He _; apply F2; exact He].
    destruct (node_data_ex g n Hn) as (nd & End). assert (M : model_at g n (n_model nd)) by (apply data_model_at; [exact W|exact End]).
    specialize (F1 n _ M). pose proof (outputs_pos n) as Po. unfold outputs in *. rewrite End in *.
    destruct (ccls (n_model nd)); try contradiction; try (eexists; split; [reflexivity|]; split; [exact F1|lia]).
    + destruct (Nat.eqb_spec (arrivals g n) 0); [lia|]. exists (departures g n). split; [reflexivity|]. split; [lia|]. apply Po; reflexivity.
    + exists (departures g n). split; [reflexivity|]. split; [lia|]. apply Po; reflexivity.
Qed.

Lemma run_outcome : forall src (w : @process S V R), acyclic g -> ready g (p_noise w) ->
  (snd (run ph st g p src w) = Ok tt <-> flows g) /\ (flows g -> ready g (p_noise (fst (run ph st g p src w)))) /\
  (~ flows g -> exists er, snd (run ph st g p src w) = Err er /\
     ((forall n, is_node g n -> outputs n <> None) -> (forall e, In e (g_edges g) -> family_of (ccls (e_model (e_dat e))) <> MultiPath) -> er = IndexError)).
Proof.
  intros src w A Rd.
  assert (Fd : forall e : edge, family_of (ccls (e_model (e_dat e))) <> MultiPath \/ ~ family_of (ccls (e_model (e_dat e))) <> MultiPath).
  { intro e. destruct (family_of (ccls (e_model (e_dat e)))); try (left; discriminate). right; intro H; congruence. }
  destruct (propagate_outcome (parts ph st p) g src W (ready g) outputs _ Fd edge_step_total node_step_width outputs_pos (p_noise w) (p_saves w) A Rd) as [O1 O2].
  assert (Gd : forall n, good g outputs (fun e => family_of (ccls (e_model (e_dat e))) <> MultiPath) n \/ ~ good g outputs (fun e => family_of (ccls (e_model (e_dat e))) <> MultiPath) n).
  { intro n. apply good_dec; [exact Fd|exact outputs_pos]. }
  assert (K : flows g \/ exists n, is_node g n /\ ~ good g outputs (fun e => family_of (ccls (e_model (e_dat e))) <> MultiPath) n).
  { assert (L : forall l, (forall n, In n l -> good g outputs (fun e => family_of (ccls (e_model (e_dat e))) <> MultiPath) n) \/ exists n, In n l /\ ~ good g outputs (fun e => family_of (ccls (e_model (e_dat e))) <> MultiPath) n).
    { induction l as [|n l [IH|(m & H1 & H2)]]; [left; intros n []| |right; exists m; split; [right; exact H1|exact H2]].
      destruct (Gd n) as [Q|Q]; [left; intros m [<-|H]; auto|right; exists n; split; [left; reflexivity|exact Q]]. }
    destruct (L (node_ids g)) as [Q|(n & H1 & H2)].
    - left. apply good_flows. intros n Hn. apply Q. apply node_ids_is_node; exact Hn.
    - right. exists n. split; [apply node_ids_is_node; exact H1|exact H2]. }
  unfold run. split; [|split].
  - split.
    + intro H. destruct K as [K|K]; [exact K|]. destruct (O2 K) as (x' & sv' & er & E & _). rewrite E in H. discriminate.
    + intro F. destruct (O1 (proj2 good_flows F)) as (x' & sv' & E & _). rewrite E. reflexivity.
  - intro F. destruct (O1 (proj2 good_flows F)) as (x' & sv' & E & Rd'). rewrite E. exact Rd'.
  - intro F. destruct K as [K|K]; [contradiction|]. destruct (O2 K) as (x' & sv' & er & E & L). rewrite E. exists er. split; [reflexivity|exact L].
Qed.
End Ready.

(** ** Evolved graphs *)
Lemma effect_feed : forall L g o g', wf g -> acyclic g -> wf g' -> effect L g o g' -> forall n, no_input g n -> departures g' n = departures g n.
Proof.
  intros L g o g' W A W' H n [Hn Hi].
  assert (Z : in_degree g n = 0) by (apply in_degree_zero; intros x Hx E; exact (Hi x Hx E)).
  destruct H as
    [e nid nn ne lft g' He HI Fr Cne Pne Cnn Pnn _ _ _ Gn Ge
    |a0 b0 ne o g' Na Nb Hab Oa Ob V Ix Cne Pne _ Gn Ge
    |e du dv He Iu _ Pe _ _ _ _ Hp
    |e n0 du dv save g' He Hn0 Iu Ov Pe Du Pu Dv Pv Np Sv Gn Gt _
    | |m dm c' Dm Pm Im Om Cc _ Pc _|e c' He Pe Cc _ Pc _].
  - assert (Nn : nid <> n) by (intros ->; contradiction).
    unfold departures. rewrite (Permutation_length (filter_perm _ _ _ Ge)), (Permutation_length (filter_perm _ _ _ (remove_edge_perm g e W He))).
    cbn [filter e_src]. apply Nat.eqb_neq in Nn. rewrite Nn. destruct (Nat.eqb (e_src e) n); reflexivity.
  - unfold departures. rewrite (Permutation_length (filter_perm _ _ _ Ge)). cbn [filter e_src]. destruct (Nat.eqb_spec a0 n) as [->|Na']; [|reflexivity].
    exfalso. unfold parallel_node_ok in Oa. rewrite Z in Oa. simpl in Oa. discriminate.
  - unfold departures. rewrite (Permutation_length (filter_perm _ _ _ (remove_edge_perm g e W He))). cbn [filter e_src].
    destruct (Nat.eqb_spec (e_src e) n) as [E|E]; [rewrite E in Iu; contradiction|reflexivity].
  - assert (N1 : e_src e <> n) by (intro E; rewrite E in Iu; contradiction).
    assert (N2 : e_dst e <> n) by (intro E; apply (Hi e He E)).
    assert (C : forall h, departures h n = length (filter (fun t : node * node * edata => Nat.eqb (fst (fst t)) n) (triples h))).
    { intro h. unfold departures, triples. induction (g_edges h) as [|x l IH]; [reflexivity|]. cbn [filter map triple fst]. destruct (Nat.eqb (e_src x) n); simpl; rewrite IH; reflexivity. }
    rewrite (C g'), (Permutation_length (filter_perm _ _ _ Gt)). transitivity (departures (remove_edge g (e_id e)) n).
    + rewrite (C (remove_edge g (e_id e))). clear Gt. induction (triples (remove_edge g (e_id e))) as [|[[a b] d] l IH]; [reflexivity|]. cbn [map filter redir fst].
      assert (E : Nat.eqb (merge (e_src e) (e_dst e) a) n = Nat.eqb a n).
      { unfold merge. destruct (Nat.eqb_spec a (e_dst e)) as [->|Q]; [|reflexivity]. rewrite (proj2 (Nat.eqb_neq _ _) N1), (proj2 (Nat.eqb_neq _ _) N2). reflexivity. }
      rewrite E. destruct (Nat.eqb a n); simpl; rewrite IH; reflexivity.
    + unfold departures. rewrite (Permutation_length (filter_perm _ _ _ (remove_edge_perm g e W He))). cbn [filter]. rewrite (proj2 (Nat.eqb_neq _ _) N1). reflexivity.
  - reflexivity.
  - reflexivity.
  - unfold departures; rewrite (Permutation_length (filter_perm _ _ _ (set_edge_data_perm g e _ W He))).
    rewrite (Permutation_length (filter_perm _ _ _ (remove_edge_perm g e W He))). cbn [filter e_src]. destruct (Nat.eqb (e_src e) n); reflexivity.
Qed.

Lemma run_feed : forall L g os g', evo_run L g os g' -> wf g -> acyclic g ->
  forall n, (no_input g' n <-> no_input g n) /\ (no_input g n -> departures g' n = departures g n).
Proof.
  intros L g os g' R W A. apply (run_invariant L (fun h => forall n, (no_input h n <-> no_input g n) /\ (no_input g n -> departures h n = departures g n))) with (g := g) (os := os);
    [|exact R|exact W|exact A|intro n; split; [reflexivity|reflexivity]].
  intros h o h' Wh Ah Wh' IH E n. destruct (effect_terminals L h o h' Wh Ah Wh' E) as [T1 _]. destruct (IH n) as [I1 I2]. split; [rewrite T1; exact I1|].
  intro Hn. rewrite (effect_feed L h o h' Wh Ah Wh' E n); [exact (I2 Hn)|apply I1; exact Hn].
Qed.

Lemma run_single_feed : forall L g os g', evo_run L g os g' -> wf g -> acyclic g -> (single_feed g' <-> single_feed g).
Proof.
  intros L g os g' R W A. pose proof (run_feed L g os g' R W A) as K. unfold single_feed. split; intros H n Hn; destruct (K n) as [K1 K2].
  - rewrite <- (K2 Hn). apply H. apply K1; exact Hn.
  - apply K1 in Hn. rewrite (K2 Hn). apply H; exact Hn.
Qed.

Lemma node_cases : forall g n, is_node g n -> no_input g n \/ (~ no_input g n /\ no_output g n) \/ inner g n.
Proof.
  intros g n Hn. destruct (Nat.eq_dec (in_degree g n) 0) as [Z|Z].
  - left. split; [exact Hn|]. intros e He E. rewrite in_degree_zero in Z. exact (Z e He E).
  - assert (NI : ~ no_input g n) by (intros [_ Q]; apply Z; apply in_degree_zero; intros x Hx Ex; exact (Q x Hx Ex)).
    destruct (Nat.eq_dec (out_degree g n) 0) as [Y|Y].
    + right; left. split; [exact NI|]. split; [exact Hn|]. intros e He E. rewrite out_degree_zero in Y. exact (Y e He E).
    + right; right. split; [exact Hn|]. split; [exact NI|]. intros [_ Q]. apply Y. apply out_degree_zero. intros x Hx Ex; exact (Q x Hx Ex).
Qed.

Lemma typed_edges : forall g, wf g -> typed g -> forall e, In e (g_edges g) -> family_of (ccls (e_model (e_dat e))) <> MultiPath.
Proof.
  intros g W T e He. destruct (wf_ends g W e He) as [H1 H2].
  assert (N1 : ~ no_output g (e_src e)) by (intros [_ Q]; exact (Q e He eq_refl)).
  assert (N2 : ~ no_input g (e_dst e)) by (intros [_ Q]; exact (Q e He eq_refl)).
  destruct (node_cases g (e_src e) H1) as [A|[[_ A]|(_ & A & _)]]; [rewrite (ty_edge_source g T e He A); discriminate|contradiction|].
  destruct (node_cases g (e_dst e) H2) as [B|[[_ B]|(_ & _ & B)]]; [contradiction| |].
  - rewrite (ty_edge_sink g T e He A B); discriminate.
  - rewrite (ty_edge_inner g T e He A B); discriminate.
Qed.

Lemma typed_flows : forall g, wf g -> typed g -> (flows g <-> single_feed g).
Proof.
  intros g W T. split.
  - intros [F _] n Hn. destruct (node_data_ex g n (proj1 Hn)) as (nd & End). pose proof (data_model_at g W n nd End) as M.
    specialize (F n _ M). rewrite (ty_source g T n _ Hn M) in F.
    assert (Z : arrivals g n = 0) by (apply in_degree_zero; intros x Hx E; exact (proj2 Hn x Hx E)). rewrite Z in F. exact F.
  - intro F. split; [|exact (typed_edges g W T)]. intros n c M. destruct (node_cases g n (model_at_is_node _ _ _ M)) as [A|[[A B]|A]].
    + rewrite (ty_source g T n c A M). specialize (F n A). lia.
    + rewrite (ty_sink g T n c A B M). assert (Z : departures g n = 0) by (apply out_degree_zero; intros x Hx E; exact (proj2 B x Hx E)). lia.
    + pose proof (ty_inner g T n c A M) as Fm. destruct A as (_ & A & _).
      assert (Z : arrivals g n <> 0). { intro Z. apply A. split; [exact (model_at_is_node _ _ _ M)|]. intros x Hx E. change (in_degree g n = 0) in Z. rewrite in_degree_zero in Z. exact (Z x Hx E). }
      destruct (ccls c); try discriminate Fm; [lia|exact I].
Qed.

Lemma typed_outputs : forall g, wf g -> typed g -> forall n, is_node g n -> outputs g n <> None.
Proof.
  intros g W T n Hn. destruct (node_data_ex g n Hn) as (nd & End). pose proof (data_model_at g W n nd End) as M. unfold outputs. rewrite End.
  destruct (node_cases g n Hn) as [A|[[A B]|A]].
  - rewrite (ty_source g T n _ A M). discriminate.
  - rewrite (ty_sink g T n _ A B M). discriminate.
  - pose proof (ty_inner g T n _ A M) as Fm. destruct A as (_ & A & _).
    assert (Z : arrivals g n <> 0). { intro Z. apply A. split; [exact Hn|]. intros x Hx E. change (in_degree g n = 0) in Z. rewrite in_degree_zero in Z. exact (Z x Hx E). }
    destruct (ccls (n_model nd)); try discriminate Fm; [|discriminate]. apply Nat.eqb_neq in Z. rewrite Z. discriminate.
Qed.

Lemma flow_exact : forall {S V R} (ph : physics S V R) st g p src (w : @process S V R), wf g -> acyclic g -> backed g st -> sized g st -> tame ph p -> ready g (p_noise w) ->
  (snd (run ph st g p src w) = Ok tt <-> flows g).
Proof. intros S V R ph st g p src w W A Bk Sz T Rd. exact (proj1 (run_outcome ph g st p T Bk W Sz src w A Rd)). Qed.

Lemma single_feed_dec : forall g, single_feed g \/ ~ single_feed g.
Proof.
  intro g. assert (L : forall l, (forall n, In n l -> no_input g n -> departures g n <= 1) \/ exists n, In n l /\ no_input g n /\ 1 < departures g n).
  { induction l as [|n l [IH|(m & H1 & H2)]]; [left; intros n []| |right; exists m; split; [right; exact H1|exact H2]].
    destruct (le_lt_dec (departures g n) 1) as [Q|Q]; [left; intros m [<-|H]; auto|].
    destruct (in_dec Nat.eq_dec n (node_ids g)) as [Hn|Hn].
    - apply node_ids_is_node in Hn. destruct (Nat.eq_dec (in_degree g n) 0) as [Z|Z].
      + right. exists n. split; [left; reflexivity|]. split; [|exact Q]. split; [exact Hn|]. intros e He E. rewrite in_degree_zero in Z. exact (Z e He E).
      + left. intros m [<-|H]; [|auto]. intros [_ K]. exfalso. apply Z. apply in_degree_zero. intros x Hx Ex; exact (K x Hx Ex).
    - left. intros m [<-|H]; [|auto]. intros [K _]. exfalso. apply Hn. apply node_ids_is_node; exact K. }
  destruct (L (node_ids g)) as [Q|(n & _ & H2 & H3)].
  - left. intros n Hn. apply Q; [apply node_ids_is_node; exact (proj1 Hn)|exact Hn].
  - right. intro K. specialize (K n H2). lia.
Qed.

Lemma typed_run : forall {S V R} (ph : physics S V R) st g p src (w : @process S V R), wf g -> acyclic g -> typed g -> backed g st -> sized g st -> tame ph p -> ready g (p_noise w) ->
  (single_feed g -> snd (run ph st g p src w) = Ok tt) /\ (~ single_feed g -> snd (run ph st g p src w) = Err IndexError).
Proof.
  intros S V R ph st g p src w W A Ty Bk Sz T Rd. destruct (run_outcome ph g st p T Bk W Sz src w A Rd) as (O1 & _ & O2).
  pose proof (typed_flows g W Ty) as F. split.
  - intro H. apply O1, F, H.
  - intro H. destruct O2 as (er & E & K); [rewrite F; exact H|]. rewrite E. f_equal. apply K; [exact (typed_outputs g W Ty)|exact (typed_edges g W Ty)].
Qed.

(* readiness survives every call *)
Section Kept.
Context {S V R : Type}.
Variable ph : physics S V R.
Variable st : store.
Variable g : graph.

Lemma with_noise_keeps : forall c ps p sin sout (x : noise V R), ready g x -> ready g (fst (with_noise ph c ps p sin sout x)).
Proof. intros c ps p sin sout x Rd. destruct (with_noise_ready ph g c ps p sin sout x Rd) as (x' & s' & -> & H). exact H. Qed.
Lemma phase_noise_keeps : forall c p (x : noise V R), ready g x -> ready g (fst (phase_noise ph c p x)).
Proof.
  intros c p x Rd. unfold phase_noise. destruct (assoc (cid c) (n_models x)) as [m|] eqn:Ea; [|exact Rd]. destruct (negb (n_switch x)); [exact Rd|].
  destruct (attach ph p m (n_rng x)) as [m' r'] eqn:E. destruct (attach_full ph _ _ _ _ _ E (ready_full g _ _ _ Rd Ea)) as (D & F & Ph).
  assert (K : ready g (set_model (cid c) m' r' x)) by exact (set_model_ready g (cid c) m m' r' x Rd Ea F Ph).
  destruct (find _ _) as [s|]; [destruct (so_vec s)|]; exact K.
Qed.
Lemma edge_step_keeps : forall p c s (x : noise V R), ready g x -> ready g (fst (edge_step ph st p c s x)).
Proof.
  intros p c s x Rd. unfold edge_step.
  destruct (ccls c); try exact Rd; try (apply with_noise_keeps; exact Rd); destruct (get_params st (cid c)) as [ps|]; try exact Rd;
    try (destruct (transform ph c ps p s); [apply with_noise_keeps|]; exact Rd).
  pose proof (phase_noise_keeps c p x Rd) as K. destruct (phase_noise ph c p x) as [x' [v|e]]; [apply with_noise_keeps|]; exact K.
Qed.
Lemma run_keeps : forall p src (w : @process S V R), ready g (p_noise w) -> ready g (p_noise (fst (run ph st g p src w))).
Proof.
  intros p src w Rd. unfold run. pose proof (propagate_keeps (parts ph st p) g src (ready g)) as K.
  specialize (K (fun c s x H => edge_step_keeps p c s x H)).
  assert (Nk : forall c ss i o x, ready g x -> ready g (fst (node_act (parts ph st p) c ss i o x))).
  { intros c ss i o x H. simpl. rewrite node_step_same. exact H. }
  specialize (K Nk (p_noise w) (p_saves w) Rd). destruct (propagate (parts ph st p) g src (p_noise w) (p_saves w)) as [[x sv] r]. exact K.
Qed.
Lemma switch_ready : forall b (x : noise V R), ready g x -> ready g (set_switch b x).
Proof. intros b x H. exact H. Qed.
Lemma get_output_keeps : forall b p src q (w : @process S V R), ready g (p_noise w) -> ready g (p_noise (fst (get_output ph b st g p src q w))).
Proof.
  intros b p src q w Rd. unfold get_output. destruct (match q with Some q => Ok q | None => do n <- of_option IndexError (get_output_node g); Ok (PNode n) end) as [pl|e]; [|exact Rd].
  pose proof (run_keeps p src (with_switch b w) Rd) as K. destruct (run ph st g p src (with_switch b w)) as [w' [u|e]]; exact K.
Qed.
Lemma get_output_noise_keeps : forall p src q (w : @process S V R), ready g (p_noise w) -> ready g (p_noise (fst (get_output_noise ph st g p src q w))).
Proof.
  intros p src q w Rd. unfold get_output_noise, get_output_signal, get_output_signal_pure. pose proof (get_output_keeps true p src q w Rd) as K.
  destruct (get_output ph true st g p src q w) as [w1 [a|e]]; [|exact K]. cbn [fst] in K. pose proof (get_output_keeps false p src q w1 K) as K2.
  destruct (get_output ph false st g p src q w1) as [w2 [b|e]]; exact K2.
Qed.
Lemma snr_keeps : forall p src n (w : @process S V R), ready g (p_noise w) -> ready g (p_noise (fst (snr_signals ph st g p src n w))).
Proof.
  intros p src n w Rd. unfold snr_signals. pose proof (run_keeps p src (with_switch false w) Rd) as K.
  destruct (run ph st g p src (with_switch false w)) as [w1 [u|e]]; [|exact K]. destruct (measure (p_saves w1) (PNode n)) as [a|e]; [|exact K].
  cbn [fst] in K. pose proof (run_keeps p src (with_switch true w1) K) as K2. destruct (run ph st g p src (with_switch true w1)) as [w2 [u2|e]]; [|exact K2].
  destruct (measure (p_saves w2) (PNode n)); exact K2.
Qed.
Lemma resample_one_keeps : forall i seed (w : @process S V R), ready g (p_noise w) -> ready g (p_noise (fst (resample_one ph i seed w))).
Proof.
  intros i seed w Rd. unfold resample_one. destruct (assoc i (n_models (p_noise w))) as [m|] eqn:Ea; [|exact Rd].
  destruct (resample ph (n_switch (p_noise w)) seed m (n_rng (p_noise w))) as [[m' r'] o] eqn:E. destruct (resample_full ph _ _ _ _ _ _ _ E) as [F Ph].
  apply (set_model_ready g i m m' r' (p_noise w) Rd Ea); [apply F; exact (ready_full g _ _ _ Rd Ea)|exact Ph].
Qed.
Lemma resample_nodes_keeps : forall cs (w : @process S V R), ready g (p_noise w) -> ready g (p_noise (fst (resample_nodes ph cs w))).
Proof.
  induction cs as [|c cs IH]; intros w Rd; simpl; [exact Rd|]. destruct (assoc (cid c) (n_models (p_noise w))); [|apply IH; exact Rd].
  pose proof (resample_one_keeps (cid c) None w Rd) as K. destruct (resample_one ph (cid c) None w) as [w' [u|e]]; [apply IH|]; exact K.
Qed.
Lemma resample_all_keeps : forall h seed (w : @process S V R), ready g (p_noise w) -> ready g (p_noise (fst (resample_all_noise ph h seed w))).
Proof.
  intros h seed w Rd. unfold resample_all_noise.
  assert (K0 : ready g (p_noise match seed with Some k => mkP (mkN (n_switch (p_noise w)) (seeded ph k) (n_models (p_noise w))) (p_saves w) | None => w end)).
  { destruct seed; exact Rd. }
  pose proof (resample_nodes_keeps (map (fun q => n_model (snd q)) (g_nodes h)) _ K0) as K.
  destruct (resample_nodes ph (map (fun q => n_model (snd q)) (g_nodes h)) _) as [w1 [u|e]]; [|exact K]. destruct (edges_view h); exact K.
Qed.

Lemma act_keeps : forall (a : @action S V R) w, keeps_phase a -> ready g (p_noise w) -> ready g (p_noise (act ph st g a w)).
Proof.
  intros a w Kp Rd. destruct a; simpl.
  - apply get_output_keeps; exact Rd.
  - apply get_output_keeps; exact Rd.
  - apply get_output_noise_keeps; exact Rd.
  - apply run_keeps; exact Rd.
  - apply snr_keeps; exact Rd.
  - exact Rd.
  - exact Rd.
  - exact Rd.
  - apply resample_one_keeps; exact Rd.
  - apply resample_all_keeps; exact Rd.
  - unfold set_on. destruct (assoc i (n_models (p_noise w))) as [m|] eqn:Ea; [|exact Rd].
    apply (set_model_ready g i m _ (n_rng (p_noise w)) (p_noise w) Rd Ea); [exact (ready_full g _ _ _ Rd Ea)|auto].
  - unfold renew. destruct Rd as [R1 R2]. split.
    + intros j x Hj. simpl in Hj. apply In_set_assoc_cases in Hj as [Hj|[-> ->]]; [exact (R1 j x Hj)|]. intro Q; contradiction.
    + intros e He Hc. destruct (R2 e He Hc) as [(m0 & E0) A0]. simpl. split; [apply (set_assoc_keeps _ _ _ _ _ E0)|].
      intros x Hj. apply In_set_assoc_cases in Hj as [Hj|[_ ->]]; [exact (A0 x Hj)|]. destruct Kp as (s & Hs & Ht). simpl.
      exists (mkSource (so_type s) (so_tag s) None). split; [apply in_map_iff; exists s; auto|exact Ht].
Qed.
Lemma acts_keep : forall l (w : @process S V R), Forall keeps_phase l -> ready g (p_noise w) -> ready g (p_noise (acts ph st g l w)).
Proof.
  unfold acts. induction l as [|a l IH]; intros w F Rd; simpl; [exact Rd|]. inversion F; subst. apply IH; [assumption|]. apply act_keeps; assumption.
Qed.
End Kept.

Lemma output_ok : forall {S V R} (ph : physics S V R) st g b p src q (w : @process S V R), wf g -> reads g q ->
  snd (run ph st g p src (with_switch b w)) = Ok tt -> exists s, snd (get_output ph b st g p src q w) = Ok s.
Proof.
  intros S V R ph st g b p src q w W Hq Hr. destruct (get_output_cases ph st g b p src q w W) as [[D _]|(D & pl & Pl & E)].
  - exfalso. apply D. destruct q as [pl|]; [left; discriminate|right; exact Hq].
  - destruct (run ph st g p src (with_switch b w)) as [w' r] eqn:Er. cbn [snd] in Hr. subst r. rewrite E. cbn [snd].
    unfold run in Er. destruct (propagate (parts ph st p) g src (p_noise (with_switch b w)) (p_saves (with_switch b w))) as [[x sv] r] eqn:Ep. injection Er as <- ->.
    destruct (measurable (parts ph st p) g src W _ _ _ _ Ep) as (M1 & M2 & _). simpl. unfold place_of in Pl. destruct q as [pl'|].
    + injection Pl as <-. destruct pl' as [n|i]; [apply M1; exact Hq|apply M2; exact Hq].
    + destruct (get_output_node g) as [m|] eqn:Em; [|discriminate]. simpl in Pl. injection Pl as <-. apply M1. unfold get_output_node in Em. apply find_some in Em as [E1 E2].
      split; [apply node_ids_is_node; exact E1|]. intros e He Q. destruct (nx_out_edges g m) eqn:El; [|discriminate].
      assert (K : In e (nx_out_edges g m)) by (unfold nx_out_edges; apply filter_In; split; [exact He|apply Nat.eqb_eq; exact Q]). rewrite El in K. exact K.
Qed.

Lemma session_flow : forall {S V R} (ph : physics S V R) L ops nodes edges cur parent g w0 w p src (pr : @process S V R) l,
  lib_ok L -> NoDup ops -> NoDup (map fst nodes) ->
  NoDup (map (fun p => cid (snd p)) nodes ++ map (fun p => cid (snd p)) edges) ->
  init_graph nodes edges = Some g -> typed g -> new_world nodes edges cur parent = Ok w0 -> session L ops w0 w ->
  tame ph p -> ready (w_graph w) (p_noise pr) -> Forall keeps_phase l ->
  let after := acts ph (w_store w) (w_graph w) l pr in
  (single_feed g ->
     snd (run ph (w_store w) (w_graph w) p src after) = Ok tt /\
     forall q, reads (w_graph w) q ->
       (exists s, snd (get_output_signal ph (w_store w) (w_graph w) p src q after) = Ok s) /\
       (exists s, snd (get_output_signal_pure ph (w_store w) (w_graph w) p src q after) = Ok s) /\
       (exists s, snd (get_output_noise ph (w_store w) (w_graph w) p src q after) = Ok s)) /\
  (~ single_feed g -> snd (run ph (w_store w) (w_graph w) p src after) = Err IndexError).
Proof.
  intros S V R ph L ops nodes edges cur parent g w0 w p src pr l LO OND ND DO Hi T Hw Hs Tm Rd Kp after.
  destruct (session_savable L ops nodes edges cur parent g w0 w LO OND ND DO Hi T Hw Hs) as ((W & A & _ & _ & Bk & Sz) & _).
  destruct (session_healthy L ops nodes edges cur parent g w0 w LO OND ND DO Hi T Hw Hs) as (((_ & _ & Ty & _) & _) & os & _ & Rn).
  destruct (init_graph_some nodes edges g ND Hi) as (Wg & Ag & _).
  pose proof (run_single_feed L g os (w_graph w) Rn Wg Ag) as Sf.
  assert (Rda : ready (w_graph w) (p_noise after)) by (apply acts_keep; assumption).
  assert (Rn2 : forall pr' : @process S V R, ready (w_graph w) (p_noise pr') -> single_feed g -> snd (run ph (w_store w) (w_graph w) p src pr') = Ok tt).
  { intros pr' Rd' F. apply (typed_run ph (w_store w) (w_graph w) p src pr' W A Ty Bk Sz Tm Rd'). apply Sf; exact F. }
  split.
  - intro F. split; [apply Rn2; assumption|]. intros q Hq.
    assert (O : forall b pr', ready (w_graph w) (p_noise pr') -> exists s, snd (get_output ph b (w_store w) (w_graph w) p src q pr') = Ok s).
    { intros b pr' Rd'. apply output_ok; [exact W|exact Hq|]. apply Rn2; [exact Rd'|exact F]. }
    split; [exact (O true after Rda)|]. split; [exact (O false after Rda)|].
    unfold get_output_noise, get_output_signal, get_output_signal_pure. destruct (O true after Rda) as (a & Ea).
    pose proof (get_output_keeps ph (w_store w) (w_graph w) true p src q after Rda) as K.
    destruct (get_output ph true (w_store w) (w_graph w) p src q after) as [w1 r1]. cbn [fst snd] in *. subst r1.
    destruct (O false w1 K) as (b & Eb). destruct (get_output ph false (w_store w) (w_graph w) p src q w1) as [w2 r2]. cbn [snd] in *. subst r2. eexists; reflexivity.
  - intro F. apply (typed_run ph (w_store w) (w_graph w) p src after W A Ty Bk Sz Tm Rda). rewrite Sf. exact F.
Qed.
