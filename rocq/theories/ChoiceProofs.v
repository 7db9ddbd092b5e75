(** What the three evolvers choose (C08, C11). *)
From Coq Require Import List Arith Bool Lia ZArith QArith Qabs Qround Lqa Permutation.
From Verif Require Import Base GraphModel GraphSpec GraphProofs TopoProofs OperatorsModel OperatorsProofs EvolutionProofs
  ParamsModel EvolverModel EvolverSpec ParamsProofs MatrixProofs EvolverProofs HessianProofs.
Import ListNotations.
Local Open Scope nat_scope.

Lemma probability_ext : forall f r p q, (p == q)%Q -> probability f r p -> probability f r q.
Proof.
  intros f r p q E (a & A1 & A2 & A3). exists a. split; [exact A1|]. split; [lra|]. intros u U. rewrite (A3 u U). split; intros [H1 H2]; split; lra.
Qed.

Lemma pick_table : forall L ops ev g s hs sh rows f, NoDup rows -> NoDup ops ->
  create_matrix L ops ev g s hs sh = Ok (rows, tab rows ops f) ->
  (forall l o, In l rows -> In o ops -> 0 <= f l o)%Q -> (total rows ops f == 1)%Q ->
  (forall l o, In l rows -> In o ops -> probability (pick L ops ev g s hs sh) (l, o) (f l o)) /\
  (forall u, (0 <= u)%Q -> (u < 1)%Q -> exists l o, In l rows /\ In o ops /\ (0 < f l o)%Q /\ pick L ops ev g s hs sh u = Ok (l, o)).
Proof.
  intros L ops ev g s hs sh rows f RND OND E Pos T. unfold pick, probability. rewrite E. cbn [bind fst snd]. split.
  - intros l o Hl Ho. apply sample_interval; assumption.
  - intros u U U1. apply sample_some; assumption.
Qed.

Section Choice.
Variables (L : library) (ops : list op) (g : graph) (s : store) (hs : option matrix) (sh : list nat -> list nat).
Hypothesis W : wf g.
Hypothesis A : acyclic g.
Hypothesis OND : NoDup ops.

Lemma lookup_choice : n_choices L ops g <> 0 ->
  (forall o l, In o ops -> offers L g o l -> probability (pick L ops Lookup g s hs sh) (l, o) (1 / Qnat (n_choices L ops g))) /\
  (forall u, (0 <= u)%Q -> (u < 1)%Q -> exists o l, In o ops /\ offers L g o l /\ pick L ops Lookup g s hs sh u = Ok (l, o)).
Proof.
  intros N. destruct (toposort_some g W A) as (ord & T & _).
  destruct (pick_table L ops Lookup g s hs sh (row_list g ord) (base L ops g ord)) as [P1 P2].
  - eapply rowsND; eassumption.
  - exact OND.
  - unfold create_matrix. rewrite (base_ok L ops g ord W A OND T N). reflexivity.
  - intros l o _ _. apply base_nonneg; assumption.
  - apply base_total; assumption.
  - split.
    + intros o l Ho Of. apply probability_ext with (p := base L ops g ord l o); [apply base_val; assumption|].
      apply P1; [|exact Ho]. eapply places_in_rows; eassumption.
    + intros u U U1. destruct (P2 u U U1) as (l & o & Hl & Ho & Pos & E). exists o, l. split; [exact Ho|]. split; [|exact E].
      destruct (in_dec location_eq_dec l (places L g o)) as [I|I]; [exact I|].
      pose proof (proj2 (base_val L ops g ord W A OND T l o N)) as Z. rewrite Z in Pos by (unfold offers; tauto). lra.
Qed.

Lemma no_choice : forall ev, n_choices L ops g = 0 -> create_matrix L ops ev g s hs sh = Err RuntimeWarning.
Proof.
  intros ev N. destruct (toposort_some g W A) as (ord & T & _). unfold create_matrix. rewrite (base_none L ops g ord W A OND T N). reflexivity.
Qed.

Lemma weighted_positive_choice : forall w, ~ (weight_sum L ops g w == 0)%Q -> n_choices L ops g <> 0.
Proof.
  intros w NZ N. apply NZ. unfold weight_sum.
  assert (Z : forall o, In o ops -> places L g o = []).
  { intros o Ho. destruct (places L g o) eqn:E; [reflexivity|]. exfalso. apply (places_pos L ops g o Ho); [rewrite E; discriminate|exact N]. }
  clear - Z. induction ops as [|o r IH]; simpl; [reflexivity|]. rewrite (Z o (or_introl eq_refl)), IH by (intros x Hx; apply Z; right; exact Hx). ring.
Qed.

Lemma op_choice : forall w, ~ (weight_sum L ops g w == 0)%Q ->
  (forall o, In o ops -> applicable L g o -> 0 <= w o / weight_sum L ops g w)%Q ->
  (forall o l, In o ops -> offers L g o l ->
     probability (pick L ops (OpBased w) g s hs sh) (l, o) (w o / weight_sum L ops g w / Qnat (length (places L g o)))) /\
  (forall u, (0 <= u)%Q -> (u < 1)%Q -> exists o l, In o ops /\ offers L g o l /\ ~ (w o == 0)%Q /\ pick L ops (OpBased w) g s hs sh u = Ok (l, o)).
Proof.
  intros w NZ Pos. pose proof (weighted_positive_choice w NZ) as N. destruct (toposort_some g W A) as (ord & T & _).
  pose proof (good_id L ops g ord W A OND T N) as GS.
  destruct (pick_table L ops (OpBased w) g s hs sh (row_list g ord) (final L ops g ord w (fun o l => base L ops g ord l o))) as [P1 P2].
  - eapply rowsND; eassumption.
  - exact OND.
  - unfold create_matrix. rewrite (base_ok L ops g ord W A OND T N). cbn [bind].
    rewrite (weigh_ok L ops g ord W A OND T w _ _ GS N NZ Pos). reflexivity.
  - eapply final_nonneg; eassumption.
  - eapply final_total; eassumption.
  - assert (NP : (0 < Qnat (n_choices L ops g))%Q) by (apply Qnat_pos; exact N).
    split.
    + intros o l Ho Of. assert (PNE : places L g o <> []) by (intros C; unfold offers in Of; rewrite C in Of; destruct Of).
      assert (PP : (0 < Qnat (length (places L g o)))%Q) by (apply Qnat_pos; destruct (places L g o); [congruence|discriminate]).
      apply probability_ext with (p := final L ops g ord w (fun o l => base L ops g ord l o) l o).
      * rewrite (final_val L ops g ord W A OND T w _ _ GS N l o Ho PNE NZ). unfold colsum.
        rewrite (col_count L ops g ord W A OND T o Ho N). rewrite (proj1 (base_val L ops g ord W A OND T l o N) Ho Of).
        field. repeat split; try exact NZ; lra.
      * apply P1; [|exact Ho]. eapply places_in_rows; eassumption.
    + intros u U U1. destruct (P2 u U U1) as (l & o & Hl & Ho & Ps & E). exists o, l. split; [exact Ho|].
      destruct (in_dec location_eq_dec l (places L g o)) as [I|I].
      * split; [exact I|]. split; [|exact E]. intros Z0.
        assert (PNE : places L g o <> []) by (intros C; rewrite C in I; destruct I).
        rewrite (final_val L ops g ord W A OND T w _ _ GS N l o Ho PNE NZ) in Ps. rewrite Z0 in Ps.
        unfold Qdiv in Ps. rewrite Qmult_0_l, Qmult_0_r in Ps. lra.
      * rewrite (final_zero L ops g ord W A OND T w _ _ GS N l o Hl Ho I NZ) in Ps. lra.
Qed.

Lemma op_choice_fails : forall w,
  (weight_sum L ops g w == 0)%Q \/ (exists o, In o ops /\ applicable L g o /\ w o / weight_sum L ops g w < 0)%Q ->
  create_matrix L ops (OpBased w) g s hs sh = Err RuntimeWarning.
Proof.
  intros w H. destruct (Nat.eq_dec (n_choices L ops g) 0) as [N|N]; [apply no_choice; exact N|].
  destruct (toposort_some g W A) as (ord & T & _). pose proof (good_id L ops g ord W A OND T N) as GS.
  unfold create_matrix. rewrite (base_ok L ops g ord W A OND T N). cbn [bind].
  destruct (Qeq_dec (weight_sum L ops g w) 0) as [Z|NZ].
  - rewrite (weigh_zero L ops g ord W A OND T w _ _ GS N Z). reflexivity.
  - destruct H as [H|(o & Ho & P & Neg)]; [contradiction|].
    rewrite (weigh_negative L ops g ord W A OND T w _ _ GS N o Ho P NZ Neg). reflexivity.
Qed.

(** ** The Hessian evolver *)

Hypothesis shP : forall l, Permutation (sh l) l.

Definition hscale (ord : list nat) (o : op) (c : list Q) : res (list Q) :=
  match o with
  | Remove => do sc <- all_edge_scores g s hs; tournament sh (row_list g ord) sc c
  | _ => Ok c
  end.

Lemma hessian_unfold : forall w ord, topological_sort g = Some ord -> n_choices L ops g <> 0 ->
  create_matrix L ops (Hessian w) g s hs sh =
  (do m' <- weigh w (hscale ord) ops (tab (row_list g ord) ops (base L ops g ord)); Ok (row_list g ord, m')).
Proof. intros w ord T N. unfold create_matrix. rewrite (base_ok L ops g ord W A OND T N). reflexivity. Qed.

Lemma scores_all : forall sc, all_edge_scores g s hs = Ok sc -> map fst sc = map e_id (edges_view g).
Proof.
  intros sc H; unfold all_edge_scores in H. apply bind_ok in H; destruct H as (x & _ & H).
  destruct (x_params x).
  - injection H as <-. rewrite map_map; reflexivity.
  - destruct hs as [h|]; [|discriminate]. destruct (negb _); [discriminate|]. injection H as <-. rewrite map_map; reflexivity.
Qed.

Lemma remove_scored : forall sc l, all_edge_scores g s hs = Ok sc -> offers L g Remove l ->
  exists n e v, l = LIface n e /\ assoc_eid e sc = Some v.
Proof.
  intros sc l H Of. unfold offers, places in Of; simpl in Of. unfold remove_locations in Of. apply filter_In in Of; destruct Of as [Of _].
  destruct (interfaces_shape g l Of) as (n & i & ->). exists n, i.
  assert (Hi : In i (map e_id (edges_view g))).
  { unfold interfaces in Of. apply in_app_or in Of; destruct Of as [Of|Of]; apply in_map_iff in Of; destruct Of as (e & E & He);
      apply filter_In in He; destruct He as [He _]; injection E; intros; subst; apply in_map_iff; exists e; split; [congruence|exact He|congruence|exact He]. }
  rewrite <- (scores_all sc H) in Hi. apply in_map_iff in Hi; destruct Hi as ([i' v] & E & Hv); simpl in E; subst i'.
  exists v. split; [reflexivity|]. apply In_assoc_eid; [|exact Hv]. rewrite (scores_all sc H). apply edges_view_ids; exact W.
Qed.

(* fewer than 10^8 offers: no base probability is mistaken for zero *)
Hypothesis small : (Z.of_nat (n_choices L ops g) < 100000000)%Z.

Lemma base_close0 : forall ord o l, topological_sort g = Some ord -> n_choices L ops g <> 0 -> In o ops ->
  (close0 (base L ops g ord l o) = false <-> offers L g o l).
Proof.
  intros ord o l T N Ho. unfold close0. destruct (in_dec location_eq_dec l (places L g o)) as [I|I].
  - split; [intros _; exact I|]. intros _. destruct (Qle_bool _ _) eqn:E; [|reflexivity]. exfalso. apply Qle_bool_iff in E.
    rewrite (proj1 (base_val L ops g ord W A OND T l o N) Ho I) in E. pose proof (Qnat_pos _ N) as NP.
    rewrite Qabs_pos in E by (apply Qle_shift_div_l; lra).
    assert (S1 : (Qnat (n_choices L ops g) < 100000000)%Q). { unfold Qnat. change 100000000%Q with (inject_Z 100000000). rewrite <- Zlt_Qlt. exact small. }
    assert (1 <= (1 # 100000000) * Qnat (n_choices L ops g))%Q; [|lra].
    setoid_replace 1%Q with (1 / Qnat (n_choices L ops g) * Qnat (n_choices L ops g))%Q at 1 by (field; lra).
    apply Qmult_le_compat_r; [exact E|lra].
  - split; [|contradiction]. intros E. exfalso. assert (X : Qle_bool (Qabs (base L ops g ord l o)) (1 # 100000000) = true); [|congruence].
    apply Qle_bool_iff. rewrite (proj2 (base_val L ops g ord W A OND T l o N)) by (unfold offers; tauto). vm_compute; discriminate.
Qed.

Definition hh (ord : list nat) (best : option location) (o : op) (l : location) : Q :=
  match o, best with
  | Remove, Some b => if location_eq_dec l b then 1%Q else 0%Q
  | _, _ => base L ops g ord l o
  end.

Lemma hessian_scale : forall ord sc, topological_sort g = Some ord -> n_choices L ops g <> 0 -> In Remove ops ->
  all_edge_scores g s hs = Ok sc ->
  (places L g Remove = [] /\ good_scale L ops g ord (hscale ord) (hh ord None)) \/
  (exists best chosen, good_scale L ops g ord (hscale ord) (hh ord (Some best)) /\ In best (row_list g ord) /\
     NoDup chosen /\ length chosen = tournament_size (length (places L g Remove)) /\
     (forall l, In l chosen -> offers L g Remove l) /\ In best chosen /\
     forall l, In l chosen -> (score_at sc best <= score_at sc l)%Q).
Proof.
  intros ord sc T N HR Sc. set (rows := row_list g ord). set (b := fun l => base L ops g ord l Remove).
  assert (RND : NoDup rows) by (eapply rowsND; eassumption).
  assert (CO : forall l, In l rows -> close0 (b l) = false -> exists n e v, l = LIface n e /\ assoc_eid e sc = Some v).
  { intros l _ C. apply (base_close0 ord Remove l T N HR) in C. apply remove_scored; assumption. }
  assert (PC : Permutation (cands rows b) (places L g Remove)).
  { apply NoDup_Permutation; [apply NoDup_filter; exact RND|apply places_NoDup; assumption|].
    intros l; unfold cands; rewrite filter_In. split.
    - intros [_ C]. apply negb_true_iff in C. apply (base_close0 ord Remove l T N HR) in C. exact C.
    - intros I. split; [eapply places_in_rows; eassumption|]. apply negb_true_iff. apply (base_close0 ord Remove l T N HR). exact I. }
  pose proof (good_id L ops g ord W A OND T N) as GI.
  destruct (cands rows b) as [|c0 cr] eqn:Ec.
  - left. apply Permutation_nil in PC. split; [exact PC|]. intros o Ho. destruct (GI o Ho) as (G1 & G2 & G3 & G4).
    assert (E : hscale ord o (map (fun l => base L ops g ord l o) rows) = Ok (map (hh ord None o) rows)).
    { destruct o; try reflexivity. unfold hscale. rewrite Sc. cbn [bind]. exact (tournament_none sh rows sc b CO Ec). }
    split; [exact E|]. destruct o; (split; [exact G2|split; [exact G3|exact G4]]).
  - right. assert (NE : cands rows b <> []) by (rewrite Ec; discriminate). rewrite <- Ec in PC.
    destruct (tournament_spec sh rows sc b RND shP CO NE) as (best & chosen & E & C1 & C2 & C3 & C4 & C5).
    exists best, chosen.
    assert (Ob : forall l, In l chosen -> offers L g Remove l) by (intros l Hl; apply C3 in Hl; apply (Permutation_in l PC) in Hl; exact Hl).
    assert (Hb : In best rows) by (eapply places_in_rows; [exact W|exact T|exact (Ob best C4)]).
    split; [|split; [exact Hb|split; [exact C1|split; [rewrite C2, (Permutation_length PC); reflexivity|split; [exact Ob|split; [exact C4|exact C5]]]]]].
    intros o Ho. destruct (GI o Ho) as (G1 & G2 & G3 & G4).
    destruct o; try (split; [reflexivity|split; [exact G2|split; [exact G3|exact G4]]]).
    split; [unfold hscale; rewrite Sc; cbn [bind]; exact E|]. unfold hh. split; [|split].
    + intros l _. destruct (location_eq_dec l best); lra.
    + intros l _ NO. destruct (location_eq_dec l best) as [->|]; [|reflexivity]. exfalso; apply NO, Ob; exact C4.
    + intros _. apply Qlt_le_trans with 1%Q; [lra|]. apply qsum_ge_elem.
      * intros q Hq; apply in_map_iff in Hq; destruct Hq as (l & <- & _). destruct (location_eq_dec l best); lra.
      * apply in_map_iff; exists best; split; [destruct (location_eq_dec best best); [reflexivity|congruence]|exact Hb].
Qed.

Lemma one_hot_sum : forall rows best, NoDup rows -> In best rows ->
  (qsum (map (fun l => if location_eq_dec l best then 1%Q else 0%Q) rows) == 1)%Q.
Proof.
  intros rows best ND Hb. rewrite (map_ext _ (fun l => if (if location_eq_dec l best then true else false) then 1%Q else 0%Q))
    by (intros l; destruct (location_eq_dec l best); reflexivity).
  rewrite qsum_count. assert (P : Permutation (filter (fun l => if location_eq_dec l best then true else false) rows) [best]).
  { apply NoDup_Permutation; [apply NoDup_filter; exact ND|constructor; [intros []|constructor]|].
    intros l; rewrite filter_In; simpl. split; [intros [_ H]; destruct (location_eq_dec l best); [left; congruence|discriminate]|].
    intros [->|[]]; split; [exact Hb|]. destruct (location_eq_dec l l); [reflexivity|congruence]. }
  rewrite (Permutation_length P). reflexivity.
Qed.
Lemma size_about_half : forall n, n <> 0 -> about_half n (tournament_size n).
Proof.
  intros n H. unfold about_half, tournament_size, py_round. set (x := (inject_Z (Z.of_nat n) * (1 # 2))%Q). pose proof (Qfloor_le x) as F1. pose proof (Qlt_floor x) as F2. rewrite inject_Z_plus in F2. change (inject_Z 1) with 1%Q in F2.
  set (f := Qfloor x) in *. assert (LA : (2 * f <= Z.of_nat n)%Z). { rewrite Zle_Qle, inject_Z_mult. change (inject_Z 2) with 2%Q. unfold x in F1. lra. }
  assert (LB : (Z.of_nat n < 2 * f + 2)%Z). { rewrite Zlt_Qlt, inject_Z_plus, inject_Z_mult. change (inject_Z 2) with 2%Q. unfold x in F2. lra. }
  destruct (Qlt_le_dec (x - inject_Z f) (1 # 2)) as [D|D].
  - assert (Z.of_nat n < 2 * f + 1)%Z. { rewrite Zlt_Qlt, inject_Z_plus, inject_Z_mult. change (inject_Z 2) with 2%Q. change (inject_Z 1) with 1%Q. unfold x in D. lra. } lia.
  - assert (2 * f + 1 <= Z.of_nat n)%Z. { rewrite Zle_Qle, inject_Z_plus, inject_Z_mult. change (inject_Z 2) with 2%Q. change (inject_Z 1) with 1%Q. unfold x in D. lra. }
    destruct (Qlt_le_dec (1 # 2) (x - inject_Z f)) as [E|E]; [|destruct (Z.even f); lia].
    assert (2 * f + 1 < Z.of_nat n)%Z. { rewrite Zlt_Qlt, inject_Z_plus, inject_Z_mult. change (inject_Z 2) with 2%Q. change (inject_Z 1) with 1%Q. unfold x in E. lra. } lia.
Qed.

Lemma hessian_choice : forall w sc, In Remove ops -> all_edge_scores g s hs = Ok sc ->
  ~ (weight_sum L ops g w == 0)%Q ->
  (forall o, In o ops -> applicable L g o -> 0 <= w o / weight_sum L ops g w)%Q ->
  (forall o l, In o ops -> o <> Remove -> offers L g o l ->
     probability (pick L ops (Hessian w) g s hs sh) (l, o) (w o / weight_sum L ops g w / Qnat (length (places L g o)))) /\
  (applicable L g Remove -> exists best chosen,
     probability (pick L ops (Hessian w) g s hs sh) (best, Remove) (w Remove / weight_sum L ops g w) /\
     NoDup chosen /\ about_half (length (places L g Remove)) (length chosen) /\
     (forall l, In l chosen -> offers L g Remove l) /\ In best chosen /\
     (forall l v v', In l chosen -> scored sc best v -> scored sc l v' -> v <= v')%Q) /\
  (forall u, (0 <= u)%Q -> (u < 1)%Q -> exists o l, In o ops /\ offers L g o l /\ ~ (w o == 0)%Q /\ pick L ops (Hessian w) g s hs sh u = Ok (l, o)).
Proof.
  intros w sc HR Sc NZ Pos. pose proof (weighted_positive_choice w NZ) as N. destruct (toposort_some g W A) as (ord & T & _).
  assert (NP : (0 < Qnat (n_choices L ops g))%Q) by (apply Qnat_pos; exact N).
  assert (RND : NoDup (row_list g ord)) by (eapply rowsND; eassumption).
  assert (Main : forall best, good_scale L ops g ord (hscale ord) (hh ord best) ->
    (forall l o, In l (row_list g ord) -> In o ops -> probability (pick L ops (Hessian w) g s hs sh) (l, o) (final L ops g ord w (hh ord best) l o)) /\
    (forall u, (0 <= u)%Q -> (u < 1)%Q -> exists o l, In o ops /\ offers L g o l /\ ~ (w o == 0)%Q /\ pick L ops (Hessian w) g s hs sh u = Ok (l, o)) /\
    (forall o l, In o ops -> o <> Remove -> offers L g o l ->
     probability (pick L ops (Hessian w) g s hs sh) (l, o) (w o / weight_sum L ops g w / Qnat (length (places L g o))))).
  { intros best GS.
    destruct (pick_table L ops (Hessian w) g s hs sh (row_list g ord) (final L ops g ord w (hh ord best))) as [P1 P2].
    - exact RND.
    - exact OND.
    - rewrite (hessian_unfold w ord T N). rewrite (weigh_ok L ops g ord W A OND T w _ _ GS N NZ Pos). reflexivity.
    - eapply final_nonneg; eassumption.
    - eapply final_total; eassumption.
    - split; [exact P1|]. split.
      + intros u U U1. destruct (P2 u U U1) as (l & o & Hl & Ho & Ps & E). exists o, l. split; [exact Ho|].
        destruct (in_dec location_eq_dec l (places L g o)) as [I|I].
        * split; [exact I|]. split; [|exact E]. intros Z0.
          assert (PNE : places L g o <> []) by (intros C; rewrite C in I; destruct I).
          rewrite (final_val L ops g ord W A OND T w _ _ GS N l o Ho PNE NZ) in Ps. rewrite Z0 in Ps.
          unfold Qdiv in Ps. rewrite Qmult_0_l, Qmult_0_r in Ps. lra.
        * rewrite (final_zero L ops g ord W A OND T w _ _ GS N l o Hl Ho I NZ) in Ps. lra.
      + intros o l Ho NR Of. assert (PNE : places L g o <> []) by (intros C; unfold offers in Of; rewrite C in Of; destruct Of).
        assert (PP : (0 < Qnat (length (places L g o)))%Q) by (apply Qnat_pos; destruct (places L g o); [congruence|discriminate]).
        apply probability_ext with (p := final L ops g ord w (hh ord best) l o).
        * rewrite (final_val L ops g ord W A OND T w _ _ GS N l o Ho PNE NZ). unfold colsum.
          assert (Eh : forall l', hh ord best o l' = base L ops g ord l' o) by (intros l'; destruct o; try reflexivity; congruence).
          rewrite (map_ext _ (fun l' => base L ops g ord l' o) Eh), Eh.
          rewrite (col_count L ops g ord W A OND T o Ho N). rewrite (proj1 (base_val L ops g ord W A OND T l o N) Ho Of).
          field. repeat split; try exact NZ; lra.
        * apply P1; [|exact Ho]. eapply places_in_rows; eassumption. }
  destruct (hessian_scale ord sc T N HR Sc) as [(PE & GS)|(best & chosen & GS & Hb & C1 & C2' & C3 & C4 & C5)].
  - destruct (Main None GS) as (_ & M2 & M3). split; [exact M3|]. split; [|exact M2]. intros Ap; contradiction.
  - assert (C2 : about_half (length (places L g Remove)) (length chosen)).
    { rewrite C2'. apply size_about_half. intro Z0. rewrite Z0 in C2'. cbn in C2'. destruct chosen; [destruct C4|discriminate]. }
    destruct (Main (Some best) GS) as (M1 & M2 & M3). split; [exact M3|]. split; [|exact M2]. intros Ap.
    exists best, chosen. split; [|repeat (split; [assumption|])].
    + apply probability_ext with (p := final L ops g ord w (hh ord (Some best)) best Remove); [|apply M1; assumption].
      rewrite (final_val L ops g ord W A OND T w _ _ GS N best Remove HR Ap NZ). unfold colsum.
      rewrite (map_ext (hh ord (Some best) Remove) (fun l => if location_eq_dec l best then 1%Q else 0%Q)) by reflexivity.
      rewrite (one_hot_sum _ best RND Hb). unfold hh. destruct (location_eq_dec best best); [|congruence]. field. exact NZ.
    + intros l v v' Hl (n & e & -> & Hv) (n' & e' & -> & Hv'). specialize (C5 _ Hl). unfold score_at in C5.
      assert (NDs : NoDup (map fst sc)) by (rewrite (scores_all sc Sc); apply edges_view_ids; exact W).
      rewrite (In_assoc_eid e sc v NDs Hv), (In_assoc_eid e' sc v' NDs Hv') in C5. exact C5.
Qed.

Lemma hessian_fails : forall w sc, In Remove ops -> all_edge_scores g s hs = Ok sc ->
  (weight_sum L ops g w == 0)%Q \/ (exists o, In o ops /\ applicable L g o /\ w o / weight_sum L ops g w < 0)%Q ->
  create_matrix L ops (Hessian w) g s hs sh = Err RuntimeWarning.
Proof.
  intros w sc HR Sc H. destruct (Nat.eq_dec (n_choices L ops g) 0) as [N|N]; [apply no_choice; exact N|].
  destruct (toposort_some g W A) as (ord & T & _). rewrite (hessian_unfold w ord T N).
  assert (GS : exists h, good_scale L ops g ord (hscale ord) h).
  { destruct (hessian_scale ord sc T N HR Sc) as [(_ & GS)|(best & _ & GS & _)]; eexists; exact GS. }
  destruct GS as (h & GS). destruct (Qeq_dec (weight_sum L ops g w) 0) as [Z|NZ].
  - rewrite (weigh_zero L ops g ord W A OND T w _ _ GS N Z). reflexivity.
  - destruct H as [H|(o & Ho & P & Neg)]; [contradiction|].
    rewrite (weigh_negative L ops g ord W A OND T w _ _ GS N o Ho P NZ Neg). reflexivity.
Qed.

(* no scores: every choice fails *)
Lemma hessian_no_scores : forall w e, In Remove ops -> n_choices L ops g <> 0 -> all_edge_scores g s hs = Err e ->
  create_matrix L ops (Hessian w) g s hs sh = Err e.
Proof.
  intros w e HR N Sc. destruct (toposort_some g W A) as (ord & T & _). rewrite (hessian_unfold w ord T N).
  assert (RND : NoDup (row_list g ord)) by (eapply rowsND; eassumption).
  assert (F : forall os f, incl os ops -> In Remove os ->
    fold_res (fun m o =>
             do c <- get_column ops m o;
             do c' <- hscale ord o c;
             let s := qsum c' in
             if Qeq_bool s 0 then Ok m
             else set_column ops m o (map (fun q => q / s * w o)%Q c')) os (tab (row_list g ord) ops f) = Err e).
  { induction os as [|o r IH]; intros f I Hr; [destruct Hr|]. cbn [fold_res].
    assert (Ho : In o ops) by (apply I; left; reflexivity). rewrite (get_column_tab (row_list g ord) ops OND f o Ho). cbn [bind].
    destruct (op_eq_dec o Remove) as [->|NR].
    - unfold hscale at 1. rewrite Sc. reflexivity.
    - assert (Hr' : In Remove r) by (destruct Hr; [congruence|assumption]).
      assert (E : hscale ord o (map (fun l => f l o) (row_list g ord)) = Ok (map (fun l => f l o) (row_list g ord))) by (destruct o; try reflexivity; congruence).
      rewrite E. cbn [bind]. destruct (Qeq_bool _ 0); cbn [bind]; [apply IH; [intros x Hx; apply I; right; exact Hx|exact Hr']|].
      rewrite map_map, (set_column_tab (row_list g ord) ops OND f o _ Ho). cbn [bind]. apply IH; [intros x Hx; apply I; right; exact Hx|exact Hr']. }
  unfold weigh. specialize (F ops (base L ops g ord) (incl_refl ops) HR). cbv zeta in F |- *. rewrite F. reflexivity.
Qed.

End Choice.
