(** The evolvers' probability matrices (C08, C11). *)
From Coq Require Import List Arith Bool Lia ZArith QArith Qabs Lqa Permutation.
From Verif Require Import Base GraphModel GraphSpec GraphProofs TopoProofs OperatorsModel OperatorsProofs EvolutionProofs
  ParamsModel EvolverModel EvolverSpec ParamsProofs MatrixProofs.
Import ListNotations.
Local Open Scope nat_scope.

(** ** Rows *)

Lemma combinations2_NoDup : forall {A} (l : list A), NoDup l -> NoDup (combinations2 l).
Proof.
  induction l as [|a r IH]; intros ND; simpl; [constructor|]. inversion ND; subst. apply NoDup_app_intro.
  - apply FinFun.Injective_map_NoDup; [intros x y E; injection E; auto|assumption].
  - apply IH; assumption.
  - intros [x y] H1' H2'. apply in_map_iff in H1'; destruct H1' as (z & E & _); injection E as <- <-.
    apply combinations2_In in H2'; destruct H2' as (l1 & l2 & l3 & E). apply H1. rewrite E. apply in_or_app; right; left; reflexivity.
Qed.

Lemma combinations2_filter : forall {A} (f : A -> bool) l, incl (combinations2 (filter f l)) (combinations2 l).
Proof.
  intros A f; induction l as [|a r IH]; intros x Hx; simpl in *; [exact Hx|].
  apply in_or_app. destruct (f a); simpl in Hx.
  - apply in_app_or in Hx; destruct Hx as [Hx|Hx]; [|right; apply IH; exact Hx].
    left. apply in_map_iff in Hx; destruct Hx as (y & <- & Hy). apply in_map. apply filter_In in Hy; tauto.
  - right; apply IH; exact Hx.
Qed.

Lemma edges_view_ids : forall g, wf g -> NoDup (map e_id (edges_view g)).
Proof.
  intros g W. eapply Permutation_NoDup; [apply Permutation_map, Permutation_sym, edges_view_perm; exact W|exact (wf_keys g W)].
Qed.

Lemma interfaces_NoDup : forall g, wf g -> acyclic g -> NoDup (interfaces g).
Proof.
  intros g W A; unfold interfaces. pose proof (edges_view_ids g W) as ND. apply NoDup_app_intro.
  - apply NoDup_map_inv with (f := fun l => match l with LIface _ i => i | _ => (0, 0, 0) end). rewrite map_map.
    apply (NoDup_map_filter e_id); exact ND.
  - apply NoDup_map_inv with (f := fun l => match l with LIface _ i => i | _ => (0, 0, 0) end). rewrite map_map.
    apply (NoDup_map_filter e_id); exact ND.
  - intros l H1 H2. apply in_map_iff in H1; destruct H1 as (e & <- & H1). apply in_map_iff in H2; destruct H2 as (e' & E & H2).
    injection E as E1 E2 E3. apply filter_In in H1; destruct H1 as [H1 _]. apply (In_edges_view g e W) in H1.
    apply (acyclic_no_loop g e A H1). congruence.
Qed.

Lemma row_list_NoDup : forall g o, wf g -> acyclic g -> NoDup o -> NoDup (row_list g o).
Proof.
  intros g o W A ND; unfold row_list. apply NoDup_app_intro; [|apply NoDup_app_intro; [|apply NoDup_app_intro|]|].
  - apply FinFun.Injective_map_NoDup; [intros x y E; injection E; auto|exact (wf_nodes g W)].
  - rewrite <- (map_map e_id LEdge). apply FinFun.Injective_map_NoDup; [intros x y E; injection E; auto|apply edges_view_ids; exact W].
  - apply interfaces_NoDup; assumption.
  - apply FinFun.Injective_map_NoDup; [intros [x y] [x' y'] E; injection E; simpl; congruence|apply combinations2_NoDup; exact ND].
  - intros l H1 H2. apply interfaces_shape in H1; destruct H1 as (n & i & ->). apply in_map_iff in H2; destruct H2 as (? & E & _); discriminate.
  - intros l H1 H2. apply in_map_iff in H1; destruct H1 as (e & <- & _). apply in_app_or in H2; destruct H2 as [H2|H2].
    + apply interfaces_shape in H2; destruct H2 as (n & i & E); discriminate.
    + apply in_map_iff in H2; destruct H2 as (? & E & _); discriminate.
  - intros l H1 H2. apply in_map_iff in H1; destruct H1 as (e & <- & _). apply in_app_or in H2; destruct H2 as [H2|H2].
    + apply in_map_iff in H2; destruct H2 as (? & E & _); discriminate.
    + apply in_app_or in H2; destruct H2 as [H2|H2].
      * apply interfaces_shape in H2; destruct H2 as (n & i & E); discriminate.
      * apply in_map_iff in H2; destruct H2 as (? & E & _); discriminate.
Qed.

Lemma valid_order_NoDup : forall g o, wf g -> valid_order g o -> NoDup o.
Proof. intros g o W [P _]. eapply Permutation_NoDup; [apply Permutation_sym; exact P|exact (wf_nodes g W)]. Qed.

Lemma places_in_rows : forall L g o l ord, wf g -> topological_sort g = Some ord -> In l (places L g o) -> In l (row_list g ord).
Proof.
  intros L g o l ord W T H; unfold places in H. unfold row_list.
  destruct o; simpl in H.
  - apply in_or_app; right; apply in_or_app; right; apply in_or_app; left; exact H.
  - unfold parallel_locations in H; rewrite T in H. apply in_map_iff in H; destruct H as (p & <- & H).
    do 3 (apply in_or_app; right). apply in_map_iff; exists p; split; [reflexivity|]. apply combinations2_filter in H; exact H.
  - apply in_or_app; right; apply in_or_app; right; apply in_or_app; left. unfold remove_locations in H. apply filter_In in H; tauto.
  - unfold swap_locations in H. apply in_app_or in H; destruct H as [H|H]; apply in_map_iff in H; destruct H as (x & <- & H); apply filter_In in H; destruct H as [H _].
    + apply in_or_app; left; apply in_map; exact H.
    + apply in_or_app; right; apply in_or_app; left; apply in_map_iff; exists x; auto.
Qed.

Lemma NoDup_filter : forall {A} (f : A -> bool) l, NoDup l -> NoDup (filter f l).
Proof. intros A f l H; rewrite <- (map_id (filter f l)); apply NoDup_map_filter; rewrite map_id; exact H. Qed.

Lemma places_NoDup : forall L g o, wf g -> acyclic g -> NoDup (places L g o).
Proof.
  intros L g o W A; unfold places; destruct o; simpl.
  - apply interfaces_NoDup; assumption.
  - unfold parallel_locations. destruct (toposort_some g W A) as (ord & -> & V).
    apply FinFun.Injective_map_NoDup; [intros [x y] [x' y'] E; injection E; simpl; congruence|].
    apply combinations2_NoDup, NoDup_filter. eapply valid_order_NoDup; eassumption.
  - apply NoDup_filter, interfaces_NoDup; assumption.
  - apply NoDup_app_intro.
    + apply FinFun.Injective_map_NoDup; [intros x y E; injection E; auto|]. apply NoDup_filter. exact (wf_nodes g W).
    + rewrite <- (map_map e_id LEdge). apply FinFun.Injective_map_NoDup; [intros x y E; injection E; auto|].
      apply NoDup_map_filter, edges_view_ids; exact W.
    + intros l H1 H2. apply in_map_iff in H1; destruct H1 as (x & <- & _). apply in_map_iff in H2; destruct H2 as (y & E & _); discriminate.
Qed.

Lemma places_some : forall L g o, wf g -> acyclic g -> possible_locations L o g = Some (places L g o).
Proof.
  intros L g o W A; unfold places; destruct o; simpl; try reflexivity.
  unfold parallel_locations. destruct (toposort_some g W A) as (ord & -> & V). reflexivity.
Qed.

(** ** The base matrix *)

Definition cell_dec : forall a b : location * op, {a = b} + {a <> b}.
Proof. decide equality; [apply op_eq_dec|apply location_eq_dec]. Defined.

Definition mark (P : list (location * op)) (f : location -> op -> Q) : location -> op -> Q :=
  fun l o => if in_dec cell_dec (l, o) P then 1%Q else f l o.

(* all offered cells *)
Definition offered (L : library) (ops : list op) (g : graph) : list (location * op) :=
  flat_map (fun o => map (fun l => (l, o)) (places L g o)) ops.

Lemma offered_In : forall L ops g l o, In (l, o) (offered L ops g) <-> In o ops /\ offers L g o l.
Proof.
  intros; unfold offered, offers; rewrite in_flat_map; split.
  - intros (o' & Ho & H); apply in_map_iff in H; destruct H as (l' & E & H); injection E as <- <-; auto.
  - intros [Ho H]; exists o; split; [exact Ho|apply in_map_iff; exists l; auto].
Qed.

Lemma offered_length : forall L ops g, length (offered L ops g) = n_choices L ops g.
Proof.
  intros L ops g; unfold offered, n_choices; induction ops as [|o r IH]; simpl; [reflexivity|]. rewrite app_length, map_length, IH; reflexivity.
Qed.

Lemma offered_NoDup : forall L ops g, wf g -> acyclic g -> NoDup ops -> NoDup (offered L ops g).
Proof.
  intros L ops g W A ND; unfold offered; induction ND as [|o r Hni ND IH]; simpl; [constructor|]. apply NoDup_app_intro.
  - apply FinFun.Injective_map_NoDup; [intros x y E; injection E; auto|apply places_NoDup; assumption].
  - exact IH.
  - intros [l o'] H1 H2. apply in_map_iff in H1; destruct H1 as (? & E & _); injection E as <- <-.
    apply in_flat_map in H2; destruct H2 as (o'' & Ho & H2). apply in_map_iff in H2; destruct H2 as (? & E & _). injection E as <- <-. contradiction.
Qed.

Section Base.
Variables (L : library) (ops : list op) (g : graph) (ord : list nat).
Hypothesis W : wf g.
Hypothesis A : acyclic g.
Hypothesis OND : NoDup ops.
Hypothesis T : topological_sort g = Some ord.

Let rows := row_list g ord.

Lemma rowsND : NoDup rows.
Proof.
  destruct (toposort_some g W A) as (o & E & V). assert (o = ord) by congruence; subst o.
  apply row_list_NoDup; [exact W|exact A|eapply valid_order_NoDup; eassumption].
Qed.

Lemma offered_cells : forall c, In c (offered L ops g) -> In c (cells rows ops).
Proof.
  intros [l o] H; apply offered_In in H; destruct H as [Ho H]. apply cells_In; split; [|exact Ho].
  eapply places_in_rows; eassumption.
Qed.

Lemma fold_locs : forall locs o f, In o ops -> (forall l, In l locs -> In l rows) ->
  fold_res (fun m l => set_prob rows ops m 1 l o) locs (tab rows ops f) = Ok (tab rows ops (mark (map (fun l => (l, o)) locs) f)).
Proof.
  induction locs as [|l r IH]; intros o f Ho Hl; simpl.
  - reflexivity.
  - rewrite (set_prob_tab rows ops rowsND OND f 1 l o (Hl l (or_introl eq_refl)) Ho); simpl.
    rewrite IH; [|exact Ho|intros l' H'; apply Hl; right; exact H'].
    f_equal. apply tab_ext; intros l' o' _ _. unfold mark, upd.
    destruct (in_dec cell_dec (l', o') (map (fun l0 => (l0, o)) r)) as [H1|H1];
    destruct (in_dec cell_dec (l', o') ((l, o) :: map (fun l0 => (l0, o)) r)) as [H2|H2]; try reflexivity.
    + exfalso; apply H2; right; exact H1.
    + destruct H2 as [H2|H2]; [|contradiction]. injection H2 as <- <-.
      destruct (location_eq_dec l l) as [_|C]; [|congruence]. destruct (op_eq_dec o o) as [_|C]; [reflexivity|congruence].
    + destruct (location_eq_dec l' l) as [->|]; [|reflexivity]. destruct (op_eq_dec o' o) as [->|]; [|reflexivity].
      exfalso; apply H2; left; reflexivity.
Qed.

Lemma fold_ops : forall os f, incl os ops ->
  fold_res (fun m op => do locs <- of_option Unfeasible (possible_locations L op g);
                        fold_res (fun m l => set_prob rows ops m 1 l op) locs m) os (tab rows ops f)
  = Ok (tab rows ops (mark (offered L os g) f)).
Proof.
  induction os as [|o r IH]; intros f Hi; simpl; [reflexivity|].
  rewrite (places_some L g o W A); simpl.
  rewrite fold_locs; [|apply Hi; left; reflexivity|intros l Hl; eapply places_in_rows; eassumption]. simpl.
  rewrite IH by (intros x Hx; apply Hi; right; exact Hx). f_equal. apply tab_ext; intros l o' _ _.
  unfold mark. change (offered L (o :: r) g) with (map (fun l => (l, o)) (places L g o) ++ offered L r g).
  destruct (in_dec cell_dec (l, o') (offered L r g)) as [H1|H1];
  destruct (in_dec cell_dec (l, o') (map (fun l0 => (l0, o)) (places L g o))) as [H2|H2];
  destruct (in_dec cell_dec (l, o') (map (fun l0 => (l0, o)) (places L g o) ++ offered L r g)) as [H3|H3]; try reflexivity;
  exfalso; rewrite in_app_iff in H3; tauto.
Qed.

Definition ind (l : location) (o : op) : Q := if in_dec cell_dec (l, o) (offered L ops g) then 1%Q else 0%Q.

Lemma total_ind : (total rows ops ind == Qnat (n_choices L ops g))%Q.
Proof.
  unfold total, flat, ind, Qnat. rewrite <- offered_length.
  rewrite (map_ext _ (fun c => if (if in_dec cell_dec c (offered L ops g) then true else false) then 1%Q else 0%Q)).
  2:{ intros [l o]; simpl. destruct (in_dec cell_dec (l, o) (offered L ops g)); reflexivity. }
  rewrite qsum_count.
  assert (P : Permutation (filter (fun c => if in_dec cell_dec c (offered L ops g) then true else false) (cells rows ops)) (offered L ops g)).
  { apply NoDup_Permutation.
    - apply NoDup_filter, cells_NoDup; [exact rowsND|exact OND].
    - apply offered_NoDup; assumption.
    - intros c; rewrite filter_In. split; [intros [_ H]; destruct (in_dec cell_dec c (offered L ops g)); [assumption|discriminate]|].
      intros H; split; [apply offered_cells; exact H|]. destruct (in_dec cell_dec c (offered L ops g)); [reflexivity|contradiction]. }
  rewrite (Permutation_length P). reflexivity.
Qed.

Definition base (l : location) (o : op) : Q := (ind l o / total rows ops ind)%Q.

Lemma Qnat_pos : forall n, n <> 0 -> (0 < Qnat n)%Q.
Proof. intros n H; unfold Qnat. change 0%Q with (inject_Z 0). rewrite <- Zlt_Qlt. lia. Qed.

Lemma Qnat_zero : forall n, (Qnat n == 0)%Q -> n = 0.
Proof. intros n H; destruct n; [reflexivity|]. pose proof (Qnat_pos (S n) ltac:(lia)). lra. Qed.

Lemma base_ok : n_choices L ops g <> 0 -> base_matrix L ops g = Ok (rows, tab rows ops base).
Proof.
  intros N; unfold base_matrix. rewrite T; simpl. fold rows.
  rewrite (zeros_tab rows ops rowsND OND), fold_ops by apply incl_refl. simpl.
  rewrite normalize_tab. pose proof total_ind as TI. change (mark (offered L ops g) (fun _ _ => 0%Q)) with ind.
  pose proof (Qnat_pos _ N) as NP.
  assert (E : Qeq_bool (total rows ops ind) 0 = false).
  { destruct (Qeq_bool (total rows ops ind) 0) eqn:E; [|reflexivity]. apply Qeq_bool_iff in E. lra. }
  rewrite E.
  assert (F : forallb (fun c => Qle_bool 0 (ind (fst c) (snd c) / total rows ops ind)%Q) (cells rows ops) = true).
  { apply forallb_forall; intros c _. apply Qle_bool_iff. apply Qle_shift_div_l; [lra|].
    unfold ind; destruct (in_dec _ _ _); lra. }
  rewrite F. reflexivity.
Qed.

Lemma base_none : n_choices L ops g = 0 -> base_matrix L ops g = Err RuntimeWarning.
Proof.
  intros N; unfold base_matrix. rewrite T; simpl. fold rows.
  rewrite (zeros_tab rows ops rowsND OND), fold_ops by apply incl_refl. simpl.
  rewrite normalize_tab. pose proof total_ind as TI. change (mark (offered L ops g) (fun _ _ => 0%Q)) with ind.
  rewrite N in TI. change (Qnat 0) with 0%Q in TI. apply Qeq_bool_iff in TI. rewrite TI. reflexivity.
Qed.

Lemma base_val : forall l o, n_choices L ops g <> 0 -> (In o ops -> offers L g o l -> base l o == 1 / Qnat (n_choices L ops g))%Q /\
  (~ (In o ops /\ offers L g o l) -> base l o == 0)%Q.
Proof.
  intros l o N; unfold base, ind. pose proof total_ind as TI. pose proof (Qnat_pos _ N) as NP. split; intros.
  - destruct (in_dec _ _ _) as [_|C]; [rewrite TI; reflexivity|]. exfalso; apply C, offered_In; auto.
  - destruct (in_dec _ _ _) as [C|_]; [apply offered_In in C; contradiction|]. rewrite TI. field. lra.
Qed.

Lemma base_nonneg : forall l o, n_choices L ops g <> 0 -> (0 <= base l o)%Q.
Proof.
  intros l o N; unfold base. pose proof total_ind as TI. pose proof (Qnat_pos _ N) as NP.
  apply Qle_shift_div_l; [lra|]. unfold ind; destruct (in_dec _ _ _); lra.
Qed.

Lemma base_total : n_choices L ops g <> 0 -> (total rows ops base == 1)%Q.
Proof.
  intros N. unfold base. rewrite total_div. pose proof total_ind as TI. pose proof (Qnat_pos _ N) as NP. field. lra.
Qed.

(** ** Weighted matrices *)

Lemma qsum_swap : forall (f : location -> op -> Q),
  (total rows ops f == qsum (map (fun o => qsum (map (fun l => f l o) rows)) ops))%Q.
Proof.
  intros f; unfold total, flat, cells. clear T. generalize rows as rs. clear A W OND. intros rs; induction rs as [|l r IH]; simpl.
  - symmetry; apply qsum_zero. intros q Hq; apply in_map_iff in Hq; destruct Hq as (? & <- & _); reflexivity.
  - rewrite map_app, qsum_app, map_map; simpl. rewrite IH. clear IH. induction ops as [|o os IHo]; simpl; [reflexivity|].
    rewrite <- IHo. ring.
Qed.

(* what a scaling function has to satisfy: it rescales each column to a column supported on the offered places *)
Definition good_scale (scale : op -> list Q -> res (list Q)) (h : op -> location -> Q) : Prop :=
  forall o, In o ops -> scale o (map (fun l => base l o) rows) = Ok (map (h o) rows) /\
    (forall l, In l rows -> 0 <= h o l)%Q /\
    (forall l, In l rows -> ~ offers L g o l -> h o l == 0)%Q /\
    (places L g o <> [] -> 0 < qsum (map (h o) rows))%Q.

Lemma if_in_cons : forall (o o' : op) r (a b : Q),
  (if in_dec op_eq_dec o' (o :: r) then a else b) = (if op_eq_dec o o' then a else if in_dec op_eq_dec o' r then a else b).
Proof.
  intros o o' r a b. destruct (in_dec op_eq_dec o' (o :: r)) as [H|H]; destruct (op_eq_dec o o') as [E|E]; try reflexivity.
  - destruct (in_dec op_eq_dec o' r) as [_|C]; [reflexivity|]. destruct H; [congruence|contradiction].
  - exfalso; apply H; left; exact E.
  - destruct (in_dec op_eq_dec o' r) as [C|_]; [|reflexivity]. exfalso; apply H; right; exact C.
Qed.

Section Weigh.
Variables (w : op -> Q) (scale : op -> list Q -> res (list Q)) (h : op -> location -> Q).
Hypothesis GS : good_scale scale h.
Hypothesis N : n_choices L ops g <> 0.

Definition colsum (o : op) : Q := qsum (map (h o) rows).
Definition weighted (l : location) (o : op) : Q :=
  if Qeq_bool (colsum o) 0 then base l o else (h o l / colsum o * w o)%Q.

Lemma fold_weigh : forall os f, NoDup os -> incl os ops -> (forall l o, In o os -> f l o = base l o) ->
  fold_res (fun m o =>
             do c <- get_column ops m o;
             do c' <- scale o c;
             let s := qsum c' in
             if Qeq_bool s 0 then Ok m
             else set_column ops m o (map (fun q => q / s * w o)%Q c')) os (tab rows ops f)
  = Ok (tab rows ops (fun l o => if in_dec op_eq_dec o os then weighted l o else f l o)).
Proof.
  induction os as [|o r IH]; intros f ND Hi Hf; simpl; [reflexivity|].
  inversion ND as [|? ? Hni ND']; subst. assert (Ho : In o ops) by (apply Hi; left; reflexivity).
  rewrite (get_column_tab rows ops OND f o Ho). cbn [bind].
  rewrite (map_ext (fun l => f l o) (fun l => base l o)) by (intros l; apply Hf; left; reflexivity).
  destruct (GS o Ho) as (E & _). rewrite E; cbn [bind]. fold (colsum o).
  destruct (Qeq_bool (colsum o) 0) eqn:Z; cbn [bind].
  - rewrite IH; [|exact ND'|intros x Hx; apply Hi; right; exact Hx|intros l o' Ho'; apply Hf; right; exact Ho'].
    f_equal. apply tab_ext; intros l o' _ _.
    rewrite (if_in_cons o o' r).
    destruct (in_dec op_eq_dec o' r) as [H|H].
    + destruct (op_eq_dec o o'); reflexivity.
    + destruct (op_eq_dec o o') as [->|Hne]; [|reflexivity]. unfold weighted; rewrite Z. apply Hf; left; reflexivity.
  - rewrite map_map. rewrite (set_column_tab rows ops OND f o _ Ho). cbn [bind].
    rewrite IH; [|exact ND'|intros x Hx; apply Hi; right; exact Hx|].
    2:{ intros l o' Ho'. unfold upd_col. destruct (op_eq_dec o' o) as [->|_]; [contradiction|apply Hf; right; exact Ho']. }
    f_equal. apply tab_ext; intros l o' _ _.
    rewrite (if_in_cons o o' r).
    destruct (in_dec op_eq_dec o' r) as [H|H].
    + destruct (op_eq_dec o o'); reflexivity.
    + unfold upd_col. destruct (op_eq_dec o o') as [->|Hne]; [|destruct (op_eq_dec o' o) as [->|_]; [congruence|reflexivity]].
      destruct (op_eq_dec o' o') as [_|C]; [|congruence]. unfold weighted; rewrite Z; reflexivity.
Qed.

Lemma weigh_unfold : weigh w scale ops (tab rows ops base) = normalize_verify (tab rows ops weighted).
Proof.
  pose proof (fold_weigh ops base OND (incl_refl ops) (fun _ _ _ => eq_refl)) as F.
  unfold weigh. cbv zeta in F |- *. rewrite F. cbn [bind]. f_equal.
  apply tab_ext; intros l o _ Ho. destruct (in_dec op_eq_dec o ops) as [_|C]; [reflexivity|contradiction].
Qed.

Lemma colsum_zero : forall o, In o ops -> places L g o = [] -> (colsum o == 0)%Q.
Proof.
  intros o Ho E. apply qsum_zero. intros q Hq; apply in_map_iff in Hq; destruct Hq as (l & <- & Hl).
  destruct (GS o Ho) as (_ & _ & Z & _). apply Z; [exact Hl|]. unfold offers; rewrite E; intros [].
Qed.
Lemma colsum_pos : forall o, In o ops -> places L g o <> [] -> (0 < colsum o)%Q.
Proof. intros o Ho E. destruct (GS o Ho) as (_ & _ & _ & P). apply P; exact E. Qed.

Lemma weighted_zero : forall l o, In l rows -> In o ops -> ~ offers L g o l -> (weighted l o == 0)%Q.
Proof.
  intros l o Hl Ho NO; unfold weighted. destruct (Qeq_bool (colsum o) 0) eqn:Z.
  - apply (base_val l o N). tauto.
  - destruct (GS o Ho) as (_ & _ & Zr & _). rewrite (Zr l Hl NO). unfold Qdiv; ring.
Qed.

Lemma weighted_val : forall l o, In o ops -> places L g o <> [] -> weighted l o = (h o l / colsum o * w o)%Q.
Proof.
  intros l o Ho P; unfold weighted. destruct (Qeq_bool (colsum o) 0) eqn:Z; [|reflexivity].
  apply Qeq_bool_iff in Z. pose proof (colsum_pos o Ho P). lra.
Qed.

Lemma weighted_col : forall o, In o ops ->
  (qsum (map (fun l => weighted l o) rows) == match places L g o with [] => 0 | _ => w o end)%Q.
Proof.
  intros o Ho. destruct (places L g o) as [|p r] eqn:E.
  - apply qsum_zero. intros q Hq; apply in_map_iff in Hq; destruct Hq as (l & <- & Hl).
    apply weighted_zero; [exact Hl|exact Ho|]. unfold offers; rewrite E; intros [].
  - assert (NE : places L g o <> []) by (rewrite E; discriminate). pose proof (colsum_pos o Ho NE) as CP.
    rewrite (map_ext _ (fun l => (h o l / colsum o * w o)%Q)) by (intros l; apply weighted_val; assumption).
    rewrite <- (map_map (fun l => (h o l / colsum o)%Q) (fun q => (q * w o)%Q)), qsum_scale.
    rewrite <- (map_map (h o) (fun q => (q / colsum o)%Q)), qsum_div. fold (colsum o). field. lra.
Qed.

Lemma weighted_total : (total rows ops weighted == weight_sum L ops g w)%Q.
Proof.
  rewrite qsum_swap. unfold weight_sum.
  assert (I : incl ops ops) by apply incl_refl. revert I. generalize ops at 1 3 4 as os.
  induction os as [|o r IH]; intros I; simpl; [reflexivity|].
  rewrite IH by (intros x Hx; apply I; right; exact Hx). rewrite weighted_col by (apply I; left; reflexivity). reflexivity.
Qed.

Definition final (l : location) (o : op) : Q := (weighted l o / total rows ops weighted)%Q.

Lemma final_val : forall l o, In o ops -> places L g o <> [] -> ~ (weight_sum L ops g w == 0)%Q ->
  (final l o == h o l / colsum o * (w o / weight_sum L ops g w))%Q.
Proof.
  intros l o Ho P NZ; unfold final. rewrite (weighted_val l o Ho P), weighted_total. field.
  split; [exact NZ|]. pose proof (colsum_pos o Ho P); lra.
Qed.

Lemma final_zero : forall l o, In l rows -> In o ops -> ~ offers L g o l -> ~ (weight_sum L ops g w == 0)%Q -> (final l o == 0)%Q.
Proof. intros l o Hl Ho NO NZ; unfold final. rewrite (weighted_zero l o Hl Ho NO), weighted_total. field. exact NZ. Qed.

Lemma final_nonneg : ~ (weight_sum L ops g w == 0)%Q ->
  (forall o, In o ops -> places L g o <> [] -> 0 <= w o / weight_sum L ops g w)%Q ->
  forall l o, In l rows -> In o ops -> (0 <= final l o)%Q.
Proof.
  intros NZ Pos l o Hl Ho. destruct (in_dec location_eq_dec l (places L g o)) as [I|I].
  - assert (P : places L g o <> []) by (intros C; rewrite C in I; destruct I).
    rewrite final_val by assumption. apply Qmult_le_0_compat; [|apply Pos; assumption].
    pose proof (colsum_pos o Ho P). apply Qle_shift_div_l; [assumption|]. destruct (GS o Ho) as (_ & H0 & _). rewrite Qmult_0_l. apply H0; exact Hl.
  - rewrite (final_zero l o Hl Ho I NZ). lra.
Qed.

Lemma weigh_ok : ~ (weight_sum L ops g w == 0)%Q ->
  (forall o, In o ops -> places L g o <> [] -> 0 <= w o / weight_sum L ops g w)%Q ->
  weigh w scale ops (tab rows ops base) = Ok (tab rows ops final).
Proof.
  intros NZ Pos. rewrite weigh_unfold, normalize_tab.
  destruct (Qeq_bool (total rows ops weighted) 0) eqn:Z; [apply Qeq_bool_iff in Z; rewrite weighted_total in Z; contradiction|].
  assert (F : forallb (fun c => Qle_bool 0 (weighted (fst c) (snd c) / total rows ops weighted)%Q) (cells rows ops) = true).
  { apply forallb_forall; intros [l o] Hc. apply cells_In in Hc; destruct Hc as [Hl Ho]. apply Qle_bool_iff.
    exact (final_nonneg NZ Pos l o Hl Ho). }
  rewrite F. reflexivity.
Qed.

Lemma weigh_zero : (weight_sum L ops g w == 0)%Q -> weigh w scale ops (tab rows ops base) = Err RuntimeWarning.
Proof.
  intros Z. rewrite weigh_unfold, normalize_tab. rewrite <- weighted_total in Z. apply Qeq_bool_iff in Z. rewrite Z; reflexivity.
Qed.

Lemma qsum_pos_ex : forall l, (0 < qsum l)%Q -> exists q, In q l /\ (0 < q)%Q.
Proof.
  induction l as [|a r IH]; intros H; simpl in H; [lra|]. destruct (Qlt_le_dec 0 a) as [P|P]; [exists a; split; [left; reflexivity|exact P]|].
  destruct (IH ltac:(lra)) as (q & Hq & Pq). exists q; split; [right; exact Hq|exact Pq].
Qed.

Lemma weigh_negative : forall o, In o ops -> places L g o <> [] -> ~ (weight_sum L ops g w == 0)%Q ->
  (w o / weight_sum L ops g w < 0)%Q -> weigh w scale ops (tab rows ops base) = Err RuntimeWarning.
Proof.
  intros o Ho P NZ Neg. rewrite weigh_unfold, normalize_tab.
  destruct (Qeq_bool (total rows ops weighted) 0); [reflexivity|].
  pose proof (colsum_pos o Ho P) as CP.
  destruct (qsum_pos_ex (map (h o) rows) CP) as (q & Hq & Pq). apply in_map_iff in Hq; destruct Hq as (l & <- & Hl).
  destruct (forallb (fun c => Qle_bool 0 (weighted (fst c) (snd c) / total rows ops weighted)%Q) (cells rows ops)) eqn:F; [|reflexivity].
  exfalso. rewrite forallb_forall in F. specialize (F (l, o)). cbn [fst snd] in F. fold (final l o) in F.
  assert (Hc : In (l, o) (cells rows ops)) by (apply cells_In; auto). apply F, Qle_bool_iff in Hc.
  rewrite final_val in Hc by assumption. assert (0 < h o l / colsum o)%Q by (apply Qlt_shift_div_l; lra).
  assert (0 < (h o l / colsum o) * - (w o / weight_sum L ops g w))%Q; [|lra].
  apply Qmult_lt_0_compat; lra.
Qed.

Lemma final_total : ~ (weight_sum L ops g w == 0)%Q -> (total rows ops final == 1)%Q.
Proof. intros NZ. unfold final. rewrite total_div, weighted_total. field. exact NZ. Qed.

End Weigh.

(* the identity scaling *)
Lemma col_count : forall o, In o ops -> n_choices L ops g <> 0 ->
  (qsum (map (fun l => base l o) rows) == Qnat (length (places L g o)) / Qnat (n_choices L ops g))%Q.
Proof.
  intros o Ho N. pose proof (Qnat_pos _ N) as NP.
  rewrite (qsum_map_eq _ (fun l => ((if (if in_dec location_eq_dec l (places L g o) then true else false) then 1 else 0) / Qnat (n_choices L ops g))%Q)).
  - rewrite <- (map_map (fun l => if (if in_dec location_eq_dec l (places L g o) then true else false) then 1%Q else 0%Q)
                        (fun q => (q / Qnat (n_choices L ops g))%Q)), qsum_div, qsum_count.
    assert (P : Permutation (filter (fun l => if in_dec location_eq_dec l (places L g o) then true else false) rows) (places L g o)).
    { apply NoDup_Permutation; [apply NoDup_filter, rowsND|apply places_NoDup; assumption|].
      intros l; rewrite filter_In. split; [intros [_ H]; destruct (in_dec location_eq_dec l (places L g o)); [assumption|discriminate]|].
      intros H; split; [eapply places_in_rows; eassumption|]. destruct (in_dec location_eq_dec l (places L g o)); [reflexivity|contradiction]. }
    rewrite (Permutation_length P). reflexivity.
  - intros l _. destruct (in_dec location_eq_dec l (places L g o)) as [I|I].
    + apply (base_val l o N); assumption.
    + rewrite (proj2 (base_val l o N)) by (unfold offers; tauto). field. lra.
Qed.

Lemma places_pos : forall o, In o ops -> places L g o <> [] -> n_choices L ops g <> 0.
Proof.
  intros o Ho P E. destruct (places L g o) as [|l r] eqn:Ep; [congruence|].
  assert (H : In (l, o) (offered L ops g)) by (apply offered_In; split; [exact Ho|unfold offers; rewrite Ep; left; reflexivity]).
  rewrite <- offered_length in E. destruct (offered L ops g); [destruct H|discriminate].
Qed.

Lemma col_pos : forall o, In o ops -> places L g o <> [] -> (0 < qsum (map (fun l => base l o) rows))%Q.
Proof.
  intros o Ho P. pose proof (places_pos o Ho P) as N. rewrite (col_count o Ho N).
  apply Qlt_shift_div_l; [apply Qnat_pos; exact N|]. rewrite Qmult_0_l. apply Qnat_pos. destruct (places L g o); [congruence|discriminate].
Qed.

Lemma good_id : n_choices L ops g <> 0 -> good_scale (fun _ c => Ok c) (fun o l => base l o).
Proof.
  intros N o Ho. split; [reflexivity|]. split; [intros l _; apply base_nonneg; exact N|]. split.
  - intros l _ NO. apply (base_val l o N). tauto.
  - intros P. apply col_pos; assumption.
Qed.

End Base.
