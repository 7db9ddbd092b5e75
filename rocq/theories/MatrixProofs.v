(** Generic facts about the probability matrix: table representation, sums, sampling. *)
From Coq Require Import List Arith Bool Lia ZArith QArith Qabs Lqa Permutation.
From Verif Require Import Base GraphModel OperatorsModel ParamsModel EvolverModel ParamsProofs.
Import ListNotations.
Local Open Scope nat_scope.

(** ** Rational sums *)

Lemma qsum_app : forall l l', (qsum (l ++ l') == qsum l + qsum l')%Q.
Proof. induction l as [|a r IH]; intros l'; simpl; [ring|rewrite IH; ring]. Qed.

Lemma qsum_perm : forall l l', Permutation l l' -> (qsum l == qsum l')%Q.
Proof. intros l l' H; induction H; simpl; [reflexivity|rewrite IHPermutation; reflexivity|ring|rewrite IHPermutation1; exact IHPermutation2]. Qed.

Lemma qsum_div : forall l s, (qsum (map (fun q => q / s) l) == qsum l / s)%Q.
Proof. induction l as [|a r IH]; intros s; simpl; [unfold Qdiv; ring|rewrite IH; unfold Qdiv; ring]. Qed.

Lemma qsum_scale : forall l s, (qsum (map (fun q => q * s) l) == qsum l * s)%Q.
Proof. induction l as [|a r IH]; intros s; simpl; [ring|rewrite IH; ring]. Qed.

Lemma qsum_map_eq : forall {A} (f h : A -> Q) l, (forall x, In x l -> f x == h x)%Q -> (qsum (map f l) == qsum (map h l))%Q.
Proof.
  induction l as [|a r IH]; intros H; simpl; [reflexivity|].
  rewrite (H a (or_introl eq_refl)), IH; [reflexivity|]. intros x Hx; apply H; right; exact Hx.
Qed.

Lemma qsum_zero : forall l, (forall q, In q l -> q == 0)%Q -> (qsum l == 0)%Q.
Proof.
  induction l as [|a r IH]; intros H; simpl; [reflexivity|].
  rewrite (H a (or_introl eq_refl)), IH; [reflexivity|]. intros q Hq; apply H; right; exact Hq.
Qed.

Lemma qsum_nonneg : forall l, (forall q, In q l -> 0 <= q)%Q -> (0 <= qsum l)%Q.
Proof.
  induction l as [|a r IH]; intros H; simpl; [lra|].
  pose proof (H a (or_introl eq_refl)). assert (0 <= qsum r)%Q by (apply IH; intros q Hq; apply H; right; exact Hq). lra.
Qed.

Lemma qsum_ge_elem : forall l q, (forall q, In q l -> 0 <= q)%Q -> In q l -> (q <= qsum l)%Q.
Proof.
  induction l as [|a r IH]; intros q H Hin; [destruct Hin|]. simpl.
  assert (0 <= qsum r)%Q by (apply qsum_nonneg; intros x Hx; apply H; right; exact Hx).
  pose proof (H a (or_introl eq_refl)). destruct Hin as [->|Hin]; [lra|].
  assert (q <= qsum r)%Q by (apply IH; [intros x Hx; apply H; right; exact Hx|exact Hin]). lra.
Qed.

Lemma qsum_count : forall {A} (f : A -> bool) l,
  (qsum (map (fun x => if f x then 1 else 0)%Q l) == inject_Z (Z.of_nat (length (filter f l))))%Q.
Proof.
  induction l as [|a r IH]; simpl; [reflexivity|]. destruct (f a); simpl; rewrite IH; [|ring].
  rewrite Zpos_P_of_succ_nat, <- Z.add_1_l, inject_Z_plus; reflexivity.
Qed.

Lemma qsum_const : forall {A} (l : list A) c, (qsum (map (fun _ => c) l) == inject_Z (Z.of_nat (length l)) * c)%Q.
Proof.
  induction l as [|a r IH]; intros c; simpl; [ring|]. rewrite IH.
  rewrite Zpos_P_of_succ_nat, <- Z.add_1_l, inject_Z_plus. ring.
Qed.

(** ** Dictionaries built by enumeration *)

Lemma dict_index_notin : forall {A} dec (x : A) l i, ~ In x l -> dict_index dec x l i = None.
Proof.
  induction l as [|y r IH]; intros i H; simpl; [reflexivity|]. rewrite IH by (intros Hr; apply H; right; exact Hr).
  destruct (dec x y) as [->|_]; [exfalso; apply H; left; reflexivity|reflexivity].
Qed.

Lemma dict_index_NoDup : forall {A} dec (x : A) l i, NoDup l -> In x l ->
  exists k, dict_index dec x l i = Some (i + k) /\ nth_error l k = Some x.
Proof.
  intros A dec x; induction l as [|y r IH]; intros i ND H; [destruct H|]. inversion ND as [|? ? Hni ND']; subst. simpl.
  destruct H as [->|H].
  - rewrite dict_index_notin by exact Hni. destruct (dec x x) as [_|C]; [|congruence]. exists 0; split; [f_equal; lia|reflexivity].
  - destruct (IH (S i) ND' H) as (k & -> & N). exists (S k); split; [f_equal; lia|exact N].
Qed.

(** ** The matrix as a table over rows and columns *)

Section Table.
Variable rows : list location.
Variable ops : list op.
Hypothesis rowsND : NoDup rows.
Hypothesis opsND : NoDup ops.

Definition tab (f : location -> op -> Q) : matrix := map (fun l => map (f l) ops) rows.

Definition upd (f : location -> op -> Q) (l : location) (o : op) (p : Q) : location -> op -> Q :=
  fun l' o' => if location_eq_dec l' l then (if op_eq_dec o' o then p else f l' o') else f l' o'.

Definition upd_col (f : location -> op -> Q) (o : op) (h : location -> Q) : location -> op -> Q :=
  fun l' o' => if op_eq_dec o' o then h l' else f l' o'.

Lemma tab_ext : forall f h, (forall l o, In l rows -> In o ops -> f l o = h l o) -> tab f = tab h.
Proof. intros f h H; unfold tab. apply map_ext_in; intros l Hl. apply map_ext_in; intros o Ho. apply H; assumption. Qed.

Lemma zeros_tab : zeros rows ops = tab (fun _ _ => 0%Q).
Proof.
  unfold zeros, tab. rewrite (nodup_fixed_point op_eq_dec opsND), (nodup_fixed_point location_eq_dec rowsND).
  assert (R : forall {A B} (b : B) (l : list A), map (fun _ => b) l = repeat b (length l)).
  { intros A B b; induction l as [|a r IH]; simpl; [reflexivity|rewrite IH; reflexivity]. }
  rewrite (R op Q), (R location (list Q)). reflexivity.
Qed.

Lemma set_nth_map : forall {A B} (f : A -> B) l k a b, NoDup l -> nth_error l k = Some a ->
  forall (dec : forall x y : A, {x = y} + {x <> y}),
  set_nth k b (map f l) = Some (map (fun x => if dec x a then b else f x) l).
Proof.
  intros A B f; induction l as [|x r IH]; intros [|k] a b ND H dec; simpl in *; try discriminate.
  - injection H as ->. destruct (dec a a) as [_|C]; [|congruence]. f_equal. f_equal. apply map_ext_in. intros y Hy.
    destruct (dec y a) as [->|_]; [inversion ND; contradiction|reflexivity].
  - inversion ND; subst. rewrite (IH k a b H3 H dec). destruct (dec x a) as [->|_]; [|reflexivity].
    apply nth_error_In in H. contradiction.
Qed.

Lemma set_prob_tab : forall f p l o, In l rows -> In o ops -> set_prob rows ops (tab f) p l o = Ok (tab (upd f l o p)).
Proof.
  intros f p l o Hl Ho; unfold set_prob.
  destruct (dict_index_NoDup location_eq_dec l rows 0 rowsND Hl) as (i & -> & Ni).
  destruct (dict_index_NoDup op_eq_dec o ops 0 opsND Ho) as (j & -> & Nj). simpl.
  unfold tab at 1. rewrite (map_nth_error _ _ _ Ni). simpl.
  rewrite (set_nth_map (f l) ops j o p opsND Nj op_eq_dec). simpl.
  unfold tab at 1. rewrite (set_nth_map _ rows i l _ rowsND Ni location_eq_dec). simpl. f_equal.
  unfold tab. apply map_ext_in; intros l' Hl'. unfold upd. destruct (location_eq_dec l' l) as [->|Hne].
  - apply map_ext_in; intros o' Ho'. destruct (op_eq_dec o' o); reflexivity.
  - reflexivity.
Qed.

Lemma get_column_tab : forall f o, In o ops -> get_column ops (tab f) o = Ok (map (fun l => f l o) rows).
Proof.
  intros f o Ho; unfold get_column. destruct (dict_index_NoDup op_eq_dec o ops 0 opsND Ho) as (j & -> & Nj). simpl.
  clear rowsND. unfold tab; induction rows as [|l r IH]; simpl; [reflexivity|].
  rewrite (map_nth_error _ _ _ Nj); simpl. rewrite IH; reflexivity.
Qed.

Lemma set_column_tab : forall f o h, In o ops -> set_column ops (tab f) o (map h rows) = Ok (tab (upd_col f o h)).
Proof.
  intros f o h Ho; unfold set_column. destruct (dict_index_NoDup op_eq_dec o ops 0 opsND Ho) as (j & -> & Nj). simpl.
  clear rowsND. unfold tab; induction rows as [|l r IH]; simpl; [reflexivity|].
  rewrite (set_nth_map (f l) ops j o (h l) opsND Nj op_eq_dec); simpl. rewrite IH; simpl. reflexivity.
Qed.

(* the flattened matrix *)
Definition cells : list (location * op) := list_prod rows ops.
Definition flat (f : location -> op -> Q) : list Q := map (fun c => f (fst c) (snd c)) cells.

Lemma concat_tab : forall f, concat (tab f) = flat f.
Proof.
  intros f; unfold tab, flat, cells. clear rowsND. induction rows as [|l r IH]; simpl; [reflexivity|].
  rewrite map_app, map_map; simpl. rewrite IH; reflexivity.
Qed.

Lemma cells_In : forall l o, In (l, o) cells <-> In l rows /\ In o ops.
Proof. intros; unfold cells; apply in_prod_iff. Qed.

Lemma cells_NoDup : NoDup cells.
Proof.
  unfold cells. induction rowsND as [|l r Hni ND IH]; simpl; [constructor|]. apply NoDup_app_intro.
  - apply FinFun.Injective_map_NoDup; [intros a b E; injection E; auto|exact opsND].
  - exact (IH ND).
  - intros [l' o] H1 H2. apply in_map_iff in H1; destruct H1 as (o' & E & _); injection E as <- <-.
    apply in_prod_iff in H2; destruct H2; contradiction.
Qed.

Definition total (f : location -> op -> Q) : Q := qsum (flat f).

Lemma map_div_tab : forall f s, map (map (fun q => q / s)%Q) (tab f) = tab (fun l o => f l o / s)%Q.
Proof. intros f s; unfold tab; rewrite map_map. apply map_ext; intros l. rewrite map_map; reflexivity. Qed.

Lemma total_div : forall f s, (total (fun l o => f l o / s)%Q == total f / s)%Q.
Proof.
  intros f s; unfold total. rewrite <- qsum_div. unfold flat; rewrite map_map. reflexivity.
Qed.

Lemma normalize_tab : forall f,
  normalize_verify (tab f) =
    if Qeq_bool (total f) 0 then Err RuntimeWarning
    else if forallb (fun c => Qle_bool 0 (f (fst c) (snd c) / total f)%Q) cells
         then Ok (tab (fun l o => f l o / total f)%Q) else Err RuntimeWarning.
Proof.
  intros f; unfold normalize_verify. rewrite concat_tab. fold (total f).
  destruct (Qeq_bool (total f) 0) eqn:Z; [reflexivity|].
  assert (NZ : ~ (total f == 0)%Q) by (intros C; apply Qeq_bool_iff in C; congruence).
  rewrite map_div_tab, concat_tab. fold (total (fun l o => f l o / total f)%Q).
  assert (T1 : (total (fun l o => f l o / total f) == 1)%Q) by (rewrite total_div; field; exact NZ).
  assert (A : Qle_bool (Qabs (total (fun l o => f l o / total f)%Q - 1)) (1001 # 100000000) = true).
  { apply Qle_bool_iff. rewrite T1. change (1 - 1)%Q with 0%Q. vm_compute; discriminate. }
  rewrite A; simpl.
  destruct (forallb (fun c => Qle_bool 0 (f (fst c) (snd c) / total f)%Q) cells) eqn:P.
  - assert (P' : forall q, In q (flat (fun l o => f l o / total f)%Q) -> (0 <= q)%Q).
    { intros q Hq; unfold flat in Hq; apply in_map_iff in Hq; destruct Hq as (c & <- & Hc).
      rewrite forallb_forall in P. apply Qle_bool_iff, P; exact Hc. }
    assert (Q1 : forallb (fun q => Qle_bool q 1 && Qle_bool 0 q) (flat (fun l o => f l o / total f)%Q) = true).
    { apply forallb_forall; intros q Hq. apply andb_true_intro; split; apply Qle_bool_iff; [|apply P'; exact Hq].
      rewrite <- T1. apply qsum_ge_elem; assumption. }
    rewrite Q1; reflexivity.
  - destruct (forallb (fun q => Qle_bool q 1 && Qle_bool 0 q) (flat (fun l o => f l o / total f)%Q)) eqn:Q1; [|reflexivity].
    exfalso. assert (X : forallb (fun c => Qle_bool 0 (f (fst c) (snd c) / total f)%Q) cells = true); [|congruence].
    apply forallb_forall; intros c Hc. rewrite forallb_forall in Q1.
    specialize (Q1 (f (fst c) (snd c) / total f)%Q). apply andb_prop in Q1; [tauto|].
    unfold flat. apply in_map_iff; exists c; auto.
Qed.

(** ** Sampling *)

Lemma nth_error_prod : forall i, nth_error cells i =
  match nth_error rows (Nat.div i (length ops)), nth_error ops (Nat.modulo i (length ops)) with
  | Some l, Some o => Some (l, o)
  | _, _ => None
  end.
Proof.
  unfold cells. clear rowsND opsND. destruct (Nat.eq_dec (length ops) 0) as [E|E].
  - destruct ops; [|discriminate]. intros i. assert (P : list_prod rows (@nil op) = []) by (induction rows; simpl; auto).
    rewrite P. simpl (length []). destruct (nth_error rows _); destruct (i mod 0); destruct i; reflexivity.
  - induction rows as [|l r IH]; intros i; simpl.
    + destruct i; simpl; [rewrite Nat.div_0_l by exact E; reflexivity|]. destruct (S i / length ops); reflexivity.
    + destruct (Nat.lt_ge_cases i (length ops)) as [Hi|Hi].
      * rewrite nth_error_app1 by (rewrite map_length; exact Hi). rewrite Nat.div_small, Nat.mod_small by exact Hi. simpl.
        destruct (nth_error ops i) as [o|] eqn:N; [rewrite (map_nth_error _ _ _ N); reflexivity|].
        apply nth_error_None in N; lia.
      * rewrite nth_error_app2 by (rewrite map_length; exact Hi). rewrite map_length, IH.
        set (i' := i - length ops). replace i with (i' + 1 * length ops) by lia.
        rewrite Nat.div_add, Nat.mod_add by exact E. rewrite Nat.add_1_r. reflexivity.
Qed.

Lemma choose_nth : forall p u i, choose p u = Some i -> i < length p.
Proof.
  induction p as [|q r IH]; intros u i H; simpl in *; [discriminate|].
  destruct (Qlt_le_dec u q); [injection H as <-; lia|].
  destruct (choose r (u - q)) as [j|] eqn:E; [|discriminate]. injection H as <-. apply IH in E; lia.
Qed.

(* for non-negative entries, i is chosen exactly when u falls in the i-th interval *)
Lemma choose_iff : forall p u i, (forall q, In q p -> 0 <= q)%Q -> (0 <= u)%Q -> i < length p ->
  (choose p u = Some i <-> (qsum (firstn i p) <= u)%Q /\ (u < qsum (firstn i p) + nth i p 0)%Q).
Proof.
  induction p as [|q r IH]; intros u i Pos U Hi; simpl in *; [lia|].
  assert (Pq : (0 <= q)%Q) by (apply Pos; left; reflexivity).
  assert (Pr : forall x, In x r -> (0 <= x)%Q) by (intros x Hx; apply Pos; right; exact Hx).
  destruct i as [|i]; simpl.
  - destruct (Qlt_le_dec u q) as [L|L].
    + split; [intros _; split; lra|reflexivity].
    + split; [destruct (choose r (u - q)); discriminate|intros [_ H]; lra].
  - destruct (Qlt_le_dec u q) as [L|L].
    + split; [discriminate|]. intros [H _]. exfalso.
      assert (0 <= qsum (firstn i r))%Q. { apply qsum_nonneg. intros x Hx. apply Pr. rewrite <- (firstn_skipn i r). apply in_or_app; left; exact Hx. }
      lra.
    + assert (E : option_map S (choose r (u - q)) = Some (S i) <-> choose r (u - q)%Q = Some i).
      { destruct (choose r (u - q)); simpl; split; intros H; try discriminate; [injection H as ->; reflexivity|injection H as ->; reflexivity]. }
      rewrite E, IH; [|exact Pr|lra|lia]. split; intros [H1 H2]; split; lra.
Qed.

Lemma choose_total : forall p u, (0 <= u)%Q -> (u < qsum p)%Q -> exists i, choose p u = Some i.
Proof.
  induction p as [|q r IH]; intros u U H; simpl in *; [lra|].
  destruct (Qlt_le_dec u q) as [L|L]; [exists 0; reflexivity|].
  destruct (IH (u - q)%Q) as (i & ->); [lra|lra|]. exists (S i); reflexivity.
Qed.

Lemma sample_unfold : forall f u, sample_matrix rows ops (tab f) u =
  match choose (flat f) u with
  | Some i => match nth_error cells i with Some c => Ok c | None => Err KeyError end
  | None => Err IndexError
  end.
Proof.
  intros f u; unfold sample_matrix. rewrite concat_tab. destruct (choose (flat f) u) as [i|]; simpl; [|reflexivity].
  rewrite (nodup_fixed_point op_eq_dec opsND), nth_error_prod.
  destruct (nth_error rows _); simpl; [|reflexivity]. destruct (nth_error ops _); reflexivity.
Qed.

Lemma flat_nth : forall f i c, nth_error cells i = Some c -> nth i (flat f) 0%Q = f (fst c) (snd c).
Proof.
  intros f i c H; unfold flat. apply nth_error_nth. rewrite (map_nth_error _ _ _ H). reflexivity.
Qed.

(* the draws leading to a cell form an interval of the length of its entry *)
Lemma sample_interval : forall f, (forall l o, In l rows -> In o ops -> 0 <= f l o)%Q -> (total f == 1)%Q ->
  forall l o, In l rows -> In o ops -> exists a, (0 <= a)%Q /\ (a + f l o <= 1)%Q /\
    forall u, (0 <= u)%Q -> (sample_matrix rows ops (tab f) u = Ok (l, o) <-> (a <= u)%Q /\ (u < a + f l o)%Q).
Proof.
  intros f Pos T l o Hl Ho.
  assert (Hc : In (l, o) cells) by (apply cells_In; auto).
  destruct (In_nth_error _ _ Hc) as (i & Ni).
  assert (Pf : forall q, In q (flat f) -> (0 <= q)%Q).
  { intros q Hq; unfold flat in Hq; apply in_map_iff in Hq; destruct Hq as ([l' o'] & <- & Hc'). apply cells_In in Hc'; apply Pos; tauto. }
  assert (Hi : i < length (flat f)) by (unfold flat; rewrite map_length; apply nth_error_Some; congruence).
  exists (qsum (firstn i (flat f))). rewrite <- (flat_nth f i (l, o) Ni : _ = f l o).
  assert (S0 : (0 <= qsum (firstn i (flat f)))%Q).
  { apply qsum_nonneg; intros x Hx; apply Pf. rewrite <- (firstn_skipn i (flat f)). apply in_or_app; left; exact Hx. }
  assert (S1 : (qsum (firstn i (flat f)) + nth i (flat f) 0 <= 1)%Q).
  { rewrite <- T. unfold total. destruct (nth_split (flat f) 0%Q Hi) as (l1 & l2 & E & L1).
    set (x := nth i (flat f) 0%Q) in *. rewrite E at 2. rewrite E at 1.
    rewrite firstn_app, L1, Nat.sub_diag, <- L1, firstn_all; simpl. rewrite app_nil_r, qsum_app; simpl.
    assert (0 <= qsum l2)%Q; [|lra]. apply qsum_nonneg; intros y Hy; apply Pf. rewrite E; apply in_or_app; right; right; exact Hy. }
  split; [exact S0|]. split; [exact S1|]. intros u U. rewrite sample_unfold. rewrite <- (choose_iff (flat f) u i Pf U Hi).
  split; [|intros ->; rewrite Ni; reflexivity].
  destruct (choose (flat f) u) as [j|] eqn:E; [|discriminate]. destruct (nth_error cells j) as [c|] eqn:N; [|discriminate].
  intros H; injection H as ->. f_equal. apply (proj1 (NoDup_nth_error cells) cells_NoDup); [apply nth_error_Some; congruence|congruence].
Qed.

Lemma sample_some : forall f u, (forall l o, In l rows -> In o ops -> 0 <= f l o)%Q -> (total f == 1)%Q -> (0 <= u)%Q -> (u < 1)%Q ->
  exists l o, In l rows /\ In o ops /\ (0 < f l o)%Q /\ sample_matrix rows ops (tab f) u = Ok (l, o).
Proof.
  intros f u Pos T U U1. rewrite sample_unfold.
  assert (Pf : forall q, In q (flat f) -> (0 <= q)%Q).
  { intros q Hq; unfold flat in Hq; apply in_map_iff in Hq; destruct Hq as ([l' o'] & <- & Hc'). apply cells_In in Hc'; apply Pos; tauto. }
  destruct (choose_total (flat f) u U) as (i & E); [fold (total f); rewrite T; exact U1|]. rewrite E.
  pose proof (choose_nth _ _ _ E) as Hi. pose proof Hi as Hi'. unfold flat in Hi; rewrite map_length in Hi.
  destruct (nth_error cells i) as [[l o]|] eqn:N; [|apply nth_error_None in N; lia].
  exists l, o. pose proof (nth_error_In _ _ N) as Hin. apply cells_In in Hin. destruct Hin as [Hl Ho].
  repeat (split; [assumption|]). split; [|reflexivity].
  apply (choose_iff (flat f) u i Pf U Hi') in E. rewrite (flat_nth f i (l, o) N) in E. simpl in E. lra.
Qed.

End Table.
