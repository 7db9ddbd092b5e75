(** Proofs about the plots of optimisation logs. *)
From Coq Require Import List Arith Bool ZArith String Permutation Lia.
From Verif Require Import Base FloatModel FloatArith LoggerModel LogPlotModel LogPlotSpec.
Import ListNotations.
Local Open Scope list_scope.
Local Open Scope nat_scope.

Definition alg_of (r : Z * row) : option alg := r_alg (snd r).
Definition of_alg (a : option alg) (rows : list (Z * row)) : list (Z * row) := filter (fun r => if alg_eq_dec (r_alg (snd r)) a then true else false) rows.

Lemma unique_In : forall l a, In a (unique l) <-> In a l.
Proof.
  induction l as [|x l IH]; intros a; cbn [unique]; [reflexivity|]. split.
  - intros [->|H]; [left; reflexivity|]. apply filter_In in H. right. apply IH. apply H.
  - intros [->|H]; [left; reflexivity|]. destruct (alg_eq_dec a x) as [->|N]; [left; reflexivity|]. right. apply filter_In. split; [apply IH; exact H|]. destruct (alg_eq_dec a x); [contradiction|reflexivity].
Qed.
Lemma unique_NoDup : forall l, NoDup (unique l).
Proof.
  induction l as [|x l IH]; cbn [unique]; [constructor|]. constructor; [|apply NoDup_filter; exact IH]. intros H. apply filter_In in H. destruct H as (_ & H). destruct (alg_eq_dec x x); [discriminate|contradiction].
Qed.
Lemma filter_order : forall {A} (f : A -> bool) l i j a b, i < j -> nth_error (filter f l) i = Some a -> nth_error (filter f l) j = Some b ->
  exists i' j', i' < j' /\ nth_error l i' = Some a /\ nth_error l j' = Some b.
Proof.
  intros A f. induction l as [|x l IH]; intros i j a b L Ha Hb; [destruct i; discriminate|]. cbn [filter] in Ha, Hb. destruct (f x).
  - destruct j as [|j]; [lia|]. destruct i as [|i].
    + cbn in Ha, Hb. apply nth_error_In in Hb. apply filter_In in Hb. destruct Hb as (Hb & _). apply In_nth_error in Hb. destruct Hb as (k & Hk). exists 0, (S k). split; [lia|]. split; [exact Ha|exact Hk].
    + cbn in Ha, Hb. destruct (IH i j a b ltac:(lia) Ha Hb) as (i' & j' & H1 & H2 & H3). exists (S i'), (S j'). split; [lia|]. split; assumption.
  - destruct (IH i j a b L Ha Hb) as (i' & j' & H1 & H2 & H3). exists (S i'), (S j'). split; [lia|]. split; assumption.
Qed.
Lemma unique_before : forall rows i j a b, i < j -> nth_error (unique (map alg_of rows)) i = Some a -> nth_error (unique (map alg_of rows)) j = Some b -> before rows a b.
Proof.
  induction rows as [|r rows IH]; intros i j a b L Ha Hb; [destruct i; discriminate|]. cbn [map unique] in Ha, Hb. destruct j as [|j]; [lia|]. cbn in Hb.
  assert (Nb : ~ made_by b r).
  { apply nth_error_In in Hb. apply filter_In in Hb. destruct Hb as (_ & Hb). intros M. unfold made_by in M. fold (alg_of r) in M. destruct (alg_eq_dec b (alg_of r)) as [E|N]; [discriminate|]. apply N. symmetry. exact M. }
  destruct i as [|i].
  - cbn in Ha. injection Ha as <-. exists [], r, rows. split; [reflexivity|]. split; [reflexivity|]. intros q [<-|[]]. exact Nb.
  - cbn in Ha. destruct (filter_order _ _ i j a b ltac:(lia) Ha Hb) as (i' & j' & H1 & H2 & H3). destruct (IH i' j' a b H1 H2 H3) as (pre & q & post & E & M & N).
    exists (r :: pre), q, post. split; [rewrite E; reflexivity|]. split; [exact M|]. intros k [<-|Hk]; [exact Nb|exact (N k Hk)].
Qed.

Lemma insert_group : forall algs r rows, NoDup algs -> In (alg_of r) algs ->
  Permutation (flat_map (fun a => of_alg a (r :: rows)) algs) (r :: flat_map (fun a => of_alg a rows) algs).
Proof.
  induction algs as [|a algs IH]; intros r rows N I; [destruct I|]. inversion N as [|? ? Na Nr]; subst. cbn [flat_map]. unfold of_alg at 1. cbn [filter]. fold (of_alg a rows). fold (alg_of r).
  destruct (alg_eq_dec (alg_of r) a) as [E|D].
  - cbn [app]. constructor. apply Permutation_app_head. clear IH N I. subst a. induction algs as [|b algs IHb]; [constructor|]. cbn [flat_map]. inversion Nr; subst.
    replace (of_alg b (r :: rows)) with (of_alg b rows); [apply Permutation_app_head, IHb; [intros X; apply Na; right; exact X|assumption]|].
    unfold of_alg at 2. cbn [filter]. destruct (alg_eq_dec (r_alg (snd r)) b) as [E|]; [exfalso; apply Na; left; symmetry; exact E|reflexivity].
  - destruct I as [I|I]; [congruence|]. rewrite (IH r rows Nr I). symmetry. apply Permutation_middle.
Qed.
Lemma groups_cover : forall rows algs, NoDup algs -> (forall r, In r rows -> In (alg_of r) algs) -> Permutation (flat_map (fun a => of_alg a rows) algs) rows.
Proof.
  induction rows as [|r rows IH]; intros algs N H; [induction algs; [constructor|inversion N; subst; cbn; apply IHalgs; [assumption|intros ? []]]|].
  rewrite insert_group; [|exact N|apply H; left; reflexivity]. constructor. apply IH; [exact N|]. intros q Hq. apply H. right. exact Hq.
Qed.
Lemma of_alg_picked : forall a rows, picked (made_by a) rows (of_alg a rows).
Proof.
  induction rows as [|r rows IH]; [constructor|]. unfold of_alg. cbn [filter]. fold (of_alg a rows). destruct (alg_eq_dec (r_alg (snd r)) a) as [E|N]; [apply picked_in|apply picked_out]; assumption.
Qed.

Lemma has_known : forall c, has_column c = true <-> known c.
Proof.
  intros c. unfold has_column, known. rewrite existsb_exists. split; [intros (d & H & E); apply String.eqb_eq in E; subst d; exact H|intros H; exists c; split; [exact H|apply String.eqb_refl]].
Qed.

Section Plots.
Variable V : Type.
Variable value : string -> Z * row -> V.
Definition coords (x y : string) (r : Z * row) : V * V := (value x r, value y r).

Lemma pairs_ok : forall x y rows, known x -> known y -> pairs V value x y rows = Ok (map (coords x y) rows).
Proof. intros x y rows X Y. apply has_known in X, Y. unfold pairs. rewrite X, Y. reflexivity. Qed.
Lemma pairs_inv : forall x y rows ps, pairs V value x y rows = Ok ps -> known x /\ known y /\ ps = map (coords x y) rows.
Proof.
  intros x y rows ps H. unfold pairs in H. destruct (has_column x) eqn:X; [|discriminate]. destruct (has_column y) eqn:Y; [|discriminate]. apply has_known in X, Y. injection H as <-. auto.
Qed.
Lemma pairs_err : forall x y rows, ~ (known x /\ known y) -> pairs V value x y rows = Err KeyError.
Proof.
  intros x y rows N. unfold pairs. destruct (has_column x) eqn:X; [|reflexivity]. destruct (has_column y) eqn:Y; [|reflexivity]. apply has_known in X, Y. tauto.
Qed.

Lemma groups_inv : forall p rows x y algs gs, groups V value p rows x y algs = Ok gs ->
  map (g_label V) gs = algs /\ (algs <> [] -> known x /\ known y) /\
  (forall g, In g gs -> algorithm_colour p (g_label V g) = Ok (g_colour V g) /\ g_points V g = map (coords x y) (of_alg (g_label V g) rows)).
Proof.
  induction algs as [|a algs IH]; intros gs H; cbn [groups] in H; [injection H as <-; split; [reflexivity|]; split; [congruence|intros ? []]|].
  fold (of_alg a rows) in H. destruct (pairs V value x y (of_alg a rows)) as [ps|] eqn:P; [|discriminate]. cbn [bind] in H. destruct (algorithm_colour p a) as [c|] eqn:C; [|discriminate]. cbn [bind] in H.
  destruct (groups V value p rows x y algs) as [os|]; [|discriminate]. cbn [bind] in H. injection H as <-. destruct (IH os eq_refl) as (A & B & D). apply pairs_inv in P. destruct P as (X & Y & ->).
  split; [cbn [map g_label]; rewrite A; reflexivity|]. split; [auto|]. intros g [<-|Hg]; [cbn [g_label g_colour g_points]; auto|exact (D g Hg)].
Qed.
Lemma groups_ok : forall p rows x y algs, known x -> known y -> (forall a, In a algs -> exists c, algorithm_colour p a = Ok c) -> exists gs, groups V value p rows x y algs = Ok gs.
Proof.
  induction algs as [|a algs IH]; intros X Y C; cbn [groups]; [eexists; reflexivity|]. rewrite (pairs_ok x y _ X Y). cbn [bind]. destruct (C a (or_introl eq_refl)) as (c & ->). cbn [bind].
  destruct (IH X Y ltac:(intros; apply C; right; assumption)) as (gs & ->). eexists. reflexivity.
Qed.
Lemma groups_err : forall p rows x y algs e, groups V value p rows x y algs = Err e -> e = KeyError.
Proof.
  induction algs as [|a algs IH]; intros e H; cbn [groups] in H; [discriminate|]. unfold pairs in H. destruct (has_column x); [|cbn in H; congruence]. destruct (has_column y); [|cbn in H; congruence]. cbn [negb bind] in H.
  destruct (algorithm_colour p a) as [c|e'] eqn:C; [|cbn [bind] in H; injection H as <-; destruct p, a as [[]|]; cbn in C; try congruence; match type of C with of_option _ ?o = _ => destruct o; cbn in C; congruence end].
  cbn [bind] in H. destruct (groups V value p rows x y algs) as [os|e'] eqn:G; [discriminate|]. cbn [bind] in H. injection H as <-. exact (IH e' eq_refl).
Qed.
End Plots.

(* rows of a log that can be made carry one of the five algorithms *)
Definition valid (r : Z * row) : Prop := exists a, r_alg (snd r) = Some a /\ a <> AlgOther.
Lemma put_row_In : forall k r l q, In q (put_row k r l) -> q = (k, r) \/ In q l.
Proof.
  induction l as [|(i, x) l IH]; intros q H; cbn [put_row] in H; [destruct H as [<-|[]]; left; reflexivity|]. destruct (k =? i)%Z; destruct H as [<-|H]; try (left; reflexivity); try (right; left; reflexivity); try (right; right; exact H).
  destruct (IH q H) as [->|J]; [left; reflexivity|right; right; exact J].
Qed.
Lemma set_entry_nil : forall i x l, set_entry i x [] <> Ok l.
Proof.
  intros i x l H. unfold set_entry in H. cbv zeta in H. match type of H with (if ?b then _ else _) = _ => destruct b; [discriminate|] end. match type of H with context [set_nth ?k x []] => destruct k; discriminate end.
Qed.
Lemma logged_valid : forall lg, logged lg -> (forall r, In r (l_rows lg) -> valid r) /\ (l_scores lg <> [] -> exists a, l_alg lg = Some a /\ a <> AlgOther) /\
  (l_alg lg = None -> l_scores lg = []) /\ l_alg lg <> Some AlgOther.
Proof.
  induction 1 as [|lg _ IH|a pop lg lg' _ IH S|x lg lg' _ IH S].
  - split; [intros ? []|]. split; [intros H; contradiction H; reflexivity|]. split; [reflexivity|discriminate].
  - exact IH.
  - destruct IH as (R & _). unfold set_optimization_algorithm in S. destruct (py_div _ _) as [off|]; [|discriminate]. cbn [bind] in S.
    destruct a; try discriminate; (destruct (pop <? 0)%Z; [discriminate|]); injection S as <-; cbn [l_rows l_scores l_alg]; (split; [exact R|]); (split; [intros _; eexists; split; [reflexivity|discriminate]|]); split; discriminate.
  - destruct IH as (R & A & N & O). unfold log_score in S. destruct (py_mod _ _) as [i|]; [|discriminate]. cbn [bind] in S. destruct (set_entry i x (l_scores lg)) as [sc|] eqn:E; [|discriminate]. cbn [bind] in S.
    destruct (negb (l_started lg)); [discriminate|]. destruct (py_div _ _) as [gen|]; [|discriminate]. cbn [bind] in S. destruct (update_extreme py_min _ _ _ _) as [lo|]; [|discriminate]. cbn [bind] in S.
    destruct (update_extreme py_max _ _ _ _) as [hi|]; [|discriminate]. cbn [bind] in S. destruct (py_mod (l_num lg + 1) _) as [j|]; [|discriminate]. cbn [bind] in S. injection S as <-. cbn [l_rows l_scores l_alg].
    assert (NE : l_scores lg <> []) by (intros Z; rewrite Z in E; exact (set_entry_nil _ _ _ E)). destruct (A NE) as (a & Ea & Oa).
    split; [|split; [intros _; exists a; auto|split; [intros Z; congruence|exact O]]]. intros q Hq. apply put_row_In in Hq. destruct Hq as [->|Hq]; [exists a; split; [exact Ea|exact Oa]|exact (R q Hq)].
Qed.

Lemma default_colour : forall a b i j, algorithm_colour Default a = Ok i -> algorithm_colour Default b = Ok j -> a <> b -> i <> j.
Proof. intros [[]|] [[]|] i j A B N; cbn in A, B; try discriminate; try congruence. Qed.
Lemma map_colours : forall n, (forall i j, i < j < n -> map_colour i n <> map_colour j n) <-> n <= 8.
Proof.
  intros n. split.
  - intros H. destruct (le_lt_dec n 8) as [L|L]; [exact L|]. exfalso. apply (H 0 1); [lia|]. unfold map_colour. rewrite (Nat.div_small (8 * 0) n), (Nat.div_small (8 * 1) n) by lia. reflexivity.
  - intros L i j (I & J) E. unfold map_colour in E. assert (n <> 0) as Nz by lia.
    pose proof (Nat.div_mod (8 * i) n Nz). pose proof (Nat.div_mod (8 * j) n Nz). pose proof (Nat.mod_upper_bound (8 * i) n Nz). pose proof (Nat.mod_upper_bound (8 * j) n Nz). rewrite E in H. nia.
Qed.
