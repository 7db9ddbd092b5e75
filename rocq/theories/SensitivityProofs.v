(** Proofs about the sensitivity panel. *)
From Coq Require Import Reals Lra List Arith Bool Lia ZArith String Ascii DecimalString DecimalNat.
From Verif Require Import Base GraphModel GraphSpec GraphProofs ParamsModel ParamsSpec ParamsProofs InitSpec BuildProofs SaveModel SaveSpec SaveProofs Complex ArrayModel LocalModel LocalSpec LocalProofs ViewerModel ViewerSpec ViewerProofs SensitivityModel SensitivitySpec.
Import ListNotations.
Local Open Scope nat_scope.
Local Open Scope list_scope.

Lemma Forall2_weaken : forall {A B} (P Q : A -> B -> Prop) l r, (forall a b, P a b -> Q a b) -> Forall2 P l r -> Forall2 Q l r.
Proof. intros A B P Q l r H F. induction F; constructor; auto. Qed.
Lemma Forall2_len : forall {A B} (P : A -> B -> Prop) l r, Forall2 P l r -> List.length l = List.length r.
Proof. intros A B P l r F. induction F; cbn; congruence. Qed.

(** ** Texts *)
Fixpoint has_dash (s : string) : bool := match s with EmptyString => false | String a r => Ascii.eqb a "-" || has_dash r end.
Fixpoint after_dash (s : string) : string :=
  match s with EmptyString => EmptyString | String a r => if Ascii.eqb a "-" then if has_dash r then after_dash r else r else after_dash r end.
Lemma has_dash_app : forall a b, has_dash (append a b) = has_dash a || has_dash b.
Proof. induction a as [|x a IH]; intros b; cbn [append has_dash]; [reflexivity|]. rewrite IH, orb_assoc. reflexivity. Qed.
Lemma after_text : forall p c, has_dash c = false -> after_dash (append p (append "-" c)) = c.
Proof.
  induction p as [|x p IH]; intros c H; cbn [append after_dash].
  - change (Ascii.eqb "-" "-") with true. cbn iota. rewrite H. reflexivity.
  - destruct (Ascii.eqb x "-"); [|apply IH; exact H]. rewrite has_dash_app. cbn [append has_dash]. change (Ascii.eqb "-" "-") with true. rewrite orb_true_r. apply IH. exact H.
Qed.
Lemma digits_dash : forall d, has_dash (NilEmpty.string_of_uint d) = false.
Proof. induction d; cbn [NilEmpty.string_of_uint has_dash]; try reflexivity; rewrite IHd; reflexivity. Qed.
Lemma show_dash : forall c n, has_dash (show c n) = false.
Proof. intros c n. unfold show. rewrite has_dash_app, digits_dash, orb_false_r. destruct c; reflexivity. Qed.
Lemma app_length_s : forall a b, String.length (append a b) = String.length a + String.length b.
Proof. induction a as [|x a IH]; intros b; cbn [append String.length]; [reflexivity|]. rewrite IH. reflexivity. Qed.
Lemma app_cancel : forall c a b, append a c = append b c -> a = b.
Proof.
  intros c a. induction a as [|x a IH]; intros b H.
  - destruct b as [|y b]; [reflexivity|]. apply (f_equal String.length) in H. rewrite !app_length_s in H. cbn [String.length] in H. lia.
  - destruct b as [|y b].
    + apply (f_equal String.length) in H. rewrite !app_length_s in H. cbn [String.length] in H. lia.
    + cbn [append] in H. injection H as -> H. rewrite (IH b H). reflexivity.
Qed.
Lemma text_inj : forall p c p' c', has_dash c = false -> has_dash c' = false -> append p (append "-" c) = append p' (append "-" c') -> p = p' /\ c = c'.
Proof.
  intros p c p' c' H H' E. assert (Ec : c = c') by (rewrite <- (after_text p c H), <- (after_text p' c' H'), E; reflexivity). subst c'. split; [exact (app_cancel _ _ _ E)|reflexivity].
Qed.
Lemma counted_nodup : forall p n, NoDup (counted p n).
Proof.
  intros p n. unfold counted. assert (G : forall a n, NoDup (map (fun i => append p (NilEmpty.string_of_uint (Nat.to_uint i))) (seq a n))).
  { intros a m. revert a. induction m as [|m IH]; intros a; cbn [seq map]; constructor; [|apply IH]. intros H. apply in_map_iff in H. destruct H as (i & E & Hi). apply in_seq in Hi.
    assert (X : NilEmpty.string_of_uint (Nat.to_uint i) = NilEmpty.string_of_uint (Nat.to_uint a)).
    { clear -E. induction p as [|x p IHp]; [exact E|]. apply IHp. cbn [append] in E. injection E as E. exact E. }
    apply digits_inj in X. lia. }
  apply G.
Qed.
Fixpoint nodupb (l : list string) : bool := match l with [] => true | a :: r => negb (existsb (String.eqb a) r) && nodupb r end.
Lemma nodupb_ok : forall l, nodupb l = true -> NoDup l.
Proof.
  induction l as [|a l IH]; intros H; [constructor|]. cbn [nodupb] in H. apply andb_true_iff in H. destruct H as [H1 H2]. constructor; [|exact (IH H2)].
  intros Hi. apply negb_true_iff in H1. assert (X : existsb (String.eqb a) l = true) by (apply existsb_exists; exists a; split; [exact Hi|apply String.eqb_refl]). congruence.
Qed.
Lemma names_nodup : forall c n, NoDup (parameter_names c n).
Proof. intros c n. destruct c; try (apply counted_nodup); apply nodupb_ok; vm_compute; reflexivity. Qed.
Lemma counted_length : forall p n, List.length (counted p n) = n.
Proof. intros p n. unfold counted. rewrite map_length, seq_length. reflexivity. Qed.
Lemma names_length : forall c outputs, List.length (parameter_names c (List.length (o_locks (new_object c outputs)))) = List.length (o_locks (new_object c outputs)).
Proof. intros c outputs. destruct c; try reflexivity; apply counted_length. Qed.
Lemma num_locks : forall c outputs, List.length (o_locks (new_object c outputs)) <= Z.to_nat (o_num (new_object c outputs)).
Proof.
  intros c outputs. assert (S : List.length (rep (pred outputs) false) <= Z.to_nat (Z.of_nat outputs - 1)) by (unfold rep; rewrite repeat_length; lia).
  destruct c; try (exact S); cbn; lia.
Qed.

(** ** The texts of one component *)
Lemma free_texts_ok : forall names numbers locks i, i + List.length locks <= List.length names -> i + List.length locks <= List.length numbers -> exists t, free_texts names numbers locks i = Ok t.
Proof.
  intros names numbers. induction locks as [|b locks IH]; intros i L1 L2; cbn [free_texts]; [eexists; reflexivity|]. cbn [List.length] in L1, L2. destruct (IH (S i)) as (t & Et); [lia|lia|]. destruct b; [exists t; exact Et|].
  unfold at_. destruct (nth_error names i) eqn:E1; [|apply nth_error_None in E1; lia]. destruct (nth_error numbers i) eqn:E2; [|apply nth_error_None in E2; lia]. cbn [of_option bind]. rewrite Et. eexists. reflexivity.
Qed.
Lemma repeat_at : forall (a : string) m k b, nth_error (repeat a m) k = Some b -> b = a.
Proof. intros a m k b H. apply nth_error_In, repeat_spec in H. exact H. Qed.
Lemma free_texts_In : forall names name m locks i t txt, free_texts names (repeat name m) locks i = Ok t -> In txt t ->
  exists k p, i <= k /\ nth_error names k = Some p /\ txt = append p (append "-" name).
Proof.
  intros names name m. induction locks as [|b locks IH]; intros i t txt H Ht; cbn [free_texts] in H; [injection H as <-; destruct Ht|].
  assert (N : forall t', free_texts names (repeat name m) locks (S i) = Ok t' -> In txt t' -> exists k p, i <= k /\ nth_error names k = Some p /\ txt = append p (append "-" name)).
  { intros t' E Hi. destruct (IH _ _ _ E Hi) as (k & p & L & R). exists k, p. split; [lia|exact R]. }
  destruct b; [exact (N t H Ht)|]. apply bind_ok in H. destruct H as (p & Ep & H). apply bind_ok in H. destruct H as (c & Ec & H). apply bind_ok in H. destruct H as (t' & Et & H). injection H as <-.
  destruct Ht as [<-|Ht]; [|exact (N t' Et Ht)]. apply at_ok in Ep, Ec. apply repeat_at in Ec. subst c. exists i, p. split; [lia|]. split; [exact Ep|reflexivity].
Qed.
Lemma free_texts_nodup : forall names name m locks i t, NoDup names -> free_texts names (repeat name m) locks i = Ok t -> NoDup t.
Proof.
  intros names name m. induction locks as [|b locks IH]; intros i t ND H; cbn [free_texts] in H; [injection H as <-; constructor|]. destruct b; [exact (IH _ _ ND H)|].
  apply bind_ok in H. destruct H as (p & Ep & H). apply bind_ok in H. destruct H as (c & Ec & H). apply bind_ok in H. destruct H as (t' & Et & H). injection H as <-. apply at_ok in Ep, Ec. apply repeat_at in Ec. subst c.
  constructor; [|exact (IH _ _ ND Et)]. intros Hi. destruct (free_texts_In _ _ _ _ _ _ _ Et Hi) as (k & p' & L & Ek & E). apply app_cancel in E. subst p'.
  rewrite NoDup_nth_error in ND. assert (i = k); [|lia]. apply ND; [apply nth_error_Some; congruence|congruence].
Qed.
Lemma texts_lined : forall s c (pl : place) names name m locks i x x' t, extract_locks s (c, pl) locks i x = Ok x' -> free_texts names (repeat name m) locks i = Ok t ->
  exists ps, x_models x' = x_models x ++ map fst ps /\ x_index x' = x_index x ++ map snd ps /\ List.length (x_params x') = List.length (x_params x) + List.length ps /\
    Forall2 (fun q txt => fst q = cid c /\ i <= snd q /\ nth_error locks (snd q - i) = Some false /\ exists p, nth_error names (snd q) = Some p /\ txt = append p (append "-" name)) ps t.
Proof.
  intros s c pl names name m. induction locks as [|b locks IH]; intros i x x' t H Ht; cbn [extract_locks free_texts] in H, Ht.
  - injection H as <-. injection Ht as <-. exists []. cbn [map]. rewrite !app_nil_r. repeat split; [cbn; lia|constructor].
  - assert (Sh : forall ps t', Forall2 (fun q txt => fst q = cid c /\ S i <= snd q /\ nth_error locks (snd q - S i) = Some false /\ exists p, nth_error names (snd q) = Some p /\ txt = append p (append "-" name)) ps t' ->
      Forall2 (fun q txt => fst q = cid c /\ i <= snd q /\ nth_error (b :: locks) (snd q - i) = Some false /\ exists p, nth_error names (snd q) = Some p /\ txt = append p (append "-" name)) ps t').
    { intros ps t' F. induction F as [|q txt ps t' (F1 & F2 & F3 & F4) F IHF]; constructor; [|exact IHF]. split; [exact F1|]. split; [lia|]. split; [|exact F4]. replace (snd q - i) with (S (snd q - S i)) by lia. exact F3. }
    destruct b.
    + destruct (IH (S i) x x' t H Ht) as (ps & E1 & E2 & E3 & F). exists ps. repeat (split; [assumption|]). exact (Sh ps t F).
    + apply bind_ok in H. destruct H as (x1 & H1 & H). apply bind_ok in Ht. destruct Ht as (p & Ep & Ht). apply bind_ok in Ht. destruct Ht as (c' & Ec & Ht). apply bind_ok in Ht. destruct Ht as (t' & Et & Ht). injection Ht as <-.
      apply at_ok in Ep, Ec. apply repeat_at in Ec. subst c'. destruct (IH (S i) x1 x' t' H Et) as (ps & E1 & E2 & E3 & F).
      assert (E : x_models x1 = x_models x ++ [cid c] /\ x_index x1 = x_index x ++ [i] /\ List.length (x_params x1) = S (List.length (x_params x))).
      { unfold extract_one in H1. cbn [fst snd] in H1. repeat (apply bind_ok in H1; destruct H1 as (? & _ & H1)). injection H1 as <-. cbn [x_models x_index x_params]. rewrite app_length. cbn [List.length]. split; [reflexivity|]. split; [reflexivity|lia]. }
      destruct E as (G1 & G2 & G3). exists ((cid c, i) :: ps). cbn [map fst snd]. rewrite E1, E2, G1, G2, <- !app_assoc. split; [reflexivity|]. split; [reflexivity|]. split; [cbn [List.length]; lia|].
      constructor; [|exact (Sh ps t' F)]. cbn [fst snd]. split; [reflexivity|]. split; [lia|]. split; [rewrite Nat.sub_diag; reflexivity|]. exists p. split; [exact Ep|reflexivity].
Qed.

(** ** All components *)
Definition text_for (s : store) (ms : list comp) (ns : list string) (i k : nat) (txt : string) : Prop :=
  exists q c o p name, nth_error ms q = Some c /\ nth_error ns q = Some name /\ cid c = i /\ assoc i (s_objs s) = Some o /\ free o k /\
    nth_error (parameter_names (ccls c) (List.length (o_locks o))) k = Some p /\ txt = append p (append "-" name).
Lemma all_lined : forall s ms ns x x' ls, List.length ms = List.length ns -> fold_res (extract_model s) ms x = Ok x' -> map_res (component_texts s) (combine ms ns) = Ok ls ->
  exists ps, x_models x' = x_models x ++ map fst ps /\ x_index x' = x_index x ++ map snd ps /\ List.length (x_params x') = List.length (x_params x) + List.length ps /\
    Forall2 (fun q txt => text_for s (map fst ms) ns (fst q) (snd q) txt) ps (List.concat ls).
Proof.
  intros s. induction ms as [|[c pl] ms IH]; intros ns x x' ls L H Hl; destruct ns as [|name ns]; try discriminate L; cbn [fold_res map_res combine] in H, Hl.
  - injection H as <-. injection Hl as <-. exists []. cbn [map]. rewrite !app_nil_r. repeat split; [cbn; lia|constructor].
  - apply bind_ok in H. destruct H as (x1 & H1 & H). apply bind_ok in Hl. destruct Hl as (t & Ht & Hl). apply bind_ok in Hl. destruct Hl as (ts & Hts & Hl). injection Hl as <-. injection L as L.
    destruct (IH ns x1 x' ts L H Hts) as (ps2 & E1 & E2 & E3 & F2). cbn [List.concat].
    enough (T : exists ps1, x_models x1 = x_models x ++ map fst ps1 /\ x_index x1 = x_index x ++ map snd ps1 /\ List.length (x_params x1) = List.length (x_params x) + List.length ps1 /\
      Forall2 (fun q txt => text_for s (map fst ((c, pl) :: ms)) (name :: ns) (fst q) (snd q) txt) ps1 t).
    { destruct T as (ps1 & G1 & G2 & G3 & F1). exists (ps1 ++ ps2). rewrite !map_app, E1, E2, G1, G2, <- !app_assoc. split; [reflexivity|]. split; [reflexivity|]. split; [rewrite app_length; lia|].
      apply Forall2_app; [exact F1|]. eapply Forall2_weaken; [|exact F2]. intros q txt (k & d & o & p & nm & R1 & R2 & R). exists (S k), d, o, p, nm. split; [exact R1|]. split; [exact R2|exact R]. }
    unfold extract_model in H1. unfold component_texts in Ht. cbn [fst snd] in H1, Ht. apply bind_ok in H1. destruct H1 as (o & Ho & H1). rewrite Ho in Ht. cbn [bind] in Ht. apply get_obj_ok in Ho.
    destruct (o_lock o) eqn:El.
    + injection H1 as <-. injection Ht as <-. exists []. cbn [map]. rewrite !app_nil_r. repeat split; [cbn; lia|constructor].
    + destruct (texts_lined _ _ _ _ _ _ _ _ _ _ _ H1 Ht) as (ps & G1 & G2 & G3 & F). exists ps. repeat (split; [assumption|]). eapply Forall2_weaken; [|exact F].
      intros q txt (K1 & _ & K2 & p & K3 & K4). rewrite Nat.sub_0_r in K2. exists 0, c, o, p, name. split; [reflexivity|]. split; [reflexivity|]. split; [symmetry; exact K1|]. split; [rewrite K1; exact Ho|]. split; [split; assumption|]. split; assumption.
Qed.
Lemma get_models_fst : forall g, map fst (get_models g) = in_order g.
Proof. intros g. unfold get_models, in_order. rewrite map_app, !map_map. reflexivity. Qed.
Lemma order_classes : forall g, map ccls (in_order g) = classes g.
Proof. intros g. unfold in_order, classes. rewrite map_app, !map_map. reflexivity. Qed.
Lemma names_models : forall g, List.length (get_models g) = List.length (component_names g).
Proof. intros g. unfold component_names, get_models. rewrite numbered_length, !app_length, !map_length. reflexivity. Qed.
Lemma name_at : forall g q c, nth_error (in_order g) q = Some c -> nth_error (component_names g) q = Some (show (ccls c) (occurrences (ccls c) (firstn q (classes g)))).
Proof.
  intros g q c H. unfold component_names. fold (classes g). rewrite numbered_nth. rewrite <- order_classes at 1. rewrite (map_nth_error ccls q (in_order g) H). reflexivity.
Qed.
Lemma combine_unzip : forall (ps : list (nat * nat)), combine (map fst ps) (map snd ps) = ps.
Proof. induction ps as [|[a b] ps IH]; cbn; [reflexivity|]. rewrite IH. reflexivity. Qed.
Lemma labels_lined : forall g s x t, extract g s = Ok x -> labels g s = Ok t ->
  List.length (x_params x) = List.length t /\ List.length (x_models x) = List.length t /\ List.length (x_index x) = List.length t /\
  Forall2 (fun p text => names_it g s (fst p) (snd p) text) (combine (x_models x) (x_index x)) t.
Proof.
  intros g s x t Ex Et. unfold labels in Et. apply bind_ok in Et. destruct Et as (ls & El & Et). injection Et as <-.
  destruct (all_lined s (get_models g) (component_names g) x_empty x ls (names_models g) Ex El) as (ps & E1 & E2 & E3 & F). cbn in E1, E2, E3. rewrite E1, E2, combine_unzip, !map_length.
  pose proof (Forall2_len _ _ _ F) as L. split; [lia|]. split; [exact L|]. split; [exact L|]. eapply Forall2_weaken; [|exact F]. intros [i k] txt (q & c & o & p & name & R1 & R2 & R3 & R4 & R5 & R6 & R7). rewrite get_models_fst in R1.
  exists q, c, o, p. cbn [fst snd] in *. repeat (split; [assumption|]). rewrite (name_at g q c R1) in R2. injection R2 as <-. exact R7.
Qed.
Lemma labels_ok : forall g s, wf g -> as_made g s -> exists t, labels g s = Ok t.
Proof.
  intros g s W M. assert (T : exists ls, map_res (component_texts s) (combine (get_models g) (component_names g)) = Ok ls).
  { apply map_res_all. intros [[c pl] name] H. apply in_combine_l in H. destruct (M c (models_in g c pl W H)) as (outputs & o & ps & (Ho & _) & (_ & _ & _ & _ & _ & A1 & A2) & _).
    unfold component_texts. cbn [fst snd]. unfold get_obj. rewrite Ho. cbn [of_option bind]. destruct (o_lock o); [eexists; reflexivity|]. apply free_texts_ok; rewrite A1; cbn [Nat.add]; [rewrite names_length; lia|].
    rewrite repeat_length, A2. apply num_locks. }
  destruct T as (ls & E). unfold labels. rewrite E. eexists. reflexivity.
Qed.

Lemma new_lengths : forall c outputs, let o := new_object c outputs in
  List.length (o_lo o) = List.length (o_locks o) /\ List.length (o_hi o) = List.length (o_locks o) /\ List.length (o_types o) = List.length (o_locks o) /\ List.length (o_steps o) = List.length (o_locks o).
Proof.
  intros c outputs. cbv zeta. destruct c; try (repeat split; reflexivity); unfold new_object; cbn [family_of o_lo o_hi o_types o_steps o_locks]; unfold rep; rewrite !repeat_length; repeat split; reflexivity.
Qed.
Lemma made_extract : forall g s, wf g -> as_made g s -> exists x, extract g s = Ok x.
Proof.
  intros g s W M. apply extract_total; [exact W|]. intros i (c & pl & Hs & <-). destruct (M c (sits_comp g c pl Hs)) as (outputs & o & ps & Ho & (_ & A1 & A2 & A3 & A4 & A5 & _) & L). exists o, ps. split; [exact Ho|].
  intros k [_ Hk]. assert (Hl : k < List.length (o_locks o)) by (apply nth_error_Some; congruence). destruct (new_lengths (ccls c) outputs) as (B1 & B2 & B3 & B4). cbv zeta in *. rewrite A1, A2, A3, A4, B1, B2, B3, B4, <- A5. repeat split; lia.
Qed.

(** ** Different texts *)
Lemma concat_nodup : forall s ms ns ls, List.length ms = List.length ns -> NoDup ns -> (forall name, In name ns -> has_dash name = false) -> map_res (component_texts s) (combine ms ns) = Ok ls -> NoDup (List.concat ls).
Proof.
  intros s. assert (Cn : forall q t txt, component_texts s q = Ok t -> In txt t -> exists p, txt = append p (append "-" (snd q))).
  { intros [m name] t txt H Hi. unfold component_texts in H. cbn [fst snd] in H. apply bind_ok in H. destruct H as (o & _ & H). destruct (o_lock o); [injection H as <-; destruct Hi|]. destruct (free_texts_In _ _ _ _ _ _ _ H Hi) as (k & p & _ & _ & E). exists p. exact E. }
  induction ms as [|m ms IH]; intros ns ls L ND Hd H; destruct ns as [|name ns]; try discriminate L; cbn [combine map_res] in H; [injection H as <-; constructor|].
  apply bind_ok in H. destruct H as (t & Ht & H). apply bind_ok in H. destruct H as (ts & Hts & H). injection H as <-. injection L as L. inversion ND as [|? ? N1 N2]; subst. cbn [List.concat].
  assert (D2 : NoDup (List.concat ts)) by (apply (IH ns ts L N2); [intros n Hn; apply Hd; right; exact Hn|exact Hts]).
  assert (D1 : NoDup t). { unfold component_texts in Ht. cbn [fst snd] in Ht. apply bind_ok in Ht. destruct Ht as (o & _ & Ht). destruct (o_lock o); [injection Ht as <-; constructor|]. exact (free_texts_nodup _ _ _ _ _ _ (names_nodup _ _) Ht). }
  assert (Dj : forall txt, In txt t -> ~ In txt (List.concat ts)).
  { intros txt H1 H2. apply in_concat in H2. destruct H2 as (t2 & Ht2 & H2). destruct (map_res_In _ _ _ Hts t2 Ht2) as ([m2 n2] & Hq & E2). destruct (Cn _ _ _ Ht H1) as (p1 & F1). destruct (Cn _ _ _ E2 H2) as (p2 & F2). cbn [snd] in F1, F2.
    rewrite F1 in F2. apply in_combine_r in Hq. apply text_inj in F2; [|apply Hd; left; reflexivity|apply Hd; right; exact Hq]. destruct F2 as [_ <-]. exact (N1 Hq). }
  clear -D1 D2 Dj. induction t as [|a t IH]; [exact D2|]. inversion D1 as [|? ? A1 A2]; subst. cbn [app]. constructor.
  - intros H. apply in_app_iff in H. destruct H as [H|H]; [exact (A1 H)|exact (Dj a (or_introl eq_refl) H)].
  - apply IH; [exact A2|]. intros txt H. apply Dj. right; exact H.
Qed.
Lemma map_res_nth : forall {A B} (f : A -> res B) l r, map_res f l = Ok r -> forall i a, nth_error l i = Some a -> exists b, nth_error r i = Some b /\ f a = Ok b.
Proof.
  intros A B f. induction l as [|a l IH]; intros r H i a' Hi; [destruct i; discriminate|]. cbn [map_res] in H. apply bind_ok in H. destruct H as (b & Eb & H). apply bind_ok in H. destruct H as (r' & Er & H). injection H as <-.
  destruct i as [|i]; cbn [nth_error] in *; [injection Hi as <-; exists b; split; [reflexivity|exact Eb]|]. exact (IH r' Er i a' Hi).
Qed.
Lemma twice : forall {A} (ls : list (list A)) i j a b txt, nth_error ls i = Some a -> nth_error ls j = Some b -> i < j -> In txt a -> In txt b -> ~ NoDup (List.concat ls).
Proof.
  intros A ls. induction ls as [|l ls IH]; intros i j a b txt Hi Hj L Ha Hb N; [destruct i; discriminate|]. destruct j as [|j]; [lia|]. cbn [List.concat] in N. destruct i as [|i]; cbn [nth_error] in Hi, Hj.
  - injection Hi as ->. assert (X : In txt (List.concat ls)) by (apply in_concat; exists b; split; [eapply nth_error_In; exact Hj|exact Hb]).
    apply in_split in Ha. destruct Ha as (a1 & a2 & ->). rewrite <- app_assoc in N. cbn [app] in N. apply NoDup_remove_2 in N. apply N. apply in_or_app. right. apply in_or_app. right. exact X.
  - assert (N' : NoDup (List.concat ls)) by (clear -N; induction l as [|x l IHl]; [exact N|]; inversion N; subst; apply IHl; assumption). exact (IH i j a b txt Hi Hj ltac:(lia) Ha Hb N').
Qed.
Lemma nth_combine : forall {A B} (l : list A) (r : list B) i a b, nth_error l i = Some a -> nth_error r i = Some b -> nth_error (combine l r) i = Some (a, b).
Proof. intros A B. induction l as [|x l IH]; intros r i a b Ha Hb; [destruct i; discriminate|]. destruct r as [|y r]; [destruct i; discriminate|]. destruct i as [|i]; cbn in *; [congruence|]. exact (IH r i a b Ha Hb). Qed.
Lemma labels_distinct : forall g s t, wf g -> as_made g s -> labels g s = Ok t -> (NoDup t <-> ~ (In DelayLine (classes g) /\ In IntegratedDelayLine (classes g))).
Proof.
  intros g s t W M Et. unfold labels in Et. apply bind_ok in Et. destruct Et as (ls & El & Et). injection Et as <-. split.
  - intros N [H1 H2]. destruct (first_of _ _ H1) as (i & Ei & Oi). destruct (first_of _ _ H2) as (j & Ej & Oj).
    assert (X : forall k c, nth_error (classes g) k = Some c -> occurrences c (firstn k (classes g)) = 0 -> c = DelayLine \/ c = IntegratedDelayLine -> exists l, nth_error ls k = Some l /\ In "delay-DL0"%string l).
    { intros k c Ek Ok_ Hc. rewrite <- order_classes in Ek. rewrite nth_error_map in Ek. destruct (nth_error (in_order g) k) as [cc|] eqn:Eo; [|discriminate]. cbn [option_map] in Ek. injection Ek as Ecc.
      pose proof (name_at g k cc Eo) as En. rewrite Ecc, Ok_ in En. rewrite <- get_models_fst, nth_error_map in Eo. destruct (nth_error (get_models g) k) as [[c0 pl]|] eqn:Em; [|discriminate]. cbn [option_map fst] in Eo. injection Eo as ->.
      destruct (map_res_nth _ _ _ El k _ (nth_combine _ _ _ _ _ Em En)) as (l & Hl & E). exists l. split; [exact Hl|]. unfold component_texts in E. cbn [fst snd] in E.
      destruct (M cc (models_in g cc pl W (nth_error_In _ _ Em))) as (outputs & o & ps & (Ho & _) & (A0 & _ & _ & _ & _ & A1 & A2) & _). unfold get_obj in E. rewrite Ho in E. cbn [of_option bind] in E. rewrite A0, A1, A2, Ecc in E.
      destruct Hc as [-> | ->]; vm_compute in E; injection E as <-; left; reflexivity. }
    destruct (X i _ Ei Oi (or_introl eq_refl)) as (l1 & L1 & I1). destruct (X j _ Ej Oj (or_intror eq_refl)) as (l2 & L2 & I2).
    destruct (lt_eq_lt_dec i j) as [[L|L]|L]; [exact (twice ls i j l1 l2 _ L1 L2 L I1 I2 N)|subst j; congruence|exact (twice ls j i l2 l1 _ L2 L1 L I2 I1 N)].
  - intros N. apply (concat_nodup s (get_models g) (component_names g) ls (names_models g)); [| |exact El].
    + unfold component_names. fold (classes g). apply numbered_distinct. exact N.
    + intros name H. apply In_nth_error in H. destruct H as (q & H). unfold component_names in H. fold (classes g) in H. rewrite numbered_nth in H. destruct (nth_error (classes g) q); [|discriminate]. injection H as <-. apply show_dash.
Qed.

(** ** Squares *)
Lemma concat_at : forall {A} (rows : list (list A)) n r c, (forall row, In row rows -> List.length row = n) -> c < n ->
  nth_error (List.concat rows) (r * n + c) = match nth_error rows r with Some row => nth_error row c | None => None end.
Proof.
  intros A. induction rows as [|row rows IH]; intros n r c H Hc.
  - cbn [List.concat]. destruct r; [destruct c; reflexivity|]. destruct (S r * n + c); reflexivity.
  - assert (L : List.length row = n) by (apply H; left; reflexivity). cbn [List.concat]. destruct r as [|r]; cbn [nth_error].
    + cbn [Nat.mul Nat.add]. apply nth_error_app1. lia.
    + rewrite nth_error_app2 by lia. replace (S r * n + c - List.length row) with (r * n + c) by (cbn [Nat.mul]; lia). apply IH; [intros x Hx; apply H; right; exact Hx|exact Hc].
Qed.
Lemma concat_square : forall {A} (rows : list (list A)) n, (forall row, In row rows -> List.length row = n) -> List.length (List.concat rows) = List.length rows * n.
Proof.
  intros A. induction rows as [|row rows IH]; intros n H; [reflexivity|]. cbn [List.concat List.length Nat.mul]. rewrite app_length, (H row (or_introl eq_refl)), (IH n); [reflexivity|]. intros x Hx. apply H. right; exact Hx.
Qed.
Lemma nth_error_seq : forall n a k, k < n -> nth_error (seq a n) k = Some (a + k).
Proof. induction n as [|n IH]; intros a k H; [lia|]. destruct k as [|k]; cbn [seq nth_error]; [f_equal; lia|]. rewrite IH by lia. f_equal. lia. Qed.
Lemma nth_error_down : forall n k, k < n -> nth_error (rev (seq 0 n)) k = Some (n - 1 - k).
Proof.
  intros n k H. rewrite nth_error_nth' with (d := 0) by (rewrite rev_length, seq_length; exact H). f_equal. rewrite rev_nth by (rewrite seq_length; exact H). rewrite seq_length, seq_nth by lia. lia.
Qed.
Lemma mesh_x_at : forall {A B} (a : list A) (b : list B) r c, c < List.length a -> r < List.length b -> nth_error (List.concat (mesh_x a b)) (r * List.length a + c) = nth_error a c.
Proof.
  intros A B a b r c Hc Hr. rewrite (concat_at (mesh_x a b) (List.length a)); [|intros row H; unfold mesh_x in H; apply in_map_iff in H; destruct H as (y & <- & _); reflexivity|exact Hc].
  unfold mesh_x. rewrite nth_error_map. destruct (nth_error b r) eqn:E; [reflexivity|]. apply nth_error_None in E. lia.
Qed.
Lemma mesh_y_at : forall {A B} (a : list A) (b : list B) r c, c < List.length a -> r < List.length b -> nth_error (List.concat (mesh_y a b)) (r * List.length a + c) = nth_error b r.
Proof.
  intros A B a b r c Hc Hr. rewrite (concat_at (mesh_y a b) (List.length a)); [|intros row H; unfold mesh_y in H; apply in_map_iff in H; destruct H as (y & <- & _); apply map_length|exact Hc].
  unfold mesh_y. rewrite nth_error_map. destruct (nth_error b r) eqn:E; [|apply nth_error_None in E; lia]. cbn [option_map]. rewrite nth_error_map. destruct (nth_error a c) eqn:E2; [reflexivity|]. apply nth_error_None in E2. lia.
Qed.
Lemma mesh_x_length : forall {A B} (a : list A) (b : list B), List.length (List.concat (mesh_x a b)) = List.length b * List.length a.
Proof. intros A B a b. rewrite (concat_square (mesh_x a b) (List.length a)); [unfold mesh_x; rewrite map_length; reflexivity|]. intros row H. unfold mesh_x in H. apply in_map_iff in H. destruct H as (y & <- & _). reflexivity. Qed.
Lemma mesh_y_length : forall {A B} (a : list A) (b : list B), List.length (List.concat (mesh_y a b)) = List.length b * List.length a.
Proof. intros A B a b. rewrite (concat_square (mesh_y a b) (List.length a)); [unfold mesh_y; rewrite map_length; reflexivity|]. intros row H. unfold mesh_y in H. apply in_map_iff in H. destruct H as (y & <- & _). apply map_length. Qed.
Lemma square_width : forall n h, square_matrix n h -> width h = n.
Proof. intros n h [L R]. destruct h as [|r h]; [cbn in *; lia|]. cbn [width]. apply R. left; reflexivity. Qed.
Lemma entry_at : forall n h r c, square_matrix n h -> r < n -> c < n -> nth_error (List.concat h) (r * n + c) = Some (LocalModel.entry h r c).
Proof.
  intros n h r c [L R] Hr Hc. rewrite (concat_at h n r c R Hc). destruct (nth_error h r) as [row|] eqn:E; [|apply nth_error_None in E; lia]. unfold LocalModel.entry. rewrite (nth_error_nth h r _ E). apply nth_error_nth'. rewrite (R row (nth_error_In _ _ E)). exact Hc.
Qed.
Lemma squares : forall hess g s x t h n, extract g s = Ok x -> labels g s = Ok t -> hess (x_params x) = Ok h -> List.length t = n -> square_matrix n h ->
  exists d m, update_hessian_data hess g s = Ok d /\ d_hess d = h /\ heatmap_of (Some d) = Ok m /\
    List.length (m_x m) = n * n /\ List.length (m_y m) = n * n /\ List.length (m_value m) = n * n /\ List.length (m_log m) = n * n /\ List.length (m_xname m) = n * n /\ List.length (m_yname m) = n * n /\
    forall r c, r < n -> c < n ->
      nth_error (m_x m) (r * n + c) = Some c /\ nth_error (m_y m) (r * n + c) = Some (n - 1 - r) /\
      nth_error (m_value m) (r * n + c) = Some (LocalModel.entry h r c) /\ nth_error (m_log m) (r * n + c) = Some (1 + Rabs (LocalModel.entry h r c))%R /\
      nth_error (m_xname m) (r * n + c) = nth_error t c /\ nth_error (m_yname m) (r * n + c) = nth_error t r.
Proof.
  intros hess g s x t h n Ex Et Eh Lt Sq. pose proof (square_width n h Sq) as Wd. pose proof (proj1 Sq) as Lh. pose proof (proj2 Sq) as Rh.
  unfold update_hessian_data. rewrite Ex, Et. cbn [bind]. rewrite Eh. cbn [bind]. eexists. eexists. split; [reflexivity|]. split; [reflexivity|]. cbn [heatmap_of d_hess d_xname d_yname]. split; [reflexivity|].
  cbn [m_x m_y m_value m_log m_xname m_yname]. rewrite Wd, Lh, map_length, !mesh_x_length, !mesh_y_length, rev_length, !seq_length, Lt, (concat_square h n Rh), Lh.
  repeat (split; [reflexivity|]). intros r c Hr Hc.
  assert (Ls : List.length (seq 0 n) = n) by apply seq_length. assert (Lr : List.length (rev (seq 0 n)) = n) by (rewrite rev_length; exact Ls).
  pose proof (mesh_x_at (seq 0 n) (rev (seq 0 n)) r c) as M1. pose proof (mesh_y_at (seq 0 n) (rev (seq 0 n)) r c) as M2. pose proof (mesh_x_at t t r c) as M3. pose proof (mesh_y_at t t r c) as M4. rewrite Ls, Lr in M1, M2. rewrite Lt in M3, M4.
  rewrite (M1 Hc Hr), (M2 Hc Hr), (M3 Hc Hr), (M4 Hc Hr). split; [apply (nth_error_seq n 0 c Hc)|]. split; [apply nth_error_down; exact Hr|]. split; [apply entry_at; assumption|]. split; [|split; reflexivity].
  rewrite nth_error_map, (entry_at n h r c Sq Hr Hc). reflexivity.
Qed.

(** ** Bars *)
Lemma column_read : forall vectors n i, (forall row, In row vectors -> List.length row = n) -> i < n -> map_res (fun row => at_ row i) vectors = Ok (column vectors i).
Proof.
  induction vectors as [|row vectors IH]; intros n i H Hi; [reflexivity|]. cbn [map_res column map]. assert (L : List.length row = n) by (apply H; left; reflexivity).
  unfold at_ at 1. rewrite (nth_error_nth' row C0) by lia. cbn [of_option bind]. rewrite (IH n i); [reflexivity|intros r Hr; apply H; right; exact Hr|exact Hi].
Qed.
Lemma map_res_tab : forall {A B} (f : A -> res B) (h : A -> B) l, (forall a, In a l -> f a = Ok (h a)) -> map_res f l = Ok (map h l).
Proof.
  intros A B f h. induction l as [|a l IH]; intros H; [reflexivity|]. cbn [map_res map]. rewrite (H a (or_introl eq_refl)). cbn [bind]. rewrite IH; [reflexivity|intros b Hb; apply H; right; exact Hb].
Qed.
Lemma bars : forall {K} (cmap : R -> K) eig hess g s x t h n values vectors, extract g s = Ok x -> labels g s = Ok t -> hess (x_params x) = Ok h -> List.length t = n -> square_matrix n h ->
  eig h = Ok (values, vectors) -> List.length values = n -> square_matrix n vectors ->
  exists d p, update_hessian_data hess g s = Ok d /\ add_lha_eigenvectors cmap eig (Some d) = Ok p /\
    List.length (e_bars p) = n * n /\ List.length (e_names p) = n * n /\ List.length (e_boxes p) = n /\
    e_xrange p = ((-3)%R, (INR n + 1)%R) /\ e_yrange p = ((-1)%R, (INR n + 2)%R) /\
    (forall i, i < n -> nth_error (e_boxes p) i = Some (mkBox (2 * INR i - 95 / 100) (2 * INR i + 95 / 100) (nth i values C0))) /\
    forall i j, i < n -> j < n ->
      nth_error (e_bars p) (i * n + j) = Some (mkBar j (2 * INR i) (Cadd (RtoC (2 * INR i)) (nth j (column vectors i) C0)) (nth j (column vectors i) C0) (nth i values C0) (cmap (INR i / INR n)))%R /\
      nth_error (e_names p) (i * n + j) = nth_error t j.
Proof.
  intros K cmap eig hess g s x t h n values vectors Ex Et Eh Lt Sq Ee Lv [Lw Rw].
  destruct (squares hess g s x t h n Ex Et Eh Lt Sq) as (d & m & Ed & Dh & Em & _ & _ & _ & _ & Ln & _ & Sqs). exists d.
  set (ivs := combine (seq 0 n) values).
  set (row := fun p : nat * C => map (fun q => mkBar (fst q) (2 * INR (fst p)) (Cadd (RtoC (2 * INR (fst p))) (snd q)) (snd q) (snd p) (cmap (INR (fst p) / INR n)%R)) (combine (seq 0 n) (column vectors (fst p)))).
  assert (Lc : forall i, List.length (column vectors i) = n) by (intros i; unfold column; rewrite map_length; exact Lw).
  assert (Eb : map_res (bars_of cmap n vectors) ivs = Ok (map row ivs)).
  { apply map_res_tab. intros [i v] H. apply in_combine_l, in_seq in H. unfold bars_of. rewrite (column_read vectors n i Rw) by lia. cbn [bind]. rewrite Lc. reflexivity. }
  assert (Iv : forall i, i < n -> nth_error ivs i = Some (i, nth i values C0)).
  { intros i Hi. apply nth_combine; [exact (nth_error_seq n 0 i Hi)|]. apply nth_error_nth'. lia. }
  assert (Li : List.length ivs = n) by (unfold ivs; rewrite combine_length, seq_length, Lv; lia).
  assert (Rr : forall r, In r (map row ivs) -> List.length r = n).
  { intros r H. apply in_map_iff in H. destruct H as (p & <- & _). unfold row. rewrite map_length, combine_length, seq_length, Lc. lia. }
  unfold add_lha_eigenvectors, lha_of. rewrite Dh, Ee. cbn [bind]. rewrite Em. cbn [bind]. rewrite Lv. fold ivs. rewrite Eb. cbn [bind]. eexists. split; [exact Ed|]. split; [reflexivity|]. cbn [e_bars e_names e_boxes e_xrange e_yrange].
  split; [rewrite (concat_square _ n Rr), map_length, Li; reflexivity|]. split; [exact Ln|]. split; [rewrite map_length; exact Li|]. split; [reflexivity|]. split; [reflexivity|]. split.
  - intros i Hi. rewrite nth_error_map, (Iv i Hi). reflexivity.
  - intros i j Hi Hj. split; [|exact (proj1 (proj2 (proj2 (proj2 (proj2 (Sqs i j Hi Hj))))))].
    rewrite (concat_at _ n i j Rr Hj), nth_error_map, (Iv i Hi). cbn [option_map]. unfold row. cbn [fst snd]. rewrite nth_error_map.
    rewrite (nth_combine (seq 0 n) (column vectors i) j (0 + j) (nth j (column vectors i) C0) (nth_error_seq n 0 j Hj)) by (apply nth_error_nth'; rewrite Lc; exact Hj). reflexivity.
Qed.
Lemma unit_column : forall vectors n i j, square_matrix n vectors -> unit_entries vectors -> i < n -> j < n -> let v := nth j (column vectors i) C0 in (im v = 0 /\ -1 <= re v <= 1)%R.
Proof.
  intros vectors n i j [L R] U Hi Hj. cbv zeta. destruct (nth_error vectors j) as [row|] eqn:E; [|apply nth_error_None in E; lia].
  assert (X : nth j (column vectors i) C0 = nth i row C0). { apply nth_error_nth. unfold column. rewrite nth_error_map, E. reflexivity. }
  rewrite X. apply (U row); [eapply nth_error_In; exact E|]. apply nth_In. rewrite (R row (nth_error_In _ _ E)). exact Hi.
Qed.

(** ** Loading *)
Lemma edge_object : forall c, new_object c 1 = obj_of_spec 0 (spec_of c) \/ same_attributes (new_object c 1) (obj_of_spec 0 (spec_of c)).
Proof. intros c. destruct c; try (left; reflexivity); right; repeat split; reflexivity. Qed.
Lemma same_trans : forall a b c, same_attributes a b -> same_attributes b c -> same_attributes a c.
Proof. intros a b c (A1 & A2 & A3 & A4 & A5 & A6 & A7) (B1 & B2 & B3 & B4 & B5 & B6 & B7). repeat split; congruence. Qed.
Lemma spec_locks : forall c, List.length (sp_locks (spec_of c)) <= Z.to_nat (sp_num (spec_of c)).
Proof. intros c. destruct c; cbn; lia. Qed.
Lemma loaded_made : forall g st g' st' f, wf g -> wf g' -> (forall n c, model_at g n c -> can_be_node c) -> backed g st -> sized g st -> complete g st ->
  nodes_match f (fun n => node_loaded st st' (departures g n)) g g' -> edges_match f (edge_loaded st st') g g' -> as_made g' st'.
Proof.
  intros g st g' st' f W W' Cn B Sz Cp Nm Em c Hc. unfold components in Hc. apply in_app_iff in Hc. destruct Hc as [Hc|Hc]; apply in_map_iff in Hc.
  - destruct Hc as (p' & <- & Hp). destruct (Forall2_In_r _ _ _ _ Nm Hp) as (p & Hp0 & (_ & (Ec & _ & L))). destruct (In_node_backed g st p B Hp0) as (o & ps & Hh). destruct (L o ps Hh) as (o' & Ho' & Sa).
    exists (departures g (fst p)), o', ps. rewrite Ec. split; [exact Ho'|]. split; [exact Sa|]. destruct Sa as (_ & _ & _ & _ & _ & A5 & _). rewrite A5.
    assert (Ma : model_at g (fst p) (n_model (snd p))) by (destruct p as [n d]; exists d; split; [exact Hp0|reflexivity]).
    pose proof (Sz (fst p) (n_model (snd p)) o ps Ma Hh) as Z. destruct (Cn _ _ Ma) as [F|[F|F]]; unfold new_object; rewrite F in *; cbn [o_locks obj_of_spec].
    + unfold rep. rewrite repeat_length. lia.
    + destruct (ccls (n_model (snd p))); try discriminate F; cbn; lia.
    + destruct (ccls (n_model (snd p))); try discriminate F; cbn; lia.
  - destruct Hc as (e' & <- & He). apply (In_edges_view g' e' W') in He. destruct (Forall2_In_r _ _ _ _ Em He) as (e & He0 & (_ & _ & (Ec & _ & L))). apply (In_edges_view g e W) in He0.
    destruct (Cp e He0) as (o & ps & Hh & Hl). destruct (L o ps Hh) as (o' & Ho' & Sa). exists 1, o', ps. rewrite Ec. split; [exact Ho'|]. split.
    + destruct (edge_object (ccls (e_model (e_dat e)))) as [E|E]; [rewrite E; exact Sa|exact (same_trans _ _ _ E Sa)].
    + destruct Sa as (_ & _ & _ & _ & _ & A5 & _). rewrite A5, Hl. cbn [o_locks obj_of_spec]. apply spec_locks.
Qed.
