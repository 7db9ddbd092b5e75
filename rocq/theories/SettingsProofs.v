(** Lemmas about the settings of components. *)
From Coq Require Import List Arith ZArith String Lia.
From Verif Require Import Base GraphModel ParamsModel SettingsModel SettingsSpec.
Import ListNotations.
Local Open Scope list_scope.

Lemma pname_eqb_eq : forall a b, pname_eqb a b = true <-> a = b.
Proof.
  intros [s | s i] [t | t j]; cbn; split; intro H; try discriminate.
  - apply String.eqb_eq in H; now subst.
  - inversion H; apply String.eqb_refl.
  - apply andb_prop in H as [A B]. apply String.eqb_eq in A. apply Nat.eqb_eq in B. now subst.
  - inversion H. rewrite String.eqb_refl, Nat.eqb_refl. reflexivity.
Qed.
Lemma pname_eqb_refl : forall a, pname_eqb a a = true.
Proof. intro a. now apply pname_eqb_eq. Qed.
Lemma pname_eqb_neq : forall a b, a <> b -> pname_eqb a b = false.
Proof. intros a b H. destruct (pname_eqb a b) eqn:E; auto. apply pname_eqb_eq in E. contradiction. Qed.

(** ** Lists *)
Lemma set_nth_Some : forall A i (x : A) l, i < List.length l -> exists l', set_nth i x l = Some l'.
Proof.
  induction i as [| i IH]; intros x [| a l] H; cbn in *; try lia; eauto.
  destruct (IH x l) as [l' E]; try lia. rewrite E. eauto.
Qed.
Lemma set_nth_length : forall A i (x : A) l l', set_nth i x l = Some l' -> List.length l' = List.length l.
Proof.
  induction i as [| i IH]; intros x [| a l] l' H; cbn in *; try discriminate.
  - now inversion H.
  - destruct (set_nth i x l) eqn:E; try discriminate. inversion H. cbn. f_equal. eauto.
Qed.
Lemma set_nth_same : forall A i (x : A) l l', set_nth i x l = Some l' -> nth_error l' i = Some x.
Proof.
  induction i as [| i IH]; intros x [| a l] l' H; cbn in *; try discriminate.
  - now inversion H.
  - destruct (set_nth i x l) eqn:E; try discriminate. inversion H. cbn. eauto.
Qed.
Lemma set_nth_other : forall A i (x : A) l l' j, set_nth i x l = Some l' -> j <> i -> nth_error l' j = nth_error l j.
Proof.
  induction i as [| i IH]; intros x [| a l] l' j H N; cbn in *; try discriminate.
  - inversion H. destruct j; [lia | reflexivity].
  - destruct (set_nth i x l) eqn:E; try discriminate. inversion H. destruct j; cbn; auto. eapply IH; eauto.
Qed.
Lemma nth_error_lt : forall A (l : list A) i x, nth_error l i = Some x -> i < List.length l.
Proof. intros. apply nth_error_Some. congruence. Qed.

(** ** Names *)
Lemma index_value : forall names values n, List.length names <= List.length values -> In n names ->
  exists i v, index_of n names = Ok i /\ i < List.length names /\ nth_error values i = Some v /\ value_at names values n = Some v.
Proof.
  induction names as [| m names IH]; intros [| v values] n L I; cbn in *; try lia; try contradiction.
  destruct (pname_eqb m n) eqn:E.
  - exists 0, v. repeat split; auto; lia.
  - destruct I as [-> | I]; [now rewrite pname_eqb_refl in E |].
    destruct (IH values n) as (i & v' & A & B & C & D); auto; try lia.
    exists (S i), v'. rewrite A. cbn. repeat split; auto; lia.
Qed.
Lemma index_missing : forall names n, ~ In n names -> index_of n names = Err ValueError.
Proof.
  induction names as [| m names IH]; intros n N; cbn in *; auto.
  rewrite pname_eqb_neq by (intro; subst; tauto). rewrite IH; tauto.
Qed.
Lemma index_nth : forall names n i, index_of n names = Ok i -> nth_error names i = Some n.
Proof.
  induction names as [| m names IH]; intros n i H; cbn in *; try discriminate.
  destruct (pname_eqb m n) eqn:E.
  - inversion H. apply pname_eqb_eq in E. now subst.
  - destruct (index_of n names) eqn:F; try discriminate. inversion H. cbn. auto.
Qed.
Lemma value_missing : forall names values n, ~ In n names -> value_at names values n = None.
Proof.
  induction names as [| m names IH]; intros [| v values] n N; cbn in *; auto.
  rewrite pname_eqb_neq by (intro; subst; tauto). auto.
Qed.
(* writing an entry changes the value of its name only *)
Lemma value_set : forall names values n i v values' m, index_of n names = Ok i -> set_nth i v values = Some values' ->
  value_at names values' m = if pname_eqb n m then Some v else value_at names values m.
Proof.
  induction names as [| k names IH]; intros values n i v values' m H S; cbn in H; try discriminate.
  destruct (pname_eqb k n) eqn:E.
  - inversion H; subst i. destruct values as [| a values]; cbn in S; try discriminate. inversion S; subst. cbn.
    apply pname_eqb_eq in E; subst k. destruct (pname_eqb n m); reflexivity.
  - destruct (index_of n names) as [j |] eqn:F; try discriminate. inversion H; subst i.
    destruct values as [| a values]; cbn in S; try discriminate.
    destruct (set_nth j v values) as [vs |] eqn:G; try discriminate. inversion S; subst. cbn.
    destruct (pname_eqb k m) eqn:K.
    + apply pname_eqb_eq in K; subst m.
      destruct (pname_eqb n k) eqn:Z; auto. apply pname_eqb_eq in Z; subst. now rewrite pname_eqb_refl in E.
    + eapply IH; eauto.
Qed.

(** ** Attributes *)
Lemma attribute_set_out : forall names values attrs n, ~ In n names -> attribute (set_attrs names values attrs) n = attribute attrs n.
Proof.
  induction names as [| m names IH]; intros [| v values] attrs n N; cbn in *; auto.
  rewrite IH by tauto. cbn. rewrite pname_eqb_neq by (intro; subst; tauto). reflexivity.
Qed.
Lemma attribute_set : forall names values attrs n, NoDup names ->
  attribute (set_attrs names values attrs) n = match value_at names values n with Some v => Ok v | None => attribute attrs n end.
Proof.
  induction names as [| m names IH]; intros [| v values] attrs n D; cbn; auto.
  inversion D as [| ? ? N D']; subst.
  destruct (pname_eqb m n) eqn:E.
  - apply pname_eqb_eq in E; subst. rewrite attribute_set_out by assumption. cbn. now rewrite pname_eqb_refl.
  - rewrite IH by assumption. cbn. rewrite E. reflexivity.
Qed.
Lemma attribute_now : forall names values attrs n, NoDup names -> List.length names <= List.length values -> In n names ->
  exists v, attribute (set_attrs names values attrs) n = Ok v /\ value_at names values n = Some v.
Proof.
  intros names values attrs n D L I. destruct (index_value names values n L I) as (i & v & _ & _ & _ & V).
  exists v. now rewrite attribute_set, V.
Qed.

Fixpoint distinct (l : list pname) : bool :=
  match l with [] => true | a :: r => negb (existsb (pname_eqb a) r) && distinct r end.
Lemma distinct_NoDup : forall l, distinct l = true -> NoDup l.
Proof.
  induction l as [| a l IH]; intro H; constructor; cbn in H; apply andb_prop in H as [A B]; auto.
  intro I. apply Bool.negb_true_iff in A. assert (existsb (pname_eqb a) l = true); [| congruence].
  apply existsb_exists. exists a. split; auto. apply pname_eqb_refl.
Qed.
Lemma names_distinct : forall c, NoDup (names_of c).
Proof. intro c. apply distinct_NoDup. destruct c; vm_compute; reflexivity. Qed.
Lemma defaults_length : forall c, List.length (sp_def (spec_of c)) = List.length (names_of c).
Proof. destruct c; vm_compute; reflexivity. Qed.

(** ** Writing by names *)
Lemma write_names_length : forall names d l l', write_names names l d = Ok l' -> List.length l' = List.length l.
Proof.
  induction d as [| [n v] d IH]; intros l l' H; cbn in H.
  - now inversion H.
  - destruct (index_of n names) as [i |]; try discriminate. cbn in H. unfold store_item in H.
    destruct (set_nth i v l) as [l1 |] eqn:E; try discriminate. cbn in H. apply IH in H. rewrite H. eapply set_nth_length; eauto.
Qed.
Lemma write_names_ok : forall names d l, List.length l = List.length names -> (forall n v, In (n, v) d -> In n names) ->
  exists l', write_names names l d = Ok l'.
Proof.
  induction d as [| [n v] d IH]; intros l L A; cbn; eauto.
  destruct (index_value names l n) as (i & v' & I & Li & _); try lia. { eapply A; left; reflexivity. }
  rewrite I. cbn. unfold store_item. destruct (set_nth_Some _ i v l) as [l1 E]; try lia. rewrite E. cbn.
  apply IH. { rewrite (set_nth_length _ _ _ _ _ E). exact L. } intros; eapply A; right; eauto.
Qed.
Lemma write_names_bad : forall names d l, List.length l = List.length names -> (exists n v, In (n, v) d /\ ~ In n names) ->
  write_names names l d = Err ValueError.
Proof.
  induction d as [| [n v] d IH]; intros l L (m & u & I & N); cbn; [contradiction |].
  destruct (in_dec (fun a b => match Bool.bool_dec (pname_eqb a b) true with left e => left (proj1 (pname_eqb_eq a b) e) | right e => right (fun E => e (proj2 (pname_eqb_eq a b) E)) end) n names) as [Y | Y].
  - destruct (index_value names l n) as (i & v' & J & Li & _); try lia; auto.
    rewrite J. cbn. unfold store_item. destruct (set_nth_Some _ i v l) as [l1 E]; try lia. rewrite E. cbn.
    apply IH. { rewrite (set_nth_length _ _ _ _ _ E). exact L. }
    destruct I as [I | I]; [inversion I; subst; contradiction |]. eauto.
  - rewrite index_missing by assumption. reflexivity.
Qed.
Lemma write_names_value : forall names d l l', NoDup (map fst d) -> write_names names l d = Ok l' ->
  forall m, value_at names l' m = match attribute d m with Ok v => Some v | Err _ => value_at names l m end.
Proof.
  induction d as [| [n v] d IH]; intros l l' D H m; cbn in H.
  - inversion H; subst. reflexivity.
  - destruct (index_of n names) as [i |] eqn:I; try discriminate. cbn in H. unfold store_item in H.
    destruct (set_nth i v l) as [l1 |] eqn:E; try discriminate. cbn in H. inversion D as [| ? ? N D']; subst.
    rewrite (IH l1 l' D' H m). cbn. rewrite (value_set names l n i v l1 m I E).
    destruct (pname_eqb n m) eqn:K; [| reflexivity].
    apply pname_eqb_eq in K; subst m.
    replace (attribute d n) with (@Err pval AttributeError); auto.
    clear - N. induction d as [| [k u] d IH]; cbn in *; auto. rewrite pname_eqb_neq by (intro; subst; tauto). apply IH; tauto.
Qed.

(** ** Steps *)
Lemma run_snoc : forall h e, run (h ++ [e]) = step (run h) e.
Proof. intros. unfold run. now rewrite fold_left_app. Qed.
Lemma run_app : forall h l, run (h ++ l) = fold_left step l (run h).
Proof. intros. unfold run. now rewrite fold_left_app. Qed.

Lemma part_at_Ok : forall w k p, part_at w k = Ok p <-> nth_error (w_parts w) k = Some p.
Proof. intros. unfold part_at. destruct (nth_error (w_parts w) k); cbn; split; intro H; try discriminate; now inversion H. Qed.
Lemma list_at_Ok : forall w k p, list_at w k = Ok p <-> nth_error (w_lists w) k = Some p.
Proof. intros. unfold list_at. destruct (nth_error (w_lists w) k); cbn; split; intro H; try discriminate; now inversion H. Qed.
Lemma put_part_lists : forall w k p, w_lists (put_part w k p) = w_lists w.
Proof. intros. unfold put_part. now destruct (set_nth k p (w_parts w)). Qed.
Lemma put_list_parts : forall w k p, w_parts (put_list w k p) = w_parts w.
Proof. intros. unfold put_list. now destruct (set_nth k p (w_lists w)). Qed.
Lemma put_part_length : forall w k p, List.length (w_parts (put_part w k p)) = List.length (w_parts w).
Proof. intros. unfold put_part. destruct (set_nth k p (w_parts w)) eqn:E; auto. cbn. eapply set_nth_length; eauto. Qed.
Lemma put_part_same : forall w k p q, nth_error (w_parts w) k = Some q -> nth_error (w_parts (put_part w k p)) k = Some p.
Proof.
  intros w k p q H. unfold put_part. destruct (set_nth_Some _ k p (w_parts w)) as [l E]. { eapply nth_error_lt; eauto. }
  rewrite E. cbn. eapply set_nth_same; eauto.
Qed.
Lemma put_part_other : forall w k p j, j <> k -> nth_error (w_parts (put_part w k p)) j = nth_error (w_parts w) j.
Proof. intros w k p j N. unfold put_part. destruct (set_nth k p (w_parts w)) eqn:E; auto. cbn. eapply set_nth_other; eauto. Qed.
Lemma put_list_same : forall w k p q, nth_error (w_lists w) k = Some q -> nth_error (w_lists (put_list w k p)) k = Some p.
Proof.
  intros w k p q H. unfold put_list. destruct (set_nth_Some _ k p (w_lists w)) as [l E]. { eapply nth_error_lt; eauto. }
  rewrite E. cbn. eapply set_nth_same; eauto.
Qed.
Lemma put_list_other : forall w k p j, j <> k -> nth_error (w_lists (put_list w k p)) j = nth_error (w_lists w) j.
Proof. intros w k p j N. unfold put_list. destruct (set_nth k p (w_lists w)) eqn:E; auto. cbn. eapply set_nth_other; eauto. Qed.

(* what a successful constructor leaves *)
Lemma make_inv : forall w c how w', make w c how = Ok w' ->
  exists a mine attrs values n f,
    w' = mkW (w_lists w ++ [mine]) (w_parts w ++ [mkPart c a attrs n f]) /\
    nth_error (w_lists w') a = Some values /\
    List.length mine = List.length (names_of c) /\
    first_filter c attrs = Ok f /\ first_noise c attrs values = Ok n /\
    attrs = (if attrs_last c then set_attrs (names_of c) values (if attrs_first c then set_attrs (names_of c) (sp_def (spec_of c)) [] else [])
             else if attrs_first c then set_attrs (names_of c) (sp_def (spec_of c)) [] else []) /\
    ((a = List.length (w_lists w) /\ values = mine) \/
     (exists b, how = FromList b /\ a = b /\ nth_error (w_lists w) b = Some values)) /\
    match how with
    | Plain => mine = sp_def (spec_of c) /\ a = List.length (w_lists w)
    | FromList b => mine = sp_def (spec_of c)
    | FromNames d => a = List.length (w_lists w) /\ write_names (names_of c) (sp_def (spec_of c)) d = Ok mine
    end.
Proof.
  intros w c how w' H. unfold make in H. cbv zeta in H.
  set (first := if attrs_first c then set_attrs (names_of c) (sp_def (spec_of c)) [] else []) in *.
  set (choice := match c with TerminalSource | TerminalSink => _ | _ => _ end) in H.
  assert (K : forall a mine values, choice = Ok (a, mine, values) ->
    List.length mine = List.length (names_of c) /\
    ((a = List.length (w_lists w) /\ values = mine) \/ (exists b, how = FromList b /\ a = b /\ nth_error (w_lists w) b = Some values)) /\
    match how with
    | Plain => mine = sp_def (spec_of c) /\ a = List.length (w_lists w)
    | FromList b => mine = sp_def (spec_of c)
    | FromNames d => a = List.length (w_lists w) /\ write_names (names_of c) (sp_def (spec_of c)) d = Ok mine
    end).
  { intros a mine values E.
    assert (E' : match how with
                 | Plain => Ok (List.length (w_lists w), sp_def (spec_of c), sp_def (spec_of c))
                 | FromList a => do l <- list_at w a; Ok (a, sp_def (spec_of c), l)
                 | FromNames d => do l <- write_names (names_of c) (sp_def (spec_of c)) d; Ok (List.length (w_lists w), l, l)
                 end = Ok (a, mine, values)
               \/ (how = Plain \/ (exists b, how = FromList b) \/ how = FromNames []) /\
                  a = List.length (w_lists w) /\ mine = sp_def (spec_of c) /\ values = sp_def (spec_of c)).
    { subst choice. destruct c; try (left; exact E); right;
        (destruct how as [| b | [| ? ?]]; [| | | discriminate]); inversion E; subst; cbn; eauto 8. }
    destruct E' as [E' | (A & -> & -> & ->)].
    - destruct how as [| b | d].
      + inversion E'; subst. rewrite defaults_length. auto.
      + destruct (list_at w b) as [l |] eqn:L; try discriminate. cbn in E'. inversion E'; subst. rewrite defaults_length.
        apply list_at_Ok in L. split; auto. split; auto. right. eauto.
      + destruct (write_names (names_of c) (sp_def (spec_of c)) d) as [l |] eqn:L; try discriminate. cbn in E'. inversion E'; subst.
        rewrite (write_names_length _ _ _ _ L), defaults_length. auto.
    - rewrite defaults_length. split; auto. split; auto. destruct A as [-> | [[b ->] | ->]]; auto. }
  destruct choice as [[[a mine] values] |] eqn:E; [| discriminate].
  destruct (K _ _ _ eq_refl) as (K1 & K2 & K3). clear K E. cbn [bind] in H.
  destruct (first_filter c _) as [f |] eqn:F; [| discriminate]. cbn [bind] in H.
  destruct (first_noise c _ values) as [n |] eqn:N; [| discriminate]. cbn [bind] in H.
  inversion H; subst w'. exists a, mine, (if attrs_last c then set_attrs (names_of c) values first else first), values, n, f.
  split; auto. cbn [w_lists w_parts]. split.
  { destruct K2 as [[-> ->] | (b & -> & -> & B)].
    - rewrite nth_error_app2, Nat.sub_diag by lia. reflexivity.
    - rewrite nth_error_app1; auto. eapply nth_error_lt; eauto. }
  repeat split; auto.
Qed.

(* an event that does not give component k a list leaves it as it was, up to refreshed attributes *)
Definition same_part (p q : part) : Prop :=
  p_cls q = p_cls p /\ p_list q = p_list p /\ p_noise q = p_noise p /\ p_filter q = p_filter p /\
  (attrs_refreshed (p_cls p) = false -> p_attrs q = p_attrs p).
Lemma same_part_refl : forall p, same_part p p.
Proof. unfold same_part; auto. Qed.
Lemma step_part : forall w e k p, nth_error (w_parts w) k = Some p -> ~ gives w e k ->
  exists q, nth_error (w_parts (step w e)) k = Some q /\ same_part p q.
Proof.
  intros w e k p H G. pose proof (nth_error_lt _ _ _ _ H) as L.
  destruct e as [l | c how | j a | j n v | a i v | j]; cbn [step gives] in *.
  - exists p. split; auto using same_part_refl.
  - destruct (make w c how) as [w' |] eqn:M; cbn; [| eauto using same_part_refl].
    apply make_inv in M as (a & mine & attrs & values & n & f & -> & _). cbn.
    exists p. split; [| apply same_part_refl]. rewrite nth_error_app1; auto.
  - unfold assign. destruct (part_at w j), (list_at w a); cbn; eauto using same_part_refl.
    destruct (new_noise _ _ _ _); cbn; rewrite put_part_other by congruence; eauto using same_part_refl.
  - unfold set_by_name, write. destruct (part_at w j) as [q |]; cbn; eauto using same_part_refl.
    destruct (index_of n _) as [i |]; cbn; eauto using same_part_refl.
    destruct (list_at w (p_list q)) as [l |]; cbn; eauto using same_part_refl.
    unfold store_item. destruct (set_nth i v l); cbn; eauto using same_part_refl.
    rewrite put_list_parts. eauto using same_part_refl.
  - unfold write. destruct (list_at w a) as [l |]; cbn; eauto using same_part_refl.
    unfold store_item. destruct (set_nth i v l); cbn; eauto using same_part_refl.
    rewrite put_list_parts. eauto using same_part_refl.
  - unfold simulate. destruct (part_at w j) as [q |] eqn:Q; cbn; eauto using same_part_refl.
    destruct (list_at w (p_list q)) as [l |]; cbn; eauto using same_part_refl.
    destruct (Nat.eq_dec k j) as [-> | N].
    + apply part_at_Ok in Q. rewrite H in Q. inversion Q; subst q. erewrite put_part_same by eauto.
      eexists. split; eauto. unfold same_part; cbn. repeat split; auto. intro E. now rewrite E.
    + rewrite put_part_other by auto. eauto using same_part_refl.
Qed.
Lemma same_part_trans : forall p q r, same_part p q -> same_part q r -> same_part p r.
Proof.
  unfold same_part. intros p q r (A & B & C & D & E) (A' & B' & C' & D' & E').
  repeat split; try congruence. intro F. rewrite E', E; congruence.
Qed.

Lemma later_part : forall late h0 k p, nth_error (w_parts (run h0)) k = Some p ->
  (forall mid e' rest, late = mid ++ e' :: rest -> ~ gives (run (h0 ++ mid)) e' k) ->
  exists q, nth_error (w_parts (run (h0 ++ late))) k = Some q /\ same_part p q.
Proof.
  induction late as [| e late IH] using rev_ind; intros h0 k p H N.
  - rewrite app_nil_r. eauto using same_part_refl.
  - destruct (IH h0 k p H) as (q & Q & S).
    { intros mid e' rest E. apply (N mid e' (rest ++ [e])). rewrite E, <- app_assoc. reflexivity. }
    rewrite app_assoc, run_snoc.
    destruct (step_part (run (h0 ++ late)) e k q Q) as (r & R & S').
    { apply (N late e []). reflexivity. }
    exists r. split; auto. eapply same_part_trans; eauto.
Qed.

(* class and filter never change; the noise of a pulsed laser neither *)
Lemma assign_inv : forall w k a p values, nth_error (w_parts w) k = Some p -> nth_error (w_lists w) a = Some values ->
  let attrs := set_attrs (names_of (p_cls p)) values (p_attrs p) in
  exists n, fst (assign w k a) = put_part w k (mkPart (p_cls p) a attrs n (p_filter p)) /\
    (new_noise (p_cls p) attrs values (p_noise p) = Ok n \/
     (exists e, new_noise (p_cls p) attrs values (p_noise p) = Err e) /\ n = p_noise p).
Proof.
  intros w k a p values H L attrs. unfold assign. rewrite (proj2 (part_at_Ok _ _ _) H), (proj2 (list_at_Ok _ _ _) L). fold attrs.
  destruct (new_noise (p_cls p) attrs values (p_noise p)) as [n | e] eqn:N; eexists; cbn; split; eauto.
Qed.
Lemma assign_nothing : forall w k a, (nth_error (w_parts w) k = None \/ nth_error (w_lists w) a = None) -> fst (assign w k a) = w.
Proof.
  intros w k a H. unfold assign, part_at, list_at. destruct (nth_error (w_parts w) k); cbn; auto.
  destruct (nth_error (w_lists w) a); cbn; auto. destruct H; discriminate.
Qed.

Lemma step_kind : forall w e k p, nth_error (w_parts w) k = Some p ->
  exists q, nth_error (w_parts (step w e)) k = Some q /\ p_cls q = p_cls p /\ p_filter q = p_filter p /\
    (match p_cls p with ContinuousWaveLaser | Photodiode | PhaseModulator => False | _ => True end -> p_noise q = p_noise p).
Proof.
  intros w e k p H.
  assert (D : gives w e k \/ ~ gives w e k).
  { destruct e; cbn; auto using Nat.eq_dec; match goal with |- ?a = ?b \/ _ => destruct (Nat.eq_dec a b); auto end. }
  destruct D as [G | G].
  - destruct e as [l | c how | j a | j n v | a i v | j]; cbn in G; try contradiction.
    + pose proof (nth_error_lt _ _ _ _ H). lia.
    + subst j. cbn [step].
      destruct (nth_error (w_lists w) a) as [values |] eqn:L.
      * destruct (assign_inv w k a p values H L) as (n & E & N). rewrite E. erewrite put_part_same by eauto.
        eexists. split; eauto. cbn. repeat split; auto. intro T.
        destruct N as [N | [_ N]]; auto. destruct (p_cls p); cbn in N; try contradiction; now inversion N.
      * rewrite assign_nothing by auto. eauto.
  - destruct (step_part w e k p H G) as (q & Q & A & B & C & D & E). exists q. auto.
Qed.
Lemma later_kind : forall late h0 k p, nth_error (w_parts (run h0)) k = Some p ->
  exists q, nth_error (w_parts (run (h0 ++ late))) k = Some q /\ p_cls q = p_cls p /\ p_filter q = p_filter p /\
    (match p_cls p with ContinuousWaveLaser | Photodiode | PhaseModulator => False | _ => True end -> p_noise q = p_noise p).
Proof.
  induction late as [| e late IH] using rev_ind; intros h0 k p H.
  - rewrite app_nil_r. eauto.
  - destruct (IH h0 k p H) as (q & Q & A & B & C). rewrite app_assoc, run_snoc.
    destruct (step_kind (run (h0 ++ late)) e k q Q) as (r & R & A' & B' & C').
    exists r. repeat split; try congruence. intro T. rewrite C', C; auto. now rewrite A.
Qed.

(** ** Lists keep their length, and components have lists that fit *)
Lemma step_list : forall w e a l, nth_error (w_lists w) a = Some l ->
  exists l', nth_error (w_lists (step w e)) a = Some l' /\ List.length l' = List.length l.
Proof.
  intros w e a l H. pose proof (nth_error_lt _ _ _ _ H) as L.
  assert (W : forall b i v, exists l', nth_error (w_lists (or_same w (write w b i v))) a = Some l' /\ List.length l' = List.length l).
  { intros b i v. unfold write. destruct (list_at w b) as [m |] eqn:M; cbn; eauto.
    unfold store_item. destruct (set_nth i v m) as [m' |] eqn:E; cbn; eauto.
    apply list_at_Ok in M. destruct (Nat.eq_dec a b) as [-> | N].
    - rewrite H in M; inversion M; subst m. erewrite put_list_same by eauto. eexists; split; eauto. eapply set_nth_length; eauto.
    - rewrite put_list_other by auto. eauto. }
  destruct e as [m | c how | j b | j n v | b i v | j]; cbn [step].
  - exists l. cbn. rewrite nth_error_app1; auto.
  - destruct (make w c how) as [w' |] eqn:M; cbn; eauto.
    apply make_inv in M as (b & mine & attrs & values & n & f & -> & _). cbn. exists l. rewrite nth_error_app1; auto.
  - unfold assign. destruct (part_at w j), (list_at w b); cbn; eauto.
    destruct (new_noise _ _ _ _); cbn; rewrite put_part_lists; eauto.
  - unfold set_by_name. destruct (part_at w j) as [q |]; cbn; eauto.
    destruct (index_of n _) as [i |]; cbn [bind]; [apply W | cbn; eauto].
  - apply W.
  - unfold simulate. destruct (part_at w j) as [q |]; cbn; eauto.
    destruct (list_at w (p_list q)); cbn; eauto. rewrite put_part_lists. eauto.
Qed.

Definition good (w : world) : Prop := forall k p, nth_error (w_parts w) k = Some p ->
  exists values, nth_error (w_lists w) (p_list p) = Some values /\
    List.length values = List.length (names_of (p_cls p)) /\
    (p_cls p = Photodiode -> forall n, In n (names_of Photodiode) -> exists v, attribute (p_attrs p) n = Ok v).
Lemma fitting_prefix : forall h l, fitting (h ++ l) -> fitting h.
Proof. intros h l F early e late E. apply (F early e (late ++ l)). rewrite E, <- app_assoc. reflexivity. Qed.

(* what holds of a component right after it got a list that fits *)
Lemma make_given : forall w c how, fits w (Make c how) -> forall w', make w c how = Ok w' ->
  exists p values, nth_error (w_parts w') (List.length (w_parts w)) = Some p /\ p_cls p = c /\
    nth_error (w_lists w') (p_list p) = Some values /\ List.length values = List.length (names_of c) /\
    (c = Photodiode -> forall n, In n (names_of c) -> exists v, attribute (p_attrs p) n = Ok v /\ value_at (names_of c) values n = Some v) /\
    first_filter c (p_attrs p) = Ok (p_filter p) /\ first_noise c (p_attrs p) values = Ok (p_noise p) /\
    (attrs_last c = true -> forall n, In n (names_of c) -> exists v, attribute (p_attrs p) n = Ok v /\ value_at (names_of c) values n = Some v).
Proof.
  intros w c how F w' M. apply make_inv in M as (a & mine & attrs & values & n & f & -> & L & K & Fi & No & At & Ch & _).
  cbn [w_parts w_lists] in *. exists (mkPart c a attrs n f), values. cbn [p_cls p_list p_attrs p_noise p_filter].
  rewrite nth_error_app2, Nat.sub_diag by lia.
  assert (V : List.length values = List.length (names_of c)).
  { destruct Ch as [[_ ->] | (b & -> & -> & B)]; auto. cbn in F. destruct F as (l & B' & F). rewrite B in B'. inversion B'; subst. exact F. }
  assert (A : attrs_last c = true -> forall n, In n (names_of c) -> exists v, attribute attrs n = Ok v /\ value_at (names_of c) values n = Some v).
  { intros T m I. rewrite T in At. subst attrs. apply attribute_now; auto using names_distinct. lia. }
  repeat split; auto. intros ->. apply A. reflexivity.
Qed.
Lemma assign_given : forall w k a, fits w (Assign k a) ->
  exists p values, nth_error (w_parts (step w (Assign k a))) k = Some p /\
    nth_error (w_lists (step w (Assign k a))) (p_list p) = Some values /\ List.length values = List.length (names_of (p_cls p)) /\
    (exists old, new_noise (p_cls p) (p_attrs p) values old = Ok (p_noise p)) /\
    (forall n, In n (names_of (p_cls p)) -> exists v, attribute (p_attrs p) n = Ok v /\ value_at (names_of (p_cls p)) values n = Some v).
Proof.
  intros w k a (p & values & H & L & E). cbn [step].
  destruct (assign_inv w k a p values H L) as (n & S & N). rewrite S.
  set (attrs := set_attrs (names_of (p_cls p)) values (p_attrs p)) in *.
  exists (mkPart (p_cls p) a attrs n (p_filter p)), values. erewrite put_part_same by eauto. rewrite put_part_lists.
  cbn [p_cls p_list p_attrs p_noise p_filter].
  assert (A : forall n, In n (names_of (p_cls p)) -> exists v, attribute attrs n = Ok v /\ value_at (names_of (p_cls p)) values n = Some v).
  { intros m I. apply attribute_now; auto using names_distinct. lia. }
  split; auto. split; auto. split; auto. split; auto.
  destruct N as [N | [[e N] _]]; eauto. exfalso.
  destruct (p_cls p); cbn [new_noise] in N; try discriminate;
    repeat match type of N with
    | context [attribute attrs ?m] => let X := fresh in destruct (A m) as (? & X & _); [cbn; tauto |]; rewrite X in N; cbn [bind] in N
    end; try discriminate.
  cbn in E. destruct values as [| ? [| ? [| ? [| ? ?]]]]; cbn in E, N; discriminate || lia.
Qed.

Lemma run_good : forall h, fitting h -> good (run h).
Proof.
  induction h as [| e h IH] using rev_ind; intros F.
  - intros [| k] p H; discriminate.
  - pose proof (IH (fitting_prefix _ _ F)) as G. assert (Fe : fits (run h) e) by (apply (F h e []); reflexivity).
    rewrite run_snoc. intros k q Q.
    assert (D : gives (run h) e k \/ ~ gives (run h) e k).
    { destruct e; cbn; auto using Nat.eq_dec; match goal with |- ?a = ?b \/ _ => destruct (Nat.eq_dec a b); auto end. }
    destruct D as [D | D].
    + destruct e as [l | c how | j a | j n v | a i v | j]; cbn in D; try contradiction.
      * cbn [step] in Q |- *. destruct (make (run h) c how) as [w' |] eqn:M; cbn [or_same] in Q |- *.
        -- destruct (make_given _ _ _ Fe _ M) as (p & values & P & C & L & V & A & _). subst k. rewrite P in Q. inversion Q; subst q.
           exists values. split; [exact L |]. split; [now rewrite C |]. rewrite C. intros -> n I. destruct (A eq_refl n I) as (v & X & _). eauto.
        -- pose proof (nth_error_lt _ _ _ _ Q). lia.
      * subst j. destruct (assign_given _ _ _ Fe) as (p & values & P & L & V & _ & A). rewrite P in Q. inversion Q; subst q.
        exists values. split; auto. split; auto. intros C n I. rewrite <- C in I. destruct (A n I) as (v & X & _). eauto.
    + destruct (nth_error (w_parts (run h)) k) as [p |] eqn:P.
      * destruct (step_part _ _ _ _ P D) as (q' & Q' & S). rewrite Q in Q'. inversion Q'; subst q'.
        destruct S as (A & B & _ & _ & E). destruct (G k p P) as (values & L & V & W).
        destruct (step_list _ e _ _ L) as (l' & L' & V').
        exists l'. rewrite B, A. split; auto. split; [congruence |]. intros C n I. rewrite E; auto. rewrite C. reflexivity.
      * exfalso. apply nth_error_None in P. pose proof (nth_error_lt _ _ _ _ Q) as LQ.
        assert (LL : List.length (w_parts (step (run h) e)) <= List.length (w_parts (run h)) \/ exists c how, e = Make c how).
        { destruct e as [l | c how | j a | j n v | a i v | j]; eauto; left; cbn [step].
          - unfold assign. destruct (part_at (run h) j); [| apply le_n]. destruct (list_at (run h) a); [| apply le_n]. match goal with |- context [new_noise ?x ?y ?z ?u] => destruct (new_noise x y z u) end; cbn [fst]; rewrite put_part_length; apply le_n.
          - unfold set_by_name, write. destruct (part_at (run h) j) as [p' |]; cbn [bind or_same fst]; try apply le_n. match goal with |- context [index_of ?x ?y] => destruct (index_of x y) end; cbn [bind or_same fst]; try apply le_n.
            match goal with |- context [list_at ?w ?b] => destruct (list_at w b) end; cbn [bind or_same fst]; try apply le_n. match goal with |- context [store_item ?x ?y ?z] => destruct (store_item x y z) end; cbn [bind or_same fst]; try apply le_n. rewrite put_list_parts. apply le_n.
          - unfold write. match goal with |- context [list_at ?w ?b] => destruct (list_at w b) end; cbn [bind or_same fst]; try apply le_n. match goal with |- context [store_item ?x ?y ?z] => destruct (store_item x y z) end; cbn [bind or_same fst]; try apply le_n. rewrite put_list_parts. apply le_n.
          - unfold simulate. destruct (part_at (run h) j) as [p' |]; cbn [bind or_same fst]; try apply le_n. match goal with |- context [list_at ?w ?b] => destruct (list_at w b) end; cbn [bind or_same fst]; try apply le_n. rewrite put_part_length. apply le_n. }
        destruct LL as [LL | (c & how & ->)]; [lia |]. cbn in D. cbn [step] in LQ.
        destruct (make (run h) c how) as [w' |] eqn:M; cbn [or_same] in LQ; [| lia].
        apply make_inv in M as (a & mine & attrs & values & n & f & -> & _). cbn in LQ. rewrite app_length in LQ. cbn in LQ. lia.
Qed.

(** ** What a simulation reads *)
Lemma map_attributes : forall attrs names values ns,
  (forall n, In n ns -> exists v, attribute attrs n = Ok v /\ value_at names values n = Some v) ->
  exists f, map_res (attribute attrs) ns = Ok f /\ map Some f = map (value_at names values) ns.
Proof.
  induction ns as [| n ns IH]; intro A; cbn.
  - exists []. auto.
  - destruct (A n) as (v & X & Y); [now left |]. destruct IH as (f & F & M). { intros m I. apply A. now right. }
    exists (v :: f). rewrite X, F. cbn. rewrite Y, M. auto.
Qed.
Lemma value_all : forall names values, NoDup names -> List.length values = List.length names ->
  map Some values = map (value_at names values) names.
Proof.
  induction names as [| n names IH]; intros [| v values] D L; cbn in *; try lia; auto.
  inversion D; subst. rewrite pname_eqb_refl. f_equal. rewrite IH by (auto; lia).
  apply map_ext_in. intros m I. rewrite pname_eqb_neq; auto. intro; subst; contradiction.
Qed.
Lemma reads_current : forall c attrs values, c <> Photodiode -> List.length values = List.length (names_of c) ->
  (attrs_refreshed c = true -> forall n, In n (names_of c) -> exists v, attribute attrs n = Ok v /\ value_at (names_of c) values n = Some v) ->
  exists f, reads c attrs values = Ok f /\ shaped_by c values f.
Proof.
  intros c attrs values NP L A. unfold shaped_by.
  destruct c; try congruence; cbn [reads uses];
    try (apply map_attributes; intros n I; apply A; [reflexivity | cbn in I |- *; tauto]);
    try (exists values; split; [reflexivity | apply value_all; [apply names_distinct | exact L]]);
    try (exists []; split; reflexivity);
    cbn in L; repeat (destruct values as [| ? values]; cbn in L; try lia); eexists; split; reflexivity.
Qed.

Lemma simulate_ok : forall w k p values, nth_error (w_parts w) k = Some p -> nth_error (w_lists w) (p_list p) = Some values ->
  snd (simulate w k) =
  (let attrs := if attrs_refreshed (p_cls p) then set_attrs (names_of (p_cls p)) values (p_attrs p) else p_attrs p in
   do field <- reads (p_cls p) attrs values; Ok (mkSeen field (p_filter p) (p_noise p))).
Proof. intros w k p values H L. unfold simulate. rewrite (proj2 (part_at_Ok _ _ _) H), (proj2 (list_at_Ok _ _ _) L). reflexivity. Qed.
Lemma parameters_ok : forall w k p values, nth_error (w_parts w) k = Some p -> nth_error (w_lists w) (p_list p) = Some values -> parameters w k = Ok values.
Proof. intros w k p values H L. unfold parameters. rewrite (proj2 (part_at_Ok _ _ _) H). cbn. now apply list_at_Ok. Qed.

(* a simulation of a part with a list that fits succeeds; the filter and noise are the part's *)
Lemma simulate_good : forall w k p, good w -> nth_error (w_parts w) k = Some p ->
  exists s values, snd (simulate w k) = Ok s /\ parameters w k = Ok values /\ List.length values = List.length (names_of (p_cls p)) /\
    seen_filter s = p_filter p /\ seen_noise s = p_noise p /\
    (p_cls p <> Photodiode -> shaped_by (p_cls p) values (seen_field s)) /\
    (p_cls p = Photodiode -> map_res (attribute (p_attrs p)) (uses Photodiode) = Ok (seen_field s)).
Proof.
  intros w k p G H. destruct (G k p H) as (values & L & V & A).
  rewrite (simulate_ok w k p values H L). cbv zeta.
  destruct (cls_eq_dec (p_cls p) Photodiode) as [E | E].
  - destruct (map_attributes (p_attrs p) (names_of Photodiode) (map (fun n => match attribute (p_attrs p) n with Ok v => v | Err _ => sNone end) (names_of Photodiode)) (uses Photodiode)) as (f & F & _).
    { intros n I. assert (In n (names_of Photodiode)) by (cbn in I |- *; tauto).
      destruct (A E n H0) as (v & X). exists v. split; auto.
      cbn in I. destruct I as [<- | [<- | [<- | []]]]; cbn; now rewrite X. }
    rewrite E. cbn [attrs_refreshed reads]. change (map Text ["responsivity"%string; "max_photocurrent"%string; "load_resistance"%string]) with (uses Photodiode).
    rewrite F. cbn [bind]. eexists; exists values. split; [reflexivity |].
    split; [eapply parameters_ok; eauto |]. rewrite <- E at 1. split; [exact V |]. cbn. repeat split; auto. congruence.
  - destruct (reads_current (p_cls p) (if attrs_refreshed (p_cls p) then set_attrs (names_of (p_cls p)) values (p_attrs p) else p_attrs p) values E V) as (f & F & S).
    { intros T n I. rewrite T. apply attribute_now; auto using names_distinct. lia. }
    rewrite F. cbn [bind]. eexists; exists values. split; [reflexivity |].
    split; [eapply parameters_ok; eauto |]. split; [exact V |]. cbn. repeat split; auto. congruence.
Qed.

(* the part as it was when it last got a list, and as it is now *)
Lemma given_part : forall h k h0, fitting h -> last_given h k h0 ->
  exists p q values, nth_error (w_parts (run h0)) k = Some p /\ nth_error (w_parts (run h)) k = Some q /\ same_part p q /\
    parameters (run h0) k = Ok values /\ List.length values = List.length (names_of (p_cls p)) /\
    (p_cls p = Photodiode -> forall n, In n (names_of Photodiode) -> exists v, attribute (p_attrs p) n = Ok v /\ value_at (names_of Photodiode) values n = Some v) /\
    (match p_cls p with ContinuousWaveLaser | PhaseModulator | Photodiode => True | _ => False end -> noisy_by (p_cls p) values (p_noise p)).
Proof.
  intros h k h0 F (early & e & late & E0 & E & G & L & N). subst h0 h.
  assert (F0 : fitting (early ++ [e])) by (eapply fitting_prefix; eauto).
  assert (Fe : fits (run early) e) by (apply (F0 early e []); reflexivity).
  assert (X : exists p values old, nth_error (w_parts (run (early ++ [e]))) k = Some p /\
    nth_error (w_lists (run (early ++ [e]))) (p_list p) = Some values /\ List.length values = List.length (names_of (p_cls p)) /\
    (match p_cls p with ContinuousWaveLaser | PhaseModulator | Photodiode => True | _ => False end -> new_noise (p_cls p) (p_attrs p) values old = Ok (p_noise p)) /\
    (attrs_last (p_cls p) = true -> forall n, In n (names_of (p_cls p)) -> exists v, attribute (p_attrs p) n = Ok v /\ value_at (names_of (p_cls p)) values n = Some v)).
  { rewrite run_snoc in *. destruct e as [l | c how | j a | j n v | a i v | j]; cbn in G; try contradiction.
    - cbn [step] in *. destruct (make (run early) c how) as [w' |] eqn:M; cbn [or_same] in *; [| lia].
      destruct (make_given _ _ _ Fe _ M) as (p & values & P & C & Li & V & _ & _ & No & A). subst k.
      exists p, values, None. rewrite C. repeat split; auto. intro T. destruct c; cbn in T; try contradiction; exact No.
    - subst j. destruct (assign_given _ _ _ Fe) as (p & values & P & Li & V & (old & No) & A).
      exists p, values, old. auto. }
  destruct X as (p & values & old & P & Li & V & No & A).
  destruct (later_part late (early ++ [e]) k p P N) as (q & Q & S).
  exists p, q, values. split; auto. split; auto. split; auto. split; [eapply parameters_ok; eauto |]. split; auto. split.
  - intros C n I. rewrite C in A. apply A; auto.
  - intro T. specialize (No T). unfold noisy_by.
    destruct (p_cls p) eqn:C; try contradiction; cbn [new_noise] in No; cbn [attrs_last] in A;
      repeat match type of No with
      | context [attribute (p_attrs p) ?m] =>
          let Y := fresh in let Z := fresh in destruct (A eq_refl m) as (? & Y & Z); [cbn; tauto |]; rewrite Y in No; cbn [bind] in No
      end.
    + inversion No. eexists; split; [reflexivity |]. cbn [noise_names map src_kind src_values fst snd].
      repeat match goal with H : value_at _ _ _ = Some _ |- _ => rewrite H; clear H end. reflexivity.
    + inversion No. eexists; split; [reflexivity |]. cbn [noise_names map src_kind src_values fst snd].
      repeat match goal with H : value_at _ _ _ = Some _ |- _ => rewrite H end. reflexivity.
    + cbn in V. do 4 (destruct values as [| ? values]; cbn in V; try lia). cbn in No. inversion No. eexists; split; reflexivity.
Qed.

(** ** Making *)
Lemma full_noise : forall c attrs values, List.length values = List.length (names_of c) ->
  (attrs_last c = true -> forall n, In n (names_of c) -> exists v, attribute attrs n = Ok v) ->
  (exists f, first_filter c attrs = Ok f) /\ (exists n, first_noise c attrs values = Ok n).
Proof.
  intros c attrs values L A.
  destruct c; cbn [first_filter first_noise new_noise attrs_last] in *; (split; [| idtac]);
    repeat match goal with
    | |- context [attribute attrs ?m] => let X := fresh in destruct (A eq_refl m) as (? & X); [cbn; tauto |]; rewrite X; cbn [bind]
    end; eauto.
  cbn in L. do 4 (destruct values as [| ? values]; cbn in L; try lia). cbn. eauto.
Qed.
Lemma make_full : forall w c how a mine values, ~ terminal c ->
  match how with
  | Plain => a = List.length (w_lists w) /\ mine = sp_def (spec_of c) /\ values = mine
  | FromList b => a = b /\ mine = sp_def (spec_of c) /\ nth_error (w_lists w) b = Some values
  | FromNames d => a = List.length (w_lists w) /\ write_names (names_of c) (sp_def (spec_of c)) d = Ok mine /\ values = mine
  end ->
  make w c how =
  (let attrs := if attrs_first c then set_attrs (names_of c) (sp_def (spec_of c)) [] else [] in
   let attrs := if attrs_last c then set_attrs (names_of c) values attrs else attrs in
   do f <- first_filter c attrs;
   do n <- first_noise c attrs values;
   Ok (mkW (w_lists w ++ [mine]) (w_parts w ++ [mkPart c a attrs n f]))).
Proof.
  intros w c how a mine values T H. unfold make. cbv zeta.
  assert (E : match c with
    | TerminalSource | TerminalSink => match how with FromNames (_ :: _) => Err AttributeError | _ => Ok (List.length (w_lists w), sp_def (spec_of c), sp_def (spec_of c)) end
    | _ => match how with
        | Plain => Ok (List.length (w_lists w), sp_def (spec_of c), sp_def (spec_of c))
        | FromList a => do l <- list_at w a; Ok (a, sp_def (spec_of c), l)
        | FromNames d => do l <- write_names (names_of c) (sp_def (spec_of c)) d; Ok (List.length (w_lists w), l, l)
        end
    end = Ok (a, mine, values)).
  { assert (E : match how with
        | Plain => Ok (List.length (w_lists w), sp_def (spec_of c), sp_def (spec_of c))
        | FromList a => do l <- list_at w a; Ok (a, sp_def (spec_of c), l)
        | FromNames d => do l <- write_names (names_of c) (sp_def (spec_of c)) d; Ok (List.length (w_lists w), l, l)
        end = Ok (a, mine, values)).
    { destruct how as [| b | d].
      - destruct H as (-> & -> & ->). reflexivity.
      - destruct H as (-> & -> & H). rewrite (proj2 (list_at_Ok _ _ _) H). reflexivity.
      - destruct H as (-> & H & ->). rewrite H. reflexivity. }
    destruct c; try exact E; contradiction T; exact I. }
  rewrite E. reflexivity.
Qed.
Lemma make_total : forall w c how a mine values, ~ terminal c -> List.length values = List.length (names_of c) ->
  match how with
  | Plain => a = List.length (w_lists w) /\ mine = sp_def (spec_of c) /\ values = mine
  | FromList b => a = b /\ mine = sp_def (spec_of c) /\ nth_error (w_lists w) b = Some values
  | FromNames d => a = List.length (w_lists w) /\ write_names (names_of c) (sp_def (spec_of c)) d = Ok mine /\ values = mine
  end ->
  exists w', make w c how = Ok w' /\ parameters w' (List.length (w_parts w)) = Ok values.
Proof.
  intros w c how a mine values T L H. rewrite (make_full w c how a mine values T H). cbv zeta.
  set (first := if attrs_first c then set_attrs (names_of c) (sp_def (spec_of c)) [] else []).
  destruct (full_noise c (if attrs_last c then set_attrs (names_of c) values first else first) values L) as [[f F] [n N]].
  { intros X m I. rewrite X. destruct (attribute_now (names_of c) values first m) as (v & V & _); eauto using names_distinct. lia. }
  rewrite F, N. cbn [bind]. eexists. split; [reflexivity |].
  eapply parameters_ok; cbn [w_parts w_lists].
  - rewrite nth_error_app2, Nat.sub_diag by lia. reflexivity.
  - cbn [p_list]. destruct how as [| b | d].
    + destruct H as (-> & -> & ->). rewrite nth_error_app2, Nat.sub_diag by lia. reflexivity.
    + destruct H as (-> & -> & H). rewrite nth_error_app1; auto. eapply nth_error_lt; eauto.
    + destruct H as (-> & H & ->). rewrite nth_error_app2, Nat.sub_diag by lia. reflexivity.
Qed.
Lemma attribute_In : forall d n v, NoDup (map fst d) -> In (n, v) d -> attribute d n = Ok v.
Proof.
  induction d as [| [m u] d IH]; intros n v D I; cbn in *; [contradiction |]. inversion D as [| ? ? N D']; subst.
  destruct I as [I | I].
  - inversion I; subst. now rewrite pname_eqb_refl.
  - rewrite pname_eqb_neq; auto. intro; subst. apply N. now apply (in_map fst) in I.
Qed.
Lemma attribute_out : forall d n, ~ In n (map fst d) -> attribute d n = Err AttributeError.
Proof.
  induction d as [| [m u] d IH]; intros n N; cbn in *; auto. rewrite pname_eqb_neq by (intro; subst; tauto). apply IH; tauto.
Qed.
Lemma make_bad : forall w c d, ~ terminal c -> write_names (names_of c) (sp_def (spec_of c)) d = Err ValueError ->
  make w c (FromNames d) = Err ValueError.
Proof.
  intros w c d T H. unfold make. cbv zeta. rewrite H. destruct c; try reflexivity; contradiction T; exact I.
Qed.

(** ** Moments *)
Lemma moments : forall h k, k < List.length (w_parts (run h)) -> exists h0, last_given h k h0.
Proof.
  induction h as [| e h IH] using rev_ind; intros k L; [cbn in L; lia |].
  assert (D : gives (run h) e k \/ ~ gives (run h) e k).
  { destruct e; cbn; auto using Nat.eq_dec; match goal with |- ?a = ?b \/ _ => destruct (Nat.eq_dec a b); auto end. }
  destruct D as [D | D].
  - exists (h ++ [e]). exists h, e, []. rewrite app_nil_r. repeat split; auto. intros mid e' rest E. destruct mid; discriminate.
  - assert (Lh : k < List.length (w_parts (run h))).
    { destruct (le_lt_dec (List.length (w_parts (run h))) k) as [G | G]; auto. exfalso.
      rewrite run_snoc in L.
      assert (LL : List.length (w_parts (step (run h) e)) <= List.length (w_parts (run h)) \/ exists c how, e = Make c how).
      { clear - h e. destruct e as [l | c how | j a | j n v | a i v | j]; [left; apply le_n | right; eauto | left | left | left | left]; cbn [step].
        - unfold assign. destruct (part_at (run h) j); [| apply le_n]. destruct (list_at (run h) a); [| apply le_n].
          match goal with |- context [new_noise ?x ?y ?z ?u] => destruct (new_noise x y z u) end; cbn [fst]; rewrite put_part_length; apply le_n.
        - unfold set_by_name, write. destruct (part_at (run h) j) as [p' |]; cbn [bind or_same]; [| apply le_n].
          destruct (index_of n (names_of (p_cls p'))) as [i |]; cbn [bind or_same]; [| apply le_n].
          destruct (list_at (run h) (p_list p')) as [l |]; cbn [bind or_same]; [| apply le_n].
          destruct (store_item l i v); cbn [bind or_same]; [| apply le_n]. rewrite put_list_parts. apply le_n.
        - unfold write. destruct (list_at (run h) a) as [l |]; cbn [bind or_same]; [| apply le_n].
          destruct (store_item l i v); cbn [bind or_same]; [| apply le_n]. rewrite put_list_parts. apply le_n.
        - unfold simulate. destruct (part_at (run h) j) as [p' |]; [| apply le_n].
          destruct (list_at (run h) (p_list p')); [| apply le_n]. cbn [fst]. rewrite put_part_length. apply le_n. }
      destruct LL as [LL | (c & how & ->)]; [lia |]. cbn in D. cbn [step] in L.
      destruct (make (run h) c how) as [w' |] eqn:M; cbn [or_same] in L; [| lia].
      apply make_inv in M as (a & mine & attrs & values & n & f & -> & _). cbn in L. rewrite app_length in L. cbn in L. lia. }
    destruct (IH k Lh) as (h0 & early & e0 & late & E0 & E & G & L0 & N).
    exists h0, early, e0, (late ++ [e]). repeat split; auto.
    + rewrite E, <- app_assoc. reflexivity.
    + intros mid e' rest X. destruct (exists_last (l := e' :: rest)) as (r & z & R); [discriminate |].
      rewrite R, app_assoc in X. apply app_inj_tail in X as [X Z]. subst z.
      destruct r as [| e1 r].
      * cbn in R. inversion R; subst e' rest. rewrite app_nil_r in X. subst late. rewrite <- E. exact D.
      * inversion R; subst e1 rest. apply (N mid e' r). exact X.
Qed.
Lemma made_exists : forall h k, k < List.length (w_parts (run h)) -> exists h0, made h k h0.
Proof.
  induction h as [| e h IH] using rev_ind; intros k L; [cbn in L; lia |].
  destruct (le_lt_dec (List.length (w_parts (run h))) k) as [G | G].
  - destruct (moments (h ++ [e]) k L) as (h0 & early & e0 & late & -> & E & Gi & L0 & N).
    destruct late as [| x late'] using rev_ind.
    + rewrite app_nil_r in E. apply app_inj_tail in E as [-> ->].
      exists (early ++ [e0]). exists early.
      destruct e0 as [l | c how | j a | j n v | a i v | j]; cbn in Gi; try contradiction.
      * exists c, how, []. rewrite app_nil_r. auto.
      * subst j. exfalso. rewrite run_snoc in L0. cbn [step] in L0.
        rewrite assign_nothing in L0; [lia |]. left. now apply nth_error_None.
    + clear IHlate'. rewrite app_assoc in E. apply app_inj_tail in E as [-> ->]. exfalso.
      destruct (nth_error (w_parts (run (early ++ [e0]))) k) as [p |] eqn:P; [| apply nth_error_None in P; lia].
      destruct (later_kind late' _ _ _ P) as (q & Q & _). apply nth_error_lt in Q. lia.
  - destruct (IH k G) as (h0 & early & c & how & late & E0 & E & K & L0).
    exists h0, early, c, how, (late ++ [e]). repeat split; auto. rewrite E, <- app_assoc. reflexivity.
Qed.

(** ** Components that share no list *)
Lemma step_lists_grow : forall w e, List.length (w_lists w) <= List.length (w_lists (step w e)).
Proof.
  intros w e. apply Nat.le_ngt. intro H.
  destruct (nth_error (w_lists w) (List.length (w_lists (step w e)))) as [l |] eqn:E.
  - destruct (step_list w e _ _ E) as (l' & L & _). apply nth_error_lt in L. lia.
  - apply nth_error_None in E. lia.
Qed.
Lemma apart : forall h, own_lists h ->
  (forall k p, nth_error (w_parts (run h)) k = Some p -> p_list p < List.length (w_lists (run h))) /\
  (forall j k p q, nth_error (w_parts (run h)) j = Some p -> nth_error (w_parts (run h)) k = Some q -> p_list p = p_list q -> j = k).
Proof.
  induction h as [| e h IH] using rev_ind; intros O.
  - split; [intros [| k] p H | intros [| j] k p q H]; discriminate.
  - destruct IH as [B D]. { intros x I. apply O. apply in_or_app. now left. }
    assert (Ie : In e (h ++ [e])) by (apply in_or_app; right; now left). pose proof (O e Ie) as Oe. rewrite run_snoc.
    assert (Old : forall k q, nth_error (w_parts (step (run h) e)) k = Some q -> k < List.length (w_parts (run h)) ->
                  exists p, nth_error (w_parts (run h)) k = Some p /\ p_list q = p_list p).
    { intros k q Q L. destruct (nth_error (w_parts (run h)) k) as [p |] eqn:P; [| apply nth_error_None in P; lia].
      destruct (step_part (run h) e k p P) as (q' & Q' & S).
      { destruct e; cbn; auto; try contradiction. lia. }
      rewrite Q in Q'; inversion Q'; subst q'. exists p. split; auto. apply S. }
    assert (New : forall k q, nth_error (w_parts (step (run h) e)) k = Some q -> List.length (w_parts (run h)) <= k ->
                  k = List.length (w_parts (run h)) /\ p_list q = List.length (w_lists (run h)) /\ List.length (w_lists (run h)) < List.length (w_lists (step (run h) e))).
    { intros k q Q L. destruct (made_exists (h ++ [e]) k) as (h0 & early & c & how & late & E0 & E & K & L0).
      { rewrite run_snoc. eapply nth_error_lt; eauto. }
      subst h0. destruct late as [| x late'] using rev_ind.
      - rewrite app_nil_r in E. apply app_inj_tail in E as [-> ->]. cbn [step] in *. split; auto.
        destruct (make (run early) c how) as [w' |] eqn:M; cbn [or_same] in *; [| apply nth_error_lt in Q; lia].
        apply make_inv in M as (a & mine & attrs & values & n & f & -> & _ & _ & _ & _ & _ & _ & H). cbn [w_parts w_lists] in *.
        rewrite K, nth_error_app2, Nat.sub_diag in Q by lia. inversion Q; subst q. cbn.
        rewrite app_length. cbn. destruct how; [destruct H as [_ ->] | contradiction | destruct H as [-> _]]; split; lia.
      - clear IHlate'. rewrite app_assoc in E. apply app_inj_tail in E as [-> ->]. exfalso.
        destruct (nth_error (w_parts (run (early ++ [Make c how]))) k) as [p |] eqn:P; [| apply nth_error_None in P; lia].
        destruct (later_kind late' _ _ _ P) as (r & R & _). apply nth_error_lt in R. lia. }
    pose proof (step_lists_grow (run h) e) as Gr.
    split.
    + intros k q Q. destruct (le_lt_dec (List.length (w_parts (run h))) k) as [G | G].
      * destruct (New k q Q G) as (_ & -> & X). lia.
      * destruct (Old k q Q G) as (p & P & ->). specialize (B k p P). lia.
    + intros j k p q P Q E.
      destruct (le_lt_dec (List.length (w_parts (run h))) j) as [Gj | Gj], (le_lt_dec (List.length (w_parts (run h))) k) as [Gk | Gk].
      * destruct (New j p P Gj) as (-> & _). destruct (New k q Q Gk) as (-> & _). reflexivity.
      * destruct (New j p P Gj) as (_ & X & _). destruct (Old k q Q Gk) as (p' & P' & Y). specialize (B k p' P'). lia.
      * destruct (New k q Q Gk) as (_ & X & _). destruct (Old j p P Gj) as (p' & P' & Y). specialize (B j p' P'). lia.
      * destruct (Old j p P Gj) as (p' & P' & Y). destruct (Old k q Q Gk) as (q' & Q' & Z). apply (D j k p' q'); auto. congruence.
Qed.
