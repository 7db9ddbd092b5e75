(** Proofs about files (FilesModel.v). *)
From Coq Require Import List Bool String Ascii Arith Lia DecimalString DecimalNat.
From Verif Require Import Base FilesModel FilesSpec.
Import ListNotations.

Section P.
Context {obj bytes : Type}.
Implicit Types (f : fsys bytes) (l : place) (dump : writer obj bytes) (load : reader obj bytes) (o : obj).

Lemma place_eqb_true : forall a b, place_eqb a b = true <-> a = b.
Proof. intros a b. unfold place_eqb. destruct (list_eq_dec string_dec a b); split; intros H; congruence. Qed.

Lemma set_same : forall f l e, set_entry f l e l = Some e.
Proof. intros f l e. unfold set_entry. replace (place_eqb l l) with true by (symmetry; apply place_eqb_true; reflexivity). reflexivity. Qed.

Lemma set_other : forall f l e k, k <> l -> set_entry f l e k = f k.
Proof. intros f l e k H. unfold set_entry. destruct (place_eqb k l) eqn:E; [apply place_eqb_true in E; congruence|reflexivity]. Qed.

(* following the same names in a file system with at least the same directories *)
Lemma walk_mono : forall f f' parts cur l, (forall k, f k = Some Dir -> f' k = Some Dir) -> walk f cur parts = inl l -> walk f' cur parts = inl l.
Proof.
  intros f f' parts. induction parts as [|n r IH]; intros cur l M H; cbn [walk] in *; [exact H|].
  destruct (f cur) as [[|b]|] eqn:E; try discriminate. rewrite (M _ E). apply IH; assumption.
Qed.

Lemma removelast_snoc : forall (l : place), l = [] \/ exists q n, l = q ++ [n].
Proof. intros l. destruct l as [|a l]; [left; reflexivity|right]. exists (removelast (a :: l)), (last (a :: l) EmptyString). apply app_removelast_last. discriminate. Qed.

Lemma removelast_app1 : forall (q : place) n, removelast (q ++ [n]) = q.
Proof. intros q n. rewrite removelast_app by discriminate. cbn. apply app_nil_r. Qed.

Lemma tree_up : forall f, tree f -> forall l, f l = Some Dir -> f (removelast l) = Some Dir.
Proof.
  intros f [T0 T] l H. destruct (removelast_snoc l) as [->|(q & n & ->)]; [exact T0|]. rewrite removelast_app1. apply (T q n). congruence.
Qed.

(* the place reached is in a directory, or there *)
Lemma walk_parent : forall f, tree f -> forall parts cur l, f cur <> None -> walk f cur parts = inl l ->
  f l <> None \/ exists q n, l = q ++ [n] /\ f q = Some Dir.
Proof.
  intros f T parts. induction parts as [|n r IH]; intros cur l N H; cbn [walk] in H.
  - injection H as <-. left. exact N.
  - destruct (f cur) as [[|b]|] eqn:E; try discriminate.
    destruct (String.eqb n "..") eqn:D.
    + apply (IH _ _) in H; [exact H|]. rewrite (tree_up f T _ E). discriminate.
    + destruct r as [|m r].
      * cbn [walk] in H. injection H as <-. right. exists cur, n. auto.
      * cbn [walk] in H. destruct (f (cur ++ [n])) as [[|b]|] eqn:E2; try discriminate.
        apply (IH (cur ++ [n]) l); [congruence|]. cbn [walk]. rewrite E2. exact H.
Qed.

Lemma tree_root : forall f, tree f -> f [] <> None.
Proof. intros f [T _]. congruence. Qed.

Lemma tree_set : forall f l e, tree f -> (f l <> None \/ exists q n, l = q ++ [n] /\ f q = Some Dir) -> f l <> Some Dir \/ e = Dir -> (forall n, e <> Dir -> f (l ++ [n]) = None) -> tree (set_entry f l e).
Proof.
  intros f l e [T0 T] P K NC. split.
  - destruct (list_eq_dec string_dec [] l) as [<-|D]; [|rewrite set_other by exact D; exact T0].
    rewrite set_same. destruct K as [K| ->]; [congruence|reflexivity].
  - intros k n H. destruct (list_eq_dec string_dec k l) as [->|D].
    + rewrite set_same. destruct e as [|b]; [reflexivity|]. exfalso. apply H. rewrite set_other; [apply NC; discriminate|]. intros E. apply (f_equal (@List.length string)) in E. rewrite app_length in E. cbn in E. lia.
    + rewrite set_other by exact D. destruct (list_eq_dec string_dec (k ++ [n]) l) as [<-|D2].
      * destruct P as [P|(q & m & E & Q)]; [apply (T k n); exact P|]. apply app_inj_tail in E. destruct E as [-> _]. exact Q.
      * rewrite set_other in H by exact D2. apply (T k n). exact H.
Qed.

Lemma not_dir_empty : forall f, tree f -> forall l, f l <> Some Dir -> forall n, f (l ++ [n]) = None.
Proof. intros f [_ T] l H n. destruct (f (l ++ [n])) eqn:E; [|reflexivity]. exfalso. apply H. apply (T l n). congruence. Qed.

(* what making directories changes *)
Definition only_dirs f f' : Prop := forall l, f' l = f l \/ (f l = None /\ f' l = Some Dir).

Lemma only_dirs_refl : forall f, only_dirs f f.
Proof. intros f l. left. reflexivity. Qed.

Lemma only_dirs_trans : forall f g h, only_dirs f g -> only_dirs g h -> only_dirs f h.
Proof. intros f g h A B l. destruct (A l) as [E|[N E]], (B l) as [E2|[N2 E2]]; rewrite ?E2; [left; congruence|right; split; congruence|right; split; congruence|right; split; congruence]. Qed.

Lemma mkdir1_only : forall f parts f', mkdir1 f parts = inl f' -> only_dirs f f' /\ (tree f -> tree f').
Proof.
  intros f parts f' H. unfold mkdir1 in H. destruct (walk f [] parts) as [l|e] eqn:W; [|discriminate]. destruct (f l) eqn:E; [discriminate|]. injection H as <-. split.
  - intros k. destruct (list_eq_dec string_dec k l) as [->|D]; [right; rewrite set_same; auto|left; apply set_other, D].
  - intros T. apply tree_set; [exact T|exact (walk_parent f T parts [] l (tree_root f T) W)|right; reflexivity|intros n N; congruence].
Qed.

Lemma mkdirs_rev_only : forall rp f f' r, mkdirs_rev f rp = (f', r) -> only_dirs f f' /\ (tree f -> tree f').
Proof.
  assert (Same : forall f f' (r r' : unit + ioexn) (b : bool), (if b then (f, inl tt) else (f, r')) = (f', r) -> only_dirs f f' /\ (tree f -> tree f')).
  { intros f f' r r' b H. destruct b; injection H as <- _; split; auto using only_dirs_refl. }
  induction rp as [|n rp IH]; intros f f' r H; cbn [mkdirs_rev] in H; destruct (mkdir1 f _) as [f1|[[]|]] eqn:M;
    try (injection H as <- _; first [exact (mkdir1_only _ _ _ M)|split; auto using only_dirs_refl]; fail); try exact (Same _ _ _ _ _ H).
  destruct (mkdirs_rev f rp) as [f1 [u|e]] eqn:R; [|injection H as <- _; exact (IH _ _ _ R)].
  destruct (IH _ _ _ R) as [O T].
  assert (K : only_dirs f1 f' /\ (tree f1 -> tree f')).
  { destruct (mkdir1 f1 _) as [f2|[[]|]] eqn:M2; try (injection H as <- _; first [exact (mkdir1_only _ _ _ M2)|split; auto using only_dirs_refl]; fail); exact (Same _ _ _ _ _ H). }
  destruct K as [O2 T2]. split; [exact (only_dirs_trans _ _ _ O O2)|auto].
Qed.

Lemma mkdirs_only : forall f p f' r, mkdirs f p = (f', r) -> only_dirs f f' /\ (tree f -> tree f').
Proof. intros f p. apply mkdirs_rev_only. Qed.

(* after success the directory is there *)
Lemma walk_set_dir : forall f l parts, walk f [] parts = inl l -> f l = None -> walk (set_entry f l Dir) [] parts = inl l.
Proof.
  intros f l parts W N. apply (walk_mono f); [|exact W]. intros k K. destruct (list_eq_dec string_dec k l) as [->|D]; [apply set_same|rewrite set_other by exact D; exact K].
Qed.

Lemma is_dir_iff : forall f parts, is_dir f parts = true <-> exists l, walk f [] parts = inl l /\ f l = Some Dir.
Proof.
  intros f parts. unfold is_dir. split.
  - destruct (walk f [] parts) as [l|]; [|discriminate]. destruct (f l) as [[|]|] eqn:E; try discriminate. eauto.
  - intros (l & -> & E). rewrite E. reflexivity.
Qed.

Lemma mkdir1_is_dir : forall f parts f', mkdir1 f parts = inl f' -> is_dir f' parts = true.
Proof.
  intros f parts f' H. unfold mkdir1 in H. destruct (walk f [] parts) as [l|e] eqn:W; [|discriminate]. destruct (f l) eqn:E; [discriminate|]. injection H as <-.
  apply is_dir_iff. exists l. split; [apply walk_set_dir; assumption|apply set_same].
Qed.

Lemma mkdirs_is_dir : forall f p f', mkdirs f p = (f', inl tt) -> is_dir f' (p_parts p) = true.
Proof.
  intros f p f' H. unfold mkdirs in H. rewrite <- (rev_involutive (p_parts p)). generalize dependent (rev (p_parts p)). intros rp H. revert f f' H.
  assert (Same : forall f f' (e : ioexn) parts, (if is_dir f parts then (f, inl tt) else (f, inr e)) = (f', inl tt) -> is_dir f' parts = true).
  { intros f f' e parts H. destruct (is_dir f parts) eqn:D; [injection H as <-; exact D|discriminate]. }
  induction rp as [|n rp IH]; intros f f' H; cbn [mkdirs_rev] in H; destruct (mkdir1 f _) as [f1|[[]|]] eqn:M; try discriminate;
    try (injection H as <-; exact (mkdir1_is_dir _ _ _ M)); try exact (Same _ _ _ _ H).
  destruct (mkdirs_rev f rp) as [f1 [u|e]] eqn:R; [|discriminate].
  destruct (mkdir1 f1 _) as [f2|[[]|]] eqn:M2; try discriminate; try (injection H as <-; exact (mkdir1_is_dir _ _ _ M2)); exact (Same _ _ _ _ H).
Qed.

Lemma only_dirs_grows : forall f f', only_dirs f f' -> grows f f'.
Proof. intros f f' O l. split; [intros D|intros [b D]]; destruct (O l) as [E|[N _]]; try congruence. exists b. congruence. Qed.

Lemma grows_trans : forall f g h, grows f g -> grows g h -> grows f h.
Proof. intros f g h A B l. destruct (A l), (B l). split; auto. Qed.

(* writing a file *)
Lemma open_write_place : forall f p l, open_write f p = inl l -> walk f [] (p_parts p) = inl l /\ f l <> Some Dir.
Proof. intros f p l H. unfold open_write in H. destruct (walk f [] (p_parts p)) as [k|]; [|discriminate]. destruct (f k) as [[|b]|] eqn:E; try discriminate; injection H as <-; split; congruence. Qed.

Lemma write_file_cases : forall dump f p o f' r, write_file dump f p o = (f', r) ->
  (f' = f /\ exists e, r = inr e /\ open_write f p = inr e) \/
  (exists l, open_write f p = inl l /\ f' = set_entry f l (File (fst (dump o))) /\ (r = inl tt <-> snd (dump o) = None)).
Proof.
  intros dump f p o f' r H. unfold write_file in H. destruct (open_write f p) as [l|e]; [right|left].
  - destruct (dump o) as [b e]. injection H as <- <-. exists l. cbn. repeat split; destruct e; intros K; congruence.
  - injection H as <- <-. eauto.
Qed.

Lemma write_grows : forall dump f p o f' r, write_file dump f p o = (f', r) -> grows f f' /\ (tree f -> tree f').
Proof.
  intros dump f p o f' r H. destruct (write_file_cases _ _ _ _ _ _ H) as [[-> _]|(l & W & -> & _)]; [split; [intros l; split; auto|auto]|].
  destruct (open_write_place _ _ _ W) as [Wl ND]. split.
  - intros k. destruct (list_eq_dec string_dec k l) as [->|D]; [split; [congruence|intros _; eexists; apply set_same]|].
    unfold holds_file. rewrite set_other by exact D. split; auto.
  - intros T. apply tree_set; [exact T|exact (walk_parent f T _ _ l (tree_root f T) Wl)|left; exact ND|intros n _; apply not_dir_empty; assumption].
Qed.

Lemma read_after_write : forall dump load f p o f' r l, write_file dump f p o = (f', r) -> open_write f p = inl l -> read_file load f' p = load (fst (dump o)).
Proof.
  intros dump load f p o f' r l H W. destruct (write_file_cases _ _ _ _ _ _ H) as [[_ (e & _ & E)]|(l' & W' & -> & _)]; [congruence|].
  destruct (open_write_place _ _ _ W') as [Wl ND]. unfold read_file, open_read.
  rewrite (walk_mono f (set_entry f l' (File (fst (dump o)))) _ _ l'); [rewrite set_same; reflexivity| |exact Wl].
  intros k K. rewrite set_other; [exact K|]. intros ->. contradiction.
Qed.

Lemma write_success : forall dump f p o f', write_file dump f p o = (f', inl tt) -> exists l, open_write f p = inl l /\ snd (dump o) = None /\ f' = set_entry f l (File (fst (dump o))).
Proof. intros dump f p o f' H. destruct (write_file_cases _ _ _ _ _ _ H) as [[_ (e & E & _)]|(l & W & E & K)]; [discriminate|]. exists l. repeat split; auto. apply K. reflexivity. Qed.

Lemma save_object_split : forall dump f io o name f' r, save_object dump f io o name = (f', r) ->
  (exists e, r = inr e /\ mkdirs f (parent_path (join_to_save_path io name)) = (f', inr e)) \/
  (exists f1, mkdirs f (parent_path (join_to_save_path io name)) = (f1, inl tt) /\ write_file dump f1 (join_to_save_path io name) o = (f', r)).
Proof.
  intros dump f io o name f' r H. unfold save_object in H. destruct (mkdirs f _) as [f1 [[]|e]]; [right; eauto|left]. injection H as <- <-. eauto.
Qed.

Lemma save_object_grows : forall dump f io o name f' r, save_object dump f io o name = (f', r) -> grows f f' /\ (tree f -> tree f').
Proof.
  intros dump f io o name f' r H. destruct (save_object_split _ _ _ _ _ _ _ H) as [(e & _ & M)|(f1 & M & W)].
  - destruct (mkdirs_only _ _ _ _ M) as [O T]. split; [apply only_dirs_grows, O|exact T].
  - destruct (mkdirs_only _ _ _ _ M) as [O T]. destruct (write_grows _ _ _ _ _ _ W) as [G T2]. split; [exact (grows_trans _ _ _ (only_dirs_grows _ _ O) G)|auto].
Qed.

Lemma save_load_object : forall dump load f io io' o name f', save_object dump f io o name = (f', inl tt) -> io_load io' = io_save io ->
  load_object load f' io' name = load (fst (dump o)).
Proof.
  intros dump load f io io' o name f' H E. destruct (save_object_split _ _ _ _ _ _ _ H) as [(e & E2 & _)|(f1 & M & W)]; [discriminate|].
  destruct (write_success _ _ _ _ _ W) as (l & Wl & _). unfold load_object, join_to_load_path. rewrite E. exact (read_after_write _ _ _ _ _ _ _ _ W Wl).
Qed.

Lemma save_load_json : forall dump load f io io' o name f', save_json dump f io o name = (f', inl tt) -> io_load io' = io_save io ->
  load_json load f' io' name = load (fst (dump o)).
Proof.
  intros dump load f io io' o name f' W E. destruct (write_success _ _ _ _ _ W) as (l & Wl & _). unfold load_json, load_object, join_to_load_path. rewrite E. exact (read_after_write _ _ _ _ _ _ _ _ W Wl).
Qed.

(* plain paths *)
Lemma plain_cons : forall n r, plain (n :: r) -> String.eqb n ".." = false /\ plain r.
Proof. intros n r P. split; [apply String.eqb_neq; intros ->; apply P; left; reflexivity|intros I; apply P; right; exact I]. Qed.

Lemma plain_app : forall a b, plain (a ++ b) <-> plain a /\ plain b.
Proof. intros a b. unfold plain. rewrite in_app_iff. tauto. Qed.

Lemma walk_plain : forall f parts cur, plain parts ->
  ((forall q r, parts = q ++ r -> r <> [] -> f (cur ++ q) = Some Dir) -> walk f cur parts = inl (cur ++ parts)) /\
  (forall l, walk f cur parts = inl l -> l = cur ++ parts /\ forall q r, parts = q ++ r -> r <> [] -> f (cur ++ q) = Some Dir).
Proof.
  intros f parts. induction parts as [|n p IH]; intros cur P.
  - cbn [walk]. rewrite app_nil_r. split; [reflexivity|]. intros l H. injection H as <-. split; [reflexivity|]. intros q r E N. symmetry in E. apply app_eq_nil in E. tauto.
  - apply plain_cons in P. destruct P as [D P]. cbn [walk]. rewrite D. destruct (IH (cur ++ [n]) P) as [A B]. split.
    + intros H. assert (E : f cur = Some Dir) by (rewrite <- (app_nil_r cur); apply (H [] (n :: p)); [reflexivity|discriminate]). rewrite E.
      rewrite A; [rewrite <- app_assoc; reflexivity|]. intros q r Eq N. rewrite <- app_assoc. apply (H (n :: q) r); [cbn; congruence|exact N].
    + intros l H. destruct (f cur) as [[|b]|] eqn:E; try discriminate. destruct (B l H) as [-> K]. rewrite <- app_assoc. split; [reflexivity|].
      intros q r Eq N. destruct q as [|m q]; [rewrite app_nil_r; exact E|]. cbn in Eq. injection Eq as <- Eq. specialize (K q r Eq N). rewrite <- app_assoc in K. exact K.
Qed.

(* a file on the way *)
Lemma walk_file : forall f, tree f -> forall parts cur, plain parts -> f cur <> None -> (exists q r, parts = q ++ r /\ r <> [] /\ holds_file f (cur ++ q)) -> walk f cur parts = inr (OS NotADirectoryError).
Proof.
  intros f T parts. induction parts as [|n p IH]; intros cur P N (q & r & E & Nr & [b F]).
  - symmetry in E. apply app_eq_nil in E. tauto.
  - apply plain_cons in P. destruct P as [D P]. cbn [walk]. rewrite D. destruct q as [|m q].
    + rewrite app_nil_r in F. rewrite F. reflexivity.
    + cbn in E. injection E as <- E.
      assert (Up : forall s l, f (l ++ s) <> None -> s <> [] -> f l = Some Dir).
      { intros s. induction s as [|x s IHs] using rev_ind; intros l K Ns; [contradiction|]. rewrite app_assoc in K. pose proof (proj2 T _ _ K) as U. destruct s as [|y s]; [rewrite app_nil_r in U; exact U|]. apply IHs; [congruence|discriminate]. }
      rewrite (Up (n :: q) cur) by (first [discriminate|congruence]).
      apply IH; [exact P| |exists q, r; repeat split; [exact E|exact Nr|exists b; rewrite <- app_assoc; exact F]].
      destruct q as [|y q]; [congruence|]. rewrite (Up (y :: q) (cur ++ [n])); [discriminate| |discriminate]. rewrite <- app_assoc. cbn. congruence.
Qed.

(* nothing on the way *)
Lemma walk_missing : forall f, tree f -> forall parts cur, plain parts -> f cur <> None -> (forall q r, parts = q ++ r -> r <> [] -> ~ holds_file f (cur ++ q)) ->
  (exists q r, parts = q ++ r /\ r <> [] /\ f (cur ++ q) <> Some Dir) -> walk f cur parts = inr (OS FileNotFoundError).
Proof.
  intros f T parts. induction parts as [|n p IH]; intros cur P N NF (q & r & E & Nr & F).
  - symmetry in E. apply app_eq_nil in E. tauto.
  - apply plain_cons in P. destruct P as [D P]. cbn [walk]. rewrite D. destruct (f cur) as [[|b]|] eqn:E0; [|exfalso; apply (NF [] (n :: p)); [reflexivity|discriminate|exists b; rewrite app_nil_r; exact E0]|congruence].
    destruct q as [|m q]; [rewrite app_nil_r in F; congruence|]. cbn in E. injection E as <- E.
    destruct (f (cur ++ [n])) as [e1|] eqn:E1.
    + apply IH; [exact P|congruence| |exists q, r; repeat split; [exact E|exact Nr|rewrite <- app_assoc; exact F]].
      intros q' r' E' N'. rewrite <- app_assoc. apply (NF (n :: q') r'); [cbn; congruence|exact N'].
    + destruct p as [|m p]; [symmetry in E; apply app_eq_nil in E; tauto|]. cbn [walk]. rewrite E1. reflexivity.
Qed.

Lemma walk_plain_root : forall f, tree f -> forall parts, plain parts ->
  (exists q r, parts = q ++ r /\ r <> [] /\ holds_file f q) /\ walk f [] parts = inr (OS NotADirectoryError) \/
  (forall q r, parts = q ++ r -> r <> [] -> f q = Some Dir) /\ walk f [] parts = inl parts \/
  (forall q r, parts = q ++ r -> r <> [] -> ~ holds_file f q) /\ (exists q r, parts = q ++ r /\ r <> [] /\ f q = None) /\ walk f [] parts = inr (OS FileNotFoundError).
Proof.
  intros f T parts P. destruct (walk f [] parts) as [l|e] eqn:W.
  - right. left. destruct (proj2 (walk_plain f parts [] P) l W) as [-> K]. split; [exact K|reflexivity].
  - assert (C : forall p, (exists q r, p = q ++ r /\ r <> [] /\ holds_file f q) \/ (forall q r, p = q ++ r -> r <> [] -> ~ holds_file f q)).
    { clear. intros p. induction p as [|n p IH] using rev_ind.
      - right. intros q r E N. symmetry in E. apply app_eq_nil in E. tauto.
      - destruct IH as [(q & r & E & N & F)|IH].
        + left. exists q, (r ++ [n]). repeat split; [rewrite E, app_assoc; reflexivity|destruct r; discriminate|exact F].
        + destruct (f p) as [[|b]|] eqn:E0; [right|left; exists p, [n]; repeat split; [discriminate|exists b; exact E0]|right].
          all: intros q r E N F; destruct (@exists_last _ r N) as (r' & m & ->); rewrite app_assoc in E; apply app_inj_tail in E; destruct E as [E _];
            (destruct r' as [|x r']; [rewrite app_nil_r in E; subst q; destruct F as [b F]; congruence|apply (IH q (x :: r') E); [discriminate|exact F]]). }
    destruct (C parts) as [F|F].
    + left. pose proof (walk_file f T parts [] P (tree_root f T) F) as K. split; [exact F|congruence].
    + right. right. assert (X : exists q r, parts = q ++ r /\ r <> [] /\ f q <> Some Dir).
      { assert (D : forall p, plain p -> (exists q r, p = q ++ r /\ r <> [] /\ f q <> Some Dir) \/ (forall q r, p = q ++ r -> r <> [] -> f q = Some Dir)).
        { clear. intros p _. induction p as [|n p IH] using rev_ind.
          - right. intros q r E N. symmetry in E. apply app_eq_nil in E. tauto.
          - destruct IH as [(q & r & E & N & F)|IH]; [left; exists q, (r ++ [n]); repeat split; [rewrite E, app_assoc; reflexivity|destruct r; discriminate|exact F]|].
            destruct (f p) as [[|b]|] eqn:E0; [right|left; exists p, [n]; repeat split; [discriminate|congruence]|left; exists p, [n]; repeat split; [discriminate|congruence]].
            intros q r E N. destruct (@exists_last _ r N) as (r' & m & ->). rewrite app_assoc in E. apply app_inj_tail in E. destruct E as [E _].
            destruct r' as [|x r']; [rewrite app_nil_r in E; subst q; exact E0|apply (IH q (x :: r') E); discriminate]. }
        destruct (D parts P) as [X|X]; [exact X|]. rewrite (proj1 (walk_plain f parts [] P) X) in W. discriminate. }
      pose proof (walk_missing f T parts [] P (tree_root f T) F X) as K. repeat split; [exact F| |congruence].
      destruct X as (q & r & E & N & Nd). exists q, r. repeat split; [exact E|exact N|]. destruct (f q) as [[|b]|] eqn:E0; [congruence|exfalso; apply (F q r E N); exists b; exact E0|reflexivity].
Qed.

(* making directories: succeeds unless there is a file on the path, and then exactly the directories of the path are there *)
Lemma mkdirs_plain : forall f p, tree f -> plain_path p -> (forall q, above q (p_parts p) -> ~ holds_file f q) ->
  exists f', mkdirs f p = (f', inl tt) /\ (forall q, above q (p_parts p) -> f' q = Some Dir) /\ (forall l, ~ above l (p_parts p) -> f' l = f l) /\ tree f'.
Proof.
  intros f p T P NF. unfold mkdirs, plain_path in *. assert (Er : p_parts p = rev (rev (p_parts p))) by (symmetry; apply rev_involutive).
  generalize dependent (rev (p_parts p)). intros rp Er. rewrite Er in *. clear p Er. revert f T NF.
  assert (Ab : forall (a b : place), above a b <-> a = b \/ exists q n, b = q ++ [n] /\ above a q).
  { intros a b. split.
    - intros [r ->]. destruct (removelast_snoc r) as [->|(r' & n & ->)]; [left; symmetry; apply app_nil_r|right]. exists (a ++ r'), n. split; [apply app_assoc|exists r'; reflexivity].
    - intros [->|(q & n & -> & [r ->])]; [exists []; symmetry; apply app_nil_r|exists (r ++ [n]); rewrite app_assoc; reflexivity]. }
  assert (Dn : forall f, tree f -> forall q r, f (q ++ r) = Some Dir -> f q = Some Dir).
  { intros f T q r. induction r as [|n r IH] using rev_ind; intros H; [rewrite app_nil_r in H; exact H|]. apply IH. apply (proj2 T _ n). rewrite <- app_assoc. congruence. }
  induction rp as [|n rp IH]; intros f T NF; cbn [mkdirs_rev].
  - unfold mkdir1. cbn [rev walk]. destruct T as [T0 T]. rewrite T0. cbn [is_dir rev walk]. unfold is_dir. cbn [walk]. rewrite T0. exists f. repeat split; auto.
    intros q H. apply Ab in H. destruct H as [->|(q' & n & E & _)]; [exact T0|]. cbn in E. destruct q'; discriminate.
  - cbn [rev] in *. assert (Pp : plain (rev rp)) by (apply plain_app in P; tauto).
    set (full := rev rp ++ [n]) in *.
    assert (NFp : forall q, above q (rev rp) -> ~ holds_file f q) by (intros q H; apply NF; apply Ab; right; exists (rev rp), n; split; [reflexivity|exact H]).
    assert (Mk : forall g, tree g -> (forall q, above q (rev rp) -> g q = Some Dir) -> ~ holds_file g full ->
      exists f', ((mkdir1 g full = inl f' /\ f' = set_entry g full Dir) \/ (mkdir1 g full = inr (OS FileExistsError) /\ is_dir g full = true /\ f' = g)) /\
        (forall q, above q full -> f' q = Some Dir) /\ (forall l, ~ above l full -> f' l = g l) /\ tree f').
    { intros g Tg Dg Ng. assert (W : walk g [] full = inl full).
      { apply (proj1 (walk_plain g full [] P)). intros q r E N. cbn. destruct (@exists_last _ r N) as (r' & m & ->). unfold full in E. rewrite app_assoc in E. apply app_inj_tail in E. destruct E as [E _]. apply Dg. exists r'. exact E. }
      unfold mkdir1, is_dir. rewrite W. destruct (g full) as [[|b]|] eqn:E.
      - exists g. split; [right; auto|]. split; [|split; [auto|exact Tg]]. intros q [r Er]. apply (Dn g Tg q r). rewrite <- Er. exact E.
      - exfalso. apply Ng. exists b. exact E.
      - exists (set_entry g full Dir). split; [left; auto|]. split; [|split].
        + intros q H. destruct (list_eq_dec string_dec q full) as [->|D]; [apply set_same|]. rewrite set_other by exact D. apply Ab in H. destruct H as [H|(q' & m & E2 & H)]; [contradiction|].
          unfold full in E2. apply app_inj_tail in E2. destruct E2 as [<- _]. apply Dg, H.
        + intros l H. apply set_other. intros ->. apply H. apply Ab. left. reflexivity.
        + apply tree_set; [exact Tg|right; exists (rev rp), n; split; [reflexivity|apply Dg, Ab; left; reflexivity]|right; reflexivity|congruence]. }
    destruct (walk_plain_root f T full P) as [[(q & r & E & Nr & F) _]|[[D _]|(NF2 & (q & r & E & Nr & N0) & W)]].
    + exfalso. apply (NF q); [exists r; exact E|exact F].
    + assert (Dp : forall q, above q (rev rp) -> f q = Some Dir).
      { intros q [r Er]. apply (D q (r ++ [n])); [unfold full; rewrite Er, app_assoc; reflexivity|destruct r; discriminate]. }
      destruct (Mk f T Dp (NF full (proj2 (Ab _ _) (or_introl eq_refl)))) as (f' & [[M E]|(M & I & E)] & A & B & C); rewrite M; [|rewrite I]; subst f'; eexists; eauto.
    + assert (M0 : mkdir1 f full = inr (OS FileNotFoundError)) by (unfold mkdir1; rewrite W; reflexivity). rewrite M0.
      destruct (IH Pp f T NFp) as (f1 & -> & A1 & B1 & T1).
      assert (Nf1 : ~ holds_file f1 full).
      { intros [b F]. destruct (list_eq_dec string_dec full (rev rp)) as [K|K]; [unfold full in K; apply (f_equal (@List.length string)) in K; rewrite app_length in K; cbn in K; lia|].
        assert (Na : ~ above full (rev rp)) by (intros [s Es]; unfold full in Es; apply (f_equal (@List.length string)) in Es; rewrite !app_length in Es; cbn in Es; lia).
        rewrite (B1 full Na) in F. apply (NF full); [apply Ab; left; reflexivity|exists b; exact F]. }
      destruct (Mk f1 T1 A1 Nf1) as (f' & [[M E']|(M & I & E')] & A & B & C); rewrite M; [|rewrite I]; subst f'; eexists; (split; [reflexivity|split; [exact A|split; [|exact C]]]);
        intros l Nl; refine (eq_trans (B l Nl) (B1 l _)); intros Al; apply Nl, Ab; right; exists (rev rp), n; auto.
Qed.

(* a file on the path stops it, and nothing was made *)
Lemma mkdirs_blocked : forall f p, tree f -> plain_path p -> (exists q, above q (p_parts p) /\ holds_file f q) ->
  mkdirs f p = (f, inr (OS NotADirectoryError)) \/ mkdirs f p = (f, inr (OS FileExistsError)).
Proof.
  intros f p T P (q & [r E] & [b F]). unfold mkdirs.
  assert (M : mkdir1 f (p_parts p) = inr (OS NotADirectoryError) \/ mkdir1 f (p_parts p) = inr (OS FileExistsError)).
  { unfold mkdir1. destruct r as [|m r].
    - rewrite app_nil_r in E. subst q. destruct (walk_plain_root f T (p_parts p) P) as [[_ ->]|[[_ ->]|(NF & (q & r & E & N & N0) & _)]]; [left; reflexivity|rewrite F; right; reflexivity|].
      exfalso. assert (Up : forall s l, f (l ++ s) <> None -> f l <> None).
      { intros s. induction s as [|x s IHs] using rev_ind; intros l K; [rewrite app_nil_r in K; exact K|]. rewrite app_assoc in K. pose proof (proj2 T _ _ K) as U. apply IHs. congruence. }
      apply (Up r q); [rewrite <- E; congruence|exact N0].
    - rewrite (walk_file f T (p_parts p) [] P (tree_root f T)); [left; reflexivity|]. exists q, (m :: r). repeat split; [exact E|discriminate|exists b; exact F]. }
  assert (I : is_dir f (p_parts p) = false).
  { destruct (is_dir f (p_parts p)) eqn:I; [|reflexivity]. exfalso. apply is_dir_iff in I. destruct I as (l & W & D).
    destruct (proj2 (walk_plain f _ [] P) l W) as [-> K]. cbn in D. destruct r as [|m r]; [rewrite app_nil_r in E; congruence|]. specialize (K q (m :: r) E). cbn in K. rewrite K in F by discriminate. discriminate. }
  assert (U : forall rp e, mkdir1 f (rev rp) = inr e -> e <> OS FileNotFoundError -> mkdirs_rev f rp = if is_dir f (rev rp) then (f, inl tt) else (f, inr e)).
  { intros rp e H N. destruct rp; cbn [mkdirs_rev]; rewrite H; destruct e as [[]|]; congruence. }
  destruct M as [M|M]; [left|right]; rewrite (U _ _ (eq_trans (f_equal (mkdir1 f) (rev_involutive _)) M)) by discriminate; rewrite rev_involutive, I; reflexivity.
Qed.

(* which saves succeed *)
Lemma snoc_plain : forall p n, plain (p_parts p) -> p_parts p = removelast (p_parts p) ++ [n] -> plain (removelast (p_parts p)).
Proof. intros p n P E I. apply P. rewrite E. apply in_app_iff. left. exact I. Qed.

Lemma open_write_plain : forall f p, tree f -> plain_path p ->
  (forall q, strictly_above q (p_parts p) -> f q = Some Dir) -> f (p_parts p) <> Some Dir -> open_write f p = inl (p_parts p).
Proof.
  intros f p T P D N. unfold open_write. pose proof (proj1 (walk_plain f _ [] P)) as W. rewrite W; [|intros q r E Nr; apply D; exists r; auto].
  cbn [app]. destruct (f (p_parts p)) as [[|]|]; [congruence|reflexivity|reflexivity].
Qed.

Lemma open_write_plain_inv : forall f p l, plain_path p -> open_write f p = inl l ->
  l = p_parts p /\ (forall q, strictly_above q (p_parts p) -> f q = Some Dir) /\ f (p_parts p) <> Some Dir.
Proof.
  intros f p l P H. destruct (open_write_place _ _ _ H) as [W N]. destruct (proj2 (walk_plain f _ [] P) l W) as [-> D]. cbn [app] in *. repeat split; auto.
  intros q (r & Nr & E). exact (D q r E Nr).
Qed.

Lemma save_json_exact : forall dump f io o name, tree f -> plain (target io name) ->
  (snd (save_json dump f io o name) = inl tt <->
   snd (dump o) = None /\ f (target io name) <> Some Dir /\ forall q, strictly_above q (target io name) -> f q = Some Dir).
Proof.
  intros dump f io o name T P. unfold save_json, write_file. fold (target io name) in *. split.
  - destruct (open_write f (join_to_save_path io name)) as [l|e] eqn:W; [|discriminate]. destruct (open_write_plain_inv _ _ _ P W) as (-> & D & N).
    destruct (dump o) as [b [e|]]; [discriminate|]. intros _. auto.
  - intros (S & N & D). rewrite (open_write_plain f _ T P D N). destruct (dump o) as [b e]. cbn in S |- *. rewrite S. reflexivity.
Qed.

Lemma strictly_above_parent : forall (l q : place), strictly_above q l <-> l <> [] /\ above q (removelast l).
Proof.
  intros l q. split.
  - intros (r & N & ->). split; [destruct q; [exact N|discriminate]|]. destruct (@exists_last _ r N) as (r' & m & ->). rewrite app_assoc, removelast_app1. exists r'. reflexivity.
  - intros [N [r E]]. exists (r ++ [last l EmptyString]). split; [destruct r; discriminate|]. rewrite app_assoc, <- E. apply app_removelast_last, N.
Qed.

Lemma plain_removelast : forall l, plain l -> plain (removelast l).
Proof. intros l P. destruct (removelast_snoc l) as [->|(q & n & ->)]; [exact P|]. rewrite removelast_app1. apply plain_app in P. tauto. Qed.

Lemma blocked_dec : forall f l, (exists q, above q l /\ holds_file f q) \/ (forall q, above q l -> ~ holds_file f q).
Proof.
  intros f l. induction l as [|n l IH] using rev_ind.
  - destruct (f []) as [[|b]|] eqn:E; [right|left; exists []; split; [exists []; reflexivity|exists b; exact E]|right]; intros q [r Er] [b F]; symmetry in Er; apply app_eq_nil in Er; destruct Er as [-> _]; congruence.
  - destruct IH as [(q & [r E] & F)|IH]; [left; exists q; split; [exists (r ++ [n]); rewrite E, app_assoc; reflexivity|exact F]|].
    destruct (f (l ++ [n])) as [[|b]|] eqn:E; [right|left; exists (l ++ [n]); split; [exists []; symmetry; apply app_nil_r|exists b; exact E]|right];
      intros q [r Er] [b F]; (destruct (removelast_snoc r) as [->|(r' & m & ->)]; [rewrite app_nil_r in Er; congruence|]); rewrite app_assoc in Er; apply app_inj_tail in Er; destruct Er as [Er _]; (apply (IH q); [exists r'; exact Er|exists b; exact F]).
Qed.

Lemma mkdirs_error : forall f p f' e, tree f -> plain_path p -> mkdirs f p = (f', inr e) -> f' = f.
Proof.
  intros f p f' e T P M. destruct (blocked_dec f (p_parts p)) as [B|NB].
  - destruct (mkdirs_blocked f _ T P B) as [K|K]; rewrite K in M; injection M as <- _; reflexivity.
  - destruct (mkdirs_plain f _ T P NB) as (f2 & M2 & _). rewrite M in M2. discriminate.
Qed.

Lemma save_object_exact : forall dump f io o name, tree f -> plain (target io name) ->
  (snd (save_object dump f io o name) = inl tt <->
   snd (dump o) = None /\ f (target io name) <> Some Dir /\ forall q, strictly_above q (target io name) -> ~ holds_file f q).
Proof.
  intros dump f io o name T P. unfold save_object. set (p := join_to_save_path io name). assert (Ep : p_parts p = target io name) by reflexivity.
  assert (Pp : plain_path (parent_path p)) by (apply plain_removelast; exact P).
  pose proof (blocked_dec f (p_parts (parent_path p))) as Dec.
  destruct Dec as [B|NB].
  - destruct B as (q & A & F). assert (Nn : p_parts p <> [] \/ p_parts p = []) by (destruct (p_parts p); [right; reflexivity|left; discriminate]).
    split.
    + destruct (mkdirs_blocked f _ T Pp (ex_intro _ q (conj A F))) as [-> | ->]; discriminate.
    + intros (_ & N & K). exfalso. destruct Nn as [Nn|Nn]; [apply (K q); [rewrite <- Ep; apply strictly_above_parent; split; [exact Nn|exact A]|exact F]|].
      rewrite <- Ep, Nn in N. apply N. exact (proj1 T).
  - destruct (mkdirs_plain f _ T Pp NB) as (f1 & -> & D1 & O1 & T1).
    assert (Tg : p_parts p <> [] -> f1 (target io name) = f (target io name)).
    { intros Nn. apply O1. intros [r E]. rewrite <- Ep in E. cbn [parent_path p_parts] in E. rewrite (app_removelast_last EmptyString Nn) in E at 2. apply (f_equal (@List.length string)) in E. rewrite !app_length in E. cbn in E. lia. }
    assert (Root : p_parts p = [] -> f1 (target io name) = Some Dir) by (intros E0; rewrite <- Ep, E0; exact (proj1 T1)).
    assert (J := save_json_exact dump f1 io o name T1 P). unfold save_json in J. fold p in J. rewrite J. split.
    + intros (S & N & D). split; [exact S|]. assert (Nn : p_parts p <> []) by (intros E0; apply N, Root, E0). rewrite Tg in N by exact Nn. split; [exact N|].
      intros q H. apply NB. rewrite <- Ep in H. apply strictly_above_parent in H. exact (proj2 H).
    + intros (S & N & K). split; [exact S|]. assert (Nn : p_parts p <> []) by (intros E0; apply N; rewrite <- Ep, E0; exact (proj1 T)). rewrite Tg by exact Nn. split; [exact N|].
      intros q H. apply D1. rewrite <- Ep in H. apply strictly_above_parent in H. exact (proj2 H).
Qed.

(* what an operation leaves alone *)
Lemma write_plain_frame : forall dump f p o f' r l, plain_path p -> write_file dump f p o = (f', r) -> l <> p_parts p -> f' l = f l.
Proof.
  intros dump f p o f' r l P H N. destruct (write_file_cases _ _ _ _ _ _ H) as [[-> _]|(k & W & -> & _)]; [reflexivity|].
  destruct (open_write_plain_inv _ _ _ P W) as (-> & _ & _). apply set_other, N.
Qed.

Lemma only_dirs_file : forall f f' l b, only_dirs f f' -> f l = Some (File b) -> f' l = Some (File b).
Proof. intros f f' l b O F. destruct (O l) as [E|[N _]]; congruence. Qed.

Lemma is_dir_kept : forall f f' parts, grows f f' -> is_dir f parts = true -> is_dir f' parts = true.
Proof.
  intros f f' parts G H. apply is_dir_iff in H. destruct H as (l & W & D). apply is_dir_iff. exists l. split; [|apply G; exact D]. apply (walk_mono f); [|exact W]. intros k. apply G.
Qed.

Lemma parse_metadata : p_parts (parse_path "metadata.json") = ["metadata.json"%string] /\ p_abs (parse_path "metadata.json") = false.
Proof. split; reflexivity. Qed.

Lemma metadata_place : forall p, p_parts (join_path p (parse_path "metadata.json")) = p_parts p ++ ["metadata.json"%string].
Proof. intros p. reflexivity. Qed.

Lemma metadata_cases : forall dump f io sub meta f' r, save_machine_metadata dump f io sub meta = (f', r) ->
  (f' = f /\ exists e, r = inr e) \/
  exists m p f1, meta = Some m /\ (sub = None /\ p = io_path io \/ (exists q, sub = Some (APath q) /\ p_abs q = true /\ p = q) \/ (exists a, sub = Some a /\ arg_abs a = false /\ p = join_to_save_path io a)) /\ ((exists e, mkdirs f p = (f1, inr e) /\ f' = f1 /\ r = inr e) \/ (mkdirs f p = (f1, inl tt) /\ write_file dump f1 (join_path p (parse_path "metadata.json")) m = (f', r))).
Proof.
  intros dump f io sub meta f' r H. unfold save_machine_metadata in H. destruct meta as [m|]; [|injection H as <- <-; left; eauto].
  assert (K : forall p, (match mkdirs f p with (f1, inr e) => (f1, inr e) | (f1, inl _) => write_file dump f1 (join_path p (parse_path "metadata.json")) m end) = (f', r) ->
    exists f1, (exists e, mkdirs f p = (f1, inr e) /\ f' = f1 /\ r = inr e) \/ (mkdirs f p = (f1, inl tt) /\ write_file dump f1 (join_path p (parse_path "metadata.json")) m = (f', r))).
  { intros p E. destruct (mkdirs f p) as [f1 [[]|e]]; [exists f1; right; auto|injection E as <- <-; exists f1; left; eauto]. }
  destruct sub as [a|].
  - destruct (arg_abs a) eqn:A.
    + destruct a as [s|q]; [injection H as <- <-; left; eauto|]. destruct (K _ H) as [f1 L]. right. exists m, q, f1. split; [reflexivity|]. split; [right; left; exists q; auto|exact L].
    + destruct (K _ H) as [f1 L]. right. exists m, (join_to_save_path io a), f1. split; [reflexivity|]. split; [right; right; exists a; auto|exact L].
  - destruct (K _ H) as [f1 L]. right. exists m, (io_path io), f1. split; [reflexivity|]. split; [left; auto|exact L].
Qed.

Lemma do_op_grows : forall pickle json f c, grows f (do_op (obj:=obj) pickle json f c) /\ (tree f -> tree (do_op pickle json f c)).
Proof.
  intros pickle json f c. destruct c as [io o name|io o name|io sub id|io sub meta]; cbn [do_op].
  - destruct (save_object pickle f io o name) as [f' r] eqn:E. exact (save_object_grows _ _ _ _ _ _ _ E).
  - destruct (save_json json f io o name) as [f' r] eqn:E. exact (write_grows _ _ _ _ _ _ E).
  - unfold init_save_dir. cbn [snd io_save]. destruct (mkdirs f (save_dir io sub id)) as [f' r] eqn:E. destruct (mkdirs_only _ _ _ _ E) as [O T]. cbn [fst]. split; [apply only_dirs_grows, O|exact T].
  - destruct (save_machine_metadata json f io sub meta) as [f' r] eqn:E. cbn [fst]. destruct (metadata_cases _ _ _ _ _ _ _ E) as [[-> _]|(m & p & f1 & _ & _ & [(e & M & -> & _)|[M W]])].
    + split; [intros l; split; auto|auto].
    + destruct (mkdirs_only _ _ _ _ M) as [O T]. split; [apply only_dirs_grows, O|exact T].
    + destruct (mkdirs_only _ _ _ _ M) as [O T]. destruct (write_grows _ _ _ _ _ _ W) as [G T2]. split; [exact (grows_trans _ _ _ (only_dirs_grows _ _ O) G)|auto].
Qed.

(* a file stays as it is unless an operation writes exactly there *)
Lemma do_op_file : forall pickle json f (c : file_op obj) l b, op_plain c -> ~ op_targets c l -> f l = Some (File b) -> do_op pickle json f c l = Some (File b).
Proof.
  intros pickle json f c l b P N F. destruct c as [io o name|io o name|io sub id|io sub meta]; cbn [do_op op_plain op_targets] in *.
  - destruct (save_object pickle f io o name) as [f' r] eqn:E. cbn [fst]. destruct (save_object_split _ _ _ _ _ _ _ E) as [(e & _ & M)|(f1 & M & W)]; pose proof (only_dirs_file _ _ _ _ (proj1 (mkdirs_only _ _ _ _ M)) F) as F1; [exact F1|].
    rewrite (write_plain_frame _ _ _ _ _ _ l P W); [exact F1|]. intros ->. apply N. reflexivity.
  - destruct (save_json json f io o name) as [f' r] eqn:E. cbn [fst]. rewrite (write_plain_frame _ _ _ _ _ _ l P E); [exact F|]. intros ->. apply N. reflexivity.
  - unfold init_save_dir. cbn [snd io_save]. destruct (mkdirs f (save_dir io sub id)) as [f' r] eqn:E. exact (only_dirs_file _ _ _ _ (proj1 (mkdirs_only _ _ _ _ E)) F).
  - destruct (save_machine_metadata json f io sub meta) as [f' r] eqn:E. cbn [fst]. destruct (metadata_cases _ _ _ _ _ _ _ E) as [[-> _]|(m & p & f1 & _ & S & [(e & M & -> & _)|[M W]])]; [exact F|exact (only_dirs_file _ _ _ _ (proj1 (mkdirs_only _ _ _ _ M)) F)|].
    pose proof (only_dirs_file _ _ _ _ (proj1 (mkdirs_only _ _ _ _ M)) F) as F1.
    assert (Dt : ".."%string <> "metadata.json"%string) by discriminate.
    assert (Q : plain (p_parts p) /\ p_parts p ++ ["metadata.json"%string] <> l).
    { destruct P as [P1 P2]. destruct S as [[-> ->]|[(q & -> & A & ->)|(a & -> & A & ->)]].
      - split; [exact P1|exact N].
      - rewrite A in N. split; [|exact N]. unfold target, join_to_save_path, join_path in P2. cbn [to_path] in P2. rewrite A in P2. exact P2.
      - split; [exact P2|]. destruct a as [s|q]; [exact N|]. cbn [arg_abs] in A. rewrite A in N. exact N. }
    destruct Q as [Q1 Q2]. rewrite (write_plain_frame _ _ _ _ _ _ l) with (2 := W); [exact F1| |].
    + unfold plain_path. rewrite metadata_place. apply plain_app. split; [exact Q1|]. intros [E2|[]]. congruence.
    + rewrite metadata_place. congruence.
Qed.

Lemma do_ops_file : forall pickle json (ops : list (file_op obj)) f l b, (forall c, In c ops -> op_plain c /\ ~ op_targets c l) -> f l = Some (File b) -> fold_left (do_op pickle json) ops f l = Some (File b).
Proof.
  intros pickle json ops. induction ops as [|c ops IH]; intros f l b H F; [exact F|]. cbn [fold_left]. apply IH; [intros d I; apply H; right; exact I|].
  destruct (H c (or_introl eq_refl)) as [P N]. apply do_op_file; assumption.
Qed.

Lemma do_ops_grows : forall pickle json (ops : list (file_op obj)) f, grows f (fold_left (do_op pickle json) ops f) /\ (tree f -> tree (fold_left (do_op pickle json) ops f)).
Proof.
  intros pickle json ops. induction ops as [|c ops IH]; intros f; cbn [fold_left]; [split; [intros l; split; auto|auto]|].
  destruct (IH (do_op pickle json f c)) as [G T]. destruct (do_op_grows pickle json f c) as [G0 T0]. split; [exact (grows_trans _ _ _ G0 G)|auto].
Qed.

Lemma read_plain : forall load f p b, plain_path p -> tree f -> f (p_parts p) = Some (File b) -> read_file load f p = load b.
Proof.
  intros load f p b P T F. unfold read_file, open_read. assert (W : walk f [] (p_parts p) = inl (p_parts p)).
  { apply (proj1 (walk_plain f _ [] P)). intros q r E N. destruct T as [_ T].
    assert (Up : forall s l, f (l ++ s) <> None -> s <> [] -> f l = Some Dir).
    { intros s. induction s as [|x s IHs] using rev_ind; intros l K Ns; [contradiction|]. rewrite app_assoc in K. pose proof (T _ _ K) as U. destruct s as [|y s]; [rewrite app_nil_r in U; exact U|]. apply IHs; [congruence|discriminate]. }
    cbn [app]. apply (Up r); [rewrite <- E; congruence|exact N]. }
  rewrite W, F. reflexivity.
Qed.

(* relative names without double dots stay inside *)
Lemma save_object_inside : forall dump f io o name f' r, tree f -> p_abs (to_path name) = false -> plain (target io name) -> p_parts (to_path name) <> [] -> f (p_parts (io_save io)) = Some Dir ->
  save_object dump f io o name = (f', r) -> forall l, f' l <> f l -> strictly_above (p_parts (io_save io)) l.
Proof.
  intros dump f io o name f' r T A P Nn D H l Ch.
  assert (Et : target io name = p_parts (io_save io) ++ p_parts (to_path name)) by (unfold target, join_to_save_path, join_path; rewrite A; reflexivity).
  assert (Pp : plain_path (parent_path (join_to_save_path io name))) by (apply plain_removelast; exact P).
  assert (Mk : forall f1 r1, mkdirs f (parent_path (join_to_save_path io name)) = (f1, r1) -> f1 l <> f l -> strictly_above (p_parts (io_save io)) l).
  { intros f1 r1 M C1. destruct r1 as [[]|e].
    - destruct (in_dec (list_eq_dec string_dec) l (map (fun i => firstn i (target io name)) (seq 0 (List.length (target io name))))) as [I|NI].
      + apply in_map_iff in I. destruct I as (i & <- & I). apply in_seq in I.
        destruct (le_lt_dec i (List.length (p_parts (io_save io)))) as [Le|Lt].
        * exfalso. apply C1. rewrite Et in *. rewrite firstn_app. replace (i - List.length (p_parts (io_save io))) with 0 by lia. cbn [firstn]. rewrite app_nil_r.
          assert (Dq : f (firstn i (p_parts (io_save io))) = Some Dir).
          { rewrite <- (firstn_skipn i (p_parts (io_save io))) in D. revert D. generalize (firstn i (p_parts (io_save io))) (skipn i (p_parts (io_save io))). intros a b. induction b as [|x b IHb] using rev_ind; intros K; [rewrite app_nil_r in K; exact K|]. apply IHb. apply (proj2 T _ x). rewrite <- app_assoc. congruence. }
          rewrite Dq. exact (proj1 (only_dirs_grows _ _ (proj1 (mkdirs_only _ _ _ _ M)) _) Dq).
        * exists (firstn (i - List.length (p_parts (io_save io))) (p_parts (to_path name))). split.
          -- intros E. apply (f_equal (@List.length string)) in E. rewrite firstn_length in E. rewrite Et, app_length in I. cbn in E. lia.
          -- rewrite Et, firstn_app, firstn_all2 by lia. reflexivity.
      + exfalso. apply C1. destruct (mkdirs_only _ _ _ _ M) as [O _].
        assert (NB : forall q, above q (p_parts (parent_path (join_to_save_path io name))) -> ~ holds_file f q).
        { intros q Aq Fq. destruct (mkdirs_blocked f _ T Pp (ex_intro _ q (conj Aq Fq))) as [K|K]; rewrite K in M; discriminate. }
        destruct (mkdirs_plain f _ T Pp NB) as (f2 & M2 & _ & O2 & _). rewrite M in M2. injection M2 as <-. apply O2. intros Al. apply NI.
        cbn [parent_path p_parts] in Al. fold (target io name) in Al. assert (Sa : strictly_above l (target io name)) by (apply strictly_above_parent; split; [rewrite Et; destruct (p_parts (io_save io)); [exact Nn|discriminate]|exact Al]).
        destruct Sa as (s & Ns & Es). apply in_map_iff. exists (List.length l). split; [rewrite Es, firstn_app, firstn_all, Nat.sub_diag; cbn; apply app_nil_r|].
        apply in_seq. rewrite Es, app_length. destruct s; [contradiction|cbn; lia].
    - exfalso. apply C1. rewrite (mkdirs_error f _ _ _ T Pp M). reflexivity. }
  destruct (save_object_split _ _ _ _ _ _ _ H) as [(e & _ & M)|(f1 & M & W)]; [exact (Mk _ _ M Ch)|].
  destruct (list_eq_dec string_dec l (target io name)) as [->|Nl].
  - exists (p_parts (to_path name)). split; [exact Nn|exact Et].
  - apply (Mk _ _ M). rewrite <- (write_plain_frame _ _ _ _ _ _ l P W Nl). exact Ch.
Qed.
End P.
