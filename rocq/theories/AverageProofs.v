(** Proofs for C92. *)
From Coq Require Import List Bool Arith Reals String Ascii Sorted Permutation Lia Lra.
From Verif Require Import Base FilesModel AverageModel AverageSpec.
From Verif Require BenchSpec FilesSpec FilesRunProofs.
Import ListNotations.
Local Open Scope nat_scope.

Lemma insert_in : forall g l h, In h (insert_label g l) <-> h = g \/ In h l.
Proof.
  induction l as [|a l IH]; intros h; cbn [insert_label]; [cbn; intuition|].
  destruct (Nat.compare_spec g a) as [->|L|L]; cbn [In]; rewrite ?IH; intuition.
Qed.
Lemma insert_sorted : forall g l, StronglySorted lt l -> StronglySorted lt (insert_label g l).
Proof.
  induction l as [|a l IH]; intros S; cbn [insert_label]; [repeat constructor|]. inversion S as [|? ? S' F]; subst.
  destruct (Nat.compare_spec g a) as [->|L|L]; [exact S| |].
  - constructor; [exact S|]. constructor; [exact L|]. eapply Forall_impl; [|exact F]. cbn; lia.
  - constructor; [apply IH; exact S'|]. apply Forall_forall. intros h I. apply insert_in in I. destruct I as [->|I]; [exact L|]. rewrite Forall_forall in F. apply F; exact I.
Qed.
Lemma all_in : forall l h, In h (fold_right insert_label [] l) <-> In h l.
Proof. induction l as [|a l IH]; intros h; cbn [fold_right]; [reflexivity|]. rewrite insert_in, IH. cbn; intuition. Qed.
Lemma all_sorted : forall l, StronglySorted lt (fold_right insert_label [] l).
Proof. induction l; cbn [fold_right]; [constructor|apply insert_sorted; assumption]. Qed.
Lemma join_in : forall a b h, In h (join_labels a b) <-> In h a \/ In h b.
Proof. intros a b h. unfold join_labels. destruct (list_eq_dec _ a b) as [->|_]; [tauto|]. rewrite all_in, in_app_iff. reflexivity. Qed.
Lemma join_sorted : forall a b, StronglySorted lt a -> StronglySorted lt (join_labels a b).
Proof. intros a b S. unfold join_labels. destruct (list_eq_dec _ a b); [exact S|apply all_sorted]. Qed.

Lemma sorted_unique : forall a b, StronglySorted lt a -> StronglySorted lt b -> (forall g, In g a <-> In g b) -> a = b.
Proof.
  induction a as [|x a IH]; intros [|y b] Sa Sb E.
  - reflexivity.
  - exfalso. apply (proj2 (E y)). left; reflexivity.
  - exfalso. apply (proj1 (E x)). left; reflexivity.
  - inversion Sa as [|? ? Sa' Fa]; inversion Sb as [|? ? Sb' Fb]; subst. rewrite Forall_forall in Fa, Fb.
    assert (x = y). { destruct (proj1 (E x) (or_introl eq_refl)) as [->|I]; [reflexivity|]. destruct (proj2 (E y) (or_introl eq_refl)) as [->|J]; [reflexivity|]. apply Fb in I. apply Fa in J. lia. }
    subst y. f_equal. apply IH; [assumption..|]. intros g. split; intros I.
    + destruct (proj1 (E g) (or_intror I)) as [->|J]; [exfalso; apply Fa in I; lia|exact J].
    + destruct (proj2 (E g) (or_intror I)) as [->|J]; [exfalso; apply Fb in I; lia|exact J].
Qed.

Lemma cell_out : forall a col g, ~ In g (f_rows a) -> cell a col g = None.
Proof. intros a col g N. unfold cell. destruct (existsb (Nat.eqb g) (f_rows a)) eqn:E; [|reflexivity]. apply existsb_exists in E. destruct E as (h & I & E). apply Nat.eqb_eq in E. subst h. contradiction. Qed.
Lemma cell_in : forall a col g, In g (f_rows a) -> cell a col g = f_cell a col g.
Proof. intros a col g I. unfold cell. replace (existsb (Nat.eqb g) (f_rows a)) with true; [reflexivity|]. symmetry. apply existsb_exists. exists g. rewrite Nat.eqb_refl. auto. Qed.

Definition summed (xs : list R) : option R := match xs with [] => None | _ => Some (total xs) end.
Definition stands (ls : list frame) (a : frame) : Prop := rows_of ls (f_rows a) /\ forall col g, cell a col g = summed (here col ls g).

Lemma here_app : forall col a b g, here col (a ++ b) g = here col a g ++ here col b g.
Proof. intros. unfold here. rewrite flat_map_app. reflexivity. Qed.
Lemma here_one : forall col l g, here col [l] g = match cell l col g with Some x => [x] | None => [] end.
Proof. intros col l g. unfold here. cbn [flat_map]. rewrite app_nil_r. destruct (in_dec Nat.eq_dec g (f_rows l)) as [I|N]; [rewrite cell_in by exact I|rewrite cell_out by exact N]; reflexivity. Qed.
Lemma total_app : forall a b, total (a ++ b) = (total a + total b)%R.
Proof. unfold total. induction a as [|x a IH]; intros b; cbn [app fold_right]; [ring|rewrite IH; ring]. Qed.
Lemma summed_app : forall a b, summed (a ++ b) = filled_sum (summed a) (summed b).
Proof.
  intros a b. destruct a as [|x a], b as [|y b]; cbn [summed app filled_sum]; try reflexivity.
  - f_equal. ring.
  - rewrite app_nil_r. f_equal. ring.
  - f_equal. change (x :: a ++ y :: b) with ((x :: a) ++ (y :: b)). apply total_app.
Qed.
Lemma stands_one : forall l, log_ok l -> stands [l] l.
Proof.
  intros l S. split; [split; [exact S|]|].
  - intros g. split; [intros I; exists l; cbn; auto|]. intros (l' & [<-|[]] & I). exact I.
  - intros col g. rewrite here_one. destruct (cell l col g); cbn; [f_equal; ring|reflexivity].
Qed.
Lemma stands_add : forall ls a l, stands ls a -> log_ok l -> stands (ls ++ [l]) (add_frames a l).
Proof.
  intros ls a l ((S & E) & C) L. split; [split|].
  - apply join_sorted; exact S.
  - intros g. cbn [add_frames f_rows]. rewrite join_in, E. split.
    + intros [(l' & I & J)|J]; [exists l'; rewrite in_app_iff; auto|exists l; rewrite in_app_iff; cbn; auto].
    + intros (l' & I & J). apply in_app_iff in I. destruct I as [I|[<-|[]]]; [left; exists l'; auto|right; exact J].
  - intros col g. rewrite here_app, here_one, summed_app, <- C.
    assert (P : summed (match cell l col g with Some x => [x] | None => [] end) = cell l col g) by (destruct (cell l col g); cbn; [f_equal; ring|reflexivity]). rewrite P.
    destruct (in_dec Nat.eq_dec g (f_rows (add_frames a l))) as [I|N]; [rewrite cell_in by exact I; reflexivity|].
    rewrite (cell_out _ _ _ N). cbn [add_frames f_rows] in N. rewrite join_in in N. rewrite !cell_out by tauto. reflexivity.
Qed.

(* the logs of the listed runs *)
Definition read (logs : string -> string -> frame + ioexn) (sub : string) (names : list string) (ls : list frame) : Prop :=
  Forall2 (fun d l => logs sub d = inl l) names ls.

Lemma read_length : forall logs sub names ls, read logs sub names ls -> List.length names = List.length ls.
Proof. induction 1; cbn; congruence. Qed.

Lemma sum_logs_some : forall logs sub names a out, sum_logs logs sub names (Some a) = inl out -> forall pre, stands pre a -> (forall d l, In d names -> logs sub d = inl l -> log_ok l) ->
  exists ls b, out = Some b /\ read logs sub names ls /\ stands (pre ++ ls) b.
Proof.
  induction names as [|d names IH]; intros a out H pre S K; cbn [sum_logs] in H.
  - injection H as <-. exists [], a. rewrite app_nil_r. split; [reflexivity|]. split; [constructor|exact S].
  - destruct (logs sub d) as [l|] eqn:E; [|discriminate]. destruct (IH _ _ H (pre ++ [l])) as (ls & b & -> & R & T).
    + apply stands_add; [exact S|]. apply (K d); [left; reflexivity|exact E].
    + intros d' l' I. apply K. right; exact I.
    + exists (l :: ls), b. rewrite <- app_assoc in T. split; [reflexivity|]. split; [constructor; assumption|exact T].
Qed.
Lemma sum_logs_ok : forall logs sub names out, sum_logs logs sub names None = inl out -> (forall d l, In d names -> logs sub d = inl l -> log_ok l) ->
  (out = None /\ names = []) \/ exists ls b, out = Some b /\ read logs sub names ls /\ ls <> [] /\ stands ls b.
Proof.
  intros logs sub [|d names] out H K; cbn [sum_logs] in H; [left; injection H as <-; auto|right].
  destruct (logs sub d) as [l|] eqn:E; [|discriminate].
  destruct (sum_logs_some logs sub names l out H [l]) as (ls & b & -> & R & S).
  - apply stands_one. apply (K d); [left; reflexivity|exact E].
  - intros d' l' I. apply K. right; exact I.
  - exists (l :: ls), b. split; [reflexivity|]. split; [constructor; assumption|]. split; [discriminate|exact S].
Qed.
Lemma sum_logs_total : forall logs sub names acc, (forall d, In d names -> exists l, logs sub d = inl l) -> exists out, sum_logs logs sub names acc = inl out /\ (names <> [] \/ acc <> None -> out <> None).
Proof.
  induction names as [|d names IH]; intros acc K; cbn [sum_logs]; [exists acc; split; [reflexivity|intros [H|H]; [contradiction|exact H]]|].
  destruct (K d) as (l & E); [left; reflexivity|]. rewrite E. destruct (IH (Some (match acc with None => l | Some a => add_frames a l end))) as (out & H & N); [intros d' I; apply K; right; exact I|].
  exists out. split; [exact H|]. intros _. apply N. right; discriminate.
Qed.
Lemma sum_logs_err : forall logs sub names acc e, sum_logs logs sub names acc = inr e -> exists d, In d names /\ logs sub d = inr e.
Proof.
  induction names as [|d names IH]; intros acc e H; cbn [sum_logs] in H; [discriminate|]. destruct (logs sub d) as [l|e'] eqn:E; [|injection H as <-; exists d; cbn; auto].
  destruct (IH _ _ H) as (d' & I & E'). exists d'. cbn; auto.
Qed.
Lemma sum_logs_none : forall logs sub names acc, sum_logs logs sub names acc = inl None -> acc = None /\ names = [].
Proof.
  induction names as [|d names IH]; intros acc H; cbn [sum_logs] in H; [injection H as ->; auto|]. destruct (logs sub d); [|discriminate]. apply IH in H. destruct H; discriminate.
Qed.

(* ** The average of a category *)
Lemma average_shown : forall dirs logs size r a n, (forall sub d l, logs sub d = inl l -> log_ok l) -> average dirs logs size r = inl (a, n) ->
  exists sub names ls, subdirectory size r = inl sub /\ dirs sub = inl names /\ n = List.length names /\ read logs sub names ls /\ ls <> [] /\
    rows_of ls (f_rows a) /\ forall col g, In g (f_rows a) -> f_cell a col g = shown col ls g.
Proof.
  intros dirs logs size r a n K H. unfold average in H. destruct (subdirectory size r) as [sub|] eqn:E; [|discriminate]. destruct (dirs sub) as [names|] eqn:D; [|discriminate].
  destruct (sum_logs logs sub names None) as [[b|]|] eqn:S; [|discriminate..]. injection H as <- <-.
  destruct (sum_logs_ok _ _ _ _ S) as [(N & _)|(ls & b' & B & R & N & (Rw & C))]; [intros d l _; apply K|discriminate|]. injection B as <-.
  exists sub, names, ls. split; [reflexivity|]. split; [exact D|]. split; [reflexivity|]. split; [exact R|]. split; [exact N|]. cbn [divide_frame f_rows f_cell]. split; [exact Rw|].
  intros col g I. rewrite <- (cell_in b col g I), C. unfold summed, shown. assert (Len : List.length names = List.length ls) by (eapply read_length; exact R). rewrite Len. destruct (here col ls g); reflexivity.
Qed.

Lemma here_perm : forall col ls ls' g, Permutation ls ls' -> Permutation (here col ls g) (here col ls' g).
Proof. intros. unfold here. apply Permutation_flat_map. assumption. Qed.
Lemma total_perm : forall a b, Permutation a b -> total a = total b.
Proof. unfold total. induction 1; cbn [fold_right]; try congruence; ring. Qed.
Lemma shown_perm : forall col ls ls' g, Permutation ls ls' -> shown col ls g = shown col ls' g.
Proof.
  intros col ls ls' g P. unfold shown. assert (H := here_perm col ls ls' g P). assert (T := total_perm _ _ H). assert (L := Permutation_length P).
  destruct (here col ls g) as [|x xs] eqn:E, (here col ls' g) as [|y ys] eqn:E'; [reflexivity|apply Permutation_nil in H; discriminate|apply Permutation_sym, Permutation_nil in H; discriminate|].
  rewrite T, L. reflexivity.
Qed.

(* ** Directory names *)
Lemma after_dot_app : forall a b, FilesSpec.without "." a -> after_dot (a ++ String "." b) = Some b.
Proof.
  induction a as [|c a IH]; intros b H; cbn [append after_dot]; [reflexivity|]. apply FilesRunProofs.all_chars_cons in H. destruct H as (H & W).
  destruct (Ascii.eqb_spec c ".") as [->|_]; [contradiction|]. apply IH. exact W.
Qed.
Lemma underscored_app : forall a b, BenchSpec.underscored (a ++ b) = (BenchSpec.underscored a ++ BenchSpec.underscored b)%string.
Proof. unfold BenchSpec.underscored. induction a as [|c a IH]; intros b; cbn [append list_ascii_of_string map string_of_list_ascii]; [reflexivity|]. f_equal. apply IH. Qed.
Lemma underscored_same : forall a, FilesSpec.without "." a -> BenchSpec.underscored a = a.
Proof.
  unfold BenchSpec.underscored. induction a as [|c a IH]; intros H; cbn [list_ascii_of_string map string_of_list_ascii]; [reflexivity|]. apply FilesRunProofs.all_chars_cons in H. destruct H as (H & W).
  destruct (ascii_dec c ".") as [->|_]; [contradiction|]. f_equal. apply IH. exact W.
Qed.
