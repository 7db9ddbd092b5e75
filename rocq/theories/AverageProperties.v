(** C92: the average of the logs of repeated runs. *)
From Coq Require Import List Bool Arith Reals String Ascii Sorted Permutation Lia Lra.
From Verif Require Import Base FilesModel AverageModel AverageSpec AverageProofs.
From Verif Require BenchSpec FilesSpec FilesRunProofs.
Import ListNotations.
Local Open Scope nat_scope.

Definition written (logs : string -> string -> frame + ioexn) : Prop := forall sub d l, logs sub d = inl l -> log_ok l.

Lemma all_lines_in : forall dirs logs x ys cats last ls m, all_lines dirs logs x ys cats last = inl (ls, m) ->
  (forall l, In l ls <-> exists a n, In (l_size l, l_ratio l) cats /\ average dirs logs (l_size l) (l_ratio l) = inl (a, n) /\
     In (l_column l) ["mean"; "minimum"; "maximum"]%string /\ In (l_column l) ys /\ l_points l = points a x (l_column l)) /\
  (forall c, In c cats -> exists a n, average dirs logs (fst c) (snd c) = inl (a, n)) /\
  match rev cats with [] => m = last | c :: _ => exists a n, average dirs logs (fst c) (snd c) = inl (a, n) /\ m = Some n end.
Proof.
  intros dirs logs x ys cats. induction cats as [|(size & r) cats IH]; intros last ls m H; cbn [all_lines] in H.
  - injection H as <- <-. split; [|split; [intros c []|reflexivity]]. intros l. split; [intros []|intros (a & n & [] & _)].
  - destruct (average dirs logs size r) as [(a & n)|] eqn:A; [|discriminate]. destruct (all_lines dirs logs x ys cats (Some n)) as [(ls' & m')|] eqn:E; [|discriminate]. injection H as <- <-.
    destruct (IH _ _ _ E) as (I1 & I2 & I3). split; [|split].
    + intros l. rewrite in_app_iff, I1. unfold lines_of. rewrite in_map_iff. split.
      * intros [(y & <- & I)|(a' & n' & I & R)].
        -- apply filter_In in I. destruct I as (I & X). apply existsb_exists in X. destruct X as (y' & I' & X). apply String.eqb_eq in X. subst y'. exists a, n. cbn [l_size l_ratio l_column l_points]. split; [left; reflexivity|]. auto.
        -- exists a', n'. split; [right; exact I|exact R].
      * intros (a' & n' & I & B & C & D & P). destruct l as [s0 r0 y0 p0]. cbn [l_size l_ratio l_column l_points] in *. destruct I as [I|I]; [|right; exists a', n'; auto].
        left. injection I as <- <-. rewrite A in B. injection B as <- <-. exists y0. split; [rewrite P; reflexivity|]. apply filter_In. split; [exact C|]. apply existsb_exists. exists y0. rewrite String.eqb_refl. auto.
    + intros c [<-|I]; [exists a, n; exact A|apply I2; exact I].
    + cbn [rev]. destruct (rev cats) as [|c cs] eqn:R; cbn [app]; [subst m'; exists a, n; auto|exact I3].
Qed.

(* What is drawn: one line per category and asked column, one point per row that some run has; each coordinate is the total of the
   numbers at that row over the number of all runs *)
Theorem C92_points : forall dirs logs x ys cats ls n, written logs -> display_log_data dirs logs x ys cats = inl (ls, n) ->
  (x = "generation" \/ x = "time")%string /\
  (forall c y, In c cats -> In y ["mean"; "minimum"; "maximum"]%string -> In y ys -> exists l, In l ls /\ (l_size l, l_ratio l) = c /\ l_column l = y) /\
  (forall l, In l ls -> In (l_size l, l_ratio l) cats /\ In (l_column l) ys /\ In (l_column l) ["mean"; "minimum"; "maximum"]%string /\
    exists sub names runs rows, subdirectory (l_size l) (l_ratio l) = inl sub /\ dirs sub = inl names /\ read logs sub names runs /\ rows_of runs rows /\
      l_points l = map (fun g => (shown x runs g, shown (l_column l) runs g)) rows) /\
  (exists cats' c sub names, cats = cats' ++ [c] /\ subdirectory (fst c) (snd c) = inl sub /\ dirs sub = inl names /\ n = List.length names).
Proof.
  intros dirs logs x ys cats ls n K H. unfold display_log_data in H. destruct (existsb (String.eqb x) ["generation"; "time"]%string) eqn:X; [|discriminate].
  destruct (all_lines dirs logs x ys cats None) as [(ls' & [m|])|] eqn:E; [|discriminate..]. injection H as <- <-. destruct (all_lines_in _ _ _ _ _ _ _ _ E) as (I1 & I2 & I3). split; [|split; [|split]].
  - cbn in X. rewrite orb_false_r in X. apply orb_prop in X. destruct X as [X|X]; apply String.eqb_eq in X; auto.
  - intros (s & r) y I C Y. destruct (I2 _ I) as (a & k & A). exists (mkLine s r y (points a x y)). split; [|split; reflexivity]. apply I1. exists a, k. cbn [l_size l_ratio l_column l_points]. auto.
  - intros l I. apply I1 in I. destruct I as (a & k & I & A & C & Y & P). split; [exact I|]. split; [exact Y|]. split; [exact C|].
    destruct (average_shown _ _ _ _ _ _ K A) as (sub & names & runs & E1 & E2 & _ & R & _ & W & S). exists sub, names, runs, (f_rows a). repeat (split; [assumption|]).
    rewrite P. unfold points. apply map_ext_in. intros g G. rewrite !S by exact G. reflexivity.
  - destruct (rev cats) as [|c cs] eqn:R; [discriminate|]. destruct I3 as (a & k & A & B). injection B as <-. destruct (average_shown _ _ _ _ _ _ K A) as (sub & names & runs & E1 & E2 & N & _).
    exists (rev cs), c, sub, names. split; [|auto]. rewrite <- (rev_involutive cats), R. reflexivity.
Qed.
Print Assumptions C92_points.

(* Runs of the same length without missing numbers: the mean, at the generation itself *)
Lemma here_all : forall col runs g, (forall l, In l runs -> In g (f_rows l) /\ exists v, f_cell l col g = Some v) -> List.length (here col runs g) = List.length runs.
Proof.
  intros col runs g. induction runs as [|l runs IH]; intros H; [reflexivity|]. change (l :: runs) with ([l] ++ runs). rewrite here_app, here_one, !app_length, IH by (intros l' I; apply H; right; exact I).
  destruct (H l) as (I & v & E); [left; reflexivity|]. rewrite cell_in, E by exact I. reflexivity.
Qed.
Theorem C92_mean : forall col runs g, runs <> [] -> (forall l, In l runs -> In g (f_rows l) /\ exists v, f_cell l col g = Some v) ->
  shown col runs g = Some (mean (here col runs g)) /\ List.length (here col runs g) = List.length runs.
Proof.
  intros col runs g N H. assert (L := here_all col runs g H). split; [|exact L]. unfold shown, mean. rewrite L. destruct (here col runs g); [|reflexivity]. destruct runs; [contradiction|discriminate L].
Qed.
Print Assumptions C92_mean.

(* In general: a number that k of n runs have is drawn at k/n of its mean, and its row at k/n of its generation *)
Theorem C92_short : forall col runs g, let k := List.length (here col runs g) in
  (k = 0 -> shown col runs g = None) /\ (k <> 0 -> shown col runs g = Some (mean (here col runs g) * (INR k / INR (List.length runs)))%R) /\
  ((forall l, In l runs -> In g (f_rows l) -> f_cell l "generation" g = Some (INR g)) -> let k' := List.length (filter (fun l => if in_dec Nat.eq_dec g (f_rows l) then true else false) runs) in
    k' <> 0 -> shown "generation" runs g = Some (INR g * (INR k' / INR (List.length runs)))%R).
Proof.
  intros col runs g. cbv zeta. split; [|split].
  - intros E. unfold shown. destruct (here col runs g); [reflexivity|discriminate].
  - intros N. unfold shown, mean. destruct (here col runs g) as [|v vs] eqn:E; [contradiction|]. f_equal. assert (INR (List.length (v :: vs)) <> 0)%R by (apply not_0_INR; exact N).
    unfold Rdiv. rewrite (Rmult_assoc (total (v :: vs))), <- (Rmult_assoc (/ INR (List.length (v :: vs)))), Rinv_l, Rmult_1_l by assumption. reflexivity.
  - intros H N. assert (T : here "generation" runs g = map (fun _ => INR g) (filter (fun l => if in_dec Nat.eq_dec g (f_rows l) then true else false) runs)).
    { clear N. induction runs as [|l runs IH]; [reflexivity|]. change (l :: runs) with ([l] ++ runs) at 1. rewrite here_app, here_one, IH by (intros l' I; apply H; right; exact I). cbn [filter].
      destruct (in_dec Nat.eq_dec g (f_rows l)) as [I|O]; [rewrite cell_in, H by (try left; auto); reflexivity|rewrite cell_out by exact O; reflexivity]. }
    unfold shown. rewrite T. set (f := filter _ runs) in *. assert (S : total (map (fun _ : frame => INR g) f) = (INR g * INR (List.length f))%R).
    { clear. induction f as [|l f IH]; [cbn; ring|]. cbn [map total fold_right List.length] in *. rewrite S_INR. unfold total in IH. rewrite IH. ring. }
    destruct f as [|l f]; [contradiction|]. cbn [map] in *. rewrite S. f_equal. unfold Rdiv. ring.
Qed.
Print Assumptions C92_short.

(* so the line is not the mean over the runs that got there, nor at their generation *)
Definition short_log (n : nat) (v : R) : frame := mkFrame (seq 0 n) (fun col g => Some (if String.eqb col "generation" then INR g else v)).
Theorem C92_mean_refuted : exists dirs logs ls n l, written logs /\ display_log_data dirs logs "generation" ["mean"]%string [(8, Whole 0)] = inl (ls, n) /\ In l ls /\
  (forall sub d f, logs sub d = inl f -> forall g, In g (f_rows f) -> f_cell f "generation" g = Some (INR g) /\ f_cell f "mean" g = Some 4%R) /\
  In (Some (1 / 2)%R, Some 2%R) (l_points l).
Proof.
  exists (fun _ => inl ["iteration_0"; "iteration_1"]%string), (fun _ d => if String.eqb d "iteration_0" then inl (short_log 2 4) else inl (short_log 1 4)).
  eexists _, _, (mkLine 8 (Whole 0) "mean" _). split; [|split; [reflexivity|]].
  - intros sub d l H. destruct (String.eqb d "iteration_0"); injection H as <-; unfold log_ok; cbn; repeat constructor.
  - split; [left; reflexivity|]. split.
    + intros sub d f H g I. destruct (String.eqb d "iteration_0"); injection H as <-; cbn; auto.
    + right. left. cbn. f_equal; f_equal; field.
Qed.
Print Assumptions C92_mean_refuted.

(* the order in which the directories are listed does not matter *)
Theorem C92_order : forall logs sub names names' runs runs' rows rows' col g, read logs sub names runs -> read logs sub names' runs' -> Permutation names names' ->
  rows_of runs rows -> rows_of runs' rows' -> rows = rows' /\ shown col runs g = shown col runs' g.
Proof.
  intros logs sub names names' runs runs' rows rows' col g R R' P W W'.
  assert (Q : Permutation runs runs').
  { clear W W'. revert runs runs' R R'. induction P as [|d a b P IH|d e a|a b c P IH P' IH']; intros runs runs' R R'.
    - inversion R; inversion R'; subst. constructor.
    - inversion R as [|? l ? r E F]; inversion R' as [|? l' ? r' E' F']; subst. rewrite E in E'. injection E' as <-. constructor. apply IH; assumption.
    - inversion R as [|? l ? r E F]; subst. inversion F as [|? m ? q E1 F1]; subst. inversion R' as [|? l' ? r' E' F']; subst. inversion F' as [|? m' ? q' E1' F1']; subst.
      rewrite E in E1'. injection E1' as <-. rewrite E1 in E'. injection E' as <-. assert (q = q') as <-; [|apply perm_swap].
      clear - F1 F1'. revert q' F1'. induction F1 as [|d l a q E F IH]; intros q' G; inversion G as [|? l' ? ? E' G']; subst; [reflexivity|]. rewrite E in E'. injection E' as <-. f_equal. apply IH. exact G'.
    - assert (M : exists mid, read logs sub b mid).
      { clear - P R. assert (K : forall d, In d b -> exists l, logs sub d = inl l). { intros d I. apply (Permutation_in _ (Permutation_sym P)) in I. clear - R I. induction R as [|e l a r E F IH]; [destruct I|]. destruct I as [<-|I]; [exists l; exact E|apply IH; exact I]. }
        clear R P. induction b as [|d b IH]; [exists []; constructor|]. destruct (K d) as (l & E); [left; reflexivity|]. destruct IH as (mid & M); [intros e I; apply K; right; exact I|]. exists (l :: mid). constructor; assumption. }
      destruct M as (mid & M). eapply Permutation_trans; [apply (IH runs mid); assumption|apply (IH' mid runs'); assumption]. }
  split; [|apply shown_perm; exact Q]. destruct W as (S & E), W' as (S' & E'). apply sorted_unique; [exact S|exact S'|]. intros h. rewrite E, E'. split; intros (l & I & J); exists l; (split; [|exact J]); [eapply Permutation_in; eassumption|eapply Permutation_in; [apply Permutation_sym; exact Q|exact I]].
Qed.
Print Assumptions C92_order.

(* the benchmark's directories are found, unless the ratio is written with an exponent *)
Theorem C92_names : forall size, (forall n, subdirectory size (Whole n) = inl ("popSize" ++ num size ++ "_elitismRatio" ++ BenchSpec.underscored (num n))%string) /\
  (forall w d, FilesSpec.without "." d -> subdirectory size (Float (num w ++ "." ++ d) w) = inl ("popSize" ++ num size ++ "_elitismRatio" ++ BenchSpec.underscored (num w ++ "." ++ d))%string) /\
  (forall t w, FilesSpec.without "." t -> subdirectory size (Float t w) = inr (Py IndexError)).
Proof.
  intros size. assert (N : forall w, FilesSpec.without "." (num w)) by (intros w; apply FilesRunProofs.num_chars; left; cbn; lia). split; [|split].
  - intros n. rewrite underscored_same by apply N. reflexivity.
  - intros w d W. cbn [subdirectory]. change ("." ++ d)%string with (String "." d). rewrite (after_dot_app _ _ (N w)). change (String "." d) with ("." ++ d)%string. rewrite !underscored_app, (underscored_same (num w)), (underscored_same d) by auto. reflexivity.
  - intros t w W. cbn [subdirectory]. replace (after_dot t) with (@None string); [reflexivity|]. symmetry. induction t as [|c t IH]; [reflexivity|]. apply FilesRunProofs.all_chars_cons in W. destruct W as (W & V). cbn [after_dot].
    destruct (Ascii.eqb_spec c ".") as [->|_]; [contradiction|apply IH; exact V].
Qed.
Print Assumptions C92_names.

(* it draws exactly if every category has a directory with at least one entry and every entry has a log *)
Theorem C92_draws : forall dirs logs x ys cats,
  (exists out, display_log_data dirs logs x ys cats = inl out) <->
  (x = "generation" \/ x = "time")%string /\ cats <> [] /\
  forall size r, In (size, r) cats -> exists sub names, subdirectory size r = inl sub /\ dirs sub = inl names /\ names <> [] /\ forall d, In d names -> exists l, logs sub d = inl l.
Proof.
  intros dirs logs x ys cats.
  assert (Av : forall size r, (exists a n, average dirs logs size r = inl (a, n)) <-> exists sub names, subdirectory size r = inl sub /\ dirs sub = inl names /\ names <> [] /\ forall d, In d names -> exists l, logs sub d = inl l).
  { intros size r. unfold average. split.
    - intros (a & n & H). destruct (subdirectory size r) as [sub|]; [|discriminate]. exists sub. destruct (dirs sub) as [names|]; [|discriminate]. exists names. destruct (sum_logs logs sub names None) as [[b|]|] eqn:S; [|discriminate..].
      split; [reflexivity|]. split; [reflexivity|]. split; [intros ->; discriminate S|]. clear H. revert S. generalize (@None frame). induction names as [|d names IH]; intros acc S e I; [destruct I|]. cbn [sum_logs] in S. destruct (logs sub d) as [l|] eqn:E; [|discriminate].
      destruct I as [<-|I]; [exists l; exact E|]. eapply IH; eassumption.
    - intros (sub & names & -> & -> & N & K). destruct (sum_logs_total logs sub names None K) as (out & -> & O). destruct out as [b|]; [eauto|]. exfalso. apply O; auto. }
  assert (Al : forall last, (exists out, all_lines dirs logs x ys cats last = inl out) <-> forall c, In c cats -> exists a n, average dirs logs (fst c) (snd c) = inl (a, n)).
  { induction cats as [|(s & r) cats IH]; intros last; cbn [all_lines]; [split; [intros _ c []|eauto]|]. split.
    - intros (out & H). destruct (average dirs logs s r) as [(a & n)|] eqn:A; [|discriminate]. destruct (all_lines dirs logs x ys cats (Some n)) as [(l & m)|] eqn:E; [|discriminate]. intros c [<-|I]; [exists a, n; exact A|]. apply (proj1 (IH (Some n))); [eauto|exact I].
    - intros H. destruct (H (s, r)) as (a & n & A); [left; reflexivity|]. cbn [fst snd] in A. rewrite A. destruct (proj2 (IH (Some n))) as ((l & m) & ->); [intros c I; apply H; right; exact I|]. eauto. }
  unfold display_log_data. split.
  - intros (out & H). destruct (existsb (String.eqb x) ["generation"; "time"]%string) eqn:X; [|discriminate]. split; [cbn in X; rewrite orb_false_r in X; apply orb_prop in X; destruct X as [X|X]; apply String.eqb_eq in X; auto|].
    destruct (all_lines dirs logs x ys cats None) as [(ls & m)|] eqn:E; [|discriminate]. split; [intros ->; cbn in E; injection E as <- <-; discriminate|].
    intros size r I. apply Av. exact (proj1 (Al None) (ex_intro _ _ E) _ I).
  - intros (X & N & K). replace (existsb (String.eqb x) ["generation"; "time"]%string) with true by (destruct X as [->| ->]; reflexivity).
    destruct (proj2 (Al None)) as ((ls & m) & E); [intros (s & r) I; apply Av; apply K; exact I|]. rewrite E. destruct (all_lines_in _ _ _ _ _ _ _ _ E) as (_ & _ & M). destruct (rev cats) as [|c cs] eqn:R; [exfalso; apply N; rewrite <- (rev_involutive cats), R; reflexivity|].
    destruct M as (a & n & _ & ->). eauto.
Qed.
Print Assumptions C92_draws.

(* and what it raises else: the error of the first category that has one *)
Theorem C92_raises : forall dirs logs x ys cats e, display_log_data dirs logs x ys cats = inr e ->
  (x <> "generation" /\ x <> "time" /\ e = Py ValueError)%string \/ (cats = [] /\ e = Py NameError) \/
  exists pre size r post, cats = pre ++ (size, r) :: post /\ (forall c, In c pre -> exists sub names, subdirectory (fst c) (snd c) = inl sub /\ dirs sub = inl names /\ forall d, In d names -> exists l, logs sub d = inl l) /\
    (subdirectory size r = inr e \/ exists sub, subdirectory size r = inl sub /\
      (dirs sub = inr e \/ (dirs sub = inl [] /\ e = Py TypeError) \/
       exists before d after, dirs sub = inl (before ++ d :: after) /\ logs sub d = inr e /\ forall b, In b before -> exists l, logs sub b = inl l)).
Proof.
  intros dirs logs x ys cats e H. unfold display_log_data in H. destruct (existsb (String.eqb x) ["generation"; "time"]%string) eqn:X.
  - right. assert (F : forall sub names acc, sum_logs logs sub names acc = inr e -> exists before d after, names = before ++ d :: after /\ logs sub d = inr e /\ forall b, In b before -> exists l, logs sub b = inl l).
    { intros sub names. induction names as [|d names IH]; intros acc S; cbn [sum_logs] in S; [discriminate|]. destruct (logs sub d) as [l|e'] eqn:E.
      - destruct (IH _ S) as (before & d' & after & -> & E' & K). exists (d :: before), d', after. split; [reflexivity|]. split; [exact E'|]. intros b [<-|I]; [exists l; exact E|apply K; exact I].
      - injection S as ->. exists [], d, names. split; [reflexivity|]. split; [exact E|]. intros b []. }
    assert (G : forall sub names acc out, sum_logs logs sub names acc = inl out -> forall d, In d names -> exists l, logs sub d = inl l).
    { intros sub names. induction names as [|d names IH]; intros acc out S b I; [destruct I|]. cbn [sum_logs] in S. destruct (logs sub d) as [l|] eqn:E; [|discriminate]. destruct I as [<-|I]; [exists l; exact E|eapply IH; eassumption]. }
    destruct (all_lines dirs logs x ys cats None) as [(ls & [n|])|e'] eqn:E; [discriminate| |].
    + left. injection H as <-. split; [|reflexivity]. destruct (all_lines_in _ _ _ _ _ _ _ _ E) as (_ & _ & M). destruct (rev cats) as [|c cs] eqn:R; [|destruct M as (a & k & _ & M); discriminate]. rewrite <- (rev_involutive cats), R. reflexivity.
    + right. injection H as ->. revert E. generalize (@None nat). induction cats as [|(s & r) cats IH]; intros last E; cbn [all_lines] in E; [discriminate|].
      destruct (average dirs logs s r) as [(a & n)|e'] eqn:A.
      * destruct (all_lines dirs logs x ys cats (Some n)) as [(l & m)|e'] eqn:E2; [discriminate|]. injection E as ->. destruct (IH _ E2) as (pre & s' & r' & post & -> & K & R). exists ((s, r) :: pre), s', r', post. split; [reflexivity|]. split; [|exact R].
        intros c [<-|I]; [|apply K; exact I]. cbn [fst snd]. unfold average in A. destruct (subdirectory s r) as [sub|]; [|discriminate]. destruct (dirs sub) as [names|] eqn:D; [|discriminate]. destruct (sum_logs logs sub names None) as [[b|]|] eqn:S; [|discriminate..]. exists sub, names. split; [reflexivity|]. split; [exact D|]. eapply G; exact S.
      * injection E as ->. exists [], s, r, cats. split; [reflexivity|]. split; [intros c []|]. unfold average in A. destruct (subdirectory s r) as [sub|e']; [|left; injection A as ->; reflexivity]. right. exists sub. split; [reflexivity|].
        destruct (dirs sub) as [names|e'] eqn:D; [|left; injection A as ->; reflexivity]. right. destruct (sum_logs logs sub names None) as [[b|]|e'] eqn:S; [discriminate|left|right].
        -- injection A as <-. apply sum_logs_none in S. destruct S as (_ & ->). auto.
        -- injection A as ->. destruct (F _ _ _ S) as (before & d & after & -> & K). exists before, d, after. auto.
  - left. injection H as <-. cbn in X. rewrite orb_false_r in X. apply orb_false_elim in X. destruct X as (X1 & X2). apply String.eqb_neq in X1. apply String.eqb_neq in X2. auto.
Qed.
Print Assumptions C92_raises.

(* ** Examples *)
Example points_case : exists ls l, display_log_data (fun _ => inl ["iteration_0"; "iteration_1"]%string) (fun _ d => inl (short_log 2 (if String.eqb d "iteration_0" then 4 else 6))) "generation" ["minimum"; "best"]%string [(8, Whole 0)] = inl (ls, 2) /\
  In l ls /\ l_column l = "minimum"%string /\ In (Some 1%R, Some 5%R) (l_points l) /\ List.length ls = 1.
Proof. eexists _, (mkLine 8 (Whole 0) "minimum" _). split; [reflexivity|]. split; [left; reflexivity|]. split; [reflexivity|]. split; [|reflexivity]. right. left. cbn. f_equal; f_equal; field. Qed.
Example mean_case : shown "mean" [short_log 3 4; short_log 3 6] 2 = Some 5%R /\ shown "generation" [short_log 3 4; short_log 3 6] 2 = Some 2%R.
Proof. split; cbn; f_equal; field. Qed.
Example short_case : shown "mean" [short_log 3 4; short_log 1 6] 2 = Some 2%R /\ shown "generation" [short_log 3 4; short_log 1 6; short_log 3 6; short_log 2 0] 2 = Some 1%R.
Proof. split; cbn; f_equal; field. Qed.
Example names_case : subdirectory 8 (Float "0.3" 0) = inl "popSize8_elitismRatio0_3"%string /\ subdirectory 8 (Float "1e-05" 0) = inr (Py IndexError).
Proof. split; reflexivity. Qed.
Example order_case : shown "mean" [short_log 3 4; short_log 1 6] 0 = shown "mean" [short_log 1 6; short_log 3 4] 0.
Proof. cbn. f_equal. field. Qed.
Example draws_case : let dirs := fun s => if String.eqb s "popSize8_elitismRatio0" then inl ["iteration_0"]%string else inr (OS FileNotFoundError) in let logs := fun _ _ => inl (short_log 1 4) in
  (exists out, display_log_data dirs logs "time" ["mean"]%string [(8, Whole 0)] = inl out) /\ display_log_data dirs logs "time" ["mean"]%string [(8, Whole 0); (8, Float "0.1" 0)] = inr (OS FileNotFoundError) /\
  display_log_data dirs logs "best" ["mean"]%string [(8, Whole 0)] = inr (Py ValueError) /\ display_log_data dirs logs "time" ["mean"]%string [] = inr (Py NameError).
Proof. cbv zeta. split; [eexists; reflexivity|]. repeat split; reflexivity. Qed.
