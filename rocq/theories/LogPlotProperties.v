(** C95: the plots of optimisation logs. *)
From Coq Require Import List Arith Bool ZArith QArith String Permutation Lia.
From Verif Require Import Base FloatModel FloatArith LoggerModel LogPlotModel LogPlotSpec LogPlotProofs.
Import ListNotations.
Local Open Scope list_scope.
Local Open Scope nat_scope.

(* one set of points for each algorithm that occurs, in the order of first appearance, with just its rows *)
Theorem C95_groups : forall V value p rows x y gs, display_log V value p rows x y = Ok gs ->
  NoDup (map (g_label V) gs) /\
  (forall a, In a (map (g_label V) gs) <-> exists r, In r rows /\ made_by a r) /\
  (forall i j a b, i < j -> nth_error (map (g_label V) gs) i = Some a -> nth_error (map (g_label V) gs) j = Some b -> before rows a b) /\
  (forall g, In g gs -> exists mine, picked (made_by (g_label V g)) rows mine /\ g_points V g = map (fun r => (value x r, value y r)) mine) /\
  Permutation (List.concat (map (g_points V) gs)) (map (fun r => (value x r, value y r)) rows).
Proof.
  intros V value p rows x y gs H. unfold display_log in H. fold alg_of in H. change (map (fun r => r_alg (snd r)) rows) with (map alg_of rows) in H. apply groups_inv in H. destruct H as (L & _ & G). rewrite L.
  split; [apply unique_NoDup|]. split; [|split; [intros i j a b; apply unique_before|split]].
  - intros a. rewrite unique_In, in_map_iff. split; intros (r & A & B); exists r; split; assumption.
  - intros g Hg. exists (of_alg (g_label V g) rows). split; [apply of_alg_picked|]. apply G. exact Hg.
  - assert (E : List.concat (map (g_points V) gs) = map (coords V value x y) (flat_map (fun a => of_alg a rows) (map (g_label V) gs))).
    { clear L. induction gs as [|g gs IH]; [reflexivity|]. cbn [map List.concat flat_map]. rewrite map_app, IH; [|intros k Hk; apply G; right; exact Hk]. f_equal. apply G. left. reflexivity. }
    rewrite E. apply Permutation_map. rewrite L. apply groups_cover; [apply unique_NoDup|]. intros r Hr. apply unique_In, in_map. exact Hr.
Qed.
Print Assumptions C95_groups.

(* the plot of a log that can be made is drawn exactly if it is empty or both columns exist; else KeyError *)
Theorem C95_drawn : forall V value lg x y, logged lg ->
  ((exists gs, display_log V value Default (l_rows lg) x y = Ok gs) <-> l_rows lg = [] \/ known x /\ known y) /\
  (forall e, display_log V value Default (l_rows lg) x y = Err e -> e = KeyError).
Proof.
  intros V value lg x y Lg. split; [split|apply groups_err].
  - intros (gs & H). unfold display_log in H. apply groups_inv in H. destruct H as (_ & K & _). destruct (l_rows lg) as [|r rows]; [left; reflexivity|right]. apply K. cbn. discriminate.
  - intros [->|(X & Y)]; [exists []; reflexivity|]. apply groups_ok; [exact X|exact Y|]. intros a Ha. apply unique_In, in_map_iff in Ha. destruct Ha as (r & E & Hr). destruct (proj1 (logged_valid lg Lg) r Hr) as (b & Eb & Nb). rewrite Eb in E. subst a. destruct b; try (eexists; reflexivity). contradiction.
Qed.
Print Assumptions C95_drawn.

Theorem C95_colours : forall V value rows x y gs g h, display_log V value Default rows x y = Ok gs -> In g gs -> In h gs -> g_label V g <> g_label V h -> g_colour V g <> g_colour V h.
Proof.
  intros V value rows x y gs g h H Hg Hh N. apply groups_inv in H. destruct H as (_ & _ & C). exact (default_colour _ _ _ _ (proj1 (C g Hg)) (proj1 (C h Hh)) N).
Qed.
Print Assumptions C95_colours.

(* colours of the user: KeyError exactly if an algorithm of the log has none *)
Theorem C95_own : forall V value c lg x y, logged lg -> known x -> known y ->
  (display_log V value (Own c) (l_rows lg) x y = Err KeyError <-> exists r a, In r (l_rows lg) /\ made_by (Some a) r /\ c a = None) /\
  (forall gs g a, display_log V value (Own c) (l_rows lg) x y = Ok gs -> In g gs -> g_label V g = Some a -> c a = Some (g_colour V g)).
Proof.
  intros V value c lg x y Lg X Y. split; [split|].
  - intros H. assert (D : (forall a, In a (unique (map alg_of (l_rows lg))) -> exists k, algorithm_colour (Own c) a = Ok k) \/ exists a, In a (unique (map alg_of (l_rows lg))) /\ algorithm_colour (Own c) a = Err KeyError).
    { generalize (unique (map alg_of (l_rows lg))). induction l as [|a l [IH|(b & Hb & Eb)]]; [left; intros ? []| |right; exists b; split; [right; exact Hb|exact Eb]].
      destruct (algorithm_colour (Own c) a) as [k|e] eqn:E; [left; intros b [<-|Hb]; [exists k; exact E|exact (IH b Hb)]|]. right. exists a. split; [left; reflexivity|]. rewrite E. f_equal. destruct a as [a|]; cbn in E; [destruct (c a); cbn in E|]; congruence. }
    destruct D as [D|(a & Ha & Ea)].
    + destruct (groups_ok V value (Own c) (l_rows lg) x y _ X Y D) as (gs & G). unfold display_log in H. change (map (fun r => r_alg (snd r)) (l_rows lg)) with (map alg_of (l_rows lg)) in H. congruence.
    + apply unique_In, in_map_iff in Ha. destruct Ha as (r & E & Hr). destruct (proj1 (logged_valid lg Lg) r Hr) as (b & Eb & _). unfold alg_of in E. exists r, b. split; [exact Hr|]. split; [exact Eb|]. rewrite Eb in E. subst a. cbn in Ea. destruct (c b); [discriminate|reflexivity].
  - intros (r & a & Hr & M & N). destruct (display_log V value (Own c) (l_rows lg) x y) as [gs|e] eqn:E; [|f_equal; exact (groups_err V value _ _ _ _ _ _ E)].
    exfalso. apply groups_inv in E. destruct E as (L & _ & C). assert (I : In (Some a) (map (g_label V) gs)) by (rewrite L; apply unique_In, in_map_iff; exists r; split; [exact M|exact Hr]).
    apply in_map_iff in I. destruct I as (g & Eg & Hg). destruct (C g Hg) as (Cg & _). rewrite Eg in Cg. cbn in Cg. rewrite N in Cg. discriminate.
  - intros gs g a E Hg Eg. apply groups_inv in E. destruct E as (_ & _ & C). destruct (C g Hg) as (Cg & _). rewrite Eg in Cg. cbn in Cg. destruct (c a); [injection Cg as ->; reflexivity|discriminate].
Qed.
Print Assumptions C95_own.

(* the comparison: one line for each log with all its rows, made exactly if every log is there, has the columns
   and was not given colours of its own *)
Definition usable (x y : string) (e : string * option (palette * list (Z * row))) : Prop :=
  exists rows, snd e = Some (Default, rows) /\ known x /\ known y.
Lemma lines_spec : forall V value x y l i n,
  ((exists ls, lines_from V value i n x y l = Ok ls) <-> Forall (usable x y) l) /\
  (forall ls, lines_from V value i n x y l = Ok ls -> List.length ls = List.length l /\
    forall k label rows, nth_error l k = Some (label, Some (Default, rows)) -> nth_error ls k = Some (mkLine V label (map_colour (i + k) n) (map (fun r => (value x r, value y r)) rows))) /\
  (forall e, lines_from V value i n x y l = Err e -> exists good bad rest, l = good ++ bad :: rest /\ Forall (usable x y) good /\
    (e = KeyError /\ (exists o, snd bad = Some o) /\ ~ (known x /\ known y) \/
     e = AttributeError /\ (snd bad = None \/ known x /\ known y /\ exists c rows, snd bad = Some (Own c, rows)))).
Proof.
  intros V value x y. induction l as [|(label & [(p & rows)|]) l IH]; intros i n; cbn [lines_from].
  - split; [split; [constructor|eexists; reflexivity]|]. split; [intros ls H; injection H as <-; split; [reflexivity|intros [|k]; discriminate]|discriminate].
  - destruct (pairs V value x y rows) as [ps|e] eqn:P; cbn [bind].
    + apply pairs_inv in P. destruct P as (X & Y & ->). destruct p as [|c].
      * destruct (IH (S i) n) as (A & B & C). destruct (lines_from V value (S i) n x y l) as [ls|e] eqn:L; cbn [bind].
        -- split; [split; [intros _; constructor; [exists rows; auto|apply A; eexists; reflexivity]|intros _; eexists; reflexivity]|]. split; [|discriminate].
           intros ls' H. injection H as <-. destruct (B ls eq_refl) as (B1 & B2). split; [cbn; rewrite B1; reflexivity|]. intros [|k] lb rs H; cbn in H |- *; [injection H as <- <-; rewrite Nat.add_0_r; reflexivity|]. rewrite (B2 k lb rs H). replace (S i + k) with (i + S k) by lia. reflexivity.
        -- split; [split; [intros (? & ?); discriminate|intros F; inversion F as [|? ? _ F']; subst; apply A in F'; destruct F' as (? & ?); discriminate]|]. split; [discriminate|].
           intros e' H. injection H as <-. destruct (C e eq_refl) as (good & bad & rest & -> & F & D). exists ((label, Some (Default, rows)) :: good), bad, rest. split; [reflexivity|]. split; [constructor; [exists rows; auto|exact F]|exact D].
      * split; [split; [intros (? & ?); discriminate|intros F; inversion F as [|? ? (r & E & _) _]; subst; discriminate]|]. split; [discriminate|]. intros e H. injection H as <-. exists [], (label, Some (Own c, rows)), l. split; [reflexivity|]. split; [constructor|]. right. split; [reflexivity|]. right. split; [exact X|]. split; [exact Y|]. exists c, rows. reflexivity.
    + assert (N : ~ (known x /\ known y)) by (intros (X & Y); rewrite (pairs_ok V value x y rows X Y) in P; discriminate).
      split; [split; [intros (? & ?); discriminate|intros F; inversion F as [|? ? (r & _ & K) _]; subst; contradiction]|]. split; [discriminate|]. intros e' H. rewrite (pairs_err V value x y rows N) in P. injection P as <-. injection H as <-.
      exists [], (label, Some (p, rows)), l. split; [reflexivity|]. split; [constructor|]. left. split; [reflexivity|]. split; [eexists; reflexivity|exact N].
  - split; [split; [intros (? & ?); discriminate|intros F; inversion F as [|? ? (r & E & _) _]; subst; discriminate]|]. split; [discriminate|]. intros e H. injection H as <-. exists [], (label, None), l. split; [reflexivity|]. split; [constructor|]. right. split; [reflexivity|]. left. reflexivity.
Qed.
Theorem C95_comparison : forall V value l x y,
  ((exists ls, display_log_comparison V value l x y = Ok ls) <-> Forall (usable x y) l) /\
  (forall ls, display_log_comparison V value l x y = Ok ls -> List.length ls = List.length l /\
    forall k label rows, nth_error l k = Some (label, Some (Default, rows)) ->
      exists t, nth_error ls k = Some t /\ n_label V t = label /\ n_points V t = map (fun r => (value x r, value y r)) rows).
Proof.
  intros V value l x y. unfold display_log_comparison. destruct (lines_spec V value x y l 0 (List.length l)) as (A & B & _). split; [exact A|]. intros ls H. destruct (B ls H) as (B1 & B2). split; [exact B1|].
  intros k lb rs E. eexists. split; [exact (B2 k lb rs E)|]. split; reflexivity.
Qed.
Print Assumptions C95_comparison.
Theorem C95_comparison_errors : forall V value l x y e, display_log_comparison V value l x y = Err e ->
  exists good bad rest, l = good ++ bad :: rest /\ Forall (usable x y) good /\
    (e = KeyError /\ (exists o, snd bad = Some o) /\ ~ (known x /\ known y) \/
     e = AttributeError /\ (snd bad = None \/ known x /\ known y /\ exists c rows, snd bad = Some (Own c, rows))).
Proof. intros V value l x y e H. exact (proj2 (proj2 (lines_spec V value x y l 0 (List.length l))) e H). Qed.
Print Assumptions C95_comparison_errors.

(* lines can be told apart by their colours exactly if there are at most eight *)
Theorem C95_comparison_colours : forall V value l x y ls, display_log_comparison V value l x y = Ok ls -> (NoDup (map (n_colour V) ls) <-> List.length l <= 8).
Proof.
  intros V value l x y ls H. destruct (lines_spec V value x y l 0 (List.length l)) as (A & B & _). assert (F : Forall (usable x y) l) by (apply A; exists ls; exact H). destruct (B ls H) as (B1 & B2).
  assert (E : forall k, k < List.length l -> nth_error (map (n_colour V) ls) k = Some (map_colour k (List.length l))).
  { intros k Hk. destruct (nth_error l k) as [(lb & o)|] eqn:E; [|apply nth_error_None in E; lia]. pose proof (proj1 (Forall_forall _ _) F _ (nth_error_In _ _ E)) as (rows & Es & _). cbn in Es. subst o. rewrite nth_error_map, (B2 k lb rows E). reflexivity. }
  rewrite <- map_colours. rewrite NoDup_nth_error, map_length, B1. split.
  - intros N i j (I & J) C. assert (i = j) as X by (apply N; [lia|]; rewrite !E by lia; congruence). lia.
  - intros D i j I C. destruct (le_lt_dec (List.length l) j) as [J|J].
    + exfalso. rewrite E in C by exact I. symmetry in C. assert (nth_error (map (n_colour V) ls) j = None) by (apply nth_error_None; rewrite map_length; lia). congruence.
    + rewrite !E in C by assumption. injection C as C. destruct (lt_eq_lt_dec i j) as [[X|X]|X]; [exfalso; exact (D i j (conj X J) C)|exact X|exfalso; exact (D j i (conj X I) (eq_sym C))].
Qed.
Print Assumptions C95_comparison_colours.

(* a log of a genetic search followed by descent *)
Definition steps : res logger :=
  do a <- set_optimization_algorithm GA 2 new_logger;
  do b <- log_all [Fin 5; Fin 3; Fin 4; Fin 2]%Q (start_logger_time a);
  do c <- set_optimization_algorithm LBFGS 1 b;
  log_all [Fin 1; Fin 0]%Q c.
Definition log_e : logger := match steps with Ok l => l | Err _ => new_logger end.
Definition column (c : string) (r : Z * row) : fl := if String.eqb c "maximum" then r_max (snd r) else r_min (snd r).
Example C95_groups_case : display_log fl column Default (l_rows log_e) "maximum" "minimum" =
  Ok [mkGroup fl (Some GA) 6 [(Fin 5, Fin 3); (Fin 4, Fin 2)]%Q; mkGroup fl (Some LBFGS) 0 [(Fin 1, Fin 1); (Fin 0, Fin 0)]%Q].
Proof. vm_compute. reflexivity. Qed.
Example C95_logged_case : logged log_e /\ List.length (l_rows log_e) = 4.
Proof.
  assert (S : steps = Ok log_e) by (vm_compute; reflexivity). split; [|vm_compute; reflexivity]. unfold steps in S.
  assert (All : forall xs lg lg', logged lg -> log_all xs lg = Ok lg' -> logged lg').
  { induction xs as [|x xs IH]; intros lg lg' L H; cbn [log_all] in H; [injection H as <-; exact L|]. destruct (log_score x lg) as [m|] eqn:E; [|discriminate]. cbn [bind] in H. exact (IH m lg' (logged_score x lg m L E) H). }
  destruct (set_optimization_algorithm GA 2 new_logger) as [a|] eqn:E1; [|discriminate]. cbn [bind] in S. destruct (log_all _ (start_logger_time a)) as [b|] eqn:E2; [|discriminate]. cbn [bind] in S.
  destruct (set_optimization_algorithm LBFGS 1 b) as [c|] eqn:E3; [|discriminate]. cbn [bind] in S. refine (All _ c _ _ S). refine (logged_set LBFGS 1 b c _ E3). exact (All _ _ _ (logged_start _ (logged_set GA 2 new_logger a logged_new E1)) E2).
Qed.
(* nine logs: the first two lines have the same colour; a log with colours of its own cannot be compared *)
Example C95_comparison_case :
  match display_log_comparison fl column (map (fun s => (s, Some (Default, l_rows log_e))) ["a"; "b"; "c"; "d"; "e"; "f"; "g"; "h"; "i"]%string) "mean" "minimum" with Ok ls => map (n_colour fl) ls | Err _ => [] end = [0; 0; 1; 2; 3; 4; 5; 6; 7] /\
  display_log_comparison fl column [("a", Some (Default, l_rows log_e)); ("b", Some (Own (fun _ => Some 1), l_rows log_e))]%string "mean" "minimum" = Err AttributeError /\
  display_log_comparison fl column [("a"%string, Some (Own (fun _ => Some 1), l_rows log_e))] "mean" "time" = Err KeyError /\
  display_log fl column (Own (fun a => match a with GA => Some 1 | _ => None end)) (l_rows log_e) "mean" "minimum" = Err KeyError.
Proof. split; [vm_compute; reflexivity|]. split; [vm_compute; reflexivity|]. split; vm_compute; reflexivity. Qed.
