(** C90: the benchmark scripts and their command line. *)
From Coq Require Import List Arith Bool ZArith QArith String Ascii Lia Lqa.
From Verif Require Import Base EvolverModel TopologyModel SpeciatedModel SpeciatedSpec SpeciatedProperties BenchModel BenchSpec BenchProofs.
From Verif Require OperatorsModel FloatModel TopologyProperties FilesModel FilesSpec FilesRunProofs.
Import ListNotations.
Import FilesModel FilesSpec.
Local Open Scope string_scope.
Local Open Scope list_scope.
Local Open Scope nat_scope.

Lemma entries_eq : forall A (l l' : list A), (forall k, nth_error l k = nth_error l' k) -> l = l'.
Proof. induction l as [|a l IH]; intros [|a' l'] H; [reflexivity|discriminate (H 0)|discriminate (H 0)|]. injection (H 0) as ->. f_equal. apply IH. intros k. exact (H (S k)). Qed.

Lemma not_dots : forall s, 3 <= String.length s -> s <> "..".
Proof. intros s L ->. cbn in L. lia. Qed.

Lemma elitism_name : forall size t, without "/" t -> without "/" ("popSize" ++ num size ++ "_elitismRatio" ++ underscored t)%string /\ 3 <= String.length ("popSize" ++ num size ++ "_elitismRatio" ++ underscored t)%string.
Proof.
  intros size t W. split; [|rewrite !FilesRunProofs.str_length; cbn; lia]. apply FilesRunProofs.all_chars_app. split; [chars|]. apply FilesRunProofs.all_chars_app. split; [apply digits_no; cbn; lia|].
  apply FilesRunProofs.all_chars_app. split; [chars|]. apply underscored_without; [discriminate|exact W].
Qed.
Lemma rule_name : forall r, without "/" r -> without "/" ("selectionRule_" ++ r)%string /\ 3 <= String.length ("selectionRule_" ++ r)%string.
Proof. intros r W. split; [|rewrite !FilesRunProofs.str_length; cbn; lia]. apply FilesRunProofs.all_chars_app. split; [chars|exact W]. Qed.

Lemma in_elitism : forall top sizes ratios gens hof rule e p, In p (elitism_plan top sizes ratios gens hof rule e) <->
  exists size ratio i, In size sizes /\ In ratio ratios /\ i < 10 /\ p = (mkJob size (fst ratio) rule e i, gens, Nat.min hof size, below top ("popSize" ++ num size ++ "_elitismRatio" ++ underscored (snd ratio))%string (nth_iteration i)).
Proof.
  intros. unfold elitism_plan. rewrite in_flat_map. split.
  - intros (size & Is & H). apply in_flat_map in H. destruct H as (ratio & Ir & H). apply in_map_iff in H. destruct H as (i & <- & Ii). apply in_seq in Ii. exists size, ratio, i. repeat split; auto; lia.
  - intros (size & ratio & i & Is & Ir & Ii & ->). exists size. split; [exact Is|]. apply in_flat_map. exists ratio. split; [exact Ir|]. apply in_map_iff. exists i. split; [reflexivity|]. apply in_seq. lia.
Qed.
Lemma in_rules : forall top rules size gens hof e p, In p (rules_plan top rules size gens hof e) <->
  exists rule i, In rule rules /\ i < 10 /\ p = (mkJob size (1 # 10) (Some rule) e i, gens, hof, below top ("selectionRule_" ++ rule)%string (nth_iteration i)).
Proof.
  intros. unfold rules_plan. rewrite in_flat_map. split.
  - intros (rule & Is & H). apply in_map_iff in H. destruct H as (i & <- & Ii). apply in_seq in Ii. exists rule, i. repeat split; auto; lia.
  - intros (rule & i & Is & Ii & ->). exists rule. split; [exact Is|]. apply in_map_iff. exists i. split; [reflexivity|]. apply in_seq. lia.
Qed.
Lemma in_evolvers : forall top sizes evolvers gens hof rule p, In p (evolvers_plan top sizes evolvers gens hof rule) <->
  exists i e size, i < 6 /\ In e evolvers /\ In size sizes /\ p = (mkJob size (1 # 10) rule e i, gens, Nat.min hof size, below top (evolver_dir size e) (nth_iteration i)).
Proof.
  intros. unfold evolvers_plan. rewrite in_flat_map. split.
  - intros (i & Ii & H). apply in_seq in Ii. apply in_flat_map in H. destruct H as (e & Ie & H). apply in_map_iff in H. destruct H as (size & <- & Is). exists i, e, size. repeat split; auto; lia.
  - intros (i & e & size & Ii & Ie & Is & ->). exists i. split; [apply in_seq; lia|]. apply in_flat_map. exists e. split; [exact Ie|]. apply in_map_iff. exists size. split; [reflexivity|exact Is].
Qed.

Lemma came_known : forall settings m, came settings m -> exists n, j_rule (m_job m) = Some n /\ In n rule_names.
Proof.
  intros settings m (k & st & E). unfold call, optimise_topology in E. revert E. destruct (j_rule (m_job m)) as [n|]; intros E; [|cbn in E; discriminate]. exists n. split; [reflexivity|]. revert E. cbn [rule_named].
  repeat match goal with |- context [if String.eqb n ?t then _ else _] => destruct (String.eqb_spec n t) as [->|_]; [cbn; tauto|] end. cbn. discriminate.
Qed.

(* benchmark_elitism makes the planned calls in order, each in its own directory, until one fails; results are there for calls without
   elites and with a known rule only *)
Theorem C90_elitism : forall bytes settings said writes report, tidy (B := bytes) writes -> usual settings -> forall sizes ratios gens hof rule e (b : bench bytes),
  let top := io_path (b_io b) in let J := elitism_plan top sizes ratios gens hof rule e in
  plain_path top -> (forall r, In r ratios -> without "/" (snd r)) -> 0 < gens -> free J (b_files b) ->
  let x := benchmark_elitism settings said writes report sizes ratios gens hof rule e b in
  exists calls done, b_calls (fst x) = b_calls b ++ calls /\ b_done (fst x) = b_done b ++ done /\ (exists later, J = map planned calls ++ later) /\
    (forall m, In m done -> ~ elites (m_job m) /\ exists n, rule = Some n /\ In n rule_names) /\
    ((snd x = inl tt /\ calls = done /\ map planned calls = J) \/ exists err m, snd x = inr err /\ calls = done ++ [m]).
Proof.
  intros bytes settings said writes report TD US sizes ratios gens hof rule e b top J PL NS G F x.
  assert (DP : forall p, In p J -> exists a i, snd p = below top a i /\ a <> ".." /\ i <> "..").
  { intros p I. apply in_elitism in I. destruct I as (size & ratio & i & _ & Ir & _ & ->). eexists. eexists. split; [reflexivity|]. split; apply not_dots; [apply (elitism_name size (snd ratio) (NS _ Ir))|apply (iteration_name i)]. }
  assert (GO : goes settings J J b x).
  { apply (goes_each settings J nat (fun size => flat_map (fun ratio => map (fun i => (mkJob size (fst ratio) rule e i, gens, Nat.min hof size, below top ("popSize" ++ num size ++ "_elitismRatio" ++ underscored (snd ratio))%string (nth_iteration i))) (seq 0 10)) ratios) (fun _ => True)); [|exact I|exact F].
    intros size b1 Is _ F1. split; [|auto].
    apply (goes_each settings J (Q * string) (fun ratio => map (fun i => (mkJob size (fst ratio) rule e i, gens, Nat.min hof size, below top ("popSize" ++ num size ++ "_elitismRatio" ++ underscored (snd ratio))%string (nth_iteration i))) (seq 0 10)) (fun _ => True)); [|exact I|exact F1].
    intros ratio b2 Ir _ F2. split; [|auto]. destruct (elitism_name size (snd ratio) (NS _ Ir)) as [W L].
    unfold ratio_dir. rewrite undotted_eq. replace (if size <? hof then size else hof) with (Nat.min hof size) by (destruct (Nat.ltb_spec size hof); lia).
    refine (group_goes settings said writes report TD J top PL DP _ (mkJob size (fst ratio) rule e) gens (Nat.min hof size) (seq 0 10) b2 W L _ _ F2); [discriminate|].
    intros i Ii. apply in_elitism. exists size, ratio, i. apply in_seq in Ii. repeat split; auto; lia. }
  destruct GO as (calls & done & C & D & P & K & _ & R). exists calls, done. split; [exact C|]. split; [exact D|]. split; [exact P|]. split; [|exact R].
  intros m I. assert (Ic : In m calls) by (destruct R as [(_ & -> & _)|(x1 & x2 & _ & ->)]; [exact I|apply in_app_iff; auto]).
  assert (IJ : In (planned m) J) by (destruct P as (l & ->); apply in_app_iff; left; apply in_map; exact Ic). apply in_elitism in IJ. destruct IJ as (size & ratio & i & _ & _ & _ & E). unfold planned in E. injection E as E1 E2 _ _.
  split; [apply (light settings m US); [lia|apply K; exact I]|]. destruct (came_known settings m (K m I)) as (n & En & In'). exists n. rewrite E1 in En. auto.
Qed.
Print Assumptions C90_elitism.

(* the script: one evaluator of two; not more than the ten runs of eight graphs without elitism give results, and the script ends with an
   error in one of these or in the first run with elites *)
Theorem C90_elitism_script : forall bytes settings said writes report, tidy (B := bytes) writes -> usual settings -> forall o (b : bench bytes),
  let top := io_path (b_io b) in
  plain_path top -> free (elitism_plan top [8; 16] [(0, "0"); (1 # 10, "0.1"); (3 # 10, "0.3")]%Q 14 6 (o_selection o) Lookup) (b_files b) ->
  let x := elitism_script settings said writes report o b in
  (o_evaluator o <> Some "rfawg_saw" /\ o_evaluator o <> Some "rfawg_square" -> x = (b, inr (Py ValueError))) /\
  (o_evaluator o = Some "rfawg_saw" \/ o_evaluator o = Some "rfawg_square" ->
   exists done m err, snd x = inr err /\ b_calls (fst x) = b_calls b ++ done ++ [m] /\ b_done (fst x) = b_done b ++ done /\ List.length done <= 10 /\
     map (fun y => (j_size (m_job y), j_ratio (m_job y), j_seed (m_job y), m_hof y)) done = map (fun i => (8, 0%Q, i, 6)) (seq 0 (List.length done)) /\
     (m_job m = mkJob 8 0 (o_selection o) Lookup (List.length done) \/ m_job m = mkJob 8 (1 # 10) (o_selection o) Lookup 0 /\ List.length done = 10)).
Proof.
  intros bytes settings said writes report TD US o b top PL F x. split.
  { intros [N1 N2]. subst x. unfold elitism_script, chosen_evaluator. destruct (o_evaluator o) as [s|]; [|reflexivity]. destruct (String.eqb_spec s "rfawg_saw") as [->|_]; [congruence|]. destruct (String.eqb_spec s "rfawg_square") as [->|_]; [congruence|]. reflexivity. }
  intros Y. set (J := elitism_plan top [8; 16] [(0, "0"); (1 # 10, "0.1"); (3 # 10, "0.3")]%Q 14 6 (o_selection o) Lookup) in *.
  assert (Ex : x = benchmark_elitism settings said writes report [8; 16] [(0, "0"); (1 # 10, "0.1"); (3 # 10, "0.3")]%Q 14 6 (o_selection o) Lookup b) by (subst x; unfold elitism_script; destruct Y as [-> | ->]; reflexivity).
  assert (NS : forall r, In r [(0, "0"); (1 # 10, "0.1"); (3 # 10, "0.3")]%Q -> without "/" (snd r)) by (intros r [<-|[<-|[<-|[]]]]; cbn [snd]; chars).
  destruct (C90_elitism bytes settings said writes report TD US [8; 16] _ 14 6 (o_selection o) Lookup b PL NS ltac:(lia) F) as (calls & done & C & D & (later & P) & K & R). rewrite <- Ex in *. fold top in P. fold J in P.
  assert (Heavy : forall k p, nth_error J k = Some p -> 10 <= k < 12 -> elites (fst (fst (fst p)))).
  { intros k p E H. assert (k = 10 \/ k = 11) as [-> | ->] by lia; injection E as <-; unfold elites; reflexivity. }
  assert (Nth : forall k m, nth_error calls k = Some m -> nth_error J k = Some (planned m)).
  { intros k m E. rewrite P. rewrite nth_error_app1; [apply map_nth_error; exact E|]. rewrite map_length. apply nth_error_Some. congruence. }
  assert (Ten : forall k m, nth_error done k = Some m -> k < 10).
  { intros k m E. destruct (lt_dec k 10) as [|Hk]; [assumption|exfalso]. destruct (nth_error done 10) as [m'|] eqn:E10; [|apply nth_error_None in E10; assert (k < List.length done) by (apply nth_error_Some; congruence); lia].
    destruct (K m' (nth_error_In _ _ E10)) as [N _]. apply N. assert (Ec : nth_error calls 10 = Some m').
    { destruct R as [(_ & -> & _)|(e1 & m1 & _ & ->)]; [exact E10|]. rewrite nth_error_app1; [exact E10|]. apply nth_error_Some. congruence. }
    exact (Heavy 10 (planned m') (Nth 10 m' Ec) ltac:(lia)). }
  assert (Ld : List.length done <= 10). { destruct (le_lt_dec (List.length done) 10) as [|Hl]; [assumption|]. destruct (nth_error done 10) as [m'|] eqn:E10; [|apply nth_error_None in E10; lia]. specialize (Ten 10 m' E10). lia. }
  assert (First : forall k, k < 10 -> nth_error J k = Some (mkJob 8 0 (o_selection o) Lookup k, 14, 6, below top "popSize8_elitismRatio0" (nth_iteration k))).
  { intros k Hk. do 10 (destruct k as [|k]; [reflexivity|]). lia. }
  destruct R as [(_ & E & EM)|(err & m & Rx & E)].
  { exfalso. assert (L : List.length calls = 60) by (rewrite <- (map_length planned), EM; reflexivity). rewrite E in L. lia. }
  exists done, m, err. split; [exact Rx|]. split; [rewrite C, E; reflexivity|]. split; [exact D|]. split; [exact Ld|]. split.
  - apply entries_eq. intros k. rewrite !nth_error_map. destruct (lt_dec k (List.length done)) as [Hk|Hk].
    + destruct (nth_error done k) as [y|] eqn:Ey; [|apply nth_error_None in Ey; lia]. assert (Ec : nth_error calls k = Some y) by (rewrite E, nth_error_app1; [exact Ey|exact Hk]).
      pose proof (Nth k y Ec) as H. rewrite (First k (Ten k y Ey)) in H. unfold planned in H. injection H as H1 _ H3 _.
      assert (Es : nth_error (seq 0 (List.length done)) k = Some k). { rewrite (nth_error_nth' _ 0) by (rewrite seq_length; exact Hk). rewrite seq_nth by exact Hk. reflexivity. } rewrite Es. cbn [option_map]. rewrite <- H1, <- H3. reflexivity.
    + rewrite (proj2 (nth_error_None done k)) by lia. rewrite (proj2 (nth_error_None (seq 0 (List.length done)) k)) by (rewrite seq_length; lia). reflexivity.
  - assert (Ec : nth_error calls (List.length done) = Some m) by (rewrite E, nth_error_app2, Nat.sub_diag by lia; reflexivity). pose proof (Nth _ m Ec) as H. destruct (lt_dec (List.length done) 10) as [Hd|Hd].
    + left. rewrite (First _ Hd) in H. unfold planned in H. injection H as H1 _ _ _. congruence.
    + right. assert (E10 : List.length done = 10) by lia. split; [|exact E10]. rewrite E10 in H. injection H as H1 _ _ _. congruence.
Qed.
Print Assumptions C90_elitism_script.

(* benchmark_selection_rules: when the population is large enough for an elite, the first call fails and is the only one *)
Theorem C90_rules : forall bytes settings said writes report, tidy (B := bytes) writes -> usual settings -> forall first rules size gens hof e (b : bench bytes),
  let top := io_path (b_io b) in let J := rules_plan top (first :: rules) size gens hof e in
  plain_path top -> (forall r, In r (first :: rules) -> without "/" r) -> 0 < gens -> (1 # 2 < (1 # 10) * inject_Z (Z.of_nat size))%Q -> free J (b_files b) ->
  let x := benchmark_selection_rules settings said writes report (first :: rules) size gens hof e b in
  exists m err, snd x = inr err /\ b_calls (fst x) = b_calls b ++ [m] /\ b_done (fst x) = b_done b /\
    planned m = (mkJob size (1 # 10) (Some first) e 0, gens, hof, below top ("selectionRule_" ++ first)%string "iteration_0").
Proof.
  intros bytes settings said writes report TD US first rules size gens hof e b top J PL NS G H F x.
  assert (DP : forall p, In p J -> exists a i, snd p = below top a i /\ a <> ".." /\ i <> "..").
  { intros p I. apply in_rules in I. destruct I as (r & i & Ir & _ & ->). eexists. eexists. split; [reflexivity|]. split; apply not_dots; [apply (rule_name r (NS _ Ir))|apply (iteration_name i)]. }
  assert (GO : goes settings J J b x).
  { apply (goes_each settings J string (fun rule => map (fun i => (mkJob size (1 # 10) (Some rule) e i, gens, hof, below top ("selectionRule_" ++ rule)%string (nth_iteration i))) (seq 0 10)) (fun _ => True)); [|exact I|exact F].
    intros rule b2 Ir _ F2. split; [|auto]. destruct (rule_name rule (NS _ Ir)) as [W L].
    refine (group_goes settings said writes report TD J top PL DP _ (mkJob size (1 # 10) (Some rule) e) gens hof (seq 0 10) b2 W L _ _ F2); [discriminate|].
    intros i Ii. apply in_rules. exists rule, i. apply in_seq in Ii. repeat split; auto; lia. }
  destruct GO as (calls & done & C & D & (later & P) & K & _ & R).
  assert (Nd : done = []).
  { destruct done as [|m done']; [reflexivity|exfalso]. assert (Ic : In m calls) by (destruct R as [(_ & -> & _)|(x1 & x2 & _ & ->)]; left; reflexivity).
    assert (IJ : In (planned m) J) by (rewrite P; apply in_app_iff; left; apply in_map; exact Ic). apply in_rules in IJ. destruct IJ as (r & i & _ & _ & E). unfold planned in E. injection E as E1 E2 _ _.
    apply (light settings m US); [lia|apply K; left; reflexivity|]. unfold elites. rewrite E1. exact H. }
  subst done. destruct R as [(_ & -> & EM)|(err & m & Rx & ->)]; [discriminate|]. exists m, err. split; [exact Rx|]. split; [exact C|]. split; [rewrite D, app_nil_r; reflexivity|]. cbn [map app] in P. injection P as P1 P2 P3 P4 _. unfold planned. rewrite <- P1, <- P2, <- P3, <- P4. reflexivity.
Qed.
Print Assumptions C90_rules.

Theorem C90_rules_script : forall bytes settings said writes report, tidy (B := bytes) writes -> usual settings -> forall o (b : bench bytes),
  let top := io_path (b_io b) in
  plain_path top -> free (rules_plan top ["random"; "roulette"; "tournament"] 16 16 6 Lookup) (b_files b) ->
  let x := rules_script settings said writes report o b in
  (o_evaluator o <> Some "rfawg_saw" /\ o_evaluator o <> Some "rfawg_square" -> x = (b, inr (Py ValueError))) /\
  (o_evaluator o = Some "rfawg_saw" \/ o_evaluator o = Some "rfawg_square" ->
   exists m err, snd x = inr err /\ b_calls (fst x) = b_calls b ++ [m] /\ b_done (fst x) = b_done b /\ m_job m = mkJob 16 (1 # 10) (Some "random") Lookup 0).
Proof.
  intros bytes settings said writes report TD US o b top PL F x. split.
  { intros [N1 N2]. subst x. unfold rules_script, chosen_evaluator. destruct (o_evaluator o) as [s|]; [|reflexivity]. destruct (String.eqb_spec s "rfawg_saw") as [->|_]; [congruence|]. destruct (String.eqb_spec s "rfawg_square") as [->|_]; [congruence|]. reflexivity. }
  intros Y. assert (Ex : x = benchmark_selection_rules settings said writes report ["random"; "roulette"; "tournament"] 16 16 6 Lookup b) by (subst x; unfold rules_script; destruct Y as [-> | ->]; reflexivity).
  destruct (C90_rules bytes settings said writes report TD US "random" ["roulette"; "tournament"] 16 16 6 Lookup b PL) as (m & err & A & B & C & E);
    [intros r [<-|[<-|[<-|[]]]]; chars|lia|reflexivity|exact F|]. rewrite <- Ex in *. exists m, err. repeat split; auto. unfold planned in E. injection E as E _ _ _. exact E.
Qed.
Print Assumptions C90_rules_script.

(* benchmark_evolvers: when every population is large enough for an elite, every planned call is made and fails; each failure is
   reported, nothing else is saved, and the function returns *)
Lemma evolvers_tries : forall bytes settings said writes report excuse n0, tidy (B := bytes) writes -> usual settings -> forall sizes evolvers gens hof rule (b : bench bytes),
  let top := io_path (b_io b) in let J := evolvers_plan top sizes evolvers gens hof rule in
  plain_path top -> 0 < gens -> (forall size, In size sizes -> (1 # 2 < (1 # 10) * inject_Z (Z.of_nat size))%Q) -> free J (b_files b) -> working (b_screen b) ->
  tries excuse J n0 J b (benchmark_evolvers settings said writes report excuse sizes evolvers gens hof rule b).
Proof.
  intros bytes settings said writes report excuse n0 TD US sizes evolvers gens hof rule b top J PL G H F W.
  assert (DP : forall p, In p J -> exists a i, snd p = below top a i /\ a <> ".." /\ i <> "..").
  { intros p I. apply in_evolvers in I. destruct I as (i & e & size & _ & _ & _ & ->). eexists. eexists. split; [reflexivity|]. split; apply not_dots; [apply (evolver_dir_name size e)|apply (iteration_name i)]. }
  unfold benchmark_evolvers. apply (tries_each excuse J n0 nat (fun i => flat_map (fun e => map (fun size => (mkJob size (1 # 10) rule e i, gens, Nat.min hof size, below top (evolver_dir size e) (nth_iteration i))) sizes) evolvers)); [|exact F|exact W].
  intros i b1 Ii F1 W1. apply (tries_each excuse J n0 evolver (fun e => map (fun size => (mkJob size (1 # 10) rule e i, gens, Nat.min hof size, below top (evolver_dir size e) (nth_iteration i))) sizes)); [|exact F1|exact W1].
  intros e b2 Ie F2 W2. rewrite map_flat. apply (tries_each excuse J n0 nat); [|exact F2|exact W2].
  intros size b3 Is F3 W3. apply (compared_tries settings said writes report excuse TD US J top PL DP n0); [exact G|exact (H size Is)| |exact F3|exact W3].
  apply in_evolvers. exists i, e, size. apply in_seq in Ii. repeat split; auto; lia.
Qed.

Theorem C90_evolvers : forall bytes settings said writes report excuse, tidy (B := bytes) writes -> usual settings -> forall sizes evolvers gens hof rule (b : bench bytes),
  let top := io_path (b_io b) in let J := evolvers_plan top sizes evolvers gens hof rule in
  plain_path top -> 0 < gens -> (forall size, In size sizes -> (1 # 2 < (1 # 10) * inject_Z (Z.of_nat size))%Q) -> free J (b_files b) -> working (b_screen b) ->
  let x := benchmark_evolvers settings said writes report excuse sizes evolvers gens hof rule b in
  snd x = inl tt /\ b_done (fst x) = b_done b /\ exists calls text, b_calls (fst x) = b_calls b ++ calls /\ map planned calls = J /\
    s_terminal (b_screen (fst x)) = s_terminal (b_screen b) ++ text /\ within (map (fun p => let j := fst (fst (fst p)) in excuse (j_evolver j) (j_seed j) (j_size j)) J) text.
Proof.
  intros bytes settings said writes report excuse TD US sizes evolvers gens hof rule b top J PL G H F W x.
  destruct (evolvers_tries bytes settings said writes report excuse 0 TD US sizes evolvers gens hof rule b PL G H F W) as (R & cs & text & C & D & M & _ & _ & T & X & _).
  split; [exact R|]. split; [exact D|]. exists cs, text. split; [exact C|]. split; [exact M|]. split; [exact T|]. fold top in X. fold J in X.
  replace (map (fun p => let j := fst (fst (fst p)) in excuse (j_evolver j) (j_seed j) (j_size j)) J) with (map (told excuse) J); [exact X|]. apply map_ext. intros [[[j g] h] d]. reflexivity.
Qed.
Print Assumptions C90_evolvers.

(* the outputs stay redirected: the log of every call holds everything that was printed since, until the end *)
Theorem C90_logs : forall bytes settings said writes report excuse, tidy (B := bytes) writes -> usual settings -> forall sizes evolvers gens hof rule (b : bench bytes),
  let top := io_path (b_io b) in let J := evolvers_plan top sizes evolvers gens hof rule in
  plain_path top -> 0 < gens -> (forall size, In size sizes -> (1 # 2 < (1 # 10) * inject_Z (Z.of_nat size))%Q) -> free J (b_files b) -> working (b_screen b) ->
  let x := benchmark_evolvers settings said writes report excuse sizes evolvers gens hof rule b in
  exists calls, b_calls (fst x) = b_calls b ++ calls /\ List.length calls = List.length J /\
  forall k m, nth_error calls k = Some m -> let t := List.length (s_tees (b_screen b)) + k in
    in_use (b_screen (fst x)) t /\ m_from m <= List.length (s_terminal (b_screen (fst x))) /\ log_of (b_screen (fst x)) t = Some (skipn (m_from m) (s_terminal (b_screen (fst x)))).
Proof.
  intros bytes settings said writes report excuse TD US sizes evolvers gens hof rule b top J PL G H F W x.
  destruct (evolvers_tries bytes settings said writes report excuse (List.length (s_tees (b_screen b))) TD US sizes evolvers gens hof rule b PL G H F W) as (R & cs & text & C & D & M & _ & _ & T & X & Lg).
  exists cs. split; [exact C|]. split; [fold top in M; fold J in M; rewrite <- M, map_length; reflexivity|]. assert (L0 : logged (List.length (s_tees (b_screen b))) (b_screen b) []) by (split; [cbn; lia|intros [|i] m E; discriminate]).
  destruct (Lg [] L0) as [_ K]. cbn [app] in K. intros k m E t. destruct (K k m E) as (A & B & Z). auto.
Qed.
Print Assumptions C90_logs.

Theorem C90_evolvers_script : forall bytes settings said writes report excuse w1 w2, tidy (B := bytes) writes -> usual settings -> forall o (b : bench bytes),
  let top := io_path (b_io b) in
  plain_path top -> free (evolvers_plan top [8] [Lookup; OpBased w1; Hessian w2] 14 6 (o_selection o)) (b_files b) -> working (b_screen b) ->
  let x := evolvers_script settings said writes report excuse w1 w2 o b in
  (o_evaluator o <> Some "rfawg_saw" /\ o_evaluator o <> Some "rfawg_square" -> x = (b, inr (Py ValueError))) /\
  (o_evaluator o = Some "rfawg_saw" \/ o_evaluator o = Some "rfawg_square" ->
   snd x = inl tt /\ b_done (fst x) = b_done b /\ List.length (b_calls (fst x)) = List.length (b_calls b) + 18).
Proof.
  intros bytes settings said writes report excuse w1 w2 TD US o b top PL F W x. split.
  { intros [N1 N2]. subst x. unfold evolvers_script, chosen_evaluator. destruct (o_evaluator o) as [s|]; [|reflexivity]. destruct (String.eqb_spec s "rfawg_saw") as [->|_]; [congruence|]. destruct (String.eqb_spec s "rfawg_square") as [->|_]; [congruence|]. reflexivity. }
  intros Y. assert (Ex : x = benchmark_evolvers settings said writes report excuse [8] [Lookup; OpBased w1; Hessian w2] 14 6 (o_selection o) b) by (subst x; unfold evolvers_script; destruct Y as [-> | ->]; reflexivity).
  destruct (C90_evolvers bytes settings said writes report excuse TD US [8] [Lookup; OpBased w1; Hessian w2] 14 6 (o_selection o) b PL) as (A & B & calls & text & C & M & _);
    [lia|intros size [<-|[]]; reflexivity|exact F|exact W|]. rewrite <- Ex in *. split; [exact A|]. split; [exact B|]. rewrite C, app_length. f_equal. rewrite <- (map_length planned), M. reflexivity.
Qed.
Print Assumptions C90_evolvers_script.

(* no two planned calls of a benchmark share a directory *)
Lemma iteration_inj : forall i j, nth_iteration i = nth_iteration j -> i = j.
Proof. intros i j E. unfold nth_iteration in E. apply FilesRunProofs.str_prefix in E; [|reflexivity]. apply FilesRunProofs.num_inj, E. Qed.
Lemma below_inj : forall top a i a' i', p_parts (below top a i) = p_parts (below top a' i') -> a = a' /\ i = i'.
Proof. intros top a i a' i' E. cbn in E. apply app_inv_head in E. injection E as -> ->. auto. Qed.
Lemma sized_inj : forall a b x y, ("popSize" ++ num a ++ String "_" x)%string = ("popSize" ++ num b ++ String "_" y)%string -> a = b /\ x = y.
Proof.
  intros a b x y E. apply FilesRunProofs.str_prefix in E; [|reflexivity]. destruct E as [_ E]. apply FilesRunProofs.str_sep in E; [|apply digits_no; cbn; lia|apply digits_no; cbn; lia]. destruct E as [E ->]. split; [apply FilesRunProofs.num_inj, E|reflexivity].
Qed.
Lemma image_unique : forall A B (g : A -> B) l x y, NoDup (map g l) -> In x l -> In y l -> g x = g y -> x = y.
Proof.
  induction l as [|a l IH]; intros x y N Ix Iy E; [destruct Ix|]. cbn in N. inversion N as [|? ? N1 N2]; subst.
  destruct Ix as [->|Ix], Iy as [->|Iy]; [reflexivity| | |exact (IH x y N2 Ix Iy E)]; exfalso; apply N1; [rewrite E|rewrite <- E]; apply in_map; assumption.
Qed.

Theorem C90_places : forall top p p', dir_of p = dir_of p' ->
  (forall sizes ratios gens hof rule e, NoDup (map snd ratios) -> (forall r, In r ratios -> without "_" (snd r)) -> let J := elitism_plan top sizes ratios gens hof rule e in In p J -> In p' J -> p = p') /\
  (forall rules size gens hof e, let J := rules_plan top rules size gens hof e in In p J -> In p' J -> p = p') /\
  (forall sizes evolvers gens hof rule, (forall e e', In e evolvers -> In e' evolvers -> same_class e e' -> e = e') -> let J := evolvers_plan top sizes evolvers gens hof rule in In p J -> In p' J -> p = p').
Proof.
  intros top p p' E. unfold dir_of in E. split; [|split].
  - intros sizes ratios gens hof rule e N U J I I'. apply in_elitism in I. apply in_elitism in I'. destruct I as (s & r & i & _ & Ir & _ & ->), I' as (s' & r' & i' & _ & Ir' & _ & ->). cbn [snd] in E.
    apply below_inj in E. destruct E as [E Ei]. apply iteration_inj in Ei. subst i'. apply (sized_inj s s' ("elitismRatio" ++ underscored (snd r)) ("elitismRatio" ++ underscored (snd r'))) in E. destruct E as [<- E].
    apply FilesRunProofs.str_prefix in E; [|reflexivity]. destruct E as [_ E]. apply underscored_inj in E; [|apply U; assumption|apply U; assumption]. rewrite (image_unique _ _ snd ratios r r' N Ir Ir' E). reflexivity.
  - intros rules size gens hof e J I I'. apply in_rules in I. apply in_rules in I'. destruct I as (r & i & _ & _ & ->), I' as (r' & i' & _ & _ & ->). cbn [snd] in E.
    apply below_inj in E. destruct E as [E Ei]. apply iteration_inj in Ei. subst i'. apply FilesRunProofs.str_prefix in E; [|reflexivity]. destruct E as [_ ->]. reflexivity.
  - intros sizes evolvers gens hof rule N J I I'. apply in_evolvers in I. apply in_evolvers in I'. destruct I as (i & e & s & _ & Ie & _ & ->), I' as (i' & e' & s' & _ & Ie' & _ & ->). cbn [snd] in E.
    apply below_inj in E. destruct E as [E Ei]. apply iteration_inj in Ei. subst i'. apply (sized_inj s s' ("evolver" ++ class_name e) ("evolver" ++ class_name e')) in E. destruct E as [<- E].
    apply FilesRunProofs.str_prefix in E; [|reflexivity]. destruct E as [_ E]. assert (e = e') by (apply N; [exact Ie|exact Ie'|destruct e, e'; try discriminate E; exact Logic.I]). subst e'. reflexivity.
Qed.
Print Assumptions C90_places.

(** *** the command line *)
Lemma word_option : forall n l, option_of (word n l) = Some n /\ dashed (word n l) = true.
Proof. intros [] []; split; reflexivity. Qed.
Lemma undashed_false : forall v, undashed v -> dashed v = false /\ option_of v = None.
Proof.
  intros [|c v] U; [split; reflexivity|]. assert (N : c <> "-"%char) by (intros ->; exact (U v eq_refl)). cbn [dashed]. split; [apply Ascii.eqb_neq; exact N|].
  assert (D : forall t, String.eqb (String c v) (String "-" t) = false) by (intros t; apply String.eqb_neq; congruence). unfold option_of. rewrite !D. reflexivity.
Qed.
Definition applied (uses : list use) (o : options) : options := fold_left (fun o u => set_option (u_name u) (u_value u) o) uses o.
Definition next_dashed (l : list string) : Prop := match l with [] => True | t :: _ => dashed t = true end.
Lemma parse_uses : forall uses tail o, (forall u, In u uses -> writable u) -> next_dashed tail \/ (exists before u v, uses = before ++ [u] /\ u_value u = Some v) \/ uses = [] ->
  parse_args (flat_map written uses ++ tail) o = parse_args tail (applied uses o).
Proof.
  induction uses as [|u uses IH]; intros tail o W T; [reflexivity|]. cbn [flat_map]. rewrite <- app_assoc. unfold written at 1. cbn [app parse_args]. destruct (word_option (u_name u) (u_long u)) as [-> _].
  assert (T' : next_dashed tail \/ (exists before x v, uses = before ++ [x] /\ u_value x = Some v) \/ uses = []).
  { destruct T as [T|[(before & x & v & E & V)|E]]; [auto| |discriminate]. destruct before as [|y before]; [injection E as -> ->; auto|]. injection E as -> ->. right. left. exists before, x, v. auto. }
  assert (W' : forall x, In x uses -> writable x) by (intros x Ix; apply W; right; exact Ix).
  unfold applied. cbn [fold_left]. fold (applied uses (set_option (u_name u) (u_value u) o)). destruct (u_value u) as [v|] eqn:V; cbn [app].
  - destruct (undashed_false v (W u (or_introl eq_refl) v V)) as [-> _]. apply IH; assumption.
  - rewrite <- (IH tail _ W' T'). destruct uses as [|u2 uses].
    + destruct T as [T|[(before & x & v & E & V')|E]]; [|destruct before as [|y [|z before]]; [injection E as ->; congruence|discriminate|discriminate]|discriminate]. cbn [flat_map app]. destruct tail as [|t tail]; [reflexivity|]. cbn in T. rewrite T. reflexivity.
    + cbn [flat_map]. unfold written at 1. cbn [app]. destruct (word_option (u_name u2) (u_long u2)) as [_ ->]. reflexivity.
Qed.
Lemma says_step : forall n uses u d v, says n uses d v -> u_name u <> n -> says n (uses ++ [u]) d v.
Proof.
  intros n uses u d v [(b & x & a & -> & N & V & H)|[-> H]] Nu; [left; exists b, x, (a ++ [u]); rewrite <- app_assoc; repeat split; auto|right; split; [reflexivity|]]; intros y Iy; apply in_app_iff in Iy; destruct Iy as [Iy|[<-|[]]]; auto.
Qed.
Lemma says_last : forall uses u d, says (u_name u) (uses ++ [u]) d (u_value u).
Proof. intros. left. exists uses, u, []. repeat split; auto. Qed.

(* each option has the value of its last use, or its default; -v is true with any text but the empty one, also "False" and "0", and
   nothing without a text *)
Theorem C90_options : forall uses, (forall u, In u uses -> writable u) ->
  exists o, parse_command_line_args (flat_map written uses) = Some o /\ says ODir uses (Some "data") (o_dir o) /\ says OEvaluator uses (Some "rfawg_saw") (o_evaluator o) /\ says OSelection uses (Some "roulette") (o_selection o) /\
    exists t, says OVerbose uses (Some "") t /\ o_verbose o = match t with None => None | Some w => Some (if string_dec w "" then false else true) end.
Proof.
  intros uses W. exists (applied uses defaults). split; [unfold parse_command_line_args; rewrite <- (app_nil_r (flat_map written uses)), parse_uses; [reflexivity|exact W|left; exact I]|]. clear W.
  induction uses as [|u uses (A & B & C & t & V & E)] using rev_ind.
  - repeat split; try (right; split; [reflexivity|intros x []]). exists (Some ""). split; [right; split; [reflexivity|intros x []]|reflexivity].
  - assert (St : applied (uses ++ [u]) defaults = set_option (u_name u) (u_value u) (applied uses defaults)) by (unfold applied; rewrite fold_left_app; reflexivity). rewrite St.
    pose proof (says_last uses u) as L. destruct (u_name u) eqn:N; cbn [set_option o_dir o_verbose o_evaluator o_selection];
      repeat split; try (apply says_step; [assumption|congruence]); try apply L;
      try (exists t; split; [apply says_step; [assumption|congruence]|exact E]).
    exists (u_value u). split; [apply L|]. destruct (u_value u) as [w|]; [|reflexivity]. cbn. unfold bool_of. destruct (String.eqb_spec w ""), (string_dec w ""); congruence || reflexivity.
Qed.
Print Assumptions C90_options.

(* a value without an option before it ends the program *)
Theorem C90_stray : forall uses v rest, (forall u, In u uses -> writable u) -> undashed v -> uses = [] \/ (exists before u w, uses = before ++ [u] /\ u_value u = Some w) ->
  parse_command_line_args (flat_map written uses ++ v :: rest) = None.
Proof.
  intros uses v rest W U H. unfold parse_command_line_args. rewrite parse_uses; [|exact W|destruct H as [->|H]; auto]. cbn [parse_args]. destruct (undashed_false v U) as [_ ->]. reflexivity.
Qed.
Print Assumptions C90_stray.

(** Cases *)
Definition case_setting : setting := mkSetting OperatorsModel.default_library OperatorsModel.evo_op_list TopologyProperties.toy_sim (fun _ => FloatModel.NaN) (fun _ => 14142 # 10000)%Q (TopologyProperties.toy_opt 0 0) TopologyProperties.toy_opt TopologyProperties.toy_luck (fun _ _ l => l) (fun _ _ _ l => l) fresh_process 0.
Definition case_start : bench nat :=
  mkBench (fun l => match l with [] => Some Dir | _ => None end) {| io_path := parse_path "/data"; io_save := parse_path "/data"; io_load := parse_path "/data" |} {| s_terminal := []; s_tees := []; s_stdout := Terminal |} [] [].
Definition shown (x : step nat) := (match snd x with inl _ => None | inr e => Some e end, List.length (b_calls (fst x)), map (fun m => String.concat "/" (p_parts (m_dir m))) (b_done (fst x)), s_terminal (b_screen (fst x)), map t_log (s_tees (b_screen (fst x)))).
Example C90_case : shown (benchmark_elitism (fun _ => case_setting) (fun k => [("run " ++ num k)%string]) (fun _ _ f => f) (fun _ _ => None) [2] [(0, "0"); (3 # 10, "0.3")]%Q 2 6 (Some "random") Lookup case_start)
  = (Some (Py RuntimeError), 11, map (fun i => ("data/popSize2_elitismRatio0/iteration_" ++ num i)%string) (seq 0 10), map (fun k => ("run " ++ num k)%string) (seq 0 11), map (fun k => [("run " ++ num k)%string]) (seq 0 11)).
Proof. vm_compute. reflexivity. Qed.

(* the hypotheses hold of this start, and comparing one evolver with two sizes makes twelve calls without a result; the first log goes
   on to the end *)
Lemma case_free : forall (ps : list plan), (forall p, In p ps -> dir_of p <> []) -> free ps (b_files case_start).
Proof.
  intros ps N. split.
  - split; [reflexivity|]. intros l n H. cbn in H. destruct (l ++ [n]) eqn:E; [destruct l; discriminate|congruence].
  - intros p q I A (c & H). cbn in H. destruct q; discriminate.
Qed.
Lemma case_usual : usual (fun _ => case_setting).
Proof. intros k. split; [exact as_listed|constructor]. Qed.
Lemma case_tidy : tidy (B := nat) (fun _ _ f => f).
Proof. intros k io f T. split; [exact T|auto]. Qed.
Lemma case_working : working (b_screen case_start).
Proof. split; [split; [exact I|intros [|k] t E; discriminate]|]. intros j U. inversion U. Qed.

Definition case_evolvers : step nat := benchmark_evolvers (fun _ => case_setting) (fun k => [("run " ++ num k)%string]) (fun _ _ f => f) (fun _ _ => None) (fun _ i _ => ("failed " ++ num i)%string) [8; 6] [Lookup] 14 6 (Some "tournament") case_start.
Definition counted (x : step nat) := (snd x, List.length (b_calls (fst x)), List.length (b_done (fst x)), firstn 4 (s_terminal (b_screen (fst x))), map (fun t => List.length (t_log t)) (s_tees (b_screen (fst x)))).
Example C90_evolvers_case : counted case_evolvers
  = (inl tt, 12, 0, ["run 0"; "failed 0"; "run 1"; "failed 0"], [24; 22; 20; 18; 16; 14; 12; 10; 8; 6; 4; 2]).
Proof. vm_compute. reflexivity. Qed.
Example C90_script_case : exists m err, snd (rules_script (fun _ => case_setting) (fun _ => []) (fun _ _ f => f) (fun _ _ => None) defaults case_start) = inr err /\
  b_calls (fst (rules_script (fun _ => case_setting) (fun _ => []) (fun _ _ f => f) (fun _ _ => None) defaults case_start)) = [m] /\ m_job m = mkJob 16 (1 # 10) (Some "random") Lookup 0.
Proof.
  destruct (C90_rules_script nat (fun _ => case_setting) (fun _ => []) (fun _ _ f => f) (fun _ _ => None) case_tidy case_usual defaults case_start) as [_ H].
  - intros [H|[]]. discriminate.
  - apply case_free. intros p I. apply in_rules in I. destruct I as (r & i & _ & _ & ->). discriminate.
  - destruct (H (or_introl eq_refl)) as (m & err & A & B & _ & C). exists m, err. split; [exact A|]. split; [exact B|exact C].
Qed.
Example C90_options_case :
  map parse_command_line_args [["-v"; "False"; "-s"; "tournament"; "--dir"; "a"; "-d"; "b"]; ["-v"; "-e"]; ["-v"; ""]; ["data"]; ["-d"; "a"; "b"]]
  = [Some (mkOptions (Some "b") (Some true) (Some "rfawg_saw") (Some "tournament")); Some (mkOptions (Some "data") None None (Some "roulette")); Some (mkOptions (Some "data") (Some false) (Some "rfawg_saw") (Some "roulette")); None; None].
Proof. reflexivity. Qed.
Example C90_places_case : map (fun p => String.concat "/" (dir_of p)) (firstn 1 (skipn 11 (elitism_plan (parse_path "/data") [8; 16] [(0, "0"); (1 # 10, "0.1")]%Q 14 6 None Lookup))) = ["data/popSize8_elitismRatio0_1/iteration_1"].
Proof. reflexivity. Qed.
