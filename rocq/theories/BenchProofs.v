(** Proofs about the benchmark scripts (BenchModel.v). *)
From Coq Require Import List Arith Bool ZArith QArith String Ascii Lia.
From Verif Require Import Base EvolverModel TopologyModel SpeciatedModel SpeciatedSpec SpeciatedProperties BenchModel BenchSpec.
From Verif Require FilesModel FilesSpec FilesProofs FilesRunProofs TeeProofs.
Import ListNotations.
Import FilesModel FilesSpec.
Local Open Scope string_scope.
Local Open Scope list_scope.
Local Open Scope nat_scope.

Lemma undotted_eq : forall s, undotted s = underscored s.
Proof.
  induction s as [|c s IH]; [reflexivity|]. unfold underscored in *. cbn [undotted list_ascii_of_string map string_of_list_ascii]. rewrite IH. f_equal.
  destruct (Ascii.eqb_spec c "."), (ascii_dec c "."); congruence.
Qed.

Lemma underscored_without : forall c s, c <> "_"%char -> without c s -> without c (underscored s).
Proof.
  intros c s N. induction s as [|x s IH]; intros W; [exact W|]. unfold without in *. apply FilesRunProofs.all_chars_cons in W. destruct W as [W0 W].
  unfold underscored in *. cbn [list_ascii_of_string map string_of_list_ascii]. apply FilesRunProofs.all_chars_cons. split; [|exact (IH W)]. destruct (ascii_dec x "."); [congruence|exact W0].
Qed.

Lemma underscored_inj : forall s t, without "_" s -> without "_" t -> underscored s = underscored t -> s = t.
Proof.
  unfold without. induction s as [|x s IH]; intros [|y t] A B E; try discriminate; [reflexivity|]. apply FilesRunProofs.all_chars_cons in A. apply FilesRunProofs.all_chars_cons in B.
  unfold underscored in E. cbn [list_ascii_of_string map string_of_list_ascii] in E. injection E as E0 E. f_equal; [|apply IH; [tauto|tauto|exact E]].
  destruct (ascii_dec x "."), (ascii_dec y "."); try congruence; exfalso; [apply (proj1 B); symmetry; exact E0|apply (proj1 A); exact E0].
Qed.

Lemma digits_no : forall n c, nat_of_ascii c < 48 \/ 57 < nat_of_ascii c -> without c (num n).
Proof. exact FilesRunProofs.num_chars. Qed.

Ltac chars := unfold without in *; repeat (apply FilesRunProofs.all_chars_app; split); repeat (apply FilesRunProofs.all_chars_cons; split; [discriminate|]); try (intros ? ? ?; discriminate).

Lemma iteration_name : forall i, without "/" (iteration i) /\ 3 <= String.length (iteration i).
Proof.
  intros i. unfold iteration. split; [|rewrite FilesRunProofs.str_length; cbn; lia].
  apply FilesRunProofs.all_chars_app. split; [|apply digits_no; cbn; lia]. chars. 
Qed.

Lemma save_dir_one : forall io name, without "/" name -> 3 <= String.length name ->
  save_dir io (Some name) None = {| p_abs := p_abs (io_path io); p_parts := p_parts (io_path io) ++ [name] |}.
Proof.
  intros io name W L. unfold save_dir. destruct (FilesRunProofs.parse_long name "" W L) as (h & t & E & K). destruct (K eq_refl) as [-> ->]. rewrite !FilesRunProofs.str_nil_r in E. rewrite E. reflexivity.
Qed.

Lemma map_flat : forall A B (g : A -> B) l, map g l = flat_map (fun x => [g x]) l.
Proof. induction l as [|a l IH]; [reflexivity|]. cbn. rewrite IH. reflexivity. Qed.

Section Bench.
Context {bytes : Type}.
Variable settings : nat -> setting.
Variable said : nat -> list string.
Variable writes : nat -> inout -> fsys bytes -> fsys bytes.
Variable report : nat -> sstate -> option ioexn.
Hypothesis TIDY : tidy writes.
Variable PS : list plan.
Variable top : path.
Hypothesis PLAIN : plain_path top.
Hypothesis DEPTH : forall p, In p PS -> exists a i, snd p = below top a i /\ a <> ".."%string /\ i <> ".."%string.
Notation bench := (bench bytes).
Notation step := (step bytes).
Implicit Types b : bench.

Definition came (m : made) : Prop := exists k st, call (settings k) m = Ok st.
Definition goes (J : list plan) (b : bench) (x : step) : Prop :=
  exists calls done, b_calls (fst x) = b_calls b ++ calls /\ b_done (fst x) = b_done b ++ done /\ (exists J', J = map planned calls ++ J') /\ (forall m, In m done -> came m) /\ free PS (b_files (fst x)) /\
  ((snd x = inl tt /\ calls = done /\ map planned calls = J) \/ (exists e m, snd x = inr e /\ calls = done ++ [m])).

Lemma goes_nil : forall b, free PS (b_files b) -> goes [] b (b, inl tt).
Proof. intros b F. exists [], []. cbn [fst snd map]. rewrite !app_nil_r. split; [reflexivity|]. split; [reflexivity|]. split; [exists []; reflexivity|]. split; [intros m []|]. split; [exact F|]. left. auto. Qed.

Lemma goes_fail : forall m b (b' : bench) e, b_calls b' = b_calls b ++ [m] -> b_done b' = b_done b -> free PS (b_files b') -> goes [planned m] b (b', inr e).
Proof. intros m b b' e C D F. exists [m], []. cbn [fst snd map]. rewrite app_nil_r. split; [exact C|]. split; [exact D|]. split; [exists []; reflexivity|]. split; [intros x []|]. split; [exact F|]. right. exists e, m. auto. Qed.

Lemma goes_done : forall m b (b' : bench), b_calls b' = b_calls b ++ [m] -> b_done b' = b_done b ++ [m] -> free PS (b_files b') -> came m -> goes [planned m] b (b', inl tt).
Proof. intros m b b' C D F K. exists [m], [m]. cbn [fst snd map]. split; [exact C|]. split; [exact D|]. split; [exists []; reflexivity|]. split; [intros x [<-|[]]; exact K|]. split; [exact F|]. left. auto. Qed.

Lemma goes_bind : forall J1 J2 b x k, goes J1 b x -> (snd x = inl tt -> goes J2 (fst x) (k (fst x))) -> goes (J1 ++ J2) b (bind x k).
Proof.
  intros J1 J2 b [b1 r] k (calls & done & C & D & (J' & EJ) & K & F & H) N. cbn [fst snd] in *. destruct H as [(-> & -> & EM)|(e & m & -> & EC)].
  - specialize (N eq_refl). cbn [bind]. destruct N as (c2 & d2 & C2 & D2 & (J2' & EJ2) & K2 & F2 & H2). exists (done ++ c2), (done ++ d2).
    split; [rewrite C2, C, app_assoc; reflexivity|]. split; [rewrite D2, D, app_assoc; reflexivity|]. split; [exists J2'; rewrite map_app, <- app_assoc, <- EJ2, EM; reflexivity|].
    split; [intros m I; apply in_app_iff in I; destruct I; auto|]. split; [exact F2|]. destruct H2 as [(A & B & E)|(e & m & A & B)]; [left; repeat split; [exact A|congruence|rewrite map_app; congruence]|right; exists e, m; split; [exact A|rewrite B, app_assoc; reflexivity]].
  - cbn [bind]. exists calls, done. cbn [fst snd]. split; [exact C|]. split; [exact D|]. split; [exists (J' ++ J2); rewrite app_assoc, <- EJ; reflexivity|]. split; [exact K|]. split; [exact F|]. right. exists e, m. auto.
Qed.

Lemma goes_free : forall J b x, goes J b x -> free PS (b_files (fst x)).
Proof. intros J b x (c & d & _ & _ & _ & _ & F & _). exact F. Qed.

(* a loop, with something that is kept *)
Lemma goes_each : forall A (J : A -> list plan) (I : bench -> Prop) (body : A -> bench -> step) l,
  (forall a b, In a l -> I b -> free PS (b_files b) -> goes (J a) b (body a b) /\ (snd (body a b) = inl tt -> I (fst (body a b)))) ->
  forall b, I b -> free PS (b_files b) -> goes (flat_map J l) b (each body l b).
Proof.
  intros A J I body. induction l as [|a l IH]; intros H b HI F; [exact (goes_nil b F)|]. cbn [each flat_map].
  destruct (H a b (or_introl eq_refl) HI F) as [G KI]. apply goes_bind; [exact G|]. intros E. apply IH; [intros a' b' I'; apply H; right; exact I'|exact (KI E)|exact (goes_free _ _ _ G)].
Qed.

Lemma above_below : forall q a i, above q (p_parts (below top a i)) -> above q (p_parts top) \/ q = p_parts top ++ [a] \/ q = p_parts top ++ [a; i].
Proof.
  intros q a i (r & E). cbn in E. destruct (exists_last (l := a :: [i]) ltac:(discriminate)) as (w & z & _). clear w z.
  destruct r as [|x r] using rev_ind; [right; right; rewrite app_nil_r in E; congruence|]. clear IHr. rewrite app_assoc in E. change [a; i] with ([a] ++ [i]) in E. rewrite app_assoc in E. apply app_inj_tail in E. destruct E as [E _].
  destruct r as [|y r] using rev_ind; [right; left; rewrite app_nil_r in E; congruence|]. clear IHr. rewrite app_assoc in E. apply app_inj_tail in E. destruct E as [E _]. left. exists r. exact E.
Qed.

(* making a directory on the way of a plan *)
Lemma dir_made : forall p (a : fsys bytes) q, In p PS -> free PS a -> above q (dir_of p) -> exists f', mkdirs a {| p_abs := p_abs top; p_parts := q |} = (f', inl tt) /\ free PS f'.
Proof.
  intros p f q I [T F] A. destruct (DEPTH p I) as (x & i & E & Nx & Ni).
  assert (Pl : plain q). { unfold dir_of in A. rewrite E in A. destruct A as (r & A). assert (Q : plain (q ++ r)); [|apply FilesProofs.plain_app in Q; tauto]. rewrite <- A. cbn. apply FilesProofs.plain_app. split; [exact PLAIN|]. intros [H|[H|[]]]; congruence. }
  destruct (FilesProofs.mkdirs_plain f {| p_abs := p_abs top; p_parts := q |} T Pl) as (f' & M & Ds & K & T').
  { cbn. intros q' A'. apply (F p q' I). destruct A as (r & A), A' as (r' & A'). exists (r' ++ r). rewrite A, A', app_assoc. reflexivity. }
  exists f'. split; [exact M|]. split; [exact T'|]. intros p' q' I' A' (c & H). destruct (FilesProofs.mkdirs_only _ _ _ _ M) as [O _]. destruct (O q') as [E'|[_ E']]; [|congruence]. apply (F p' q' I' A'). exists c. congruence.
Qed.

Lemma run_goes : forall gens hof j b, In (j, gens, hof, io_save (b_io b)) PS -> free PS (b_files b) ->
  goes [(j, gens, hof, io_save (b_io b))] b (run settings said writes report gens hof j b) /\ b_io (fst (run settings said writes report gens hof j b)) = b_io b.
Proof.
  intros gens hof j b I F. unfold run. set (k := List.length (b_calls b)). set (m := mkMade j gens hof (io_save (b_io b)) (List.length (s_terminal (b_screen b)))).
  assert (F1 : free PS (writes k (b_io b) (b_files b))).
  { destruct F as [T F]. destruct (TIDY k (b_io b) (b_files b) T) as [T1 K]. split; [exact T1|]. intros p q Ip A H. destruct (K q H) as [H0|(r & Nr & Er)]; [exact (F p q Ip A H0)|].
    destruct (DEPTH _ I) as (a & i & E & _), (DEPTH p Ip) as (a' & i' & E' & _). unfold dir_of in A. rewrite E' in A. destruct A as (r' & A). cbn in E. rewrite E in Er. rewrite Er in A. cbn in A.
    apply (f_equal (@List.length _)) in A. rewrite !app_length in A. cbn in A. destruct r; [congruence|cbn in A; lia]. }
  destruct (init_logging (b_screen b)) as [s1 t]. destruct (prints s1 (said k)) as [s2 [[]|e]].
  2:{ split; [|reflexivity]. apply (goes_fail m); [reflexivity|reflexivity|exact F1]. }
  destruct (call (settings k) m) as [st|e] eqn:EC.
  2:{ split; [|reflexivity]. apply (goes_fail m); [reflexivity|reflexivity|exact F1]. }
  destruct (report k st) as [e|].
  - split; [|reflexivity]. apply (goes_fail m); [reflexivity|reflexivity|exact F1].
  - split; [|reflexivity]. apply (goes_done m); [reflexivity|reflexivity|exact F1|]. exists k, st. exact EC.
Qed.

(* one directory with its iterations *)
Definition group (a : string) (mk : nat -> job) (gens hof : nat) (is : list nat) (b : bench) : step :=
  bind (save_dir_named a (set_path top b)) (fun b =>
  each (fun i b => bind (save_dir_named (iteration i) b) (run settings said writes report gens hof (mk i))) is (set_path (io_save (b_io b)) b)).

Lemma named : forall b name, without "/" name -> 3 <= String.length name ->
  save_dir_named name b = (mkBench (fst (mkdirs (b_files b) {| p_abs := p_abs (io_path (b_io b)); p_parts := p_parts (io_path (b_io b)) ++ [name] |}))
     {| io_path := io_path (b_io b); io_save := {| p_abs := p_abs (io_path (b_io b)); p_parts := p_parts (io_path (b_io b)) ++ [name] |}; io_load := io_load (b_io b) |} (b_screen b) (b_calls b) (b_done b),
     snd (mkdirs (b_files b) {| p_abs := p_abs (io_path (b_io b)); p_parts := p_parts (io_path (b_io b)) ++ [name] |})).
Proof. intros b name W L. unfold save_dir_named, init_save_dir. rewrite (save_dir_one _ name W L). cbn [io_save]. destruct (mkdirs _ _) as [f r]. reflexivity. Qed.

Lemma goes_same : forall J b b' x, goes J b x -> b_calls b = b_calls b' -> b_done b = b_done b' -> goes J b' x.
Proof. intros J b b' x (c & d & C & D & R) E1 E2. exists c, d. rewrite <- E1, <- E2. auto. Qed.

Lemma one_iteration : forall a mk gens hof i b, In (mk i, gens, hof, below top a (iteration i)) PS -> io_path (b_io b) = {| p_abs := p_abs top; p_parts := p_parts top ++ [a] |} -> free PS (b_files b) ->
  let x := bind (save_dir_named (iteration i) b) (run settings said writes report gens hof (mk i)) in
  goes [(mk i, gens, hof, below top a (iteration i))] b x /\ io_path (b_io (fst x)) = {| p_abs := p_abs top; p_parts := p_parts top ++ [a] |}.
Proof.
  intros a mk gens hof i b I P F x. subst x. destruct (iteration_name i) as [W L]. rewrite (named b (iteration i) W L). rewrite P. cbn [p_abs p_parts]. rewrite <- app_assoc. cbn [app].
  destruct (dir_made _ (b_files b) (p_parts top ++ [a; iteration i]) I F) as (f' & M & F'); [exists []; rewrite app_nil_r; reflexivity|]. rewrite M. cbn [fst snd bind].
  match goal with |- context [run settings said writes report gens hof (mk i) ?y] => set (b1 := y) end.
  destruct (run_goes gens hof (mk i) b1) as [G Gio]; [exact I|exact F'|]. rewrite Gio. split; [|reflexivity]. apply (goes_same _ b1); [exact G|reflexivity|reflexivity].
Qed.

Lemma group_goes : forall a mk gens hof is b, without "/" a -> 3 <= String.length a -> is <> [] -> (forall i, In i is -> In (mk i, gens, hof, below top a (iteration i)) PS) -> free PS (b_files b) ->
  goes (map (fun i => (mk i, gens, hof, below top a (iteration i))) is) b (group a mk gens hof is b).
Proof.
  intros a mk gens hof is b W L N I F. unfold group. rewrite (named _ a W L). cbn [set_path b_files b_io io_path io_load b_screen b_calls b_done].
  destruct is as [|i0 is0] eqn:Ei; [congruence|]. rewrite <- Ei in *.
  destruct (dir_made _ (b_files b) (p_parts top ++ [a]) (I i0 ltac:(rewrite Ei; left; reflexivity)) F) as (f' & M & F'); [exists [iteration i0]; cbn; rewrite <- app_assoc; reflexivity|].
  rewrite M. cbn [fst snd bind b_io io_save].
  match goal with |- goes _ _ (each ?B is ?y) => set (body := B); set (b1 := y) end.
  apply (goes_same _ b1); [|reflexivity|reflexivity].
  replace (map (fun i => (mk i, gens, hof, below top a (iteration i))) is) with (flat_map (fun i => [(mk i, gens, hof, below top a (iteration i))]) is) by (symmetry; apply (map_flat nat plan)).
  apply (goes_each nat (fun i => [(mk i, gens, hof, below top a (iteration i))]) (fun b => io_path (b_io b) = {| p_abs := p_abs top; p_parts := p_parts top ++ [a] |})); [|reflexivity|exact F'].
  intros i b2 Ii P2 F2. destruct (one_iteration a mk gens hof i b2 (I i Ii) P2 F2) as [G K]. split; [exact G|intros _; exact K].
Qed.
End Bench.

(** *** The calls that ask for elites *)
Lemma light : forall settings m, usual settings -> 0 < m_generations m -> came settings m -> ~ elites (m_job m).
Proof.
  intros settings m U G (k & st & E) H. destruct (U k) as [IT LT]. unfold call in E.
  exact (C74_elitism_aborts _ _ _ _ _ _ _ _ _ _ _ (mkCfg RuleRandom (j_ratio (m_job m)) (j_size (m_job m)) (m_generations m) (m_hof m) (3 # 2)) _ _ IT _ _ _ _ LT G H E).
Qed.

(** *** Comparing evolvers: every call fails, and the failure is caught *)
Section Evolvers.
Context {bytes : Type}.
Variable settings : nat -> setting.
Variable said : nat -> list string.
Variable writes : nat -> inout -> fsys bytes -> fsys bytes.
Variable report : nat -> sstate -> option ioexn.
Variable excuse : evolver -> nat -> nat -> string.
Hypothesis TIDY : tidy writes.
Hypothesis USUAL : usual settings.
Variable PS : list plan.
Variable top : path.
Hypothesis PLAIN : plain_path top.
Hypothesis DEPTH : forall p, In p PS -> exists a i, snd p = below top a i /\ a <> ".."%string /\ i <> ".."%string.
Notation bench := (bench bytes).
Notation step := (step bytes).
Implicit Types b : bench.
Variable n0 : nat.

Definition logged (s : screen) (cs : list made) : Prop :=
  List.length (s_tees s) = n0 + List.length cs /\
  forall i m, nth_error cs i = Some m -> m_from m <= List.length (s_terminal s) /\ in_use s (n0 + i) /\ log_of s (n0 + i) = Some (skipn (m_from m) (s_terminal s)).

Lemma skipn_snoc : forall (A : Type) n (l l' : list A), n <= List.length l -> skipn n (l ++ l') = skipn n l ++ l'.
Proof. intros A n l l' H. rewrite skipn_app. replace (n - List.length l) with 0 by lia. reflexivity. Qed.

Lemma logged_prints : forall s ms cs, working s -> exists s', prints s ms = (s', inl tt) /\ working s' /\ s_terminal s' = s_terminal s ++ ms /\ (logged s cs -> logged s' cs).
Proof.
  intros s ms cs [S O]. destruct (TeeProofs.prints_effect ms s S O) as (s' & P & T & Sh & A & B). exists s'. split; [exact P|]. split.
  - split; [exact (TeeProofs.shape_sound _ _ Sh S)|]. intros j U. apply (TeeProofs.shape_open _ _ _ Sh). apply O. apply (TeeProofs.shape_in_use _ _ j Sh). exact U.
  - split; [exact T|]. intros [L K]. split; [rewrite (proj1 (proj2 Sh)); exact L|]. intros i m E. destruct (K i m E) as (Le & U & Lg). rewrite T, app_length. split; [lia|]. split; [apply (TeeProofs.shape_in_use _ _ _ Sh); exact U|].
    rewrite (A _ _ Lg U), skipn_snoc by exact Le. reflexivity.
Qed.

Lemma logged_start : forall s s1 t cs m, working s -> init_logging s = (s1, t) -> m_from m = List.length (s_terminal s) -> working s1 /\ s_terminal s1 = s_terminal s /\ (logged s cs -> logged s1 (cs ++ [m])).
Proof.
  intros s s1 t cs m [S O] I Fm. destruct (TeeProofs.init_logging_sound s s1 t S I) as (S1 & T1 & O1 & Et & L1 & N1 & Nj & U1 & Len). split.
  - split; [exact S1|]. intros j U. apply U1 in U. destruct U as [->|U]; [exists {| t_behind := s_stdout s; t_log := []; t_open := true |}; auto|]. destruct (O j U) as (u & E & Ou). exists u. split; [|exact Ou]. rewrite Nj; [exact E|]. intros ->. assert (t < List.length (s_tees s)) by (apply nth_error_Some; congruence). lia.
  - split; [exact T1|]. intros [L K]. split; [rewrite app_length; cbn; lia|]. intros i x E. rewrite T1. destruct (lt_dec i (List.length cs)) as [Hi|Hi].
    + rewrite nth_error_app1 in E by exact Hi. destruct (K i x E) as (Le & U & Lg). split; [exact Le|]. split; [apply U1; right; exact U|]. unfold log_of in *. rewrite Nj by lia. exact Lg.
    + rewrite nth_error_app2 in E by lia. destruct (i - List.length cs) as [|d] eqn:Ed; [|destruct d; discriminate]. cbn in E. injection E as <-. replace (n0 + i) with t by lia. split; [lia|]. split; [apply U1; left; reflexivity|]. rewrite L1, Fm, skipn_all. reflexivity.
Qed.

Definition told (p : plan) : string := let '(j, _, _, _) := p in excuse (j_evolver j) (j_seed j) (j_size j).

Definition tries (J : list plan) (b : bench) (x : step) : Prop :=
  snd x = inl tt /\ exists cs text, b_calls (fst x) = b_calls b ++ cs /\ b_done (fst x) = b_done b /\ map planned cs = J /\ free PS (b_files (fst x)) /\ working (b_screen (fst x)) /\
  s_terminal (b_screen (fst x)) = s_terminal (b_screen b) ++ text /\ within (map told J) text /\ (forall cs0, logged (b_screen b) cs0 -> logged (b_screen (fst x)) (cs0 ++ cs)).

Lemma within_app : forall A (a b c d : list A), within a b -> within c d -> within (a ++ c) (b ++ d).
Proof. intros A a b c d H K. induction H as [|x l m H IH|x l m H IH]; cbn [app]; [exact K|apply within_skip; exact IH|apply within_take; exact IH]. Qed.
Lemma within_nil_l : forall A (l : list A), within [] l.
Proof. induction l; constructor; assumption. Qed.

Lemma tries_each : forall A (J : A -> list plan) (body : A -> bench -> step) l,
  (forall a b, In a l -> free PS (b_files b) -> working (b_screen b) -> tries (J a) b (body a b)) ->
  forall b, free PS (b_files b) -> working (b_screen b) -> tries (flat_map J l) b (each body l b).
Proof.
  intros A J body. induction l as [|a l IH]; intros H b F W.
  - split; [reflexivity|]. exists [], []. cbn [fst snd map flat_map each]. rewrite !app_nil_r. split; [reflexivity|]. split; [reflexivity|]. split; [reflexivity|]. split; [exact F|]. split; [exact W|]. split; [reflexivity|]. split; [constructor|]. intros cs0 L0. rewrite app_nil_r. exact L0.
  - cbn [each flat_map]. destruct (H a b (or_introl eq_refl) F W) as (R & cs & tx & C & D & M & F1 & W1 & T & X & Lg). destruct (body a b) as [b1 r]. cbn [fst snd] in *. subst r. cbn [bind].
    destruct (IH (fun a' b' I => H a' b' (or_intror I)) b1 F1 W1) as (R2 & cs2 & tx2 & C2 & D2 & M2 & F2 & W2 & T2 & X2 & Lg2). split; [exact R2|]. exists (cs ++ cs2), (tx ++ tx2).
    split; [rewrite C2, C, app_assoc; reflexivity|]. split; [congruence|]. split; [rewrite map_app; congruence|]. split; [exact F2|]. split; [exact W2|]. split; [rewrite T2, T, app_assoc; reflexivity|].
    split; [rewrite map_app; apply within_app; assumption|]. intros cs0 L0. rewrite app_assoc. apply Lg2, Lg, L0.
Qed.

Lemma run_fails : forall gens hof j b, 0 < gens -> elites j -> working (b_screen b) ->
  exists m s2 e, run settings said writes report gens hof j b = (mkBench (writes (List.length (b_calls b)) (b_io b) (b_files b)) (b_io b) s2 (b_calls b ++ [m]) (b_done b), inr e) /\
    planned m = (j, gens, hof, io_save (b_io b)) /\ working s2 /\ s_terminal s2 = s_terminal (b_screen b) ++ said (List.length (b_calls b)) /\ (forall cs0, logged (b_screen b) cs0 -> logged s2 (cs0 ++ [m])).
Proof.
  intros gens hof j b G H W. unfold run. set (k := List.length (b_calls b)). set (m := mkMade j gens hof (io_save (b_io b)) (List.length (s_terminal (b_screen b)))).
  destruct (init_logging (b_screen b)) as [s1 t] eqn:EI.
  assert (W1 : working s1 /\ s_terminal s1 = s_terminal (b_screen b)) by (destruct (logged_start _ s1 t [] m W EI eq_refl) as (A & B & _); auto). destruct W1 as [W1 T1].
  destruct (logged_prints s1 (said k) [] W1) as (s2 & P & W2 & T2 & _). rewrite P.
  assert (NC : exists e, call (settings k) m = Err e). { destruct (call (settings k) m) as [st|e] eqn:EC; [|eauto]. exfalso. refine (light settings m USUAL G _ H). exists k, st. exact EC. }
  destruct NC as (e & NC). rewrite NC. exists m, s2, (Py e). split; [reflexivity|]. split; [reflexivity|]. split; [exact W2|]. split; [rewrite T2, T1; reflexivity|].
  intros cs0 L0. destruct (logged_prints s1 (said k) (cs0 ++ [m]) W1) as (s2' & P' & _ & _ & K). rewrite P in P'. injection P' as <-. apply K. exact (proj2 (proj2 (logged_start _ s1 t cs0 m W EI eq_refl)) L0).
Qed.

Definition evolver_dir (size : nat) (e : evolver) : string := ("popSize" ++ num size ++ "_evolver" ++ class_name e)%string.
Lemma evolver_dir_name : forall size e, without "/" (evolver_dir size e) /\ 3 <= String.length (evolver_dir size e).
Proof.
  intros size e. unfold evolver_dir. split; [|rewrite !FilesRunProofs.str_length; cbn; lia].
  apply FilesRunProofs.all_chars_app. split; [chars|]. apply FilesRunProofs.all_chars_app. split; [apply digits_no; cbn; lia|]. destruct e; chars.
Qed.

Lemma compared_tries : forall size gens hof rule e i b, 0 < gens -> elites (mkJob size (1 # 10) rule e i) ->
  In (mkJob size (1 # 10) rule e i, gens, Nat.min hof size, below top (evolver_dir size e) (iteration i)) PS -> free PS (b_files b) -> working (b_screen b) ->
  tries [(mkJob size (1 # 10) rule e i, gens, Nat.min hof size, below top (evolver_dir size e) (iteration i))] b (caught excuse i e size (compared settings said writes report top size gens hof rule e i b)).
Proof.
  intros size gens hof rule e i b G H I F W. unfold compared. destruct (evolver_dir_name size e) as [We Le]. destruct (iteration_name i) as [Wi Li].
  fold (evolver_dir size e). rewrite (named _ _ We Le). cbn [set_path b_files b_io io_path io_load b_screen b_calls b_done].
  destruct (dir_made PS top PLAIN DEPTH _ (b_files b) (p_parts top ++ [evolver_dir size e]) I F) as (f1 & M1 & F1); [exists [iteration i]; cbn; rewrite <- app_assoc; reflexivity|]. rewrite M1. cbn [fst snd bind b_io io_save].
  rewrite (named _ _ Wi Li). cbn [set_path b_files b_io io_path io_load b_screen b_calls b_done p_abs p_parts]. rewrite <- app_assoc. cbn [app].
  destruct (dir_made PS top PLAIN DEPTH _ f1 (p_parts top ++ [evolver_dir size e; iteration i]) I F1) as (f2 & M2 & F2); [exists []; rewrite app_nil_r; reflexivity|]. rewrite M2. cbn [fst snd bind].
  replace (if size <? hof then size else hof) with (Nat.min hof size) by (destruct (Nat.ltb_spec size hof); lia).
  match goal with |- context [run settings said writes report gens _ _ ?y] => set (b1 := y) end.
  destruct (run_fails gens (Nat.min hof size) (mkJob size (1 # 10) rule e i) b1 G H W) as (m & s2 & x & E & Pm & W2 & T2 & Lg).
  destruct (run_goes settings said writes report TIDY PS top DEPTH gens (Nat.min hof size) (mkJob size (1 # 10) rule e i) b1 I F2) as [Gs _]. apply goes_free in Gs. rewrite E in *. cbn [fst b_files] in Gs. cbn [caught b_screen b_files b_io b_calls b_done].
  destruct (logged_prints s2 [excuse e i size] [] W2) as (s3 & P3 & W3 & T3 & _).
  assert (P3' : print_to s2 (excuse e i size) = (s3, inl tt)). { cbn [prints] in P3. destruct (print_to s2 (excuse e i size)) as [s' [[]|]]; congruence. }
  rewrite P3'. split; [reflexivity|]. exists [m], (said (List.length (b_calls b1)) ++ [excuse e i size]). cbn [fst snd b_calls b_done b_files b_screen].
  split; [reflexivity|]. split; [reflexivity|]. split; [cbn [map]; rewrite Pm; reflexivity|]. split; [exact Gs|]. split; [exact W3|]. split; [rewrite T3, T2, app_assoc; reflexivity|].
  split; [cbn; apply (within_app _ [] _ [_] [_]); [apply within_nil_l|apply within_take, within_nil]|].
  intros cs0 L0. destruct (logged_prints s2 [excuse e i size] (cs0 ++ [m]) W2) as (s3' & P4 & _ & _ & K). rewrite P3 in P4. injection P4 as <-. apply K, Lg, L0.
Qed.
End Evolvers.
