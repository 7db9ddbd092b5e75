(** C69: the evaluators that compare powers or spectra.  C70: evaluators on graphs. *)
From Coq Require Import Reals List Arith Bool Lia Lra ZArith.
From Verif Require Import Base GraphModel GraphSpec GraphProofs TopoProofs OperatorsModel OperatorsSpec OperatorsProofs EvolutionProofs TypingProofs InitProofs ParamsModel ParamsSpec EvolverModel EvolverSpec EvolveSpec BuildProofs PropagateModel PropagateSpec PropagateProofs FlowSpec FlowProofs Complex ArrayModel ComponentModel ComponentSpec MoreComponentsSpec ComponentProofs OpticsModel OpticsSpec OpticsSessionProofs OpticsComponentProofs OpticsProofs StrengthProofs NetworkProofs OpticsBoundProofs EvolutionExamples EvolverExamples FourierProofs GridProofs EvaluatorModel EvaluatorSpec EvaluatorProofs PulseProofs RadioProofs PowerProofs OpticsProperties.
Import ListNotations.
Local Open Scope nat_scope.
Local Open Scope R_scope.

(** * C69 Scores from powers and spectra *)

(* the filter design score is minus the share of the amplitude spectrum inside the bands; 0.1 times
   the free spectral range is 0.02 THz *)
Theorem C69_filter : forall p state, usable (n_samples p) (window_t p) -> length state = n_samples p ->
  (dark state -> filter_design_score p state = Ok None) /\
  (~ dark state -> exists (s : R) (b : nat -> R), filter_design_score p state = Ok (Some s) /\
    (forall i, (i < n_samples p)%nat -> let band := in_band (2 * PI * (2 * 10 ^ 11)) (2 * PI * (2 * 10 ^ 10)) (centred_frequency (n_samples p) (window_t p) i) in (band -> b i = 1) /\ (~ band -> b i = 0)) /\
    let a := fun i => sqrt (Cnorm2 (harmonic_at state (centred_entry (n_samples p) i))) in
    0 < rsum (n_samples p) a /\ s = - (rsum (n_samples p) (fun i => b i * a i) / rsum (n_samples p) a)).
Proof. replace (2 * 10 ^ 10) with (duty * free_spectral_range) by (unfold duty, free_spectral_range; field). exact filter_value. Qed.
Print Assumptions C69_filter.

Theorem C69_filter_bounds : forall p state s, usable (n_samples p) (window_t p) -> length state = n_samples p -> filter_design_score p state = Ok (Some s) ->
  -1 <= s <= 0 /\
  (s = -1 <-> forall i, (i < n_samples p)%nat -> in_band (2 * PI * (2 * 10 ^ 11)) (2 * PI * (2 * 10 ^ 10)) (centred_frequency (n_samples p) (window_t p) i) \/ harmonic_at state (centred_entry (n_samples p) i) = C0).
Proof. replace (2 * 10 ^ 10) with (duty * free_spectral_range) by (unfold duty, free_spectral_range; field). exact filter_bounds. Qed.
Print Assumptions C69_filter_bounds.

Theorem C69_filter_scaled : forall p state c, usable (n_samples p) (window_t p) -> length state = n_samples p -> c <> C0 -> filter_design_score p (map (Cmul c) state) = filter_design_score p state.
Proof. exact filter_scaled. Qed.
Print Assumptions C69_filter_scaled.

(* the target is meant to repeat with the free spectral range of 0.2 THz *)
Theorem C69_filter_range_refuted : exists p i j, usable (n_samples p) (window_t p) /\ (i < n_samples p)%nat /\ (j < n_samples p)%nat /\
  nth j (grid_f p) 0 = nth i (grid_f p) 0 + 2 * 10 ^ 11 /\ nth j (target_transfer p) 0 <> nth i (target_transfer p) 0.
Proof.
  set (p := mkGrid 3 (3 / (4 * 10 ^ 11)) 1). assert (U : usable (n_samples p) (window_t p)) by (split; [cbn; lia|cbn [window_t p]; lra]). exists p, 1%nat, 2%nat. split; [exact U|]. split; [cbn; lia|]. split; [cbn; lia|].
  assert (F1 : centred_frequency (n_samples p) (window_t p) 1 = 0) by (unfold centred_frequency; cbn [n_samples window_t p Nat.sub]; simpl INR; field).
  assert (F2 : centred_frequency (n_samples p) (window_t p) 2 = free_spectral_range) by (unfold centred_frequency, free_spectral_range; cbn [n_samples window_t p Nat.sub]; simpl INR; field).
  destruct (target_nth p 1 U ltac:(cbn; lia)) as (T1 & _). destruct (target_nth p 2 U ltac:(cbn; lia)) as (_ & T2). rewrite F1 in T1. rewrite F2 in T2. destruct bands_wrong as (B1 & B2). rewrite (T1 B1), (T2 B2). split; [|lra].
  rewrite !(grid_f_nth p _ U) by (cbn; lia). rewrite grid_df_val. cbn [n_samples window_t p Nat.sub]. simpl INR. field.
Qed.
Print Assumptions C69_filter_range_refuted.

Theorem C69_noise : forall signal tp state, noise_suppression_init (Some signal) = Ok tp -> length state = length signal ->
  exists s, noise_suppression_score tp state = Ok s /\ s = power_misfit state signal /\ 0 <= s /\ (s = 0 <-> forall i, (i < length signal)%nat -> sample_power state i = sample_power signal i).
Proof. intros signal tp state E L. exists (power_misfit state signal). split; [exact (noise_value signal tp state E L)|]. split; [reflexivity|]. apply power_misfit_zero. Qed.
Print Assumptions C69_noise.

Theorem C69_gate : forall target state, length state = length target ->
  (dark target \/ dark state -> not_gate_score target state = Ok None) /\
  (~ dark target -> ~ dark state -> let n := length target in
    0 < rsum n (sample_power state) * rsum n (sample_power target) /\
    not_gate_score target state = Ok (Some (rsum n (fun i => sample_power state i * sample_power target i) / (rsum n (sample_power state) * rsum n (sample_power target))))).
Proof. exact gate_value. Qed.
Print Assumptions C69_gate.

Theorem C69_gate_bounds : forall target state s, length state = length target -> not_gate_score target state = Ok (Some s) ->
  0 <= s <= 1 /\ (s = 0 <-> forall i, (i < length target)%nat -> nth i target C0 = C0 \/ nth i state C0 = C0).
Proof. exact gate_bounds. Qed.
Print Assumptions C69_gate_bounds.

Theorem C69_lens : forall p input state, usable (n_samples p) (window_t p) -> length input = n_samples p -> length state = n_samples p ->
  exists r, lens_score p input state = Ok r /\ forall s, r = Some s -> 0 <= s.
Proof. exact lens_sound. Qed.
Print Assumptions C69_lens.

Theorem C69_snr : forall clean noisy, length noisy = length clean -> (0 < length clean)%nat ->
  ((exists z, In z clean /\ z = C0) -> snr_score clean noisy = Ok None) /\
  ((forall z, In z clean -> z <> C0) -> exists s, snr_score clean noisy = Ok (Some s) /\ s <= 1 /\
    s = 1 - rsum (length clean) (fun i => sqrt (Cnorm2 (nth i noisy C0)) / sqrt (Cnorm2 (nth i clean C0))) / INR (length clean)).
Proof.
  intros clean noisy L P. destruct (snr_value clean noisy L P) as (A & B). split; [exact A|]. intros H. eexists. split; [exact (B H)|]. split; [|reflexivity].
  pose proof (INR_pos _ P) as Pn. assert (0 <= rsum (length clean) (fun i => sqrt (Cnorm2 (nth i noisy C0)) / sqrt (Cnorm2 (nth i clean C0)))).
  { apply rsum_nonneg. intros i Hi. apply Rmult_le_pos; [apply sqrt_pos|]. apply Rlt_le, Rinv_0_lt_compat. apply (Cabs_pos (nth i clean C0)), H, nth_In, Hi. }
  assert (0 <= rsum (length clean) (fun i => sqrt (Cnorm2 (nth i noisy C0)) / sqrt (Cnorm2 (nth i clean C0))) / INR (length clean)); [|lra]. apply Rmult_le_pos; [assumption|]. apply Rlt_le, Rinv_0_lt_compat, Pn.
Qed.
Print Assumptions C69_snr.

(* deviations of opposite signs cancel: a noisy field can score like a clean one *)
Theorem C69_snr_refuted : exists clean noisy i, (forall z, In z clean -> z <> C0) /\ length noisy = length clean /\ snr_score clean noisy = Ok (Some 0) /\ sample_power noisy i <> sample_power clean i.
Proof.
  assert (H : forall z, In z [C1; C1] -> z <> C0) by (intros z [<-|[<-|[]]] X; apply (f_equal fst) in X; cbn in X; lra).
  exists [C1; C1], [RtoC 2; C0], 0%nat. split; [exact H|]. split; [reflexivity|]. split.
  - destruct (C69_snr [C1; C1] [RtoC 2; C0] eq_refl ltac:(cbn; lia)) as (_ & B). destruct (B H) as (s & E & _ & V). rewrite E. do 2 apply f_equal. rewrite V. cbn [length rsum nth]. change (sqrt (Cnorm2 (RtoC 2))) with (Cabs (RtoC 2)). change (sqrt (Cnorm2 C1)) with (Cabs (RtoC 1)). change (sqrt (Cnorm2 C0)) with (Cabs (RtoC 0)). rewrite !Cabs_RtoC by lra. simpl INR. field.
  - unfold sample_power. cbn [nth]. unfold Cnorm2, RtoC, C1, re, im. cbn [fst snd]. lra.
Qed.
Print Assumptions C69_snr_refuted.

(* two samples: overlapping and complementary pulses, equal and different powers *)
Example C69_case : not_gate_score [C1; C0] [C0; C1] = Ok (Some 0) /\ not_gate_score [C1; C1] [C1; C1] = Ok (Some (1 / 2)) /\
  noise_suppression_init None = Err RuntimeError /\ (do t <- noise_suppression_init (Some [C1; C1]); noise_suppression_score t [Ci; RtoC 2]) = Ok 9 /\
  filter_design_score grid4 late4 <> Ok None /\ (exists s, filter_design_score grid4 pulse4 = Ok (Some s) /\ s = -1).
Proof.
  assert (N0 : Cnorm2 C0 = 0) by (unfold Cnorm2, C0, re, im; cbn [fst snd]; ring). assert (N1 : Cnorm2 C1 = 1) by (unfold Cnorm2, C1, re, im; cbn [fst snd]; ring).
  assert (O : C1 <> C0) by (intros X; apply (f_equal fst) in X; cbn in X; lra).
  assert (D1 : forall x, In C1 x -> ~ dark x) by (intros x H D; apply O, D, H).
  split. { destruct (C69_gate [C1; C0] [C0; C1] eq_refl) as (_ & V). destruct V as (_ & E); [apply D1; left; reflexivity|apply D1; right; left; reflexivity|]. rewrite E. do 2 apply f_equal. cbn [length rsum]. unfold sample_power. cbn [nth]. rewrite N0, N1. field. }
  split. { destruct (C69_gate [C1; C1] [C1; C1] eq_refl) as (_ & V). destruct V as (_ & E); [apply D1; left; reflexivity|apply D1; left; reflexivity|]. rewrite E. do 2 apply f_equal. cbn [length rsum]. unfold sample_power. cbn [nth]. rewrite N1. field. }
  split; [reflexivity|]. split. { destruct (C69_noise [C1; C1] _ [Ci; RtoC 2] eq_refl eq_refl) as (s & E & V & _). cbn [noise_suppression_init bind]. rewrite E. apply f_equal. rewrite V. unfold power_misfit, sample_power. cbn [length rsum nth]. unfold Cnorm2, Ci, RtoC, C1, re, im. cbn [fst snd]. ring. }
  assert (L : forall x, length x = 4%nat -> In C1 x -> exists s, filter_design_score grid4 x = Ok (Some s)). { intros x Lx Hx. destruct (C69_filter grid4 x grid4_usable Lx) as (_ & V). destruct (V (D1 x Hx)) as (s & _ & E & _). exists s. exact E. }
  split. { destruct (L late4 eq_refl ltac:(right; left; reflexivity)) as (s & E). rewrite E. discriminate. }
  destruct (L pulse4 eq_refl ltac:(left; reflexivity)) as (s & E). exists s. split; [exact E|]. apply (proj2 (C69_filter_bounds grid4 pulse4 s grid4_usable eq_refl E)). intros i Hi. left. exists 0%Z. cbn [n_samples grid4] in Hi. pose proof PI_RGT_0. assert (P2 : 2 < PI) by (pose proof PI2_1; lra).
  assert (C : -3 <= centred_frequency (n_samples grid4) (window_t grid4) i <= 3). { unfold centred_frequency. cbn [n_samples window_t grid4 Nat.sub]. destruct i as [|[|[|[|i]]]]; try lia; simpl INR; lra. }
  split; nra.
Qed.

(** * C70 Evaluators on graphs *)

(* the simulation's error, KeyError for a node with outputs, or the score of a field of the grid's length *)
Theorem C70_evaluate : forall X (score : list C -> res X) st p g n node old, wf g -> acyclic g -> typed g -> furnished g st ->
  usable (n_samples p) (window_t p) -> bin_spans (n_samples p) (window_t p) n ->
  let fine := single_feed g /\ ~ blocked g st /\ (contains g WaveShaper -> shapeable (n_samples p) n) in
  (~ fine -> exists e, snd (evaluate score st p g (PNode node) old) = Err e) /\
  (fine -> ~ no_output g node -> snd (evaluate score st p g (PNode node) old) = Err KeyError) /\
  (fine -> no_output g node -> exists state, length state = n_samples p /\ measure (fst (evaluate score st p g (PNode node) old)) (PNode node) = Ok state /\ snd (evaluate score st p g (PNode node) old) = score state).
Proof.
  intros X score st p g n node old W A T Fu U Hn fine. assert (Ls : length (repeat C0 (n_samples p)) = n_samples p) by apply repeat_length. destruct (C65_exact st p g (repeat C0 (n_samples p)) n old W A T Fu U Ls Hn) as (Ex & Len). fold fine in Ex. unfold evaluate.
  destruct (simulate st p g (repeat C0 (n_samples p)) old) as (sv & r) eqn:S. cbn [fst snd] in *.
  assert (M : r = Ok tt -> (forall m, (exists s, measure sv (PNode m) = Ok s) <-> no_output g m) /\ (forall pl e, measure sv pl = Err e -> e = KeyError)).
  { intros ->. unfold simulate in S. destruct (propagate (optics st p) g (repeat C0 (n_samples p)) tt old) as ((x' & sv') & r') eqn:Pr. assert (sv' = sv) by congruence. assert (r' = Ok tt) by congruence. subst sv' r'. destruct (measurable _ g _ W _ _ _ _ Pr) as (M1 & _ & M3). split; [exact M1|exact M3]. }
  split; [|split].
  - intros H. destruct r as [[]|e]; [exfalso; apply H, Ex; reflexivity|]. exists e. reflexivity.
  - intros H No. assert (r = Ok tt) by (apply Ex; exact H). subst r. destruct (M eq_refl) as (M1 & M3). cbn [bind]. destruct (measure sv (PNode node)) as [s|e] eqn:Em; [exfalso; apply No, M1; exists s; exact Em|]. cbn [bind]. rewrite (M3 _ _ Em). reflexivity.
  - intros H No. assert (r = Ok tt) by (apply Ex; exact H). subst r. destruct (M eq_refl) as (M1 & _). destruct (proj2 (M1 node) No) as (s & Em). exists s. rewrite Em. cbn [bind]. split; [|split; reflexivity]. apply (Len eq_refl (PNode node)). unfold measure in Em. destruct (saved sv (PNode node)) as [s'|]; [|discriminate]. cbn in Em. congruence.
Qed.
Print Assumptions C70_evaluate.

(* what earlier simulations left in the graph has no influence *)
Theorem C70_repeatable : forall X (score : list C -> res X) st p g node old old', evaluate score st p g node old = evaluate score st p g node old'.
Proof. intros. unfold evaluate, simulate, propagate, propagate_along. reflexivity. Qed.
Print Assumptions C70_repeatable.

(* called by the optimisers, the radio frequency evaluator scores the present parameters; called on its own it does not simulate *)
Theorem C70_wrapped : forall X (score : list C -> res X) st p g node old,
  evaluate_wrapped (fun sv => (sv, evaluate_saved score node sv)) st p g old = evaluate score st p g node old /\
  evaluate_wrapped (fun sv => evaluate score st p g node sv) st p g old = evaluate score st p g node old /\
  evaluate_saved score node [] = Err KeyError.
Proof.
  intros X score st p g node old. unfold evaluate_wrapped, evaluate, evaluate_saved. split; [|split; [|reflexivity]].
  - destruct (simulate _ _ _ _ old) as (sv & [[]|e]); reflexivity.
  - assert (S : forall sv, simulate st p g (repeat C0 (n_samples p)) sv = simulate st p g (repeat C0 (n_samples p)) old) by reflexivity. destruct (simulate _ _ _ _ old) as (sv & [[]|e]) eqn:E; [rewrite (S sv); reflexivity|reflexivity].
Qed.
Print Assumptions C70_wrapped.

(* the NOT gate evaluator looks for the node itself *)
Theorem C70_output : forall X (score : list C -> res X) st p g old, wf g ->
  ((exists n, no_output g n) -> exists n, no_output g n /\ evaluate_output score st p g old = evaluate score st p g (PNode n) old) /\
  (~ (exists n, no_output g n) -> evaluate_output score st p g old = (old, Err IndexError)).
Proof.
  intros X score st p g old W. assert (Q : forall m, nx_out_edges g m = [] -> is_node g m -> no_output g m).
  { intros m E N. split; [exact N|]. intros e He Es. assert (In e (nx_out_edges g m)) by (unfold nx_out_edges; apply filter_In; split; [exact He|apply Nat.eqb_eq; exact Es]). rewrite E in H. exact H. }
  unfold evaluate_output, get_output_node. destruct (find _ (node_ids g)) as [m|] eqn:E.
  - apply find_some in E as (E1 & E2). assert (N : no_output g m). { apply Q; [destruct (nx_out_edges g m); [reflexivity|discriminate]|]. apply in_map_iff in E1 as ((m' & d) & Em & Hm). cbn in Em. subst m'. exists d. exact Hm. }
    split; [intros _; exists m; split; [exact N|reflexivity]|]. intros H. exfalso. apply H. exists m. exact N.
  - split; [|reflexivity]. intros (n & (d & Hn) & No). exfalso. pose proof (find_none _ _ E n (proj2 (node_ids_is_node g n) (ex_intro _ d Hn))) as F. cbn beta in F. destruct (nx_out_edges g n) as [|e l] eqn:El; [discriminate|].
    assert (He : In e (nx_out_edges g n)) by (rewrite El; left; reflexivity). unfold nx_out_edges in He. apply filter_In in He as (H1 & H2). apply Nat.eqb_eq in H2. exact (No e H1 H2).
Qed.
Print Assumptions C70_output.

(* the lens evaluator also needs the connection it calls the input *)
Theorem C70_lens : forall st p g n first node old, wf g -> acyclic g -> typed g -> furnished g st ->
  usable (n_samples p) (window_t p) -> bin_spans (n_samples p) (window_t p) n ->
  single_feed g -> ~ blocked g st -> (contains g WaveShaper -> shapeable (n_samples p) n) ->
  let present := exists e, In e (g_edges g) /\ (e_src e, e_dst e, e_key e) = first in
  (~ (present /\ no_output g node) -> snd (evaluate_lens st p g (PEdge first) (PNode node) old) = Err KeyError) /\
  (present -> no_output g node -> exists r, snd (evaluate_lens st p g (PEdge first) (PNode node) old) = Ok r /\ forall s, r = Some s -> 0 <= s).
Proof.
  intros st p g n first node old W A T Fu U Hn F1 F2 F3 present. assert (Ls : length (repeat C0 (n_samples p)) = n_samples p) by apply repeat_length. destruct (C65_exact st p g (repeat C0 (n_samples p)) n old W A T Fu U Ls Hn) as (Ex & Len). unfold evaluate_lens.
  destruct (simulate st p g (repeat C0 (n_samples p)) old) as (sv & r) eqn:S. cbn [fst snd] in *. assert (r = Ok tt) by (apply Ex; auto). subst r. specialize (Len eq_refl). cbn [bind].
  unfold simulate in S. destruct (propagate (optics st p) g (repeat C0 (n_samples p)) tt old) as ((x' & sv') & r') eqn:Pr. assert (sv' = sv) by congruence. assert (r' = Ok tt) by congruence. subst sv' r'. destruct (measurable _ g _ W _ _ _ _ Pr) as (M1 & M2 & M3).
  assert (Lm : forall pl s, measure sv pl = Ok s -> length s = n_samples p). { intros pl s Em. apply (Len pl). unfold measure in Em. destruct (saved sv pl) as [s'|]; [|discriminate]. cbn in Em. congruence. }
  split.
  - intros H. destruct (measure sv (PEdge first)) as [a|e] eqn:Ea; [|cbn [bind]; rewrite (M3 _ _ Ea); reflexivity]. cbn [bind]. destruct (measure sv (PNode node)) as [b|e] eqn:Eb; [|cbn [bind]; rewrite (M3 _ _ Eb); reflexivity]. exfalso. apply H. split; [apply M2; exists a; exact Ea|apply M1; exists b; exact Eb].
  - intros Hp No. destruct (proj2 (M2 first) Hp) as (a & Ea). destruct (proj2 (M1 node) No) as (b & Eb). rewrite Ea, Eb. cbn [bind]. exact (lens_sound p a b U (Lm _ _ Ea) (Lm _ _ Eb)).
Qed.
Print Assumptions C70_lens.

(* for the pulse repetition evaluator: everything that can go wrong *)
Theorem C70_pulse : forall st p g n node old target rep_t, wf g -> acyclic g -> typed g -> furnished g st ->
  usable (n_samples p) (window_t p) -> bin_spans (n_samples p) (window_t p) n -> length target = n_samples p -> 0 < rep_t ->
  ((exists s, snd (evaluate (pulse_score p target rep_t) st p g (PNode node) old) = Ok s) <->
   single_feed g /\ ~ blocked g st /\ (contains g WaveShaper -> shapeable (n_samples p) n) /\ no_output g node /\ window_t p / INR (n_samples p) < rep_t).
Proof.
  intros st p g n node old target rep_t W A T Fu U Hn Lt Hr. destruct (C70_evaluate _ (pulse_score p target rep_t) st p g n node old W A T Fu U Hn) as (H1 & H2 & H3). set (fine := single_feed g /\ ~ blocked g st /\ (contains g WaveShaper -> shapeable (n_samples p) n)) in *. split.
  - intros (s & E). destruct (Classical_Prop.classic fine) as [F|F]; [|destruct (H1 F) as (e & E'); congruence]. destruct (Classical_Prop.classic (no_output g node)) as [O|O]; [|rewrite (H2 F O) in E; discriminate]. destruct (H3 F O) as (x & Lx & _ & Ev). rewrite Ev in E. destruct F as (F1 & F2 & F3). repeat (split; [assumption|]).
    destruct (Rlt_le_dec (window_t p / INR (n_samples p)) rep_t) as [X|X]; [exact X|]. rewrite (proj1 (pulse_errors p target rep_t x U Lt Lx Hr) X) in E. discriminate.
  - intros (F1 & F2 & F3 & O & X). destruct (H3 (conj F1 (conj F2 F3)) O) as (x & Lx & _ & Ev). rewrite Ev. exact (proj2 (pulse_errors p target rep_t x U Lt Lx Hr) X).
Qed.
Print Assumptions C70_pulse.

(* the same system as in C65: pulses every two picoseconds can be scored at the sink, nothing at the source, and every picosecond is too fast *)
Definition run8 (node : node) (rep_t : R) : res (option C) := snd (evaluate (pulse_score grid8 (repeat C1 8) rep_t) (w_store w0) grid8 (w_graph w0) (PNode node) []).
Example C70_case :
  (exists s, run8 3 (2 * / 10 ^ 12) = Ok s) /\ run8 0 (2 * / 10 ^ 12) = Err KeyError /\ ~ (exists s, run8 3 (/ 10 ^ 12) = Ok s).
Proof.
  destruct (init_graph_some nodes0 edges0 g0 nodes0_nodup g0_built) as (W & A & _). assert (E0 : w_graph w0 = g0) by exact w0_graph. destruct C65_case as (Fu & _ & Sh & Nb & _).
  assert (Sf : single_feed (w_graph w0)) by (rewrite E0; apply single_feed_check; vm_compute; reflexivity). assert (T : typed (w_graph w0)) by (rewrite E0; exact g0_typed). rewrite <- E0 in W, A.
  assert (Pt : 0 < / 10 ^ 12) by (apply Rinv_0_lt_compat, pow_lt; lra). assert (Q : window_t grid8 / INR (n_samples grid8) = / 10 ^ 12) by (cbn [window_t n_samples grid8]; rewrite (INR_IZR_INZ 8); cbn [Z.of_nat Pos.of_succ_nat Pos.succ]; field; apply pow_nonzero; lra).
  assert (K : forall r, 0 < r -> ((exists s, run8 3 r = Ok s) <-> single_feed (w_graph w0) /\ ~ blocked (w_graph w0) (w_store w0) /\ (contains (w_graph w0) WaveShaper -> shapeable (n_samples grid8) 0) /\ no_output (w_graph w0) 3 /\ window_t grid8 / INR (n_samples grid8) < r)) by (intros r Hr; exact (C70_pulse (w_store w0) grid8 (w_graph w0) 0 3 [] (repeat C1 8) r W A T Fu grid8_usable grid8_bins eq_refl Hr)).
  assert (No : no_output (w_graph w0) 3). { rewrite E0. split; [vm_compute; eexists; right; right; right; left; reflexivity|]. intros e He. vm_compute in He. destruct He as [<-|[<-|[<-|[<-|[]]]]]; discriminate. }
  split; [|split].
  - apply K; [lra|]. rewrite Q. split; [exact Sf|]. split; [exact Nb|]. split; [intros _; exact Sh|]. split; [exact No|lra].
  - unfold run8. apply (proj1 (proj2 (C70_evaluate _ (pulse_score grid8 (repeat C1 8) (2 * / 10 ^ 12)) (w_store w0) grid8 (w_graph w0) 0 0 [] W A T Fu grid8_usable grid8_bins))).
    + split; [exact Sf|]. split; [exact Nb|]. intros _. exact Sh.
    + intros (_ & X). rewrite E0 in X. eapply X; [vm_compute; left; reflexivity|reflexivity].
  - intros X. apply K in X; [|lra]. destruct X as (_ & _ & _ & _ & X). rewrite Q in X. lra.
Qed.
