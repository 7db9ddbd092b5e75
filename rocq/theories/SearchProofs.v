(** What the searches of the scripts can reach and what they measure (C77). *)
From Coq Require Import Reals Qreals List Arith ZArith QArith Lia Lra Bool Permutation.
From Verif Require Import Base GraphModel GraphSpec GraphProofs TopoProofs OperatorsModel OperatorsSpec OperatorsProofs EvolutionProofs EffectsProofs TypingProofs InitProofs ParamsModel ParamsSpec PropagateModel PropagateSpec PropagateProofs SessionSaveProofs FlowSpec FlowProofs
  Complex ArrayModel FourierProofs ComponentModel ComponentSpec DetectorModel DetectorSpec MoreComponentsModel MoreComponentsSpec FilterProofs ComponentProofs GridProofs SplitterProofs ShaperProofs DetectorProofs MoreComponentsProofs StrengthProofs
  NoiseModel NoiseProofs OpticsModel OpticsSpec OpticsComponentProofs OpticsProofs NoisyModel NoisySpec NoisyProofs PhaseSpec PhaseRunProofs SearchSpec.
Import ListNotations.
Local Open Scope nat_scope.

(** ** Classes and detectors *)
Lemma swap_offer : forall L g u v c, In c (edge_swap_models L g u v) -> on_offer L c.
Proof. intros L g u v c H. unfold edge_swap_models in H. unfold on_offer. repeat match type of H with context [if ?b then _ else _] => destruct b end; auto. Qed.
Lemma contains_components : forall g c, contains g c <-> exists x, In x (edge_components g) /\ ccls x = c.
Proof.
  intros g c. unfold contains, edge_components. split.
  - intros (e & He & Ec). exists (e_model (e_dat e)). split; [apply (in_map (fun e => e_model (e_dat e))); exact He|exact Ec].
  - intros (x & Hx & Ec). apply in_map_iff in Hx as (e & <- & He). exists e. auto.
Qed.
Lemma run_classes : forall L g os g', evo_run L g os g' -> wf g -> acyclic g -> forall c, contains g' c -> contains g c \/ on_offer L c.
Proof.
  intros L g os g' R W A c. refine (run_invariant L (fun x => contains x c -> contains g c \/ on_offer L c) _ g os g' R W A (fun H => or_introl H)).
  intros h o h' Wh _ _ I E H. apply contains_components in H as (x & Hx & <-). destruct (effect_origin L h o h' x Wh E Hx) as [Q|[Q|(e & _ & _ & Q)]].
  - apply I, contains_components. exists x. auto.
  - right. left. exact Q.
  - right. exact (swap_offer _ _ _ _ _ Q).
Qed.
(* detectors sit on the connections to the ends *)
Lemma detector_ends : forall g e, wf g -> typed g -> In e (g_edges g) -> is_detector (ccls (e_model (e_dat e))) = true -> ending g e.
Proof.
  intros g e W T He K. unfold is_detector in K. destruct (wf_ends g W e He) as [Ns Nd].
  assert (Ni : ~ no_input g (e_src e)) by (intros Q; rewrite (ty_edge_source g T e He Q) in K; discriminate K). split; [exact He|]. split; [exact Ni|]. apply no_output_iff. split; [exact Nd|].
  destruct (Nat.eq_dec (out_degree g (e_dst e)) 0) as [Z|Z]; [exact Z|]. exfalso. rewrite (ty_edge_inner g T e He Ni) in K; [discriminate K|]. rewrite no_output_iff. tauto.
Qed.
Lemma run_measured : forall L D g os g', lib_ok L -> evo_run L g os g' -> wf g -> acyclic g -> typed g -> typed g' -> measured_by D g -> measured_by D g'.
Proof.
  intros L D g os g' LO R W A T T' [Ind Met]. split; [exact (run_indirect L g os g' R W A Ind)|].
  assert (Gd : guarded is_detector g).
  { intros c Hc Kc. apply in_map_iff in Hc as (e & <- & He). apply Met. apply detector_ends; assumption. }
  assert (Dt : Permutation (of_kind is_detector g') (of_kind is_detector g)).
  { apply (run_kind L is_detector) with (os := os); try assumption.
    - intros c Hc. unfold is_detector. rewrite (lib_edge L LO c Hc). reflexivity.
    - apply detector_swapped; assumption.
    - intros c [H|[-> | ->]]; unfold is_detector; [rewrite H|..]; reflexivity. }
  intros e (He & Ni & No).
  assert (Kc : is_detector (ccls (e_model (e_dat e))) = true) by (unfold is_detector; rewrite (ty_edge_sink g' T' e He Ni No); reflexivity).
  assert (Q : In (e_model (e_dat e)) (of_kind is_detector g)).
  { apply (Permutation_in _ Dt). unfold of_kind. apply filter_In. split; [apply (in_map (fun e => e_model (e_dat e))); exact He|exact Kc]. }
  unfold of_kind in Q. apply filter_In in Q as [Q Kq]. apply in_map_iff in Q as (e' & Eq & He'). rewrite <- Eq in Kq |- *. apply Met. apply detector_ends; assumption.
Qed.

(** ** What is measured at an end *)
Section Reading.
Variable st : store.
Variable p : grid.
Variable g : graph.
Variable n0 : nat.
Hypothesis W : wf g.
Hypothesis A : acyclic g.
Hypothesis T : typed g.
Hypothesis Fu : furnished g st.
Hypothesis U : usable (n_samples p) (window_t p).
Hypothesis Hn : bin_spans (n_samples p) (window_t p) n0.
Variable sink : node.
Hypothesis No : no_output g sink.
Hypothesis Fed : ~ no_input g sink.

(* the state at an end is that of a connection to it *)
Lemma end_reading : forall S (B : behaviour S unit) (src : S) val out,
  (forall c ss i o states, ccls c = TerminalSink -> snd (node_act B c ss i o tt) = Ok states -> states = ss) ->
  solves B tt g src val out -> exists e, In e (g_edges g) /\ e_dst e = sink /\ out sink = val e.
Proof.
  intros S B src val out Tm Sol. assert (Nn : is_node g sink) by apply No. destruct (node_data_ex g _ Nn) as (nd & End).
  assert (M : model_at g sink (n_model nd)) by (exists nd; split; [apply (node_data_iff g _ nd W); exact End|reflexivity]). destruct (Sol _ _ M) as (states & E1 & E2 & _).
  assert (Hd : departures g sink = 0) by (apply (no_output_dep g sink Nn); exact No). specialize (E2 Hd).
  rewrite (Tm _ _ _ _ states (ty_sink g T sink _ Fed No M) E1) in E2. unfold received in E2. destruct (arriving g sink) as [|b l] eqn:Eb.
  - exfalso. apply Fed. split; [exact Nn|]. intros e He Ed. assert (X : In e (arriving g sink)) by (apply (In_arriving g sink e W); auto). rewrite Eb in X. destruct X.
  - cbn [map nth_error] in E2. injection E2 as E2. exists b. assert (X : In b (arriving g sink)) by (rewrite Eb; left; reflexivity). apply (In_arriving g sink b W) in X as [X1 X2]. auto.
Qed.
(* no connection leads from a start to the end: it is a detector *)
Lemma end_detector : forall D e, measured_by D g -> In e (g_edges g) -> e_dst e = sink -> ccls (e_model (e_dat e)) = D.
Proof.
  intros D e [Ind Met] He Ed. apply Met. split; [exact He|]. split; [|rewrite Ed; exact No]. intros Q. apply (Ind e He Q). rewrite Ed. exact No.
Qed.

Lemma edge_input : forall src val out, length src = n_samples p -> solves (optics st p) tt g src val out -> forall e, In e (g_edges g) -> exists s, length s = n_samples p /\ snd (edge_act (optics st p) (e_model (e_dat e)) s tt) = Ok (val e).
Proof.
  intros src val out Ls Sol e He. destruct (wf_ends g W e He) as [Ns _]. destruct (node_data_ex g _ Ns) as (nd & End).
  assert (M : model_at g (e_src e) (n_model nd)) by (exists nd; split; [apply (node_data_iff g _ nd W); exact End|reflexivity]).
  destruct (Sol _ _ M) as (states & E1 & _ & E3).
  assert (Rk : forall s, In s (received g src val (e_src e)) -> length s = n_samples p) by (apply (received_kind g src W (fun s => length s = n_samples p) Ls); intros e' H1 _; exact (run_lengths st p g src n0 W A T Fu U Ls Hn (optics st p) (phased_optics st p g) val out Sol e' H1)).
  pose proof (node_works st p g src W T Fu U Ls (optics st p) (phased_optics st p g) (e_src e) (n_model nd) _ M (received_length g src W val (e_src e) W) Rk) as K.
  destruct (outputs_of g (e_src e)) as [k|]; [|destruct K as (er & K); rewrite K in E1; discriminate E1].
  destruct K as (st' & En & _ & Kn). assert (E0 : Ok st' = Ok states) by exact (eq_trans (eq_sym (f_equal snd En)) E1). injection E0 as <-.
  assert (Il : In e (leaving g (e_src e))) by (apply In_leaving; auto). apply In_nth_error in Il as (i & Hi). destruct (E3 i e Hi) as (s & Es & Ea). exists s. split; [exact (Kn s (nth_error_In _ _ Es))|exact Ea].
Qed.
(* without noise: some array of the right length went into the detector *)
Lemma plain_reading : forall D src old sv, length src = n_samples p -> measured_by D g -> simulate st p g src old = (sv, Ok tt) ->
  exists ps x y, allowed D ps /\ length x = n_samples p /\ component D ps p x = Ok y /\ saved sv (PNode sink) = Some y.
Proof.
  intros D src old sv Ls Mb E. unfold simulate in E. destruct (propagate (optics st p) g src tt old) as [[[] sv'] r] eqn:Pr. injection E as -> ->.
  destruct (proj1 (propagate_solution (optics st p) g src W tt old (kind_steady (optics st p) g) A) tt sv Pr) as (_ & val & out & Sol & _ & Ro & _).
  destruct (end_reading _ (optics st p) src val out) as (e & He & Ed & Eo); [|exact Sol|].
  { intros c ss i o states Ec H. cbn [node_act optics snd] in H. destruct (get_params st (cid c)) as [ps|]; cbn [bind] in H; [|discriminate]. rewrite Ec in H. cbn [connector] in H. congruence. }
  pose proof (end_detector D e Mb He Ed) as Ec. destruct (edge_input src val out Ls Sol e He) as (s & Ls' & Es). destruct (edge_values st p g n0 Fu e He) as (o & ps & _ & Al & G & _).
  cbn [edge_act optics snd] in Es. rewrite G in Es. cbn [bind] in Es. rewrite Ec in *. exists ps, s, (val e). split; [exact Al|]. split; [exact Ls'|]. split; [exact Es|]. rewrite (Ro sink No), Eo. reflexivity.
Qed.

(* with noise: the same for what the detector and its noise make of an array or of nothing *)
Lemma noisy_reading : forall D draws src old sv, length src = n_samples p -> fitted (n_samples p) draws -> measured_by D g -> simulate_noisy st p draws g src old = (sv, Ok tt) ->
  exists ps i x y, allowed D ps /\ kept (n_samples p) x /\ noisy_component D ps p (draws i) x = Ok y /\ saved sv (PNode sink) = Some y /\ kept (n_samples p) y.
Proof.
  intros D draws src old sv Ls Fd Mb E. assert (Pr := noisy_outcome st p draws g src old). rewrite E in Pr. specialize (Pr eq_refl). cbn [fst] in Pr.
  destruct (proj1 (propagate_solution (noisy_optics st p draws) g (Some src) W tt old (noisy_steady st p draws g) A) tt sv Pr) as (_ & val & out & Sol & _ & Ro & _).
  destruct (end_reading _ (noisy_optics st p draws) (Some src) val out) as (e & He & Ed & Eo); [|exact Sol|].
  { intros c ss i o states Ec H. cbn [node_act noisy_optics snd] in H. destruct (get_params st (cid c)) as [ps|]; cbn [bind] in H; [|discriminate]. rewrite Ec in H. cbn in H. congruence. }
  pose proof (end_detector D e Mb He Ed) as Ec. destruct (edge_of st p g src n0 draws W A T Fu U Ls Hn Fd val out Sol e He) as (ps & s & _ & _ & _ & Al & K & Es & _).
  pose proof (noisy_solution st p g src n0 draws W A T Fu U Ls Hn Fd val out Sol e He) as Kv. rewrite Ec in *.
  exists ps, (cid (e_model (e_dat e))), s, (val e). split; [exact Al|]. split; [exact K|]. split; [exact Es|]. split; [|exact Kv]. rewrite (Ro sink No), Eo. reflexivity.
Qed.
End Reading.

(** ** The photodiode and its noise *)
Local Open Scope R_scope.
Lemma strength_average : forall x, (0 < length x)%nat -> strength x = sqrt (INR (length x)) * sqrt (average_power x).
Proof.
  intros x P. assert (0 < INR (length x)) by (apply lt_0_INR; exact P). assert (0 <= energy x) by (rewrite energy_sum; apply rsum_nonneg; intros; apply Cnorm2_nonneg).
  unfold strength, average_power. rewrite <- sqrt_mult; [|lra|apply Rmult_le_pos; [assumption|apply Rlt_le, Rinv_0_lt_compat; assumption]]. f_equal. unfold energy. field. lra.
Qed.
Lemma strength_zipadd : forall a b, length a = length b -> strength (zipadd a b) <= strength a + strength b.
Proof.
  intros a b L. pose proof (zipadd_length a b L) as Lz. rewrite <- (norm_strength (length b) (zipadd a b)), <- (norm_strength (length b) a), <- (norm_strength (length b) b) by auto.
  eapply Rle_trans; [|apply minkowski]. right. apply norm_ext. intros i Hi. apply zipadd_nth. exact L.
Qed.
Lemma nonzero_alive : forall x, mean_power x <> 0 -> alive x.
Proof.
  intros x H. apply alive_energy. assert (0 <= energy x) by (rewrite energy_sum; apply rsum_nonneg; intros; apply Cnorm2_nonneg).
  destruct (Req_dec (energy x) 0) as [Z|Z]; [|lra]. exfalso. apply H. rewrite mean_average. unfold average_power. unfold energy in Z. rewrite Z. unfold Rdiv. ring.
Qed.
Lemma mean_abs_bound : forall x c, 0 < c -> (0 < length x)%nat -> energy x <= INR (length x) * c ^ 2 -> 0 <= mean_abs x <= c.
Proof.
  intros x c Hc P E. assert (Q : 0 < INR (length x)) by (apply lt_0_INR; exact P). unfold mean_abs. set (s := fold_right Rplus 0 (map (fun z => sqrt (Cnorm2 z)) x)).
  assert (K : 0 <= s /\ 2 * c * s <= energy x + INR (length x) * c ^ 2).
  { unfold s. clear. induction x as [|z x [I1 I2]]; [cbn; lra|]. cbn [map fold_right length]. change (energy (z :: x)) with (Cnorm2 z + energy x). rewrite S_INR. pose proof (sqrt_pos (Cnorm2 z)) as Sp. pose proof (sqrt_sqrt _ (Cnorm2_nonneg z)) as Sq. split; [lra|].
    assert (0 <= (sqrt (Cnorm2 z) - c) * (sqrt (Cnorm2 z) - c)) by apply Rle_0_sqr. nra. }
  destruct K as [K1 K2]. split; [apply Rmult_le_pos; [exact K1|apply Rlt_le, Rinv_0_lt_compat; exact Q]|]. apply (Rmult_le_reg_r (INR (length x))); [exact Q|]. unfold Rdiv. rewrite Rmult_assoc, Rinv_l, Rmult_1_r by lra. nra.
Qed.
Lemma bandwidth_bound : forall p f0 n, (0 < n)%nat -> usable (n_samples p) (window_t p) -> exists b, shot_bandwidth p (Some (ButterworthLowpass f0 1 (Z.of_nat n))) = Ok b /\ 0 <= b <= INR (n_samples p) * grid_df p.
Proof.
  intros p f0 n Hn U. unfold shot_bandwidth, get_filter. rewrite lowpass_plain by exact Hn. cbn [bind]. eexists. split; [reflexivity|].
  assert (D : 0 < grid_df p). { rewrite grid_df_val. destruct U as [U1 U2]. assert (1 < INR (n_samples p)) by (apply lt_1_INR; lia). assert (0 < INR (n_samples p - 1)) by (apply lt_0_INR; lia). apply Rdiv_lt_0_compat; [apply Rdiv_lt_0_compat; lra|lra]. }
  set (m := map (lowpass_entry f0 1 n) (ifft_shift_ (grid_f p))). assert (Lm : length m = n_samples p) by (unfold m; rewrite map_length; apply grid_f_len).
  assert (Hm : forall z, In z m -> Cnorm2 z <= 1) by (intros z Hz; unfold m in Hz; apply in_map_iff in Hz as (f & <- & _); rewrite entry_norm by exact Hn; pose proof (gain_range n (f / f0)); lra).
  rewrite <- Lm. clearbody m. clear Lm. assert (K : 0 <= fold_right Rplus 0 (map (fun z => sqrt (Cnorm2 z)) m) <= INR (length m)).
  { induction m as [|z m IH]; [cbn; lra|]. cbn [map fold_right length]. rewrite S_INR. assert (0 <= sqrt (Cnorm2 z) <= 1) by (split; [apply sqrt_pos|rewrite <- sqrt_1; apply sqrt_le_1_alt, Hm; left; reflexivity]). assert (forall w, In w m -> Cnorm2 w <= 1) by (intros w Hw; apply Hm; right; exact Hw). specialize (IH H0). lra. }
  split; [apply Rmult_le_pos; lra|apply Rmult_le_compat_r; lra].
Qed.

Lemma photodiode_values : forall ps, allowed Photodiode ps -> exists d, photodiode_of ps = Ok d /\ sound_photodiode d /\ max_photocurrent d * load_resistance d = 15 / 100 /\ load_resistance d = 50 /\ bandwidth d = 10 ^ 11 /\
  real_at ps 5 = Ok 293 /\ real_at ps 6 = Ok (5 / 10 ^ 9).
Proof.
  intros ps A. destruct (photodiode_held ps A) as (d & E & S). exists d. split; [exact E|]. split; [exact S|]. revert E.
  locked A 0%nat E0. locked A 1%nat E1. locked A 2%nat E2. locked A 3%nat E3. locked A 4%nat E4. locked A 5%nat E5. locked A 6%nat E6. unfold photodiode_of, real_at, at_. rewrite E0, E1, E2, E3, E4, E5, E6. cbn [of_option bind as_number].
  intros H. injection H as <-. cbn [max_photocurrent load_resistance bandwidth]. unfold dec. cbn [as_number]. unfold Q2R. cbn [Qnum Qden]. change (10 ^ 3)%positive with 1000%positive.
  change (10 ^ 9)%positive with 1000000000%positive. split; [lra|]. split; [lra|]. split; [cbn [pow]; lra|]. split; apply (f_equal Ok); cbn [pow]; lra.
Qed.
Lemma plain_photodiode : forall ps p x y, allowed Photodiode ps -> usable (n_samples p) (window_t p) -> length x = n_samples p -> component Photodiode ps p x = Ok y ->
  length y = n_samples p /\ energy y <= INR (n_samples p) * (15 / 100) ^ 2.
Proof.
  intros ps p x y A U L E. destruct (photodiode_values ps A) as (d & Ed & S & V & _). cbn [component] in E. rewrite Ed in E. cbn [bind] in E.
  destruct (photodiode_bound d p x S U L) as (y' & E' & Ly & B). rewrite E in E'. injection E' as <-. rewrite V in B. split; [congruence|exact B].
Qed.
(* thermal noise of 50 Ohm at 293 K in 100 GHz; the largest shot noise *)
Definition thermal : R := sqrt (4 * Boltzmann * 293 * 10 ^ 11 * 50).
Definition shot_limit (p : grid) : R := sqrt ((elementary_charge * 50 * (15 / 100) + elementary_charge * 2500 * (5 / 10 ^ 9)) * (INR (n_samples p) * grid_df p)).
Lemma charge_pos : 0 < elementary_charge.
Proof. unfold elementary_charge. apply Rdiv_lt_0_compat; [lra|apply pow_lt; lra]. Qed.
Lemma noisy_photodiode : forall ps p draws x y, allowed Photodiode ps -> usable (n_samples p) (window_t p) -> kept (n_samples p) x -> (forall k, drawn (n_samples p) (draws k)) ->
  noisy_component Photodiode ps p draws x = Ok (Some y) -> strength y <= sqrt (INR (n_samples p)) * (15 / 100 + thermal + shot_limit p).
Proof.
  intros ps p draws x y A U K D E. assert (P : (0 < n_samples p)%nat) by (destruct U; lia). cbn [noisy_component] in E. pose proof (kept_plain p x K) as Lx. destruct (component Photodiode ps p (plain p x)) as [v|] eqn:Ev; cbn [bind] in E; [|discriminate].
  destruct (plain_photodiode ps p _ v A U Lx Ev) as [Lv Bv]. clear Ev. cbn [family_of] in E.
  assert (E' : with_noise Photodiode ps p draws (plain p x) v = Ok (Some y)).
  { destruct x as [x|]; [exact E|]. destruct (with_noise Photodiode ps p draws _ v); cbn [bind] in E; discriminate. }
  clear E. rename E' into E. unfold with_noise in E. destruct (photodiode_values ps A) as (d & Ed & S & _ & Rl & Bw & P5 & P6). cbn [noise_settings] in E. rewrite Ed in E. cbn [bind] in E. rewrite P5 in E. cbn [bind] in E. rewrite P6 in E. cbn [bind] in E.
  rewrite Rl, Bw in E. fold thermal in E. pose proof (photodiode_shape d S) as G. set (fl := Some (photodiode_filter d)) in *.
  cbn [vectors_of] in E. destruct (vector_ok p (Rms thermal, fl) (draws 0%nat) U) as (v1 & E1 & F1 & _); [split; [exact G|intros; discriminate]|apply D|]. destruct (vector_ok p (Shot (elementary_charge * 50 ^ 2 / 50) (elementary_charge * 50 ^ 2 * (5 / 10 ^ 9)), fl) (draws 1%nat) U) as (v2 & E2 & F2 & _); [split; [exact G|intros; discriminate]|apply D|].
  rewrite E1 in E. cbn [bind] in E. rewrite E2 in E. cbn [bind fst snd all_some option_map] in E. destruct v1 as [n1|]; cbn [option_map all_some] in E; [|discriminate]. destruct v2 as [n2|]; cbn [option_map all_some] in E; [|discriminate].
  specialize (F1 n1 eq_refl). specialize (F2 n2 eq_refl). cbn [fst snd] in F1, F2.
  (* the vectors *)
  assert (A1 : average_power n1 = thermal ^ 2).
  { unfold vector_of, noise_vector in E1. destruct (match fl with None => Ok (fst (draws 0%nat)) | Some shape => filtered_time_static p shape (fst (draws 0%nat)) end) as [w|]; cbn [bind] in E1; [|discriminate].
    destruct (Req_EM_T (mean_power w) 0) as [Z|Z]; [discriminate|]. injection E1 as <-. apply rms_vector. apply nonzero_alive. exact Z. }
  assert (A2 : alive n2).
  { unfold vector_of, noise_vector in E2. destruct (match fl with None => Ok (fst (draws 1%nat)) | Some shape => filtered_time_static p shape (fst (draws 1%nat)) end) as [w|]; cbn [bind] in E2; [|discriminate].
    destruct (Req_EM_T (mean_power w) 0) as [Z|Z]; [discriminate|]. injection E2 as <-. apply nonzero_alive. exact Z. }
  (* their sum *)
  unfold noisy in E. cbn [add_sources] in E. rewrite (add_source_view p (n_samples p)) in E by (try assumption; rewrite map_length; exact Lv). cbn [addend ns_type ns_vector bind] in E.
  assert (L1 : length n1 = n_samples p) by apply F1. assert (L2 : length n2 = n_samples p) by apply F2.
  cbn [factor ns_type ns_vector] in E. rewrite zipmul_ones in E by congruence. rewrite zipadd_zeros_l in E by congruence.
  rewrite (add_source_view p (n_samples p)) in E by assumption. cbn [addend ns_type ns_vector ns_filter bind] in E.
  destruct G as (f0 & n & Hn & Gf). unfold fl in E. rewrite Gf in E. destruct (bandwidth_bound p f0 n Hn U) as (b & Eb & Bb). rewrite Eb in E. cbn [bind] in E.
  cbn [factor ns_type ns_vector] in E. rewrite zipmul_ones in E by congruence.
  set (n3 := scale _ n2) in E. assert (L3 : length n3 = n_samples p) by (unfold n3; rewrite scale_length; exact L2).
  rewrite broadcast_same in E by (cbn [fst snd]; rewrite zipadd_length by congruence; congruence). cbn [bind fst snd] in E. fold (zipadd v (zipadd n1 n3)) in E. injection E as <-.
  pose proof (mean_abs_bound v (15 / 100) ltac:(lra) ltac:(lia) ltac:(rewrite Lv; exact Bv)) as Mb. pose proof charge_pos as Q.
  set (q := elementary_charge) in *. assert (A3 : average_power n3 = (q * 50 ^ 2 / 50 * mean_abs v + q * 50 ^ 2 * (5 / 10 ^ 9)) * b).
  { unfold n3. apply shot_vector; [exact A2|]. apply Rmult_le_pos; [|lra]. assert (0 <= q * 50 ^ 2 / 50 * mean_abs v) by (apply Rmult_le_pos; lra). assert (0 <= q * 50 ^ 2 * (5 / 10 ^ 9)) by (apply Rmult_le_pos; [lra|]; cbn [pow]; lra). lra. }
  pose proof (sqrt_pos (INR (n_samples p))) as Sn.
  assert (B1 : strength v <= sqrt (INR (n_samples p)) * (15 / 100)).
  { unfold strength. replace (sqrt (INR (n_samples p)) * (15 / 100)) with (sqrt (INR (n_samples p) * (15 / 100) ^ 2)) by (rewrite sqrt_mult by (try apply pos_INR; lra); f_equal; apply sqrt_pow2; lra). apply sqrt_le_1_alt. exact Bv. }
  assert (B2 : strength n1 = sqrt (INR (n_samples p)) * thermal).
  { rewrite strength_average by lia. rewrite L1, A1. f_equal. apply sqrt_pow2. apply sqrt_pos. }
  assert (B3 : strength n3 <= sqrt (INR (n_samples p)) * shot_limit p).
  { rewrite strength_average by lia. rewrite L3, A3. apply Rmult_le_compat_l; [exact Sn|]. unfold shot_limit. fold q. apply sqrt_le_1_alt.
    assert (0 <= q * 50 ^ 2 * (5 / 10 ^ 9)) by (apply Rmult_le_pos; [lra|]; cbn [pow]; lra).
    apply Rmult_le_compat; [assert (0 <= q * 50 ^ 2 / 50 * mean_abs v) by (apply Rmult_le_pos; lra); lra|lra| |apply Bb].
    replace (q * 50 ^ 2 / 50) with (q * 50) by field. replace (q * 2500) with (q * 50 ^ 2) by ring. apply Rplus_le_compat_r. apply Rmult_le_compat_l; lra. }
  eapply Rle_trans; [apply strength_zipadd; rewrite zipadd_length by congruence; congruence|]. pose proof (strength_zipadd n1 n3 ltac:(congruence)). lra.
Qed.
