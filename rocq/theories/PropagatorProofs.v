(** The propagator as an object, and graphs simulated with it: proofs (C84). *)
From Coq Require Import Reals Qreals List Arith ZArith QArith Lia Lra Bool Permutation.
From Verif Require Import Base GraphModel GraphSpec GraphProofs TopoProofs OperatorsModel OperatorsSpec EvolutionProofs ParamsModel PropagateModel PropagateSpec PropagateProofs
  Complex ArrayModel ComponentModel DetectorModel MoreComponentsModel FourierProofs FilterProofs ComponentProofs ShaperProofs LinearProofs OpticsModel PropagatorModel PropagatorSpec.
Import ListNotations.
Local Open Scope nat_scope.

(** ** Assignments *)
Lemma arrays_ok : forall n w t f dt df, arrays n w = Ok (t, f, dt, df) -> exists k, n = Whole (Z.of_nat k).
Proof.
  intros [z|] w t f dt df H; cbn in H; [|discriminate]. destruct (Z.ltb_spec z 0); [discriminate|]. exists (Z.to_nat z). rewrite Z2Nat.id by assumption. reflexivity.
Qed.
Lemma arrays_proper : forall k w, w <> 0%R -> let g := mkGrid k w 0 in
  arrays (Whole (Z.of_nat k)) w = Ok (grid_t g, grid_f g, if k <=? 1 then None else Some (grid_dt g), if k <=? 1 then None else Some (grid_df g)).
Proof.
  intros k w Hw g. unfold arrays. destruct (Z.ltb_spec (Z.of_nat k) 0); [lia|]. destruct (Req_EM_T w 0); [contradiction|]. rewrite Nat2Z.id.
  replace (Z.of_nat k <=? 1)%Z with (k <=? 1); [reflexivity|]. destruct (Nat.leb_spec k 1), (Z.leb_spec (Z.of_nat k) 1); try reflexivity; lia.
Qed.
Lemma arrays_improper : forall n w, ~ proper n -> exists e, arrays n w = Err e.
Proof.
  intros [z|] w H; cbn; [|eexists; reflexivity]. destruct (Z.ltb_spec z 0); [eexists; reflexivity|]. destruct H. exists (Z.to_nat z). rewrite Z2Nat.id by assumption. reflexivity.
Qed.
Lemma proper_dec : forall n, proper n \/ ~ proper n.
Proof.
  intros [z|]; [|right; intros (k & H); discriminate]. destruct (Z.ltb_spec z 0).
  - right. intros (k & E). injection E as ->. lia.
  - left. exists (Z.to_nat z). rewrite Z2Nat.id by assumption. reflexivity.
Qed.

Lemma new_ok : forall n w c p, new_propagator n w c = Ok p -> c <> 0%R /\ w <> 0%R /\ exists k, n = Whole (Z.of_nat k) /\ shows p k /\
  pr_count p = n /\ pr_window p = w /\ pr_central_wl p = c /\ pr_central_frequency p = (speed_of_light / c)%R /\
  pr_wl p = map (fun x => if Req_EM_T (speed_of_light / c + x) 0 then None else Some (speed_of_light / (speed_of_light / c + x))%R) (grid_f (mkGrid k w c)) /\
  pr_state p = repeat C0 k.
Proof.
  intros n w c p H. unfold new_propagator in H. destruct (Req_EM_T c 0) as [|Hc]; [discriminate|]. split; [exact Hc|].
  destruct (proper_dec n) as [(k & ->)|N]; [|destruct (arrays_improper n w N) as (e & E); rewrite E in H; discriminate].
  assert (Hw : w <> 0%R). { intros ->. unfold arrays in H. destruct (Z.ltb_spec (Z.of_nat k) 0); [discriminate|]. destruct (Req_EM_T 0 0); [discriminate|contradiction]. }
  split; [exact Hw|]. exists k. split; [reflexivity|]. rewrite (arrays_proper k w Hw) in H. cbn [bind] in H. injection H as <-. cbn [pr_count pr_window pr_central_wl pr_central_frequency pr_wl pr_state].
  split; [|repeat split].
  - split; [reflexivity|]. split; [reflexivity|]. cbn [pr_dt pr_df]. destruct (Nat.leb_spec k 1); split; intros; try lia; split; reflexivity.
  - assert (L : length (grid_t (mkGrid k w 0)) = k) by apply grid_t_length. revert L. generalize (grid_t (mkGrid k w 0)). clear. intros l <-. induction l as [|a l IH]; [reflexivity|]. cbn [map length repeat]. f_equal. exact IH.
Qed.

(* what every assignment keeps *)
Lemma assign_kept : forall p a, let q := fst (assign p a) in
  pr_window q = pr_window p /\ pr_central_wl q = pr_central_wl p /\ pr_central_frequency q = pr_central_frequency p /\ pr_wl q = pr_wl p.
Proof.
  intros p [n|w|[x|]|]; cbn [assign fst]; try (repeat split; reflexivity). destruct (arrays n (pr_window p)) as [(((t & f) & dt) & df)|e]; repeat split; reflexivity.
Qed.
Lemma assign_all_kept : forall l p, let q := assign_all p l in
  pr_window q = pr_window p /\ pr_central_wl q = pr_central_wl p /\ pr_central_frequency q = pr_central_frequency p /\ pr_wl q = pr_wl p.
Proof.
  induction l as [|a l IH]; intros p; cbn; [repeat split|]. destruct (IH (fst (assign p a))) as (A & B & C & D). destruct (assign_kept p a) as (A' & B' & C' & D').
  unfold assign_all in *. rewrite A, B, C, D. repeat split; assumption.
Qed.
Lemma assign_all_app : forall l l' p, assign_all p (l ++ l') = assign_all (assign_all p l) l'.
Proof. intros l l' p. unfold assign_all. apply fold_left_app. Qed.

Lemma count_kept : forall l p, none_of sets_samples l -> pr_count (assign_all p l) = pr_count p.
Proof.
  induction l as [|a l IH]; intros p H; [reflexivity|]. cbn. unfold assign_all in IH. rewrite IH by (intros b Hb; apply H; right; exact Hb).
  destruct a as [n|w|[x|]|]; try reflexivity. destruct (H (SetSamples n) (or_introl eq_refl)). exists n; reflexivity.
Qed.
Definition same_arrays (p q : propagator) : Prop := pr_t p = pr_t q /\ pr_f p = pr_f q /\ pr_dt p = pr_dt q /\ pr_df p = pr_df q.
Lemma arrays_kept : forall l p, none_of sets_proper l -> same_arrays (assign_all p l) p.
Proof.
  induction l as [|a l IH]; intros p H; [repeat split|]. cbn. unfold assign_all in IH. destruct (IH (fst (assign p a))) as (A & B & C & D); [intros b Hb; apply H; right; exact Hb|].
  assert (K : same_arrays (fst (assign p a)) p).
  { destruct a as [n|w|[x|]|]; try (repeat split; reflexivity). cbn [assign]. destruct (arrays n (pr_window p)) as [(((t & f) & dt) & df)|e] eqn:E; [|repeat split; reflexivity].
    destruct (H (SetSamples n) (or_introl eq_refl)). exists n. split; [reflexivity|]. exact (arrays_ok _ _ _ _ _ _ E). }
  destruct K as (A' & B' & C' & D'). repeat split; congruence.
Qed.
Lemma state_kept : forall l p, none_of sets_state l -> pr_state (assign_all p l) = pr_state p.
Proof.
  induction l as [|a l IH]; intros p H; [reflexivity|]. cbn. unfold assign_all in IH. rewrite IH by (intros b Hb; apply H; right; exact Hb).
  destruct a as [n|w|[x|]|]; try reflexivity.
  - cbn [assign]. destruct (arrays n (pr_window p)) as [(((t & f) & dt) & df)|e]; reflexivity.
  - destruct (H (SetState (Some x)) (or_introl eq_refl)). exists x; reflexivity.
Qed.
Lemma shows_arrays : forall p q k, same_arrays p q -> pr_window p = pr_window q -> pr_central_wl p = pr_central_wl q -> shows q k -> shows p k.
Proof. intros p q k (A & B & C & D) Hw Hc S. unfold shows in *. rewrite A, B, C, D, Hw, Hc. exact S. Qed.
Lemma assign_shows : forall p k, pr_window p <> 0%R -> shows (fst (assign p (SetSamples (Whole (Z.of_nat k))))) k /\ snd (assign p (SetSamples (Whole (Z.of_nat k)))) = Ok tt.
Proof.
  intros p k Hw. cbn [assign]. rewrite (arrays_proper k _ Hw). split; [|reflexivity]. cbn [fst]. split; [reflexivity|]. split; [reflexivity|]. cbn [pr_dt pr_df pr_window].
  destruct (Nat.leb_spec k 1); split; intros; try lia; split; reflexivity.
Qed.

(** ** Signals of one length *)
Lemma broadcast_length : forall {A B D} (f : A -> B -> D) m x r, broadcast f m x = Ok r -> (2 <= length x -> length r = length x) /\ (2 <= length m -> length r = length m) /\
  (2 <= length x -> 2 <= length m -> length m = length x).
Proof.
  intros A B D f m x r H. apply broadcast_cases in H as [(L & ->)|[(L & c & -> & ->)|(L & L1 & c & -> & ->)]]; rewrite ?map_length, ?combine_length; cbn [length] in *; repeat split; intros; lia.
Qed.
Lemma fft_length : forall x dt y, fft_ x dt = Ok y -> length y = length x.
Proof. intros x dt y H. unfold fft_ in H. destruct (fft x) as [z|] eqn:E; [|discriminate]. cbn [bind] in H. injection H as <-. rewrite scale_length. apply (fft_ok x z E). Qed.
Lemma ifft_length : forall x dt y, ifft_ x dt = Ok y -> length y = length x.
Proof. intros x dt y H. unfold ifft_ in H. destruct (ifft x) as [z|] eqn:E; [|discriminate]. cbn [bind] in H. injection H as <-. rewrite scale_length. apply (ifft_ok x z E). Qed.

Ltac step H := match type of H with bind ?r _ = Ok _ => let E := fresh "E" in destruct r eqn:E; [cbn [bind] in H|discriminate H] end.
Lemma filter_length : forall p m x y, filter_spectrum p m x = Ok y -> 2 <= length x -> length y = length x /\ (2 <= length m -> length m = length x).
Proof.
  intros p m x y H Hx. unfold filter_spectrum in H. step H. step H. apply fft_length in E. apply ifft_length in H. destruct (broadcast_length _ _ _ _ E0) as (A & B & C). rewrite E in *. rewrite H. split; [apply A; exact Hx|]. intros Hm. apply C; assumption.
Qed.
Lemma stages_length : forall p ratios k short long a b, split_stages p k ratios (short, long) = Ok (a, b) -> 2 <= length short -> length long = length short -> length a = length short /\ length b = length short.
Proof.
  intros p. induction ratios as [|r l IH]; intros k short long a b H Hs Hl; cbn [split_stages] in H; [injection H as <- <-; auto|].
  destruct (split_stage p r (stage_delay k) (short, long)) as [(s', l')|] eqn:E; [cbn [bind] in H|discriminate H]. unfold split_stage in E. cbv zeta in E.
  match type of E with bind ?u _ = _ => destruct u as [u1|] eqn:E1; [cbn [bind] in E|discriminate E] end.
  match type of E with bind ?u _ = _ => destruct u as [u2|] eqn:E2; [cbn [bind] in E|discriminate E] end.
  match type of E with bind ?u _ = _ => destruct u as [u3|] eqn:E3; [cbn [bind] in E|discriminate E] end. injection E as <- <-.
  destruct (broadcast_length _ _ _ _ E1) as (A & _ & _). destruct (broadcast_length _ _ _ _ E2) as (B & _ & _). destruct (broadcast_length _ _ _ _ E3) as (C & _ & _).
  rewrite map_length in A, B. assert (La : length u1 = length short) by (rewrite A; rewrite ?map_length; lia). assert (Lm : length u2 = length short) by (rewrite B; rewrite ?map_length; lia).
  assert (Lc : length u3 = length short) by (rewrite C; rewrite ?map_length; lia).
  destruct (IH (S k) u1 u3 a b H) as (X & Y); lia.
Qed.
Lemma filtered_length : forall o id p x o' y, filtered_time o id p x = (o', Ok y) -> 2 <= length x -> length y = length x.
Proof.
  intros o id p x o' y H Hx. unfold filtered_time in H. destruct (fft_ x (grid_dt p)) as [s|] eqn:E; [|discriminate]. apply fft_length in E.
  destruct (filtered_freq o id p s) as (o1, r) eqn:F. injection H as _ H. destruct r as [out|]; [|discriminate]. cbn [bind] in H. apply ifft_length in H.
  unfold filtered_freq in F. destruct (f_mask (refreshed o id)) as [m|].
  - injection F as _ F. destruct (broadcast_length _ _ _ _ F) as (_ & B & _). lia.
  - destruct (get_filter p (f_shape (refreshed o id))) as [m|]; [|discriminate]. injection F as _ F. destruct (broadcast_length _ _ _ _ F) as (_ & B & _). lia.
Qed.

Lemma photodiode_length : forall d p x y, photodiode_voltage d p x = Ok y -> 2 <= length x -> length y = length x /\ (2 <= n_samples p -> length x = n_samples p).
Proof.
  intros d p x y H Hx. unfold photodiode_voltage in H. cbv zeta in H. set (v := map RtoC _) in H. assert (Lv : length v = length x) by (unfold v, power_; rewrite !map_length; reflexivity). rewrite <- Lv in *. clearbody v. clear x Lv.
  destruct (filtered_time _ _ _ _) as (o', r) eqn:F. cbn [snd] in H. subst r. split; [exact (filtered_length _ _ _ _ _ _ F Hx)|]. intros Hn.
  unfold filtered_time in F. destruct (fft_ v (grid_dt p)) as [s|] eqn:E; [|discriminate]. apply fft_length in E.
  unfold filtered_freq, refreshed, new_filter in F. cbn [f_propagator f_mask f_shape] in F.
  destruct (get_filter p (photodiode_filter d)) as [m|] eqn:G; [|discriminate]. assert (Lm : length m = n_samples p).
  { unfold photodiode_filter, get_filter, butterworth_lowpass, butterworth_polynomial in G. destruct (filter_order d <? 0)%Z; [discriminate|]. cbn [bind] in G. destruct (filter_order d =? 0)%Z; [discriminate|]. injection G as <-. rewrite ifft_shift_length, !map_length. apply grid_f_length. }
  injection F as _ F. destruct (broadcast Cmul s m) as [b|] eqn:B; [|discriminate]. destruct (broadcast_length _ _ _ _ B) as (_ & _ & K). lia.
Qed.

(* every component but the sources that make their own samples keeps the number of samples, and those that use the grid need its number *)
Ltac finish := let E := fresh in let K := fresh in
  match goal with H : filter_spectrum _ _ _ = Ok _ |- _ => destruct (filter_length _ _ _ _ H ltac:(assumption)) as (E & K); rewrite ?ifft_shift_length, ?map_length, ?ifft_shift_length, ?map_length in K; rewrite ?scale_length end.
Lemma component_length : forall c ps p x y, ~ makes_samples c -> component c ps p x = Ok y -> 2 <= length x ->
  length y = length x /\ (on_grid c -> 2 <= n_samples p -> length x = n_samples p).
Proof.
  intros c ps p x y M H Hx. destruct c; cbn [component] in H; try discriminate H; try (destruct M; unfold makes_samples; tauto);
    try (split; [|intros F; unfold on_grid in F; cbn [In] in F; repeat destruct F as [F|F]; try discriminate F; destruct F]; []).
  all: repeat match type of H with (do v <- real_at _ _; _) = _ => step H | (do v <- reals _; _) = _ => step H | (do v <- at_ _ _; _) = _ => step H end.
  all: try (injection H as <-; unfold continuous_wave_laser, attenuator, waveguide, measurement_device, power_; rewrite ?scale_length, ?map_length; reflexivity).
  - (* Impulse *) unfold impulse in H. step H. injection H as <-. apply ifft_length in E. rewrite map_length in E. rewrite ifft_shift_length. exact E.
  - (* Photodiode *) step H. destruct (photodiode_length _ _ _ _ H Hx) as (A & B). split; [exact A|]. intros _. exact B.
  - (* DispersiveFiber *) unfold dispersive_fiber in H. cbv zeta in H. step H. injection H as <-. finish. rewrite grid_f_length in *. split; [assumption|]. intros; lia.
  - (* PhaseModulator *) unfold phase_modulator in H. cbv zeta in H. step H. step H. injection H as <-. rewrite scale_length.
    destruct (broadcast_length _ _ _ _ E2) as (A & _ & _). destruct (broadcast_length _ _ _ _ E3) as (_ & B & K). rewrite !map_length, ?repeat_length in *. split; [apply B; exact Hx|]. intros _ Hn. specialize (A Hn). lia.
  - (* IntensityModulator *) unfold intensity_modulator in H. cbv zeta in H. step H. step H. injection H as <-. rewrite scale_length.
    destruct (broadcast_length _ _ _ _ E2) as (_ & A & K). destruct (broadcast_length _ _ _ _ E3) as (_ & B & _). rewrite !scale_length, !map_length, grid_t_length in *. split; [apply B; exact Hx|]. intros _ Hn. apply K; assumption.
  - (* WaveShaper *) unfold wave_shaper in H. cbv zeta in H. step H. step H. injection H as <-. finish. assumption.
  - (* IntegratedSplitAndDelayLine *) unfold split_and_delay_line in H. cbv zeta in H. step H. apply fft_length in E0.
    destruct (split_stages _ _ _ _) as [(u, v)|] eqn:E1; [cbn [bind] in H|discriminate H]. step H. injection H as <-. rewrite scale_length. apply ifft_length in E2. cbn [fst] in E2.
    destruct (stages_length _ _ _ _ _ _ _ E1) as (X & _); [lia|rewrite map_length; reflexivity|]. lia.
  - (* OpticalAmplifier *) step H. unfold optical_amplifier, amplifier_gain in H. finish. rewrite small_signal_length in *. split; [assumption|]. intros; lia.
  - (* ProgrammableFilter *) unfold programmable_filter in H. cbv zeta in H. step H. step H. step H. step H. injection H as <-. finish.
    assert (Lb : length (band_positions p) = n_samples p) by (unfold band_positions, linspace; rewrite map_length; apply tabulate_length).
    destruct (broadcast_length _ _ _ _ E1) as (A & _ & _). destruct (broadcast_length _ _ _ _ E2) as (B & _ & _). destruct (broadcast_length _ _ _ _ E3) as (K & _ & _). rewrite !map_length, grid_f_length in A, B. split; [assumption|]. intros _ Hn. specialize (A Hn). specialize (B Hn). lia.
  - (* SquareFilter *) unfold square_filter in H. destruct (Req_EM_T a 0); [discriminate|]. cbv zeta in H. step H. injection H as <-. finish. rewrite grid_f_length in *. split; [assumption|]. intros; lia.
  - (* DelayLine *) unfold delay_line in H. cbv zeta in H. step H. injection H as <-. finish. rewrite grid_f_length in *. split; [assumption|]. intros; lia.
  - (* IntegratedDelayLine *) unfold integrated_delay_line, delay_line in H. cbv zeta in H. step H. injection H as <-. finish. rewrite grid_f_length in *. split; [assumption|]. intros; lia.
  - (* PhaseShifter *) unfold phase_shifter in H. step H. apply fft_length in E0. apply ifft_length in H. rewrite map_length in H. lia.
Qed.
Lemma connector_length : forall c ps p k states i o outs, connector c ps p states i o = Ok outs -> 2 <= k -> (forall s, In s states -> length s = k) -> forall s, In s outs -> length s = k.
Proof.
  intros c ps p k states i o outs H Hk Hs s Hin. destruct c; cbn [connector] in H; try discriminate H; try (injection H as <-; apply Hs; exact Hin).
  - step H. unfold splitter in H. step H. destruct states as [|s0 r]; [discriminate|]. destruct (negb _); [discriminate|]. destruct (negb _); [discriminate|]. injection H as <-.
    apply in_map_iff in Hin as (row & <- & _). rewrite tabulate_length. apply Hs. left; reflexivity.
  - step H. unfold frequency_splitter in H. step H. unfold sum_states in E0. destruct states as [|s0 r]; [discriminate|]. destruct (negb _); [discriminate|]. injection E0 as <-.
    assert (L : length s0 = k) by (apply Hs; left; reflexivity). apply map_res_ok_spec in H.
    apply In_nth_error in Hin as (j & Hj). revert j Hj. induction H as [|c y l l' H1 H2 IH]; intros [|j] Hj; try discriminate Hj.
    + injection Hj as ->. apply filter_length in H1 as (X & _); rewrite tabulate_length in *; lia.
    + apply (IH j). exact Hj.
Qed.

(** ** Graphs whose signals all have k samples *)
Section Length.
Variable st : store.
Variable p : grid.
Variable g : graph.
Variable src : list C.
Hypothesis W : wf g.
Hypothesis long : 2 <= length src.
Hypothesis no_maker : forall e, In e (g_edges g) -> ~ makes_samples (ccls (e_model (e_dat e))).
Let B := optics st p.
Let k := length src.
Let even (sv : saves (list C)) : Prop := forall q s, saved sv q = Some s -> length s = k.
Let applied (e : edge) : Prop := on_grid (ccls (e_model (e_dat e))) -> 2 <= n_samples p -> k = n_samples p.

Lemma save_even : forall q s sv, length s = k -> even sv -> even (save q s sv).
Proof. intros q s sv Hs He q' s' H. assert (D : q' = q \/ q' <> q) by (destruct (place_eqb q' q) eqn:E; [left; apply place_eqb_eq; exact E|right; intros ->; rewrite (proj2 (place_eqb_eq q q) eq_refl) in E; discriminate]). destruct D as [->|D]; [rewrite saved_same in H; injection H as <-; exact Hs|rewrite saved_other in H by exact D; exact (He _ _ H)]. Qed.
Lemma edge_even : forall e s u s', In e (g_edges g) -> length s = k -> edge_act B (e_model (e_dat e)) s u = (u, Ok s') -> length s' = k /\ applied e.
Proof.
  intros e s u s' He Hs H. unfold B, optics in H. cbn [edge_act] in H. injection H as H. destruct (get_params st (cid (e_model (e_dat e)))) as [ps|]; [|discriminate]. cbn [bind] in H.
  assert (Hk : 2 <= length s) by (rewrite Hs; exact long). destruct (component_length _ _ _ _ _ (no_maker e He) H Hk) as (A & K). rewrite Hs in *. split; [exact A|exact K].
Qed.
Lemma send_even : forall es i states u sv u' sv' r, incl es (g_edges g) -> (forall s, In s states -> length s = k) -> even sv -> send B es i states u sv = (u', sv', r) ->
  even sv' /\ (r = Ok tt -> forall e, In e es -> applied e).
Proof.
  induction es as [|e es IH]; intros i states u sv u' sv' r Inc Hs He H; cbn [send] in H; [injection H as <- <- <-; split; [exact He|intros _ e []]|].
  destruct (nth_error states i) as [s|] eqn:Es; [|injection H as <- <- <-; split; [exact He|discriminate]].
  assert (Hin : In e (g_edges g)) by (apply Inc; left; reflexivity).
  destruct (edge_act B (e_model (e_dat e)) s u) as (u1, [s'|er]) eqn:Ea; [|injection H as <- <- <-; split; [exact He|discriminate]].
  assert (u1 = u) by (destruct u1, u; reflexivity). subst u1.
  destruct (edge_even e s u s' Hin (Hs s (nth_error_In _ _ Es)) Ea) as (L & Ap).
  destruct (IH (S i) states u (save (PEdge (e_id e)) s' sv) u' sv' r) as (X & Y); [intros a Ha; apply Inc; right; exact Ha|exact Hs|apply save_even; assumption|exact H|].
  split; [exact X|]. intros Hr a [<-|Ha]; [exact Ap|exact (Y Hr a Ha)].
Qed.
Lemma visit_even : forall n u sv u' sv' r, is_node g n -> even sv -> visit B g src n u sv = (u', sv', r) ->
  even sv' /\ (r = Ok tt -> forall e, In e (g_edges g) -> e_src e = n -> applied e).
Proof.
  intros n u sv u' sv' r Hn He H. unfold visit in H. destruct (node_inputs g src sv n) as [ins|] eqn:Ei; [|injection H as <- <- <-; split; [exact He|discriminate]].
  assert (Hi : forall s, In s ins -> length s = k).
  { unfold node_inputs in Ei. destruct (pre g n); [injection Ei as <-; intros s [<-|[]]; reflexivity|]. apply map_res_ok_spec in Ei. clear - Ei He. intros s Hs. induction Ei as [|e y l l' H1 H2 IH]; [destruct Hs|].
    destruct Hs as [->|Hs]; [|exact (IH Hs)]. destruct (saved sv (PEdge (e_id e))) as [z|] eqn:E; [|discriminate]. injection H1 as ->. exact (He _ _ E). }
  destruct (node_data g n) as [nd|]; [|injection H as <- <- <-; split; [exact He|discriminate]].
  destruct (node_act B (n_model nd) ins (in_degree g n) (out_degree g n) u) as (u1, [states|er]) eqn:Ea; [|injection H as <- <- <-; split; [exact He|discriminate]].
  assert (Hs : forall s, In s states -> length s = k).
  { unfold B, optics in Ea. cbn [node_act] in Ea. injection Ea as _ Ea. destruct (get_params st (cid (n_model nd))) as [ps|]; [|discriminate]. cbn [bind] in Ea. exact (connector_length _ _ _ k _ _ _ _ Ea long Hi). }
  rewrite (out_edges_leaving g n W Hn) in H. assert (Inc : incl (leaving g n) (g_edges g)) by (intros e Hin; apply In_leaving in Hin; tauto).
  assert (K : exists sv1, even sv1 /\ (send B (leaving g n) 0 states u1 sv1 = (u', sv', r) \/ (sv' = sv1 /\ r <> Ok tt))).
  { destruct (get_out_degree g n =? 0); [|exists sv; auto]. destruct states as [|s0 l]; [injection H as <- <- <-; exists sv; split; [exact He|right; split; [reflexivity|discriminate]]|].
    exists (save (PNode n) s0 sv). split; [apply save_even; [apply Hs; left; reflexivity|exact He]|left; exact H]. }
  destruct K as (sv1 & He1 & [Hsend|(-> & N)]); [|split; [exact He1|intros E; contradiction]].
  destruct (send_even _ _ _ _ _ _ _ _ Inc Hs He1 Hsend) as (X & Y). split; [exact X|]. intros Hr e Hin Hsrc. apply (Y Hr). apply In_leaving. auto.
Qed.
Lemma visit_all_even : forall o u sv u' sv' r, (forall n, In n o -> is_node g n) -> even sv -> visit_all B g src o u sv = (u', sv', r) ->
  even sv' /\ (r = Ok tt -> forall e, In e (g_edges g) -> In (e_src e) o -> applied e).
Proof.
  induction o as [|n o IH]; intros u sv u' sv' r Hn He H; cbn [visit_all] in H; [injection H as <- <- <-; split; [exact He|intros _ e _ []]|].
  destruct (visit B g src n u sv) as ((u1, sv1), r1) eqn:Ev. destruct (visit_even _ _ _ _ _ _ (Hn n (or_introl eq_refl)) He Ev) as (X & Y).
  destruct r1 as [[]|er]; [|injection H as <- <- <-; split; [exact X|discriminate]].
  destruct (IH _ _ _ _ _ (fun m Hm => Hn m (or_intror Hm)) X H) as (X' & Y'). split; [exact X'|]. intros Hr e Hin [Eq|Hs]; [exact (Y eq_refl e Hin (eq_sym Eq))|exact (Y' Hr e Hin Hs)].
Qed.
Lemma simulate_even : forall old sv r, simulate st p g src old = (sv, r) ->
  (forall q s, saved sv q = Some s -> length s = length src) /\
  (r = Ok tt -> forall e, In e (g_edges g) -> on_grid (ccls (e_model (e_dat e))) -> 2 <= n_samples p -> length src = n_samples p).
Proof.
  intros old sv r H. unfold simulate, propagate in H. pose proof (topological_sort_spec g W) as T. destruct (topological_sort g) as [o|].
  - unfold propagate_along in H. fold B in H. destruct (visit_all B g src o tt []) as ((u', sv'), r') eqn:E. injection H as <- <-. destruct T as (Pm & _).
    assert (Hn : forall n, In n o -> is_node g n). { intros n Hin. apply (Permutation_in _ Pm) in Hin. apply in_map_iff in Hin as ((m, d) & <- & Hd). exists d. exact Hd. }
    destruct (visit_all_even o tt [] u' sv' r' Hn) as (X & Y); [intros q s Hq; rewrite saved_nil in Hq; discriminate|exact E|]. split; [exact X|]. intros Hr e Hin. apply (Y Hr e Hin).
    apply (Permutation_in _ (Permutation_sym Pm)). destruct (wf_ends g W e Hin) as ((d & Hd) & _). apply in_map_iff. exists (e_src e, d). auto.
  - injection H as <- <-. split; [intros q s Hq; rewrite saved_nil in Hq; discriminate|discriminate].
Qed.
End Length.

(** ** Simulations that do not tell two initial states apart *)
Section Contents.
Variable st : store.
Variable p : grid.
Variable g : graph.
Variables src src' : list C.
Hypothesis W : wf g.
Hypothesis T : typed g.
Hypothesis starts : connected_starts g.
Hypothesis same : forall e ps, In e (g_edges g) -> no_input g (e_src e) -> component (ccls (e_model (e_dat e))) ps p src = component (ccls (e_model (e_dat e))) ps p src'.
Let B := optics st p.

Lemma pre_nil_no_input : forall n, is_node g n -> pre g n = [] -> no_input g n.
Proof.
  intros n Hn Hp. apply (pre_nil g n W) in Hp. split; [exact Hn|]. intros e He Hd. assert (In e (arriving g n)) by (apply (In_arriving g n e W); auto). rewrite Hp in H. destruct H.
Qed.
Lemma send_same : forall es i u sv, incl es (g_edges g) -> (forall e, In e es -> no_input g (e_src e)) -> send B es i [src] u sv = send B es i [src'] u sv.
Proof.
  induction es as [|e es IH]; intros i u sv Inc Hn; [reflexivity|]. cbn [send]. destruct i as [|i]; cbn [nth_error]; [|destruct i; reflexivity].
  assert (E : edge_act B (e_model (e_dat e)) src u = edge_act B (e_model (e_dat e)) src' u).
  { unfold B, optics. cbn [edge_act]. destruct (get_params st (cid (e_model (e_dat e)))) as [ps|]; [|reflexivity]. cbn [bind]. rewrite (same e ps); [reflexivity|apply Inc; left; reflexivity|apply Hn; left; reflexivity]. }
  rewrite E. destruct (edge_act B (e_model (e_dat e)) src' u) as (u1, [s'|er]); [|reflexivity]. apply IH; [intros a Ha; apply Inc; right; exact Ha|intros a Ha; apply Hn; right; exact Ha].
Qed.
Lemma visit_same : forall n u sv, is_node g n -> visit B g src n u sv = visit B g src' n u sv.
Proof.
  intros n u sv Hn. unfold visit, node_inputs. destruct (pre g n) as [|m l] eqn:Ep; [|reflexivity]. pose proof (pre_nil_no_input n Hn Ep) as Ni.
  destruct (node_data g n) as [nd|] eqn:End; [|reflexivity].
  assert (M : model_at g n (n_model nd)) by (exists nd; split; [apply (node_data_iff g n nd W); exact End|reflexivity]). pose proof (ty_source g T n (n_model nd) Ni M) as Ec.
  assert (A : forall x i o, node_act B (n_model nd) x i o u = (u, do ps <- get_params st (cid (n_model nd)); Ok x)) by (intros x i o; unfold B, optics; cbn [node_act]; rewrite Ec; reflexivity).
  rewrite !A. destruct (get_params st (cid (n_model nd))) as [ps|]; [|reflexivity]. cbn [bind].
  rewrite (get_out_degree_dep g W n Hn), (out_edges_leaving g n W Hn).
  destruct (Nat.eqb_spec (departures g n) 0) as [Z|Z].
  - destruct (starts n Ni). split; [exact Hn|]. intros e He Hs. rewrite departures_leaving in Z. destruct (leaving g n) eqn:El; [|discriminate]. assert (In e (leaving g n)) by (apply In_leaving; auto). rewrite El in H. destruct H.
  - apply send_same; [intros e He; apply In_leaving in He; tauto|intros e He; apply In_leaving in He as (_ & ->); exact Ni].
Qed.
Lemma simulate_same : forall old, simulate st p g src old = simulate st p g src' old.
Proof.
  intros old. unfold simulate, propagate. pose proof (topological_sort_spec g W) as To. destruct (topological_sort g) as [o|]; [|reflexivity]. destruct To as (Pm & _). unfold propagate_along. fold B.
  assert (Hn : forall n, In n o -> is_node g n). { intros n Hin. apply (Permutation_in _ Pm) in Hin. apply in_map_iff in Hin as ((m, d) & <- & Hd). exists d. exact Hd. }
  assert (K : forall o u sv, (forall n, In n o -> is_node g n) -> visit_all B g src o u sv = visit_all B g src' o u sv).
  { clear Hn Pm o. induction o as [|n o IH]; intros u sv Hn; [reflexivity|]. cbn [visit_all]. rewrite visit_same by (apply Hn; left; reflexivity). destruct (visit B g src' n u sv) as ((u1, sv1), [v|er]); [|reflexivity]. apply IH. intros m Hm; apply Hn; right; exact Hm. }
  rewrite K by exact Hn. reflexivity.
Qed.
End Contents.

Lemma map_const : forall {A D} (d : D) (x y : list A), length x = length y -> map (fun _ => d) x = map (fun _ => d) y.
Proof. intros A D d. induction x as [|a x IH]; intros [|b y] H; try reflexivity; try discriminate. cbn [map]. f_equal. apply IH. injection H as H; exact H. Qed.
(* a source looks at the state for its length only *)
Lemma source_length_only : forall c ps p x y, family_of c = SourceModel -> length x = length y -> component c ps p x = component c ps p y.
Proof.
  intros c ps p x y F L. destruct c; try discriminate F; cbn [component]; try reflexivity.
  - unfold continuous_wave_laser. destruct (real_at ps 0) as [r|]; [|reflexivity]. cbn [bind]. rewrite (map_const _ x y L). reflexivity.
  - unfold impulse. rewrite (map_const _ x y L). reflexivity.
Qed.
Lemma maker_ignores : forall c ps p x y, makes_samples c -> component c ps p x = component c ps p y.
Proof. intros c ps p x y [-> | ->]; reflexivity. Qed.
Lemma no_maker_of : forall g, typed g -> fed_by copies_state g -> forall e, In e (g_edges g) -> ~ makes_samples (ccls (e_model (e_dat e))).
Proof.
  intros g T F e He M. assert (D : no_input g (e_src e) \/ ~ no_input g (e_src e)).
  { rewrite no_input_iff. destruct (Nat.eq_dec (in_degree g (e_src e)) 0) as [Z|Z]; [|right; tauto]. destruct (In_dec Nat.eq_dec (e_src e) (map fst (g_nodes g))) as [I|I].
    - left. split; [|exact Z]. apply in_map_iff in I as ((m, d) & Em & Hd). cbn in Em. subst m. exists d; exact Hd.
    - right. intros ((d & Hd) & _). apply I. apply in_map_iff. exists (e_src e, d). auto. }
  destruct D as [D|D].
  - specialize (F e He D). destruct F as [F|F], M as [M|M]; congruence.
  - assert (O : no_output g (e_dst e) \/ ~ no_output g (e_dst e)).
    { rewrite no_output_iff. destruct (Nat.eq_dec (out_degree g (e_dst e)) 0) as [Z|Z]; [|right; tauto]. destruct (In_dec Nat.eq_dec (e_dst e) (map fst (g_nodes g))) as [I|I].
      - left. split; [|exact Z]. apply in_map_iff in I as ((m, d) & Em & Hd). cbn in Em. subst m. exists d; exact Hd.
      - right. intros ((d & Hd) & _). apply I. apply in_map_iff. exists (e_dst e, d). auto. }
    destruct O as [O|O]; [pose proof (ty_edge_sink g T e He D O) as Y|pose proof (ty_edge_inner g T e He D O) as Y]; destruct M as [M|M]; rewrite M in Y; discriminate Y.
Qed.
