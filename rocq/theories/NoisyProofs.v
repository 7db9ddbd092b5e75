(** Simulations with noise (C76). *)
From Coq Require Import Reals Qreals List Arith ZArith QArith Lia Lra Bool Relations.
From Verif Require Import Base GraphModel GraphSpec GraphProofs TopoProofs OperatorsSpec OperatorsProofs EvolutionProofs EffectsProofs TypingProofs InitProofs ParamsModel ParamsSpec PropagateModel PropagateSpec PropagateProofs SessionSaveProofs FlowSpec FlowProofs
  Complex ArrayModel FourierProofs ComponentModel ComponentSpec DetectorModel DetectorSpec MoreComponentsModel MoreComponentsSpec FilterProofs ComponentProofs GridProofs SplitterProofs ShaperProofs DetectorProofs MoreComponentsProofs
  NoiseModel NoiseProofs OpticsModel OpticsSpec OpticsComponentProofs OpticsProofs NoisyModel NoisySpec.
Import ListNotations.
Local Open Scope nat_scope.
Local Open Scope R_scope.

(** ** The vectors of a noise source *)
Definition good_filter (o : option filter_shape) : Prop := match o with None => True | Some s => exists f0 n, (0 < n)%nat /\ s = ButterworthLowpass f0 1 (Z.of_nat n) end.
Definition good_source (N : nat) (s : noise_type * option filter_shape) : Prop := good_filter (snd s) /\ forall ase, fst s = EdfaASE ase -> length ase = N.
Definition drawn (N : nat) (d : draw) : Prop := length (fst d) = N /\ length (snd d) = N.

Lemma shaped_draw : forall p o d, usable (n_samples p) (window_t p) -> good_filter o -> drawn (n_samples p) d ->
  exists x, (match o with None => Ok (fst d) | Some shape => filtered_time_static p shape (fst d) end) = Ok x /\ length x = n_samples p /\ (alive (fst d) -> alive x).
Proof.
  intros p o d U G [L1 L2]. destruct o as [s|]; [|exists (fst d); auto]. destruct G as (f0 & n & Hn & ->).
  destruct (butterworth_filter p f0 1 n (fst d) U L1 Hn) as (y & E & Ly & _). exists y. split; [exact E|]. split; [congruence|].
  intros A. exact (lowpass_alive p f0 1 n (fst d) y U L1 Hn R1_neq_R0 A E).
Qed.
Lemma vector_ok : forall p s d, usable (n_samples p) (window_t p) -> good_source (n_samples p) s -> drawn (n_samples p) d ->
  exists v, vector_of p s d = Ok v /\
    (forall x, v = Some x -> fitting (n_samples p) (mkSource (fst s) (snd s) x)) /\
    (alive (fst d) -> Nat.Even (n_samples p) -> exists x, v = Some x).
Proof.
  intros p [t o] d U [G La] D. cbn [fst snd] in *. destruct (shaped_draw p o d U G D) as (x & E & Lx & Al). unfold vector_of, noise_vector. rewrite E. cbn [bind].
  assert (Nz : alive (fst d) -> mean_power x <> 0) by (intros A Z; pose proof (alive_power x (Al A)) as P; rewrite <- mean_average, Z in P; lra).
  destruct t; cbn [ns_type].
  - destruct (Req_EM_T (mean_power x) 0) as [Z|Z]; eexists; (split; [reflexivity|]); (split; [intros y Hy; try discriminate; injection Hy as <-|intros A _; try (exfalso; exact (Nz A Z)); eauto]).
    split; [exact Lx|]. split; intros; discriminate.
  - destruct (Req_EM_T (mean_power x) 0) as [Z|Z]; eexists; (split; [reflexivity|]); (split; [intros y Hy; try discriminate; injection Hy as <-|intros A _; try (exfalso; exact (Nz A Z)); eauto]).
    split; [cbn [ns_vector]; rewrite scale_length; exact Lx|]. split; intros; discriminate.
  - eexists. split; [reflexivity|]. split; [intros y Hy; injection Hy as <-|intros; eauto]. split; [exact Lx|]. split; [cbn [ns_type]; intros a Ha; exact (La a Ha)|intros; discriminate].
  - destruct (Req_EM_T (mean_power x) 0) as [Z|Z]; eexists; (split; [reflexivity|]); (split; [intros y Hy; try discriminate; injection Hy as <-|intros A _; try (exfalso; exact (Nz A Z)); eauto]).
    split; [cbn [ns_vector]; rewrite scale_length; exact Lx|]. split; intros; discriminate.
  - destruct (Req_EM_T (mean_power x) 0) as [Z|Z]; eexists; (split; [reflexivity|]); (split; [intros y Hy; try discriminate; injection Hy as <-|intros A _; try (exfalso; exact (Nz A Z)); eauto]).
    split; [exact Lx|]. split; intros; discriminate.
  - destruct (Req_EM_T fwhm 0) as [Z|Z].
    + eexists. split; [reflexivity|]. split; [intros y Hy; injection Hy as <-|intros; eauto]. split; [apply repeat_length|]. split; [intros; discriminate|]. intros w _ z Hz. cbn [ns_vector] in Hz. apply repeat_spec in Hz as ->. unfold Cnorm2, C1, re, im; cbn; ring.
    + destruct (Nat.Even_or_Odd (n_samples p)) as [V|V].
      * destruct (linewidth_even p fwhm (snd d) U V (proj2 D)) as (phase & -> & Lp). cbn [bind option_map]. eexists. split; [reflexivity|]. split; [intros y Hy; injection Hy as <-|intros; eauto].
        split; [cbn [ns_vector]; rewrite map_length; exact Lp|]. split; [intros; discriminate|]. intros w _ z Hz. cbn [ns_vector] in Hz. apply in_map_iff in Hz as (a & <- & _). apply cis_norm.
      * rewrite linewidth_odd by assumption. cbn [bind option_map]. eexists. split; [reflexivity|]. split; [intros; discriminate|]. intros _ V'. exfalso. exact (Nat.Even_Odd_False _ V' V).
  - destruct (Req_EM_T fwhm 0) as [Z|Z].
    + eexists. split; [reflexivity|]. split; [intros y Hy; injection Hy as <-|intros; eauto]. split; [apply repeat_length|]. split; intros; discriminate.
    + destruct (Nat.Even_or_Odd (n_samples p)) as [V|V].
      * destruct (linewidth_even p fwhm (snd d) U V (proj2 D)) as (phase & -> & Lp). cbn [bind option_map]. eexists. split; [reflexivity|]. split; [intros y Hy; injection Hy as <-|intros; eauto].
        split; [cbn [ns_vector]; rewrite map_length; exact Lp|]. split; intros; discriminate.
      * rewrite linewidth_odd by assumption. cbn [bind option_map]. eexists. split; [reflexivity|]. split; [intros; discriminate|]. intros _ V'. exfalso. exact (Nat.Even_Odd_False _ V' V).
Qed.
Lemma vectors_ok : forall p draws l i, usable (n_samples p) (window_t p) -> (forall s, In s l -> good_source (n_samples p) s) -> (forall k, drawn (n_samples p) (draws k)) ->
  exists vs, vectors_of p l draws i = Ok vs /\
    (forall ss, all_some vs = Some ss -> forall s, In s ss -> fitting (n_samples p) s /\ good_filter (ns_filter s)) /\
    ((forall k, alive (fst (draws k))) -> Nat.Even (n_samples p) -> exists ss, all_some vs = Some ss).
Proof.
  intros p draws l. induction l as [|s l IH]; intros i U G D; cbn [vectors_of].
  - exists []. split; [reflexivity|]. split; [intros ss E; injection E as <-; intros s []|intros; exists []; reflexivity].
  - destruct (vector_ok p s (draws i) U (G s (or_introl eq_refl)) (D i)) as (v & Ev & Fv & Nv). rewrite Ev. cbn [bind].
    destruct (IH (S i) U) as (vs & Evs & Fvs & Nvs); [intros a Ha; apply G; right; exact Ha|exact D|]. rewrite Evs. cbn [bind]. eexists. split; [reflexivity|]. split.
    + intros ss E a Ha. destruct v as [x|]; cbn [option_map all_some] in E; [|discriminate]. destruct (all_some vs) as [r|] eqn:Er; [|discriminate]. cbn [option_map] in E. injection E as <-.
      destruct Ha as [<-|Ha]; [|exact (Fvs r eq_refl a Ha)]. split; [apply Fv; reflexivity|]. apply (G s (or_introl eq_refl)).
    + intros A V. destruct (Nv (A i) V) as (x & ->). destruct (Nvs A V) as (r & Er). cbn [option_map all_some]. rewrite Er. cbn [option_map]. eauto.
Qed.

(** ** Adding the noise *)
Lemma good_mask : forall p o, good_filter o -> exists b, shot_bandwidth p o = Ok b.
Proof.
  intros p [s|] G; [|eexists; reflexivity]. destruct G as (f0 & n & Hn & ->). unfold shot_bandwidth, get_filter. rewrite lowpass_plain by exact Hn. cbn [bind]. eauto.
Qed.
Lemma addend_total : forall p n mean m s, (0 < n)%nat -> fitting n s -> good_filter (ns_filter s) -> exists a, addend p mean m s = Ok a.
Proof.
  intros p n mean m s P (L & La & _) G. unfold addend. destruct (ns_type s) eqn:T; try (eexists; reflexivity).
  - rewrite broadcast_same by (rewrite scale_length, map_length, (La ase eq_refl); exact L). cbn [bind]. unfold ifft_. match goal with |- context [ifft ?z] => destruct (ifft_total z) as (y & I) end.
    + rewrite map_length, combine_length, scale_length, map_length, L, (La ase eq_refl). lia.
    + rewrite I. cbn [bind]. eauto.
  - destruct (good_mask p _ G) as (b & ->). cbn [bind]. eauto.
Qed.
Lemma add_sources_total : forall p n mean ss sg tt, (0 < n)%nat -> (forall s, In s ss -> fitting n s /\ good_filter (ns_filter s)) -> length sg = n -> length tt = n ->
  exists acc, add_sources p mean ss (sg, tt) = Ok acc /\ length (fst acc) = n /\ length (snd acc) = n.
Proof.
  intros p n mean ss. induction ss as [|s ss IH]; intros sg tt P F Ls Lt; [exists (sg, tt); auto|]. cbn [add_sources]. destruct (F s (or_introl eq_refl)) as [Fs Gs].
  rewrite (add_source_view p n) by assumption. destruct (addend_total p n mean (mean_abs sg) s P Fs Gs) as (a & Ea). rewrite Ea. cbn [bind].
  pose proof (factor_length n s Fs). pose proof (addend_length p n _ _ _ _ P Fs Ea). apply IH; [exact P|intros x Hx; apply F; right; exact Hx|rewrite zipmul_length; lia|rewrite zipadd_length; lia].
Qed.
Lemma noisy_total : forall p ss x, (0 < length x)%nat -> (forall s, In s ss -> fitting (length x) s /\ good_filter (ns_filter s)) -> exists y, noisy p ss x = Ok y /\ length y = length x.
Proof.
  intros p ss x P F. unfold noisy. destruct (add_sources_total p (length x) (mean_power x) ss x (map (fun _ => C0) x) P F eq_refl (map_length _ _)) as (acc & -> & L1 & L2). cbn [bind].
  rewrite broadcast_same by lia. eexists. split; [reflexivity|]. rewrite map_length, combine_length. lia.
Qed.

(** ** The noise models of the components *)
Lemma frequency_floor : forall p f, usable (n_samples p) (window_t p) -> optical (n_samples p) (window_t p) (central_wl p) -> In f (grid_f p) -> 0 <= f + central_frequency p.
Proof.
  intros p f U [Wl O] H. apply (In_nth _ _ 0) in H as (i & Hi & <-). rewrite grid_f_length in Hi. rewrite grid_f_nth by assumption. unfold central_frequency, speed_of_light.
  rewrite grid_df_val. destruct U as [U1 U2]. assert (N1 : 1 < INR (n_samples p)) by (apply lt_1_INR; lia). assert (Em : INR (n_samples p - 1) = INR (n_samples p) - 1) by (rewrite minus_INR by lia; reflexivity). rewrite Em.
  pose proof (pos_INR i). set (N := INR (n_samples p)) in *. set (W := window_t p) in *.
  assert (D : 0 < N / W / (N - 1)) by (apply Rdiv_lt_0_compat; [apply Rdiv_lt_0_compat; lra|lra]).
  assert (E : (N - 1) / 2 * (N / W / (N - 1)) = N / W / 2) by (field; lra).
  assert (0 <= INR i * (N / W / (N - 1))) by (apply Rmult_le_pos; lra). lra.
Qed.
Lemma gain_nonneg : forall a p x g, In g (amplifier_gain a p x) -> 0 <= g.
Proof.
  intros a p x g H. unfold amplifier_gain in H. apply in_map_iff in H as (s & <- & Hs). pose proof (small_signal_pos _ _ _ Hs). pose proof (real_power_nonneg (s * mean_power x / P_out_max a) (alpha a)). left. apply Rdiv_lt_0_compat; lra.
Qed.
Lemma ase_ok : forall a fig p x, usable (n_samples p) (window_t p) -> exists o, ase_filter a fig p x = Ok o /\ (forall l, o = Some l -> length l = n_samples p) /\
  (optical (n_samples p) (window_t p) (central_wl p) -> exists l, o = Some l).
Proof.
  intros a fig p x U. unfold ase_filter. assert (Lg : length (amplifier_gain a p x) = n_samples p) by (unfold amplifier_gain; rewrite map_length; apply small_signal_length).
  rewrite broadcast_same by (rewrite grid_f_len; symmetry; exact Lg). cbn [bind]. set (pw := map _ (combine _ _)). assert (Lp : length pw = n_samples p) by (unfold pw; rewrite map_length, combine_length, grid_f_len, Lg; lia).
  eexists. split; [reflexivity|]. split.
  - intros l E. destruct (forallb _ pw); [|discriminate]. injection E as <-. rewrite map_length. exact Lp.
  - intros O. replace (forallb (fun x0 => if Rle_dec 0 x0 then true else false) pw) with true; [eexists; reflexivity|]. symmetry. apply forallb_forall. intros w Hw. destruct (Rle_dec 0 w) as [_|C]; [reflexivity|]. exfalso. apply C.
    unfold pw in Hw. apply in_map_iff in Hw as ((f, gg) & <- & Hf). cbn [fst snd]. pose proof (in_combine_l _ _ _ _ Hf) as H1. pose proof (in_combine_r _ _ _ _ Hf) as H2. apply (proj1 (ifft_shift_In _ _)) in H1.
    pose proof (frequency_floor p f U O H1). pose proof (gain_nonneg _ _ _ _ H2). assert (0 < Planck) by (unfold Planck; apply Rdiv_lt_0_compat; [lra|apply pow_lt; lra]).
    assert (0 < grid_df p). { rewrite grid_df_val. destruct U as [U1 U2]. assert (1 < INR (n_samples p)) by (apply lt_1_INR; lia). assert (0 < INR (n_samples p - 1)) by (apply lt_0_INR; lia). apply Rdiv_lt_0_compat; [apply Rdiv_lt_0_compat; lra|lra]. }
    pose proof (ten_to_pos (fig / 10)). set (P := Planck) in *. clearbody P. set (ff := f + central_frequency p) in *. clearbody ff. set (dd := grid_df p) in *. clearbody dd. set (tt := ten_to (fig / 10)) in *. clearbody tt.
    apply Rmult_le_pos; [|lra]. apply Rmult_le_pos; [|apply Rmult_le_pos; lra]. unfold Rdiv. apply Rmult_le_pos; [apply Rmult_le_pos; lra|lra].
Qed.
Lemma photodiode_shape : forall d, sound_photodiode d -> good_filter (Some (photodiode_filter d)).
Proof. intros d (_ & _ & _ & Ho). unfold photodiode_filter. exists (bandwidth d), (Z.to_nat (filter_order d)). split; [lia|]. rewrite Z2Nat.id by lia. reflexivity. Qed.

Lemma settings_ok : forall c ps p x, allowed c ps -> usable (n_samples p) (window_t p) -> length x = n_samples p ->
  exists o, noise_settings c ps p x = Ok o /\ (forall l, o = Some l -> forall s, In s l -> good_source (n_samples p) s) /\
    ((c = OpticalAmplifier -> optical (n_samples p) (window_t p) (central_wl p)) -> exists l, o = Some l).
Proof.
  intros c ps p x A U L. destruct c; cbn [noise_settings];
    try (solve [eexists; split; [reflexivity|]; split; [intros l E; injection E as <-; intros s []|intros; eauto]]).
  - entry A 6%nat q E Rq. rewrite Rq. cbn [bind]. eexists; split; [reflexivity|]; split; [intros l El; injection El as <-; intros s [<-|[]]; split; [exact I|intros; discriminate]|intros; eauto].
  - entry A 2%nat q E Rq. entry A 3%nat q3 E3 Rq3. rewrite Rq. cbn [bind]. rewrite Rq3. cbn [bind]. eexists; split; [reflexivity|]; split; [intros l El; injection El as <-; intros s [<-|[<-|[]]]; (split; [exact I|intros; discriminate])|intros; eauto].
  - eexists; split; [reflexivity|]; split; [intros l El; injection El as <-; intros s [<-|[]]; split; [exact I|intros; discriminate]|intros; eauto].
  - destruct (photodiode_held ps A) as (d & -> & Sd). cbn [bind]. entry A 5%nat q E Rq. entry A 6%nat q6 E6 Rq6. rewrite Rq. cbn [bind]. rewrite Rq6. cbn [bind].
    eexists; split; [reflexivity|]; split; [intros l El; injection El as <-; intros s [<-|[<-|[]]]; (split; [apply photodiode_shape; exact Sd|intros; discriminate])|intros; eauto].
  - destruct (amplifier_held ps A) as (q & _ & ->). cbn [bind]. entry A 8%nat q8 E8 Rq8. rewrite Rq8. cbn [bind]. match goal with |- context [ase_filter ?a ?f p x] => destruct (ase_ok a f p x U) as (o & -> & Lo & Oo) end. cbn [bind].
    eexists; split; [reflexivity|]; split.
    + intros l El s Hs. destruct o as [ase|]; [|discriminate]. cbn [option_map] in El. injection El as <-. destruct Hs as [<-|[]]. split; [exact I|]. intros a Ha. injection Ha as <-. apply Lo. reflexivity.
    + intros O. destruct (Oo (O eq_refl)) as (ase & ->). cbn [option_map]. eauto.
Qed.

Definition kept (N : nat) (s : field) : Prop := forall x, s = Some x -> length x = N.
Definition numbers (N : nat) (s : field) : Prop := exists x, s = Some x /\ length x = N.
Lemma kept_plain : forall p s, kept (n_samples p) s -> length (plain p s) = n_samples p.
Proof. intros p [x|] H; [exact (H x eq_refl)|apply repeat_length]. Qed.

Lemma with_noise_ok : forall c ps p draws x y, allowed c ps -> usable (n_samples p) (window_t p) -> length x = n_samples p -> length y = n_samples p -> (forall k, drawn (n_samples p) (draws k)) ->
  exists s, with_noise c ps p draws x y = Ok s /\ kept (n_samples p) s /\
    ((c = OpticalAmplifier -> optical (n_samples p) (window_t p) (central_wl p)) -> (forall k, alive (fst (draws k))) -> Nat.Even (n_samples p) -> numbers (n_samples p) s).
Proof.
  intros c ps p draws x y A U Lx Ly D. unfold with_noise. destruct (settings_ok c ps p x A U Lx) as (o & -> & G & O). cbn [bind].
  destruct o as [l|]; [|exists None; split; [reflexivity|]; split; [intros z E; discriminate|intros Op; destruct (O Op) as (l & El); discriminate]].
  destruct (vectors_ok p draws l 0%nat U (G l eq_refl) D) as (vs & -> & F & N). cbn [bind]. destruct (all_some vs) as [ss|] eqn:Es.
  - destruct (noisy_total p ss y) as (z & -> & Lz); [rewrite Ly; destruct U; lia|rewrite Ly; exact (F ss eq_refl)|]. cbn [bind]. exists (Some z). split; [reflexivity|]. split; [intros w E; injection E as <-; congruence|intros; exists z; split; congruence].
  - exists None. split; [reflexivity|]. split; [intros z E; discriminate|]. intros _ Al V. destruct (N Al V) as (ss & Ess). discriminate.
Qed.

Lemma noisy_component_ok : forall c ps p draws s n, allowed c ps -> family_of c <> MultiPath -> usable (n_samples p) (window_t p) -> kept (n_samples p) s -> bin_spans (n_samples p) (window_t p) n ->
  (forall k, drawn (n_samples p) (draws k)) -> fine_setting (n_samples p) n c ps ->
  exists s', noisy_component c ps p draws s = Ok s' /\ kept (n_samples p) s' /\
    ((c = OpticalAmplifier -> optical (n_samples p) (window_t p) (central_wl p)) -> (forall k, alive (fst (draws k))) -> Nat.Even (n_samples p) -> numbers (n_samples p) s -> numbers (n_samples p) s').
Proof.
  intros c ps p draws s n A F U K Hn D Fs. pose proof (kept_plain p s K) as Lp. destruct (component_ok c ps p (plain p s) n A F U Lp Hn Fs) as (y & Ey & Ly).
  assert (G : forall fam, exists s', (do y <- component c ps p (plain p s); match s, fam with None, SourceModel | Some _, _ => with_noise c ps p draws (plain p s) y | None, _ => do _ <- with_noise c ps p draws (plain p s) y; Ok None end) = Ok s' /\ kept (n_samples p) s' /\
    ((c = OpticalAmplifier -> optical (n_samples p) (window_t p) (central_wl p)) -> (forall k, alive (fst (draws k))) -> Nat.Even (n_samples p) -> numbers (n_samples p) s -> numbers (n_samples p) s')).
  { intros fam. rewrite Ey. cbn [bind]. destruct (with_noise_ok c ps p draws (plain p s) y A U Lp Ly D) as (s' & Es & Ks & Ns). rewrite Es. cbn [bind].
    assert (X : s' = s' -> exists s'0, Ok s' = Ok s'0 /\ kept (n_samples p) s'0 /\ ((c = OpticalAmplifier -> optical (n_samples p) (window_t p) (central_wl p)) -> (forall k, alive (fst (draws k))) -> Nat.Even (n_samples p) -> numbers (n_samples p) s -> numbers (n_samples p) s'0)) by (intros _; exists s'; auto).
    destruct s as [z|]; [exact (X eq_refl)|]. destruct fam; try exact (X eq_refl); exists None; (split; [reflexivity|]; split; [intros w E; discriminate|intros _ _ _ (w & E & _); discriminate]). }
  specialize (G (family_of c)). destruct c; try (exfalso; apply F; reflexivity); try exact G. clear G.
  cbn [noisy_component component] in *. entry A 0%nat q E R0. entry A 1%nat q1 E1 R1. entry A 2%nat q2 E2 R2. entry A 3%nat q3 E3 R3. rewrite R0, R1, R2, R3. cbn [bind].
  match goal with |- context [vector_of p ?t (draws 0%nat)] => destruct (vector_ok p t (draws 0%nat) U) as (v & Ev & Fv & Nv); [split; [exact I|intros; discriminate]|apply D|] end.
  rewrite Ev. cbn [bind]. assert (Lv : length (plain p v) = n_samples p) by (destruct v as [w|]; [apply (Fv w eq_refl)|apply repeat_length]).
  match goal with |- context [phase_modulator ?a ?b ?c0 ?nz p (plain p s)] => destruct (phase_modulator_power a b c0 nz p (plain p s) U Lp) as (z & -> & Lz & _); [left; rewrite map_length; exact Lv|] end.
  cbn [bind]. eexists. split; [reflexivity|]. split.
  - intros w Ew. destruct v; [|discriminate]. destruct s; [|discriminate]. injection Ew as <-. cbn [plain] in Lz. rewrite Lz. exact Lp.
  - intros _ Al V (w & -> & Lw). destruct (Nv (Al 0%nat) V) as (vv & ->). exists z. split; [reflexivity|]. rewrite Lz. exact Lp.
Qed.
Lemma noisy_component_bad : forall c ps p draws s n, allowed c ps -> family_of c <> MultiPath -> usable (n_samples p) (window_t p) -> kept (n_samples p) s -> bin_spans (n_samples p) (window_t p) n ->
  ~ fine_setting (n_samples p) n c ps -> noisy_component c ps p draws s = Err (match c with SquareFilter => ZeroDivisionError | _ => ValueError end).
Proof.
  intros c ps p draws s n A F U K Hn Nf. pose proof (component_bad c ps p (plain p s) n A F U (kept_plain p s K) Hn Nf) as E.
  destruct c; try (exfalso; apply Nf; split; discriminate); cbn [noisy_component]; rewrite E; reflexivity.
Qed.

(** ** The graph *)
Lemma all_some_map : forall {A} (l : list A), all_some (map Some l) = Some l.
Proof. intros A l. induction l as [|a l IH]; [reflexivity|]. cbn [map all_some]. rewrite IH. reflexivity. Qed.
Lemma all_some_inv : forall {A} (l : list (option A)) r, all_some l = Some r -> l = map Some r.
Proof. intros A l. induction l as [|[a|] l IH]; intros r E; cbn [all_some] in E; try discriminate; [injection E as <-; reflexivity|]. destruct (all_some l) as [q|]; [|discriminate]. cbn in E. injection E as <-. cbn [map]. rewrite (IH q eq_refl). reflexivity. Qed.
Lemma all_some_none : forall {A} (l : list (option A)), In None l -> all_some l = None.
Proof. intros A l. induction l as [|[a|] l IH]; intros H; [destruct H|destruct H as [H|H]; [discriminate|cbn; rewrite (IH H); reflexivity]|reflexivity]. Qed.

Section Noisy.
Variable st : store.
Variable p : grid.
Variable g : graph.
Variable src : list C.
Variable n0 : nat.
Variable draws : nat -> nat -> draw.
Hypothesis W : wf g.
Hypothesis A : acyclic g.
Hypothesis T : typed g.
Hypothesis Fu : furnished g st.
Hypothesis U : usable (n_samples p) (window_t p).
Hypothesis Ls : length src = n_samples p.
Hypothesis Hn : bin_spans (n_samples p) (window_t p) n0.
Hypothesis D : fitted (n_samples p) draws.
Let B := noisy_optics st p draws.

Lemma drawn_at : forall i k, drawn (n_samples p) (draws i k).
Proof. intros i k. exact (D i k). Qed.
Lemma noisy_edge : forall e s, In e (g_edges g) -> kept (n_samples p) s -> sound_edge st p n0 e -> exists s', edge_act B (e_model (e_dat e)) s tt = (tt, Ok s') /\ kept (n_samples p) s' /\
  ((contains g OpticalAmplifier -> optical (n_samples p) (window_t p) (central_wl p)) -> lively draws -> Nat.Even (n_samples p) -> numbers (n_samples p) s -> numbers (n_samples p) s').
Proof.
  intros e s He K F. destruct (edge_values st p g n0 Fu e He) as (o & ps & _ & Al & G & Q). apply Q in F. unfold B. cbn [edge_act noisy_optics]. rewrite G. cbn [bind].
  destruct (noisy_component_ok _ ps p (draws (cid (e_model (e_dat e)))) s n0 Al (edge_comp g e W T He) U K Hn (drawn_at _) F) as (s' & -> & K' & N'). exists s'. split; [reflexivity|]. split; [exact K'|]. intros O Lv V. apply N'; [intros Ec; apply O; exists e; auto|intros k; apply Lv|exact V].
Qed.
Lemma noisy_edge_fails : forall e s, In e (g_edges g) -> kept (n_samples p) s -> ~ sound_edge st p n0 e -> exists er, edge_act B (e_model (e_dat e)) s tt = (tt, Err er).
Proof.
  intros e s He K F. destruct (edge_values st p g n0 Fu e He) as (o & ps & _ & Al & G & Q). unfold B. cbn [edge_act noisy_optics]. rewrite G. cbn [bind].
  rewrite (noisy_component_bad _ ps p _ s n0 Al (edge_comp g e W T He) U K Hn); [eexists; reflexivity|]. intros X. apply F, Q, X.
Qed.
Lemma noisy_node : forall n c ss, model_at g n c -> length ss = Nat.max 1 (arrivals g n) -> (forall s, In s ss -> kept (n_samples p) s) ->
  exists k states, outputs_of g n = Some k /\ node_act B c ss (arrivals g n) (departures g n) tt = (tt, Ok states) /\ length states = k /\ (forall s, In s states -> kept (n_samples p) s) /\
    ((forall s, In s ss -> numbers (n_samples p) s) -> forall s, In s states -> numbers (n_samples p) s) /\
    (In None ss -> ~ no_input g n -> ~ no_output g n -> forall s, In s states -> s = None).
Proof.
  intros n c ss M Lss Hs. assert (Hs' : forall s, In s (map (plain p) ss) -> length s = n_samples p) by (intros s H; apply in_map_iff in H as (f & <- & Hf); apply kept_plain, Hs, Hf).
  pose proof (node_works st p g src W T Fu U Ls (optics st p) (phased_optics st p g) n c (map (plain p) ss) M ltac:(rewrite map_length; exact Lss) Hs') as K.
  destruct (outputs_of g n) as [k|] eqn:Ek.
  2: { exfalso. unfold outputs_of in Ek. destruct M as (d & Md & _). rewrite (proj2 (node_data_iff g n d W) Md) in Ek. discriminate. }
  destruct K as (states & E & Lst & Qst). exists k. cbn [node_act optics] in E. unfold B. cbn [node_act noisy_optics].
  destruct (get_params st (cid c)) as [ps|]; cbn [bind] in *; [|discriminate]. unfold noisy_connector. assert (E' : connector (ccls c) ps p (map (plain p) ss) (arrivals g n) (departures g n) = Ok states) by (injection E as E; exact E).
  rewrite E'. cbn [bind]. eexists. split; [reflexivity|]. split; [reflexivity|].
  destruct (typed_class g n c W T M) as [(Cc & Ni & _)|[(Cc & Dp)|(Cc & Ar & Dp)]].
  - rewrite Cc in *. cbn [connector] in E'. injection E' as <-. split; [rewrite map_length in Lst; exact Lst|]. split; [exact Hs|]. split; [auto|]. intros _ X. contradiction.
  - rewrite Cc in *. cbn [connector] in E'. injection E' as <-. split; [rewrite map_length in Lst; exact Lst|]. split; [exact Hs|]. split; [auto|]. intros _ _ X. exfalso. apply X. apply (no_output_dep g n); [destruct M as (d & Md & _); exists d; exact Md|exact Dp].
  - replace (match ccls c with TerminalSource | TerminalSink => ss | _ => match all_some ss with Some _ => map Some states | None => map (fun _ => None) states end end) with (match all_some ss with Some _ => map Some states | None => map (fun _ => None) states end) by (destruct Cc as [-> | ->]; reflexivity).
    split; [destruct (all_some ss); rewrite map_length; exact Lst|]. split; [|split].
    + intros s H. destruct (all_some ss); apply in_map_iff in H as (x & <- & Hx); intros y Ey; [injection Ey as <-; apply Qst; exact Hx|discriminate].
    + intros Hnum s H. destruct (all_some ss) as [r|] eqn:Ea.
      * apply in_map_iff in H as (x & <- & Hx). exists x. split; [reflexivity|apply Qst; exact Hx].
      * exfalso. assert (X : exists r, ss = map Some r). { clear - Hnum. induction ss as [|s ss IH]; [exists []; reflexivity|]. destruct (Hnum s (or_introl eq_refl)) as (x & -> & _). destruct IH as (r & ->); [intros a Ha; apply Hnum; right; exact Ha|]. exists (x :: r). reflexivity. }
        destruct X as (r & ->). rewrite all_some_map in Ea. discriminate.
    + intros H _ _ s Hs2. rewrite (all_some_none ss H) in Hs2. apply in_map_iff in Hs2 as (x & <- & _). reflexivity.
Qed.
Lemma noisy_node_kept : forall n c ss, model_at g n c -> length ss = Nat.max 1 (arrivals g n) -> (forall s, In s ss -> kept (n_samples p) s) ->
  match outputs_of g n with
  | Some k => exists states, node_act B c ss (arrivals g n) (departures g n) tt = (tt, Ok states) /\ length states = k /\ forall s, In s states -> kept (n_samples p) s
  | None => exists er, node_act B c ss (arrivals g n) (departures g n) tt = (tt, Err er)
  end.
Proof. intros n c ss M L H. destruct (noisy_node n c ss M L H) as (k & states & -> & E & Lk & K & _). exists states. auto. Qed.

Lemma src_kept : kept (n_samples p) (Some src).
Proof. intros x E. injection E as <-. exact Ls. Qed.
Lemma noisy_exact : forall old,
  ((exists sv, propagate B g (Some src) tt old = (tt, sv, Ok tt)) <-> single_feed g /\ ~ blocked g st /\ (contains g WaveShaper -> shapeable (n_samples p) n0)) /\
  (forall x sv, propagate B g (Some src) tt old = (x, sv, Ok tt) -> forall pl s, saved sv pl = Some s -> kept (n_samples p) s).
Proof.
  intros old. rewrite <- (capable_iff st p g src n0 W T Fu Ls).
  refine (propagate_kind B g (Some src) W (kept (n_samples p)) (sound_edge st p n0) (outputs_of g) src_kept _ noisy_edge_fails (sound_dec st p g n0 Fu) noisy_node_kept (outputs_pos g) old A).
  intros e s He K F. destruct (noisy_edge e s He K F) as (s' & E & K' & _). exists s'. auto.
Qed.
Lemma noisy_numbers : (contains g OpticalAmplifier -> optical (n_samples p) (window_t p) (central_wl p)) -> lively draws -> Nat.Even (n_samples p) ->
  forall old x sv, propagate B g (Some src) tt old = (x, sv, Ok tt) -> forall pl s, saved sv pl = Some s -> numbers (n_samples p) s.
Proof.
  intros O Lv V old. assert (KN : forall s, numbers (n_samples p) s -> kept (n_samples p) s) by (intros s (x & -> & Lx) y Ey; injection Ey as <-; exact Lx).
  refine (proj2 (propagate_kind B g (Some src) W (numbers (n_samples p)) (sound_edge st p n0) (outputs_of g) _ _ _ (sound_dec st p g n0 Fu) _ (outputs_pos g) old A)).
  - exists src. split; [reflexivity|exact Ls].
  - intros e s He K F. destruct (noisy_edge e s He (KN s K) F) as (s' & E & _ & N). exists s'. split; [exact E|]. apply N; assumption.
  - intros e s He K. apply noisy_edge_fails; [exact He|exact (KN s K)].
  - intros n c ss M L H. destruct (noisy_node n c ss M L (fun s Hs => KN s (H s Hs))) as (k & states & -> & E & Lk & _ & N & _). exists states. auto.
Qed.
Lemma noisy_solution : forall val out, solves B tt g (Some src) val out -> forall e, In e (g_edges g) -> kept (n_samples p) (val e).
Proof.
  intros val out Sol. refine (solution_kind B g (Some src) W (kept (n_samples p)) (sound_edge st p n0) (outputs_of g) src_kept _ noisy_edge_fails (sound_dec st p g n0 Fu) noisy_node_kept val out A Sol).
  intros e s He K F. destruct (noisy_edge e s He K F) as (s' & E & K' & _). exists s'. auto.
Qed.

(** ** An odd number of samples *)
Hypothesis Od : Nat.Odd (n_samples p).
Lemma odd_vector : forall fwhm d, fwhm <> 0 -> vector_of p (Linewidth fwhm, None) d = Ok None.
Proof. intros fwhm d Z. unfold vector_of. cbn [bind]. apply (linewidth_vector p fwhm (fst d) (snd d) U Z). exact Od. Qed.
Lemma laser_none : forall c ps dr s s', allowed c ps -> is_laser c -> kept (n_samples p) s -> noisy_component c ps p dr s = Ok s' -> s' = None.
Proof.
  intros c ps dr s s' Al Lc K E.
  assert (X : forall y s1, with_noise c ps p dr (plain p s) y = Ok s1 -> s1 = None).
  { intros y s1 H. unfold with_noise in H. destruct Lc as [-> | ->]; cbn [noise_settings] in H.
    - entry Al 2%nat q2 E2 R2. locked Al 3%nat E3. rewrite R2 in H. unfold real_at at 1, at_ in H. rewrite E3 in H. cbn [of_option bind dec as_number] in H. cbn [vectors_of] in H. rewrite odd_vector in H.
      + cbn [bind] in H. destruct (vector_of p _ (dr 1%nat)) as [v|]; cbn [bind] in H; [|discriminate]. cbn [option_map all_some] in H. injection H as <-. reflexivity.
      + intros Z. apply (proj2 (zero_Q2R _)) in Z. discriminate Z.
    - locked Al 6%nat E3. unfold real_at, at_ in H. rewrite E3 in H. cbn [of_option bind dec as_number] in H. cbn [vectors_of] in H. rewrite odd_vector in H.
      + cbn [bind option_map all_some] in H. injection H as <-. reflexivity.
      + intros Z. apply (proj2 (zero_Q2R _)) in Z. discriminate Z. }
  destruct Lc as [-> | ->]; cbn [noisy_component family_of] in E; destruct (component _ ps p (plain p s)) as [y|]; cbn [bind] in E; try discriminate; destruct s as [x|]; exact (X y _ E).
Qed.
Lemma none_stays : forall c ps dr s', family_of c <> SourceModel -> noisy_component c ps p dr None = Ok s' -> s' = None.
Proof.
  intros c ps dr s' F E.
  assert (G : forall r1 : res (list C), (do y <- r1; do _ <- with_noise c ps p dr (plain p None) y; Ok None) = Ok s' -> s' = None).
  { intros r1 H. destruct r1 as [y|]; cbn [bind] in H; [|discriminate]. destruct (with_noise c ps p dr (plain p None) y); cbn [bind] in H; [|discriminate]. injection H as <-. reflexivity. }
  destruct c; try (exfalso; apply F; reflexivity); try exact (G _ E). clear G. cbn [noisy_component] in E.
  destruct (real_at ps 0); cbn [bind] in E; [|discriminate]. destruct (real_at ps 1); cbn [bind] in E; [|discriminate]. destruct (real_at ps 2); cbn [bind] in E; [|discriminate]. destruct (real_at ps 3); cbn [bind] in E; [|discriminate].
  destruct (vector_of p _ (dr 0%nat)) as [v|]; cbn [bind] in E; [|discriminate]. destruct (phase_modulator _ _ _ _ p _) as [y|]; cbn [bind] in E; [|discriminate]. destruct v; injection E as <-; reflexivity.
Qed.

Section Solution.
Variable val : edge -> field.
Variable out : node -> field.
Hypothesis Sol : solves B tt g (Some src) val out.
Lemma edge_of : forall e, In e (g_edges g) -> exists ps s ss k states, allowed (ccls (e_model (e_dat e))) ps /\ kept (n_samples p) s /\ noisy_component (ccls (e_model (e_dat e))) ps p (draws (cid (e_model (e_dat e)))) s = Ok (val e) /\
  ss = received g (Some src) val (e_src e) /\ In s states /\ k = tt /\ (In None ss -> ~ no_input g (e_src e) -> ~ no_output g (e_src e) -> s = None).
Proof.
  intros e He. destruct (wf_ends g W e He) as [Ns _]. destruct (node_data_ex g _ Ns) as (nd & End).
  assert (M : model_at g (e_src e) (n_model nd)) by (exists nd; split; [apply (node_data_iff g _ nd W); exact End|reflexivity]).
  destruct (Sol _ _ M) as (states & E1 & _ & E3). set (ss := received g (Some src) val (e_src e)) in *.
  assert (Rk : forall s, In s ss -> kept (n_samples p) s) by (apply (received_kind g (Some src) W (kept (n_samples p)) src_kept); intros e' H1 _; exact (noisy_solution val out Sol e' H1)).
  destruct (noisy_node (e_src e) (n_model nd) ss M (received_length g (Some src) W val (e_src e) W) Rk) as (k & st' & _ & En & _ & Kn & _ & Nn). assert (E0 : Ok st' = Ok states) by exact (eq_trans (eq_sym (f_equal snd En)) E1). injection E0 as <-.
  assert (Il : In e (leaving g (e_src e))) by (apply In_leaving; auto). apply In_nth_error in Il as (i & Hi). destruct (E3 i e Hi) as (s & Es & Ea). pose proof (nth_error_In _ _ Es) as Is.
  destruct (edge_values st p g n0 Fu e He) as (o & ps & _ & Al & G & _). unfold B in Ea. cbn [edge_act noisy_optics] in Ea. rewrite G in Ea. cbn [bind snd] in Ea.
  exists ps, s, ss, tt, st'. split; [exact Al|]. split; [exact (Kn s Is)|]. split; [exact Ea|]. split; [reflexivity|]. split; [exact Is|]. split; [reflexivity|]. intros H1 H2 H3. exact (Nn H1 H2 H3 s Is).
Qed.
Lemma laser_edge : forall a, In a (g_edges g) -> is_laser (ccls (e_model (e_dat a))) -> val a = None.
Proof. intros a Ha Lc. destruct (edge_of a Ha) as (ps & s & _ & _ & _ & Al & K & E & _). exact (laser_none _ ps _ s _ Al Lc K E). Qed.
Lemma none_onward : forall a e, In a (g_edges g) -> In e (g_edges g) -> e_dst a = e_src e -> val a = None -> val e = None.
Proof.
  intros a e Ha He Eq Na. destruct (edge_of e He) as (ps & s & ss & _ & _ & Al & K & E & Ess & _ & _ & Nn).
  assert (Ni : ~ no_input g (e_src e)) by (intros [_ X]; exact (X a Ha Eq)). assert (No : ~ no_output g (e_src e)) by (intros [_ X]; exact (X e He eq_refl)).
  assert (In None ss). { subst ss. unfold received. assert (Ia : In a (arriving g (e_src e))) by (apply (In_arriving g (e_src e) a W); auto). destruct (arriving g (e_src e)) as [|b l] eqn:Eb; [destruct Ia|]. rewrite <- Na. apply in_map. exact Ia. }
  rewrite (Nn H Ni No) in E. apply (none_stays _ ps _ _ ) in E; [exact E|].
  destruct (wf_ends g W e He) as [_ Nd]. destruct (no_output_dec g (e_dst e) Nd) as [O|O]; [rewrite (ty_edge_sink g T e He Ni O); discriminate|rewrite (ty_edge_inner g T e He Ni O); discriminate].
Qed.
Lemma none_behind : forall a e, behind g a e -> is_laser (ccls (e_model (e_dat a))) -> val e = None.
Proof.
  intros a e (Ha & He & Pth) Lc. pose proof (laser_edge a Ha Lc) as Na. destruct Pth as [-> |Pth]; [exact Na|].
  apply clos_rt_rtn1 in Pth. remember (e_src e) as m eqn:Em. revert e He Em. induction Pth as [|m1 m2 C Pth IH]; intros e He Em.
  - exact (none_onward a e Ha He Em Na).
  - destruct C as (b & Hb & Eb1 & Eb2). apply (none_onward b e Hb He); [congruence|]. apply IH; [exact Hb|symmetry; exact Eb1].
Qed.
Lemma behind_some : forall e, In e (g_edges g) -> exists a, starting g a /\ behind g a e.
Proof.
  intros e He. destruct (wf_ends g W e He) as [Ns _]. destruct (from_source g (e_src e) W A Ns) as (s & Hs & Pth).
  apply clos_rt_rt1n in Pth. inversion Pth as [|m1 m2 C Pt]; subst.
  - exists e. split; [split; assumption|]. split; [exact He|]. split; [exact He|left; reflexivity].
  - destruct C as (a & Ha & Ea1 & Ea2). exists a. split; [split; [exact Ha|rewrite Ea1; exact Hs]|]. split; [exact Ha|]. split; [exact He|]. right. rewrite Ea2. apply clos_rt1n_rt. exact Pt.
Qed.
Lemma none_end : (forall a, starting g a -> is_laser (ccls (e_model (e_dat a)))) -> forall n, no_output g n -> ~ no_input g n -> out n = None.
Proof.
  intros All n No Ni. assert (Nn : is_node g n) by apply No. destruct (node_data_ex g _ Nn) as (nd & End).
  assert (M : model_at g n (n_model nd)) by (exists nd; split; [apply (node_data_iff g _ nd W); exact End|reflexivity]). destruct (Sol _ _ M) as (states & E1 & E2 & _).
  assert (Hd : departures g n = 0%nat) by (apply (no_output_dep g n Nn); exact No). specialize (E2 Hd).
  assert (Rn : forall s, In s (received g (Some src) val n) -> s = None).
  { intros s Hs. unfold received in Hs. destruct (arriving g n) as [|b l] eqn:Eb.
    - exfalso. apply Ni. split; [exact Nn|]. intros e He Ed. assert (X : In e (arriving g n)) by (apply (In_arriving g n e W); auto). rewrite Eb in X. destruct X.
    - rewrite <- Eb in Hs. apply in_map_iff in Hs as (e & <- & He). apply (In_arriving g n e W) in He as [He _]. destruct (behind_some e He) as (a & Sa & Ba). exact (none_behind a e Ba (All a Sa)). }
  unfold B in E1. cbn [node_act noisy_optics snd] in E1. destruct (get_params st (cid (n_model nd))) as [ps|]; cbn [bind] in E1; [|discriminate]. unfold noisy_connector in E1. rewrite (ty_sink g T n _ Ni No M) in E1. cbn [connector bind] in E1. injection E1 as <-.
  apply Rn. exact (nth_error_In _ _ E2).
Qed.
End Solution.
End Noisy.

Lemma noisy_outcome : forall st p draws g src old, simulate_noisy st p draws g src old = (fst (simulate_noisy st p draws g src old), Ok tt) ->
  propagate (noisy_optics st p draws) g (Some src) tt old = (tt, fst (simulate_noisy st p draws g src old), Ok tt).
Proof. intros st p draws g src old H. unfold simulate_noisy in *. destruct (propagate (noisy_optics st p draws) g (Some src) tt old) as [[[] sv] r]. cbn [fst] in *. injection H as ->. reflexivity. Qed.
Lemma noisy_steady : forall st p draws g, steady (noisy_optics st p draws) g tt.
Proof. intros. split; intros; destruct (fst _); reflexivity. Qed.

(** ** No noise *)
(* two behaviours that do the same up to a map of the signals *)
Section Mapped.
Context {S1 S2 : Type}.
Variable B1 : behaviour S1 unit.
Variable B2 : behaviour S2 unit.
Variable h : S1 -> S2.
Variable g : graph.
Variable src : S1.
Definition res_map {A A' : Type} (f : A -> A') (r : res A) : res A' := match r with Ok a => Ok (f a) | Err e => Err e end.
Hypothesis Hnode : forall n d ss i o, node_data g n = Some d -> node_act B2 (n_model d) (map h ss) i o tt = (tt, res_map (map h) (snd (node_act B1 (n_model d) ss i o tt))).
Hypothesis Hedge : forall e s, In e (g_edges g) -> edge_act B2 (e_model (e_dat e)) (h s) tt = (tt, res_map h (snd (edge_act B1 (e_model (e_dat e)) s tt))).
Definition hsv (sv : saves S1) : saves S2 := map (fun q => (fst q, h (snd q))) sv.
Lemma saved_mapped : forall sv pl, saved (hsv sv) pl = option_map h (saved sv pl).
Proof. intros sv pl. induction sv as [|[q x] sv IH]; [reflexivity|]. cbn [hsv map saved fst snd]. destruct (place_eqb pl q); [reflexivity|exact IH]. Qed.
Lemma inputs_mapped : forall sv n, node_inputs g (h src) (hsv sv) n = res_map (map h) (node_inputs g src sv n).
Proof.
  intros sv n. unfold node_inputs. destruct (pre g n) as [|a l]; [reflexivity|]. generalize (get_in_edges g n) as es. induction es as [|e es IH]; [reflexivity|]. cbn [map_res]. rewrite saved_mapped. destruct (saved sv (PEdge (e_id e))); cbn [option_map of_option bind]; [|reflexivity].
  rewrite IH. match goal with |- context [res_map (map h) ?r] => destruct r end; reflexivity.
Qed.
Lemma send_mapped : forall es i ss sv, incl es (g_edges g) -> send B2 es i (map h ss) tt (hsv sv) = (tt, hsv (snd (fst (send B1 es i ss tt sv))), snd (send B1 es i ss tt sv)).
Proof.
  induction es as [|e es IH]; intros i ss sv Inc; [reflexivity|]. cbn [send]. rewrite nth_error_map. destruct (nth_error ss i) as [s|]; [|reflexivity]. cbn [option_map].
  rewrite (Hedge e s (Inc e (or_introl eq_refl))). destruct (edge_act B1 (e_model (e_dat e)) s tt) as [[] [s'|er]]; cbn [snd res_map]; [|reflexivity].
  change (save (PEdge (e_id e)) (h s') (hsv sv)) with (hsv (save (PEdge (e_id e)) s' sv)). apply IH. intros a Ha. apply Inc. right. exact Ha.
Qed.
Lemma visit_mapped : forall n sv, incl (get_out_edges g n) (g_edges g) -> visit B2 g (h src) n tt (hsv sv) = (tt, hsv (snd (fst (visit B1 g src n tt sv))), snd (visit B1 g src n tt sv)).
Proof.
  intros n sv Inc. unfold visit. rewrite inputs_mapped. destruct (node_inputs g src sv n) as [ins|er]; cbn [res_map]; [|reflexivity]. destruct (node_data g n) as [d|] eqn:Ed; [|reflexivity].
  rewrite (Hnode n d ins _ _ Ed). destruct (node_act B1 (n_model d) ins (in_degree g n) (out_degree g n) tt) as [[] [ss|er]]; cbn [snd res_map]; [|reflexivity].
  destruct (Nat.eqb (get_out_degree g n) 0); [|apply send_mapped; exact Inc]. destruct ss as [|s0 r]; [reflexivity|]. cbn [map]. change (h s0 :: map h r) with (map h (s0 :: r)). change (save (PNode n) (h s0) (hsv sv)) with (hsv (save (PNode n) s0 sv)). apply send_mapped. exact Inc.
Qed.
Lemma propagate_mapped : forall old old', (forall n, incl (get_out_edges g n) (g_edges g)) ->
  propagate B2 g (h src) tt old' = (tt, hsv (snd (fst (propagate B1 g src tt old))), snd (propagate B1 g src tt old)).
Proof.
  intros old old' Inc. unfold propagate. destruct (topological_sort g) as [o|]; [|reflexivity]. unfold propagate_along. change (@nil (place * S2)) with (hsv []). generalize (@nil (place * S1)) as sv. induction o as [|n o IH]; intros sv; [reflexivity|]. cbn [visit_all].
  rewrite (visit_mapped n sv (Inc n)). destruct (visit B1 g src n tt sv) as [[[] sv'] [u|er]]; cbn [fst snd]; [|reflexivity]. apply IH.
Qed.
End Mapped.

Lemma noisy_nil : forall p y, noisy p [] y = Ok y.
Proof.
  intros p y. unfold noisy. cbn [add_sources bind fst snd]. rewrite broadcast_same by (rewrite map_length; reflexivity). f_equal. induction y as [|a y IH]; [reflexivity|]. cbn [map combine fst snd]. rewrite IH. f_equal. ring.
Qed.
Lemma silent_component : forall c ps p dr x, ~ has_noise c -> allowed c ps -> noisy_component c ps p dr (Some x) = res_map Some (component c ps p x).
Proof.
  intros c ps p dr x Hc Al. assert (G : noise_settings c ps p x = Ok (Some []) -> (do y <- component c ps p x; with_noise c ps p dr x y) = res_map Some (component c ps p x)).
  { intros H. destruct (component c ps p x) as [y|]; cbn [bind res_map]; [|reflexivity]. unfold with_noise. rewrite H. cbn [bind vectors_of all_some]. rewrite noisy_nil. reflexivity. }
  unfold has_noise in Hc. destruct c; try (exfalso; apply Hc; tauto); try exact (G eq_refl). clear G.
  cbn [noisy_component component plain]. entry Al 0%nat q E R0. entry Al 1%nat q1 E1 R1. entry Al 2%nat q2 E2 R2. locked Al 3%nat E3. rewrite R0, R1, R2. cbn [bind]. unfold real_at at 1, at_. rewrite E3. unfold dec. cbn [of_option as_number bind].
  unfold vector_of, noise_vector. cbn [bind]. match goal with |- context [Req_EM_T ?a 0] => destruct (Req_EM_T a 0) as [_|N] end.
  - cbn [bind plain]. rewrite map_repeat. change (re C0) with 0. destruct (phase_modulator _ _ _ _ p x); reflexivity.
  - exfalso. apply N. apply zero_Q2R. reflexivity.
Qed.
Lemma silent_run : forall st p draws g src old old', wf g -> furnished g st -> (forall e, In e (g_edges g) -> ~ has_noise (ccls (e_model (e_dat e)))) ->
  simulate_noisy st p draws g src old' = (hsv Some (fst (simulate st p g src old)), snd (simulate st p g src old)).
Proof.
  intros st p draws g src old old' W Fu Sil. unfold simulate_noisy, simulate.
  rewrite (propagate_mapped (optics st p) (noisy_optics st p draws) Some g src) with (old := old).
  - destruct (propagate (optics st p) g src tt old) as [[[] sv] r]. reflexivity.
  - intros n d ss i o _. cbn [node_act noisy_optics optics snd]. destruct (get_params st (cid (n_model d))) as [ps|]; cbn [bind res_map]; [|reflexivity]. unfold noisy_connector.
    assert (Em : map (plain p) (map Some ss) = ss) by (rewrite map_map; cbn [plain]; apply map_id). match goal with |- context [map (plain p) ?l] => replace (map (plain p) l) with ss by (symmetry; exact Em) end. destruct (connector (ccls (n_model d)) ps p ss i o) as [outs|] eqn:Ec; cbn [bind res_map]; [|reflexivity].
    match goal with |- context [all_some ?l] => replace (all_some l) with (Some ss) by (symmetry; exact (all_some_map ss)) end. destruct (ccls (n_model d)); try reflexivity; cbn [connector] in Ec; injection Ec as <-; reflexivity.
  - intros e s He. cbn [edge_act noisy_optics optics snd]. destruct (proj1 Fu e He) as (o & ps & H & Al). rewrite (has_params _ _ _ _ H). cbn [bind]. rewrite silent_component by (try assumption; apply Sil; exact He). reflexivity.
  - intros n e He. unfold get_out_edges in He. apply filter_In in He as [He _]. apply (In_edges_view g e W). exact He.
Qed.
