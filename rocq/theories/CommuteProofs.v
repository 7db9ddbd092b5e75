(** Proofs of C97. *)
From Coq Require Import Reals Qreals List Permutation Arith Bool Lia Lra ZArith QArith.
From Verif Require Import Base GraphModel ParamsModel Complex ArrayModel FourierProofs ComponentModel ComponentSpec MoreComponentsModel FilterProofs ComponentProofs LinearProofs OpticsModel DetectorModel DetectorProofs CommuteSpec.
Import ListNotations.
Local Open Scope nat_scope.
Local Open Scope R_scope.

Section Grid.
Variable p : grid.
Hypothesis U : usable (n_samples p) (window_t p).
Notation N := (n_samples p).
Notation times k x := (map (Cmul k) x).

Definition fails (F : list C -> res (list C)) : Prop := forall x, length x = N -> exists e, F x = Err e.
Definition spectral (F : list C -> res (list C)) : Prop :=
  fails F \/ exists m k, length m = N /\ forall x, length x = N -> F x = do s <- filter_spectrum p m x; Ok (times k s).
Definition temporal (F : list C -> res (list C)) : Prop :=
  fails F \/ exists m, length m = N /\ forall x, length x = N -> F x = Ok (zipmul m x).

Lemma dt_nz : grid_dt p <> 0.
Proof. apply grid_dt_nz. exact U. Qed.
Lemma N2 : (2 <= N)%nat.
Proof. exact (proj1 U). Qed.

Lemma filter_len : forall m x, length m = N -> length x = N -> exists s, filter_spectrum p m x = Ok s /\ length s = N.
Proof. intros m x Lm Lx. pose proof N2. destruct (filter_ok p m x dt_nz ltac:(lia) ltac:(lia)) as (y & s & _ & _ & E & _ & L). exists s. split; [exact E|lia]. Qed.

Lemma filter_times : forall m x k s, filter_spectrum p m x = Ok s -> filter_spectrum p m (times k x) = Ok (times k s).
Proof.
  intros m x k s E. assert (M : mixes k C0 x x (times k x)).
  { split; [rewrite map_length; reflexivity|]. split; [rewrite map_length; reflexivity|]. intros i. rewrite (map_nth_d (Cmul k) _ i C0 C0) by ring. ring. }
  destruct (linear_filter p m k C0 x x (times k x) s s M E E) as (w & -> & (L1 & _ & H)). f_equal. apply (list_eq_nth C0); [rewrite map_length; lia|]. intros i _. rewrite H, (map_nth_d (Cmul k) _ i C0 C0) by ring. ring.
Qed.

Lemma zipmul_comm : forall a b, length a = length b -> zipmul a b = zipmul b a.
Proof.
  intros a b L. apply (list_eq_nth C0); [rewrite !zipmul_length by lia; lia|]. intros i _. rewrite !zipmul_nth by lia. ring.
Qed.

Lemma spectral_commute : forall F G, spectral F -> spectral G -> forall x y, length x = N -> (then_ F G x = Ok y <-> then_ G F x = Ok y).
Proof.
  assert (H : forall F G, spectral F -> spectral G -> forall x y, length x = N -> then_ F G x = Ok y -> then_ G F x = Ok y).
  { intros F G SF SG x y L E. pose proof N2 as H2. destruct SF as [SF|(m & k & Lm & SF)].
    - exfalso. unfold then_ in E. destruct (SF x L) as (e & Ee). rewrite Ee in E. discriminate.
    - destruct SG as [SG|(m' & k' & Lm' & SG)].
      + exfalso. unfold then_ in E. rewrite (SF x L) in E. destruct (filter_len m x Lm L) as (s & Es & Ls). rewrite Es in E. cbn [bind] in E. destruct (SG (times k s)) as (e & Ee); [rewrite map_length; exact Ls|]. rewrite Ee in E. discriminate.
      + unfold then_ in *. rewrite (SF x L) in E. rewrite (SG x L). destruct (filter_len m x Lm L) as (s & Es & Ls). destruct (filter_len m' x Lm' L) as (s' & Es' & Ls'). rewrite Es in E. rewrite Es'. cbn [bind] in *.
        rewrite SG in E by (rewrite map_length; exact Ls). rewrite SF by (rewrite map_length; exact Ls').
        destruct (filter_len m' s Lm' Ls) as (t & Et & Lt). destruct (filter_len m s' Lm Ls') as (t' & Et' & Lt').
        rewrite (filter_times m' s k t Et) in E. rewrite (filter_times m s' k' t' Et'). cbn [bind] in *.
        assert (t' = t).
        { pose proof (filter_compose p m m' x dt_nz ltac:(lia) ltac:(lia) ltac:(lia)) as C1. pose proof (filter_compose p m' m x dt_nz ltac:(lia) ltac:(lia) ltac:(lia)) as C2.
          rewrite Es in C1. rewrite Es' in C2. cbn [bind] in C1, C2. rewrite (zipmul_comm m' m) in C1 by lia. rewrite Et in C1. rewrite Et' in C2. congruence. }
        subst t'. rewrite <- E. f_equal. rewrite !map_map. apply map_ext. intros z. ring. }
  intros F G SF SG x y L. split; apply H; assumption.
Qed.

Lemma temporal_commute : forall F G, temporal F -> temporal G -> forall x y, length x = N -> (then_ F G x = Ok y <-> then_ G F x = Ok y).
Proof.
  assert (H : forall F G, temporal F -> temporal G -> forall x y, length x = N -> then_ F G x = Ok y -> then_ G F x = Ok y).
  { intros F G SF SG x y L E. unfold then_ in *. destruct SF as [SF|(m & Lm & SF)].
    - exfalso. destruct (SF x L) as (e & Ee). rewrite Ee in E. discriminate.
    - rewrite (SF x L) in E. assert (Lz : length (zipmul m x) = N) by (rewrite zipmul_length; lia). destruct SG as [SG|(m' & Lm' & SG)].
      + exfalso. destruct (SG _ Lz) as (e & Ee). rewrite Ee in E. discriminate.
      + rewrite (SG _ Lz) in E. rewrite (SG x L). assert (Lz' : length (zipmul m' x) = N) by (rewrite zipmul_length; lia). rewrite (SF _ Lz'). rewrite <- E. f_equal.
        apply (list_eq_nth C0); [rewrite !zipmul_length by lia; lia|]. intros i _. rewrite !zipmul_nth by lia. ring. }
  intros F G SF SG x y L. split; apply H; assumption.
Qed.

(** ** The components *)
Lemma times_1 : forall x, x = times C1 x.
Proof. induction x as [|z x IH]; [reflexivity|]. cbn [map]. rewrite <- IH. f_equal. ring. Qed.
Lemma spectral_ext : forall F G, (forall x, length x = N -> F x = G x) -> spectral G -> spectral F.
Proof.
  intros F G E [H|(m & k & L & H)]; [left; intros x Lx; rewrite (E x Lx); exact (H x Lx)|right; exists m, k; split; [exact L|]; intros x Lx; rewrite (E x Lx); exact (H x Lx)].
Qed.
Lemma spectral_err : forall e, spectral (fun _ => Err e).
Proof. intros e. left. intros x _. exists e. reflexivity. Qed.
Lemma spectral_bind : forall {A} (r : res A) G, (forall a, r = Ok a -> spectral (G a)) -> spectral (fun x => bind r (fun a => G a x)).
Proof. intros A [a|e] G H; cbn [bind]; [apply H; reflexivity|apply spectral_err]. Qed.
Lemma spectral_filter : forall m c, spectral (fun x => do s <- filter_spectrum p m x; Ok (scale c s)).
Proof.
  intros m c. pose proof N2 as H2. destruct (Nat.eq_dec (length m) N) as [E|E]; [right; exists m, (RtoC c); split; [exact E|reflexivity]|].
  assert (Fx : forall x, length x = N -> exists s, fft_ x (grid_dt p) = Ok s /\ length s = N).
  { intros x L. destruct (fft_total x ltac:(lia)) as (y & F). destruct (fft_ok _ _ F) as (Ly & _). unfold fft_. rewrite F. cbn [bind]. eexists. split; [reflexivity|]. rewrite scale_length. lia. }
  destruct m as [|v [|v' m]].
  - left. intros x L. destruct (Fx x L) as (s & Es & Ls). unfold filter_spectrum. rewrite Es. cbn [bind]. destruct s as [|a [|b s]]; cbn [length] in Ls; try lia. cbn. eexists. reflexivity.
  - right. exists (repeat v N), (RtoC c). split; [apply repeat_length|]. intros x L. fold (scale c). f_equal. unfold filter_spectrum. destruct (Fx x L) as (s & -> & Ls). cbn [bind]. f_equal.
    unfold broadcast. rewrite repeat_length, Ls, Nat.eqb_refl. destruct (Nat.eqb_spec (length [v]) N) as [Q|_]; [contradiction|]. f_equal. rewrite <- Ls. clear. induction s as [|a s IH]; [reflexivity|]. cbn [length repeat combine map fst snd]. f_equal. exact IH.
  - left. intros x L. destruct (Fx x L) as (s & Es & Ls). unfold filter_spectrum. rewrite Es. cbn [bind]. unfold broadcast. rewrite Ls. destruct (Nat.eqb_spec (length (v :: v' :: m)) N) as [Q|_]; [contradiction|].
    destruct s as [|a [|b s]]; cbn [length] in Ls; try lia. eexists. reflexivity.
Qed.

Lemma filter_ones : forall x, length x = N -> filter_spectrum p (repeat C1 N) x = Ok x.
Proof.
  intros x L. pose proof N2. destruct (filter_ok p (repeat C1 N) x dt_nz ltac:(lia)) as (y & out & F & Ly & E & I & Lo); [rewrite repeat_length; lia|]. rewrite E. f_equal.
  assert (Z : zipmul (repeat C1 N) y = y).
  { apply (list_eq_nth C0); [apply zipmul_length; rewrite repeat_length; lia|]. intros k Hk. rewrite zipmul_length in Hk by (rewrite repeat_length; lia). rewrite zipmul_nth by (rewrite repeat_length; lia). rewrite nth_repeat_lt by lia. ring. }
  rewrite Z in I. exact (ifft_fft _ _ _ F I).
Qed.
Lemma spectral_times : forall k, spectral (fun x => Ok (times k x)).
Proof. intros k. right. exists (repeat C1 N), k. split; [apply repeat_length|]. intros x L. rewrite (filter_ones x L). reflexivity. Qed.

Lemma component_spectral : forall c ps, by_frequency c -> spectral (component c ps p).
Proof.
  assert (Dl : forall d, spectral (delay_line d p)) by (intros d; unfold delay_line; apply spectral_filter).
  intros c ps H. unfold by_frequency in H. cbn [In] in H.
  destruct H as [<-|[<-|[<-|[<-|[<-|[<-|[<-|[<-|[<-|[]]]]]]]]]]; cbn [component].
  - apply spectral_bind. intros l _. apply spectral_filter.
  - apply spectral_bind. intros d _. apply Dl.
  - apply spectral_bind. intros d _. apply Dl.
  - apply spectral_bind. intros a _. apply (spectral_ext _ (fun x => Ok (times (cis a) x))); [|apply spectral_times]. intros x L. apply phase_shifter_exact; assumption.
  - apply spectral_bind. intros w _. unfold square_filter. destruct (Req_EM_T w 0); [apply spectral_err|apply spectral_filter].
  - apply spectral_bind. intros am _. apply (spectral_bind (reals (skipn 15 ps))). intros ph _. unfold wave_shaper. apply spectral_bind. intros m _. apply spectral_filter.
  - apply spectral_bind. intros am _. apply (spectral_bind (reals (skipn 10 ps))). intros ph _. unfold programmable_filter. apply spectral_bind. intros a1 _. apply (spectral_bind (broadcast Rmult _ _)). intros a2 _. apply (spectral_bind (broadcast _ a1 a2)). intros m _. apply spectral_filter.
  - apply spectral_bind. intros a _. unfold attenuator, scale. apply spectral_times.
  - apply (spectral_ext _ (fun x => Ok (times C1 x))); [|apply spectral_times]. intros x _. change (Ok x = Ok (times C1 x)). f_equal. apply times_1.
Qed.

Lemma temporal_err : forall e, temporal (fun _ => Err e).
Proof. intros e. left. intros x _. exists e. reflexivity. Qed.
Lemma temporal_bind : forall {A} (r : res A) G, (forall a, r = Ok a -> temporal (G a)) -> temporal (fun x => bind r (fun a => G a x)).
Proof. intros A [a|e] G H; cbn [bind]; [apply H; reflexivity|apply temporal_err]. Qed.
Lemma temporal_times : forall k, temporal (fun x => Ok (times k x)).
Proof.
  intros k. right. exists (repeat k N). split; [apply repeat_length|]. intros x L. f_equal. apply (list_eq_nth C0); [rewrite map_length, zipmul_length; [reflexivity|rewrite repeat_length; lia]|]. intros i Hi. rewrite map_length in Hi.
  rewrite zipmul_nth by (rewrite repeat_length; lia). rewrite nth_repeat_lt by lia. apply (map_nth_d (Cmul k) _ i C0 C0). ring.
Qed.

Lemma component_temporal : forall c ps, by_time c -> temporal (component c ps p).
Proof.
  intros c ps H. unfold by_time in H. cbn [In] in H. destruct H as [<-|[<-|[<-|[<-|[]]]]]; cbn [component].
  - apply temporal_bind. intros depth _. apply (temporal_bind (real_at ps 1)). intros fr _. apply (temporal_bind (real_at ps 2)). intros sh _. unfold phase_modulator.
    destruct (broadcast_noise (fun t n => 2 * PI * fr * t + sh + n) (grid_t p) (repeat 0 N)) as (an & Ea & La); [left; rewrite repeat_length, grid_t_length; reflexivity|]. rewrite Ea. cbn [bind]. rewrite grid_t_length in La.
    right. exists (map cis (map (fun a => depth * cos a) an)). split; [rewrite !map_length; exact La|]. intros x L. rewrite broadcast_same by (rewrite !map_length; lia). cbn [bind]. rewrite ratio_m0, scale_1. f_equal. fold (zipmul x (map cis (map (fun a => depth * cos a) an))). apply zipmul_comm. rewrite !map_length. lia.
  - apply temporal_bind. intros depth _. apply (temporal_bind (real_at ps 1)). intros fr _. apply (temporal_bind (real_at ps 2)). intros bias _. unfold intensity_modulator.
    set (m := map cis (map (fun t => depth * cos (2 * PI * fr * t) + bias) (grid_t p))). assert (Lm : length m = N) by (unfold m; rewrite !map_length, grid_t_length; reflexivity).
    right. exists (map (fun z => Cmul (RtoC (dB_to_amplitude_ratio (-4))) (Cmul (RtoC (/ 2)) (Cadd C1 z))) m). split; [rewrite map_length; exact Lm|]. intros x L.
    rewrite broadcast_same by (rewrite scale_length; lia). cbn [bind]. fold (zipmul (scale (/ 2) x) m). assert (Lz : length (zipmul (scale (/ 2) x) m) = N) by (rewrite zipmul_length; [exact Lm|rewrite scale_length; lia]).
    rewrite broadcast_same by (rewrite scale_length; lia). cbn [bind]. f_equal. apply (list_eq_nth C0); [rewrite scale_length, map_length, combine_length, scale_length, Lz; rewrite zipmul_length by (rewrite map_length; lia); lia|]. intros i Hi.
    rewrite scale_length, map_length, combine_length, scale_length in Hi. assert (Hi' : (i < N)%nat) by lia. rewrite scale_nth. rewrite (zip_at Cadd (scale (/ 2) x) (zipmul (scale (/ 2) x) m) i C0 C0) by (rewrite ?scale_length; lia). rewrite zipmul_nth by (rewrite scale_length; lia). rewrite scale_nth. rewrite zipmul_nth by (rewrite map_length; lia).
    rewrite (nth_indep (map (fun z => Cmul (RtoC (dB_to_amplitude_ratio (-4))) (Cmul (RtoC (/ 2)) (Cadd C1 z))) m) C0 ((fun z => Cmul (RtoC (dB_to_amplitude_ratio (-4))) (Cmul (RtoC (/ 2)) (Cadd C1 z))) C0)) by (rewrite map_length; lia). rewrite (map_nth (fun z => Cmul (RtoC (dB_to_amplitude_ratio (-4))) (Cmul (RtoC (/ 2)) (Cadd C1 z)))). ring.
  - apply temporal_bind. intros a _. unfold attenuator, scale. apply temporal_times.
  - destruct (temporal_times C1) as [H|(m & Lm & H)]; [left|right].
    + intros x L. destruct (H x L) as (e & E). discriminate.
    + exists m. split; [exact Lm|]. intros x L. rewrite <- (H x L). change (Ok x = Ok (times C1 x)). f_equal. apply times_1.
Qed.
Lemma spectral_length : forall F, spectral F -> forall x y, length x = N -> F x = Ok y -> length y = N.
Proof.
  intros F [H|(m & k & Lm & H)] x y L E; [destruct (H x L) as (e & Ee); congruence|]. rewrite (H x L) in E. destruct (filter_len m x Lm L) as (s & Es & Ls). rewrite Es in E. cbn [bind] in E. injection E as <-. rewrite map_length. exact Ls.
Qed.
Lemma temporal_length : forall F, temporal F -> forall x y, length x = N -> F x = Ok y -> length y = N.
Proof. intros F [H|(m & Lm & H)] x y L E; [destruct (H x L) as (e & Ee); congruence|]. rewrite (H x L) in E. injection E as <-. rewrite zipmul_length; lia. Qed.
End Grid.

(** ** Lines *)
Lemma then_ok : forall {A} (f g : A -> res A) x y, then_ f g x = Ok y <-> exists s, f x = Ok s /\ g s = Ok y.
Proof. intros A f g x y. unfold then_. destruct (f x) as [s|e]; split; [intros H; exists s; auto|intros (s' & E & H); congruence|discriminate|intros (s' & E & H); discriminate]. Qed.
Lemma chain_permuted : forall {A} (P : A -> Prop) fs fs', (forall f, In f fs -> forall x y, P x -> f x = Ok y -> P y) -> Permutation fs fs' ->
  (forall f g, In f fs -> In g fs -> forall x y, P x -> (then_ f g x = Ok y <-> then_ g f x = Ok y)) ->
  forall x y, P x -> (chain fs x = Ok y <-> chain fs' x = Ok y).
Proof.
  intros A P fs fs' K Hp. revert K. induction Hp as [|f l l' Hp IH|f g l|l l' l'' H1 IH1 H2 IH2]; intros K C x y Px.
  - reflexivity.
  - cbn [chain]. rewrite !then_ok. assert (H : forall s, P s -> (chain l s = Ok y <-> chain l' s = Ok y)) by (intros s Ps; apply IH; [intros h Hh; apply K; right; exact Hh|intros h h' Hh Hh'; apply C; right; assumption|exact Ps]).
    split; intros (s & E & R); exists s; (split; [exact E|]); apply (H s (K f (or_introl eq_refl) x s Px E)); exact R.
  - cbn [chain]. assert (H : forall a b z, then_ a (then_ b (chain l)) z = Ok y <-> exists t, then_ a b z = Ok t /\ chain l t = Ok y).
    { intros a b z. rewrite then_ok. split; [intros (s & E & R); apply then_ok in R; destruct R as (t & E' & R); exists t; split; [apply then_ok; exists s; auto|exact R]|]. intros (t & E & R). apply then_ok in E. destruct E as (s & E & E'). exists s. split; [exact E|]. apply then_ok. exists t. auto. }
    rewrite (H g f x), (H f g x). assert (W : forall t, then_ g f x = Ok t <-> then_ f g x = Ok t) by (intros t; apply C; [left; reflexivity|right; left; reflexivity|exact Px]).
    split; intros (t & E & R); exists t; (split; [apply W; exact E|exact R]).
  - rewrite (IH1 K C x y Px). apply IH2; [intros h Hh; apply K; apply (Permutation_in _ (Permutation_sym H1)); exact Hh| |exact Px].
    intros h h' Hh Hh'. apply C; apply (Permutation_in _ (Permutation_sym H1)); assumption.
Qed.
