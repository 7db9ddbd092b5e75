(** Superposition: which components turn a mixture of two fields into the same
    mixture of what they make of them. *)
From Coq Require Import Reals List Arith ZArith Lia Lra Bool.
From Verif Require Import Base GraphModel ParamsModel Complex ArrayModel FourierProofs ComponentModel ComponentSpec DetectorModel MoreComponentsModel FilterProofs OpticsModel.
Import ListNotations.
Local Open Scope R_scope.

(* z = a x + b y *)
Definition mixes (a b : C) (x y z : list C) : Prop :=
  length x = length z /\ length y = length z /\ forall i, nth i z C0 = Cadd (Cmul a (nth i x C0)) (Cmul b (nth i y C0)).
Definition mixes2 (a b : C) (x y z : list C * list C) : Prop := mixes a b (fst x) (fst y) (fst z) /\ mixes a b (snd x) (snd y) (snd z).
Definition mixesL (a b : C) (x y z : list (list C)) : Prop :=
  length x = length z /\ length y = length z /\ forall i, mixes a b (nth i x []) (nth i y []) (nth i z []).

Definition sup {A B} (MA : C -> C -> A -> A -> A -> Prop) (MB : C -> C -> B -> B -> B -> Prop) (F : A -> res B) : Prop :=
  forall a b x y z u v, MA a b x y z -> F x = Ok u -> F y = Ok v -> exists w, F z = Ok w /\ MB a b u v w.
Notation linear := (sup mixes mixes).

Lemma sup_bind : forall {A B D} (MA : C -> C -> A -> A -> A -> Prop) (MB : C -> C -> B -> B -> B -> Prop) (MD : C -> C -> D -> D -> D -> Prop) F G,
  sup MA MB F -> sup MB MD G -> sup MA MD (fun x => bind (F x) G).
Proof.
  intros A B D MA MB MD F G HF HG a b x y z u v M E1 E2. cbn beta in *. destruct (F x) as [fx|] eqn:Fx; [|discriminate]. destruct (F y) as [fy|] eqn:Fy; [|discriminate]. cbn [bind] in *.
  destruct (HF a b x y z fx fy M Fx Fy) as (fz & Fz & Mz). rewrite Fz. cbn [bind]. exact (HG a b fx fy fz u v Mz E1 E2).
Qed.
Lemma sup_const : forall {A B D} (MA : C -> C -> A -> A -> A -> Prop) (MD : C -> C -> D -> D -> D -> Prop) (r : res B) (G : B -> A -> res D),
  (forall m, r = Ok m -> sup MA MD (G m)) -> sup MA MD (fun x => bind r (fun m => G m x)).
Proof. intros A B D MA MD r G H. destruct r as [m|e]; cbn [bind]; [exact (H m eq_refl)|]. intros a b x y z u v _ E. discriminate. Qed.
Lemma sup_ext : forall {A B} (MA : C -> C -> A -> A -> A -> Prop) (MB : C -> C -> B -> B -> B -> Prop) F G, (forall x, F x = G x) -> sup MA MB F -> sup MA MB G.
Proof. intros A B MA MB F G E H a b x y z u v M E1 E2. rewrite <- E in E1, E2. destruct (H a b x y z u v M E1 E2) as (w & Ew & Mw). exists w. rewrite <- E. auto. Qed.
Lemma sup_ok : forall {A B} (MA : C -> C -> A -> A -> A -> Prop) (MB : C -> C -> B -> B -> B -> Prop) (f : A -> B),
  (forall a b x y z, MA a b x y z -> MB a b (f x) (f y) (f z)) -> sup MA MB (fun x => Ok (f x)).
Proof. intros A B MA MB f H a b x y z u v M E1 E2. injection E1 as <-. injection E2 as <-. exists (f z). auto. Qed.
Lemma sup_err : forall {A B} (MA : C -> C -> A -> A -> A -> Prop) (MB : C -> C -> B -> B -> B -> Prop) e, sup MA MB (fun _ => Err e).
Proof. intros A B MA MB e a b x y z u v _ E. discriminate. Qed.

Lemma mixes_map : forall c a b x y z, mixes a b x y z -> mixes a b (map (Cmul c) x) (map (Cmul c) y) (map (Cmul c) z).
Proof.
  intros c a b x y z (L1 & L2 & H). unfold mixes. rewrite !map_length. split; [exact L1|]. split; [exact L2|]. intros i.
  rewrite !(map_nth_d (Cmul c) _ i C0 C0) by ring. rewrite H. ring.
Qed.
Lemma mixes_scale : forall c a b x y z, mixes a b x y z -> mixes a b (scale c x) (scale c y) (scale c z).
Proof. intros. apply mixes_map. assumption. Qed.
Lemma mixes_nth_lt : forall a b x y z, length x = length z -> length y = length z -> (forall i, (i < length z)%nat -> nth i z C0 = Cadd (Cmul a (nth i x C0)) (Cmul b (nth i y C0))) -> mixes a b x y z.
Proof.
  intros a b x y z L1 L2 H. split; [exact L1|]. split; [exact L2|]. intros i. destruct (Nat.lt_ge_cases i (length z)) as [Hi|Hi]; [exact (H i Hi)|]. rewrite !nth_overflow by lia. ring.
Qed.
Lemma mixes_tabulate : forall n a b f g h, (forall i, (i < n)%nat -> h i = Cadd (Cmul a (f i)) (Cmul b (g i))) -> mixes a b (tabulate n f) (tabulate n g) (tabulate n h).
Proof. intros n a b f g h H. apply mixes_nth_lt; rewrite ?tabulate_length; try reflexivity. intros i Hi. rewrite !tabulate_nth by exact Hi. exact (H i Hi). Qed.
Lemma csum_mix : forall n a b f g h, (forall i, (i < n)%nat -> h i = Cadd (Cmul a (f i)) (Cmul b (g i))) -> csum n h = Cadd (Cmul a (csum n f)) (Cmul b (csum n g)).
Proof. induction n as [|n IH]; intros a b f g h H; cbn [csum]; [ring|]. rewrite (IH a b f g h) by (intros; apply H; lia). rewrite H by lia. ring. Qed.

Lemma linear_fft : linear fft.
Proof.
  intros a b x y z u v (L1 & L2 & H) E1 E2. destruct (fft_ok x u E1) as (A1 & A2 & A3). destruct (fft_ok y v E2) as (B1 & B2 & B3). destruct (fft_total z) as (w & Ew); [lia|]. destruct (fft_ok z w Ew) as (D1 & D2 & D3).
  exists w. split; [exact Ew|]. apply mixes_nth_lt; [lia|lia|]. intros i Hi. rewrite A3, B3, D3 by lia. rewrite L1, L2. apply csum_mix. intros j _. rewrite H. ring.
Qed.
Lemma linear_ifft : linear ifft.
Proof.
  intros a b x y z u v (L1 & L2 & H) E1 E2. destruct (ifft_ok x u E1) as (A1 & A2 & A3). destruct (ifft_ok y v E2) as (B1 & B2 & B3). destruct (ifft_total z) as (w & Ew); [lia|]. destruct (ifft_ok z w Ew) as (D1 & D2 & D3).
  exists w. split; [exact Ew|]. apply mixes_nth_lt; [lia|lia|]. intros i Hi. rewrite A3, B3, D3 by lia. rewrite L1, L2.
  rewrite (csum_mix (length z) a b (fun k => Cmul (nth k x C0) (cis (2 * PI * INR i * INR k / INR (length z)))) (fun k => Cmul (nth k y C0) (cis (2 * PI * INR i * INR k / INR (length z)))) (fun k => Cmul (nth k z C0) (cis (2 * PI * INR i * INR k / INR (length z))))) by (intros j _; rewrite H; ring). ring.
Qed.
Lemma linear_scale : forall c, linear (fun x => Ok (scale c x)).
Proof. intros c. apply sup_ok. apply mixes_scale. Qed.
Lemma linear_fft_ : forall dt, linear (fun x => fft_ x dt).
Proof. intros dt. unfold fft_. apply (sup_bind mixes mixes mixes); [exact linear_fft|apply linear_scale]. Qed.
Lemma linear_ifft_ : forall dt, linear (fun x => ifft_ x dt).
Proof. intros dt. unfold ifft_. apply (sup_bind mixes mixes mixes); [exact linear_ifft|apply linear_scale]. Qed.

Lemma one_element : forall (x : list C), length x = 1%nat -> exists c, x = [c].
Proof. intros [|c [|]] H; try discriminate. exists c. reflexivity. Qed.
Lemma zip_at : forall {A B} (f : A -> B -> C) (m : list A) (x : list B) i da db, length m = length x -> (i < length x)%nat -> nth i (map (fun p => f (fst p) (snd p)) (combine m x)) C0 = f (nth i m da) (nth i x db).
Proof.
  intros A B f m x i da db L Hi. rewrite (nth_indep _ C0 (f da db)) by (rewrite map_length, combine_length; lia). rewrite (map_nth (fun p => f (fst p) (snd p)) _ (da, db)). rewrite combine_nth by exact L. reflexivity.
Qed.
(* an array times a field, entry by entry, in any of the ways numpy allows *)
Lemma broadcast_cases : forall {A B D} (f : A -> B -> D) m x r, broadcast f m x = Ok r ->
  (length m = length x /\ r = map (fun p => f (fst p) (snd p)) (combine m x)) \/
  (length m <> length x /\ exists c, m = [c] /\ r = map (f c) x) \/
  (length m <> length x /\ length m <> 1%nat /\ exists c, x = [c] /\ r = map (fun a => f a c) m).
Proof.
  intros A B D f m x r H. unfold broadcast in H. destruct (Nat.eqb_spec (length m) (length x)) as [L|L]; [left; split; [exact L|congruence]|]. right.
  destruct m as [|c [|c' m]].
  - destruct x as [|x0 [|]]; try discriminate. right. split; [exact L|]. split; [discriminate|]. exists x0. split; [reflexivity|]. injection H as <-. reflexivity.
  - left. split; [exact L|]. exists c. split; [reflexivity|]. destruct x as [|x0 [|]]; injection H as <-; reflexivity.
  - destruct x as [|x0 [|]]; try discriminate. right. split; [exact L|]. split; [discriminate|]. exists x0. split; [reflexivity|]. injection H as <-. reflexivity.
Qed.
Lemma broadcast_total : forall {A B D} (f : A -> B -> D) m x, length m = length x \/ length m = 1%nat \/ length x = 1%nat -> exists r, broadcast f m x = Ok r.
Proof.
  intros A B D f m x H. unfold broadcast. destruct (Nat.eqb_spec (length m) (length x)) as [L|L]; [eexists; reflexivity|].
  destruct m as [|c [|c' m]], x as [|x0 [|x1 x]]; cbn [length] in *; try (eexists; reflexivity); destruct H as [H|[H|H]]; lia || congruence.
Qed.
Lemma linear_mask : forall m, linear (fun x => broadcast Cmul m x).
Proof.
  intros m a b x y z u v (L1 & L2 & H) E1 E2.
  assert (T : length m = length z \/ length m = 1%nat \/ length z = 1%nat).
  { apply broadcast_cases in E1 as [(L & _)|[(_ & c & -> & _)|(_ & _ & c & -> & _)]]; [left; lia|right; left; reflexivity|right; right; rewrite <- L1; reflexivity]. }
  destruct (broadcast_total Cmul m z T) as (w & Ew). exists w. split; [exact Ew|].
  apply broadcast_cases in Ew as [(L & ->)|[(L & c & -> & ->)|(L & Lm & c & -> & ->)]].
  - apply broadcast_cases in E1 as [(_ & ->)|[(L' & _)|(L' & _)]]; [|lia|lia]. apply broadcast_cases in E2 as [(_ & ->)|[(L' & _)|(L' & _)]]; [|lia|lia].
    apply mixes_nth_lt; rewrite ?map_length, ?combine_length; try lia. intros i Hi. rewrite !(zip_at Cmul _ _ i C0 C0) by lia. rewrite H. ring.
  - apply broadcast_cases in E1 as [(L' & _)|[(_ & c' & Ec & ->)|(_ & Lm' & _)]]; [cbn [length] in *; lia| |cbn [length] in *; congruence]. injection Ec as <-.
    apply broadcast_cases in E2 as [(L' & _)|[(_ & c' & Ec & ->)|(_ & Lm' & _)]]; [cbn [length] in *; lia| |cbn [length] in *; congruence]. injection Ec as <-.
    apply mixes_map. split; [exact L1|]. split; [exact L2|exact H].
  - cbn [length] in *. destruct (one_element x L1) as (cx & ->). destruct (one_element y L2) as (cy & ->). pose proof (H 0%nat) as H0. cbn [nth] in H0.
    apply broadcast_cases in E1 as [(L' & _)|[(_ & c' & -> & _)|(_ & _ & c' & Ec & ->)]]; [cbn [length] in *; congruence|cbn [length] in *; congruence|]. injection Ec as <-.
    apply broadcast_cases in E2 as [(L' & _)|[(_ & c' & -> & _)|(_ & _ & c' & Ec & ->)]]; [cbn [length] in *; congruence|cbn [length] in *; congruence|]. injection Ec as <-.
    apply mixes_nth_lt; rewrite !map_length; try reflexivity. intros i Hi. rewrite !(map_nth_d (fun q => Cmul q _) _ i C0 C0) by ring. rewrite H0. ring.
Qed.
Lemma broadcast_comm : forall (f : C -> C -> C), (forall a b, f a b = f b a) -> forall x m, broadcast f x m = broadcast f m x.
Proof.
  intros f Hf x m. unfold broadcast. rewrite (Nat.eqb_sym (length x)). destruct (Nat.eqb_spec (length m) (length x)) as [L|L].
  - f_equal. revert m L. induction x as [|a x IH]; intros [|b m] L; try reflexivity; try discriminate. cbn [combine map fst snd]. rewrite Hf. f_equal. apply IH. injection L as L; exact L.
  - destruct x as [|a [|a' x]], m as [|b [|b' m]]; cbn [length] in L; try reflexivity; try congruence; f_equal; apply map_ext; intros; apply Hf.
Qed.
Lemma linear_mask' : forall m, linear (fun x => broadcast Cmul x m).
Proof. intros m. apply (sup_ext mixes mixes (fun x => broadcast Cmul m x)); [intros x; apply broadcast_comm; intros; ring|apply linear_mask]. Qed.
(* the sum of two arrays that depend on the field *)
Lemma sup_sum : forall {A} (MA : C -> C -> A -> A -> A -> Prop) F G, sup MA mixes F -> sup MA mixes G -> sup MA mixes (fun x => bind (F x) (fun s => bind (G x) (fun t => broadcast Cadd s t))).
Proof.
  intros A MA F G HF HG a b x y z u v M E1 E2. cbn beta in *.
  destruct (F x) as [fx|] eqn:Fx; [|discriminate]. destruct (F y) as [fy|] eqn:Fy; [|discriminate]. destruct (G x) as [gx|] eqn:Gx; [|discriminate]. destruct (G y) as [gy|] eqn:Gy; [|discriminate]. cbn [bind] in *.
  destruct (HF a b x y z fx fy M Fx Fy) as (fz & Fz & (A1 & A2 & A3)). destruct (HG a b x y z gx gy M Gx Gy) as (gz & Gz & (B1 & B2 & B3)). rewrite Fz, Gz. cbn [bind].
  assert (T : length fz = length gz \/ length fz = 1%nat \/ length gz = 1%nat).
  { apply broadcast_cases in E1 as [(L & _)|[(_ & c & Ec & _)|(_ & _ & c & Ec & _)]]; [left; lia|right; left; rewrite <- A1, Ec; reflexivity|right; right; rewrite <- B1, Ec; reflexivity]. }
  destruct (broadcast_total Cadd fz gz T) as (w & Ew). exists w. split; [exact Ew|].
  apply broadcast_cases in Ew as [(L & ->)|[(L & c & -> & ->)|(L & Lm & c & -> & ->)]].
  - apply broadcast_cases in E1 as [(_ & ->)|[(L' & _)|(L' & _)]]; [|lia|lia]. apply broadcast_cases in E2 as [(_ & ->)|[(L' & _)|(L' & _)]]; [|lia|lia].
    apply mixes_nth_lt; rewrite ?map_length, ?combine_length; try lia. intros i Hi. rewrite !(zip_at Cadd _ _ i C0 C0) by lia. rewrite A3, B3. ring.
  - cbn [length] in *. destruct (one_element fx A1) as (cx & ->). destruct (one_element fy A2) as (cy & ->). pose proof (A3 0%nat) as H0. cbn [nth] in H0.
    apply broadcast_cases in E1 as [(L' & _)|[(_ & c' & Ec & ->)|(_ & Lm' & _)]]; [cbn [length] in *; lia| |cbn [length] in *; congruence]. injection Ec as <-.
    apply broadcast_cases in E2 as [(L' & _)|[(_ & c' & Ec & ->)|(_ & Lm' & _)]]; [cbn [length] in *; lia| |cbn [length] in *; congruence]. injection Ec as <-.
    apply mixes_nth_lt; rewrite ?map_length; try assumption. intros i Hi. rewrite (nth_indep _ C0 (Cadd c C0)), map_nth by (rewrite map_length; lia). rewrite (nth_indep (map (Cadd cx) gx) C0 (Cadd cx C0)), map_nth by (rewrite map_length; lia).
    rewrite (nth_indep (map (Cadd cy) gy) C0 (Cadd cy C0)), map_nth by (rewrite map_length; lia). rewrite B3, H0. ring.
  - cbn [length] in *. destruct (one_element gx B1) as (cx & ->). destruct (one_element gy B2) as (cy & ->). pose proof (B3 0%nat) as H0. cbn [nth] in H0.
    apply broadcast_cases in E1 as [(L' & _)|[(_ & c' & -> & _)|(_ & _ & c' & Ec & ->)]]; [cbn [length] in *; lia|cbn [length] in *; lia|]. injection Ec as <-.
    apply broadcast_cases in E2 as [(L' & _)|[(_ & c' & -> & _)|(_ & _ & c' & Ec & ->)]]; [cbn [length] in *; lia|cbn [length] in *; lia|]. injection Ec as <-.
    apply mixes_nth_lt; rewrite ?map_length; try assumption. intros i Hi.
    assert (N : forall q (l : list C), (i < length l)%nat -> nth i (map (fun a0 => Cadd a0 q) l) C0 = Cadd (nth i l C0) q) by (intros q l Hl; rewrite (nth_indep _ C0 (Cadd C0 q)), (map_nth (fun a0 => Cadd a0 q)) by (rewrite map_length; exact Hl); reflexivity).
    rewrite !N by lia. rewrite A3, H0. ring.
Qed.

Lemma linear_filter : forall p mask, linear (filter_spectrum p mask).
Proof.
  intros p mask. unfold filter_spectrum. apply (sup_bind mixes mixes mixes (fun x => fft_ x (grid_dt p)) (fun spectrum => bind (broadcast Cmul mask spectrum) (fun product => ifft_ product (grid_dt p)))); [apply linear_fft_|].
  apply (sup_bind mixes mixes mixes (fun x => broadcast Cmul mask x)); [apply linear_mask|apply linear_ifft_].
Qed.
Lemma linear_filtered : forall p mask c, linear (fun x => bind (filter_spectrum p mask x) (fun s => Ok (scale c s))).
Proof. intros p mask c. apply (sup_bind mixes mixes mixes); [apply linear_filter|apply linear_scale]. Qed.

(** ** The components *)
Lemma sup_pair : forall {A} (MA : C -> C -> A -> A -> A -> Prop) F G, sup MA mixes F -> sup MA mixes G -> sup MA mixes2 (fun x => bind (F x) (fun s => bind (G x) (fun t => Ok (s, t)))).
Proof.
  intros A MA F G HF HG a b x y z u v M E1 E2. cbn beta in *.
  destruct (F x) as [fx|] eqn:Fx; [|discriminate]. destruct (F y) as [fy|] eqn:Fy; [|discriminate]. destruct (G x) as [gx|] eqn:Gx; [|discriminate]. destruct (G y) as [gy|] eqn:Gy; [|discriminate]. cbn [bind] in *.
  destruct (HF a b x y z fx fy M Fx Fy) as (fz & Fz & Mf). destruct (HG a b x y z gx gy M Gx Gy) as (gz & Gz & Mg). rewrite Fz, Gz. cbn [bind]. injection E1 as <-. injection E2 as <-.
  eexists. split; [reflexivity|]. split; assumption.
Qed.
Lemma linear_stage : forall p r d, sup mixes2 mixes2 (split_stage p r d).
Proof.
  intros p r d. set (mask := map cis (ifft_shift_ (map (fun b => b * (speed_of_light / refractive_index * d)) (map (fun f => refractive_index * (2 * PI * (f + central_frequency p)) / speed_of_light) (grid_f p))))).
  set (sc := RtoC (cos (PI / 2 * r))). set (lc := Cmul Ci (RtoC (sin (PI / 2 * r)))).
  assert (H1 : forall c, sup mixes2 mixes (fun q => Ok (map (Cmul c) (fst q)))) by (intros c; apply sup_ok; intros a b x y z [M _]; apply mixes_map; exact M).
  assert (H2 : forall c, sup mixes2 mixes (fun q => Ok (map (Cmul c) (snd q)))) by (intros c; apply sup_ok; intros a b x y z [_ M]; apply mixes_map; exact M).
  pose proof (sup_sum mixes2 _ _ (H1 sc) (H2 lc)) as S1. pose proof (sup_bind mixes2 mixes mixes _ _ (sup_sum mixes2 _ _ (H1 lc) (H2 sc)) (linear_mask mask)) as S2.
  apply (sup_ext mixes2 mixes2 _ _) with (2 := sup_pair mixes2 _ _ S1 S2). intros [x1 x2]. cbn [fst snd bind]. unfold split_stage. fold sc lc mask.
  destruct (broadcast Cadd (map (Cmul sc) x1) (map (Cmul lc) x2)); cbn [bind]; [|reflexivity]. destruct (broadcast Cadd (map (Cmul lc) x1) (map (Cmul sc) x2)); reflexivity.
Qed.
Lemma linear_stages : forall p rs k, sup mixes2 mixes2 (split_stages p k rs).
Proof.
  intros p. induction rs as [|r rs IH]; intros k; [apply sup_ok; auto|].
  apply (sup_ext mixes2 mixes2 (fun f => bind (split_stage p r (stage_delay k) f) (split_stages p (S k) rs))); [reflexivity|]. apply (sup_bind mixes2 mixes2 mixes2); [apply linear_stage|apply IH].
Qed.
Lemma mixes_dark : forall a b x y z, mixes a b x y z -> mixes a b (map (fun _ => C0) x) (map (fun _ => C0) y) (map (fun _ => C0) z).
Proof.
  intros a b x y z (L1 & L2 & _). apply mixes_nth_lt; rewrite !map_length; try assumption. intros i _.
  assert (N : forall l : list C, nth i (map (fun _ => C0) l) C0 = C0) by (intros l; apply (map_nth_d (fun _ : C => C0) l i C0 C0); reflexivity). rewrite !N. ring.
Qed.
Lemma linear_split_delay : forall rs p, linear (split_and_delay_line rs p).
Proof.
  intros rs p. unfold split_and_delay_line.
  apply (sup_bind mixes mixes mixes (fun x => fft_ x (grid_dt p)) (fun spectrum => bind (split_stages p 0 (firstn 8 rs) (spectrum, map (fun _ => C0) spectrum)) (fun fields => bind (ifft_ (fst fields) (grid_dt p)) (fun s => Ok (scale (dB_to_amplitude_ratio 1) s))))); [apply linear_fft_|].
  apply (sup_bind mixes mixes2 mixes (fun s => split_stages p 0 (firstn 8 rs) (s, map (fun _ => C0) s))).
  - intros a b x y z u v M E1 E2. refine (linear_stages p (firstn 8 rs) 0 a b _ _ _ u v _ E1 E2). split; [exact M|]. apply mixes_dark; exact M.
  - intros a b x y z u v [M _] E1 E2. refine (sup_bind mixes mixes mixes (fun q => ifft_ q (grid_dt p)) (fun s => Ok (scale (dB_to_amplitude_ratio 1) s)) (linear_ifft_ _) (linear_scale _) a b (fst x) (fst y) (fst z) u v M E1 E2).
Qed.
Lemma linear_delay : forall d p, linear (delay_line d p).
Proof. intros. apply linear_filtered. Qed.

(* every component on an inner connection other than an amplifier obeys superposition *)
Lemma component_linear : forall c ps p, family_of c = SinglePath -> c <> OpticalAmplifier -> linear (component c ps p).
Proof.
  intros c ps p Fc Na. destruct c; try discriminate Fc; try congruence; cbn [component].
  - apply (sup_const mixes mixes (real_at ps 0)). intros len _. apply linear_filtered.
  - apply (sup_const mixes mixes (real_at ps 0)). intros len _. apply linear_scale.
  - apply (sup_const mixes mixes (real_at ps 0)). intros depth _. apply (sup_const mixes mixes (real_at ps 1)). intros fr _. apply (sup_const mixes mixes (real_at ps 2)). intros sh _.
    unfold phase_modulator. apply (sup_const mixes mixes (broadcast _ _ _)). intros angles _. apply (sup_bind mixes mixes mixes); [apply linear_mask'|apply linear_scale].
  - apply (sup_const mixes mixes (real_at ps 0)). intros depth _. apply (sup_const mixes mixes (real_at ps 1)). intros fr _. apply (sup_const mixes mixes (real_at ps 2)). intros bias _.
    unfold intensity_modulator. set (m := map cis _). clearbody m.
    pose proof (sup_sum mixes _ _ (linear_scale (/ 2)) (sup_bind mixes mixes mixes _ _ (linear_scale (/ 2)) (linear_mask' m))) as S. pose proof (sup_bind mixes mixes mixes _ _ S (linear_scale (dB_to_amplitude_ratio (-4)))) as S'.
    apply (sup_ext mixes mixes _ _) with (2 := S'). intros x. cbn [bind]. destruct (broadcast Cmul (scale (/ 2) x) m); reflexivity.
  - apply (sup_const mixes mixes (reals (firstn 15 ps))). intros am _. apply (sup_const mixes mixes (reals (skipn 15 ps))). intros ph _. unfold wave_shaper.
    apply (sup_const mixes mixes (broadcast _ _ _)). intros mask _. apply linear_filtered.
  - apply (sup_const mixes mixes (reals ps)). intros rs _. apply linear_split_delay.
  - apply (sup_const mixes mixes (reals (firstn 10 ps))). intros am _. apply (sup_const mixes mixes (reals (skipn 10 ps))). intros ph _. unfold programmable_filter.
    apply (sup_const mixes mixes (broadcast _ _ _)). intros m1 _. apply (sup_const mixes mixes (broadcast _ _ _)). intros m2 _. apply (sup_const mixes mixes (broadcast _ _ _)). intros mask _. apply linear_filtered.
  - apply (sup_const mixes mixes (real_at ps 0)). intros w _. unfold square_filter. destruct (Req_EM_T w 0); [apply sup_err|apply linear_filtered].
  - apply (sup_const mixes mixes (real_at ps 0)). intros d _. apply linear_delay.
  - apply (sup_const mixes mixes (real_at ps 0)). intros d _. apply linear_delay.
  - apply sup_ok. auto.
  - apply (sup_const mixes mixes (real_at ps 0)). intros ph _. unfold phase_shifter. apply (sup_bind mixes mixes mixes (fun x => fft_ x (grid_dt p)) (fun s => ifft_ (map (Cmul (cis ph)) s) (grid_dt p))); [apply linear_fft_|].
    intros a b x y z u v M E1 E2. refine (linear_ifft_ (grid_dt p) a b _ _ _ u v _ E1 E2). apply mixes_map; exact M.
Qed.

(* a source ignores what it receives, but for the number of samples *)
Lemma source_constant : forall c ps p x y, family_of c = SourceModel -> length x = length y -> component c ps p x = component c ps p y.
Proof.
  assert (G : forall {A} (a : A) (x y : list C), length x = length y -> map (fun _ => a) x = map (fun _ => a) y).
  { intros A a. induction x as [|c x IH]; intros [|d y] L; try discriminate; [reflexivity|]. cbn [map]. f_equal. apply IH. injection L as L; exact L. }
  intros c ps p x y Fc L. destruct c; try discriminate Fc; cbn [component]; try reflexivity.
  - destruct (real_at ps 0); [|reflexivity]. cbn [bind]. unfold continuous_wave_laser. rewrite (G _ _ x y L). reflexivity.
  - unfold impulse. rewrite (G _ _ x y L). reflexivity.
Qed.
Lemma mixes_same : forall a b x, Cadd a b = C1 -> mixes a b x x x.
Proof. intros a b x H. split; [reflexivity|]. split; [reflexivity|]. intros i. replace (Cadd (Cmul a (nth i x C0)) (Cmul b (nth i x C0))) with (Cmul (Cadd a b) (nth i x C0)) by ring. rewrite H. ring. Qed.

(** ** The connectors *)
Lemma mixesL_nth : forall a b x y z i t, mixesL a b x y z -> nth t (nth i z []) C0 = Cadd (Cmul a (nth t (nth i x []) C0)) (Cmul b (nth t (nth i y []) C0)).
Proof. intros a b x y z i t (_ & _ & H). apply (H i). Qed.
Lemma same_lengths : forall a b x y z (s0 : list C) zr, mixesL a b x y z -> z = s0 :: zr -> exists x0 xr y0 yr, x = x0 :: xr /\ y = y0 :: yr /\ length x0 = length s0 /\ length y0 = length s0 /\
  forallb (fun s => Nat.eqb (length s) (length x0)) x = forallb (fun s => Nat.eqb (length s) (length s0)) z /\ forallb (fun s => Nat.eqb (length s) (length y0)) y = forallb (fun s => Nat.eqb (length s) (length s0)) z.
Proof.
  intros a b x y z s0 zr (L1 & L2 & H) ->. destruct x as [|x0 xr]; [discriminate|]. destruct y as [|y0 yr]; [discriminate|]. exists x0, xr, y0, yr. split; [reflexivity|]. split; [reflexivity|].
  destruct (H 0%nat) as (A1 & A2 & _). cbn [nth] in A1, A2. split; [exact A1|]. split; [exact A2|].
  assert (G : forall n (l l' : list (list C)), length l = length l' -> (forall i, length (nth i l []) = length (nth i l' [])) -> forallb (fun s => Nat.eqb (length s) n) l = forallb (fun s => Nat.eqb (length s) n) l').
  { intros n. induction l as [|q l IH]; intros [|q' l'] L Hl; try discriminate; [reflexivity|]. cbn [forallb]. pose proof (Hl 0%nat) as H0. cbn [nth] in H0. rewrite H0. f_equal. apply IH; [injection L as L; exact L|]. intros i. exact (Hl (S i)). }
  rewrite A1, A2. split; apply G; try assumption; intros i; destruct (H i) as (B1 & B2 & _); lia.
Qed.
Lemma splitter_linear : forall ratios n_in n_out, sup mixesL mixesL (splitter ratios n_in n_out).
Proof.
  intros ratios n_in n_out a b x y z u v M E1 E2. unfold splitter in *. destruct (splitter_rows ratios n_in n_out) as [rows|]; [|discriminate]. cbn [bind] in *.
  destruct z as [|s0 zr] eqn:Ez; [destruct M as (L1 & _); destruct x; [discriminate E1|discriminate L1]|]. rewrite <- Ez in *.
  destruct (same_lengths a b x y z s0 zr M Ez) as (x0 & xr & y0 & yr & Ex & Ey & K1 & K2 & K3 & K4). rewrite Ex in E1. rewrite <- Ex in E1. rewrite Ey in E2. rewrite <- Ey in E2.
  rewrite K3 in E1. rewrite K4 in E2. destruct (negb (forallb _ z)); [discriminate|].
  destruct M as (L1 & L2 & Mi). rewrite L1 in E1. rewrite L2 in E2. destruct (negb (Nat.eqb (length z) n_in)); [discriminate|]. injection E1 as <-. injection E2 as <-. eexists. split; [rewrite Ez; reflexivity|]. rewrite K1, K2.
  split; [rewrite !map_length; reflexivity|]. split; [rewrite !map_length; reflexivity|]. intros i.
  destruct (Nat.lt_ge_cases i (length rows)) as [Hi|Hi]; [|rewrite !nth_overflow by (rewrite map_length; exact Hi); split; [reflexivity|split; [reflexivity|intros [|]; cbn [nth]; ring]]].
  assert (N : forall (f : list C -> list C), nth i (map f rows) [] = f (nth i rows [])) by (intros f; rewrite (nth_indep _ [] (f [])) by (rewrite map_length; exact Hi); apply map_nth).
  rewrite !N. apply mixes_tabulate. intros t _. apply csum_mix. intros j _. rewrite <- ?Ez. rewrite (mixesL_nth a b x y z j t) by (split; [exact L1|split; [exact L2|exact Mi]]). ring.
Qed.
Lemma sum_states_linear : sup mixesL mixes sum_states.
Proof.
  intros a b x y z u v M E1 E2. unfold sum_states in *.
  destruct z as [|s0 zr] eqn:Ez; [destruct M as (L1 & _); destruct x; [discriminate E1|discriminate L1]|]. rewrite <- Ez in *.
  destruct (same_lengths a b x y z s0 zr M Ez) as (x0 & xr & y0 & yr & Ex & Ey & K1 & K2 & K3 & K4). rewrite Ex in E1. rewrite <- Ex in E1. rewrite Ey in E2. rewrite <- Ey in E2.
  rewrite K3 in E1. rewrite K4 in E2. destruct (negb (forallb _ z)); [discriminate|]. injection E1 as <-. injection E2 as <-. eexists. split; [rewrite Ez; reflexivity|]. rewrite K1, K2, <- ?Ez. pose proof (proj1 M) as L1. pose proof (proj1 (proj2 M)) as L2. rewrite L1, L2.
  apply mixes_tabulate. intros t _. apply csum_mix. intros j _. exact (mixesL_nth a b x y z j t M).
Qed.
Lemma map_res_linear : forall {A} (F : A -> list C -> res (list C)) cs, (forall c, linear (F c)) -> sup mixes mixesL (fun x => map_res (fun c => F c x) cs).
Proof.
  intros A F cs HF. induction cs as [|c cs IH]; intros a b x y z u v M E1 E2; cbn [map_res] in *.
  - injection E1 as <-. injection E2 as <-. exists []. split; [reflexivity|]. split; [reflexivity|]. split; [reflexivity|]. intros i. destruct i; (split; [reflexivity|]; split; [reflexivity|]; intros [|]; cbn [nth]; ring).
  - destruct (F c x) as [fx|] eqn:Fx; [|discriminate]. destruct (F c y) as [fy|] eqn:Fy; [|discriminate]. destruct (HF c a b x y z fx fy M Fx Fy) as (fz & Fz & Mz). cbn [bind] in *. rewrite Fz. cbn [bind].
    destruct (map_res (fun c0 => F c0 x) cs) as [gx|] eqn:Gx; [|discriminate]. destruct (map_res (fun c0 => F c0 y) cs) as [gy|] eqn:Gy; [|discriminate]. cbn [bind] in *. injection E1 as <-. injection E2 as <-.
    destruct (IH a b x y z gx gy M Gx Gy) as (gz & Gz & (N1 & N2 & N3)). rewrite Gz. cbn [bind]. eexists. split; [reflexivity|]. split; [cbn [length]; congruence|]. split; [cbn [length]; congruence|]. intros [|i]; cbn [nth]; [exact Mz|apply N3].
Qed.
(* the nodes: splitters and terminals *)
Lemma connector_linear : forall c ps p n_in n_out, sup mixesL mixesL (fun states => connector c ps p states n_in n_out).
Proof.
  intros c ps p n_in n_out. destruct c; try apply sup_err; try (apply sup_ok; auto; fail); cbn [connector].
  - apply (sup_const mixesL mixesL (reals ps)). intros r _. apply splitter_linear.
  - apply (sup_const mixesL mixesL (reals ps)). intros r _. unfold frequency_splitter. apply (sup_bind mixesL mixes mixesL); [exact sum_states_linear|].
    apply (map_res_linear (fun cc => filter_spectrum p (ifft_shift_ (map (fun x => RtoC (band_mask (fst cc) (snd cc) x)) (linspace 0 1 (n_samples p)))))). intros cc. apply linear_filter.
Qed.
