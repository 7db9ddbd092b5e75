(** Filtering in the frequency domain: energy, composition. *)
From Coq Require Import Reals Lra Lia List Arith.
From Verif Require Import Base Complex ArrayModel FourierProofs ComponentModel ComponentSpec.
Import ListNotations.
Local Open Scope R_scope.

Lemma map_nth_d : forall {A B} (f : A -> B) l k d e, f d = e -> nth k (map f l) e = f (nth k l d).
Proof. intros A B f l k d e <-. apply map_nth. Qed.
Definition zipmul (a b : list C) : list C := map (fun p => Cmul (fst p) (snd p)) (combine a b).
Lemma zipmul_length : forall a b, length a = length b -> length (zipmul a b) = length b.
Proof. intros a b H. unfold zipmul. rewrite map_length, combine_length, H. apply Nat.min_id. Qed.
Lemma zipmul_nth : forall a b k, length a = length b -> nth k (zipmul a b) C0 = Cmul (nth k a C0) (nth k b C0).
Proof.
  intros a b k H. unfold zipmul. rewrite (map_nth_d _ _ k (C0, C0)) by (cbn [fst snd]; ring). rewrite combine_nth by exact H. reflexivity.
Qed.
Lemma broadcast_same : forall {A B D} (f : A -> B -> D) a b, length a = length b -> broadcast f a b = Ok (map (fun p => f (fst p) (snd p)) (combine a b)).
Proof. intros A B D f a b H. unfold broadcast. rewrite H, Nat.eqb_refl. reflexivity. Qed.
Lemma scale_length : forall c x, length (scale c x) = length x.
Proof. intros. apply map_length. Qed.
Lemma scale_nth : forall c x k, nth k (scale c x) C0 = Cmul (RtoC c) (nth k x C0).
Proof. intros c x k. unfold scale. apply map_nth_d. ring. Qed.
Lemma scale_scale : forall a b x, scale a (scale b x) = scale (a * b) x.
Proof. intros a b x. unfold scale. rewrite map_map. apply map_ext. intros z. rewrite <- RtoC_mul. ring. Qed.
Lemma scale_1 : forall x, scale 1 x = x.
Proof. intros x. unfold scale. rewrite <- (map_id x) at 2. apply map_ext. intros z. change (RtoC 1) with C1. ring. Qed.
Lemma zipmul_scale : forall c a b, length a = length b -> zipmul a (scale c b) = scale c (zipmul a b).
Proof.
  intros c a b H. apply (list_eq_nth C0); [rewrite scale_length, !zipmul_length by (rewrite ?scale_length; exact H); apply scale_length|]. intros i _. rewrite scale_nth, !zipmul_nth by (rewrite ?scale_length; exact H). rewrite scale_nth. ring.
Qed.

Lemma ifft_scale : forall c x y, ifft x = Ok y -> ifft (scale c x) = Ok (scale c y).
Proof.
  intros c x y H. destruct (ifft_ok x y H) as (L & P & V). destruct (ifft_total (scale c x)) as (z & I); [rewrite scale_length; exact P|]. rewrite I. f_equal. destruct (ifft_ok _ _ I) as (L' & _ & V'). rewrite scale_length in *.
  apply (list_eq_nth C0); [rewrite scale_length; lia|]. intros j Hj. rewrite scale_nth, V', V by lia.
  rewrite (csum_ext (length x) _ (fun k => Cmul (RtoC c) (Cmul (nth k x C0) (cis (2 * PI * INR j * INR k / INR (length x)))))) by (intros k Hk; rewrite scale_nth; ring). rewrite csum_scale. ring.
Qed.
Lemma fft_scale : forall c x y, fft x = Ok y -> fft (scale c x) = Ok (scale c y).
Proof.
  intros c x y H. destruct (fft_ok x y H) as (L & P & V). destruct (fft_total (scale c x)) as (z & I); [rewrite scale_length; exact P|]. rewrite I. f_equal. destruct (fft_ok _ _ I) as (L' & _ & V'). rewrite scale_length in *.
  apply (list_eq_nth C0); [rewrite scale_length; lia|]. intros j Hj. rewrite scale_nth, V', V by lia.
  rewrite (csum_ext (length x) _ (fun k => Cmul (RtoC c) (Cmul (nth k x C0) (cis (- (2 * PI * INR k * INR j / INR (length x))))))) by (intros k Hk; rewrite scale_nth; ring). rewrite csum_scale. ring.
Qed.

(* the transform pair with its factors dt *)
Lemma transforms_inverse : forall x dt, x <> [] -> dt <> 0 -> exists y, fft_ x dt = Ok y /\ length y = length x /\ ifft_ y dt = Ok x.
Proof.
  intros x dt Hx Hd. assert (P : (0 < length x)%nat) by (destruct x; [congruence|cbn; lia]). destruct (fft_total x P) as (y & F). exists (scale dt y). unfold fft_. rewrite F. cbn [bind]. split; [reflexivity|]. destruct (fft_ok _ _ F) as (L & _ & _). split; [rewrite scale_length; exact L|].
  unfold ifft_. destruct (ifft_total y) as (z & I); [lia|]. rewrite (ifft_scale dt y z I). cbn [bind]. rewrite (ifft_fft _ _ _ F I). rewrite scale_scale, Rinv_l, scale_1 by exact Hd. reflexivity.
Qed.
Lemma transforms_inverse' : forall x dt, x <> [] -> dt <> 0 -> exists y, ifft_ x dt = Ok y /\ length y = length x /\ fft_ y dt = Ok x.
Proof.
  intros x dt Hx Hd. assert (P : (0 < length x)%nat) by (destruct x; [congruence|cbn; lia]). destruct (ifft_total x P) as (y & F). exists (scale (/ dt) y). unfold ifft_. rewrite F. cbn [bind]. split; [reflexivity|]. destruct (ifft_ok _ _ F) as (L & _ & _). split; [rewrite scale_length; exact L|].
  unfold fft_. destruct (fft_total y) as (z & I); [lia|]. rewrite (fft_scale (/ dt) y z I). cbn [bind]. rewrite (fft_ifft _ _ _ F I). rewrite scale_scale, Rinv_r, scale_1 by exact Hd. reflexivity.
Qed.

(* filtering: the outcome in terms of the plain transforms *)
Lemma filter_ok : forall p mask x, grid_dt p <> 0 -> (0 < length x)%nat -> length mask = length x ->
  exists y out, fft x = Ok y /\ length y = length x /\ filter_spectrum p mask x = Ok out /\ ifft (zipmul mask y) = Ok out /\ length out = length x.
Proof.
  intros p mask x Hd Hx Hm. destruct (fft_total x Hx) as (y & F). destruct (fft_ok _ _ F) as (L & _ & _). assert (Lz : length (zipmul mask y) = length x) by (rewrite zipmul_length; lia). destruct (ifft_total (zipmul mask y)) as (out & I); [lia|].
  exists y, out. destruct (ifft_ok _ _ I) as (L' & _ & _). split; [exact F|]. split; [exact L|]. split; [|split; [exact I|lia]].
  unfold filter_spectrum, fft_. rewrite F. cbn [bind]. rewrite broadcast_same by (rewrite scale_length; lia). cbn [bind]. fold (zipmul mask (scale (grid_dt p) y)). rewrite zipmul_scale by lia. unfold ifft_. rewrite (ifft_scale _ _ _ I). cbn [bind]. rewrite scale_scale, Rinv_l, scale_1 by exact Hd. reflexivity.
Qed.
(* energy before and after *)
Lemma filter_energy : forall p mask x, grid_dt p <> 0 -> (0 < length x)%nat -> length mask = length x ->
  exists y out, filter_spectrum p mask x = Ok out /\ length out = length x /\
    INR (length x) * energy x = rsum (length x) (fun k => Cnorm2 (nth k y C0)) /\
    INR (length x) * energy out = rsum (length x) (fun k => Cnorm2 (nth k mask C0) * Cnorm2 (nth k y C0)).
Proof.
  intros p mask x Hd Hx Hm. destruct (filter_ok p mask x Hd Hx Hm) as (y & out & F & L & E & I & L'). exists y, out. split; [exact E|]. split; [exact L'|]. unfold energy. rewrite !list_energy. split; [symmetry; apply parseval; exact F|].
  pose proof (parseval_inv _ _ I) as Q. rewrite zipmul_length in Q by lia. rewrite L in Q. rewrite L', <- Q. apply rsum_ext. intros k Hk. rewrite zipmul_nth by lia. apply Cnorm2_mul.
Qed.
Lemma energy_nonneg : forall x, 0 <= energy x.
Proof. induction x as [|z x IH]; unfold energy in *; cbn [fold_right]; [lra|]. pose proof (Cnorm2_nonneg z). lra. Qed.

Lemma filter_unit : forall p mask x, grid_dt p <> 0 -> (0 < length x)%nat -> length mask = length x -> (forall m, In m mask -> Cnorm2 m = 1) ->
  yields x (filter_spectrum p mask x) (fun y => energy y = energy x).
Proof.
  intros p mask x Hd Hx Hm H. destruct (filter_energy p mask x Hd Hx Hm) as (y & out & E & L & A & B). exists out. split; [exact E|]. split; [exact L|]. apply (Rmult_eq_reg_l (INR (length x))); [|pose proof (INR_pos _ Hx); lra]. rewrite A, B. apply rsum_ext. intros k Hk. rewrite H by (apply nth_In; lia). ring.
Qed.
Lemma filter_bounds : forall p mask x lo hi, grid_dt p <> 0 -> (0 < length x)%nat -> length mask = length x -> (forall m, In m mask -> lo <= Cnorm2 m <= hi) ->
  yields x (filter_spectrum p mask x) (fun y => lo * energy x <= energy y <= hi * energy x).
Proof.
  intros p mask x lo hi Hd Hx Hm H. destruct (filter_energy p mask x Hd Hx Hm) as (y & out & E & L & A & B). exists out. split; [exact E|]. split; [exact L|]. pose proof (INR_pos _ Hx) as P.
  assert (X : forall k, (k < length x)%nat -> lo * Cnorm2 (nth k y C0) <= Cnorm2 (nth k mask C0) * Cnorm2 (nth k y C0) <= hi * Cnorm2 (nth k y C0)).
  { intros k Hk. pose proof (Cnorm2_nonneg (nth k y C0)). assert (Hin : In (nth k mask C0) mask) by (apply nth_In; lia). destruct (H _ Hin) as [Ha Hb]. split; apply Rmult_le_compat_r; assumption. }
  split; apply (Rmult_le_reg_l (INR (length x)) _ _ P); rewrite B.
  - replace (INR (length x) * (lo * energy x)) with (lo * (INR (length x) * energy x)) by ring. rewrite A, <- rsum_scale. apply rsum_le. intros k Hk. apply X; exact Hk.
  - replace (INR (length x) * (hi * energy x)) with (hi * (INR (length x) * energy x)) by ring. rewrite A, <- rsum_scale. apply rsum_le. intros k Hk. apply X; exact Hk.
Qed.

(* two filters in a row are one filter *)
Lemma filter_compose : forall p m1 m2 x, grid_dt p <> 0 -> (0 < length x)%nat -> length m1 = length x -> length m2 = length x ->
  bind (filter_spectrum p m1 x) (filter_spectrum p m2) = filter_spectrum p (zipmul m2 m1) x.
Proof.
  intros p m1 m2 x Hd Hx H1 H2. destruct (filter_ok p m1 x Hd Hx H1) as (y & out & F & L & E & I & L'). rewrite E. cbn [bind].
  destruct (filter_ok p m2 out Hd ltac:(lia) ltac:(lia)) as (y2 & out2 & F2 & L2 & E2 & I2 & L2'). rewrite E2.
  assert (Lz : length (zipmul m2 m1) = length x) by (rewrite zipmul_length; lia). destruct (filter_ok p (zipmul m2 m1) x Hd Hx Lz) as (y3 & out3 & F3 & L3 & E3 & I3 & L3'). rewrite E3.
  assert (y3 = y) by congruence. subst y3. pose proof (fft_ifft _ _ _ I F2) as Y. subst y2.
  enough (X : zipmul (zipmul m2 m1) y = zipmul m2 (zipmul m1 y)) by (rewrite X in I3; congruence).
  apply (list_eq_nth C0); [rewrite !zipmul_length; rewrite ?zipmul_length; lia|]. intros k _. rewrite !zipmul_nth by (rewrite ?zipmul_length; lia). ring.
Qed.

Lemma yields_scale : forall x r c (P Q : list C -> Prop), yields x r P -> (forall y, length y = length x -> P y -> Q (scale c y)) -> yields x (do s <- r; Ok (scale c s)) Q.
Proof. intros x r c P Q (y & E & L & H) HQ. exists (scale c y). rewrite E. cbn [bind]. split; [reflexivity|]. split; [rewrite scale_length; exact L|]. apply HQ; assumption. Qed.
Lemma energy_scale : forall c x, energy (scale c x) = c * c * energy x.
Proof. intros c x. unfold energy, scale. induction x as [|z x IH]; cbn [map fold_right]; [ring|]. rewrite IH, Cnorm2_mul, Cnorm2_RtoC. ring. Qed.
Lemma energy_app : forall x y, energy (x ++ y) = energy x + energy y.
Proof. intros x y. unfold energy. induction x as [|z x IH]; cbn [app fold_right]; [ring|]. rewrite IH. ring. Qed.

Lemma ifft_shift_In : forall {A} (x : list A) m, In m (ifft_shift_ x) <-> In m x.
Proof. intros A x m. unfold ifft_shift_. rewrite in_app_iff. rewrite <- (firstn_skipn (length x / 2) x) at 5. rewrite in_app_iff. tauto. Qed.
Lemma ifft_shift_length : forall {A} (x : list A), length (ifft_shift_ x) = length x.
Proof. intros A x. unfold ifft_shift_. rewrite app_length, Nat.add_comm, <- app_length, firstn_skipn. reflexivity. Qed.
Lemma ifft_shift_map : forall {A B} (f : A -> B) (x : list A), ifft_shift_ (map f x) = map f (ifft_shift_ x).
Proof. intros A B f x. unfold ifft_shift_. rewrite map_length, map_app, skipn_map, firstn_map. reflexivity. Qed.
