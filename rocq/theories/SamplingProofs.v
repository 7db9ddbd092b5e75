(** Random sampling of the free parameters (C16). *)
From Coq Require Import List Arith Bool Lia ZArith QArith Qabs Qround Lqa.
From Verif Require Import Base GraphModel GraphSpec GraphProofs OperatorsModel ParamsModel ParamsSpec ParamsProofs.
Import ListNotations.
Local Open Scope nat_scope.

Lemma py_round_low : forall x m, (inject_Z m <= x)%Q -> (m <= py_round x)%Z.
Proof.
  intros x m H. unfold py_round. assert (m <= Qfloor x)%Z. { rewrite <- (Qfloor_Z m). apply Qfloor_resp_le; exact H. }
  repeat destruct (Qlt_le_dec _ _); try lia. destruct (Z.even _); lia.
Qed.

Lemma py_round_high : forall x n, (x <= inject_Z n)%Q -> (py_round x <= n)%Z.
Proof.
  intros x n H. unfold py_round. pose proof (Qfloor_le x) as F. pose proof (Qlt_floor x) as F1.
  assert (L : (Qfloor x <= n)%Z). { rewrite Zle_Qle. lra. }
  assert (S : ~ (x - inject_Z (Qfloor x) < 1 # 2)%Q -> (Qfloor x + 1 <= n)%Z).
  { intros D. rewrite inject_Z_plus in F1. destruct (Z_le_gt_dec (Qfloor x + 1) n) as [C|C]; [exact C|]. exfalso. apply D.
    assert (E : n = Qfloor x) by lia. rewrite <- E. lra. }
  destruct (Qlt_le_dec (x - inject_Z (Qfloor x)) (1 # 2)) as [D|D]; [exact L|].
  assert (Qfloor x + 1 <= n)%Z by (apply S; lra).
  destruct (Qlt_le_dec (1 # 2) (x - inject_Z (Qfloor x))); [assumption|]. destruct (Z.even _); lia.
Qed.

Lemma trunc_int : forall x m, (x == inject_Z m)%Q -> trunc x = m.
Proof.
  intros [p d] m H. unfold Qeq, trunc in *; simpl in *. rewrite Z.mul_1_r in H. rewrite H. apply Z.quot_mul. lia.
Qed.

Lemma randint_ok : forall a b r, (a < b)%Z -> exists z, randint a b r = Ok z /\ (a <= z < b)%Z.
Proof.
  intros a b r H. unfold randint. destruct (Z.leb_spec b a); [lia|]. eexists; split; [reflexivity|].
  pose proof (Z.mod_pos_bound (r_int r) (b - a) ltac:(lia)). lia.
Qed.

Lemma sample_one_ok : forall d lo hi st t r, d <> Triangle -> sampleable lo hi st t -> (0 <= r_frac r)%Q -> (r_frac r < 1)%Q ->
  exists v a b, sample_one d lo hi st t r = Ok (Num v) /\ lo = Num a /\ hi = Num b /\ (a <= v)%Q /\ (v <= b)%Q.
Proof.
  intros d lo hi st t r Hd (a & b & -> & -> & H) U U1.
  assert (E : sample_one d (Num a) (Num b) st t r = uniform_sample (Num a) (Num b) st t r) by (destruct d; [reflexivity|congruence|reflexivity]).
  rewrite E. unfold uniform_sample. 
  assert (Lin : (a <= b -> a <= a + (b - a) * r_frac r /\ a + (b - a) * r_frac r <= b)%Q).
  { intros L. assert (X : (0 <= (b - a) * r_frac r)%Q) by (apply Qmult_le_0_compat; lra).
    assert (Y : (0 <= (b - a) * (1 - r_frac r))%Q) by (apply Qmult_le_0_compat; lra).
    split; [lra|]. assert (Q1 : ((b - a) * (1 - r_frac r) == (b - a) - (b - a) * r_frac r)%Q) by ring. lra. }
  destruct t; [| |contradiction].
  - destruct st as [st|]; [|eexists _, a, b; split; [reflexivity|]; split; [reflexivity|]; split; [reflexivity|]; apply Lin; exact H].
    destruct H as (Ps & L & m & n & Em & En). destruct (Lin L) as [L1 L2].
    destruct (Qeq_bool st 0) eqn:Z; [apply Qeq_bool_iff in Z; lra|].
    eexists _, a, b; split; [reflexivity|]; split; [reflexivity|]; split; [reflexivity|].
    assert (R1 : (m <= py_round ((a + (b - a) * r_frac r) / st))%Z). { apply py_round_low. apply Qle_shift_div_l; [exact Ps|]. lra. }
    assert (R2 : (py_round ((a + (b - a) * r_frac r) / st) <= n)%Z). { apply py_round_high. apply Qle_shift_div_r; [exact Ps|]. lra. }
    rewrite Zle_Qle in R1, R2. split.
    + apply Qle_trans with (inject_Z m * st)%Q; [rewrite <- Em; apply Qle_refl|]. apply Qmult_le_compat_r; [exact R1|lra].
    + apply Qle_trans with (inject_Z n * st)%Q; [|rewrite <- En; apply Qle_refl]. apply Qmult_le_compat_r; [exact R2|lra].
  - destruct st as [st|].
    + destruct H as (Ps & m & n & Em & En & L). destruct (Qeq_bool st 0) eqn:Z; [apply Qeq_bool_iff in Z; lra|].
      rewrite (trunc_int (a / st) m) by (rewrite Em; field; lra). rewrite (trunc_int (b / st) n) by (rewrite En; field; lra).
      destruct (randint_ok m n r L) as (z & -> & Hz). cbn [bind]. eexists _, a, b; split; [reflexivity|]; split; [reflexivity|]; split; [reflexivity|].
      rewrite Em, En. split; apply Qmult_le_compat_r; try lra; rewrite <- Zle_Qle; lia.
    + destruct H as (m & n & Em & En & L). rewrite (trunc_int a m Em), (trunc_int b n En).
      destruct (randint_ok m n r L) as (z & -> & Hz). cbn [bind]. eexists _, a, b; split; [reflexivity|]; split; [reflexivity|]; split; [reflexivity|].
      rewrite Em, En, <- !Zle_Qle. lia.
Qed.

Lemma sample_callable_ok : forall d ps los his ts sts rs i, d <> Triangle -> frac_ok rs ->
  length los = length ps -> length his = length ps -> length ts = length ps -> length sts = length ps ->
  (forall k lo hi st t, nth_error los k = Some lo -> nth_error his k = Some hi -> nth_error sts k = Some st -> nth_error ts k = Some t ->
     sampleable lo hi st t) ->
  exists vs, sample_callable d ps los his ts sts rs i = Ok vs /\ length vs = length ps /\
    forall k lo hi w, nth_error vs k = Some w -> nth_error los k = Some lo -> nth_error his k = Some hi ->
      exists v a b, w = Num v /\ lo = Num a /\ hi = Num b /\ (a <= v)%Q /\ (v <= b)%Q.
Proof.
  induction ps as [|p ps IH]; intros los his ts sts rs i Hd Fr L1 L2 L3 L4 H; simpl.
  - exists []; split; [reflexivity|]; split; [reflexivity|]. intros [|k] lo hi w X; discriminate.
  - destruct los as [|lo los]; [discriminate|]. destruct his as [|hi his]; [discriminate|].
    destruct ts as [|t ts]; [discriminate|]. destruct sts as [|st sts]; [discriminate|]. simpl in *.
    destruct (sample_one_ok d lo hi st t (rs i) Hd (H 0 lo hi st t eq_refl eq_refl eq_refl eq_refl)) as (v & a & b & -> & B);
      [apply Fr|apply Fr|]. cbn [bind].
    destruct (IH los his ts sts rs (S i) Hd Fr) as (vs & -> & Lv & Hv); try congruence; [intros k; apply (H (S k))|].
    cbn [bind]. exists (Num v :: vs). split; [reflexivity|]. split; [simpl; congruence|].
    intros [|k] lo' hi' w E1 E2 E3; simpl in *; [|eapply Hv; eassumption].
    injection E1 as <-; injection E2 as <-; injection E3 as <-. exists v, a, b; tauto.
Qed.

Lemma sample_ok : forall d g s rs, wf g -> all_readable g s -> unshared g s -> all_sampleable g s -> d <> Triangle -> frac_ok rs ->
  exists s', sample_parameters d g s rs = Ok s' /\ all_within g s' /\ same_except_free g s s'.
Proof.
  intros d g s rs W R U Sm Hd Fr. unfold sample_parameters. destruct (extract_total g s W R) as (x & Hx). rewrite Hx. cbn [bind].
  pose proof (extract_aligned g s x W Hx) as (L1 & L2 & L3 & L4 & L5 & L6 & L7 & Al).
  destruct (sample_callable_ok d (x_params x) (x_lo x) (x_hi x) (x_types x) (x_steps x) rs 0 Hd Fr L1 L2 L5 L6) as (vs & Ev & Lv & Hv).
  { intros k lo hi st t E1 E2 E3 E4. assert (K : k < length (x_params x)) by (rewrite <- L1; apply nth_error_Some; congruence).
    destruct (Al k K) as (c & pl & j & o & ps & v & lo' & hi' & t' & st' & Hs & Hh & F & M1 & M2 & M3 & M4 & M5 & M6 & M7 & M8 & M9 & M10 & M11 & M12 & M13).
    destruct (Sm (cid c) o ps j ltac:(exists c, pl; auto) Hh F) as (lo2 & hi2 & st2 & t2 & N1 & N2 & N3 & N4 & S).
    assert (lo2 = lo) by congruence. assert (hi2 = hi) by congruence. assert (st2 = st) by congruence. assert (t2 = t) by congruence. subst. exact S. }
  rewrite Ev. cbn [bind].
  destruct (write_read g s x vs W Hx U Lv) as (s' & x' & Ed & Hx' & Ep & Elo & Ehi & Et & Est & Em & Ei & Epl). rewrite Ed.
  exists s'. split; [reflexivity|]. pose proof (distribute_frame_graph g s x vs s' W Hx Ed) as Fg. split; [|exact Fg].
  intros i Hu. destruct Hu as (c & pl & Hs & <-).
  destruct (R (cid c) ltac:(exists c, pl; auto)) as (o & ps & [Ho Hl] & _).
  destruct Fg as (Fo & _ & Fl). destruct (Fl (o_list o) ps Hl) as (ps' & Hl' & _ & _).
  exists o, ps'. split; [split; [rewrite Fo; exact Ho|exact Hl']|]. intros k F.
  destruct (extract_complete g s' x' c pl o k W Hx' Hs ltac:(rewrite Fo; exact Ho) F) as (j & J1 & J2 & J3).
  pose proof (extract_aligned g s' x' W Hx') as (_ & _ & L3' & _ & _ & _ & _ & Al').
  assert (K : j < length (x_params x')) by (rewrite <- L3'; apply nth_error_Some; congruence).
  destruct (Al' j K) as (c2 & pl2 & j2 & o2 & ps2 & v & lo & hi & t & st & Hs2 & Hh2 & F2 & M1 & M2 & M3 & M4 & M5 & M6 & M7 & M8 & M9 & _).
  assert (E1 : cid c2 = cid c) by congruence. assert (j2 = k) by congruence. subst j2. destruct Hh2 as [Ho2 Hl2]. rewrite E1, Fo, Ho in Ho2. injection Ho2 as <-.
  assert (ps2 = ps') by congruence. subst ps2. rewrite Ep in M4. rewrite Elo in M6. rewrite Ehi in M8.
  destruct (Hv j lo hi v M4 M6 M8) as (q & a & b & -> & -> & -> & B1 & B2). exists q, a, b. auto.
Qed.

Lemma sample_triangle_raises : forall g s rs i o k, wf g -> all_readable g s -> used g i -> assoc i (s_objs s) = Some o -> free o k ->
  sample_parameters Triangle g s rs = Err TypeError.
Proof.
  intros g s rs i o k W R (c & pl & Hs & <-) Ho F. destruct (extract_total g s W R) as (x & Hx). unfold sample_parameters. rewrite Hx. cbn [bind].
  destruct (extract_complete g s x c pl o k W Hx Hs Ho F) as (j & J1 & _).
  pose proof (extract_aligned g s x W Hx) as (L1 & L2 & L3 & L4 & L5 & L6 & L7 & _).
  assert (K : j < length (x_params x)) by (rewrite <- L3; apply nth_error_Some; congruence).
  destruct (x_params x) as [|p ps]; [simpl in K; lia|]. destruct (x_lo x); [discriminate|]. destruct (x_hi x); [discriminate|].
  destruct (x_types x); [discriminate|]. destruct (x_steps x); [discriminate|]. reflexivity.
Qed.

Lemma sample_no_free : forall d g s rs, wf g -> all_readable g s -> (forall i o k, used g i -> assoc i (s_objs s) = Some o -> ~ free o k) ->
  sample_parameters d g s rs = Ok s.
Proof.
  intros d g s rs W R N. destruct (extract_total g s W R) as (x & Hx). unfold sample_parameters. rewrite Hx. cbn [bind].
  pose proof (extract_aligned g s x W Hx) as (_ & _ & _ & _ & _ & _ & _ & Al). destruct (x_params x) as [|p ps] eqn:E; [reflexivity|exfalso].
  destruct (Al 0 ltac:(simpl; lia)) as (c & pl & j & o & qs & v & lo & hi & t & st & Hs & [Ho _] & F & _). eapply (N (cid c) o j); [exists c, pl; auto|exact Ho|exact F].
Qed.

(** The tables of the component classes *)

Definition is_multiple (x st : Q) : bool := Qeq_bool (inject_Z (py_round (x / st)) * st) x.
Definition sampleableb (lo hi : pval) (step : option Q) (t : dtype) : bool :=
  match lo, hi, t, step with
  | Num a, Num b, DFloat, None => Qle_bool a b
  | Num a, Num b, DFloat, Some st => negb (Qle_bool st 0) && Qle_bool a b && is_multiple a st && is_multiple b st
  | _, _, _, _ => false
  end.
Lemma sampleableb_ok : forall lo hi st t, sampleableb lo hi st t = true -> sampleable lo hi st t.
Proof.
  intros [a|] [b|] st [] H; try discriminate; simpl in H.
  - exists a, b; split; [reflexivity|]; split; [reflexivity|]. destruct st as [st|]; [|apply Qle_bool_iff; exact H].
    rewrite !andb_true_iff in H. destruct H as (((H1 & H2) & H3) & H4). apply Qle_bool_iff in H2. split.
    + destruct (Qle_bool st 0) eqn:E; [discriminate|]. destruct (Qlt_le_dec 0 st) as [P|P]; [exact P|]. apply Qle_bool_iff in P. congruence.
    + split; [exact H2|]. eexists _, _. split; symmetry; apply Qeq_bool_iff; [exact H3|exact H4].
Qed.

(* per class: every unlocked position of the table *)
Definition class_sampleable (c : cls) : Prop :=
  forall k, sp_lock (spec_of c) = false -> nth_error (sp_locks (spec_of c)) k = Some false -> exists lo hi st t,
    nth_error (sp_lo (spec_of c)) k = Some lo /\ nth_error (sp_hi (spec_of c)) k = Some hi /\
    nth_error (sp_steps (spec_of c)) k = Some st /\ nth_error (sp_types (spec_of c)) k = Some t /\ sampleable lo hi st t.

Definition class_sampleableb (c : cls) : bool :=
  let p := spec_of c in
  sp_lock p || forallb (fun k => match nth_error (sp_locks p) k with
    | Some false => match nth_error (sp_lo p) k, nth_error (sp_hi p) k, nth_error (sp_steps p) k, nth_error (sp_types p) k with
                    | Some lo, Some hi, Some st, Some t => sampleableb lo hi st t | _, _, _, _ => false end
    | _ => true end) (seq 0 (length (sp_locks p))).

Lemma class_sampleableb_ok : forall c, class_sampleableb c = true -> class_sampleable c.
Proof.
  intros c H k L Hk. unfold class_sampleableb in H. rewrite L in H. cbn [orb] in H. rewrite forallb_forall in H.
  specialize (H k). rewrite Hk in H. assert (K : In k (seq 0 (length (sp_locks (spec_of c))))).
  { apply in_seq. split; [lia|]. apply nth_error_Some. congruence. }
  specialize (H K). destruct (nth_error (sp_lo (spec_of c)) k) as [lo|]; [|discriminate]. destruct (nth_error (sp_hi (spec_of c)) k) as [hi|]; [|discriminate].
  destruct (nth_error (sp_steps (spec_of c)) k) as [st|]; [|discriminate]. destruct (nth_error (sp_types (spec_of c)) k) as [t|]; [|discriminate].
  exists lo, hi, st, t. repeat (split; [reflexivity|]). apply sampleableb_ok; exact H.
Qed.

Lemma every_class_sampleable : forall c, class_sampleable c.
Proof. intros c; apply class_sampleableb_ok; destruct c; vm_compute; reflexivity. Qed.
