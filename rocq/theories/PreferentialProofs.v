(** Proofs about the preferential rule. *)
From Coq Require Import List Arith Bool ZArith QArith Lia.
From Verif Require Import Base GraphModel GraphSpec OperatorsModel OperatorsSpec ParamsModel ParamsSpec ParamsProofs EvolverModel EvolveSpec BuildProofs FloatModel PopulationModel PopulationSpec PopulationProofs.
Import ListNotations.
Local Open Scope nat_scope.

Lemma nth_error_skipn : forall A n (l : list A) j, nth_error (skipn n l) j = nth_error l (n + j).
Proof. intros A n. induction n as [|n IH]; intros [|a l] j; cbn; try reflexivity; [destruct j; reflexivity|apply IH]. Qed.
Lemma nth_error_firstn_lt : forall A n (l : list A) j, j < n -> nth_error (firstn n l) j = nth_error l j.
Proof. intros A n. induction n as [|n IH]; intros [|a l] [|j] H; cbn; try reflexivity; try lia. apply IH. lia. Qed.

Lemma distribute_short : forall vs ms ks s, distribute vs (firstn (length vs) ms) (firstn (length vs) ks) s = distribute vs ms ks s.
Proof.
  induction vs as [|v vs IH]; intros [|m ms] [|k ks] s; cbn [length firstn distribute]; try reflexivity.
  destruct (write_param s m k v); cbn [bind]; [apply IH|reflexivity].
Qed.
Lemma distribute_long : forall vs ms ks s, distribute (firstn (length ms) vs) ms ks s = distribute vs ms ks s.
Proof.
  induction vs as [|v vs IH]; intros [|m ms] [|k ks] s; cbn [length firstn distribute]; try reflexivity.
  destruct (write_param s m k v); cbn [bind]; [apply IH|reflexivity].
Qed.
Lemma distribute_app : forall vs rest ms ks s, length vs <= length ms -> length vs <= length ks ->
  distribute (vs ++ rest) ms ks s = bind (distribute vs ms ks s) (distribute rest (skipn (length vs) ms) (skipn (length vs) ks)).
Proof.
  induction vs as [|v vs IH]; intros rest [|m ms] [|k ks] s A B; cbn [length app skipn distribute bind] in *; try reflexivity; try lia.
  destruct (write_param s m k v); cbn [bind]; [apply IH; lia|reflexivity].
Qed.
Lemma distribute_same : forall vs ms ks s, (forall j v m k, nth_error vs j = Some v -> nth_error ms j = Some m -> nth_error ks j = Some k -> value s m k v) ->
  distribute vs ms ks s = Ok s.
Proof.
  induction vs as [|v vs IH]; intros [|m ms] [|k ks] s H; cbn [distribute]; try reflexivity.
  destruct (H 0 v m k eq_refl eq_refl eq_refl) as (o & ps & Hh & N). rewrite (write_same s m o ps k v Hh N). cbn [bind].
  apply IH. intros j v' m' k' A B C. apply (H (S j)); assumption.
Qed.

Lemma slots_inj : forall g s x, wf g -> extract g s = Ok x -> unshared g s ->
  forall i j m m' k o o', nth_error (x_models x) i = Some m -> nth_error (x_models x) j = Some m' -> nth_error (x_index x) i = Some k -> nth_error (x_index x) j = Some k ->
     assoc m (s_objs s) = Some o -> assoc m' (s_objs s) = Some o' -> o_list o = o_list o' -> i = j.
Proof.
  intros g s x W H U.
  pose proof (extract_aligned g s x W H) as (_ & _ & LM & LI & _ & _ & LP & Al).
  destruct (extract_rows g s x H) as (ss & Ex & R).
  assert (NDp : forall i j p k, nth_error (x_place x) i = Some p -> nth_error (x_place x) j = Some p ->
                  nth_error (x_index x) i = Some k -> nth_error (x_index x) j = Some k -> i = j).
  { intros i j p k P1 P2 K1 K2. pose proof (rows_NoDup s _ ss R (get_models_places g W)) as ND.
    assert (X : forall i, nth_error (x_place x) i = Some p -> nth_error (x_index x) i = Some k ->
                 nth_error (map (fun sl => (sl_p sl, sl_k sl)) ss) i = Some (p, k)).
    { intros i0 Q1 Q2. rewrite Ex in Q1, Q2; simpl in Q1, Q2. destruct (nth_error ss i0) as [sl|] eqn:E.
      - rewrite (map_nth_error _ _ _ E) in Q1. rewrite (map_nth_error _ _ _ E) in Q2. erewrite map_nth_error by exact E. congruence.
      - apply nth_error_None in E. assert (nth_error (map sl_p ss) i0 = None) by (apply nth_error_None; rewrite map_length; exact E). congruence. }
    apply (proj1 (NoDup_nth_error _) ND); [rewrite <- nth_error_Some, X by assumption; discriminate|]. rewrite !X by assumption; reflexivity. }
  intros i j m m' k o o' A1 A2 A3 A4 A5 A6 A7.
  assert (Hi : i < length (x_params x)) by (rewrite <- LM; apply nth_error_Some; congruence).
  assert (Hj : j < length (x_params x)) by (rewrite <- LM; apply nth_error_Some; congruence).
  destruct (Al i Hi) as (c & pl & k1 & o1 & ps1 & v1 & lo1 & hi1 & t1 & st1 & Hs1 & Hh1 & _ & M1 & P1 & I1 & _).
  destruct (Al j Hj) as (c' & pl' & k2 & o2 & ps2 & v2 & lo2 & hi2 & t2 & st2 & Hs2 & Hh2 & _ & M2 & P2 & I2 & _).
  assert (m = cid c) by congruence; assert (m' = cid c') by congruence. subst m m'.
  assert (o1 = o) by (destruct Hh1; congruence). assert (o2 = o') by (destruct Hh2; congruence). subst o1 o2.
  assert (pl = pl') by (eapply U; eassumption). subst pl'. exact (NDp i j pl k P1 P2 A3 A4).
Qed.

Lemma extract_values : forall g s x, wf g -> extract g s = Ok x -> forall j v m k,
  nth_error (x_params x) j = Some v -> nth_error (x_models x) j = Some m -> nth_error (x_index x) j = Some k -> value s m k v.
Proof.
  intros g s x W H j v m k A B C. pose proof (extract_aligned g s x W H) as (_ & _ & LM & LI & _ & _ & LP & Al).
  destruct (Al j) as (c & pl & k' & o & ps & v' & lo & hi & t & st & _ & Hh & _ & M1 & _ & M3 & M4 & M5 & _); [apply nth_error_Some; congruence|].
  assert (m = cid c) by congruence. assert (k' = k) by congruence. assert (v' = v) by congruence. subst. exists o, ps. auto.
Qed.

(* a vector of any length: what is missing stays, what is too much is ignored *)
Lemma distribute_padded : forall g s x vs s', wf g -> extract g s = Ok x -> unshared g s ->
  distribute vs (x_models x) (x_index x) s = Ok s' ->
  distribute (firstn (length (x_params x)) vs ++ skipn (length vs) (x_params x)) (x_models x) (x_index x) s = Ok s'.
Proof.
  intros g s x vs s' W H U D. pose proof (extract_aligned g s x W H) as (_ & _ & LM & LI & _).
  destruct (le_lt_dec (length (x_params x)) (length vs)) as [Long|Short].
  - rewrite (skipn_all2 (x_params x)) by exact Long. rewrite app_nil_r, <- LM, distribute_long. exact D.
  - rewrite (firstn_all2 vs) by lia. rewrite distribute_app by lia. rewrite D. cbn [bind].
    apply distribute_same. intros j v m k A B C. rewrite <- distribute_short in D. apply distribute_frame in D as (E1 & _ & E3).
    rewrite nth_error_skipn in A, B, C.
    destruct (extract_values g s x W H _ v m k A B C) as (o & ps & [Ho Hl] & N).
    destruct (E3 (o_list o) ps Hl) as (ps' & Hl' & _ & F). exists o, ps'. split; [split; [rewrite E1; exact Ho|exact Hl']|].
    rewrite F; [exact N|]. intros i m' o' A1 A2 A3 A4.
    assert (Li : i < length vs). { apply Nat.lt_le_trans with (length (firstn (length vs) (x_models x))); [apply nth_error_Some; congruence|]. rewrite firstn_length. lia. }
    rewrite nth_error_firstn_lt in A1, A2 by exact Li.
    assert (i = length vs + j); [|lia]. apply (slots_inj g s x W H U i (length vs + j) m' m k o' o); auto.
Qed.

Lemma imposed_by : forall vs w x s', wf (w_graph w) -> unshared (w_graph w) (w_store w) -> extract (w_graph w) (w_store w) = Ok x ->
  distribute vs (x_models x) (x_index x) (w_store w) = Ok s' -> imposed vs w (with_store w s').
Proof.
  intros vs w x s' W U H D. apply (distribute_padded (w_graph w) _ x vs s' W H U) in D.
  destruct (write_read (w_graph w) (w_store w) x (firstn (length (x_params x)) vs ++ skipn (length vs) (x_params x)) W H U) as (s2 & x' & D' & H' & V & Q1 & Q2 & Q3 & Q4 & Q5 & Q6 & Q7).
  { rewrite app_length, firstn_length, skipn_length. lia. }
  rewrite D in D'. injection D' as <-. exists x, x'. cbn. repeat (split; [assumption||reflexivity|]). reflexivity.
Qed.

(* a value above its upper bound *)
Lemma extract_outside : forall g s x j v b, wf g -> extract g s = Ok x -> nth_error (x_params x) j = Some (Num v) -> nth_error (x_hi x) j = Some (Num b) -> (b < v)%Q -> ~ all_within g s.
Proof.
  intros g s x j v b W H Ev Eb Lt Al. pose proof (extract_aligned g s x W H) as (_ & _ & _ & _ & _ & _ & _ & Ag).
  destruct (Ag j) as (c & pl & k & o & ps & v' & lo & hi & t & st & Si & Hh & Fr & M1 & M2 & M3 & M4 & M5 & M6 & M7 & M8 & M9 & _); [apply nth_error_Some; congruence|].
  destruct (Al (cid c)) as (o' & ps' & Hh' & P); [exists c, pl; auto|]. destruct Hh as [Ho Hl]. destruct Hh' as [Ho' Hl']. assert (o' = o) by congruence. subst o'.
  assert (ps' = ps) by congruence. subst ps'. destruct (P k Fr) as (y & lo' & hi' & E1 & E2 & E3 & L1 & L2).
  assert (y = v) by congruence. assert (hi' = b) by congruence. subst. exact (Qlt_not_le _ _ Lt L2).
Qed.

Section Preferential.
Variable L : library.
Variable ops : list op.
Variable ev : evolver.
Variable gen : option Q.
Hypothesis LO : lib_ok L.
Hypothesis OND : NoDup ops.

Lemma in_use_healthy : forall w, in_use L ops w -> healthy w.
Proof.
  intros w (nodes & edges & cur & parent & g & w0 & A & B & C & D & E & F).
  exact (proj1 (session_healthy L ops nodes edges cur parent g w0 w LO OND A B C D E F)).
Qed.
Lemma in_use_evolve : forall w ch w' r, in_use L ops w -> fair L ops w (mkCall ev gen ch) -> evolve_graph L ops ev gen w ch = (w', r) -> in_use L ops w'.
Proof.
  intros w ch w' r (nodes & edges & cur & parent & g & w0 & A & B & C & D & E & F) Fa H. exists nodes, edges, cur, parent, g, w0.
  repeat (split; [assumption|]). apply (ses_evolve L ops w0 w (mkCall ev gen ch) w' r F Fa H).
Qed.

(* one parent at address r; tgt is the object whose parameters the next round overwrites *)
Lemma reproduce_ok : forall fuel h r w vs tgt wt xt chs stops i h' kids, nth_error h r = Some w -> in_use L ops w ->
  (forall j, fair L ops w (mkCall ev gen (chs j w))) -> nth_error h tgt = Some wt -> in_use L ops wt -> extract (w_graph wt) (w_store wt) = Ok xt ->
  (tgt = r -> vs = x_params xt) ->
  reproduce L ops ev gen fuel h r vs tgt (x_models xt) (x_index xt) chs stops i = Ok (h', kids) ->
  length h <= length h' /\ (forall q, q < length h -> q <> tgt -> nth_error h' q = nth_error h q) /\
  (exists wt', nth_error h' tgt = Some wt' /\ imposed vs wt wt' /\ (tgt = r -> wt' = wt)) /\
  (forall k x, nth_error kids k = Some x -> fst x = None /\ length h <= snd x) /\
  (exists ws, Forall2 (fun x v => nth_error h' (snd x) = Some v) kids ws /\ litter L ops ev gen chs w vs ws).
Proof.
  induction fuel as [|f IH]; intros h r w vs tgt wt xt chs stops i h' kids Hr Iw Fa Ht Iu Hx Tr H; cbn [reproduce] in H; [discriminate|].
  assert (D0 : deref h r = Ok w) by (apply deref_ok; exact Hr). rewrite D0 in H. cbn [bind alloc] in H.
  destruct (evolve_at L ops ev gen (h ++ [w]) (length h) (chs i)) as [h2|] eqn:E; [|discriminate]. cbn [bind] in H.
  apply evolve_at_ok in E as (wa & w1 & o & Wa & E1 & Ln & W1 & O).
  rewrite nth_error_app2, Nat.sub_diag in Wa by lia. injection Wa as <-. rewrite app_length in Ln. cbn [length] in Ln.
  assert (Lr : r < length h) by (apply nth_error_Some; congruence). assert (Lt : tgt < length h) by (apply nth_error_Some; congruence).
  assert (Old : forall q, q < length h -> nth_error h2 q = nth_error h q) by (intros q Hq; rewrite O by lia; apply nth_error_app1; exact Hq).
  assert (D1 : deref h2 tgt = Ok wt) by (apply deref_ok; rewrite Old by exact Lt; exact Ht). rewrite D1 in H. cbn [bind] in H.
  destruct (distribute vs (x_models xt) (x_index xt) (w_store wt)) as [s|] eqn:Ds; [|discriminate]. cbn [bind] in H.
  change (mkW (w_graph wt) s (w_cur wt) (w_parent wt) (w_mut wt) (w_hess wt)) with (with_store wt s) in H.
  destruct (store_at h2 tgt (with_store wt s)) as [h3|] eqn:St; [|discriminate]. cbn [bind] in H.
  apply store_at_ok in St as (Ln3 & T3 & O3).
  pose proof (in_use_healthy wt Iu) as ((Wf & _) & _ & Us & _).
  assert (Im : imposed vs wt (with_store wt s)) by (exact (imposed_by vs wt xt s Wf Us Hx Ds)).
  assert (Sm : tgt = r -> with_store wt s = wt).
  { intro X. specialize (Tr X). subst vs. rewrite (read_write_back _ _ _ Hx) in Ds. injection Ds as <-. destruct wt; reflexivity. }
  assert (W3 : nth_error h3 (length h) = Some w1) by (rewrite O3 by lia; exact W1).
  assert (D2 : deref h3 (length h) = Ok w1) by (apply deref_ok; exact W3). rewrite D2 in H. cbn [bind] in H.
  destruct (extract (w_graph w1) (w_store w1)) as [x1|] eqn:X1; [|discriminate]. cbn [bind] in H.
  assert (R3 : nth_error h3 r = Some w).
  { destruct (Nat.eq_dec r tgt) as [->|N]; [rewrite T3, Sm by reflexivity; congruence|]. rewrite O3, Old by (auto; lia). exact Hr. }
  pose proof (in_use_evolve w (chs i w) w1 (Ok o) Iw (Fa i) E1) as I1.
  assert (Frame : forall q, q < length h -> q <> tgt -> nth_error h3 q = nth_error h q) by (intros q Hq N; rewrite O3 by exact N; apply Old; exact Hq).
  assert (Step : forall h' kids, reproduce L ops ev gen f h3 r vs (length h) (x_models x1) (x_index x1) chs stops (S i) = Ok (h', kids) ->
    length h <= length h' /\ (forall q, q < length h -> q <> tgt -> nth_error h' q = nth_error h q) /\ nth_error h' tgt = Some (with_store wt s) /\
    (exists w1', nth_error h' (length h) = Some w1' /\ imposed vs w1 w1') /\
    (forall k x, nth_error kids k = Some x -> fst x = None /\ length h <= snd x) /\
    (exists ws, Forall2 (fun x v => nth_error h' (snd x) = Some v) kids ws /\ litter L ops ev gen chs w vs ws)).
  { intros ha ks G. apply (IH h3 r w vs (length h) w1 x1 chs stops (S i) ha ks R3 Iw Fa W3 I1 X1) in G; [|intro X; lia].
    destruct G as (G1 & G2 & (w1' & G3 & G4 & _) & G5 & G6). split; [lia|]. split; [|split; [|split; [|split; [|exact G6]]]].
    - intros q Hq N. rewrite G2 by lia. apply Frame; assumption.
    - rewrite G2 by lia. exact T3.
    - exists w1'. auto.
    - intros k x Ek. destruct (G5 k x Ek) as [Y1 Y2]. split; [exact Y1|lia]. }
  assert (Skip : forall h' kids, reproduce L ops ev gen f h3 r vs (length h) (x_models x1) (x_index x1) chs stops (S i) = Ok (h', kids) ->
    length h <= length h' /\ (forall q, q < length h -> q <> tgt -> nth_error h' q = nth_error h q) /\
    (exists wt', nth_error h' tgt = Some wt' /\ imposed vs wt wt' /\ (tgt = r -> wt' = wt)) /\
    (forall k x, nth_error kids k = Some x -> fst x = None /\ length h <= snd x) /\
    (exists ws, Forall2 (fun x v => nth_error h' (snd x) = Some v) kids ws /\ litter L ops ev gen chs w vs ws)).
  { intros ha ks G. destruct (Step ha ks G) as (S1 & S2 & S3 & _ & S5 & S6). split; [exact S1|]. split; [exact S2|]. split; [exists (with_store wt s); auto|]. split; [exact S5|exact S6]. }
  destruct (is_dag (w_graph w1)) eqn:Dg; cbn [negb] in H; [|exact (Skip h' kids H)].
  destruct (x_params x1) as [|v0 vr] eqn:Xp; [exact (Skip h' kids H)|].
  destruct (stops i) eqn:Sp.
  - injection H as <- <-. split; [lia|]. split; [exact Frame|]. split; [exists (with_store wt s); auto|]. split.
    + intros [|[|k]] x Ek; cbn in Ek; try discriminate. injection Ek as <-. split; [reflexivity|cbn; lia].
    + exists [w1]. split; [constructor; [exact W3|constructor]|]. exists [], w1. split; [reflexivity|]. split; [exists i, o; exact E1|intros k []].
  - destruct (reproduce L ops ev gen f h3 r vs (length h) (x_models x1) (x_index x1) chs stops (S i)) as [[ha ks]|] eqn:G; [|discriminate]. cbn [bind fst snd] in H. injection H as <- <-.
    destruct (Step ha ks eq_refl) as (S1 & S2 & S3 & (w1' & S4 & S4') & S5 & ws & S6 & before & final & B1 & B2 & B3).
    split; [exact S1|]. split; [exact S2|]. split; [exists (with_store wt s); auto|]. split.
    + intros [|k] x Ek; cbn in Ek; [injection Ek as <-; split; [reflexivity|cbn; lia]|apply (S5 k x Ek)].
    + exists (w1' :: ws). split; [constructor; [exact S4|exact S6]|]. exists (w1' :: before), final. subst ws. split; [reflexivity|]. split; [exact B2|].
      intros k [<-|Hk]; [exists i, o, w1; auto|apply B3, Hk].
Qed.

(* the whole population: one litter per parent, in order *)
Definition family (chs : nat -> nat -> dice) (h h' : heap) (x : individual) (kids : population) : Prop :=
  exists w xs ws, nth_error h (snd x) = Some w /\ extract (w_graph w) (w_store w) = Ok xs /\
    Forall2 (fun y v => nth_error h' (snd y) = Some v) kids ws /\ (exists k, litter L ops ev gen (chs k) w (x_params xs) ws) /\
    forall y, In y kids -> fst y = None /\ length h <= snd y.

Lemma reproduce_each_ok : forall fuel p h chs stops i h' kids,
  (forall x, In x p -> exists w, nth_error h (snd x) = Some w /\ in_use L ops w /\ forall a b, fair L ops w (mkCall ev gen (chs a b w))) ->
  reproduce_each L ops ev gen fuel h p chs stops i = Ok (h', kids) ->
  unchanged h h' /\ exists litters, kids = concat litters /\ Forall2 (family chs h h') p litters.
Proof.
  intros fuel p. induction p as [|[s r] rest IH]; intros h chs stops i h' kids Hyp H; cbn [reproduce_each] in H.
  - injection H as <- <-. split; [apply unchanged_refl|]. exists []. split; [reflexivity|constructor].
  - destruct (Hyp (s, r) (or_introl eq_refl)) as (w & Hw & Iw & Fa). cbn [snd] in Hw.
    assert (D : deref h r = Ok w) by (apply deref_ok; exact Hw). rewrite D in H. cbn [bind] in H.
    destruct (extract (w_graph w) (w_store w)) as [x|] eqn:X; [|discriminate]. cbn [bind] in H.
    destruct (reproduce L ops ev gen fuel h r (x_params x) r (x_models x) (x_index x) (chs i) (stops i) 0) as [[h1 k1]|] eqn:R1; [|discriminate]. cbn [bind fst snd] in H.
    destruct (reproduce_each L ops ev gen fuel h1 rest chs stops (S i)) as [[h2 k2]|] eqn:R2; [|discriminate]. cbn [bind fst snd] in H. injection H as <- <-.
    apply (reproduce_ok fuel h r w (x_params x) r w x (chs i) (stops i) 0 h1 k1 Hw Iw (Fa i) Hw Iw X (fun _ => eq_refl)) in R1.
    destruct R1 as (P1 & P2 & (w' & P3 & _ & P3') & P4 & ws & P5 & P6). rewrite (P3' eq_refl) in P3.
    assert (U1 : unchanged h h1).
    { intros q v Q. destruct (Nat.eq_dec q r) as [->|N]; [congruence|]. rewrite P2; [exact Q| |exact N]. apply nth_error_Some. congruence. }
    apply IH in R2 as (U2 & ls & -> & Fam).
    2:{ intros y Hy. destruct (Hyp y (or_intror Hy)) as (wy & Q1 & Q2 & Q3). exists wy. split; [apply U1; exact Q1|auto]. }
    split; [exact (unchanged_trans _ _ _ U1 U2)|]. exists (k1 :: ls). split; [reflexivity|]. constructor.
    + exists w, x, ws. split; [exact Hw|]. split; [exact X|]. split; [|split; [exists i; exact P6|]].
      * clear -P5 U2. induction P5 as [|a b la lb A F I]; constructor; auto.
      * intros y Hy. apply In_nth_error in Hy as (k & Hk). apply (P4 k y Hk).
    + assert (Up : forall y, In y rest -> exists wy, nth_error h (snd y) = Some wy) by (intros y Hy; destruct (Hyp y (or_intror Hy)) as (wy & Q1 & _); exists wy; exact Q1).
      clear -Fam U1 P1 Up. induction Fam as [|y ks lp ll A F I]; constructor.
      * destruct A as (wy & xy & wsy & A1 & A2 & A3 & A4 & A5). destruct (Up y (or_introl eq_refl)) as (wz & Z). pose proof (U1 _ _ Z) as Z'. assert (wz = wy) by congruence. subst wz.
        exists wy, xy, wsy. split; [exact Z|]. split; [exact A2|]. split; [exact A3|]. split; [exact A4|]. intros q Hq. destruct (A5 q Hq). split; [assumption|lia].
      * apply I. intros q Hq. apply Up. right. exact Hq.
Qed.

Lemma preferential_ok : forall ratio fuel chs stops h p h' p',
  (forall x, In x p -> exists w, nth_error h (snd x) = Some w /\ in_use L ops w /\ forall a b, fair L ops w (mkCall ev gen (chs a b w))) ->
  update_preferential L ops ev gen ratio fuel chs stops h p = Ok (h', p') ->
  unchanged h h' /\ exists litters e, p' = concat litters ++ e /\ elites ratio p e /\ Forall2 (family chs h h') p litters.
Proof.
  intros ratio fuel chs stops h p h' p' Hyp H. unfold update_preferential in H. destruct (map fst p) as [|s0 sr]; [discriminate|].
  match type of H with (if ?b then _ else _) = _ => destruct b; [discriminate|] end.
  destruct (reproduce_each L ops ev gen fuel h p chs stops 0) as [[h1 ks]|] eqn:R; [|discriminate]. cbn [bind fst snd] in H. injection H as <- <-.
  apply reproduce_each_ok in R as (U & ls & -> & Fm); [|exact Hyp]. split; [exact U|]. exists ls, (slice_to (pass_index ratio p) p).
  split; [reflexivity|]. split; [apply slice_elites|exact Fm].
Qed.
End Preferential.
