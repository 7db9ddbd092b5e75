(** C94: the condensed comparison of parameter optimisers. *)
From Coq Require Import List Bool Arith Reals Lia Lra.
From Verif Require Import Base CompareModel CompareSpec CompareProofs.
Import ListNotations.
Local Open Scope R_scope.

(* a thousand points from the start of the clock to the first end of a run; at each the mean, the least and the
   greatest of the numbers of those of the first n runs that have a record by then *)
Theorem C94_points : forall n logs, (forall l, In l logs -> in_time l) -> (1 <= n <= List.length logs)%nat ->
  exists e pts, condensed n logs = Ok pts /\ first_end logs e /\ List.length pts = 1000%nat /\
  forall i p, nth_error pts i = Some p -> p_time p = INR i / 999 * e /\ 0 <= p_time p <= e /\
    exists vs, values_at (p_time p) (firstn n logs) vs /\ shows p vs.
Proof. exact condensed_ok. Qed.
Print Assumptions C94_points.

Theorem C94_errors : forall n logs, (forall l, In l logs -> in_time l) ->
  (condensed n logs = Err IndexError <-> (List.length logs < n)%nat) /\ (condensed n logs = Err ValueError <-> n = 0%nat) /\
  ((exists pts, condensed n logs = Ok pts) <-> (1 <= n <= List.length logs)%nat).
Proof.
  intros n logs I. destruct (le_lt_dec 1 n) as [L|L].
  - destruct (le_lt_dec n (List.length logs)) as [M|M].
    + destruct (condensed_ok n logs I (conj L M)) as (e & pts & -> & _). split; [|split]; split; intros X; try discriminate; try lia. exists pts. reflexivity.
    + unfold condensed. replace (Nat.ltb (List.length logs) n) with true by (symmetry; apply Nat.ltb_lt; exact M). split; [|split]; split; intros X; try discriminate; auto; try lia. destruct X as (? & ?). discriminate.
  - assert (n = 0%nat) as -> by lia. unfold condensed. cbn [Nat.ltb Nat.leb Nat.eqb]. replace (Nat.ltb (List.length logs) 0) with false by (symmetry; apply Nat.ltb_ge; lia). split; [|split]; split; intros X; try discriminate; auto; try lia. destruct X as (? & ?). discriminate.
Qed.
Print Assumptions C94_errors.

(* the line runs inside the band, and the band inside what the runs have recorded *)
Theorem C94_band : forall n logs pts p m, (forall l, In l logs -> in_time l) -> condensed n logs = Ok pts -> In p pts -> p_line p = Some m ->
  exists lo hi, p_low p = Some lo /\ p_high p = Some hi /\ lo <= m <= hi /\
    forall a b, (forall l r, In l (firstn n logs) -> In r l -> a <= snd r <= b) -> a <= lo /\ hi <= b.
Proof.
  intros n logs pts p m I C Hp Hm. assert (L : (1 <= n <= List.length logs)%nat) by (apply (C94_errors n logs I); exists pts; exact C).
  destruct (condensed_ok n logs I L) as (e & pts' & C' & F & _ & P). assert (pts' = pts) by congruence. subst pts'. apply In_nth_error in Hp. destruct Hp as (i & Hi).
  destruct (P i p Hi) as (_ & _ & vs & V & S). destruct vs as [|v vs]; [destruct S; congruence|]. destruct S as (m' & lo & hi & E1 & E2 & E3 & M & (L1 & L2) & (G1 & G2)). assert (m' = m) by congruence. subst m'.
  exists lo, hi. split; [exact E2|]. split; [exact E3|]. split.
  - apply (mean_between (v :: vs) m lo hi); [discriminate|exact M|]. intros x Hx. split; [apply L2|apply G2]; exact Hx.
  - intros a b H. split.
    + destruct (values_on_line _ _ _ V lo L1) as (l & A & _ & O). apply (on_line_between l _ lo a b (I l (in_firstn l n logs A)) O). intros r Hr. exact (H l r A Hr).
    + destruct (values_on_line _ _ _ V hi G1) as (l & A & _ & O). apply (on_line_between l _ hi a b (I l (in_firstn l n logs A)) O). intros r Hr. exact (H l r A Hr).
Qed.
Print Assumptions C94_band.

(* nothing is drawn before the first record of the first runner, so nothing at the start of the clock; all runs
   count from the first record of the last one on *)
Theorem C94_begin : forall n logs pts p, (forall l, In l logs -> in_time l) -> condensed n logs = Ok pts -> In p pts ->
  (p_line p = None <-> forall l t, In l (firstn n logs) -> first_at l t -> p_time p < t) /\
  ((forall l t, In l (firstn n logs) -> first_at l t -> t <= p_time p) ->
    exists vs m, Forall2 (fun l v => on_line l (p_time p) v) (firstn n logs) vs /\ p_line p = Some m /\ mean_of vs m /\ List.length vs = n).
Proof.
  intros n logs pts p I C Hp. assert (L : (1 <= n <= List.length logs)%nat) by (apply (C94_errors n logs I); exists pts; exact C).
  destruct (condensed_ok n logs I L) as (e & pts' & C' & F & _ & P). assert (pts' = pts) by congruence. subst pts'. apply In_nth_error in Hp. destruct Hp as (i & Hi).
  destruct (P i p Hi) as (_ & _ & vs & V & S). split; [split|].
  - intros N l t Hl Fl. destruct (Rlt_dec (p_time p) t) as [X|X]; [exact X|]. exfalso. destruct vs as [|v vs]; [|destruct S as (m & ? & ? & E & _); congruence].
    assert (B : started l (p_time p)) by (exists t; split; [exact Fl|lra]). clear -V Hl B. remember [] as w eqn:W. induction V as [|k r vs N V IH|k r v vs S O V IH]; [destruct Hl| |discriminate]. destruct Hl as [->|Hl]; [contradiction|auto].
  - intros H. assert (vs = []) as ->; [|destruct S; assumption]. apply (values_nobody _ _ _ V). intros l Hl (t0 & Fl & T). pose proof (H l t0 Hl Fl). lra.
  - intros H. assert (W : Forall2 (fun l v => on_line l (p_time p) v) (firstn n logs) vs).
    { apply (values_all _ _ _ V). intros l Hl. destruct (I l (in_firstn l n logs Hl)) as (Len & _). destruct l as [|[t0 v0] l]; [cbn in Len; lia|]. exists t0. assert (first_at ((t0, v0) :: l) t0) by (exists v0, l; reflexivity). split; [assumption|]. exact (H _ t0 Hl H0). }
    assert (Len : List.length vs = n). { rewrite <- (Nat.min_l n (List.length logs)) by lia. rewrite <- firstn_length. symmetry. clear -W. induction W; cbn; congruence. }
    destruct vs as [|v vs]; [cbn in Len; lia|]. destruct S as (m & lo & hi & E & _ & _ & M & _). exists (v :: vs), m. auto.
Qed.
Print Assumptions C94_begin.

(* if all runs end together the line ends at the mean of their last scores *)
Theorem C94_finish : forall n logs pts p e finals, (forall l, In l logs -> in_time l) -> condensed n logs = Ok pts -> nth_error pts 999 = Some p ->
  (forall l r, In l logs -> final_record l r -> fst r = e) -> Forall2 final_record (firstn n logs) finals ->
  p_time p = e /\ exists m, p_line p = Some m /\ mean_of (map snd finals) m.
Proof.
  intros n logs pts p e finals I C Hp E Fin. assert (L : (1 <= n <= List.length logs)%nat) by (apply (C94_errors n logs I); exists pts; exact C).
  destruct (condensed_ok n logs I L) as (e' & pts' & C' & F & _ & P). assert (pts' = pts) by congruence. subst pts'.
  assert (e' = e) by (destruct F as ((l & r & A & B & <-) & _); exact (E l r A B)). subst e'. destruct (P 999%nat p Hp) as (T & _).
  assert (Te : p_time p = e) by (rewrite T; replace (INR 999) with 999 by (rewrite INR_IZR_INZ; reflexivity); field). split; [exact Te|].
  destruct (C94_begin n logs pts p I C (nth_error_In _ _ Hp)) as (_ & A). destruct A as (vs & m & W & Em & M & Len).
  - intros l t Hl (v & rest & El). rewrite Te. pose proof (I l (in_firstn l n logs Hl)) as Il. destruct (final_exists l Il) as (r & Fr). rewrite <- (E l r (in_firstn l n logs Hl) Fr).
    apply final_nth in Fr. destruct Il as (Len & _ & Inc). apply Rlt_le. apply (Inc 0%nat (List.length l - 1)%nat (t, v) r); [lia|rewrite El; reflexivity|exact Fr].
  - exists m. split; [exact Em|]. replace (map snd finals) with vs; [exact M|].
    assert (H : forall l, In l (firstn n logs) -> in_time l /\ forall r, final_record l r -> fst r = e) by (intros l Hl; split; [exact (I l (in_firstn l n logs Hl))|intros r; exact (E l r (in_firstn l n logs Hl))]).
    rewrite Te in W. clear -W Fin H. revert finals Fin H. induction W as [|l v ls vs O W IH]; intros finals Fin H; inversion Fin as [|? r ? rs Fr Frs]; subst; [reflexivity|]. cbn [map]. f_equal.
    + destruct (H l (or_introl eq_refl)) as (Il & Er). apply (on_line_final l r v Il Fr). rewrite (Er r Fr). exact O.
    + apply IH; [exact Frs|]. intros k Hk. apply H. right. exact Hk.
Qed.
Print Assumptions C94_finish.

(* two runs with the constant scores 0 and 4 of which the second makes its first record later: the line steps
   from 0 to 2 *)
Definition early : log := [(1, 0); (10, 0)].
Definition late : log := [(8, 4); (10, 4)].
Definition cut : log := [(1, 10); (19, 0)].
Lemma mean_one : forall v m, mean_of [v] m -> m = v.
Proof. intros v m (s & T & E). apply total_unique in T. subst s. cbn in E. lra. Qed.
Lemma mean_two : forall u v m, mean_of [u; v] m -> m = (u + v) / 2.
Proof. intros u v m (s & T & E). apply total_unique in T. subst s. cbn in E. lra. Qed.
Lemma pair_in_time : forall a b, in_time a -> in_time b -> forall l, In l [a; b] -> in_time l.
Proof. intros a b A B l [<-|[<-|[]]]; assumption. Qed.
Lemma early_ok : in_time early. Proof. apply in_time_two; cbn; lra. Qed.
Lemma late_ok : in_time late. Proof. apply in_time_two; cbn; lra. Qed.
Lemma cut_ok : in_time cut. Proof. apply in_time_two; cbn; lra. Qed.
Lemma final_two : forall a b r, final_record [a; b] r -> r = b.
Proof. intros a b r F. apply final_nth in F. cbn in F. congruence. Qed.

(* the three points of the two runs: at 0, in the middle and at the end *)
Example C94_step_case : exists pts p0 p1 p2, condensed 2 [early; late] = Ok pts /\
  nth_error pts 0 = Some p0 /\ p_time p0 = 0 /\ p_line p0 = None /\
  nth_error pts 500 = Some p1 /\ p_line p1 = Some 0 /\ p_high p1 = Some 0 /\
  nth_error pts 999 = Some p2 /\ p_time p2 = 10 /\ p_line p2 = Some 2 /\ p_low p2 = Some 0 /\ p_high p2 = Some 4.
Proof.
  destruct (C94_points 2 [early; late] (pair_in_time _ _ early_ok late_ok) ltac:(cbn; lia)) as (e & pts & C & ((l & r & Hl & Fl & Er) & _) & Len & P). exists pts.
  assert (e = 10) as -> by (destruct Hl as [<-|[<-|[]]]; apply final_two in Fl; subst r; symmetry; exact Er).
  assert (G : forall i, (i < 1000)%nat -> exists p, nth_error pts i = Some p) by (intros i Hi; destruct (nth_error pts i) as [p|] eqn:X; [exists p; reflexivity|apply nth_error_None in X; lia]).
  destruct (G 0%nat ltac:(lia)) as (p0 & H0). destruct (G 500%nat ltac:(lia)) as (p1 & H1). destruct (G 999%nat ltac:(lia)) as (p2 & H2). exists p0, p1, p2.
  split; [exact C|]. destruct (P 0%nat p0 H0) as (T0 & _ & vs0 & V0 & S0). destruct (P 500%nat p1 H1) as (T1 & _ & vs1 & V1 & S1). destruct (P 999%nat p2 H2) as (T2 & _ & vs2 & V2 & S2).
  assert (T0' : p_time p0 = 0) by (rewrite T0; cbn [INR]; field). assert (T1' : p_time p1 = 5000 / 999) by (rewrite T1; replace (INR 500) with 500 by (rewrite INR_IZR_INZ; reflexivity); field).
  assert (T2' : p_time p2 = 10) by (rewrite T2; replace (INR 999) with 999 by (rewrite INR_IZR_INZ; reflexivity); field).
  rewrite T0' in V0. rewrite T1' in V1. rewrite T2' in V2. cbn [firstn] in V0, V1, V2.
  split; [exact H0|]. split; [exact T0'|]. split.
  { inversion V0 as [|? ? ? N Y|? ? ? ? S O Y]; subst; [|apply started_two in S; lra]. inversion Y as [|? ? ? N' Y'|? ? ? ? S O Y']; subst; [|apply started_two in S; lra]. inversion Y'; subst. destruct S0; assumption. }
  split; [exact H1|].
  assert (W1 : vs1 = [0]).
  { inversion V1 as [|? ? ? N Y|? ? ? ? S O Y]; subst; [exfalso; apply N, started_two; lra|]. inversion Y as [|? ? ? N' Y'|? ? ? ? S' O' Y']; subst; [|apply started_two in S'; lra]. inversion Y'; subst. apply on_line_two in O. destruct O as (_ & ->). cbn [fst snd]. f_equal. field. }
  subst vs1. destruct S1 as (m1 & a1 & b1 & E1 & _ & B1 & M1 & _ & (G1 & _)). apply mean_one in M1. destruct G1 as [<-|[]]. split; [congruence|]. split; [exact B1|].
  split; [exact H2|]. split; [exact T2'|].
  assert (W2 : vs2 = [0; 4]).
  { inversion V2 as [|? ? ? N Y|? ? ? ? S O Y]; subst; [exfalso; apply N, started_two; lra|]. inversion Y as [|? ? ? N' Y'|? ? ? ? S' O' Y']; subst; [exfalso; apply N', started_two; lra|]. inversion Y'; subst. apply on_line_two in O, O'. destruct O as (_ & ->). destruct O' as (_ & ->). cbn [fst snd]. f_equal; [field|f_equal; field]. }
  subst vs2. destruct S2 as (m2 & a2 & b2 & E2 & A2 & B2 & M2 & (L2 & L2') & (G2 & G2')). apply mean_two in M2. rewrite E2, A2, B2. split; [f_equal; lra|].
  assert (a2 <= 0) by (apply L2'; left; reflexivity). assert (4 <= b2) by (apply G2'; right; left; reflexivity). split; f_equal; [destruct L2 as [<-|[<-|[]]]; lra|destruct G2 as [<-|[<-|[]]]; lra].
Qed.

(* so runs with constant scores do not give a constant line *)
Theorem C94_constant_refuted : exists logs pts p q x y, (forall l, In l logs -> in_time l /\ exists c, forall r, In r l -> snd r = c) /\
  condensed (List.length logs) logs = Ok pts /\ In p pts /\ In q pts /\ p_line p = Some x /\ p_line q = Some y /\ x <> y.
Proof.
  destruct C94_step_case as (pts & p0 & p1 & p2 & C & _ & _ & _ & H1 & E1 & _ & H2 & _ & E2 & _). exists [early; late], pts, p1, p2, 0, 2.
  split; [intros l [<-|[<-|[]]]; (split; [first [apply early_ok|apply late_ok]|])|]; [exists 0; intros r [<-|[<-|[]]]; reflexivity|exists 4; intros r [<-|[<-|[]]]; reflexivity|].
  split; [exact C|]. split; [exact (nth_error_In _ _ H1)|]. split; [exact (nth_error_In _ _ H2)|]. split; [exact E1|]. split; [exact E2|lra].
Qed.
Print Assumptions C94_constant_refuted.

(* and the line does not end at the mean of the last scores: a run that takes longer is cut off *)
Theorem C94_finish_refuted : exists logs pts p finals m, (forall l, In l logs -> in_time l) /\ condensed (List.length logs) logs = Ok pts /\ nth_error pts 999 = Some p /\
  Forall2 final_record logs finals /\ mean_of (map snd finals) m /\ p_line p <> Some m.
Proof.
  pose proof (pair_in_time _ _ early_ok cut_ok) as I. destruct (C94_points 2 [early; cut] I ltac:(cbn; lia)) as (e & pts & C & ((l & r & Hl & Fl & Er) & Le) & Len & P).
  assert (e = 10) as ->. { pose proof (Le early (10, 0) (or_introl eq_refl) ltac:(exists [(1, 0)]; reflexivity)) as X. cbn in X. destruct Hl as [<-|[<-|[]]]; apply final_two in Fl; subst r; cbn in Er; lra. }
  destruct (nth_error pts 999) as [p|] eqn:H; [|apply nth_error_None in H; lia]. exists [early; cut], pts, p, [(10, 0); (19, 0)], 0.
  split; [exact I|]. split; [exact C|]. split; [exact H|]. split; [constructor; [exists [(1, 0)]; reflexivity|constructor; [exists [(1, 10)]; reflexivity|constructor]]|]. split.
  { exists (fold_right Rplus 0 [0; 0]). split; [apply total_sum|]. cbn. ring. }
  destruct (P 999%nat p H) as (T & _ & vs & V & S). assert (T' : p_time p = 10) by (rewrite T; replace (INR 999) with 999 by (rewrite INR_IZR_INZ; reflexivity); field). rewrite T' in V. cbn [firstn] in V.
  assert (W : vs = [0; 5]).
  { inversion V as [|? ? ? N Y|? ? ? ? Q O Y]; subst; [exfalso; apply N, started_two; lra|]. inversion Y as [|? ? ? N' Y'|? ? ? ? Q' O' Y']; subst; [exfalso; apply N', started_two; lra|]. inversion Y'; subst. apply on_line_two in O, O'. destruct O as (_ & ->). destruct O' as (_ & ->). cbn [fst snd]. f_equal; [field|f_equal; field]. }
  subst vs. destruct S as (m & ? & ? & E & _ & _ & M & _). apply mean_two in M. rewrite E. intros X. injection X as X. lra.
Qed.
Print Assumptions C94_finish_refuted.

(* more runs asked for than there are logs; logs beyond the asked ones still cut the line *)
Example C94_errors_case : condensed 5 [early; late] = Err IndexError /\ condensed 0 [early] = Err ValueError.
Proof. split; reflexivity. Qed.
