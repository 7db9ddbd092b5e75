(** Proofs about population updates. *)
From Coq Require Import List Arith Bool ZArith QArith Qround Lia Lqa.
From Verif Require Import Base GraphModel GraphSpec OperatorsModel ParamsModel ParamsProofs EvolverModel FloatModel PopulationModel PopulationSpec.
Import ListNotations.
Local Open Scope nat_scope.

(** ** Heap *)
Lemma unchanged_refl : forall h, unchanged h h.
Proof. intros h r w H. exact H. Qed.
Lemma unchanged_trans : forall a b c, unchanged a b -> unchanged b c -> unchanged a c.
Proof. intros a b c H K r w E. auto. Qed.
Lemma unchanged_alloc : forall h w, unchanged h (h ++ [w]).
Proof. intros h w r x E. rewrite nth_error_app1; [exact E|]. apply nth_error_Some. congruence. Qed.
Lemma unchanged_length : forall h h', unchanged h h' -> length h <= length h'.
Proof.
  intros h h' U. destruct (le_lt_dec (length h) (length h')) as [L|L]; [exact L|exfalso].
  destruct (nth_error h (length h')) as [w|] eqn:E; [|apply nth_error_None in E; lia]. apply U in E. assert (X : length h' < length h') by (apply nth_error_Some; congruence). lia.
Qed.
Lemma deref_ok : forall h r w, deref h r = Ok w <-> nth_error h r = Some w.
Proof. intros h r w. unfold deref, of_option. destruct (nth_error h r); split; congruence. Qed.
Lemma store_at_ok : forall h r w h', store_at h r w = Ok h' ->
  length h' = length h /\ nth_error h' r = Some w /\ forall r', r' <> r -> nth_error h' r' = nth_error h r'.
Proof.
  intros h r w h' Q. unfold store_at, of_option in Q. destruct (set_nth r w h) as [l|] eqn:E; [|discriminate]. injection Q as <-.
  apply set_nth_spec in E as (_ & E). exact E.
Qed.
Lemma store_at_some : forall h r w, r < length h -> exists h', store_at h r w = Ok h'.
Proof. intros h r w H. destruct (set_nth_some h r w H) as (l & E & _). exists l. unfold store_at. rewrite E. reflexivity. Qed.

Section Update.
Variable L : library.
Variable ops : list op.
Variable ev : evolver.
Variable gen : option Q.
Notation evolve := (evolve_graph L ops ev gen).

Lemma evolve_at_ok : forall h r ch h', evolve_at L ops ev gen h r ch = Ok h' ->
  exists w w' o, nth_error h r = Some w /\ evolve w (ch w) = (w', Ok o) /\ length h' = length h /\ nth_error h' r = Some w' /\
    forall r', r' <> r -> nth_error h' r' = nth_error h r'.
Proof.
  intros h r ch h' H. unfold evolve_at in H. destruct (deref h r) as [w|] eqn:D; [|discriminate]. cbn [bind] in H.
  destruct (evolve w (ch w)) as [w' e] eqn:E. destruct (store_at h r w') as [h1|] eqn:S; [|discriminate]. cbn [bind] in H. destruct e as [o|]; [|discriminate].
  cbn [bind] in H. injection H as <-. apply deref_ok in D. apply store_at_ok in S as (A & B & C). exists w, w', o. auto.
Qed.

(** ** Copy and evolve *)
Lemma child_ok : forall h r ch h' r', child_of L ops ev gen h r ch = Ok (h', r') ->
  r' = length h /\ length h' = S (length h) /\ unchanged h h' /\ offspring L ops ev gen ch h h' r r'.
Proof.
  intros h r ch h' r' H. unfold child_of in H. destruct (deref h r) as [w|] eqn:D; [|discriminate]. cbn [bind alloc] in H.
  destruct (evolve_at L ops ev gen (h ++ [w]) (length h) ch) as [h2|] eqn:E; [|discriminate]. cbn [bind] in H.
  destruct (deref h2 (length h)) as [w'|] eqn:D'; [|discriminate]. cbn [bind] in H. destruct (is_dag (w_graph w')); [|discriminate]. injection H as <- <-.
  apply evolve_at_ok in E as (w0 & w1 & o & E0 & E1 & Len & E2 & Rest). apply deref_ok in D, D'.
  rewrite nth_error_app2, Nat.sub_diag in E0 by lia. injection E0 as <-. rewrite app_length in Len. cbn in Len.
  split; [reflexivity|]. split; [lia|]. split.
  - intros x v Ex. rewrite Rest; [apply unchanged_alloc; exact Ex|]. assert (x < length h) by (apply nth_error_Some; congruence). lia.
  - exists w, w1, o. auto.
Qed.

Lemma offspring_later : forall d h h' h'' r r', unchanged h' h'' -> offspring L ops ev gen d h h' r r' -> offspring L ops ev gen d h h'' r r'.
Proof. intros d h h' h'' r r' U (w & w' & o & A & B & C). exists w, w', o. auto. Qed.
Lemma offspring_earlier : forall d h0 h h' r r', unchanged h0 h -> r < length h0 -> offspring L ops ev gen d h h' r r' -> offspring L ops ev gen d h0 h' r r'.
Proof.
  intros d h0 h h' r r' U Lr (w & w' & o & A & B & C). exists w, w', o. split; [|auto].
  destruct (nth_error h0 r) as [v|] eqn:E; [|apply nth_error_None in E; lia]. apply U in E. congruence.
Qed.

Lemma breed_ok : forall n h p pick chs i h' kids, holds_all h p -> breed L ops ev gen n h p pick chs i = Ok (h', kids) ->
  length kids = n /\ unchanged h h' /\ length h' = length h + n /\
  forall k kid, nth_error kids k = Some kid -> fst kid = None /\ snd kid = length h + k /\
    exists j par, pick (i + k) = Ok j /\ nth_error p j = Some par /\ offspring L ops ev gen (chs (i + k)) h h' (snd par) (snd kid).
Proof.
  induction n as [|n IH]; intros h p pick chs i h' kids Hd H; cbn [breed] in H.
  - injection H as <- <-. split; [reflexivity|]. split; [apply unchanged_refl|]. split; [lia|]. intros [|k] kid E; discriminate.
  - destruct (pick i) as [j|] eqn:Pi; [|discriminate]. cbn [bind] in H. destruct (nth_error p j) as [par|] eqn:Ej; [|discriminate]. cbn [bind of_option] in H.
    destruct (child_of L ops ev gen h (snd par) (chs i)) as [[h1 r1]|] eqn:C; [|discriminate]. cbn [bind fst snd] in H.
    destruct (breed L ops ev gen n h1 p pick chs (S i)) as [[h2 ks]|] eqn:B; [|discriminate]. cbn [bind fst snd] in H. injection H as <- <-.
    apply child_ok in C as (-> & Len & U & Of).
    assert (Hd1 : holds_all h1 p). { intros s r Hi. specialize (Hd s r Hi). lia. }
    destruct (IH _ _ _ _ _ _ _ Hd1 B) as (Lk & U2 & Len2 & K). split; [cbn; lia|]. split; [exact (unchanged_trans _ _ _ U U2)|]. split; [lia|].
    intros [|k] kid E; cbn in E.
    + injection E as <-. cbn. split; [reflexivity|]. split; [lia|]. exists j, par. rewrite Nat.add_0_r. split; [exact Pi|]. split; [exact Ej|]. exact (offspring_later _ _ _ _ _ _ U2 Of).
    + destruct (K k kid E) as (K1 & K2 & j' & par' & K3 & K4 & K5). split; [exact K1|]. split; [lia|]. exists j', par'. replace (i + S k) with (S i + k) by lia. split; [exact K3|]. split; [exact K4|].
      apply (offspring_earlier _ h h1 h2 _ _ U); [|exact K5]. apply nth_error_In in K4. destruct par' as [s r]. exact (Hd s r K4).
Qed.

(** ** Elites *)
Lemma py_round_nearest : forall x, nearest (py_round x) x.
Proof.
  intro x. unfold py_round, nearest. pose proof (Qfloor_le x) as F1. pose proof (Qlt_floor x) as F2. rewrite inject_Z_plus in F2. change (inject_Z 1) with 1%Q in F2.
  destruct (Qlt_le_dec (x - inject_Z (Qfloor x)) (1 # 2)); [split; lra|].
  destruct (Qlt_le_dec (1 # 2) (x - inject_Z (Qfloor x))); [rewrite inject_Z_plus; change (inject_Z 1) with 1%Q; split; lra|].
  destruct (Z.even (Qfloor x)); [split; lra|]. rewrite inject_Z_plus; change (inject_Z 1) with 1%Q; split; lra.
Qed.
Lemma slice_elites : forall ratio p, elites ratio p (slice_to (pass_index ratio p) p).
Proof.
  intros ratio p. unfold pass_index, slice_to, elites. set (x := (ratio * inject_Z (Z.of_nat (length p)))%Q). pose proof (py_round_nearest x) as N.
  destruct (Z.ltb_spec (py_round x) 0) as [S|S].
  - exists (py_round x), (skipn (length p - Z.to_nat (- py_round x)) p). split; [symmetry; apply firstn_skipn|]. split; [exact N|]. split; [lia|]. intros _. rewrite firstn_length. lia.
  - exists (py_round x), (skipn (Z.to_nat (py_round x)) p). split; [symmetry; apply firstn_skipn|]. split; [exact N|]. split; [|lia]. intros _. apply firstn_length.
Qed.

(** ** Tournament *)
Lemma list_min_ok : forall l m, list_min l = Ok m -> In m l /\ forall x, In x l -> m <= x.
Proof.
  intros [|a l] m H; [discriminate|]. cbn in H. injection H as <-. revert a. induction l as [|b l IH]; intro a; cbn [fold_left].
  - split; [left; reflexivity|]. intros x [->|[]]. lia.
  - destruct (IH (Nat.min a b)) as [I1 I2]. split.
    + destruct I1 as [E|I1]; [|right; right; exact I1]. rewrite <- E. destruct (Nat.min_spec a b) as [[_ M]|[_ M]]; rewrite M; [left|right; left]; reflexivity.
    + intros x [->|[->|Hx]]; [| |apply I2; right; exact Hx].
      * specialize (I2 (Nat.min x b) (or_introl eq_refl)). lia.
      * specialize (I2 (Nat.min a x) (or_introl eq_refl)). lia.
Qed.
Lemma tournament_size_range : forall n d, 0 < n -> 0 < d -> 1 <= tournament_size n d <= n.
Proof.
  intros n d Hn Hd. unfold tournament_size. destruct (Nat.div n d) as [|k] eqn:E; [lia|]. split; [lia|]. rewrite <- E. apply Nat.div_le_upper_bound; nia.
Qed.

Definition tournament_result (ratio : Q) (divisor : nat) (rnds : nat -> nat -> nat) (chs : nat -> dice) (h : heap) (p : population) (h' : heap) (p' : population) : Prop :=
  exists kids e, p' = kids ++ e /\ elites ratio p e /\ length kids = length p /\ unchanged h h' /\
    forall k kid, nth_error kids k = Some kid -> fst kid = None /\ snd kid = length h + k /\
      exists j par, In j (contestants (length p) (tournament_size (length p) divisor) (rnds k)) /\
        (forall c, In c (contestants (length p) (tournament_size (length p) divisor) (rnds k)) -> j <= c) /\
        nth_error p j = Some par /\ offspring L ops ev gen (chs k) h h' (snd par) (snd kid).

Lemma tournament_ok : forall ratio divisor rnds chs h p h' p', holds_all h p ->
  update_tournament L ops ev gen ratio divisor rnds chs h p = Ok (h', p') -> tournament_result ratio divisor rnds chs h p h' p'.
Proof.
  intros ratio divisor rnds chs h p h' p' Hd H. unfold update_tournament in H. destruct p as [|ind p]; [discriminate|]. destruct (Nat.eqb_spec divisor 0) as [->|Nd]; [discriminate|].
  destruct (breed L ops ev gen _ h (ind :: p) _ chs 0) as [[h1 ks]|] eqn:B; [|discriminate]. cbn [bind fst snd] in H. injection H as <- <-.
  apply breed_ok in B as (Lk & U & _ & K); [|exact Hd].
  exists ks, (slice_to (pass_index ratio (ind :: p)) (ind :: p)). split; [reflexivity|]. split; [apply slice_elites|]. split; [exact Lk|]. split; [exact U|].
  intros k kid E. destruct (K k kid E) as (K1 & K2 & j & par & K3 & K4 & K5). split; [exact K1|]. split; [exact K2|]. apply list_min_ok in K3 as [M1 M2]. exists j, par. auto.
Qed.

Lemma contestants_below : forall n size rnd c, 0 < n -> In c (contestants n size rnd) -> c < n.
Proof. intros n size rnd c Hn Hc. unfold contestants in Hc. apply in_map_iff in Hc as (i & <- & _). apply Nat.mod_upper_bound. lia. Qed.
Lemma contestants_length : forall n size rnd, length (contestants n size rnd) = size.
Proof. intros. unfold contestants. rewrite map_length, seq_length. reflexivity. Qed.

Lemma tournament_best : forall ratio divisor rnds chs h p h' p', holds_all h p -> by_rank p ->
  update_tournament L ops ev gen ratio divisor rnds chs h p = Ok (h', p') ->
  forall k kid, k < length p -> nth_error p' k = Some kid ->
  exists par, In par p /\ offspring L ops ev gen (chs k) h h' (snd par) (snd kid) /\
    forall c s sc rc, In c (contestants (length p) (tournament_size (length p) divisor) (rnds k)) -> nth_error p c = Some (Some sc, rc) ->
      fst par = Some s -> fltb sc s = false.
Proof.
  intros ratio divisor rnds chs h p h' p' Hd Br H k kid Lk E. apply tournament_ok in H; [|exact Hd].
  destruct H as (kids & e & -> & _ & Ln & _ & K). rewrite nth_error_app1 in E by lia.
  destruct (K k kid E) as (_ & _ & j & par & C1 & C2 & C3 & C4). exists par. split; [apply nth_error_In in C3; exact C3|]. split; [exact C4|].
  intros c s sc rc Hc Ec Es. destruct par as [sp rp]. cbn in Es. subst sp. apply (Br j c s sc rp rc); auto.
Qed.
Lemma contest_size : forall n divisor rnd, 0 < n -> 0 < divisor ->
  1 <= length (contestants n (tournament_size n divisor) rnd) <= n /\ forall c, In c (contestants n (tournament_size n divisor) rnd) -> c < n.
Proof.
  intros n d rnd Hn Hd. split; [rewrite contestants_length; apply tournament_size_range; assumption|]. intros c. apply contestants_below. exact Hn.
Qed.
End Update.
