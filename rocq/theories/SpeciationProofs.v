(** Proofs about speciation. *)
From Coq Require Import List Arith Bool ZArith QArith Qminmax Permutation Sorted Lia Lqa.
From Verif Require Import Base FloatModel PopulationModel SpeciationModel SpeciationSpec HofProofs.
Import ListNotations.
Local Open Scope nat_scope.

(** ** Dictionaries *)
Lemma mem_In : forall k l, mem k l = true <-> In k l.
Proof. intros k l. unfold mem. rewrite existsb_exists. split; [intros (x & H & E); apply Nat.eqb_eq in E; congruence|intro H; exists k; rewrite Nat.eqb_refl; auto]. Qed.
Lemma mem_false : forall k l, mem k l = false <-> ~ In k l.
Proof. intros k l. rewrite <- mem_In. destruct (mem k l); split; congruence. Qed.
Lemma In_drop : forall x k l, In x (drop k l) <-> In x l /\ x <> k.
Proof. intros x k l. unfold drop. rewrite filter_In, negb_true_iff, Nat.eqb_neq. tauto. Qed.

Section Dict.
Context {V : Type}.
Implicit Type d : dict V.
Lemma dget_In : forall d k v, dget d k = Some v -> In k (dkeys d).
Proof. induction d as [|[a b] d IH]; intros k v H; cbn in *; [discriminate|]. destruct (Nat.eqb_spec a k); [left; exact e|right; exact (IH k v H)]. Qed.
Lemma In_dget : forall d k, In k (dkeys d) -> exists v, dget d k = Some v.
Proof. induction d as [|[a b] d IH]; intros k H; cbn in *; [contradiction|]. destruct (Nat.eqb_spec a k); [exists b; reflexivity|destruct H as [H|H]; [contradiction|exact (IH k H)]]. Qed.
Lemma dget_None : forall d k, dget d k = None <-> ~ In k (dkeys d).
Proof.
  intros d k. destruct (dget d k) eqn:E; split; intro H; try discriminate; try reflexivity.
  - exfalso. exact (H (dget_In d k v E)).
  - intro I. apply In_dget in I as [v I]. congruence.
Qed.
Lemma dget_dset : forall d k v k', dget (dset d k v) k' = if Nat.eqb k k' then Some v else dget d k'.
Proof.
  induction d as [|[a b] d IH]; intros k v k'; cbn [dset]; [cbn; destruct (Nat.eqb k k'); reflexivity|].
  destruct (Nat.eqb_spec a k) as [->|N]; cbn [dget].
  - destruct (Nat.eqb_spec k k'); reflexivity.
  - rewrite IH. destruct (Nat.eqb_spec a k'), (Nat.eqb_spec k k'); congruence.
Qed.
Lemma dkeys_dset_in : forall d k v, In k (dkeys d) -> dkeys (dset d k v) = dkeys d.
Proof. induction d as [|[a b] d IH]; intros k v H; cbn in *; [contradiction|]. destruct (Nat.eqb_spec a k); [reflexivity|]. cbn. unfold dkeys in IH. rewrite IH; [reflexivity|destruct H; congruence]. Qed.
Lemma dset_new : forall d k v, ~ In k (dkeys d) -> dset d k v = d ++ [(k, v)].
Proof. induction d as [|[a b] d IH]; intros k v H; cbn in *; [reflexivity|]. destruct (Nat.eqb_spec a k); [exfalso; apply H; left; exact e|]. rewrite IH; [reflexivity|tauto]. Qed.
Lemma dkeys_dset_new : forall d k v, ~ In k (dkeys d) -> dkeys (dset d k v) = dkeys d ++ [k].
Proof. intros d k v H. rewrite dset_new by exact H. unfold dkeys. rewrite map_app. reflexivity. Qed.
Lemma dkeys_dset : forall d k v x, In x (dkeys (dset d k v)) <-> x = k \/ In x (dkeys d).
Proof.
  intros d k v x. destruct (in_dec Nat.eq_dec k (dkeys d)) as [I|I]; [rewrite dkeys_dset_in by exact I; split; [tauto|intros [->|H]; assumption]|].
  rewrite dkeys_dset_new by exact I. rewrite in_app_iff. cbn. intuition congruence.
Qed.
Lemma NoDup_snoc : forall (l : list nat) k, NoDup l -> ~ In k l -> NoDup (l ++ [k]).
Proof. intros l k N I. apply (Permutation_NoDup (Permutation_cons_append l k)). constructor; assumption. Qed.
Lemma NoDup_dset : forall d k v, NoDup (dkeys d) -> NoDup (dkeys (dset d k v)).
Proof.
  intros d k v N. destruct (in_dec Nat.eq_dec k (dkeys d)) as [I|I]; [rewrite dkeys_dset_in by exact I; exact N|].
  rewrite dkeys_dset_new by exact I. apply NoDup_snoc; assumption.
Qed.
Lemma dkeys_filter : forall (q : nat -> bool) d, dkeys (filter (fun p => q (fst p)) d) = filter q (dkeys d).
Proof. intros q d. unfold dkeys. induction d as [|[a b] d IH]; cbn; [reflexivity|]. destruct (q a); cbn; rewrite IH; reflexivity. Qed.
Lemma dget_filter : forall (q : nat -> bool) d k, dget (filter (fun p => q (fst p)) d) k = if q k then dget d k else None.
Proof.
  intros q d k. induction d as [|[a b] d IH]; cbn; [destruct (q k); reflexivity|]. destruct (q a) eqn:Qa; cbn [dget]; rewrite IH; destruct (Nat.eqb_spec a k) as [->|N]; try reflexivity; rewrite Qa; reflexivity.
Qed.
Lemma dkeys_dpop : forall d k, dkeys (dpop d k) = drop k (dkeys d).
Proof. intros d k. apply (dkeys_filter (fun x => negb (Nat.eqb x k))). Qed.
Lemma dget_dpop : forall d k k', dget (dpop d k) k' = if Nat.eqb k' k then None else dget d k'.
Proof. intros d k k'. unfold dpop. rewrite (dget_filter (fun x => negb (Nat.eqb x k))). destruct (Nat.eqb k' k); reflexivity. Qed.
End Dict.

Lemma sum_dset : forall (d : dict nat) k n m, dget d k = Some n -> list_sum (map snd (dset d k m)) + n = list_sum (map snd d) + m.
Proof.
  unfold list_sum. induction d as [|[a b] d IH]; intros k n m H; cbn [dget dset] in *; [discriminate|]. destruct (Nat.eqb_spec a k); [injection H as ->; cbn [map snd fold_right]; lia|]. cbn [map snd fold_right]. specialize (IH k n m H). lia.
Qed.
Lemma NoDup_drop : forall k l, NoDup l -> NoDup (drop k l).
Proof. intros k l N. apply NoDup_filter. exact N. Qed.

Section Speciation.
Variable dist : nat -> nat -> res fl.

(** ** Representatives *)
Lemma best_rep_ok : forall thresh species rep cands best score b, best_rep dist thresh species rep cands best score = Ok b ->
  b = best \/ exists g, b = Some g /\ In g cands /\ ~ In g (dkeys species) /\ close dist thresh rep g.
Proof.
  intros thresh species rep. induction cands as [|g r IH]; intros best score b H; cbn [best_rep] in H; [injection H as <-; left; reflexivity|].
  destruct (mem g (dkeys species)) eqn:M.
  - apply IH in H as [H|(x & H1 & H2 & H3)]; [left; exact H|right; exists x; cbn; tauto].
  - destruct (dist rep g) as [s|] eqn:D; [|discriminate]. cbn [bind] in H. apply mem_false in M.
    destruct (fltb s score && fltb s (Fin thresh)) eqn:C; apply IH in H as [H|(x & H1 & H2 & H3)]; try (right; exists x; cbn; tauto).
    + right. exists g. split; [exact H|]. split; [left; reflexivity|]. split; [exact M|]. exists s. split; [exact D|]. apply andb_true_iff in C. apply C.
    + left. exact H.
Qed.

Lemma renew_ok : forall thresh pick (pop : list nat), (forall k l, Permutation (pick k l) l) ->
  forall order k graphs species s', NoDup (dkeys species) -> NoDup order -> incl order (dkeys species) -> incl graphs pop ->
  (forall x, In x (dkeys species) -> ~ In x order -> In x pop /\ dget species x = Some 0 /\ ~ In x graphs) ->
  renew dist thresh pick k order graphs species = Ok s' ->
  NoDup (dkeys s') /\ forall x, In x (dkeys s') -> In x pop /\ dget s' x = Some 0.
Proof.
  intros thresh pick pop Pk. induction order as [|rep r IH]; intros k graphs species s' Nk No Io Ig Hx H; cbn [renew] in H.
  - injection H as <-. split; [exact Nk|]. intros x I. destruct (Hx x I (fun f => f)) as (A & B & _). auto.
  - inversion No as [|? ? Nr No']; subst. destruct (mem rep graphs) eqn:M.
    + apply mem_In in M. assert (Ir : In rep (dkeys species)) by (apply Io; left; reflexivity).
      apply IH in H; [exact H| | | | |].
      * rewrite dkeys_dset_in by exact Ir. exact Nk.
      * exact No'.
      * rewrite dkeys_dset_in by exact Ir. intros x I. apply Io. right. exact I.
      * intros x I. apply In_drop in I as [I _]. apply Ig, I.
      * rewrite dkeys_dset_in by exact Ir. intros x I Nx. rewrite dget_dset. destruct (Nat.eqb_spec rep x) as [->|Ne].
        -- split; [apply Ig, M|]. split; [reflexivity|]. rewrite In_drop. tauto.
        -- destruct (Hx x I) as (A & B & C); [intros [E|E]; contradiction|]. split; [exact A|]. split; [exact B|]. rewrite In_drop. tauto.
    + destruct (best_rep dist thresh species rep (pick k graphs) None (Fin 5)) as [b|] eqn:B; [|discriminate]. cbn [bind] in H. cbv zeta in H.
      assert (Io' : incl r (dkeys (dpop species rep))). { intros x I. rewrite dkeys_dpop, In_drop. split; [apply Io; right; exact I|]. intros ->. contradiction. }
      assert (Hx' : forall x, In x (dkeys (dpop species rep)) -> ~ In x r -> In x pop /\ dget (dpop species rep) x = Some 0 /\ ~ In x graphs).
      { intros x I Nx. rewrite dkeys_dpop, In_drop in I. destruct I as [I Ne]. rewrite dget_dpop. destruct (Nat.eqb_spec x rep); [contradiction|]. apply Hx; [exact I|]. intros [E|E]; [congruence|contradiction]. }
      apply best_rep_ok in B as [->|(g & -> & Hg & Ng & _)].
      * apply IH in H; [exact H|rewrite dkeys_dpop; apply NoDup_drop, Nk|exact No'|exact Io'|exact Ig|exact Hx'].
      * apply (Permutation_in _ (Pk k graphs)) in Hg. assert (Ng' : ~ In g (dkeys (dpop species rep))) by (rewrite dkeys_dpop, In_drop; tauto).
        apply IH in H; [exact H| | | | |].
        -- apply NoDup_dset. rewrite dkeys_dpop. apply NoDup_drop, Nk.
        -- exact No'.
        -- intros x I. apply dkeys_dset. right. apply Io', I.
        -- intros x I. apply In_drop in I as [I _]. apply Ig, I.
        -- intros x I Nx. rewrite dget_dset. apply dkeys_dset in I. destruct (Nat.eqb_spec g x) as [<-|Ne].
           ++ split; [apply Ig, Hg|]. split; [reflexivity|]. rewrite In_drop. tauto.
           ++ destruct I as [I|I]; [congruence|]. destruct (Hx' x I Nx) as (A1 & A2 & A3). split; [exact A1|]. split; [exact A2|]. rewrite In_drop. tauto.
Qed.

(** ** Redundant species *)
Lemma redundant_row_ok : forall thresh s0 keys red red', redundant_row dist thresh s0 keys red = Ok red' ->
  incl red red' /\ incl red' (keys ++ red) /\ forall s1, In s1 keys -> s0 = s1 \/ In s0 red' \/ In s1 red' \/ apart dist thresh s0 s1.
Proof.
  intros thresh s0. induction keys as [|k keys IH]; intros red red' H; cbn [redundant_row] in H; [injection H as <-; split; [apply incl_refl|]; split; [apply incl_refl|intros s1 []]|].
  destruct (negb (Nat.eqb s0 k) && negb (mem s0 red) && negb (mem k red)) eqn:C.
  - destruct (dist s0 k) as [d|] eqn:D; [|discriminate]. cbn [bind] in H. apply IH in H as (A & A2 & B). destruct (fltb d (Fin thresh)) eqn:F.
    + split; [intros x I; apply A; right; exact I|]. split; [intros x I; apply A2 in I; rewrite in_app_iff in *; cbn in *; tauto|]. intros s1 [<-|I]; [right; right; left; apply A; left; reflexivity|apply B, I].
    + split; [exact A|]. split; [intros x I; apply A2 in I; rewrite in_app_iff in *; cbn in *; tauto|]. intros s1 [<-|I]; [right; right; right; exists d; auto|apply B, I].
  - apply IH in H as (A & A2 & B). split; [exact A|]. split; [intros x I; apply A2 in I; rewrite in_app_iff in *; cbn in *; tauto|]. intros s1 [<-|I]; [|apply B, I].
    rewrite !andb_false_iff, !negb_false_iff, Nat.eqb_eq, !mem_In in C. destruct C as [[C|C]|C]; auto.
Qed.
Lemma redundant_ok : forall thresh rows keys red red', redundant dist thresh rows keys red = Ok red' ->
  incl red red' /\ forall s0 s1, In s0 rows -> In s1 keys -> s0 = s1 \/ In s0 red' \/ In s1 red' \/ apart dist thresh s0 s1.
Proof.
  intros thresh rows keys. induction rows as [|s0 rows IH]; intros red red' H; cbn [redundant] in H; [injection H as <-; split; [apply incl_refl|intros ? ? []]|].
  destruct (redundant_row dist thresh s0 keys red) as [r1|] eqn:R; [|discriminate]. cbn [bind] in H. apply redundant_row_ok in R as (A & _ & B). apply IH in H as (C & D).
  split; [intros x I; apply C, A, I|]. intros a b [<-|I] J; [|apply D; assumption]. destruct (B b J) as [E|[E|[E|E]]]; auto.
Qed.
Lemma ordpairs_intro : forall (R : nat -> nat -> Prop) l, NoDup l -> (forall a b, In a l -> In b l -> a <> b -> R a b) -> ForallOrdPairs R l.
Proof.
  intros R l N. induction N as [|x l Nx N IH]; intro H; constructor.
  - rewrite Forall_forall. intros y I. apply H; [left; reflexivity|right; exact I|]. intros ->. contradiction.
  - apply IH. intros a b I J. apply H; right; assumption.
Qed.
Lemma ordpairs_snoc : forall (R : nat -> nat -> Prop) l k, ForallOrdPairs R l -> Forall (fun a => R a k) l -> ForallOrdPairs R (l ++ [k]).
Proof.
  intros R l k H. induction H as [|x l F H IH]; intro G; cbn; [constructor; constructor|]. inversion G; subst. constructor; [|apply IH; assumption].
  apply Forall_app. split; [exact F|constructor; [assumption|constructor]].
Qed.

(** ** Slotting *)
Lemma find_rep_some : forall thresh g keys rep, find_rep dist thresh g keys = Ok (Some rep) -> In rep keys /\ close dist thresh rep g.
Proof.
  intros thresh g. induction keys as [|k keys IH]; intros rep H; cbn [find_rep] in H; [discriminate|]. destruct (dist k g) as [d|] eqn:D; [|discriminate]. cbn [bind] in H.
  destruct (fltb d (Fin thresh)) eqn:F; [injection H as <-; split; [left; reflexivity|exists d; auto]|]. apply IH in H as [A B]. split; [right; exact A|exact B].
Qed.
Lemma find_rep_none : forall thresh g keys, find_rep dist thresh g keys = Ok None -> Forall (fun k => apart dist thresh k g) keys.
Proof.
  intros thresh g. induction keys as [|k keys IH]; intros H; cbn [find_rep] in H; [constructor|]. destruct (dist k g) as [d|] eqn:D; [|discriminate]. cbn [bind] in H.
  destruct (fltb d (Fin thresh)) eqn:F; [discriminate|]. constructor; [exists d; auto|apply IH, H].
Qed.
Lemma find_rep_app : forall thresh g keys more rep, find_rep dist thresh g keys = Ok (Some rep) -> find_rep dist thresh g (keys ++ more) = Ok (Some rep).
Proof.
  intros thresh g. induction keys as [|k keys IH]; intros more rep H; cbn [find_rep app] in *; [discriminate|]. destruct (dist k g) as [d|]; [|discriminate]. cbn [bind] in *.
  destruct (fltb d (Fin thresh)); [exact H|apply IH, H].
Qed.

Definition assigned_to (m : dict nat) (rep : nat) (x : individual) : bool := match dget m (snd x) with Some r => Nat.eqb r rep | None => false end.
Lemma members_snoc : forall m rep p x, members m rep (p ++ [x]) = members m rep p + if assigned_to m rep x then 1 else 0.
Proof. intros m rep p x. unfold members. rewrite filter_app, app_length. cbn. unfold assigned_to. destruct (dget m (snd x)) as [r|]; [destruct (Nat.eqb r rep)|]; reflexivity. Qed.
Lemma members_dset : forall m g r rep p, (dget m g = Some r \/ ~ In g (map snd p)) -> members (dset m g r) rep p = members m rep p.
Proof.
  intros m g r rep p H. unfold members. f_equal. apply filter_ext_in. intros x I. rewrite dget_dset. destruct (Nat.eqb_spec g (snd x)) as [->|]; [|reflexivity].
  destruct H as [H|H]; [rewrite H; reflexivity|]. exfalso. apply H. apply in_map. exact I.
Qed.

Lemma members_none : forall m rep p, (forall x r, In x p -> dget m (snd x) = Some r -> r <> rep) -> members m rep p = 0.
Proof.
  intros m rep p. unfold members. induction p as [|x p IH]; intro H; [reflexivity|]. cbn [filter]. destruct (dget m (snd x)) as [r|] eqn:E.
  - destruct (Nat.eqb_spec r rep) as [->|]; [exfalso; exact (H x rep (or_introl eq_refl) E eq_refl)|]. apply IH. intros y r' I. apply H. right. exact I.
  - apply IH. intros y r' I. apply H. right. exact I.
Qed.

Record slotted (thresh : Q) (pop : list nat) (done : population) (sm : dict nat * dict nat) : Prop := {
  sl_assigned : forall x, In x done -> exists rep, dget (snd sm) (snd x) = Some rep;
  sl_only : forall g rep, dget (snd sm) g = Some rep -> In g (map snd done) /\ In rep (dkeys (fst sm)) /\
    (In g (dkeys (fst sm)) -> rep = g) /\ (~ In g (dkeys (fst sm)) -> find_rep dist thresh g (dkeys (fst sm)) = Ok (Some rep));
  sl_reps : forall rep, In rep (dkeys (fst sm)) -> In rep pop;
  sl_sizes : forall rep n, dget (fst sm) rep = Some n -> n = members (snd sm) rep done;
  sl_once : NoDup (dkeys (fst sm));
  sl_total : list_sum (map snd (fst sm)) = length done;
  sl_apart : ForallOrdPairs (apart dist thresh) (dkeys (fst sm)) }.

Lemma slot_step : forall thresh pop done sm x sm', slotted thresh pop done sm -> In (snd x) pop -> slot_one dist thresh sm x = Ok sm' -> slotted thresh pop (done ++ [x]) sm'.
Proof.
  intros thresh pop done [sp m] x sm' S Ip H. unfold slot_one in H. cbv zeta in H. set (g := snd x) in *. destruct S as [S1 S2 S3 S4 S5 S6 S7]. cbn [fst snd] in *.
  (* joining an existing species *)
  assert (Join : forall rep, In rep (dkeys sp) -> (In g (dkeys sp) -> rep = g) -> (~ In g (dkeys sp) -> find_rep dist thresh g (dkeys sp) = Ok (Some rep)) ->
            slotted thresh pop (done ++ [x]) (incr sp rep, dset m g rep)).
  { intros rep Ir Hk Hf. destruct (In_dget sp rep Ir) as [n Hn]. unfold incr. rewrite Hn.
    assert (Hg : dget m g = Some rep \/ ~ In g (map snd done)).
    { destruct (dget m g) as [r|] eqn:Eg.
      - left. f_equal. destruct (S2 g r Eg) as (_ & _ & A & B). destruct (in_dec Nat.eq_dec g (dkeys sp)) as [I|I]; [rewrite (A I), (Hk I); reflexivity|]. specialize (B I). specialize (Hf I). congruence.
      - right. intro I. apply in_map_iff in I as (y & Ey & Iy). destruct (S1 y Iy) as [r Hr]. congruence. }
    constructor; cbn [fst snd].
    - intros y Iy. rewrite dget_dset. destruct (Nat.eqb g (snd y)) eqn:E; [exists rep; reflexivity|]. apply in_app_iff in Iy as [Iy|[<-|[]]]; [exact (S1 y Iy)|]. unfold g in E. rewrite Nat.eqb_refl in E. discriminate.
    - intros g' r. rewrite dget_dset, dkeys_dset_in by exact Ir. rewrite map_app, in_app_iff. destruct (Nat.eqb_spec g g') as [<-|Ne].
      + intro E. injection E as <-. split; [right; left; reflexivity|]. auto.
      + intro E. destruct (S2 g' r E) as (A & B). split; [left; exact A|exact B].
    - intros r. rewrite dkeys_dset_in by exact Ir. apply S3.
    - intros r k. rewrite dget_dset, members_snoc, members_dset by exact Hg. unfold assigned_to. rewrite dget_dset. fold g. rewrite Nat.eqb_refl.
      destruct (Nat.eqb_spec rep r) as [<-|Ne]; intro E.
      + injection E as <-. rewrite <- (S4 rep n Hn). lia.
      + rewrite <- (S4 r k E). lia.
    - rewrite dkeys_dset_in by exact Ir. exact S5.
    - pose proof (sum_dset sp rep n (S n) Hn). rewrite app_length. cbn [length]. lia.
    - rewrite dkeys_dset_in by exact Ir. exact S7. }
  destruct (mem g (dkeys sp)) eqn:M.
  - apply mem_In in M. injection H as <-. apply Join; [exact M|reflexivity|intro N; contradiction].
  - apply mem_false in M. destruct (find_rep dist thresh g (dkeys sp)) as [[rep|]|] eqn:F; cbn [bind] in H; [| |discriminate].
    + injection H as <-. apply Join; [apply (find_rep_some _ _ _ _ F)|intro N; contradiction|intros _; reflexivity].
    + assert (Ng : ~ In g (map snd done)).
      { intro I. apply in_map_iff in I as (y & Ey & Iy). destruct (S1 y Iy) as [r Hr]. rewrite Ey in Hr. destruct (S2 g r Hr) as (_ & _ & _ & B). specialize (B M). congruence. }
      assert (Nm : dget m g = None). { destruct (dget m g) as [r|] eqn:E; [|reflexivity]. destruct (S2 g r E) as [A _]. contradiction. }
      apply dget_None in Nm. rewrite <- mem_false in Nm. rewrite Nm in H. injection H as <-. constructor; cbn [fst snd].
      * intros y Iy. rewrite dget_dset. destruct (Nat.eqb g (snd y)) eqn:E; [exists g; reflexivity|]. apply in_app_iff in Iy as [Iy|[<-|[]]]; [exact (S1 y Iy)|]. unfold g in E. rewrite Nat.eqb_refl in E. discriminate.
      * intros g' r. rewrite dget_dset, dkeys_dset_new by exact M. rewrite map_app, !in_app_iff. cbn [map In]. fold g. destruct (Nat.eqb_spec g g') as [<-|Ne].
        -- intro E. injection E as <-. split; [right; left; reflexivity|]. split; [right; left; reflexivity|]. split; [reflexivity|]. intro N. exfalso. apply N. right. left. reflexivity.
        -- intro E. destruct (S2 g' r E) as (A & B & C & D). split; [left; exact A|]. split; [left; exact B|]. split; [intros [I|[I|[]]]; [exact (C I)|contradiction]|]. intro N. apply find_rep_app. apply D. tauto.
      * intros r. rewrite dkeys_dset_new by exact M. rewrite in_app_iff. intros [I|[<-|[]]]; [apply S3, I|exact Ip].
      * intros r k. rewrite dget_dset, members_snoc, members_dset by (right; exact Ng). unfold assigned_to. rewrite dget_dset. fold g. rewrite Nat.eqb_refl.
        destruct (Nat.eqb_spec g r) as [<-|Ne]; intro E.
        -- injection E as <-. rewrite (members_none m g done); [reflexivity|]. intros y r Iy Ey ->. destruct (S2 (snd y) g Ey) as (_ & B & _). contradiction.
        -- rewrite <- (S4 r k E). lia.
      * apply NoDup_dset, S5.
      * rewrite dset_new by exact M. rewrite map_app, list_sum_app, app_length. cbn. lia.
      * rewrite dkeys_dset_new by exact M. apply ordpairs_snoc; [exact S7|apply find_rep_none, F].
Qed.

Lemma slot_all : forall thresh pop rest done sm sm', slotted thresh pop done sm -> (forall x, In x rest -> In (snd x) pop) -> fold_res (slot_one dist thresh) rest sm = Ok sm' -> slotted thresh pop (done ++ rest) sm'.
Proof.
  intros thresh pop. induction rest as [|x rest IH]; intros done sm sm' S I H; cbn [fold_res] in H; [injection H as <-; rewrite app_nil_r; exact S|].
  destruct (slot_one dist thresh sm x) as [s1|] eqn:E; [|discriminate]. cbn [bind] in H.
  change (x :: rest) with ([x] ++ rest). rewrite app_assoc. apply (IH _ s1); [|intros y J; apply I; right; exact J|exact H]. apply (slot_step _ _ _ sm); [exact S|apply I; left; reflexivity|exact E].
Qed.

Lemma speciate_divided : forall target root order pick sp p sp', NoDup (dkeys (sp_species sp)) -> set_orders order pick sp ->
  speciate target dist root order pick sp p = Ok sp' -> divided dist (sp_thresh sp) p sp'.
Proof.
  intros target root order pick sp p sp' Nk [Po Pp] H. unfold speciate in H. cbv zeta in H. set (t := sp_thresh sp) in *.
  destruct (renew dist t pick 0 order (nodup Nat.eq_dec (map snd p)) (sp_species sp)) as [s1|] eqn:R; [|discriminate]. cbn [bind] in H.
  apply (renew_ok t pick (map snd p) Pp) in R; [|exact Nk|exact (Permutation_NoDup (Permutation_sym Po) Nk)|intros x I; exact (Permutation_in _ Po I)|intros x I; apply nodup_In in I; exact I|].
  2:{ intros x I N. exfalso. apply N. exact (Permutation_in _ (Permutation_sym Po) I). }
  destruct R as [N1 Z1]. destruct (redundant dist t (dkeys s1) (dkeys s1) []) as [red|] eqn:D; [|discriminate]. cbn [bind] in H. apply redundant_ok in D as [_ D].
  set (s2 := filter (fun q => negb (mem (fst q) red)) s1) in *. destruct (fold_res (slot_one dist t) p (s2, [])) as [[spc mp]|] eqn:F; [|discriminate]. cbn [bind fst snd] in H. injection H as <-.
  assert (K2 : dkeys s2 = filter (fun k => negb (mem k red)) (dkeys s1)) by apply (dkeys_filter (fun k => negb (mem k red))).
  assert (S0 : slotted t (map snd p) [] (s2, [])).
  { constructor; cbn [fst snd].
    - intros x [].
    - intros g rep E. discriminate.
    - intros rep I. rewrite K2 in I. apply filter_In in I as [I _]. apply (Z1 rep I).
    - intros rep n E. unfold s2 in E. rewrite (dget_filter (fun k => negb (mem k red))) in E. destruct (negb (mem rep red)); [|discriminate].
      destruct (Z1 rep (dget_In _ _ _ E)) as [_ E0]. rewrite E0 in E. injection E as <-. reflexivity.
    - rewrite K2. apply NoDup_filter, N1.
    - assert (G : forall l : dict nat, NoDup (dkeys l) -> (forall k, In k (dkeys l) -> dget l k = Some 0) -> list_sum (map snd l) = 0).
      { unfold list_sum. induction l as [|[a b] l IH]; intros Nl Hl; [reflexivity|]. cbn [map snd fold_right]. inversion Nl as [|? ? Na Nl']; subst. pose proof (Hl a (or_introl eq_refl)) as E. cbn in E. rewrite Nat.eqb_refl in E. injection E as ->.
        rewrite IH; [reflexivity|exact Nl'|]. intros k Ik. pose proof (Hl k (or_intror Ik)) as E. cbn in E. destruct (Nat.eqb_spec a k) as [->|]; [contradiction|exact E]. }
      apply G; [rewrite K2; apply NoDup_filter, N1|]. intros k I. rewrite K2 in I. apply filter_In in I as [I J]. unfold s2. rewrite (dget_filter (fun k => negb (mem k red))), J. apply (Z1 k I).
    - rewrite K2. apply ordpairs_intro; [apply NoDup_filter, N1|]. intros a b Ia Ib Nab. apply filter_In in Ia as [Ia Ja]. apply filter_In in Ib as [Ib Jb]. rewrite negb_true_iff, mem_false in Ja, Jb.
      destruct (D a b Ia Ib) as [E|[E|[E|E]]]; [contradiction|contradiction|contradiction|exact E]. }
  pose proof (slot_all t (map snd p) p [] (s2, []) (spc, mp) S0 (fun x I => in_map snd _ _ I) F) as [S1 S2 S3 S4 S5 S6 S7]. cbn [app fst snd] in *.
  assert (Rp : forall rep, In rep (dkeys spc) -> dget mp rep = Some rep).
  { intros rep I. pose proof (S3 rep I) as J. apply in_map_iff in J as (x & <- & Jx). destruct (S1 x Jx) as [r Er]. rewrite Er. f_equal. apply (S2 _ _ Er). exact I. }
  constructor; cbn [sp_species sp_map].
  - intros x I. destruct (S1 x I) as [r Er]. exists r. split; [exact Er|]. destruct (S2 _ _ Er) as (_ & A & B & C). split; [exact A|].
    destruct (in_dec Nat.eq_dec (snd x) (dkeys spc)) as [J|J]; [left; apply B, J|right; apply (find_rep_some _ _ _ _ (C J))].
  - intros g rep E. apply (S2 g rep E).
  - intros rep I. split; [apply S3, I|apply Rp, I].
  - intros rep n E. pose proof (S4 rep n E) as ->. split; [reflexivity|]. pose proof (dget_In _ _ _ E) as I. pose proof (S3 rep I) as J. apply in_map_iff in J as (x & Ex & Jx). unfold members.
    match goal with |- 0 < length (filter ?f p) => assert (In x (filter f p)) end.
    { apply filter_In. split; [exact Jx|]. rewrite Ex, (Rp rep I). apply Nat.eqb_refl. }
    unfold individual in *. match goal with H : In x ?l |- 0 < length ?l => destruct l; [contradiction|cbn; lia] end.
  - exact S5.
  - exact S6.
  - exact S7.
Qed.
End Speciation.

(** ** The threshold *)
Lemma adjusted_range : forall root t thresh np ns, (5 # 100 <= adjusted root t thresh np ns <= 95 # 100)%Q.
Proof.
  intros root t thresh np ns. assert (G : forall x, (5 # 100 <= Qmax (5 # 100) (Qmin x (95 # 100)) <= 95 # 100)%Q).
  { intro x. split; [apply Q.le_max_l|]. apply Q.max_lub; [discriminate|apply Q.le_min_r]. }
  unfold adjusted. destruct np; [destruct (_ =? 0)%Z|]; [split; discriminate|apply G|apply G].
Qed.
Lemma managed_once : forall target root d0 n sp, managed target root d0 n sp -> NoDup (dkeys (sp_species sp)).
Proof.
  intros target root d0 n sp H. induction H as [sp E|n sp dist order pick p sp' H IH O E].
  - unfold new_speciation in E. destruct (_ || _); [discriminate|]. injection E as <-. constructor.
  - apply (dv_once _ _ _ _ (speciate_divided dist target root order pick sp p sp' IH O E)).
Qed.
Lemma speciate_thresh : forall target dist root order pick sp p sp', speciate target dist root order pick sp p = Ok sp' ->
  sp_thresh sp' = match target with Some z => adjusted root z (sp_thresh sp) (length p) (length (sp_species sp')) | None => sp_thresh sp end.
Proof.
  intros target dist root order pick sp p sp' H. unfold speciate in H. cbv zeta in H. destruct (renew _ _ _ _ _ _ _); [|discriminate]. cbn [bind] in H. destruct (redundant _ _ _ _ _); [|discriminate]. cbn [bind] in H.
  destruct (fold_res _ _ _); [|discriminate]. cbn [bind] in H. injection H as <-. reflexivity.
Qed.
Lemma threshold_range : forall target root d0 n sp, managed target root d0 n sp -> (0 < sp_thresh sp < 1)%Q /\
  (target = None -> sp_thresh sp = d0) /\ (target <> None -> 0 < n -> (5 # 100 <= sp_thresh sp <= 95 # 100)%Q).
Proof.
  intros target root d0 n sp H. induction H as [sp E|n sp dist order pick p sp' H IH O E].
  - unfold new_speciation in E. destruct (Qle_bool d0 0) eqn:A; [discriminate|]. destruct (Qle_bool 1 d0) eqn:B; [discriminate|]. cbn in E. injection E as <-. cbn [sp_thresh].
    split; [|split; [reflexivity|intros _ L; inversion L]]. split; apply Qnot_le_lt; intro C; apply Qle_bool_iff in C; congruence.
  - rewrite (speciate_thresh _ _ _ _ _ _ _ _ E). destruct IH as (I1 & I2 & _). destruct target as [z|].
    + pose proof (adjusted_range root z (sp_thresh sp) (length p) (length (sp_species sp'))) as R. split; [lra|]. split; [discriminate|]. intros _ _. exact R.
    + split; [exact I1|]. split; [exact I2|]. intro C. contradiction.
Qed.
(* which way it moves *)
Lemma threshold_moves : forall target dist root order pick sp p sp' t, (forall n, 0 < n -> (0 < root n)%Q) -> speciate target dist root order pick sp p = Ok sp' -> target = Some t -> p <> [] ->
  (5 # 100 <= sp_thresh sp <= 95 # 100)%Q ->
  ((t < Z.of_nat (length (sp_species sp')))%Z -> (sp_thresh sp < sp_thresh sp')%Q \/ (sp_thresh sp' == 95 # 100)%Q) /\
  ((Z.of_nat (length (sp_species sp')) < t)%Z -> (sp_thresh sp' < sp_thresh sp)%Q \/ (sp_thresh sp' == 5 # 100)%Q) /\
  ((Z.of_nat (length (sp_species sp')) = t)%Z -> (sp_thresh sp' == sp_thresh sp)%Q).
Proof.
  intros target dist root order pick sp p sp' t Hr H -> Np R. rewrite (speciate_thresh _ _ _ _ _ _ _ _ H). destruct p as [|x p]; [contradiction|]. unfold adjusted. cbn [length]. cbv zeta.
  set (n := S (length p)). assert (P : (0 < (1 # 10) / root n)%Q).
  { assert (0 < root n)%Q by (apply Hr; unfold n; lia). apply Qlt_shift_div_l; [assumption|lra]. }
  set (c := ((1 # 10) / root n)%Q) in *. set (k := length (sp_species sp')). set (th := sp_thresh sp) in *. unfold clip.
  assert (M : forall z, (z < 0)%Z -> (inject_Z z * c < 0)%Q). { intros z Hz. assert (inject_Z z < 0)%Q by (change 0%Q with (inject_Z 0); rewrite <- Zlt_Qlt; exact Hz). nra. }
  assert (M2 : forall z, (0 < z)%Z -> (0 < inject_Z z * c)%Q). { intros z Hz. assert (0 < inject_Z z)%Q by (change 0%Q with (inject_Z 0); rewrite <- Zlt_Qlt; exact Hz). nra. }
  split; [|split]; intro C.
  - assert (0 < inject_Z (-1 * (t - Z.of_nat k)) * c)%Q by (apply M2; lia). set (y := (inject_Z (-1 * (t - Z.of_nat k)) * c)%Q) in *.
    destruct (Q.max_spec y (- (3 # 10))) as [[? E1]|[? E1]], (Q.min_spec (Qmax y (- (3 # 10))) (3 # 10)) as [[? E2]|[? E2]],
      (Q.min_spec (Qmin (Qmax y (- (3 # 10))) (3 # 10) + th) (95 # 100)) as [[? E3]|[? E3]], (Q.max_spec (5 # 100) (Qmin (Qmin (Qmax y (- (3 # 10))) (3 # 10) + th) (95 # 100))) as [[? E4]|[? E4]]; lra.
  - assert (inject_Z (-1 * (t - Z.of_nat k)) * c < 0)%Q by (apply M; lia). set (y := (inject_Z (-1 * (t - Z.of_nat k)) * c)%Q) in *.
    destruct (Q.max_spec y (- (3 # 10))) as [[? E1]|[? E1]], (Q.min_spec (Qmax y (- (3 # 10))) (3 # 10)) as [[? E2]|[? E2]],
      (Q.min_spec (Qmin (Qmax y (- (3 # 10))) (3 # 10) + th) (95 # 100)) as [[? E3]|[? E3]], (Q.max_spec (5 # 100) (Qmin (Qmin (Qmax y (- (3 # 10))) (3 # 10) + th) (95 # 100))) as [[? E4]|[? E4]]; lra.
  - assert (inject_Z (-1 * (t - Z.of_nat k)) * c == 0)%Q by (assert (Z0 : (-1 * (t - Z.of_nat k))%Z = 0%Z) by (unfold k; lia); rewrite Z0; apply Qmult_0_l). set (y := (inject_Z (-1 * (t - Z.of_nat k)) * c)%Q) in *.
    destruct (Q.max_spec y (- (3 # 10))) as [[? E1]|[? E1]], (Q.min_spec (Qmax y (- (3 # 10))) (3 # 10)) as [[? E2]|[? E2]],
      (Q.min_spec (Qmin (Qmax y (- (3 # 10))) (3 # 10) + th) (95 # 100)) as [[? E3]|[? E3]], (Q.max_spec (5 # 100) (Qmin (Qmin (Qmax y (- (3 # 10))) (3 # 10) + th) (95 # 100))) as [[? E4]|[? E4]]; lra.
Qed.

(** ** Fitness sharing *)
Lemma size_positive : forall dist thresh p sp g, divided dist thresh p sp -> In g (map snd p) -> exists n, size_of sp g = Some n /\ 0 < n.
Proof.
  intros dist thresh p sp g D I. apply in_map_iff in I as (x & <- & I). destruct (dv_assigned _ _ _ _ D x I) as (rep & E & Ir & _). apply In_dget in Ir as [n Hn].
  exists n. unfold size_of. rewrite E. split; [exact Hn|]. apply (dv_sizes _ _ _ _ D rep n Hn).
Qed.
Lemma scaling_pos : forall half gen n, 0 < n -> (1 <= scaling half gen n)%Q.
Proof.
  intros half gen n H. unfold scaling. destruct half; [apply Q.le_max_l|]. change 1%Q with (inject_Z 1). rewrite <- Zle_Qle. lia.
Qed.
Lemma fl_round : forall s c, (0 < c)%Q -> exists s', fl_div (fl_mul s c) c = Ok s' /\ same_fl s s'.
Proof.
  intros s c P. unfold fl_div. destruct (Qeq_bool c 0) eqn:E; [apply Qeq_bool_eq in E; lra|]. eexists. split; [reflexivity|].
  assert (Cc : (c ?= 0)%Q = Gt) by (apply Qgt_alt; exact P). assert (Ci : (/ c ?= 0)%Q = Gt) by (apply Qgt_alt; apply Qinv_lt_0_compat; exact P).
  destruct s; cbn [fl_mul]; rewrite ?Cc; cbn [fl_mul]; rewrite ?Ci; cbn [same_fl]; try exact I. field. lra.
Qed.
Lemma share_ok : forall half dist thresh pop sp gen p, divided dist thresh pop sp -> (forall x, In x p -> fst x <> None /\ In (snd x) (map snd pop)) ->
  exists p', execute_fitness_sharing half sp gen p = Ok p' /\ length p' = length p /\
    forall i x, nth_error p i = Some x -> exists n s, size_of sp (snd x) = Some n /\ 0 < n /\ fst x = Some s /\ nth_error p' i = Some (Some (fl_mul s (scaling half gen n)), snd x).
Proof.
  intros half dist thresh pop sp gen p D. unfold execute_fitness_sharing. induction p as [|x p IH]; intro H; cbn [map_res].
  - exists []. split; [reflexivity|]. split; [reflexivity|]. intros [|i] x E; discriminate.
  - destruct IH as (p' & E & Ln & K); [intros y I; apply H; right; exact I|]. destruct (H x (or_introl eq_refl)) as [Hs Hg]. destruct (size_positive _ _ _ _ _ D Hg) as (n & Hn & Pn).
    destruct x as [[s|] g]; cbn [fst snd] in *; [|contradiction]. unfold share_one at 1. cbn [fst snd]. rewrite Hn. cbn [of_option bind]. rewrite E. cbn [bind].
    eexists. split; [reflexivity|]. split; [cbn; lia|]. intros [|i] y Ey; cbn in Ey; [|apply K; exact Ey]. injection Ey as <-. exists n, s. cbn [fst snd]. auto.
Qed.
Lemma picked_cons : forall A (l : list A) i is, picked (i :: is) l = match nth_error l i with Some x => [x] | None => [] end ++ picked is l.
Proof. reflexivity. Qed.
Lemma sharing_undone : forall half dist thresh pop sp gen p p' is, divided dist thresh pop sp -> (forall x, In x p -> fst x <> None /\ In (snd x) (map snd pop)) ->
  execute_fitness_sharing half sp gen p = Ok p' -> exists r, reverse_fitness_sharing half sp gen (picked is p') = Ok r /\ Forall2 same_individual (picked is p) r.
Proof.
  intros half dist thresh pop sp gen p p' is D H E. destruct (share_ok half dist thresh pop sp gen p D H) as (q & Eq & Ln & K). rewrite E in Eq. injection Eq as <-.
  unfold reverse_fitness_sharing. induction is as [|i is IH]; [exists []; split; [reflexivity|constructor]|]. destruct IH as (r & Er & F). rewrite !picked_cons.
  destruct (nth_error p i) as [x|] eqn:Ei.
  - destruct (K i x Ei) as (n & s & Hn & Pn & Hs & Hp). rewrite Hp. cbn [app map_res]. unfold unshare_one at 1. cbn [fst snd]. rewrite Hn.
    assert (P : (0 < scaling half gen n)%Q) by (pose proof (scaling_pos half gen n Pn); lra). destruct (fl_round s _ P) as (s' & Es & Sm). rewrite Es. cbn [bind]. rewrite Er. cbn [bind].
    eexists. split; [reflexivity|]. constructor; [|exact F]. split; [reflexivity|]. rewrite Hs. exact Sm.
  - assert (Ni : nth_error p' i = None) by (apply nth_error_None; apply nth_error_None in Ei; lia). rewrite Ni. cbn [app]. exists r. auto.
Qed.

(** ** Crossover candidates *)
Lemma same_species_ok : forall dist thresh pop sp g p, divided dist thresh pop sp -> In g (map snd pop) -> (forall x, In x p -> In (snd x) (map snd pop)) ->
  exists rep, dget (sp_map sp) g = Some rep /\ same_species sp g p = Some (filter (fun x => match dget (sp_map sp) (snd x) with Some r => Nat.eqb r rep | None => false end && negb (Nat.eqb (snd x) g)) p).
Proof.
  intros dist thresh pop sp g p D Ig H. assert (A : forall g, In g (map snd pop) -> exists rep, dget (sp_map sp) g = Some rep).
  { intros k I. apply in_map_iff in I as (x & <- & I). destruct (dv_assigned _ _ _ _ D x I) as (rep & E & _). exists rep. exact E. }
  destruct (A g Ig) as [rep Er]. exists rep. split; [exact Er|]. induction p as [|x p IH]; [reflexivity|]. cbn [same_species filter]. rewrite Er.
  destruct (A (snd x) (H x (or_introl eq_refl))) as [r Erx]. rewrite Erx, IH by (intros y I; apply H; right; exact I). reflexivity.
Qed.
Lemma insert_scored_perm : forall x l, Permutation (insert_scored x l) (x :: l).
Proof. intros x l. induction l as [|y l IH]; cbn; [reflexivity|]. destruct (fltb (fst x) (fst y)); [reflexivity|]. rewrite IH. apply perm_swap. Qed.
Lemma sort_scored_gen : forall l acc, Permutation (fold_left (fun acc x => insert_scored x acc) l acc) (acc ++ l).
Proof. induction l as [|x l IH]; intro acc; cbn [fold_left]; [rewrite app_nil_r; reflexivity|]. rewrite IH, insert_scored_perm. cbn. apply Permutation_middle. Qed.
Lemma insert_scored_sorted : forall x l, StronglySorted (fun a b : fl * nat => fltb (fst b) (fst a) = false) l -> StronglySorted (fun a b : fl * nat => fltb (fst b) (fst a) = false) (insert_scored x l).
Proof.
  intros x l H. induction H as [|y l S IH F]; cbn; [constructor; constructor|]. destruct (fltb (fst x) (fst y)) eqn:E.
  - constructor; [constructor; assumption|]. constructor; [apply HofProofs.fltb_asym; exact E|]. rewrite Forall_forall in F |- *. intros z Hz. specialize (F z Hz).
    destruct (fltb (fst z) (fst x)) eqn:E2; [|reflexivity]. rewrite (HofProofs.fltb_trans _ _ _ E2 E) in F. discriminate.
  - constructor; [exact IH|]. rewrite Forall_forall in F |- *. intros z Hz. rewrite insert_scored_perm in Hz. destruct Hz as [<-|Hz]; [exact E|apply F, Hz].
Qed.
Lemma sort_scored_sorted : forall l acc, StronglySorted (fun a b : fl * nat => fltb (fst b) (fst a) = false) acc -> StronglySorted (fun a b : fl * nat => fltb (fst b) (fst a) = false) (fold_left (fun acc x => insert_scored x acc) l acc).
Proof. induction l as [|x l IH]; intros acc S; cbn [fold_left]; [exact S|]. apply IH, insert_scored_sorted, S. Qed.
Lemma sort_population_ok : forall p, (forall x, In x p -> fst x <> None) -> exists q, sort_population p = Ok q /\ Permutation q p /\ in_order q.
Proof.
  intros p H. assert (G : exists l, map_res (fun x : individual => match fst x with Some s => Ok (s, snd x) | None => Err TypeError end) p = Ok l /\ p = map (fun y => (Some (fst y), snd y)) l).
  { induction p as [|[[s|] g] p IH]; [exists []; auto| |exfalso; exact (H _ (or_introl eq_refl) eq_refl)]. destruct IH as (l & E & ->); [intros x I; apply H; right; exact I|]. exists ((s, g) :: l). cbn [map_res]. cbn [fst snd bind]. rewrite E. split; reflexivity. }
  destruct G as (l & El & Ep). assert (M : exists q, q = map (fun y : fl * nat => (Some (fst y), snd y)) (sort_scored l) /\ Permutation q p /\ in_order q).
  { eexists. split; [reflexivity|]. split; [rewrite Ep; apply Permutation_map; apply (sort_scored_gen l [])|]. unfold in_order. pose proof (sort_scored_sorted l [] (SSorted_nil _)) as S. fold (sort_scored l) in S. induction S as [|y s S IH F]; cbn [map]; constructor; [exact IH|].
    rewrite Forall_forall in *. intros z Hz. apply in_map_iff in Hz as (v & <- & Hv). cbn [fst snd]. intros a b Ea Eb. injection Ea as <-. injection Eb as <-. apply F, Hv. }
  destruct M as (q & Eq & Pq & Sq). destruct p as [|x [|y p]].
  - exists []. split; [reflexivity|]. split; [constructor|constructor].
  - exists [x]. split; [reflexivity|]. split; [reflexivity|constructor; constructor].
  - exists q. split; [|auto]. unfold sort_population. unfold individual in *. rewrite El. cbn [bind]. rewrite Eq. reflexivity.
Qed.
Lemma candidates_ok : forall dist thresh pop sp g p, divided dist thresh pop sp -> In g (map snd pop) -> (forall x, In x p -> fst x <> None /\ In (snd x) (map snd pop)) ->
  exists l rep, get_crossover_candidates sp g p = Ok l /\ dget (sp_map sp) g = Some rep /\ in_order l /\
    Permutation l (filter (fun x => match dget (sp_map sp) (snd x) with Some r => Nat.eqb r rep | None => false end && negb (Nat.eqb (snd x) g)) p).
Proof.
  intros dist thresh pop sp g p D Ig H. destruct (same_species_ok dist thresh pop sp g p D Ig (fun x I => proj2 (H x I))) as (rep & Er & Es). unfold get_crossover_candidates. rewrite Es.
  destruct (sort_population_ok (filter (fun x => match dget (sp_map sp) (snd x) with Some r => Nat.eqb r rep | None => false end && negb (Nat.eqb (snd x) g)) p)) as (q & Eq & Pq & Sq).
  - intros x I. apply filter_In in I as [I _]. apply H, I.
  - exists q, rep. auto.
Qed.
Lemma candidates_unknown : forall sp g x p, dget (sp_map sp) g = None \/ (exists y, In y (x :: p) /\ dget (sp_map sp) (snd y) = None) -> get_crossover_candidates sp g (x :: p) = Ok [].
Proof.
  intros sp g x p H. unfold get_crossover_candidates. assert (E : same_species sp g (x :: p) = None); [|rewrite E; reflexivity].
  destruct H as [H|(y & I & H)].
  - cbn. rewrite H. destruct (dget (sp_map sp) (snd x)); reflexivity.
  - revert I. generalize (x :: p). induction l as [|z l IH]; intro I; [contradiction|]. cbn. destruct I as [->|I]; [rewrite H; reflexivity|]. rewrite IH by exact I. destruct (dget (sp_map sp) (snd z)), (dget (sp_map sp) g); reflexivity.
Qed.
Lemma scaled_shared : forall half gen n s, 0 < n -> shared half gen n s (fl_mul s (scaling half gen n)).
Proof.
  intros half gen n s H. pose proof (scaling_pos half gen n H) as P. assert (G : (0 < scaling half gen n)%Q) by lra. unfold shared, fl_mul. destruct s as [q| | |]; try (rewrite (proj1 (Qgt_alt _ _) G); reflexivity); [|reflexivity].
  eexists. split; [reflexivity|]. unfold scaling in *. destruct half as [d|]; [|reflexivity]. cbv zeta. split; intro C.
  - rewrite (Q.max_r _ _ C). reflexivity.
  - rewrite (Q.max_l _ _ C). ring.
Qed.
Lemma share_effect : forall half dist thresh pop sp gen p, divided dist thresh pop sp -> (forall x, In x p -> fst x <> None /\ In (snd x) (map snd pop)) ->
  exists p', execute_fitness_sharing half sp gen p = Ok p' /\
    Forall2 (fun x x' : individual => snd x' = snd x /\ exists rep s s', dget (sp_map sp) (snd x) = Some rep /\ fst x = Some s /\ fst x' = Some s' /\
      shared half gen (members (sp_map sp) rep pop) s s') p p'.
Proof.
  intros half dist thresh pop sp gen p D H. destruct (share_ok half dist thresh pop sp gen p D H) as (p' & E & L & K). exists p'. split; [exact E|]. clear E.
  assert (A : forall i x, nth_error p i = Some x -> exists x', nth_error p' i = Some x' /\ snd x' = snd x /\ exists rep s s', dget (sp_map sp) (snd x) = Some rep /\ fst x = Some s /\ fst x' = Some s' /\ shared half gen (members (sp_map sp) rep pop) s s').
  { intros i x Hi. destruct (K i x Hi) as (n & s & Hs & Pn & Fs & Hn). eexists. split; [exact Hn|]. split; [reflexivity|]. unfold size_of in Hs. destruct (dget (sp_map sp) (snd x)) as [rep|] eqn:M; [|discriminate].
    exists rep, s. eexists. split; [reflexivity|]. split; [exact Fs|]. split; [reflexivity|]. destruct (dv_sizes _ _ _ _ D rep n Hs) as [<- _]. apply scaled_shared; exact Pn. }
  clear K H. revert p' L A. induction p as [|x p IH]; intros [|x' p'] L A; try discriminate L; constructor.
  - destruct (A 0 x eq_refl) as (y & Ey & R). cbn in Ey. injection Ey as <-. exact R.
  - apply IH; [cbn in L; injection L; auto|]. intros i y Hi. apply (A (S i) y Hi).
Qed.
