(** Tournament selection, evolver choice probabilities (C08, C11), Hessian scores (C43). *)
From Coq Require Import List Arith Bool Lia ZArith QArith Qabs Qround Lqa Permutation.
From Verif Require Import Base GraphModel GraphSpec GraphProofs TopoProofs OperatorsModel OperatorsProofs EvolutionProofs
  ParamsModel EvolverModel EvolverSpec ParamsProofs MatrixProofs EvolverProofs.
Import ListNotations.
Local Open Scope nat_scope.

Lemma assoc_eid_In : forall {A} i (l : list ((nat * nat * nat) * A)) a, assoc_eid i l = Some a -> In (i, a) l.
Proof.
  induction l as [|[j b] r IH]; intros a H; simpl in *; [discriminate|].
  destruct (eid_eq_dec i j) as [->|]; [injection H as ->; left; reflexivity|right; apply IH; exact H].
Qed.

Lemma In_assoc_eid : forall {A} i (l : list ((nat * nat * nat) * A)) a, NoDup (map fst l) -> In (i, a) l -> assoc_eid i l = Some a.
Proof.
  induction l as [|[j b] r IH]; intros a ND H; simpl in *; [destruct H|]. inversion ND; subst.
  destruct H as [E|H].
  - injection E as -> ->. destruct (eid_eq_dec i i); [reflexivity|congruence].
  - destruct (eid_eq_dec i j) as [->|]; [|apply IH; assumption].
    exfalso; apply H2. change j with (fst (j, a)). apply in_map; exact H.
Qed.

(** ** The tournament *)

Definition score_at (sc : list ((nat * nat * nat) * Q)) (l : location) : Q :=
  match l with LIface _ e => match assoc_eid e sc with Some v => v | None => 0%Q end | _ => 0%Q end.

Lemma NoDup_app_l : forall {A} (l l' : list A), NoDup (l ++ l') -> NoDup l.
Proof.
  induction l as [|a r IH]; intros l' H; [constructor|]. simpl in H; inversion H; subst. constructor; [|eapply IH; eassumption].
  intros C; apply H2; apply in_or_app; left; exact C.
Qed.

Section Tournament.
Variables (sh : list nat -> list nat) (rows : list location) (sc : list ((nat * nat * nat) * Q)) (hh : location -> Q).
Hypothesis rND : NoDup rows.
Hypothesis shP : forall l, Permutation (sh l) l.
Hypothesis cand_ok : forall l, In l rows -> close0 (hh l) = false -> exists n e v, l = LIface n e /\ assoc_eid e sc = Some v.

Definition enum (i : nat) (l : list location) : list (nat * location) := combine (seq i (length l)) l.
Definition keep (p : nat * location) : bool := negb (close0 (hh (snd p))).
Definition sel : list (nat * location) := filter keep (enum 0 rows).

Lemma enum_cons : forall i a r, enum i (a :: r) = (i, a) :: enum (S i) r.
Proof. reflexivity. Qed.

Lemma selections_eq : forall pre rs, rows = pre ++ rs ->
  selections rows sc (map hh rs) (length pre) = Ok (map (fun p => (fst p, score_at sc (snd p))) (filter keep (enum (length pre) rs))).
Proof.
  intros pre rs; revert pre; induction rs as [|l r IH]; intros pre E; [reflexivity|].
  cbn [map selections]. rewrite enum_cons. cbn [filter]. unfold keep at 1; cbn [snd].
  assert (E' : rows = (pre ++ [l]) ++ r) by (rewrite <- app_assoc; exact E).
  specialize (IH (pre ++ [l]) E'). rewrite app_length in IH; cbn [length] in IH. rewrite Nat.add_1_r in IH.
  destruct (close0 (hh l)) eqn:C; cbn [negb]; [exact IH|].
  assert (Nl : nth_error rows (length pre) = Some l) by (rewrite E, nth_error_app2, Nat.sub_diag by lia; reflexivity).
  rewrite Nl; cbn [of_option bind].
  destruct (cand_ok l) as (n & e & v & -> & Ev); [rewrite E; apply in_or_app; right; left; reflexivity|exact C|].
  rewrite IH; cbn [bind]. rewrite Ev. cbn [map fst snd score_at]. rewrite Ev. reflexivity.
Qed.

Lemma enum_nth : forall l i k a, In (k, a) (enum i l) <-> i <= k /\ nth_error l (k - i) = Some a.
Proof.
  induction l as [|b r IH]; intros i k a.
  - simpl; split; [tauto|]. intros [_ H]; destruct (k - i); discriminate.
  - rewrite enum_cons. simpl In. rewrite IH. split.
    + intros [E|[H1 H2]]; [injection E as -> ->; split; [lia|rewrite Nat.sub_diag; reflexivity]|].
      split; [lia|]. replace (k - i) with (S (k - S i)) by lia. exact H2.
    + intros [H1 H2]. destruct (Nat.eq_dec i k) as [->|Hne].
      * rewrite Nat.sub_diag in H2. injection H2 as ->. left; reflexivity.
      * right; split; [lia|]. replace (k - i) with (S (k - S i)) in H2 by lia. exact H2.
Qed.

Lemma enum_fst : forall l i, map fst (enum i l) = seq i (length l).
Proof. induction l as [|a r IH]; intros i; [reflexivity|]. rewrite enum_cons; simpl; rewrite IH; reflexivity. Qed.
Lemma enum_snd : forall l i, map snd (enum i l) = l.
Proof. induction l as [|a r IH]; intros i; [reflexivity|]. rewrite enum_cons; simpl; rewrite IH; reflexivity. Qed.

Lemma sel_fst_NoDup : NoDup (map fst sel).
Proof. unfold sel. apply NoDup_map_filter. rewrite enum_fst. apply seq_NoDup. Qed.

Definition cands : list location := filter (fun l => negb (close0 (hh l))) rows.

Lemma sel_snd : map snd sel = cands.
Proof.
  unfold sel, cands. rewrite <- (enum_snd rows 0) at 2. induction (enum 0 rows) as [|p r IH]; simpl; [reflexivity|].
  unfold keep at 1. destruct (close0 (hh (snd p))); simpl; rewrite IH; reflexivity.
Qed.

Lemma arg_min_spec : forall l best, exists v, (arg_min best l, v) = best \/ In (arg_min best l, v) l.
Proof.
  induction l as [|p r IH]; intros best; simpl; [exists (snd best); left; destruct best; reflexivity|].
  destruct (Qlt_le_dec (snd p) (snd best)).
  - destruct (IH p) as (v & [E|H]); exists v; [right; left; symmetry; exact E|right; right; exact H].
  - destruct (IH best) as (v & [E|H]); exists v; [left; exact E|right; right; exact H].
Qed.

Lemma arg_min_le : forall l best, NoDup (map fst (best :: l)) ->
  exists v, In (arg_min best l, v) (best :: l) /\ forall p, In p (best :: l) -> (v <= snd p)%Q.
Proof.
  assert (Gen : forall l best, exists v, In (arg_min best l, v) (best :: l) /\ forall p, In p (best :: l) -> (v <= snd p)%Q).
  { induction l as [|p r IH]; intros best; simpl.
    - exists (snd best). split; [left; destruct best; reflexivity|]. intros q [<-|[]]; lra.
    - destruct (Qlt_le_dec (snd p) (snd best)) as [Lt|Le].
      + destruct (IH p) as (v & H & M). exists v. split; [destruct H as [E|H]; [right; left; exact E|right; right; exact H]|].
        intros q [<-|[<-|Hq]]; [pose proof (M p (or_introl eq_refl)); lra|apply M; left; reflexivity|apply M; right; exact Hq].
      + destruct (IH best) as (v & H & M). exists v. split; [destruct H as [E|H]; [left; exact E|right; right; exact H]|].
        intros q [<-|[<-|Hq]]; [apply M; left; reflexivity|pose proof (M best (or_introl eq_refl)); lra|apply M; right; exact Hq]. }
  intros l best _. apply Gen.
Qed.

Lemma tournament_size_pos : forall n, n <> 0 -> tournament_size n <> 0.
Proof. intros n H; unfold tournament_size; lia. Qed.
Lemma tournament_size_le : forall n, tournament_size n <= n.
Proof. intros n; unfold tournament_size; lia. Qed.

Lemma one_hot_rows : forall i best, nth_error rows i = Some best ->
  one_hot (length rows) i = map (fun l => if location_eq_dec l best then 1%Q else 0%Q) rows.
Proof.
  intros i best N; unfold one_hot. apply nth_ext_eq. intros k.
  destruct (Nat.lt_ge_cases k (length rows)) as [Hk|Hk].
  - destruct (nth_error rows k) as [l|] eqn:Nk; [|apply nth_error_None in Nk; lia].
    rewrite (map_nth_error _ _ _ Nk).
    assert (Sk : nth_error (seq 0 (length rows)) k = Some k).
    { rewrite (nth_error_nth' _ 0) by (rewrite seq_length; exact Hk). rewrite seq_nth by exact Hk. reflexivity. }
    rewrite (map_nth_error _ _ _ Sk). f_equal. destruct (Nat.eqb_spec k i) as [->|Hne].
    + destruct (location_eq_dec l best); [reflexivity|congruence].
    + destruct (location_eq_dec l best) as [->|]; [|reflexivity]. exfalso; apply Hne.
      apply (proj1 (NoDup_nth_error rows) rND); [exact Hk|congruence].
  - rewrite !(proj2 (nth_error_None _ _)); [reflexivity| |]; rewrite map_length; [lia|rewrite seq_length; lia].
Qed.

Lemma tournament_none : cands = [] -> tournament sh rows sc (map hh rows) = Ok (map hh rows).
Proof.
  intros E; unfold tournament. pose proof (selections_eq [] rows eq_refl) as SE. cbn [length] in SE. rewrite SE. cbn [bind]. fold sel.
  assert (S0 : sel = []) by (apply map_eq_nil with (f := snd); rewrite sel_snd; exact E). rewrite S0. reflexivity.
Qed.

Lemma tournament_spec : cands <> [] -> exists best chosen,
  tournament sh rows sc (map hh rows) = Ok (map (fun l => if location_eq_dec l best then 1%Q else 0%Q) rows) /\
  NoDup chosen /\ length chosen = tournament_size (length cands) /\ incl chosen cands /\ In best chosen /\
  forall l, In l chosen -> (score_at sc best <= score_at sc l)%Q.
Proof.
  intros NE. unfold tournament. pose proof (selections_eq [] rows eq_refl) as SE. cbn [length] in SE. rewrite SE. clear SE. cbn [bind]. fold sel.
  set (vs := map (fun p => (fst p, score_at sc (snd p))) sel).
  assert (Lsel : length sel = length cands) by (rewrite <- sel_snd, map_length; reflexivity).
  assert (Lvs : length vs = length cands) by (unfold vs; rewrite map_length; exact Lsel).
  assert (Fvs : map fst vs = map fst sel) by (unfold vs; rewrite map_map; reflexivity).
  destruct vs as [|v0 vr] eqn:Ev; [destruct cands; [congruence|discriminate]|]. rewrite <- Ev in *. clear Ev v0 vr.
  set (k := tournament_size (length vs)).
  set (ch := firstn k (sh (map fst vs))).
  assert (Pch : forall i, In i ch -> In i (map fst sel)).
  { intros i Hi. rewrite <- Fvs. apply (Permutation_in i (shP (map fst vs))). rewrite <- (firstn_skipn k (sh (map fst vs))). apply in_or_app; left; exact Hi. }
  assert (NDch : NoDup ch).
  { assert (ND : NoDup (sh (map fst vs))) by (eapply Permutation_NoDup; [apply Permutation_sym, shP|rewrite Fvs; exact sel_fst_NoDup]).
    rewrite <- (firstn_skipn k (sh (map fst vs))) in ND. apply NoDup_app_l in ND. exact ND. }
  assert (Lch : length ch = k).
  { unfold ch. apply firstn_length_le. rewrite (Permutation_length (shP (map fst vs))), map_length. apply tournament_size_le. }
  (* the entries of the tournament, as index/location pairs *)
  set (tp := filter (fun p => mem (fst p) ch) sel).
  assert (Etour : filter (fun p : nat * Q => mem (fst p) ch) vs = map (fun p => (fst p, score_at sc (snd p))) tp).
  { unfold vs, tp. generalize ch as c. clear. intros c. induction sel as [|p r IH]; simpl; [reflexivity|]. destruct (mem (fst p) c); simpl; rewrite IH; reflexivity. }
  assert (Ltp : length tp = k).
  { rewrite <- Lch. rewrite <- (map_length fst tp). apply Permutation_length. apply NoDup_Permutation; [apply NoDup_map_filter, sel_fst_NoDup|exact NDch|].
    intros i; split; intros H.
    - apply in_map_iff in H; destruct H as (p & <- & Hp). apply filter_In in Hp; destruct Hp as [_ Hp]. apply mem_true; exact Hp.
    - pose proof (Pch i H) as Hs. apply in_map_iff in Hs; destruct Hs as (p & <- & Hp). apply in_map. apply filter_In; split; [exact Hp|apply mem_true; exact H]. }
  rewrite Etour.
  assert (kpos : k <> 0) by (apply tournament_size_pos; rewrite Lvs; destruct cands; [congruence|discriminate]).
  destruct (map (fun p => (fst p, score_at sc (snd p))) tp) as [|t0 tr] eqn:Et.
  { exfalso. apply (f_equal (@length (nat * Q))) in Et. rewrite map_length, Ltp in Et. simpl in Et. lia. }
  assert (NDt : NoDup (map fst (t0 :: tr))).
  { rewrite <- Et, map_map. cbn [fst]. change (fun x : nat * location => fst x) with (@fst nat location). apply NoDup_map_filter, sel_fst_NoDup. }
  destruct (arg_min_le tr t0 NDt) as (v & Hin & Hmin). rewrite <- Et in Hin, Hmin.
  apply in_map_iff in Hin; destruct Hin as ([i best] & E & Hp). injection E as Ei Ev.
  cbn [fst snd] in Ei, Ev.
  assert (Hsel : In (i, best) sel) by (apply filter_In in Hp; tauto).
  assert (Ni : nth_error rows i = Some best).
  { unfold sel in Hsel. apply filter_In in Hsel; destruct Hsel as [Hs _]. apply enum_nth in Hs. rewrite Nat.sub_0_r in Hs. tauto. }
  exists best, (map snd tp). rewrite map_length. rewrite <- Ei. rewrite (one_hot_rows i best Ni). split; [reflexivity|].
  split; [|split; [|split; [|split]]].
  - assert (ND : NoDup (map snd sel)) by (rewrite sel_snd; apply NoDup_filter; exact rND). apply NoDup_map_filter; exact ND.
  - rewrite map_length, Ltp. unfold k. rewrite Lvs; reflexivity.
  - rewrite <- sel_snd. intros l Hl. apply in_map_iff in Hl; destruct Hl as (p & <- & H). apply in_map. apply filter_In in H; tauto.
  - apply in_map_iff; exists (i, best); auto.
  - intros l Hl. apply in_map_iff in Hl; destruct Hl as (p & <- & H). rewrite Ev.
    apply (Hmin (fst p, score_at sc (snd p))). apply in_map_iff; exists p; auto.
Qed.
End Tournament.
