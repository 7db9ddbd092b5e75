(** Proofs about the roulette, random and preferential rules. *)
From Coq Require Import List Arith Bool ZArith QArith Qround Lia Lqa Qfield.
From Verif Require Import Base GraphModel GraphSpec OperatorsModel ParamsModel ParamsProofs EvolverModel MatrixProofs FloatModel PopulationModel PopulationSpec PopulationProofs.
Import ListNotations.
Local Open Scope nat_scope.

(** ** The wheel *)

Lemma all_some_map : forall A (l : list A), all_some (map Some l) = Some l.
Proof. intros A l. induction l as [|a l IH]; cbn; [reflexivity|]. rewrite IH. reflexivity. Qed.
Lemma map_some_fin : forall qs, map (fun q => Some (Fin q)) qs = map Some (map Fin qs).
Proof. intros. rewrite map_map. reflexivity. Qed.
Lemma reciprocals : forall qs, (forall q, In q qs -> ~ (q == 0)%Q) -> all_some (map reciprocal (map Fin qs)) = Some (map Qinv qs).
Proof.
  induction qs as [|q qs IH]; intro H; cbn; [reflexivity|].
  destruct (Qeq_bool q 0) eqn:E; [apply Qeq_bool_iff in E; destruct (H q (or_introl eq_refl) E)|]. rewrite IH; [reflexivity|]. intros x Hx. apply H. right. exact Hx.
Qed.
Lemma reciprocals_none : forall qs q, In q qs -> (q == 0)%Q -> all_some (map reciprocal (map Fin qs)) = None.
Proof.
  induction qs as [|x qs IH]; intros q Hq E; cbn; [contradiction|]. destruct (Qeq_bool x 0) eqn:Ex; [reflexivity|].
  destruct Hq as [->|Hq]; [apply Qeq_bool_iff in E; congruence|]. rewrite (IH q Hq E). reflexivity.
Qed.

Lemma roulette_finite : forall p qs, finite_scores p qs -> qs <> [] ->
  roulette p = match all_some (map reciprocal (map Fin qs)) with
               | None => Err ValueError
               | Some rs => if Qeq_bool (qsum rs) 0 then Err ValueError
                            else if forallb (Qle_bool 0) (map (fun q => q / qsum rs)%Q rs) then Ok (map (fun q => q / qsum rs)%Q rs) else Err ValueError
               end.
Proof.
  intros p qs F Ne. unfold roulette. rewrite F. destruct qs as [|q qs]; [contradiction|]. cbn [map].
  change (Some (Fin q) :: map (fun q => Some (Fin q)) qs) with (map (fun q => Some (Fin q)) (q :: qs)). rewrite map_some_fin, all_some_map. reflexivity.
Qed.

Lemma qinv_pos : forall q, (0 < q)%Q -> (0 < / q)%Q.
Proof. intros q H. apply Qinv_lt_0_compat. exact H. Qed.
Lemma qinv_opp : forall q, (- / q == / - q)%Q.
Proof. intros q. unfold Qinv, Qopp, Qeq. destruct q as [[|n|n] d]; cbn; lia. Qed.
Lemma qinv_neg : forall q, (q < 0)%Q -> (/ q < 0)%Q.
Proof. intros q H. assert (X : (0 < / - q)%Q) by (apply qinv_pos; lra). rewrite <- qinv_opp in X. lra. Qed.
Lemma qinv_pos_iff : forall q, (0 < / q)%Q -> (0 < q)%Q.
Proof.
  intros q H. destruct (Qlt_le_dec 0 q) as [L|L]; [exact L|exfalso]. destruct (Qlt_le_dec q 0) as [M|M]; [apply qinv_neg in M; lra|].
  assert (E : (q == 0)%Q) by lra. rewrite E in H. change (/ 0)%Q with 0%Q in H. lra.
Qed.

Lemma qsum_pos : forall l, l <> [] -> (forall q, In q l -> 0 < q)%Q -> (0 < qsum l)%Q.
Proof.
  intros [|a l] Ne H; [contradiction|]. clear Ne. change (qsum (a :: l)) with (a + qsum l)%Q. assert (0 < a)%Q by (apply H; left; reflexivity).
  assert (0 <= qsum l)%Q by (apply qsum_nonneg; intros q Hq; apply Qlt_le_weak, H; right; exact Hq). lra.
Qed.
Lemma qsum_opp : forall l, (qsum (map Qopp l) == - qsum l)%Q.
Proof. induction l as [|a l IH]; [reflexivity|]. cbn [map]. change (qsum (a :: l)) with (a + qsum l)%Q. change (qsum (- a :: map Qopp l)) with (- a + qsum (map Qopp l))%Q. rewrite IH. ring. Qed.
Lemma qsum_neg : forall l, l <> [] -> (forall q, In q l -> q < 0)%Q -> (qsum l < 0)%Q.
Proof.
  intros l Ne H. assert (X : (0 < qsum (map Qopp l))%Q).
  { apply qsum_pos; [destruct l; [contradiction|discriminate]|]. intros q Hq. apply in_map_iff in Hq as (x & <- & Hx). specialize (H x Hx). lra. }
  rewrite qsum_opp in X. lra.
Qed.


Lemma wheel_weights : forall p qs, finite_scores p qs -> qs <> [] -> one_sign qs ->
  roulette p = Ok (map (fun q => q / qsum (map Qinv qs))%Q (map Qinv qs)) /\
  (forall w, In w (map (fun q => q / qsum (map Qinv qs))%Q (map Qinv qs)) -> 0 <= w)%Q /\
  (qsum (map (fun q => q / qsum (map Qinv qs))%Q (map Qinv qs)) == 1)%Q.
Proof.
  intros p qs F Ne S. set (t := qsum (map Qinv qs)).
  assert (Nz : forall q, In q qs -> ~ (q == 0)%Q). { intros q Hq E. destruct S as [S|S]; specialize (S q Hq); lra. }
  assert (NeI : map Qinv qs <> []) by (destruct qs; [contradiction|discriminate]).
  assert (T : (0 < t)%Q /\ (forall q, In q qs -> 0 < / q)%Q \/ (t < 0)%Q /\ (forall q, In q qs -> / q < 0)%Q).
  { destruct S as [S|S]; [left|right]; (split; [|intros q Hq; first [apply qinv_pos, S, Hq|apply qinv_neg, S, Hq]]).
    - apply qsum_pos; [exact NeI|]. intros x Hx. apply in_map_iff in Hx as (q & <- & Hq). apply qinv_pos, S, Hq.
    - apply qsum_neg; [exact NeI|]. intros x Hx. apply in_map_iff in Hx as (q & <- & Hq). apply qinv_neg, S, Hq. }
  assert (Tn : ~ (t == 0)%Q) by (destruct T as [[T _]|[T _]]; lra).
  assert (P : forall w, In w (map (fun q => q / t)%Q (map Qinv qs)) -> (0 <= w)%Q).
  { intros w Hw. apply in_map_iff in Hw as (x & <- & Hx). apply in_map_iff in Hx as (q & <- & Hq). unfold Qdiv.
    destruct T as [[T1 T2]|[T1 T2]]; specialize (T2 q Hq).
    - apply Qmult_le_0_compat; [apply Qlt_le_weak; exact T2|apply Qlt_le_weak, qinv_pos, T1].
    - setoid_replace (/ q * / t)%Q with ((- / q) * (- / t))%Q by ring. apply qinv_neg in T1. apply Qmult_le_0_compat; lra. }
  split; [|split; [exact P|rewrite qsum_div; fold t; field; exact Tn]].
  rewrite (roulette_finite p qs F Ne), (reciprocals qs Nz). fold t.
  destruct (Qeq_bool t 0) eqn:E; [apply Qeq_bool_iff in E; contradiction|].
  assert (A : forallb (Qle_bool 0) (map (fun q => q / t)%Q (map Qinv qs)) = true). { apply forallb_forall. intros w Hw. apply Qle_bool_iff, P, Hw. }
  rewrite A. reflexivity.
Qed.

Lemma wheel_chance : forall ps, (forall w, In w ps -> 0 <= w)%Q -> (qsum ps == 1)%Q -> forall i w, nth_error ps i = Some w -> chance_of (choose ps) i w.
Proof.
  intros ps P T1 i w E. assert (Li : i < length ps) by (apply nth_error_Some; congruence).
  exists (qsum (firstn i ps)).
  assert (Sp : (qsum (firstn i ps) + w + qsum (skipn (S i) ps) == 1)%Q).
  { rewrite <- T1. rewrite <- (firstn_skipn i ps) at 3. rewrite qsum_app. rewrite <- Qplus_assoc. apply Qplus_comp; [reflexivity|].
    assert (X : skipn i ps = w :: skipn (S i) ps). { clear -E. revert ps E. induction i as [|i IH]; intros [|a ps] E; cbn in *; try discriminate; [congruence|]. apply IH. exact E. }
    rewrite X. reflexivity. }
  split; [apply qsum_nonneg; intros q Hq; apply P; rewrite <- (firstn_skipn i ps); apply in_app_iff; left; exact Hq|]. split.
  - assert (0 <= qsum (skipn (S i) ps))%Q by (apply qsum_nonneg; intros q Hq; apply P; rewrite <- (firstn_skipn (S i) ps); apply in_app_iff; right; exact Hq). lra.
  - intros u Hu. rewrite (choose_iff ps u i P Hu Li). rewrite (nth_error_nth ps i 0%Q E). reflexivity.
Qed.

Lemma wheel_spin : forall p qs, finite_scores p qs -> qs <> [] -> one_sign qs ->
  exists ps, roulette p = Ok ps /\ forall i q, nth_error qs i = Some q -> chance_of (choose ps) i (/ q / qsum (map Qinv qs))%Q.
Proof.
  intros p qs F Ne S. destruct (wheel_weights p qs F Ne S) as (E & P & T). eexists. split; [exact E|]. intros i q Hq. apply wheel_chance; auto.
  rewrite !nth_error_map, Hq. reflexivity.
Qed.

Lemma wheel_fails : forall p qs, finite_scores p qs -> qs <> [] -> ~ one_sign qs -> roulette p = Err ValueError.
Proof.
  intros p qs F Ne S. rewrite (roulette_finite p qs F Ne).
  destruct (existsb (fun q => Qeq_bool q 0) qs) eqn:Z.
  { apply existsb_exists in Z as (q & Hq & E). apply Qeq_bool_iff in E. rewrite (reciprocals_none qs q Hq E). reflexivity. }
  assert (Nz : forall q, In q qs -> ~ (q == 0)%Q). { intros q Hq E. apply not_true_iff_false in Z. apply Z. apply existsb_exists. exists q. split; [exact Hq|apply Qeq_bool_iff; exact E]. }
  rewrite (reciprocals qs Nz). set (t := qsum (map Qinv qs)). destruct (Qeq_bool t 0) eqn:E; [reflexivity|].
  destruct (forallb (Qle_bool 0) (map (fun q => q / t)%Q (map Qinv qs))) eqn:A; [exfalso|reflexivity].
  rewrite forallb_forall in A. assert (P : forall q, In q qs -> (0 <= / q / t)%Q).
  { intros q Hq. apply Qle_bool_iff, A. apply in_map_iff. exists (/ q)%Q. split; [reflexivity|]. apply in_map. exact Hq. }
  assert (Tn : ~ (t == 0)%Q) by (intro X; apply Qeq_bool_iff in X; congruence).
  assert (R : forall q, In q qs -> (/ q == (/ q / t) * t)%Q) by (intros q Hq; field; split; auto).
  assert (Iz : forall q, In q qs -> ~ (/ q == 0)%Q).
  { intros q Hq X. apply (Nz q Hq). setoid_replace q with (/ / q)%Q by (symmetry; apply Qinv_involutive). rewrite X. reflexivity. }
  apply S. destruct (Qlt_le_dec 0 t) as [T|T]; [left|right; assert (T' : (t < 0)%Q) by (apply Qle_lteq in T as [T|T]; [exact T|contradiction])].
  - intros q Hq. apply qinv_pos_iff. assert (X : (0 <= / q)%Q) by (rewrite (R q Hq); apply Qmult_le_0_compat; [apply P, Hq|lra]). specialize (Iz q Hq). lra.
  - intros q Hq. assert (X : (0 <= - / q)%Q). { setoid_replace (- / q)%Q with ((/ q / t) * (- t))%Q by (field; split; auto). apply Qmult_le_0_compat; [apply P, Hq|lra]. }
    specialize (Iz q Hq). assert (Y : (0 < / - q)%Q) by (rewrite <- qinv_opp; lra). apply qinv_pos_iff in Y. lra.
Qed.

(* which of two scores is likelier *)
Lemma wheel_order_pos : forall qs a b, (forall q, In q qs -> 0 < q)%Q -> In a qs -> In b qs -> (a < b)%Q ->
  (/ b / qsum (map Qinv qs) < / a / qsum (map Qinv qs))%Q.
Proof.
  intros qs a b S Ha Hb Lt. assert (T : (0 < qsum (map Qinv qs))%Q).
  { apply qsum_pos; [destruct qs; [contradiction|discriminate]|]. intros x Hx. apply in_map_iff in Hx as (q & <- & Hq). apply qinv_pos, S, Hq. }
  apply Qmult_lt_r; [apply qinv_pos; exact T|]. pose proof (S a Ha) as Pa. pose proof (S b Hb) as Pb.
  apply (Qmult_lt_r _ _ (a * b)%Q); [apply Qmult_lt_0_compat; assumption|].
  setoid_replace (/ b * (a * b))%Q with a by (field; lra). setoid_replace (/ a * (a * b))%Q with b by (field; lra). exact Lt.
Qed.
Lemma wheel_order_neg : forall qs a b, (forall q, In q qs -> q < 0)%Q -> In a qs -> In b qs -> (a < b)%Q ->
  (/ a / qsum (map Qinv qs) < / b / qsum (map Qinv qs))%Q.
Proof.
  intros qs a b S Ha Hb Lt. assert (T : (qsum (map Qinv qs) < 0)%Q).
  { apply qsum_neg; [destruct qs; [contradiction|discriminate]|]. intros x Hx. apply in_map_iff in Hx as (q & <- & Hq). apply qinv_neg, S, Hq. }
  pose proof (S a Ha) as Pa. pose proof (S b Hb) as Pb. apply qinv_neg in T. unfold Qdiv. set (u := (/ qsum (map Qinv qs))%Q) in *.
  assert (X : (/ b < / a)%Q).
  { assert (Pab : (0 < a * b)%Q) by nra. apply (Qmult_lt_r _ _ (a * b)%Q); [exact Pab|].
    setoid_replace (/ b * (a * b))%Q with a by (field; lra). setoid_replace (/ a * (a * b))%Q with b by (field; lra). exact Lt. }
  nra.
Qed.

(* what a successful spin presupposes *)
Lemma all_some_in : forall A (l : list (option A)) r, all_some l = Some r -> l = map Some r.
Proof.
  induction l as [|[a|] l IH]; intros r H; cbn in H; try discriminate; [injection H as <-; reflexivity|].
  destruct (all_some l) as [t|]; [|discriminate]. injection H as <-. cbn. rewrite (IH t eq_refl). reflexivity.
Qed.
Lemma wheel_needs : forall p ps, roulette p = Ok ps -> p <> [] /\ length ps = length p /\
  forall x, In x p -> exists s, fst x = Some s /\ s <> NaN /\ forall q, s = Fin q -> ~ (q == 0)%Q.
Proof.
  intros p ps H. unfold roulette in H. destruct p as [|x0 p]; [discriminate|]. split; [discriminate|].
  cbn [map] in H. destruct (fst x0) as [s0|] eqn:E0; [|discriminate].
  destruct (all_some (Some s0 :: map fst p)) as [ss|] eqn:A; [|discriminate]. apply all_some_in in A.
  destruct (all_some (map reciprocal ss)) as [rs|] eqn:B; [|discriminate]. apply all_some_in in B.
  destruct (Qeq_bool (qsum rs) 0); [discriminate|]. destruct (forallb (Qle_bool 0) _) in H; [|discriminate]. injection H as <-.
  assert (Ln : length rs = length (x0 :: p)).
  { apply (f_equal (@length _)) in A. apply (f_equal (@length _)) in B. rewrite !map_length in B. cbn [length] in A. rewrite !map_length in A. cbn [length]. unfold individual in *. lia. }
  split; [rewrite map_length; exact Ln|]. intros x Hx.
  assert (Hin : In (fst x) (map Some ss)). { rewrite <- A. rewrite <- E0. apply (in_map fst (x0 :: p) x Hx). }
  apply in_map_iff in Hin as (s & Es & Hs). exists s. split; [symmetry; exact Es|].
  assert (Hr : In (reciprocal s) (map Some rs)) by (rewrite <- B; apply in_map; exact Hs). apply in_map_iff in Hr as (r & Er & _).
  split; [intros ->; discriminate|]. intros q -> Z. cbn in Er. apply Qeq_bool_iff in Z. rewrite Z in Er. discriminate.
Qed.

Section Rules.
Variable L : library.
Variable ops : list op.
Variable ev : evolver.
Variable gen : option Q.

Lemma roulette_ok : forall ratio us chs h p h' p', holds_all h p ->
  update_roulette L ops ev gen ratio us chs h p = Ok (h', p') ->
  exists ps kids e, roulette p = Ok ps /\ p' = kids ++ e /\ elites ratio p e /\ length kids = length p /\ unchanged h h' /\
    forall k kid, nth_error kids k = Some kid -> fst kid = None /\ snd kid = length h + k /\
      exists j par, choose ps (us k) = Some j /\ nth_error p j = Some par /\ offspring L ops ev gen (chs k) h h' (snd par) (snd kid).
Proof.
  intros ratio us chs h p h' p' Hd H. unfold update_roulette in H. destruct (roulette p) as [ps|] eqn:R; [|discriminate]. cbn [bind] in H.
  destruct (breed L ops ev gen _ h p _ chs 0) as [[h1 ks]|] eqn:B; [|discriminate]. cbn [bind fst snd] in H. injection H as <- <-.
  apply breed_ok in B as (Lk & U & _ & K); [|exact Hd].
  exists ps, ks, (slice_to (pass_index ratio p) p). split; [reflexivity|]. split; [reflexivity|]. split; [apply slice_elites|]. split; [exact Lk|]. split; [exact U|].
  intros k kid E. destruct (K k kid E) as (K1 & K2 & j & par & K3 & K4 & K5). split; [exact K1|]. split; [exact K2|]. exists j, par.
  split; [|auto]. cbn [Nat.add] in K3. destruct (choose ps (us k)); cbn in K3; congruence.
Qed.

(** ** Random: in place, elites copied first *)

Lemma copy_all_ok : forall p h h' e, holds_all h p -> copy_all h p = Ok (h', e) ->
  unchanged h h' /\ length h' = length h + length p /\ length e = length p /\
  forall k x, nth_error e k = Some x -> snd x = length h + k /\
    exists x0, nth_error p k = Some x0 /\ fst x = fst x0 /\ nth_error h' (snd x) = nth_error h (snd x0).
Proof.
  induction p as [|[s r] rest IH]; intros h h' e Hd H; cbn [copy_all] in H.
  - injection H as <- <-. split; [apply unchanged_refl|]. split; [cbn; lia|]. split; [reflexivity|]. intros [|k] x E; discriminate.
  - destruct (deref h r) as [w|] eqn:D; [|discriminate]. apply deref_ok in D. cbn [bind alloc fst snd] in H.
    destruct (copy_all (h ++ [w]) rest) as [[h2 e2]|] eqn:C; [|discriminate]. cbn [bind fst snd] in H. injection H as <- <-.
    apply IH in C as (U & Ln & Le & K).
    2:{ intros s' r' Hin. rewrite app_length. specialize (Hd s' r' (or_intror Hin)). lia. }
    rewrite app_length in Ln. cbn [length] in *.
    assert (U0 : unchanged h h2). { intros q v Q. apply U. rewrite nth_error_app1; [exact Q|]. apply nth_error_Some. congruence. }
    split; [exact U0|]. split; [lia|]. split; [lia|]. intros [|k] x E; cbn in E.
    + injection E as <-. cbn [fst snd]. split; [lia|]. exists (s, r). split; [reflexivity|]. split; [reflexivity|]. cbn [snd]. rewrite D. apply U. rewrite nth_error_app2, Nat.sub_diag by lia. reflexivity.
    + destruct (K k x E) as (K1 & x0 & K2 & K3 & K4). rewrite app_length in K1. cbn in K1. split; [lia|]. exists x0. split; [exact K2|]. split; [exact K3|]. rewrite K4.
      apply nth_error_app1. destruct x0 as [s0 r0]. apply (Hd s0 r0). right. apply nth_error_In in K2. exact K2.
Qed.

(* everything but address r is as before *)
Definition only_at (r : nat) (h h' : heap) : Prop := length h' = length h /\ forall q, q <> r -> nth_error h' q = nth_error h q.

Lemma evolve_until_ok : forall fuel h r chs i h', evolve_until L ops ev gen fuel h r chs i = Ok h' ->
  only_at r h h' /\ exists w w', nth_error h r = Some w /\ nth_error h' r = Some w' /\ evolved L ops ev gen chs w w' /\
    is_dag (w_graph w') = true /\ exists x, extract (w_graph w') (w_store w') = Ok x /\ x_params x <> [].
Proof.
  induction fuel as [|f IH]; intros h r chs i h' H; cbn [evolve_until] in H; [discriminate|].
  destruct (evolve_at L ops ev gen h r (chs i)) as [h1|] eqn:A; [|discriminate]. cbn [bind] in H.
  apply evolve_at_ok in A as (w & w1 & o & W & E1 & Ln & W1 & O).
  assert (D : deref h1 r = Ok w1) by (unfold deref; rewrite W1; reflexivity). rewrite D in H. cbn [bind] in H.
  destruct (extract (w_graph w1) (w_store w1)) as [x|] eqn:X; [|discriminate]. cbn [bind] in H.
  assert (Again : evolve_until L ops ev gen f h1 r chs (S i) = Ok h' ->
    only_at r h h' /\ exists w w', nth_error h r = Some w /\ nth_error h' r = Some w' /\ evolved L ops ev gen chs w w' /\
    is_dag (w_graph w') = true /\ exists x, extract (w_graph w') (w_store w') = Ok x /\ x_params x <> []).
  { intro G. apply IH in G as ((Ln' & O') & wa & wb & Wa & Wb & Ev & R). split; [split; [lia|intros q Hq; rewrite O', O by exact Hq; reflexivity]|].
    exists w, wb. split; [exact W|]. split; [exact Wb|]. split; [|exact R]. rewrite W1 in Wa. injection Wa as <-. clear -Ev E1.
    revert w E1. induction Ev as [k wa wc o' E2|k wa wc wd o' Ev IHE E2]; intros w E1.
    - apply (evolved_more _ _ _ _ _ k w wa wc o'); [apply (evolved_once _ _ _ _ _ i w wa o E1)|exact E2].
    - apply (evolved_more _ _ _ _ _ k w wc wd o'); [apply IHE, E1|exact E2]. }
  destruct (is_dag (w_graph w1)) eqn:Dg; cbn [negb] in H; [|exact (Again H)].
  destruct (x_params x) as [|v vs] eqn:Xp; [exact (Again H)|]. injection H as <-.
  split; [split; [exact Ln|exact O]|]. exists w, w1. split; [exact W|]. split; [exact W1|]. split; [apply (evolved_once _ _ _ _ _ i w w1 o E1)|].
  split; [exact Dg|]. exists x. split; [exact X|]. rewrite Xp. discriminate.
Qed.

Lemma evolve_each_ok : forall fuel p h chs i h' p', NoDup (map snd p) -> evolve_each L ops ev gen fuel h p chs i = Ok (h', p') ->
  p' = map (fun x => (None, snd x)) p /\ length h' = length h /\
  (forall q, ~ In q (map snd p) -> nth_error h' q = nth_error h q) /\
  forall x, In x p -> exists w w', nth_error h (snd x) = Some w /\ nth_error h' (snd x) = Some w' /\ (exists k, evolved L ops ev gen (chs k) w w') /\
    is_dag (w_graph w') = true /\ exists e, extract (w_graph w') (w_store w') = Ok e /\ x_params e <> [].
Proof.
  intros fuel p. induction p as [|[s r] rest IH]; intros h chs i h' p' Nd H; cbn [evolve_each] in H.
  - injection H as <- <-. split; [reflexivity|]. split; [reflexivity|]. split; [reflexivity|]. intros x [].
  - destruct (evolve_until L ops ev gen fuel h r (chs i) 0) as [h1|] eqn:E; [|discriminate]. cbn [bind] in H.
    destruct (evolve_each L ops ev gen fuel h1 rest chs (S i)) as [[h2 p2]|] eqn:E2; [|discriminate]. cbn [bind fst snd] in H. injection H as <- <-.
    cbn [map snd] in Nd. inversion Nd as [|? ? N1 N2]; subst.
    apply evolve_until_ok in E as ((Ln & O) & w & w' & W & W' & Ev & R). apply IH in E2 as (-> & Ln2 & O2 & K); [|exact N2].
    split; [reflexivity|]. split; [lia|]. split.
    + intros q Hq. cbn in Hq. rewrite O2, O; [reflexivity| |]; intro X; apply Hq; auto.
    + intros x [<-|Hx].
      * cbn [snd]. exists w, w'. split; [exact W|]. split; [rewrite O2 by exact N1; exact W'|split; [exists i; exact Ev|exact R]].
      * destruct (K x Hx) as (wa & wb & Wa & Wb & R'). exists wa, wb. split; [|auto]. rewrite <- O; [exact Wa|]. intro X. apply N1. rewrite <- X. apply in_map. exact Hx.
Qed.

Lemma random_ok : forall ratio fuel chs h p h' p', holds_all h p -> NoDup (map snd p) ->
  update_random L ops ev gen ratio fuel chs h p = Ok (h', p') ->
  exists kids e e0, p' = kids ++ e /\ kids = map (fun x => (None, snd x)) p /\ elites ratio p e0 /\ length e = length e0 /\
    (forall k x, nth_error e k = Some x -> snd x = length h + k /\
       exists x0, nth_error e0 k = Some x0 /\ fst x = fst x0 /\ nth_error h' (snd x) = nth_error h (snd x0)) /\
    (forall q, q < length h -> ~ In q (map snd p) -> nth_error h' q = nth_error h q) /\
    (forall x, In x p -> exists w w', nth_error h (snd x) = Some w /\ nth_error h' (snd x) = Some w' /\ (exists k, evolved L ops ev gen (chs k) w w') /\
       is_dag (w_graph w') = true /\ exists e, extract (w_graph w') (w_store w') = Ok e /\ x_params e <> []).
Proof.
  intros ratio fuel chs h p h' p' Hd Nd H. unfold update_random in H.
  pose proof (slice_elites ratio p) as El. set (e0 := slice_to (pass_index ratio p) p) in *.
  assert (Hd0 : holds_all h e0). { destruct El as (k & rest & Ep & _). intros s r Hin. apply (Hd s r). rewrite Ep. apply in_or_app. left. exact Hin. }
  destruct (copy_all h e0) as [[h1 e]|] eqn:C; [|discriminate]. cbn [bind fst snd] in H.
  destruct (evolve_each L ops ev gen fuel h1 p chs 0) as [[h2 ks]|] eqn:E; [|discriminate]. cbn [bind fst snd] in H. injection H as <- <-.
  apply copy_all_ok in C as (U & Ln & Le & K); [|exact Hd0]. apply evolve_each_ok in E as (-> & Ln2 & O & R); [|exact Nd].
  assert (Below : forall q, In q (map snd p) -> q < length h). { intros q Hq. apply in_map_iff in Hq as ([s r] & <- & Hin). apply (Hd s r Hin). }
  assert (Same : forall q, q < length h -> nth_error h1 q = nth_error h q). { intros q Hq. destruct (nth_error h q) as [w|] eqn:W; [apply U; exact W|apply nth_error_None in W; lia]. }
  exists (map (fun x => (None, snd x)) p), e, e0. split; [reflexivity|]. split; [reflexivity|]. split; [exact El|]. split; [exact Le|]. split.
  { intros k x Ek. destruct (K k x Ek) as (K1 & x0 & K2 & K3 & K4). split; [exact K1|]. exists x0. split; [exact K2|]. split; [exact K3|].
    rewrite O; [exact K4|]. intro X. apply Below in X. lia. }
  split.
  { intros q Hq Nq. rewrite O by exact Nq. apply Same. exact Hq. }
  intros x Hx. destruct (R x Hx) as (wa & wb & Wa & R'). exists wa, wb. split; [|exact R']. rewrite <- Same; [exact Wa|]. apply Below, in_map, Hx.
Qed.
End Rules.
