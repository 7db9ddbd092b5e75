(** Proofs about the outer optimisation loop. *)
From Coq Require Import List Arith Bool ZArith QArith Qround Permutation Sorted Lia Lqa.
From Verif Require Import Base GraphModel GraphSpec OperatorsModel OperatorsSpec ParamsModel ParamsSpec ParamsProofs EvolverModel EvolveSpec FloatModel HofModel HofSpec HofProofs
  PopulationModel PopulationSpec PopulationProofs RouletteProofs PreferentialProofs TopologyModel TopologySpec.
Import ListNotations.
Local Open Scope nat_scope.

(** ** Rounding *)
Lemma round_up : forall x, (1 # 2 < x)%Q -> (1 <= py_round x)%Z.
Proof.
  intros x H. destruct (Z_lt_le_dec (py_round x) 1) as [L|L]; [exfalso|exact L]. pose proof (py_round_nearest x) as [_ N].
  assert (inject_Z (py_round x) <= 0)%Q by (change 0%Q with (inject_Z 0); rewrite <- Zle_Qle; lia). lra.
Qed.
Lemma round_none : forall x, (0 <= x)%Q -> (x <= 1 # 2)%Q -> py_round x = 0%Z.
Proof.
  intros x A B. assert (F : Qfloor x = 0%Z).
  { pose proof (Qfloor_le x) as F1. pose proof (Qlt_floor x) as F2. apply Z.le_antisymm.
    - apply Z.lt_succ_r. rewrite Zlt_Qlt. change (inject_Z (Z.succ 0)) with 1%Q. lra.
    - apply Z.lt_succ_r. rewrite Zlt_Qlt. unfold Z.succ. change (inject_Z 0) with 0%Q. lra. }
  unfold py_round. rewrite F. change (inject_Z 0) with 0%Q.
  destruct (Qlt_le_dec (x - 0) (1 # 2)); [reflexivity|]. destruct (Qlt_le_dec (1 # 2) (x - 0)); [lra|]. reflexivity.
Qed.
Lemma some_elite : forall ratio (p : population), (1 # 2 < ratio * inject_Z (Z.of_nat (length p)))%Q -> slice_to (pass_index ratio p) p <> [].
Proof.
  intros ratio p H. pose proof (round_up _ H) as R. unfold slice_to, pass_index. destruct (Z.ltb_spec (py_round (ratio * inject_Z (Z.of_nat (length p)))) 0); [lia|].
  destruct p as [|x p]; [cbn in H; ring_simplify in H; lra|]. destruct (Z.to_nat _) eqn:E; [lia|]. discriminate.
Qed.
Lemma no_elite : forall ratio (p : population), (0 <= ratio * inject_Z (Z.of_nat (length p)))%Q -> (ratio * inject_Z (Z.of_nat (length p)) <= 1 # 2)%Q -> slice_to (pass_index ratio p) p = [].
Proof. intros ratio p A B. unfold slice_to, pass_index. rewrite (round_none _ A B). reflexivity. Qed.

Lemma slice_in : forall A i (p : list A) x, In x (slice_to i p) -> In x p.
Proof. intros A i p x H. unfold slice_to in H. destruct (i <? 0)%Z; match type of H with In _ (firstn ?k _) => rewrite <- (firstn_skipn k p) end; apply in_app_iff; left; exact H. Qed.

(** ** Sorting *)
Notation le_score := (fun a b : fl * world => fltb (fst b) (fst a) = false).
Lemma insert_perm : forall x l, Permutation (insert_by_score x l) (x :: l).
Proof. intros x l. induction l as [|y l IH]; cbn; [reflexivity|]. destruct (fltb (fst x) (fst y)); [reflexivity|]. rewrite IH. apply perm_swap. Qed.
Lemma sort_perm_gen : forall l acc, Permutation (fold_left (fun acc x => insert_by_score x acc) l acc) (acc ++ l).
Proof.
  induction l as [|x l IH]; intro acc; cbn [fold_left]; [rewrite app_nil_r; reflexivity|]. rewrite IH, insert_perm. cbn. apply Permutation_middle.
Qed.
Lemma sort_perm : forall l, Permutation (sort_by_score l) l.
Proof. intro l. apply (sort_perm_gen l []). Qed.
Lemma insert_sorted : forall x l, StronglySorted le_score l -> (forall y, In y (x :: l) -> fst y <> NaN) -> StronglySorted le_score (insert_by_score x l).
Proof.
  intros x l H. induction H as [|y l S IH F]; intros N; cbn; [constructor; constructor|].
  destruct (fltb (fst x) (fst y)) eqn:E.
  - constructor; [constructor; assumption|]. constructor; [apply fltb_asym; exact E|]. rewrite Forall_forall in F |- *. intros z Hz. specialize (F z Hz).
    destruct (fltb (fst z) (fst x)) eqn:E2; [|reflexivity]. rewrite (fltb_trans _ _ _ E2 E) in F. discriminate.
  - constructor; [apply IH; intros z Hz; apply N; destruct Hz as [->|Hz]; [left|right; right]; auto|].
    rewrite Forall_forall in F |- *. intros z Hz. rewrite insert_perm in Hz. destruct Hz as [<-|Hz]; [exact E|apply F, Hz].
Qed.
Lemma sort_sorted : forall l, no_nan l -> StronglySorted le_score (sort_by_score l).
Proof.
  intros l N. unfold sort_by_score. assert (G : forall l acc, StronglySorted le_score acc -> (forall y, In y (acc ++ l) -> fst y <> NaN) -> StronglySorted le_score (fold_left (fun acc x => insert_by_score x acc) l acc)).
  { clear. induction l as [|x l IH]; intros acc S N; cbn [fold_left]; [exact S|]. apply IH.
    - apply insert_sorted; [exact S|]. intros y Hy. apply N. apply in_app_iff. destruct Hy as [->|Hy]; [right; left; reflexivity|left; exact Hy].
    - intros y Hy. apply N. apply in_app_iff in Hy. apply in_app_iff. destruct Hy as [Hy|Hy]; [rewrite insert_perm in Hy; destruct Hy as [->|Hy]; [right; left; reflexivity|left; exact Hy]|right; right; exact Hy]. }
  apply G; [constructor|]. intros [s w] Hy. exact (N s w Hy).
Qed.
Lemma kept_best : forall n l, no_nan l -> n_best n l (firstn n (sort_by_score l)).
Proof.
  intros n l N. exists (skipn n (sort_by_score l)). rewrite firstn_skipn. split; [apply sort_perm|]. split; [|apply sort_sorted; exact N].
  rewrite firstn_length. rewrite (Permutation_length (sort_perm l)). reflexivity.
Qed.

Section Topology.
Variable L : library.
Variable ops : list op.
Variable ev : evolver.
Variable sim : world -> world -> res Q.
Variable opt0 : world -> res (fl * world).
Variable opt : nat -> nat -> world -> res (fl * world).
Variable lucks : nat -> luck.
Variable cfg : config.

Notation optimise_all := (optimise_all opt).
Notation update_population := (update_population L ops ev lucks cfg).
Notation one_generation := (one_generation L ops ev sim opt lucks cfg).
Notation generations := (generations L ops ev sim opt lucks cfg).

Lemma optimise_all_ok : forall p g i h l, optimise_all g i h p = Ok l -> length l = length p /\ (forall x, In x p -> fst x = None) /\
  forall k s w', nth_error l k = Some (s, w') -> exists x w w1, nth_error p k = Some x /\ nth_error h (snd x) = Some w /\
    (exists st, update_graph (w_graph w) (w_store w) = Ok st /\ w1 = with_store w st) /\ opt g (i + k) w1 = Ok (s, w').
Proof.
  induction p as [|[s r] p IH]; intros g i h l H; cbn [TopologyModel.optimise_all] in H.
  - injection H as <-. split; [reflexivity|]. split; [intros x []|]. intros [|k] s w' E; discriminate.
  - destruct (deref h r) as [w|] eqn:D; [|discriminate]. cbn [bind] in H. apply deref_ok in D.
    destruct (optimise_complete (opt g i) s w) as [sw|] eqn:O; [|discriminate]. cbn [bind] in H.
    destruct (optimise_all g (S i) h p) as [l2|] eqn:R; [|discriminate]. cbn [bind] in H. injection H as <-.
    apply IH in R as (L2 & N2 & K). unfold optimise_complete in O. destruct s; [discriminate|].
    destruct (update_graph (w_graph w) (w_store w)) as [st|] eqn:U; [|discriminate]. cbn [bind] in O.
    split; [cbn; lia|]. split; [intros x [<-|Hx]; [reflexivity|apply N2, Hx]|]. intros [|k] s w' E; cbn in E.
    + injection E as ->. exists (None, r), w, (with_store w st). split; [reflexivity|]. split; [exact D|]. split; [exists st; auto|]. rewrite Nat.add_0_r. exact O.
    + destruct (K k s w' E) as (x & v & w1 & K1 & K2 & K3 & K4). exists x, v, w1. replace (i + S k) with (S i + k) by lia. auto.
Qed.

(* an elite carried over, whatever stands before it *)
Lemma optimise_all_elite : forall kids g i h x e, fst x <> None -> snd x < length h -> forall l, optimise_all g i h kids = Ok l ->
  optimise_all g i h (kids ++ x :: e) = Err RuntimeError.
Proof.
  induction kids as [|[s r] kids IH]; intros g i h x e Sx Lx l H; cbn [app TopologyModel.optimise_all] in *.
  - destruct x as [[s|] r]; [|contradiction]. cbn in Lx. cbn [TopologyModel.optimise_all]. destruct (nth_error h r) as [w|] eqn:D; [|apply nth_error_None in D; lia]. unfold deref. rewrite D. reflexivity.
  - destruct (deref h r) as [w|]; [|discriminate]. cbn [bind] in *. destruct (optimise_complete (opt g i) s w); [|discriminate]. cbn [bind] in *.
    destruct (optimise_all g (S i) h kids) as [l2|] eqn:R; [|discriminate]. rewrite (IH g (S i) h x e Sx Lx l2 R). reflexivity.
Qed.

(** ** What every update rule returns *)
Lemma copies_scored : forall p h h' e, copy_all h p = Ok (h', e) -> map fst e = map fst p /\ (forall q, q < length h -> nth_error h' q = nth_error h q) /\ length h' = length h + length p /\ forall x, In x e -> snd x < length h'.
Proof.
  induction p as [|[s r] p IH]; intros h h' e H; cbn [copy_all] in H.
  - injection H as <- <-. split; [reflexivity|]. split; [reflexivity|]. split; [cbn; lia|intros x []].
  - destruct (deref h r) as [w|]; [|discriminate]. cbn [bind alloc] in H. destruct (copy_all (h ++ [w]) p) as [[h2 e2]|] eqn:C; [|discriminate]. cbn [bind fst snd] in H. injection H as <- <-.
    apply IH in C as (A & B & D & E). rewrite app_length in *. cbn [length] in *. split; [cbn; rewrite A; reflexivity|]. split; [|split; [lia|]].
    + intros q Hq. rewrite B by lia. apply nth_error_app1. exact Hq.
    + intros x [<-|Hx]; [cbn; lia|apply E, Hx].
Qed.
Lemma evolve_each_shape : forall gen fuel p h chs i h' k, evolve_each L ops ev gen fuel h p chs i = Ok (h', k) -> length h' = length h /\ k = map (fun x => (None, snd x)) p.
Proof.
  intros gen fuel p. induction p as [|[s r] p IH]; intros h chs i h' k H; cbn [evolve_each] in H; [injection H as <- <-; auto|].
  destruct (evolve_until L ops ev gen fuel h r (chs i) 0) as [h1|] eqn:E; [|discriminate]. cbn [bind] in H.
  destruct (evolve_each L ops ev gen fuel h1 p chs (S i)) as [[h2 p2]|] eqn:E2; [|discriminate]. cbn [bind fst snd] in H. injection H as <- <-.
  apply evolve_until_ok in E as ((Ln & _) & _). apply IH in E2 as (Ln2 & ->). split; [lia|reflexivity].
Qed.
Lemma breed_shape : forall gen n h p pick chs i h' k, breed L ops ev gen n h p pick chs i = Ok (h', k) -> length h <= length h' /\ forall x, In x k -> fst x = None.
Proof.
  intros gen n. induction n as [|n IH]; intros h p pick chs i h' k H; cbn [breed] in H; [injection H as <- <-; split; [lia|intros x []]|].
  destruct (pick i) as [j|]; [|discriminate]. cbn [bind] in H. destruct (nth_error p j) as [par|]; [|discriminate]. cbn [bind of_option] in H.
  destruct (child_of L ops ev gen h (snd par) (chs i)) as [[h1 r1]|] eqn:C; [|discriminate]. cbn [bind fst snd] in H.
  destruct (breed L ops ev gen n h1 p pick chs (S i)) as [[h2 ks]|] eqn:B; [|discriminate]. cbn [bind fst snd] in H. injection H as <- <-.
  apply child_ok in C as (_ & Ln & _). apply IH in B as (Ln2 & N). split; [lia|]. intros x [<-|Hx]; [reflexivity|apply N, Hx].
Qed.
Lemma reproduce_shape : forall gen fuel h r vs tgt ms ks chs stops i h' k, reproduce L ops ev gen fuel h r vs tgt ms ks chs stops i = Ok (h', k) -> length h <= length h' /\ forall x, In x k -> fst x = None.
Proof.
  intros gen. induction fuel as [|f IH]; intros h r vs tgt ms ks chs stops i h' k H; cbn [reproduce] in H; [discriminate|].
  destruct (deref h r) as [w|]; [|discriminate]. cbn [bind alloc] in H.
  destruct (evolve_at L ops ev gen (h ++ [w]) (length h) (chs i)) as [h2|] eqn:E; [|discriminate]. cbn [bind] in H. apply evolve_at_ok in E as (_ & _ & _ & _ & _ & Ln & _).
  rewrite app_length in Ln. cbn [length] in Ln.
  destruct (deref h2 tgt) as [wt|]; [|discriminate]. cbn [bind] in H. destruct (distribute vs ms ks (w_store wt)) as [s|]; [|discriminate]. cbn [bind] in H.
  destruct (store_at h2 tgt _) as [h3|] eqn:S3; [|discriminate]. cbn [bind] in H. apply store_at_ok in S3 as (Ln3 & _).
  destruct (deref h3 (length h)) as [w'|]; [|discriminate]. cbn [bind] in H. destruct (extract (w_graph w') (w_store w')) as [x|]; [|discriminate]. cbn [bind] in H.
  destruct (negb (is_dag (w_graph w'))); [apply IH in H as [A B]; split; [lia|exact B]|].
  destruct (x_params x); [apply IH in H as [A B]; split; [lia|exact B]|].
  destruct (stops i); [injection H as <- <-; split; [lia|intros y [<-|[]]; reflexivity]|].
  destruct (reproduce L ops ev gen f h3 r vs (length h) (x_models x) (x_index x) chs stops (S i)) as [[ha ka]|] eqn:R; [|discriminate]. cbn [bind fst snd] in H. injection H as <- <-.
  apply IH in R as [A B]. split; [lia|]. intros y [<-|Hy]; [reflexivity|apply B, Hy].
Qed.
Lemma reproduce_each_shape : forall gen fuel p h chs stops i h' k, reproduce_each L ops ev gen fuel h p chs stops i = Ok (h', k) -> length h <= length h' /\ forall x, In x k -> fst x = None.
Proof.
  intros gen fuel p. induction p as [|[s r] p IH]; intros h chs stops i h' k H; cbn [reproduce_each] in H; [injection H as <- <-; split; [lia|intros x []]|].
  destruct (deref h r) as [w|]; [|discriminate]. cbn [bind] in H. destruct (extract (w_graph w) (w_store w)) as [x|]; [|discriminate]. cbn [bind] in H.
  destruct (reproduce L ops ev gen fuel h r (x_params x) r (x_models x) (x_index x) (chs i) (stops i) 0) as [[h1 k1]|] eqn:R1; [|discriminate]. cbn [bind fst snd] in H.
  destruct (reproduce_each L ops ev gen fuel h1 p chs stops (S i)) as [[h2 k2]|] eqn:R2; [|discriminate]. cbn [bind fst snd] in H. injection H as <- <-.
  apply reproduce_shape in R1 as [A B]. apply IH in R2 as [C D]. split; [lia|]. intros y Hy. apply in_app_iff in Hy as [Hy|Hy]; auto.
Qed.

(* offspring without a score, then the elites with theirs *)
Lemma update_shape : forall g gen h p h' p', holds_all h p -> update_population g gen h p = Ok (h', p') ->
  exists kids e, p' = kids ++ e /\ (forall x, In x kids -> fst x = None) /\ map fst e = map fst (slice_to (pass_index (cf_elitism cfg) p) p) /\ forall x, In x e -> snd x < length h'.
Proof.
  intros g gen h p h' p' Hd H. unfold TopologyModel.update_population in H. set (e0 := slice_to (pass_index (cf_elitism cfg) p) p).
  assert (He : forall x, In x e0 -> snd x < length h).
  { intros [s r] Hx. apply (Hd s r). exact (slice_in _ _ _ _ Hx). }
  destruct (cf_rule cfg).
  - unfold update_random in H. fold e0 in H. destruct (copy_all h e0) as [[h1 e]|] eqn:C; [|discriminate]. cbn [bind fst snd] in H.
    destruct (evolve_each L ops ev _ _ h1 p _ 0) as [[h2 k]|] eqn:E; [|discriminate]. cbn [bind fst snd] in H. injection H as <- <-.
    apply copies_scored in C as (C1 & _ & C3 & C4). apply evolve_each_shape in E as (Ln & ->). exists (map (fun x => (None, snd x)) p), e. split; [reflexivity|]. split; [|split; [exact C1|]].
    + intros x Hx. apply in_map_iff in Hx as (y & <- & _). reflexivity.
    + intros x Hx. rewrite Ln. apply C4, Hx.
  - unfold update_preferential in H. destruct (map fst p) as [|s0 sr]; [discriminate|].
    match type of H with (if ?b then _ else _) = _ => destruct b; [discriminate|] end. fold e0 in H.
    destruct (reproduce_each L ops ev _ _ h p _ _ 0) as [[h1 ks]|] eqn:R; [|discriminate]. cbn [bind fst snd] in H. injection H as <- <-.
    apply reproduce_each_shape in R as [A B]. exists ks, e0. split; [reflexivity|]. split; [exact B|]. split; [reflexivity|]. intros x Hx. specialize (He x Hx). lia.
  - unfold update_roulette in H. destruct (roulette p); [|discriminate]. cbn [bind] in H. fold e0 in H.
    destruct (breed L ops ev _ _ h p _ _ 0) as [[h1 ks]|] eqn:R; [|discriminate]. cbn [bind fst snd] in H. injection H as <- <-.
    apply breed_shape in R as [A B]. exists ks, e0. split; [reflexivity|]. split; [exact B|]. split; [reflexivity|]. intros x Hx. specialize (He x Hx). lia.
  - unfold update_tournament in H. destruct p as [|x0 p]; [discriminate|]. destruct (Nat.eqb 3 0); [discriminate|]. fold e0 in H.
    destruct (breed L ops ev _ _ h (x0 :: p) _ _ 0) as [[h1 ks]|] eqn:R; [|discriminate]. cbn [bind fst snd] in H. injection H as <- <-.
    apply breed_shape in R as [A B]. exists ks, e0. split; [reflexivity|]. split; [exact B|]. split; [reflexivity|]. intros x Hx. specialize (He x Hx). lia.
Qed.

(** ** C26 *)
Lemma elites_scored : forall ratio (p : population), scored p -> forall x, In x (slice_to (pass_index ratio p) p) -> fst x <> None.
Proof.
  intros ratio p S x Hx. apply S. exact (slice_in _ _ _ _ Hx).
Qed.
Lemma elite_head : forall (p e : population), scored p -> slice_to (pass_index (cf_elitism cfg) p) p <> [] -> map fst e = map fst (slice_to (pass_index (cf_elitism cfg) p) p) ->
  exists x r, e = x :: r /\ fst x <> None.
Proof.
  intros p e S N E. pose proof (elites_scored (cf_elitism cfg) p S) as F. destruct (slice_to _ p) as [|y l]; [contradiction|]. destruct e as [|x r]; [discriminate|].
  exists x, r. split; [reflexivity|]. cbn in E. injection E as E _. rewrite E. apply F. left. reflexivity.
Qed.

Lemma elite_aborts : forall g st, scored (st_pop st) -> holds_all (st_heap st) (st_pop st) ->
  (1 # 2 < cf_elitism cfg * inject_Z (Z.of_nat (length (st_pop st))))%Q -> forall st', one_generation g st <> Ok st'.
Proof.
  intros g st S Hd E st' H. unfold TopologyModel.one_generation in H. destruct (Nat.eqb (cf_generations cfg) 1); [discriminate|]. cbv zeta in H.
  match type of H with bind ?b _ = _ => destruct b as [[h p']|] eqn:U; [|discriminate] end. cbn [bind fst snd] in H.
  apply update_shape in U as (kids & e & -> & _ & Ee & _); [|exact Hd].
  destruct (optimise_all g 0 h (kids ++ e)) as [l|] eqn:O; [|discriminate]. apply optimise_all_ok in O as (_ & N & _).
  destruct (elite_head _ e S (some_elite _ _ E) Ee) as (x & r & -> & Nx). apply Nx. apply N. apply in_app_iff. right. left. reflexivity.
Qed.

Lemma elite_error : forall g st h' p', scored (st_pop st) -> holds_all (st_heap st) (st_pop st) ->
  (1 # 2 < cf_elitism cfg * inject_Z (Z.of_nat (length (st_pop st))))%Q -> cf_generations cfg <> 1 ->
  update_population g (inject_Z (Z.of_nat g) / inject_Z (Z.of_nat (cf_generations cfg) - 1)) (st_heap st) (st_pop st) = Ok (h', p') ->
  exists kids elite, p' = kids ++ elite /\ elite <> [] /\ scored elite /\
    forall l, optimise_all g 0 h' kids = Ok l -> one_generation g st = Err RuntimeError.
Proof.
  intros g st h' p' S Hd E N1 U. pose proof U as U0. apply update_shape in U as (kids & e & -> & _ & Ee & Lx); [|exact Hd].
  destruct (elite_head _ e S (some_elite _ _ E) Ee) as (x & r & -> & Nx). exists kids, (x :: r). split; [reflexivity|]. split; [discriminate|]. split.
  - intros y Hy. assert (In (fst y) (map fst (slice_to (pass_index (cf_elitism cfg) (st_pop st)) (st_pop st)))) by (rewrite <- Ee; apply in_map; exact Hy).
    apply in_map_iff in H as (z & <- & Hz). apply (elites_scored _ _ S z Hz).
  - intros l O. unfold TopologyModel.one_generation. destruct (Nat.eqb_spec (cf_generations cfg) 1); [contradiction|]. cbv zeta. rewrite U0. cbn [bind fst snd].
    pose proof (optimise_all_elite kids g 0 h' x r Nx (Lx x (or_introl eq_refl)) l O) as X. unfold population, individual in *. rewrite X. reflexivity.
Qed.

Lemma no_elite_unscored : forall g gen h p h' p', holds_all h p -> (0 <= cf_elitism cfg * inject_Z (Z.of_nat (length p)))%Q ->
  (cf_elitism cfg * inject_Z (Z.of_nat (length p)) <= 1 # 2)%Q -> update_population g gen h p = Ok (h', p') -> forall x, In x p' -> fst x = None.
Proof.
  intros g gen h p h' p' Hd A B H. apply update_shape in H as (kids & e & -> & K & Ee & _); [|exact Hd]. rewrite (no_elite _ _ A B) in Ee. destruct e; [|discriminate]. rewrite app_nil_r. exact K.
Qed.

(** ** C27 *)
Lemma place_all_facts : forall l, length (snd (place_all l)) = length l /\ scored (snd (place_all l)) /\ holds_all (fst (place_all l)) (snd (place_all l)) /\ NoDup (map snd (snd (place_all l))) /\
  forall x, In x (snd (place_all l)) -> exists s w, nth_error l (snd x) = Some (s, w) /\ fst x = Some s /\ nth_error (fst (place_all l)) (snd x) = Some w.
Proof.
  intro l. unfold place_all. cbn [fst snd].
  assert (Lc : length (combine (seq 0 (length l)) l) = length l) by (rewrite combine_length, seq_length; lia).
  assert (M : map snd (map (fun p : nat * (fl * world) => (Some (fst (snd p)), fst p)) (combine (seq 0 (length l)) l)) = seq 0 (length l)).
  { rewrite map_map. cbn [snd]. clear Lc. generalize 0. induction l as [|a l IH]; intro n; cbn; [reflexivity|]. f_equal. apply IH. }
  assert (C : forall i a, In (i, a) (combine (seq 0 (length l)) l) -> nth_error l i = Some a).
  { assert (G : forall l n i (a : fl * world), In (i, a) (combine (seq n (length l)) l) -> exists k, i = n + k /\ nth_error l k = Some a).
    { clear. induction l as [|b l IH]; intros n i a Hi; cbn in Hi; [contradiction|]. destruct Hi as [E|Hi]; [injection E as <- <-; exists 0; split; [lia|reflexivity]|].
      apply IH in Hi as (k & -> & Ek). exists (1 + k). split; [lia|exact Ek]. }
    intros i a Hi. apply G in Hi as (k & -> & Ek). exact Ek. }
  split; [rewrite map_length; exact Lc|]. split; [|split; [|split]].
  - intros x Hx. apply in_map_iff in Hx as (p & <- & _). discriminate.
  - intros s r Hx. assert (In r (seq 0 (length l))) by (rewrite <- M; apply (in_map snd _ _ Hx)). apply in_seq in H. rewrite map_length. lia.
  - rewrite M. apply seq_NoDup.
  - intros x Hx. apply in_map_iff in Hx as ([i [s w]] & <- & Hi). apply C in Hi. exists s, w. cbn [fst snd]. split; [exact Hi|]. split; [reflexivity|]. apply (map_nth_error snd _ _ Hi).
Qed.

Definition inv (g : nat) (st : state) : Prop :=
  scored (st_pop st) /\ holds_all (st_heap st) (st_pop st) /\ NoDup (map snd (st_pop st)) /\
  length (st_saved st) = g /\ length (st_log st) = g /\ length (st_evaluated st) = g /\
  hof_run world sim (cf_threshold cfg) (init_hof world (cf_hof cfg)) (st_evaluated st) = Ok (st_hof st) /\
  forall k e, nth_error (st_evaluated st) k = Some e ->
    nth_error (st_saved st) k = Some (firstn (cf_population cfg) (sort_by_score e)) /\ firstn (cf_population cfg) (sort_by_score e) <> [] /\
    (forall i s w', nth_error e i = Some (s, w') -> exists w, opt k i w = Ok (s, w')) /\
    exists top rest, hof_run world sim (cf_threshold cfg) (init_hof world (cf_hof cfg)) (firstn (S k) (st_evaluated st)) = Ok (top :: rest) /\
      nth_error (st_log st) k = Some (mkRow k (option_map fst top) (length (firstn (cf_population cfg) (sort_by_score e)))).

Lemma hof_run_app : forall ps qs h, hof_run world sim (cf_threshold cfg) h (ps ++ qs) =
  match hof_run world sim (cf_threshold cfg) h ps with Ok h' => hof_run world sim (cf_threshold cfg) h' qs | Err e => Err e end.
Proof. induction ps as [|p ps IH]; intros qs h; cbn [app hof_run]; [reflexivity|]. destruct (update_hof world sim (cf_threshold cfg) h p); [apply IH|reflexivity]. Qed.

Lemma generation_inv : forall g st st', inv g st -> one_generation g st = Ok st' -> inv (S g) st' /\ cf_generations cfg <> 1 /\
  exists h p done, update_population g (inject_Z (Z.of_nat g) / inject_Z (Z.of_nat (cf_generations cfg) - 1)) (st_heap st) (st_pop st) = Ok (h, p) /\ optimise_all g 0 h p = Ok done /\
    st_evaluated st' = st_evaluated st ++ [done] /\ (st_heap st', st_pop st') = place_all (firstn (cf_population cfg) (sort_by_score done)).
Proof.
  intros g st st' (_ & _ & _ & I1 & I2 & I3 & I4 & I5) H. unfold TopologyModel.one_generation in H. destruct (Nat.eqb_spec (cf_generations cfg) 1) as [|N1]; [discriminate|]. cbv zeta in H.
  match type of H with bind ?b _ = _ => destruct b as [[h p']|] eqn:U; [|discriminate] end. cbn [bind fst snd] in H.
  destruct (optimise_all g 0 h p') as [done|] eqn:O; [|discriminate]. cbn [bind] in H.
  destruct (update_hof world sim (cf_threshold cfg) (st_hof st) done) as [hf|] eqn:Hf; [|discriminate]. cbn [bind] in H.
  destruct hf as [|top rest]; [discriminate|]. set (kept := firstn (cf_population cfg) (sort_by_score done)) in *.
  assert (K : kept <> [] /\ Ok (mkSt (fst (place_all kept)) (snd (place_all kept)) (top :: rest) (st_log st ++ [mkRow g (option_map fst top) (length kept)]) (st_saved st ++ [kept]) (st_evaluated st ++ [done])) = Ok st').
  { destruct kept; [discriminate|]. split; [discriminate|]. rewrite (surjective_pairing (place_all _)) in H. exact H. }
  destruct K as [Kn K]. injection K as <-. cbn [st_heap st_pop st_saved st_log st_evaluated st_hof]. split; [|split; [exact N1|]].
  2:{ exists h, p', done. split; [reflexivity|]. split; [exact O|]. split; [reflexivity|]. symmetry. apply surjective_pairing. }
  destruct (place_all_facts kept) as (P1 & P2 & P3 & P4 & _).
  unfold inv. cbn [st_heap st_pop st_saved st_log st_evaluated st_hof].
  split; [exact P2|]. split; [exact P3|]. split; [exact P4|]. rewrite !app_length. cbn [length]. split; [lia|]. split; [lia|]. split; [lia|].
  assert (Hr : hof_run world sim (cf_threshold cfg) (init_hof world (cf_hof cfg)) (st_evaluated st ++ [done]) = Ok (top :: rest)).
  { rewrite hof_run_app, I4. cbn [hof_run]. rewrite Hf. reflexivity. }
  split; [exact Hr|]. intros k e Ek. destruct (Nat.lt_ge_cases k g) as [Lk|Lk].
  - rewrite nth_error_app1 in Ek by lia. destruct (I5 k e Ek) as (J1 & J2 & J3 & tp & rs & J4 & J5).
    split; [rewrite nth_error_app1 by lia; exact J1|]. split; [exact J2|]. split; [exact J3|]. exists tp, rs. split; [|rewrite nth_error_app1 by lia; exact J5].
    rewrite firstn_app. replace (S k - length (st_evaluated st)) with 0 by lia. cbn [firstn]. rewrite app_nil_r. exact J4.
  - assert (k = g). { assert (k < length (st_evaluated st ++ [done])) by (apply nth_error_Some; congruence). rewrite app_length in H0. cbn in H0. lia. } subst k.
    rewrite nth_error_app2 in Ek by lia. replace (g - length (st_evaluated st)) with 0 in Ek by lia. injection Ek as <-. fold kept.
    split; [rewrite nth_error_app2 by lia; replace (g - length (st_saved st)) with 0 by lia; reflexivity|]. split; [exact Kn|]. split.
    + intros i s w' Ei. apply optimise_all_ok in O as (_ & _ & K). destruct (K i s w' Ei) as (_ & _ & w1 & _ & _ & _ & K4). exists w1. exact K4.
    + exists top, rest. split; [|rewrite nth_error_app2 by lia; replace (g - length (st_log st)) with 0 by lia; reflexivity].
      rewrite firstn_all2; [exact Hr|]. rewrite app_length. cbn. lia.
Qed.

Lemma generations_inv : forall n g st st', inv g st -> generations n g st = Ok st' -> inv (g + n) st' /\ (n <> 0 -> cf_generations cfg <> 1).
Proof.
  induction n as [|n IH]; intros g st st' I H; cbn [TopologyModel.generations] in H; [injection H as <-; rewrite Nat.add_0_r; split; [exact I|congruence]|].
  destruct (one_generation g st) as [s1|] eqn:E; [|discriminate]. cbn [bind] in H. destruct (generation_inv g st s1 I E) as (I1 & N & _).
  apply IH in H as [H _]; [|exact I1]. replace (g + S n) with (S g + n) by lia. auto.
Qed.

Lemma start_inv : forall w st, start_state opt0 cfg w = Ok st -> inv 0 st /\ length (st_pop st) = cf_population cfg /\
  exists s w1, optimise_complete opt0 None w = Ok (s, w1) /\ (st_heap st, st_pop st) = place_all (repeat (s, w1) (cf_population cfg)) /\ st_hof st = init_hof world (cf_hof cfg) /\ st_log st = [] /\ st_saved st = [] /\ st_evaluated st = [].
Proof.
  intros w st H. unfold start_state in H. destruct (optimise_complete opt0 None w) as [[s w1]|] eqn:O; [|discriminate]. cbn [bind] in H.
  destruct (place_all_facts (repeat (s, w1) (cf_population cfg))) as (P1 & P2 & P3 & P4 & _). destruct (place_all (repeat (s, w1) (cf_population cfg))) as [h p] eqn:P. cbn [fst snd] in *. injection H as <-.
  cbn [st_pop st_heap st_hof st_log st_saved st_evaluated]. split; [|split; [rewrite P1; apply repeat_length|]].
  - unfold inv. cbn [st_heap st_pop st_saved st_log st_evaluated st_hof]. repeat (split; [assumption||reflexivity|]). intros [|k] e E; discriminate.
  - exists s, w1. split; [reflexivity|]. split; [symmetry; exact P|]. repeat (split; [reflexivity|]). reflexivity.
Qed.

Notation run := (topology_optimization L ops ev sim opt0 opt lucks cfg).

Lemma run_inv : forall w st, run w = Ok st -> inv (cf_generations cfg) st /\ cf_generations cfg <> 1.
Proof.
  intros w st H. unfold topology_optimization in H. destruct (start_state opt0 cfg w) as [s0|] eqn:S0; [|discriminate]. cbn [bind] in H. apply start_inv in S0 as (I & _).
  apply generations_inv in H as [A B]; [|exact I]. split; [exact A|]. intro E. apply B; lia.
Qed.

Lemma run_elite : forall w st, 0 < cf_generations cfg -> (1 # 2 < cf_elitism cfg * inject_Z (Z.of_nat (cf_population cfg)))%Q -> run w <> Ok st.
Proof.
  intros w st G E H. unfold topology_optimization in H. destruct (start_state opt0 cfg w) as [s0|] eqn:S0; [|discriminate]. cbn [bind] in H. apply start_inv in S0 as ((I1 & I2 & _) & Ln & _).
  destruct (cf_generations cfg) as [|n] eqn:Gn; [lia|]. cbn [TopologyModel.generations] in H. destruct (one_generation 0 s0) as [s1|] eqn:O; [|discriminate].
  apply (elite_aborts 0 s0 I1 I2) with (st' := s1); [rewrite Ln; exact E|exact O].
Qed.

Lemma run_single : forall w st0, cf_generations cfg = 1 -> start_state opt0 cfg w = Ok st0 -> run w = Err ZeroDivisionError.
Proof. intros w st0 G S. unfold topology_optimization. rewrite S, G. cbn [bind TopologyModel.generations]. unfold TopologyModel.one_generation. rewrite G. reflexivity. Qed.

Lemma run_generations : forall w st, run w = Ok st ->
  length (st_saved st) = cf_generations cfg /\ length (st_log st) = cf_generations cfg /\ length (st_evaluated st) = cf_generations cfg /\
  forall g all, nth_error (st_evaluated st) g = Some all -> exists kept row, nth_error (st_saved st) g = Some kept /\ nth_error (st_log st) g = Some row /\
    1 <= length kept <= cf_population cfg /\ r_generation row = g /\ r_size row = length kept /\ (no_nan all -> n_best (cf_population cfg) all kept) /\
    forall i s w', nth_error all i = Some (s, w') -> exists w0, opt g i w0 = Ok (s, w').
Proof.
  intros w st H. apply run_inv in H as ((_ & _ & _ & I1 & I2 & I3 & _ & I5) & _). repeat (split; [assumption|]). intros g all E. destruct (I5 g all E) as (J1 & J2 & J3 & tp & rs & _ & J5).
  eexists. eexists. split; [exact J1|]. split; [exact J5|]. cbn [r_generation r_size]. split; [|split; [reflexivity|split; [reflexivity|split; [apply kept_best|exact J3]]]].
  pose proof (firstn_le_length (cf_population cfg) (sort_by_score all)). destruct (firstn (cf_population cfg) (sort_by_score all)); [contradiction|cbn [length] in *; lia].
Qed.

Lemma in_concat_firstn : forall A (l : list (list A)) k x, In x (concat (firstn k l)) -> In x (concat l).
Proof. intros A l k x H. rewrite <- (firstn_skipn k l), concat_app. apply in_app_iff. left. exact H. Qed.

Lemma hof_run_nil : forall h, hof_run world sim (cf_threshold cfg) [] h = Ok [].
Proof. induction h as [|p h IH]; cbn; [reflexivity|]. assert (X : update_hof world sim (cf_threshold cfg) [] p = Ok []) by (induction p as [|[s g] p IHp]; cbn; [reflexivity|exact IHp]). rewrite X. exact IH. Qed.

Lemma run_log : forall w st, run w = Ok st -> no_nan (concat (st_evaluated st)) -> forall g row, nth_error (st_log st) g = Some row ->
  exists s, r_best row = Some s /\ lowest (concat (firstn (S g) (st_evaluated st))) s.
Proof.
  intros w st H N g row E. apply run_inv in H as ((_ & _ & _ & I1 & I2 & I3 & _ & I5) & _).
  destruct (nth_error (st_evaluated st) g) as [all|] eqn:Ea; [|apply nth_error_None in Ea; assert (g < length (st_log st)) by (apply nth_error_Some; congruence); lia].
  destruct (I5 g all Ea) as (_ & J2 & _ & tp & rs & J4 & J5). rewrite J5 in E. injection E as <-. cbn [r_best].
  assert (Hn : 0 < cf_hof cfg). { destruct (cf_hof cfg) eqn:Z; [|lia]. change (init_hof world 0) with (@nil (slot world)) in J4. rewrite hof_run_nil in J4. discriminate. }
  assert (Ne : concat (firstn (S g) (st_evaluated st)) <> []).
  { intro C. assert (X : forall x, ~ In x all).
    { intros x Hx. assert (In x (concat (firstn (S g) (st_evaluated st)))); [|rewrite C in H; exact H]. apply in_concat. exists all. split; [|exact Hx].
      apply (nth_error_In _ g). rewrite nth_error_firstn_lt by lia. exact Ea. }
    destruct all as [|x all]; [|exact (X x (or_introl eq_refl))]. cbn in J2. rewrite firstn_nil in J2. contradiction. }
  destruct (hof_best world sim (cf_threshold cfg) (cf_hof cfg) _ _ Hn J4) as (s & gr & rest & Eh & Hin & Mn); [|exact Ne|].
  - intros s gr Hi. apply (N s gr). exact (in_concat_firstn _ _ _ _ Hi).
  - injection Eh as -> _. exists s. split; [reflexivity|]. split; [exists gr; exact Hin|exact Mn].
Qed.

Lemma run_hof : forall w st, run w = Ok st -> hof_run world sim (cf_threshold cfg) (init_hof world (cf_hof cfg)) (st_evaluated st) = Ok (st_hof st) /\
  (0 < cf_generations cfg -> no_nan (concat (st_evaluated st)) -> exists s gr rest, st_hof st = Some (s, gr) :: rest /\ lowest (concat (st_evaluated st)) s).
Proof.
  intros w st H. pose proof H as H0. apply run_inv in H as ((_ & _ & _ & I1 & I2 & I3 & I4 & I5) & _). split; [exact I4|]. intros G N.
  destruct (nth_error (st_evaluated st) 0) as [all|] eqn:Ea; [|apply nth_error_None in Ea; lia]. destruct (I5 0 all Ea) as (_ & J2 & _ & tp & rs & J4 & _).
  assert (Hn : 0 < cf_hof cfg). { destruct (cf_hof cfg) eqn:Z; [|lia]. change (init_hof world 0) with (@nil (slot world)) in J4. rewrite hof_run_nil in J4. discriminate. }
  assert (Ne : concat (st_evaluated st) <> []).
  { destruct (st_evaluated st) as [|a l]; [discriminate|]. injection Ea as ->. destruct all; [cbn in J2; rewrite firstn_nil in J2; contradiction|discriminate]. }
  destruct (hof_best world sim (cf_threshold cfg) (cf_hof cfg) _ _ Hn I4 N Ne) as (s & gr & rest & Eh & Hin & Mn). exists s, gr, rest. split; [exact Eh|]. split; [exists gr; exact Hin|exact Mn].
Qed.

(** ** Every graph of a run is in use *)
Hypothesis LO : lib_ok L.
Hypothesis OND : NoDup ops.
Definition fair_luck : Prop := forall g i j w gen, in_use L ops w -> fair L ops w (mkCall ev (Some gen) (lk_ch (lucks g) i j w)).
Definition keeps_use (f : world -> res (fl * world)) : Prop := forall w s w', in_use L ops w -> f w = Ok (s, w') -> in_use L ops w'.

Lemma in_use_update : forall w s, in_use L ops w -> update_graph (w_graph w) (w_store w) = Ok s -> in_use L ops (with_store w s).
Proof.
  intros w s (nodes & edges & cur & parent & g & w0 & A & B & C & D & E & F) H. exists nodes, edges, cur, parent, g, w0. repeat (split; [assumption|]). exact (ses_update L ops w0 w s F H).
Qed.
Lemma evolved_in_use : forall gen ds w w', (forall i v, in_use L ops v -> fair L ops v (mkCall ev gen (ds i v))) -> evolved L ops ev gen ds w w' -> in_use L ops w -> in_use L ops w'.
Proof.
  intros gen ds w w' Fr H. induction H as [i w w' o E|i w w' w'' o H IH E]; intro U.
  - exact (in_use_evolve L ops ev gen w _ w' _ U (Fr i w U) E).
  - specialize (IH U). exact (in_use_evolve L ops ev gen w' _ w'' _ IH (Fr i w' IH) E).
Qed.
Lemma breed_in_use : forall gen n h p pick chs h' kids, (forall i v, in_use L ops v -> fair L ops v (mkCall ev gen (chs i v))) -> holds_all h p -> graphs_of h p (in_use L ops) ->
  breed L ops ev gen n h p pick chs 0 = Ok (h', kids) -> unchanged h h' /\ graphs_of h' kids (in_use L ops).
Proof.
  intros gen n h p pick chs h' kids Fr Hd G H. apply breed_ok in H as (_ & U & _ & K); [|exact Hd]. split; [exact U|]. intros x w Hx Ex. apply In_nth_error in Hx as [k Hk].
  destruct (K k x Hk) as (_ & _ & j & par & _ & Ej & v & v' & o & V1 & V2 & V3). rewrite V3 in Ex. injection Ex as <-.
  pose proof (G par v (nth_error_In _ _ Ej) V1) as Uv. exact (in_use_evolve L ops ev gen v _ v' _ Uv (Fr _ v Uv) V2).
Qed.
Lemma elites_kept : forall h h' p e, unchanged h h' -> holds_all h p -> graphs_of h p (in_use L ops) -> (forall x, In x e -> In x p) -> graphs_of h' e (in_use L ops).
Proof.
  intros h h' p e U Hd G S x w Hx Ex. specialize (S x Hx). destruct (nth_error h (snd x)) as [v|] eqn:V.
  - pose proof (U _ _ V) as V'. rewrite Ex in V'. injection V' as ->. exact (G x v S V).
  - apply nth_error_None in V. destruct x as [s r]. specialize (Hd s r S). cbn in V. lia.
Qed.

Lemma update_in_use : forall g gen h p h' p', fair_luck -> cf_rule cfg <> RulePreferential -> NoDup (map snd p) -> holds_all h p -> graphs_of h p (in_use L ops) ->
  update_population g gen h p = Ok (h', p') -> graphs_of h' p' (in_use L ops).
Proof.
  intros g gen h p h' p' Fr NP Nd Hd G H. unfold TopologyModel.update_population in H. destruct (cf_rule cfg); [|contradiction| |].
  - apply random_ok in H; [|exact Hd|exact Nd]. destruct H as (kids & e & e0 & -> & -> & (ke & rest & Ep & _) & Le & He & _ & Hk). intros x w Hx Ex. apply in_app_iff in Hx as [Hx|Hx].
    + apply in_map_iff in Hx as (y & <- & Hy). cbn [snd] in Ex. destruct (Hk y Hy) as (v & v' & V1 & V2 & (i & V3) & _). rewrite V2 in Ex. injection Ex as <-.
      refine (evolved_in_use _ _ v v' _ V3 (G y v Hy V1)). intros j u Uu. apply Fr, Uu.
    + apply In_nth_error in Hx as [k Hk0]. destruct (He k x Hk0) as (_ & x0 & E0 & _ & E1). rewrite E1 in Ex. apply (G x0 w); [|exact Ex]. rewrite Ep. apply in_app_iff. left. exact (nth_error_In _ _ E0).
  - unfold update_roulette in H. destruct (roulette p); [|discriminate]. cbn [bind] in H.
    destruct (breed L ops ev _ _ h p _ _ 0) as [[h1 ks]|] eqn:R; [|discriminate]. cbn [bind fst snd] in H. injection H as <- <-.
    apply breed_in_use in R as [U Gk]; [|intros i v Uv; apply Fr, Uv|exact Hd|exact G]. intros x w Hx. apply in_app_iff in Hx as [Hx|Hx]; [apply Gk, Hx|].
    apply (elites_kept h h1 p _ U Hd G (fun y => slice_in _ _ p y) x w Hx).
  - unfold update_tournament in H. destruct p as [|x0 p]; [discriminate|]. destruct (Nat.eqb 3 0); [discriminate|].
    destruct (breed L ops ev _ _ h (x0 :: p) _ _ 0) as [[h1 ks]|] eqn:R; [|discriminate]. cbn [bind fst snd] in H. injection H as <- <-.
    apply breed_in_use in R as [U Gk]; [|intros i v Uv; apply Fr, Uv|exact Hd|exact G]. intros x w Hx. apply in_app_iff in Hx as [Hx|Hx]; [apply Gk, Hx|].
    apply (elites_kept h h1 (x0 :: p) _ U Hd G (fun y => slice_in _ _ (x0 :: p) y) x w Hx).
Qed.

Definition all_use (st : state) : Prop := graphs_of (st_heap st) (st_pop st) (in_use L ops) /\ forall s w, In (s, w) (concat (st_evaluated st)) -> in_use L ops w.

Lemma place_use : forall l h p, (h, p) = place_all l -> (forall s w, In (s, w) l -> in_use L ops w) -> graphs_of h p (in_use L ops).
Proof.
  intros l h p E H x w Hx Ex. destruct (place_all_facts l) as (_ & _ & _ & _ & F). rewrite <- E in F. cbn [fst snd] in F. destruct (F x Hx) as (s & w' & N & _ & N'). rewrite Ex in N'. injection N' as <-.
  exact (H s w (nth_error_In _ _ N)).
Qed.

Lemma generations_use : fair_luck -> cf_rule cfg <> RulePreferential -> (forall g i, keeps_use (opt g i)) -> forall n g st st', inv g st -> all_use st -> generations n g st = Ok st' -> all_use st'.
Proof.
  intros Fr NP Ko. induction n as [|n IH]; intros g st st' I A H; cbn [TopologyModel.generations] in H; [injection H as <-; exact A|].
  destruct (one_generation g st) as [s1|] eqn:E; [|discriminate]. cbn [bind] in H. destruct (generation_inv g st s1 I E) as (I1 & _ & h & p & done & U & O & Ev & Pl).
  apply (IH (S g) s1 st' I1); [|exact H]. destruct A as [A1 A2]. destruct I as (_ & Hd & Nd & _). pose proof (update_in_use g _ _ _ _ _ Fr NP Nd Hd A1 U) as G.
  assert (D : forall s w, In (s, w) done -> in_use L ops w).
  { intros s w Hi. apply In_nth_error in Hi as [k Hk]. apply optimise_all_ok in O as (_ & _ & K). destruct (K k s w Hk) as (x & v & v1 & K1 & K2 & (s2 & K3 & ->) & K4).
    apply (Ko g (0 + k) (with_store v s2) s w); [|exact K4]. apply in_use_update; [|exact K3]. exact (G x v (nth_error_In _ _ K1) K2). }
  split.
  - apply (place_use _ _ _ Pl). intros s w Hi. apply (D s w). apply (Permutation_in _ (sort_perm done)). rewrite <- (firstn_skipn (cf_population cfg) (sort_by_score done)). apply in_app_iff. left. exact Hi.
  - intros s w Hi. rewrite Ev, concat_app in Hi. apply in_app_iff in Hi as [Hi|Hi]; [apply (A2 s w Hi)|]. cbn in Hi. rewrite app_nil_r in Hi. exact (D s w Hi).
Qed.

Lemma run_in_use : forall w st, fair_luck -> cf_rule cfg <> RulePreferential -> keeps_use opt0 -> (forall g i, keeps_use (opt g i)) -> in_use L ops w -> run w = Ok st ->
  forall s w', In (s, w') (concat (st_evaluated st)) -> in_use L ops w' /\ healthy w'.
Proof.
  intros w st Fr NP K0 Ko U H s w' Hi. unfold topology_optimization in H. destruct (start_state opt0 cfg w) as [s0|] eqn:S0; [|discriminate]. cbn [bind] in H. apply start_inv in S0 as (I & _ & s1 & w1 & O & Pl & _ & _ & _ & Ev).
  assert (A : all_use s0).
  { split; [|rewrite Ev; intros ? ? []]. apply (place_use _ _ _ Pl). intros s2 v Hv. apply repeat_spec in Hv. injection Hv as -> ->.
    unfold optimise_complete in O. destruct (update_graph (w_graph w) (w_store w)) as [st2|] eqn:Up; [|discriminate]. cbn [bind] in O. apply (K0 _ s1 w1 (in_use_update w st2 U Up) O). }
  assert (X : in_use L ops w') by exact (proj2 (generations_use Fr NP Ko _ 0 s0 st I A H) s w' Hi). split; [exact X|exact (in_use_healthy L ops LO OND w' X)].
Qed.
End Topology.
