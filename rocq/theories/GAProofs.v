(** Proofs about the genetic parameter search. *)
From Coq Require Import List Arith Bool ZArith Permutation Sorted Lia.
From Verif Require Import Base FloatModel PopulationModel HofProofs GAModel GASpec.
Import ListNotations.
Local Open Scope nat_scope.

(** ** Lists by position *)
Lemma nth_firstn : forall A c (l : list A) i, nth_error (firstn c l) i = if i <? c then nth_error l i else None.
Proof.
  induction c as [|c IH]; intros l i; cbn [firstn].
  - destruct i; reflexivity.
  - destruct l as [|a l]; [destruct (i <? S c); destruct i; reflexivity|]. destruct i as [|i]; [reflexivity|]. cbn [nth_error]. rewrite IH. reflexivity.
Qed.
Lemma nth_skipn : forall A c (l : list A) i, nth_error (skipn c l) i = nth_error l (c + i).
Proof. induction c as [|c IH]; intros l i; [reflexivity|]. destruct l as [|a l]; [destruct i; reflexivity|]. cbn [skipn Nat.add nth_error]. apply IH. Qed.
Lemma nth_cut : forall A c (l m : list A) i, c <= length l -> nth_error (firstn c l ++ skipn c m) i = if i <? c then nth_error l i else nth_error m i.
Proof.
  intros A c l m i H. destruct (Nat.ltb_spec i c) as [L|L].
  - rewrite nth_error_app1 by (rewrite firstn_length; lia). rewrite nth_firstn. destruct (Nat.ltb_spec i c); [reflexivity|lia].
  - rewrite nth_error_app2 by (rewrite firstn_length; lia). rewrite firstn_length, Nat.min_l by exact H. rewrite nth_skipn. f_equal. lia.
Qed.

(** ** Crossover and mutation *)
Section Genes.
Context {A : Type}.
Implicit Types p m : list A.

Lemma single_point : forall p1 p2 r c1 c2, length p1 = length p2 -> crossover_singlepoint p1 p2 r = (c1, c2) ->
  length c1 = length p1 /\ length c2 = length p1 /\
  (length p1 <= 1 -> c1 = p1 /\ c2 = p2) /\
  (2 <= length p1 -> exists c, 0 < c < length p1 /\ forall i,
     (i < c -> nth_error c1 i = nth_error p1 i /\ nth_error c2 i = nth_error p2 i) /\ (c <= i -> nth_error c1 i = nth_error p2 i /\ nth_error c2 i = nth_error p1 i)).
Proof.
  intros p1 p2 r c1 c2 L H. unfold crossover_singlepoint in H. destruct (Nat.leb_spec (length p1) 1) as [S1|S1].
  - injection H as <- <-. split; [reflexivity|]. split; [symmetry; exact L|]. split; [auto|lia].
  - set (c := 1 + r mod (length p1 - 1)) in *. assert (B : 0 < c < length p1). { unfold c. pose proof (Nat.mod_upper_bound r (length p1 - 1)). lia. }
    clearbody c. injection H as <- <-. split; [rewrite app_length, firstn_length, skipn_length; lia|]. split; [rewrite app_length, firstn_length, skipn_length; lia|].
    split; [lia|]. intros _. exists c. split; [exact B|]. intro i. rewrite !nth_cut by lia. destruct (Nat.ltb_spec i c); split; intro; try lia; auto.
Qed.
Lemma double_point : forall p1 p2 r1 r2, length p1 = length p2 -> 
  (length p1 <= 2 -> crossover_doublepoint p1 p2 r1 r2 = Err ValueError) /\
  (3 <= length p1 -> exists c1 c2 a b, crossover_doublepoint p1 p2 r1 r2 = Ok (c1, c2) /\ length c1 = length p1 /\ length c2 = length p1 /\ 2 <= a <= b /\ b < length p1 /\
     forall i, (i < a \/ b <= i -> nth_error c1 i = nth_error p1 i /\ nth_error c2 i = nth_error p2 i) /\ (a <= i < b -> nth_error c1 i = nth_error p2 i /\ nth_error c2 i = nth_error p1 i)).
Proof.
  intros p1 p2 r1 r2 L. unfold crossover_doublepoint. destruct (Nat.leb_spec (length p1) 2) as [S1|S1]; (split; [intro; try lia|intro; try lia]); [reflexivity|]. cbv zeta.
  pose proof (Nat.mod_upper_bound r1 (length p1 - 2)) as B1. pose proof (Nat.mod_upper_bound r2 (length p1 - 2)) as B2.
  set (a := Nat.min (2 + r1 mod (length p1 - 2)) (2 + r2 mod (length p1 - 2))). set (b := Nat.max (2 + r1 mod (length p1 - 2)) (2 + r2 mod (length p1 - 2))).
  assert (AB : 2 <= a <= b /\ b < length p1) by (unfold a, b; lia). clearbody a b. destruct AB as [AB BL]. clear B1 B2.
  eexists _, _, a, b. split; [reflexivity|]. split; [rewrite !app_length, !firstn_length, !skipn_length; lia|]. split; [rewrite !app_length, !firstn_length, !skipn_length; lia|]. split; [exact AB|]. split; [exact BL|].
  assert (N : forall x y : list A, length x = length p1 -> length y = length p1 -> forall i, nth_error (firstn a x ++ firstn (b - a) (skipn a y) ++ skipn b x) i = if (a <=? i) && (i <? b) then nth_error y i else nth_error x i).
  { intros x y Lx Ly i. destruct (Nat.leb_spec a i) as [Ai|Ai]; cbn [andb].
    - rewrite nth_error_app2 by (rewrite firstn_length; lia). rewrite firstn_length, Nat.min_l by lia. destruct (Nat.ltb_spec i b) as [Bi|Bi].
      + rewrite nth_error_app1 by (rewrite firstn_length, skipn_length; lia). rewrite nth_firstn. destruct (Nat.ltb_spec (i - a) (b - a)); [|lia]. rewrite nth_skipn. f_equal. lia.
      + rewrite nth_error_app2 by (rewrite firstn_length, skipn_length; lia). rewrite firstn_length, skipn_length, nth_skipn. f_equal. lia.
    - rewrite nth_error_app1 by (rewrite firstn_length; lia). rewrite nth_firstn. destruct (Nat.ltb_spec i a); [reflexivity|lia]. }
  intro i. rewrite !N by lia. destruct (Nat.leb_spec a i); destruct (Nat.ltb_spec i b); cbn [andb]; split; intro; try lia; auto.
Qed.
Lemma mix_genes_nth : forall inds p m k i, nth_error (mix_genes inds k p m) i =
  match nth_error p i, nth_error m i with Some a, Some b => Some (if existsb (Nat.eqb (k + i)) inds then b else a) | _, _ => None end.
Proof.
  intros inds. induction p as [|a p IH]; intros [|b m] k i; cbn [mix_genes]; try (destruct i; cbn [nth_error]; try reflexivity; destruct (nth_error p i); reflexivity).
  destruct i as [|i]; cbn [nth_error]; [rewrite Nat.add_0_r; reflexivity|]. rewrite IH. replace (k + S i) with (S k + i) by lia. reflexivity.
Qed.
Lemma mix_genes_length : forall inds p m k, length (mix_genes inds k p m) = Nat.min (length p) (length m).
Proof. intros inds. induction p as [|a p IH]; intros [|b m] k; cbn [mix_genes length]; try reflexivity. rewrite IH. reflexivity. Qed.
Lemma mutated : forall p m first more, length p = length m -> m <> [] -> exists c, mutation p m first more = Ok c /\ length c = length m /\
  (forall i, nth_error c i = nth_error p i \/ nth_error c i = nth_error m i) /\ exists i, i < length m /\ nth_error c i = nth_error m i.
Proof.
  intros p m first more L NE. destruct m as [|b m]; [contradiction|]. cbn [mutation]. eexists. split; [reflexivity|]. split; [rewrite mix_genes_length; lia|]. split.
  - intro i. rewrite mix_genes_nth. destruct (nth_error p i) eqn:E; destruct (nth_error (b :: m) i) eqn:F.
    + destruct (existsb _ _); [right|left]; reflexivity.
    + apply nth_error_None in F. assert (nth_error p i <> None) by congruence. apply nth_error_Some in H. lia.
    + apply nth_error_None in E. assert (nth_error (b :: m) i <> None) by congruence. apply nth_error_Some in H. lia.
    + left; reflexivity.
  - exists (first mod length (b :: m)). pose proof (Nat.mod_upper_bound first (length (b :: m))) as B. split; [apply B; discriminate|]. rewrite mix_genes_nth.
    assert (X : first mod length (b :: m) < length p) by (rewrite L; apply B; discriminate).
    apply nth_error_Some in X. destruct (nth_error p _); [|congruence]. assert (Y : first mod length (b :: m) < length (b :: m)) by (apply B; discriminate). apply nth_error_Some in Y. destruct (nth_error (b :: m) _); [|congruence].
    cbn [map existsb]. rewrite Nat.add_0_l, Nat.eqb_refl. reflexivity.
Qed.

(** ** Closure of the candidates *)
Variable n : nat.
Variable P : nat -> A -> Prop.
Notation ok := (candidate n P).

Lemma ok_cross : forall p1 p2 r, ok p1 -> ok p2 -> ok (fst (crossover_singlepoint p1 p2 r)) /\ ok (snd (crossover_singlepoint p1 p2 r)).
Proof.
  intros p1 p2 r [L1 P1] [L2 P2]. destruct (crossover_singlepoint p1 p2 r) as [c1 c2] eqn:E. destruct (single_point p1 p2 r c1 c2 ltac:(congruence) E) as (A1 & A2 & A3 & A4). cbn [fst snd].
  destruct (le_lt_dec 2 (length p1)) as [B|B].
  - destruct (A4 B) as (c & _ & K). split; (split; [congruence|]); intros i a Hi; destruct (K i) as [K1 K2]; (destruct (le_lt_dec c i) as [C|C]; [destruct (K2 C) as [X Y]|destruct (K1 C) as [X Y]]); rewrite ?X, ?Y in Hi; eauto.
  - destruct A3 as [-> ->]; [lia|]. split; split; assumption.
Qed.
Lemma ok_mutation : forall p m first more c, ok p -> ok m -> mutation p m first more = Ok c -> ok c.
Proof.
  intros p m first more c [L1 P1] [L2 P2] E. destruct m as [|b m]; [discriminate|]. destruct (mutated p (b :: m) first more) as (c' & E' & L & K & _); [congruence|discriminate|]. rewrite E in E'. injection E' as <-.
  split; [congruence|]. intros i a Hi. destruct (K i) as [X|X]; rewrite X in Hi; eauto.
Qed.
End Genes.

(** ** The search *)
Section Search.
Context {A St : Type}.
Variable n : nat.
Variable P : nat -> A -> Prop.
Notation ok := (candidate n P).
Variable func : list A -> St -> St * res fl.
Variable random_vec : nat -> nat -> res (list A).
Variable note : list fl -> St -> St * res unit.
Variable sort : list (fl * list A) -> list (fl * list A).
Variable lucks : nat -> ga_luck.
Variable n_crx n_mut n_population : nat.
Hypothesis random_ok : forall g i x, random_vec g i = Ok x -> ok x.

Definition all_ok (p : list (entry A)) : Prop := Forall (fun e : entry A => ok (snd e)) p.

Lemma nth_ok : forall p i (e : entry A), all_ok p -> nth_error p i = Some e -> ok (snd e).
Proof. intros p i e H E. apply nth_error_In in E. exact (proj1 (Forall_forall _ _) H e E). Qed.
Lemma two_ok : forall p r ab, all_ok p -> two_of A p r = Ok ab -> ok (fst ab) /\ ok (snd ab).
Proof.
  intros p r ab H E. unfold two_of in E. destruct (length p <=? 1); [discriminate|]. cbv zeta in E.
  destruct (nth_error p _) as [a|] eqn:Ea; [|discriminate]. match type of E with context [nth_error p ?j] => destruct (nth_error p j) as [b|] eqn:Eb end; [|discriminate]. injection E as <-. split; eapply nth_ok; eassumption.
Qed.
Lemma one_ok : forall p r x, all_ok p -> one_of A p r = Ok x -> ok x.
Proof. intros p r x H E. unfold one_of in E. destruct p as [|e p]; [discriminate|]. destruct (nth_error (e :: p) _) as [a|] eqn:Ea; [|discriminate]. injection E as <-. eapply nth_ok; eassumption. Qed.

(* the population only grows, by unscored good candidates *)
Lemma cross_ok : forall lk todo i p p', all_ok p -> cross_all A lk todo i p = Ok p' -> exists c, p' = p ++ c /\ all_ok c /\ (forall e, In e c -> fst e = None) /\ length c = 2 * todo.
Proof.
  intros lk. induction todo as [|t IH]; intros i p p' H E; cbn [cross_all] in E.
  - injection E as <-. exists []. rewrite app_nil_r. split; [reflexivity|]. split; [constructor|]. split; [intros e []|reflexivity].
  - destruct (two_of A p (gl_pair lk i)) as [ab|] eqn:T; [|discriminate]. cbn [bind] in E. destruct (two_ok _ _ _ H T) as [Ha Hb].
    destruct (ok_cross n P (fst ab) (snd ab) (gl_cut lk i) Ha Hb) as [C1 C2]. destruct (crossover_singlepoint _ _ _) as [c1 c2]. cbn [fst snd] in *.
    apply IH in E; [|apply Forall_app; split; [exact H|constructor; [exact C1|constructor; [exact C2|constructor]]]]. destruct E as (c & -> & Hc & Nc & Lc). exists ((None, c1) :: (None, c2) :: c).
    split; [rewrite <- app_assoc; reflexivity|]. split; [constructor; [exact C1|constructor; [exact C2|exact Hc]]|]. split; [intros e [<-|[<-|I]]; [reflexivity|reflexivity|exact (Nc e I)]|cbn [length]; lia].
Qed.
Lemma mutate_ok : forall g lk todo i p p', all_ok p -> mutate_all A random_vec g lk todo i p = Ok p' -> exists c, p' = p ++ c /\ all_ok c /\ (forall e, In e c -> fst e = None) /\ length c = todo.
Proof.
  intros g lk. induction todo as [|t IH]; intros i p p' H E; cbn [mutate_all] in E.
  - injection E as <-. exists []. rewrite app_nil_r. split; [reflexivity|]. split; [constructor|]. split; [intros e []|reflexivity].
  - destruct (one_of A p _) as [x|] eqn:T; [|discriminate]. cbn [bind] in E. destruct (random_vec g i) as [m|] eqn:R; [|discriminate]. cbn [bind] in E.
    destruct (mutation x m _ _) as [c1|] eqn:M; [|discriminate]. cbn [bind] in E.
    assert (C1 : ok c1) by (eapply ok_mutation; [eapply one_ok; eassumption|eapply random_ok; exact R|exact M]).
    apply IH in E; [|apply Forall_app; split; [exact H|constructor; [exact C1|constructor]]]. destruct E as (c & -> & Hc & Nc & Lc). exists ((None, c1) :: c).
    split; [rewrite <- app_assoc; reflexivity|]. split; [constructor; [exact C1|exact Hc]|]. split; [intros e [<-|I]; [reflexivity|exact (Nc e I)]|cbn [length]; lia].
Qed.

(** *** Only good candidates are evaluated *)
Section Agree.
Variable func' : list A -> St -> St * res fl.
Hypothesis agree : forall x s, ok x -> func x s = func' x s.
Lemma start_agree : forall k x0 s, ok x0 -> start_population A St func k x0 s = start_population A St func' k x0 s.
Proof. induction k as [|k IH]; intros x0 s H; cbn [start_population]; [reflexivity|]. rewrite (agree x0 s H). destruct (func' x0 s) as [s1 [v|e]]; [|reflexivity]. rewrite IH by exact H. reflexivity. Qed.
Lemma newcomers_agree : forall g todo i p s, newcomers A St func random_vec g todo i p s = newcomers A St func' random_vec g todo i p s.
Proof.
  intros g. induction todo as [|t IH]; intros i p s; cbn [newcomers]; [reflexivity|]. destruct (random_vec g i) as [x|] eqn:R; [|reflexivity]. rewrite (agree x s (random_ok _ _ _ R)). destruct (func' x s) as [s1 [v|e]]; [apply IH|reflexivity].
Qed.
Lemma newcomers_ok : forall g todo i p s s' p', all_ok p -> newcomers A St func random_vec g todo i p s = (s', Ok p') -> all_ok p'.
Proof.
  intros g. induction todo as [|t IH]; intros i p s s' p' H E; cbn [newcomers] in E; [injection E as _ <-; exact H|]. destruct (random_vec g i) as [x|] eqn:R; [|discriminate]. destruct (func x s) as [s1 [v|e]]; [|discriminate].
  eapply IH; [|exact E]. apply Forall_app. split; [exact H|]. constructor; [exact (random_ok _ _ _ R)|constructor].
Qed.
Lemma score_agree : forall p s, all_ok p -> score_all A St func p s = score_all A St func' p s.
Proof.
  induction p as [|[sc x] p IH]; intros s H; cbn [score_all]; [reflexivity|]. inversion H as [|? ? Hx Hp]; subst. destruct sc as [v|]; [rewrite IH by exact Hp; reflexivity|]. rewrite (agree x s Hx). destruct (func' x s) as [s1 [v|e]]; [rewrite IH by exact Hp|]; reflexivity.
Qed.
Lemma score_ok : forall p s s' l, score_all A St func p s = (s', Ok l) -> map snd l = map snd p.
Proof.
  induction p as [|[sc x] p IH]; intros s s' l E; cbn [score_all] in E; [injection E as _ <-; reflexivity|]. destruct (match sc with Some v => (s, Ok v) | None => func x s end) as [s1 [v|e]]; [|discriminate].
  destruct (score_all A St func p s1) as [s2 [q|e]] eqn:Q; [|discriminate]. injection E as _ <-. cbn [map snd]. f_equal. eapply IH; exact Q.
Qed.
Definition good_pop (p : list (fl * list A)) : Prop := Forall (fun q => ok (snd q)) p.
Lemma slice_incl : forall T k (l : list T), incl (slice_to k l) l.
Proof. intros T k l x. unfold slice_to. destruct (k <? 0)%Z; intro I; [rewrite <- (firstn_skipn (length l - Z.to_nat (- k)) l)|rewrite <- (firstn_skipn (Z.to_nat k) l)]; apply in_or_app; left; exact I. Qed.
Lemma truncate_incl : forall l, incl (truncate A n_population l) l.
Proof. intros l. unfold truncate. cbv zeta. destruct (_ =? _)%Z; [apply incl_refl|apply slice_incl]. Qed.
Hypothesis sort_perm : forall l, Permutation (sort l) l.
Lemma generation_good : forall g p s s' p', good_pop p -> ga_generation A St func random_vec note sort lucks n_crx n_mut n_population g p s = (s', Ok p') -> good_pop p'.
Proof.
  intros g p s s' p' G E. unfold ga_generation in E. cbv zeta in E.
  destruct (bind (cross_all A (lucks g) n_crx 0 _) _) as [p2|] eqn:B; [|discriminate].
  destruct (newcomers A St func random_vec g _ _ p2 s) as [s1 [p3|]] eqn:N; [|discriminate].
  destruct (score_all A St func p3 s1) as [s2 [p4|]] eqn:Sc; [|discriminate].
  destruct (note _ s2) as [s3 [u|]]; [|discriminate]. injection E as _ <-.
  destruct (cross_all A (lucks g) n_crx 0 _) as [p1|] eqn:C; [|discriminate]. cbn [bind] in B.
  assert (G0 : all_ok (map (fun q : fl * list A => (Some (fst q), snd q)) p)) by (apply Forall_map; exact G).
  destruct (cross_ok _ _ _ _ _ G0 C) as (c & -> & Hc & _). destruct (mutate_ok _ _ _ _ _ _ (proj2 (Forall_app _ _ _) (conj G0 Hc)) B) as (d & -> & Hd & _).
  assert (G3 : all_ok p3) by (eapply newcomers_ok; [|exact N]; apply Forall_app; split; [apply Forall_app; split; assumption|exact Hd]).
  apply score_ok in Sc. apply Forall_forall. intros x I. apply truncate_incl in I. apply (Permutation_in _ (sort_perm p4)) in I.
  assert (I2 : In (snd x) (map snd p3)) by (rewrite <- Sc; apply in_map; exact I). apply in_map_iff in I2 as (e & <- & Ie). exact (proj1 (Forall_forall _ _) G3 e Ie).
Qed.
Lemma generation_agree : forall g p s, good_pop p ->
  ga_generation A St func random_vec note sort lucks n_crx n_mut n_population g p s = ga_generation A St func' random_vec note sort lucks n_crx n_mut n_population g p s.
Proof.
  intros g p s G. unfold ga_generation. cbv zeta.
  destruct (bind (cross_all A (lucks g) n_crx 0 _) _) as [p2|] eqn:B; [|reflexivity].
  rewrite <- newcomers_agree. destruct (newcomers A St func random_vec g _ _ p2 s) as [s1 [p3|]] eqn:N; [|reflexivity].
  destruct (cross_all A (lucks g) n_crx 0 _) as [p1|] eqn:C; [|discriminate]. cbn [bind] in B.
  assert (G0 : all_ok (map (fun q : fl * list A => (Some (fst q), snd q)) p)) by (apply Forall_map; exact G).
  destruct (cross_ok _ _ _ _ _ G0 C) as (c & -> & Hc & _). destruct (mutate_ok _ _ _ _ _ _ (proj2 (Forall_app _ _ _) (conj G0 Hc)) B) as (d & -> & Hd & _).
  assert (G3 : all_ok p3) by (eapply newcomers_ok; [|exact N]; apply Forall_app; split; [apply Forall_app; split; assumption|exact Hd]).
  rewrite <- score_agree by exact G3. reflexivity.
Qed.
Lemma generations_agree : forall todo g p s, good_pop p ->
  ga_generations A St func random_vec note sort lucks n_crx n_mut n_population todo g p s = ga_generations A St func' random_vec note sort lucks n_crx n_mut n_population todo g p s.
Proof.
  induction todo as [|t IH]; intros g p s G; cbn [ga_generations]; [reflexivity|]. rewrite <- generation_agree by exact G.
  destruct (ga_generation A St func random_vec note sort lucks n_crx n_mut n_population g p s) as [s1 [p'|]] eqn:E; [|reflexivity]. apply IH. eapply generation_good; eassumption.
Qed.
Lemma start_good : forall k x0 s s' p, ok x0 -> start_population A St func k x0 s = (s', Ok p) -> good_pop p /\ length p = k.
Proof.
  induction k as [|k IH]; intros x0 s s' p H E; cbn [start_population] in E; [injection E as _ <-; split; [constructor|reflexivity]|]. destruct (func x0 s) as [s1 [v|]]; [|discriminate].
  destruct (start_population A St func k x0 s1) as [s2 [q|]] eqn:Q; [|discriminate]. injection E as _ <-. destruct (IH _ _ _ _ H Q) as [G L]. split; [constructor; assumption|cbn [length]; congruence].
Qed.
Lemma population_agree : forall k x0 s, ok x0 ->
  ga_population A St func random_vec note sort lucks n_crx n_mut n_population k x0 s = ga_population A St func' random_vec note sort lucks n_crx n_mut n_population k x0 s.
Proof.
  intros k x0 s H. unfold ga_population. rewrite <- start_agree by exact H. destruct (start_population A St func n_population x0 s) as [s1 [p|]] eqn:E; [|reflexivity].
  apply generations_agree. exact (proj1 (start_good _ _ _ _ _ H E)).
Qed.
Lemma ga_agree : forall k x0 s, ok x0 ->
  parameters_genetic_algorithm A St func random_vec note sort lucks n_crx n_mut n_population k x0 s = parameters_genetic_algorithm A St func' random_vec note sort lucks n_crx n_mut n_population k x0 s.
Proof. intros k x0 s H. unfold parameters_genetic_algorithm. rewrite population_agree by exact H. reflexivity. Qed.
End Agree.

(** *** Scores *)
Section Value.
Variable Inv : St -> Prop.
Variable f : list A -> res fl.
Hypothesis comp : computes Inv ok func f.
Hypothesis noted : keeps Inv note.
Hypothesis sorts : python_sort sort.
Notation generation := (ga_generation A St func random_vec note sort lucks n_crx n_mut n_population).
Notation generations := (ga_generations A St func random_vec note sort lucks n_crx n_mut n_population).
Notation population := (ga_population A St func random_vec note sort lucks n_crx n_mut n_population).
Notation search := (parameters_genetic_algorithm A St func random_vec note sort lucks n_crx n_mut n_population).

(* good candidates with their own scores *)
Definition true_pop (p : list (fl * list A)) : Prop := Forall (fun q => ok (snd q) /\ f (snd q) = Ok (fst q)) p.
Definition true_entries (p : list (entry A)) : Prop := Forall (fun e : entry A => ok (snd e) /\ forall v, fst e = Some v -> f (snd e) = Ok v) p.

Lemma start_true : forall k x0 s, ok x0 -> Inv s -> exists s', Inv s' /\
  start_population A St func k x0 s = (s', match k with O => Ok [] | _ => do v <- f x0; Ok (repeat (v, x0) k) end).
Proof.
  induction k as [|k IH]; intros x0 s Hx Hs; cbn [start_population]; [exists s; auto|]. destruct (comp s x0 Hs Hx) as (s1 & E & H1). rewrite E. destruct (f x0) as [v|e] eqn:F; [|exists s1; auto].
  destruct (IH x0 s1 Hx H1) as (s2 & H2 & E2). exists s2. split; [exact H2|]. rewrite E2. rewrite F. destruct k; reflexivity.
Qed.
Lemma newcomers_true : forall g todo i p s, true_entries p -> Inv s -> exists s', Inv s' /\
  ((exists c, newcomers A St func random_vec g todo i p s = (s', Ok (p ++ c)) /\ true_entries c /\ length c = todo) \/ exists e, newcomers A St func random_vec g todo i p s = (s', Err e) /\ ((exists j, random_vec g j = Err e) \/ exists x, ok x /\ f x = Err e)).
Proof.
  intros g. induction todo as [|t IH]; intros i p s Hp Hs; cbn [newcomers].
  - exists s. split; [exact Hs|]. left. exists []. rewrite app_nil_r. split; [reflexivity|]. split; [constructor|reflexivity].
  - destruct (random_vec g i) as [x|e] eqn:R; [|exists s; split; [exact Hs|]; right; exists e; split; [reflexivity|left; exists i; exact R]].
    pose proof (random_ok _ _ _ R) as Hx. destruct (comp s x Hs Hx) as (s1 & E & H1). rewrite E. destruct (f x) as [v|e] eqn:F; [|exists s1; split; [exact H1|]; right; exists e; split; [reflexivity|right; exists x; auto]].
    assert (T : true_entries [(Some v, x)]) by (constructor; [split; [exact Hx|intros w Hw; cbn [fst snd] in *; congruence]|constructor]).
    destruct (IH (S i) (p ++ [(Some v, x)]) s1 (proj2 (Forall_app _ _ _) (conj Hp T)) H1) as (s2 & H2 & [(c & Ec & Tc & Lc)|(e & Ee & D)]); exists s2; (split; [exact H2|]).
    + left. exists ((Some v, x) :: c). split; [rewrite Ec, <- app_assoc; reflexivity|]. split; [constructor; [inversion T; assumption|exact Tc]|cbn [length]; lia].
    + right. exists e. auto.
Qed.
Lemma score_true : forall p s, true_entries p -> Inv s -> exists s', Inv s' /\
  ((exists l, score_all A St func p s = (s', Ok l) /\ true_pop l /\ Forall2 (fun (e : entry A) q => snd e = snd q /\ forall v, fst e = Some v -> fst q = v) p l) \/ exists e x, score_all A St func p s = (s', Err e) /\ ok x /\ f x = Err e).
Proof.
  induction p as [|[sc x] p IH]; intros s Hp Hs; cbn [score_all].
  - exists s. split; [exact Hs|]. left. exists []. split; [reflexivity|]. split; constructor.
  - inversion Hp as [|? ? [Hx Hv] Hr]; subst. cbn [fst snd] in *.
    assert (X : exists s1, Inv s1 /\ (match sc with Some v => (s, Ok v) | None => func x s end) = (s1, f x)).
    { destruct sc as [v|]; [exists s; split; [exact Hs|]; rewrite (Hv v eq_refl); reflexivity|]. destruct (comp s x Hs Hx) as (s1 & E & H1). exists s1. auto. }
    destruct X as (s1 & H1 & ->). destruct (f x) as [v|e] eqn:F; [|exists s1; split; [exact H1|]; right; exists e, x; auto].
    destruct (IH s1 Hr H1) as (s2 & H2 & [(l & El & Tl & Fl)|(e & y & Ee & Hy & Fy)]); exists s2; (split; [exact H2|]).
    + left. rewrite El. eexists. split; [reflexivity|]. split; [constructor; [split; [exact Hx|exact F]|exact Tl]|]. constructor; [|exact Fl]. cbn [fst snd]. split; [reflexivity|]. intros w Hw. specialize (Hv w Hw). congruence.
    + right. rewrite Ee. exists e, y. auto.
Qed.

Lemma truncate_sort : forall l, n_population <= length l -> truncate A n_population l = firstn n_population l.
Proof.
  intros l H. unfold truncate. cbv zeta. destruct (Z.eqb_spec (- (Z.of_nat (length l) - Z.of_nat n_population)) 0) as [Z|Z].
  - symmetry. apply firstn_all2. lia.
  - unfold slice_to. destruct (Z.ltb_spec (- (Z.of_nat (length l) - Z.of_nat n_population)) 0); [|lia]. f_equal. lia.
Qed.

(* one generation: when it returns, the new population is the n_population best of an extension of the old one *)
Lemma generation_true : forall g p s s' r, true_pop p -> n_population <= length p -> Inv s -> generation g p s = (s', r) -> Inv s' /\
  forall p', r = Ok p' -> exists q, true_pop (p ++ q) /\ p' = firstn n_population (sort (p ++ q)) /\ length p' = n_population /\ true_pop p'.
Proof.
  intros g p s s' r Tp Ln Hs E. unfold ga_generation in E. cbv zeta in E. match type of E with context [cross_all A (lucks g) n_crx 0 ?y] => set (p0 := y) in E end.
  assert (G0 : all_ok p0) by (apply Forall_map; eapply Forall_impl; [|exact Tp]; intros q [X _]; exact X).
  destruct (cross_all A (lucks g) n_crx 0 p0) as [p1|e] eqn:C; cbn [bind] in E; [|injection E as <- <-; split; [exact Hs|discriminate]].
  destruct (cross_ok _ _ _ _ _ G0 C) as (c & -> & Hc & Nc & _).
  match type of E with context [mutate_all A random_vec g (lucks g) n_mut 0 ?y] => destruct (mutate_all A random_vec g (lucks g) n_mut 0 y) as [p2|e] eqn:M end; [|injection E as <- <-; split; [exact Hs|discriminate]].
  destruct (mutate_ok _ _ _ _ _ _ (proj2 (Forall_app _ _ _) (conj G0 Hc)) M) as (d & -> & Hd & Nd & _).
  match type of E with context [newcomers A St func random_vec g _ n_mut ?y s] => assert (T2 : true_entries y) end.
  { apply Forall_app. split; [apply Forall_app; split|].
    - apply Forall_map. eapply Forall_impl; [|exact Tp]. intros q [X Y]. split; [exact X|]. intros v Hv. cbn [fst snd] in *. congruence.
    - apply Forall_forall. intros x I. split; [exact (proj1 (Forall_forall _ _) Hc x I)|]. intros v Hv. rewrite (Nc x I) in Hv. discriminate.
    - apply Forall_forall. intros x I. split; [exact (proj1 (Forall_forall _ _) Hd x I)|]. intros v Hv. rewrite (Nd x I) in Hv. discriminate. }
  destruct (newcomers_true g (n_population / 20) n_mut _ s T2 Hs) as (s1 & H1 & [(w & Ew & Tw & _)|(e & Ee & _)]); [|rewrite Ee in E; injection E as <- <-; split; [exact H1|discriminate]].
  rewrite Ew in E. destruct (score_true _ s1 (proj2 (Forall_app _ _ _) (conj T2 Tw)) H1) as (s2 & H2 & [(l & El & Tl & Fl)|(e & x & Ee & _)]); [|rewrite Ee in E; injection E as <- <-; split; [exact H2|discriminate]].
  rewrite El in E. pose proof (noted (map fst (truncate A n_population (sort l))) s2 H2) as H3. destruct (note (map fst (truncate A n_population (sort l))) s2) as [s3 [u|e]]; cbn [fst] in H3; [|injection E as <- <-; split; [exact H3|discriminate]]. injection E as <- <-. split; [exact H3|]. intros p' E. injection E as <-.
  (* l begins with p *)
  assert (Sp : exists q, l = p ++ q).
  { rewrite <- !app_assoc in Fl. apply Forall2_app_inv_l in Fl as (l1 & q & F1 & _ & ->). exists q. f_equal. clear - F1. unfold p0 in F1. revert l1 F1. induction p as [|x p IH]; intros l1 F1; cbn [map] in F1; inversion F1 as [|? y ? l' [X Y] F']; subst; [reflexivity|].
    f_equal; [|apply IH; exact F']. cbn [fst snd] in *. destruct x as [v x], y as [v' y]. cbn [fst snd] in *. rewrite (Y v eq_refl), X. reflexivity. }
  destruct Sp as (q & ->). destruct (sorts (p ++ q)) as [Pm _]. exists q. split; [exact Tl|].
  assert (Ls : n_population <= length (sort (p ++ q))) by (rewrite (Permutation_length Pm), app_length; lia).
  rewrite (truncate_sort _ Ls). split; [reflexivity|]. split; [apply firstn_length_le; exact Ls|].
  apply Forall_forall. intros x I. assert (J : In x (p ++ q)). { apply (Permutation_in _ Pm). rewrite <- (firstn_skipn n_population (sort (p ++ q))). apply in_or_app. left. exact I. }
  exact (proj1 (Forall_forall _ _) Tl x J).
Qed.

(* the score of the first entry *)
Definition top (p : list (fl * list A)) (v : fl) : Prop := exists x r, p = (v, x) :: r.

Lemma generation_best : forall g p s s' p' v v', true_pop p -> n_population <= length p -> Inv s -> (forall x, ok x -> f x <> Ok NaN) ->
  generation g p s = (s', Ok p') -> top p v -> top p' v' -> fltb v v' = false.
Proof.
  intros g p s s' p' v v' Tp Ln Hs NN E (x & r & ->) (x' & r' & Ep'). destruct (generation_true _ _ _ _ _ Tp Ln Hs E) as [_ K]. destruct (K p' eq_refl) as (q & Tq & Pq & _ & _).
  destruct (sorts (((v, x) :: r) ++ q)) as [Pm So]. assert (NNq : forall y, In y (((v, x) :: r) ++ q) -> fst y <> NaN).
  { intros y I Z. destruct (proj1 (Forall_forall _ _) Tq y I) as [O F]. rewrite Z in F. exact (NN _ O F). }
  specialize (So NNq). rewrite Ep' in Pq. destruct n_population as [|m]; [discriminate|]. destruct (sort (((v, x) :: r) ++ q)) as [|h t] eqn:Sq; [discriminate|]. cbn [firstn] in Pq. injection Pq as <- _.
  assert (I : In (v, x) ((v', x') :: t)) by (apply (Permutation_in _ (Permutation_sym Pm)); left; reflexivity).
  destruct I as [I|I]; [injection I as <- _; apply fltb_irrefl|]. inversion So as [|? ? _ F]; subst. exact (proj1 (Forall_forall _ _) F _ I).
Qed.

Lemma generations_true : forall todo g p s s' r, true_pop p -> length p = n_population -> Inv s -> generations todo g p s = (s', r) -> Inv s' /\
  forall p', r = Ok p' -> true_pop p' /\ length p' = n_population.
Proof.
  induction todo as [|t IH]; intros g p s s' r Tp Ln Hs E; cbn [ga_generations] in E; [injection E as <- <-; split; [exact Hs|]; intros p' E; injection E as <-; auto|].
  destruct (generation g p s) as [s1 r1] eqn:G. destruct (generation_true _ _ _ _ _ Tp ltac:(lia) Hs G) as [H1 K]. destruct r1 as [p1|e]; [|injection E as <- <-; split; [exact H1|discriminate]].
  destruct (K p1 eq_refl) as (q & _ & _ & L1 & T1). exact (IH _ _ _ _ _ T1 L1 H1 E).
Qed.
Lemma generations_best : forall todo g p s s' p' v v', true_pop p -> length p = n_population -> Inv s -> (forall x, ok x -> f x <> Ok NaN) ->
  generations todo g p s = (s', Ok p') -> top p v -> top p' v' -> fltb v v' = false.
Proof.
  induction todo as [|t IH]; intros g p s s' p' v v' Tp Ln Hs NN E Tv Tv'; cbn [ga_generations] in E.
  - injection E as _ <-. destruct Tv as (x & r & ->), Tv' as (x' & r' & E'). injection E' as <- _ _. apply fltb_irrefl.
  - destruct (generation g p s) as [s1 [p1|e]] eqn:G; [|discriminate]. destruct (generation_true _ _ _ _ _ Tp ltac:(lia) Hs G) as [H1 K]. destruct (K p1 eq_refl) as (q & _ & _ & L1 & T1).
    assert (NE : exists v1, top p1 v1). { destruct p1 as [|[v1 x1] r1]; [|exists v1, x1, r1; reflexivity]. exfalso. destruct Tv as (x & r & ->). cbn [length] in *. lia. }
    destruct NE as (v1 & Tv1). pose proof (generation_best _ _ _ _ _ _ _ Tp ltac:(lia) Hs NN G Tv Tv1) as B1. pose proof (IH _ _ _ _ _ _ _ T1 L1 H1 NN E Tv1 Tv') as B2.
    eapply fltb_neg_trans; [|exact B1|exact B2]. intros ->. destruct Tv1 as (x1 & r1 & ->). inversion T1 as [|? ? [O F] _]; subst. exact (NN _ O F).
Qed.
Lemma generations_split : forall a b g p s, generations (a + b) g p s = match generations a g p s with (s1, Ok p1) => generations b (g + a) p1 s1 | (s1, Err e) => (s1, Err e) end.
Proof.
  induction a as [|a IH]; intros b g p s; cbn [Nat.add ga_generations]; [rewrite Nat.add_0_r; reflexivity|]. destruct (generation g p s) as [s1 [p1|e]]; [|reflexivity]. rewrite IH. replace (S g + a) with (g + S a) by lia. reflexivity.
Qed.

Lemma start_cases : forall x0 s s1 r, ok x0 -> Inv s -> start_population A St func n_population x0 s = (s1, r) -> Inv s1 /\ forall p, r = Ok p -> true_pop p /\ length p = n_population /\ (0 < n_population -> exists v, f x0 = Ok v /\ top p v).
Proof.
  intros x0 s s1 r Hx Hs E. destruct (start_true n_population x0 s Hx Hs) as (s' & H' & E'). rewrite E in E'. injection E' as <- ->. split; [exact H'|]. intros p Ep.
  destruct n_population as [|m]; [injection Ep as <-; split; [constructor|]; split; [reflexivity|lia]|]. destruct (f x0) as [v|] eqn:F; [|discriminate]. cbn [bind] in Ep. injection Ep as <-.
  split; [apply Forall_forall; intros y I; apply (repeat_spec (S m)) in I; subst y; auto|]. split; [cbn [length]; rewrite repeat_length; reflexivity|]. intros _. exists v. split; [reflexivity|]. exists x0, (repeat (v, x0) m). reflexivity.
Qed.

(* C32 *)
Lemma population_ok : forall k x0 s s' p, ok x0 -> Inv s -> population k x0 s = (s', Ok p) -> Inv s' /\ length p = n_population /\ forall v x, In (v, x) p -> ok x /\ f x = Ok v.
Proof.
  intros k x0 s s' p Hx Hs E. unfold ga_population in E. destruct (start_population A St func n_population x0 s) as [s1 r] eqn:S0. destruct (start_cases _ _ _ _ Hx Hs S0) as [H1 K]. destruct r as [p1|]; [|discriminate].
  destruct (K p1 eq_refl) as (T1 & L1 & _). destruct (generations_true _ _ _ _ _ _ T1 L1 H1 E) as [H2 K2]. destruct (K2 p eq_refl) as [T2 L2]. split; [exact H2|]. split; [exact L2|]. intros v x I. exact (proj1 (Forall_forall _ _) T2 _ I).
Qed.
Lemma search_state : forall k x0 s s' r, ok x0 -> Inv s -> search k x0 s = (s', r) -> Inv s'.
Proof.
  intros k x0 s s' r Hx Hs E. unfold parameters_genetic_algorithm, ga_population in E. destruct (start_population A St func n_population x0 s) as [s1 r1] eqn:S0. destruct (start_cases _ _ _ _ Hx Hs S0) as [H1 K].
  destruct r1 as [p1|e]; [|injection E as <- _; exact H1]. destruct (K p1 eq_refl) as (T1 & L1 & _). destruct (generations k 1 p1 s1) as [s2 r2] eqn:G. destruct (generations_true _ _ _ _ _ _ T1 L1 H1 G) as [H2 _].
  destruct r2 as [[|[v x] l]|e]; injection E as <- _; exact H2.
Qed.
Lemma search_ok : forall k x0 s s' x v, ok x0 -> Inv s -> search k x0 s = (s', Ok (x, v)) -> ok x /\ f x = Ok v.
Proof.
  intros k x0 s s' x v Hx Hs E. unfold parameters_genetic_algorithm in E. destruct (population k x0 s) as [s1 [[|[v' x'] l]|]] eqn:Q; try discriminate. injection E as _ <- <-.
  destruct (population_ok _ _ _ _ _ Hx Hs Q) as (_ & _ & K). apply (K v' x'). left. reflexivity.
Qed.
Lemma search_better : forall k k' x0 s s1 s2 x v x' v', ok x0 -> Inv s -> (forall y, ok y -> f y <> Ok NaN) -> k <= k' ->
  search k x0 s = (s1, Ok (x, v)) -> search k' x0 s = (s2, Ok (x', v')) -> fltb v v' = false.
Proof.
  intros k k' x0 s s1 s2 x v x' v' Hx Hs NN Le E E'. unfold parameters_genetic_algorithm, ga_population in *. destruct (start_population A St func n_population x0 s) as [s0 r0] eqn:S0. destruct (start_cases _ _ _ _ Hx Hs S0) as [H0 K0].
  destruct r0 as [p0|]; [|discriminate]. destruct (K0 p0 eq_refl) as (T0 & L0 & _). replace k' with (k + (k' - k)) in E' by lia. rewrite generations_split in E'.
  destruct (generations k 1 p0 s0) as [sa [[|[va xa] la]|]] eqn:G; try discriminate. injection E as _ <- <-. destruct (generations_true _ _ _ _ _ _ T0 L0 H0 G) as [Ha Ka]. destruct (Ka _ eq_refl) as [Ta La].
  destruct (generations (k' - k) (1 + k) ((va, xa) :: la) sa) as [sb [[|[vb xb] lb]|]] eqn:G'; try discriminate. injection E' as _ <- <-.
  eapply generations_best; [exact Ta|exact La|exact Ha|exact NN|exact G'|exists xa, la; reflexivity|exists xb, lb; reflexivity].
Qed.
Lemma search_start : forall k x0 s s' x v, ok x0 -> Inv s -> (forall y, ok y -> f y <> Ok NaN) -> search k x0 s = (s', Ok (x, v)) -> exists v0, f x0 = Ok v0 /\ fltb v0 v = false.
Proof.
  intros k x0 s s' x v Hx Hs NN E. unfold parameters_genetic_algorithm, ga_population in E. destruct (start_population A St func n_population x0 s) as [s0 r0] eqn:S0. destruct (start_cases _ _ _ _ Hx Hs S0) as [H0 K0].
  destruct r0 as [p0|]; [|discriminate]. destruct (K0 p0 eq_refl) as (T0 & L0 & N0). destruct (generations k 1 p0 s0) as [sa [[|[va xa] la]|]] eqn:G; try discriminate. injection E as _ <- <-.
  destruct (generations_true _ _ _ _ _ _ T0 L0 H0 G) as [_ Ka]. destruct (Ka _ eq_refl) as [_ La]. destruct N0 as (v0 & F0 & Tp); [cbn [length] in La; lia|]. exists v0. split; [exact F0|].
  eapply generations_best; [exact T0|exact L0|exact H0|exact NN|exact G|exact Tp|exists xa, la; reflexivity].
Qed.

(* when it returns *)
Lemma two_exists : forall (p : list (entry A)) r, 2 <= length p -> exists ab, two_of A p r = Ok ab.
Proof.
  intros p r L. unfold two_of. destruct (Nat.leb_spec (length p) 1); [lia|]. cbv zeta. pose proof (Nat.mod_upper_bound (fst r) (length p)) as B1. pose proof (Nat.mod_upper_bound (snd r) (length p - 1)) as B2.
  set (i := fst r mod length p) in *. set (j := snd r mod (length p - 1)) in *. assert (Li : i < length p) by (apply B1; lia). assert (Lj : (if j <? i then j else S j) < length p) by (destruct (Nat.ltb_spec j i); lia).
  apply nth_error_Some in Li, Lj. destruct (nth_error p i); [|congruence]. destruct (nth_error p _); [eexists; reflexivity|congruence].
Qed.
Lemma cross_total : forall lk todo i (p : list (entry A)), 2 <= length p -> exists p', cross_all A lk todo i p = Ok p'.
Proof.
  intros lk. induction todo as [|t IH]; intros i p L; cbn [cross_all]; [eexists; reflexivity|]. destruct (two_exists p (gl_pair lk i) L) as (ab & ->). cbn [bind]. apply IH. rewrite app_length. lia.
Qed.
Lemma mutate_total : forall g lk todo i p, 0 < n -> (forall i, exists x, random_vec g i = Ok x) -> p <> [] -> exists p', mutate_all A random_vec g lk todo i p = Ok p'.
Proof.
  intros g lk. induction todo as [|t IH]; intros i p Pn R NE; cbn [mutate_all]; [eexists; reflexivity|]. destruct (R i) as (m & Em). pose proof (random_ok _ _ _ Em) as [Lm _].
  assert (One : exists x, one_of A p (gl_one lk i) = Ok x).
  { unfold one_of. destruct p as [|e p]; [congruence|]. pose proof (Nat.mod_upper_bound (gl_one lk i) (length (e :: p))) as B. assert (X : gl_one lk i mod length (e :: p) < length (e :: p)) by (apply B; discriminate). apply nth_error_Some in X. destruct (nth_error (e :: p) _); [eexists; reflexivity|congruence]. }
  destruct One as (x & ->). cbn [bind]. rewrite Em. cbn [bind]. destruct m as [|b m]; [cbn [length] in Lm; lia|]. cbn [mutation bind]. apply IH; [exact Pn|exact R|]. destruct p; discriminate.
Qed.
Lemma search_total : harmless Inv note -> forall k x0 s, ok x0 -> Inv s -> (forall x, ok x -> exists v, f x = Ok v) -> (forall g i, exists x, random_vec g i = Ok x) -> 0 < n -> 0 < n_population -> (n_crx = 0 \/ 2 <= n_population) ->
  exists s' x v, search k x0 s = (s', Ok (x, v)).
Proof.
  intros quiet k x0 s Hx Hs Tf Tr Pn Pp Nc. unfold parameters_genetic_algorithm, ga_population. destruct (start_population A St func n_population x0 s) as [s0 r0] eqn:S0. destruct (start_cases _ _ _ _ Hx Hs S0) as [H0 K0].
  destruct r0 as [p0|e].
  2:{ exfalso. destruct (start_true n_population x0 s Hx Hs) as (s' & _ & E'). rewrite S0 in E'. destruct (Tf x0 Hx) as (v & Fv). rewrite Fv in E'. destruct n_population; discriminate. }
  destruct (K0 p0 eq_refl) as (T0 & L0 & _). clear S0 K0.
  assert (G : forall todo g p s, true_pop p -> length p = n_population -> Inv s -> exists s' p', generations todo g p s = (s', Ok p')).
  { induction todo as [|t IH]; intros g p s2 Tp Lp H2; cbn [ga_generations]; [exists s2, p; reflexivity|].
    assert (X : exists s3 p3, generation g p s2 = (s3, Ok p3)).
    { unfold ga_generation. cbv zeta. match goal with |- context [cross_all A (lucks g) n_crx 0 ?y] => set (q := y) end. assert (Lq : length q = n_population) by (unfold q; rewrite map_length; exact Lp).
      assert (Gq : all_ok q) by (apply Forall_map; eapply Forall_impl; [|exact Tp]; intros y [Y _]; exact Y).
      assert (C : exists p1, cross_all A (lucks g) n_crx 0 q = Ok p1) by (destruct Nc as [->|Nc]; [exists q; reflexivity|apply cross_total; exact (Nat.le_trans _ _ _ Nc (Nat.eq_le_incl _ _ (eq_sym Lq)))]). destruct C as (p1 & C). rewrite C. cbn [bind].
      destruct (cross_ok _ _ _ _ _ Gq C) as (c & -> & Hc & Nc' & _). match goal with |- context [mutate_all A random_vec g _ n_mut 0 ?y] => destruct (mutate_total g (lucks g) n_mut 0 y Pn (Tr g)) as (p2 & M) end; [intros Z; apply app_eq_nil in Z as [Z _]; assert (Z' : length q = 0) by exact (f_equal (@length _) Z); rewrite Lq in Z'; lia|]. rewrite M.
      destruct (mutate_ok _ _ _ _ _ _ (proj2 (Forall_app _ _ _) (conj Gq Hc)) M) as (d & -> & Hd & Nd & _).
      match goal with |- context [newcomers A St func random_vec g _ n_mut ?y s2] => assert (T2 : true_entries y) end.
      { apply Forall_app. split; [apply Forall_app; split|].
        - apply Forall_map. eapply Forall_impl; [|exact Tp]. intros y [X Y]. split; [exact X|]. intros v Hv. cbn [fst snd] in *. congruence.
        - apply Forall_forall. intros x I. split; [exact (proj1 (Forall_forall _ _) Hc x I)|]. intros v Hv. rewrite (Nc' x I) in Hv. discriminate.
        - apply Forall_forall. intros x I. split; [exact (proj1 (Forall_forall _ _) Hd x I)|]. intros v Hv. rewrite (Nd x I) in Hv. discriminate. }
      destruct (newcomers_true g (n_population / 20) n_mut _ s2 T2 H2) as (s3 & H3 & [(w & Ew & Tw & _)|(e & Ee & D)]).
      2:{ exfalso. destruct D as [(j & Dj)|(y & Oy & Fy)]; [destruct (Tr g j); congruence|destruct (Tf y Oy); congruence]. }
      rewrite Ew. destruct (score_true _ s3 (proj2 (Forall_app _ _ _) (conj T2 Tw)) H3) as (s4 & H4 & [(l & El & _)|(e & y & Ee & Oy & Fy)]); [|exfalso; destruct (Tf y Oy); congruence].
      rewrite El. destruct (quiet (map fst (truncate A n_population (sort l))) s4 H4) as (s5 & E5 & _). rewrite E5. eexists _, _. reflexivity. }
    destruct X as (s3 & p3 & E3). rewrite E3. destruct (generation_true _ _ _ _ _ Tp ltac:(lia) H2 E3) as [H3 K3]. destruct (K3 p3 eq_refl) as (_ & _ & _ & L3 & T3). exact (IH _ _ _ T3 L3 H3). }
  destruct (G k 1 p0 s0 T0 L0 H0) as (s' & p' & E). rewrite E. destruct (generations_true _ _ _ _ _ _ T0 L0 H0 E) as [_ K]. destruct (K p' eq_refl) as [_ L]. destruct p' as [|[v x] r]; [cbn [length] in L; lia|]. exists s', x, v. reflexivity.
Qed.
End Value.
End Search.

(** *** Two searches that differ only in their state *)
Section Simulation.
Context {A St St' : Type}.
Variable R : St -> St' -> Prop.
Variable ok : list A -> Prop.
Variable func : list A -> St -> St * res fl.
Variable func' : list A -> St' -> St' * res fl.
Variable random_vec : nat -> nat -> res (list A).
Variable note : list fl -> St -> St * res unit.
Variable note' : list fl -> St' -> St' * res unit.
Variable sort : list (fl * list A) -> list (fl * list A).
Variable lucks : nat -> ga_luck.
Variable n_crx n_mut n_population : nat.
Definition related {B} (p : St * res B) (q : St' * res B) : Prop := R (fst p) (fst q) /\ snd p = snd q.
Hypothesis Hf : forall x s s', R s s' -> related (func x s) (func' x s').
Hypothesis Hn : forall l s s', R s s' -> related (note l s) (note' l s').

Lemma start_sim : forall k x0 s s', R s s' -> related (start_population A St func k x0 s) (start_population A St' func' k x0 s').
Proof.
  induction k as [|k IH]; intros x0 s s' H; cbn [start_population]; [split; [exact H|reflexivity]|]. pose proof (Hf x0 s s' H) as [H1 E]. destruct (func x0 s) as [s1 r1], (func' x0 s') as [s1' r1']. cbn [fst snd] in *. subst r1'. destruct r1 as [v|e]; [|split; [exact H1|reflexivity]].
  destruct (IH x0 s1 s1' H1) as [H2 E2]. destruct (start_population A St func k x0 s1) as [s2 r2], (start_population A St' func' k x0 s1') as [s2' r2']. cbn [fst snd] in *. subst r2'. destruct r2; split; assumption || reflexivity.
Qed.
Lemma newcomers_sim : forall g todo i p s s', R s s' -> related (newcomers A St func random_vec g todo i p s) (newcomers A St' func' random_vec g todo i p s').
Proof.
  intros g. induction todo as [|t IH]; intros i p s s' H; cbn [newcomers]; [split; [exact H|reflexivity]|]. destruct (random_vec g i) as [x|e]; [|split; [exact H|reflexivity]].
  pose proof (Hf x s s' H) as [H1 E]. destruct (func x s) as [s1 r1], (func' x s') as [s1' r1']. cbn [fst snd] in *. subst r1'. destruct r1 as [v|e]; [|split; [exact H1|reflexivity]]. apply IH. exact H1.
Qed.
Lemma score_sim : forall p s s', R s s' -> related (score_all A St func p s) (score_all A St' func' p s').
Proof.
  induction p as [|[sc x] p IH]; intros s s' H; cbn [score_all]; [split; [exact H|reflexivity]|].
  assert (X : related (match sc with Some v => (s, Ok v) | None => func x s end) (match sc with Some v => (s', Ok v) | None => func' x s' end)) by (destruct sc; [split; [exact H|reflexivity]|apply Hf; exact H]).
  destruct (match sc with Some v => (s, Ok v) | None => func x s end) as [s1 r1], (match sc with Some v => (s', Ok v) | None => func' x s' end) as [s1' r1']. destruct X as [H1 E]. cbn [fst snd] in *. subst r1'. destruct r1 as [v|e]; [|split; [exact H1|reflexivity]].
  destruct (IH s1 s1' H1) as [H2 E2]. destruct (score_all A St func p s1) as [s2 r2], (score_all A St' func' p s1') as [s2' r2']. cbn [fst snd] in *. subst r2'. destruct r2; split; assumption || reflexivity.
Qed.
Lemma generation_sim : forall g p s s', R s s' ->
  related (ga_generation A St func random_vec note sort lucks n_crx n_mut n_population g p s) (ga_generation A St' func' random_vec note' sort lucks n_crx n_mut n_population g p s').
Proof.
  intros g p s s' H. unfold ga_generation. cbv zeta. destruct (bind (cross_all A (lucks g) n_crx 0 _) _) as [p2|e]; [|split; [exact H|reflexivity]].
  destruct (newcomers_sim g (n_population / 20) n_mut p2 s s' H) as [H1 E1]. destruct (newcomers A St func random_vec g _ _ p2 s) as [s1 r1], (newcomers A St' func' random_vec g _ _ p2 s') as [s1' r1']. cbn [fst snd] in *. subst r1'. destruct r1 as [p3|e]; [|split; [exact H1|reflexivity]].
  destruct (score_sim p3 s1 s1' H1) as [H2 E2]. destruct (score_all A St func p3 s1) as [s2 r2], (score_all A St' func' p3 s1') as [s2' r2']. cbn [fst snd] in *. subst r2'. destruct r2 as [p4|e]; [|split; [exact H2|reflexivity]].
  destruct (Hn (map fst (truncate A n_population (sort p4))) s2 s2' H2) as [H3 E3]. destruct (note _ s2) as [s3 r3], (note' _ s2') as [s3' r3']. cbn [fst snd] in *. subst r3'. destruct r3; split; assumption || reflexivity.
Qed.
Lemma generations_sim : forall todo g p s s', R s s' ->
  related (ga_generations A St func random_vec note sort lucks n_crx n_mut n_population todo g p s) (ga_generations A St' func' random_vec note' sort lucks n_crx n_mut n_population todo g p s').
Proof.
  induction todo as [|t IH]; intros g p s s' H; cbn [ga_generations]; [split; [exact H|reflexivity]|]. destruct (generation_sim g p s s' H) as [H1 E1].
  destruct (ga_generation A St func random_vec note sort lucks n_crx n_mut n_population g p s) as [s1 r1], (ga_generation A St' func' random_vec note' sort lucks n_crx n_mut n_population g p s') as [s1' r1']. cbn [fst snd] in *. subst r1'. destruct r1 as [p1|e]; [apply IH; exact H1|split; [exact H1|reflexivity]].
Qed.
Lemma search_sim : forall k x0 s s', R s s' ->
  related (parameters_genetic_algorithm A St func random_vec note sort lucks n_crx n_mut n_population k x0 s) (parameters_genetic_algorithm A St' func' random_vec note' sort lucks n_crx n_mut n_population k x0 s').
Proof.
  intros k x0 s s' H. unfold parameters_genetic_algorithm, ga_population. destruct (start_sim n_population x0 s s' H) as [H0 E0]. destruct (start_population A St func n_population x0 s) as [s0 r0], (start_population A St' func' n_population x0 s') as [s0' r0']. cbn [fst snd] in *. subst r0'.
  destruct r0 as [p0|e]; [|split; [exact H0|reflexivity]]. destruct (generations_sim k 1 p0 s0 s0' H0) as [H1 E1].
  destruct (ga_generations A St func random_vec note sort lucks n_crx n_mut n_population k 1 p0 s0) as [s1 r1], (ga_generations A St' func' random_vec note' sort lucks n_crx n_mut n_population k 1 p0 s0') as [s1' r1']. cbn [fst snd] in *. subst r1'.
  destruct r1 as [[|[v x] p]|e]; split; assumption || reflexivity.
Qed.
End Simulation.
