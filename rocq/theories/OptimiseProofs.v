(** Proofs about parameters_optimize. *)
From Coq Require Import List Arith Bool ZArith QArith Lia.
From Verif Require Import Base GraphModel GraphSpec ParamsModel ParamsSpec ParamsProofs PreferentialProofs FloatModel GAModel GASpec GAProofs LoggerModel LoggerSpec LoggerProofs OptimiseModel OptimiseSpec.
Import ListNotations.
Local Open Scope nat_scope.

(** ** Writing a vector over another one *)
Lemma set_assoc_twice : forall {A} n (a b : A) l, set_assoc n a (set_assoc n b l) = set_assoc n a l.
Proof. intros A n a b. induction l as [|[m x] l IH]; cbn [set_assoc]; [reflexivity|]. destruct (Nat.eqb_spec n m) as [->|N]; cbn [set_assoc]; [rewrite Nat.eqb_refl; reflexivity|]. destruct (Nat.eqb_spec n m); [congruence|]. rewrite IH. reflexivity. Qed.
Lemma set_assoc_comm : forall {A} n m (a b : A) l, n <> m -> set_assoc n a (set_assoc m b l) = set_assoc m b (set_assoc n a l).
Proof.
  intros A n m a b l N. induction l as [|[k x] l IH]; cbn [set_assoc]; [reflexivity|].
  destruct (Nat.eqb_spec m k) as [->|M]; cbn [set_assoc].
  - destruct (Nat.eqb_spec n k) as [|]; [congruence|]. cbn [set_assoc]. rewrite Nat.eqb_refl. reflexivity.
  - destruct (Nat.eqb_spec n k) as [->|K]; cbn [set_assoc]; [destruct (Nat.eqb_spec m k); [congruence|reflexivity]|]. destruct (Nat.eqb_spec m k); [congruence|]. rewrite IH. reflexivity.
Qed.
Lemma set_nth_twice : forall {A} (l l' : list A) k a b, set_nth k a l = Some l' -> set_nth k b l' = set_nth k b l.
Proof.
  induction l as [|x l IH]; intros l' [|k] a b E; cbn [set_nth] in *; try discriminate; [injection E as <-; reflexivity|]. destruct (set_nth k a l) as [r|] eqn:N; [|discriminate]. injection E as <-. cbn [set_nth]. rewrite (IH _ _ _ b N). reflexivity.
Qed.
Lemma set_nth_comm : forall {A} (l la lb : list A) k j a b, k <> j -> set_nth k a l = Some la -> set_nth j b l = Some lb -> exists lc, set_nth j b la = Some lc /\ set_nth k a lb = Some lc.
Proof.
  induction l as [|x l IH]; intros la lb [|k] [|j] a b N Ea Eb; cbn [set_nth] in *; try discriminate; try congruence.
  - injection Ea as <-. destruct (set_nth j b l) as [r|] eqn:R; [|discriminate]. injection Eb as <-. cbn [set_nth]; try rewrite R. eexists. split; reflexivity.
  - injection Eb as <-. destruct (set_nth k a l) as [r|] eqn:R; [|discriminate]. injection Ea as <-. cbn [set_nth]; try rewrite R. eexists. split; reflexivity.
  - destruct (set_nth k a l) as [r|] eqn:R; [|discriminate]. injection Ea as <-. destruct (set_nth j b l) as [q|] eqn:Q; [|discriminate]. injection Eb as <-. cbn [set_nth].
    destruct (IH r q k j a b ltac:(congruence) R Q) as (lc & E1 & E2). rewrite E1, E2. eexists. split; reflexivity.
Qed.

Lemma write_of : forall s m k v o ps ps', has s m o ps -> set_nth k v ps = Some ps' -> write_param s m k v = Ok (mkStore (s_objs s) (set_assoc (o_list o) ps' (s_lists s))).
Proof. intros s m k v o ps ps' [Ho Hl] E. unfold write_param. rewrite (proj2 (get_obj_ok s m o) Ho). cbn [bind]. rewrite (proj2 (get_list_ok s _ ps) Hl). cbn [bind]. rewrite E. reflexivity. Qed.

(* writing twice to the same entry *)
Lemma write_twice : forall s t m k u v, write_param s m k u = Ok t -> write_param t m k v = write_param s m k v /\ exists t', write_param s m k v = Ok t'.
Proof.
  intros s t m k u v E. apply write_spec in E as (o & ps & ps' & [Ho Hl] & N & ->). destruct (set_nth_spec _ _ _ _ N) as (K & L & _). destruct (set_nth_some ps k v K) as (ps2 & N2 & _).
  rewrite (write_of s m k v o ps ps2 (conj Ho Hl) N2). split; [|eexists; reflexivity].
  rewrite (write_of _ m k v o ps' ps2); [cbn [s_objs s_lists]; rewrite set_assoc_twice; reflexivity| |rewrite (set_nth_twice _ _ _ _ v N); exact N2].
  split; [exact Ho|]. cbn [s_lists]. rewrite (assoc_set _ _ ps' ps _ Hl), Nat.eqb_refl. reflexivity.
Qed.
(* writing to two different entries *)
Lemma write_comm : forall s s1 s2 m k v m' k' v' o o', write_param s m k v = Ok s1 -> write_param s m' k' v' = Ok s2 -> assoc m (s_objs s) = Some o -> assoc m' (s_objs s) = Some o' ->
  (o_list o, k) <> (o_list o', k') -> exists s3, write_param s1 m' k' v' = Ok s3 /\ write_param s2 m k v = Ok s3.
Proof.
  intros s s1 s2 m k v m' k' v' o o' E1 E2 Ao Ao' N. apply write_spec in E1 as (p & ps & ps1 & [Ho Hl] & N1 & ->). apply write_spec in E2 as (p' & qs & qs1 & [Ho' Hl'] & N2 & ->).
  assert (p = o) by congruence. assert (p' = o') by congruence. subst p p'. destruct (Nat.eq_dec (o_list o) (o_list o')) as [E|E].
  - rewrite <- E in *. assert (qs = ps) by congruence. subst qs. destruct (set_nth_comm ps ps1 qs1 k k' v v' ltac:(congruence) N1 N2) as (lc & C1 & C2). eexists. split.
    + apply (write_of _ m' k' v' o' ps1 lc); [|exact C1]. split; [exact Ho'|]. cbn [s_lists]. rewrite <- E, (assoc_set _ _ ps1 ps _ Hl), Nat.eqb_refl. reflexivity.
    + cbn [s_objs s_lists]. rewrite <- E, set_assoc_twice. rewrite (write_of _ m k v o qs1 lc); [cbn [s_objs s_lists]; rewrite set_assoc_twice; reflexivity| |exact C2]. split; [exact Ho|]. cbn [s_lists]. rewrite (assoc_set _ _ qs1 ps _ Hl'), Nat.eqb_refl. reflexivity.
  - eexists. split.
    + apply (write_of _ m' k' v' o' qs qs1); [|exact N2]. split; [exact Ho'|]. cbn [s_lists]. rewrite (assoc_set _ _ ps1 ps _ Hl). destruct (Nat.eqb_spec (o_list o') (o_list o)); [congruence|exact Hl'].
    + cbn [s_objs s_lists]. rewrite set_assoc_comm by congruence. rewrite (write_of _ m k v o ps ps1); [reflexivity| |exact N1]. split; [exact Ho|]. cbn [s_lists]. rewrite (assoc_set _ _ qs1 qs _ Hl'). destruct (Nat.eqb_spec (o_list o) (o_list o')); [congruence|exact Hl].
Qed.
Definition distinct (s : store) (ms ks : list nat) : Prop :=
  forall i j m m' k o o', nth_error ms i = Some m -> nth_error ms j = Some m' -> nth_error ks i = Some k -> nth_error ks j = Some k ->
    assoc m (s_objs s) = Some o -> assoc m' (s_objs s) = Some o' -> o_list o = o_list o' -> i = j.
Lemma distribute_comm : forall us ms ks s sA sB m k v, write_param s m k v = Ok sA -> distribute us ms ks s = Ok sB ->
  (forall j m' o o', nth_error ms j = Some m' -> nth_error ks j = Some k -> assoc m (s_objs s) = Some o -> assoc m' (s_objs s) = Some o' -> o_list o <> o_list o') ->
  exists sC, distribute us ms ks sA = Ok sC /\ write_param sB m k v = Ok sC.
Proof.
  induction us as [|u us IH]; intros ms ks s sA sB m k v W D N; [assert (sB = s) by (destruct ms, ks; injection D; auto); subst sB; exists sA; split; [destruct ms, ks; reflexivity|exact W]|].
  destruct ms as [|m1 ms]; [injection D as <-; exists sA; split; [reflexivity|exact W]|]. destruct ks as [|k1 ks]; [injection D as <-; exists sA; split; [reflexivity|exact W]|].
  cbn [distribute] in *. destruct (write_param s m1 k1 u) as [s1|] eqn:W1; [|discriminate]. cbn [bind] in D.
  pose proof W as W'. apply write_spec in W' as (o & ps & ps' & [Ho Hl] & _ & _). pose proof W1 as W1'. apply write_spec in W1' as (o1 & qs & qs' & [Ho1 Hl1] & _ & Es1).
  assert (Ne : (o_list o, k) <> (o_list o1, k1)) by (intros Z; injection Z as Z1 Z2; subst k1; exact (N 0 m1 o o1 eq_refl eq_refl Ho Ho1 Z1)).
  destruct (write_comm _ _ _ _ _ _ _ _ _ _ _ W W1 Ho Ho1 Ne) as (s3 & E1 & E2). rewrite E1. cbn [bind].
  apply (IH ms ks s1 s3 sB m k v E2 D). intros j m' p p' A1 A2 A3 A4. rewrite Es1 in A3, A4. cbn [s_objs] in A3, A4. exact (N (S j) m' p p' A1 A2 A3 A4).
Qed.
Lemma distribute_over : forall us vs ms ks s s1, distinct s ms ks -> length us = length vs -> distribute us ms ks s = Ok s1 -> distribute vs ms ks s1 = distribute vs ms ks s.
Proof.
  induction us as [|u us IH]; intros [|v vs] ms ks s s1 Di L D; try discriminate; [destruct ms, ks; injection D as <-; reflexivity|].
  destruct ms as [|m ms]; [injection D as <-; reflexivity|]. destruct ks as [|k ks]; [injection D as <-; reflexivity|]. cbn [distribute] in *. destruct (write_param s m k u) as [t|] eqn:W; [|discriminate]. cbn [bind] in D.
  destruct (write_twice _ _ _ _ _ v W) as (Et & t' & Wt'). pose proof W as W'. apply write_spec in W' as (o & ps & ps' & [Ho Hl] & _ & Est).
  assert (Objs : s_objs t = s_objs s) by (rewrite Est; reflexivity). assert (Objs' : s_objs t' = s_objs s) by (pose proof Wt' as X; apply write_spec in X as (? & ? & ? & _ & _ & ->); reflexivity).
  destruct (distribute_comm us ms ks t t' s1 m k v) as (sC & E1 & E2); [rewrite Et; exact Wt'|exact D| |].
  { intros j m' p p' A1 A2 A3 A4 Z. rewrite Objs in A3, A4. assert (0 = S j) by (apply (Di 0 (S j) m m' k p p'); auto). discriminate. }
  rewrite E2, Wt'. cbn [bind]. apply (IH vs ms ks t' sC); [|injection L as L; exact L|exact E1].
  intros i j m1 m2 k1 o1 o2 A1 A2 A3 A4 A5 A6 A7. rewrite Objs' in A5, A6. assert (S i = S j) by (apply (Di (S i) (S j) m1 m2 k1 o1 o2); assumption). congruence.
Qed.

Lemma sample_callable_length : forall d ps los his ts sts rs i vs, length los = length ps -> length his = length ps -> length ts = length ps -> length sts = length ps ->
  sample_callable d ps los his ts sts rs i = Ok vs -> length vs = length ps.
Proof.
  intros d. induction ps as [|p ps IH]; intros [|lo los] [|hi his] [|t ts] [|st sts] rs i vs L1 L2 L3 L4 E; try discriminate; cbn [sample_callable] in E; [injection E as <-; reflexivity|].
  destruct (sample_one d lo hi st t (rs i)); [|discriminate]. cbn [bind] in E. destruct (sample_callable d ps los his ts sts rs (S i)) as [l|] eqn:Z; [|discriminate]. cbn [bind] in E. injection E as <-. cbn [length] in *. f_equal. eapply IH; [| | | |exact Z]; lia.
Qed.

(** ** Agreement of score, vector and graph *)
Section Agree.
Variable eval : store -> res fl.
Variable gradient : store -> res (list pval).
Variable lbfgs : nat -> list pval -> list pval -> list pval -> strategy.
Variable pso : nat -> nat -> list pval -> list pval -> strategy.
Variable cma : list pval -> list pval -> list pval -> strategy.
Variable adam : nat -> list pval -> list pval -> list pval -> strategy.
Variable sort : list (fl * list pval) -> list (fl * list pval).
Variable lucks : nat -> ga_luck.
Variable rs : nat -> nat -> nat -> rnd.
Variable rs_cheap : nat -> rnd.
Variable kw : options.
Variable g : graph.
Variable s0 : store.
Variable X0 : extracted.
Hypothesis W : wf g.
Hypothesis H0 : extract g s0 = Ok X0.
Hypothesis U : unshared g s0.
Hypothesis sorts : python_sort sort.
Notation n := (length (x_params X0)).
Notation fm := (x_models X0).
Notation fk := (x_index X0).
Hypothesis sz_lbfgs : forall k x lo hi, length x = n -> sized n (lbfgs k x lo hi).
Hypothesis sz_pso : forall a b lo hi, sized n (pso a b lo hi).
Hypothesis sz_cma : forall x lo hi, length x = n -> sized n (cma x lo hi).
Hypothesis sz_adam : forall k lo hi x, length x = n -> sized n (adam k lo hi x).

(* the stores reached: s0 with some vector written *)
Definition reached (s : store) : Prop := exists u, length u = n /\ distribute u fm fk s0 = Ok s.
Definition obj (v : list pval) : res fl := do s <- distribute v fm fk s0; eval s.
Definition has_vec (v : list pval) (s : store) : Prop := length v = n /\ distribute v fm fk s0 = Ok s.

Lemma reached_start : reached s0.
Proof. exists (x_params X0). split; [reflexivity|apply (read_write_back g); exact H0]. Qed.
Lemma reached_write : forall s v, reached s -> length v = n -> exists s', distribute v fm fk s = Ok s' /\ distribute v fm fk s0 = Ok s'.
Proof.
  intros s v (u & Lu & Du) Lv. destruct (write_read g s0 X0 v W H0 U Lv) as (s' & _ & D & _). exists s'. split; [|exact D]. rewrite <- D. apply (distribute_over u v fm fk s0 s); [|congruence|exact Du]. exact (slots_inj g s0 X0 W H0 U).
Qed.
Lemma reached_extract : forall s, reached s -> exists X, extract g s = Ok X /\ x_models X = fm /\ x_index X = fk /\ x_lo X = x_lo X0 /\ x_hi X = x_hi X0 /\ x_types X = x_types X0 /\ x_steps X = x_steps X0 /\ length (x_params X) = n.
Proof.
  intros s (u & Lu & Du). destruct (write_read g s0 X0 u W H0 U Lu) as (s' & X & D & E & P & Q1 & Q2 & Q3 & Q4 & Q5 & Q6 & _). rewrite Du in D. injection D as <-. exists X. split; [exact E|]. repeat (split; [assumption|]). congruence.
Qed.
Lemma has_reached : forall v s, has_vec v s -> reached s.
Proof. intros v s [L D]. exists v. auto. Qed.
Lemma has_holds : forall v s, has_vec v s -> holds g s v /\ same_except_free g s0 s /\ eval s = obj v.
Proof.
  intros v s [L D]. destruct (write_read g s0 X0 v W H0 U L) as (s' & X & D' & E & P & _). rewrite D in D'. injection D' as <-. split; [exists X; auto|]. split; [apply (distribute_frame_graph g s0 X0 v s W H0 D)|]. unfold obj. rewrite D. reflexivity.
Qed.

(* a step that keeps the stores reached; Q describes its result *)
Definition step {B} (f : world -> world * res B) (Q : B -> store -> Prop) : Prop :=
  forall w, reached (o_store w) -> reached (o_store (fst (f w))) /\ forall b, snd (f w) = Ok b -> Q b (o_store (fst (f w))).
Lemma step_then : forall A B (f : world -> world * res A) (k : A -> world -> world * res B) (P : A -> store -> Prop) (Q : B -> store -> Prop),
  step f P -> (forall a s, P a s -> step (k a) Q) -> step (andthen f k) Q.
Proof.
  intros A B f k P Q Hf Hk w Hw. destruct (Hf w Hw) as [H1 K1]. unfold andthen. destruct (f w) as [w1 [a|e]]; cbn [fst snd] in *; [|split; [exact H1|discriminate]]. exact (Hk a (o_store w1) (K1 a eq_refl) w1 H1).
Qed.
(* the same, remembering the store *)
Lemma step_bind : forall A B (f : world -> world * res A) (k : A -> world -> world * res B) (P : A -> store -> Prop) (Q : B -> store -> Prop),
  step f P -> (forall a w, P a (o_store w) -> reached (o_store w) -> reached (o_store (fst (k a w))) /\ forall b, snd (k a w) = Ok b -> Q b (o_store (fst (k a w)))) -> step (andthen f k) Q.
Proof.
  intros A B f k P Q Hf Hk w Hw. destruct (Hf w Hw) as [H1 K1]. unfold andthen. destruct (f w) as [w1 [a|e]]; cbn [fst snd] in *; [|split; [exact H1|discriminate]]. exact (Hk a w1 (K1 a eq_refl) H1).
Qed.
Lemma step_log : forall f, step (with_log f) (fun _ _ => True).
Proof. intros f w Hw. unfold with_log. destruct (o_log w) as [lg|]; [destruct (f lg)|]; cbn [fst snd o_store]; auto. Qed.

Notation func := (func eval fm fk).
Notation fitness := (fitness eval fm fk).
Lemma step_func : forall v, length v = n -> step (func v) (fun sc s => has_vec v s /\ obj v = Ok sc).
Proof.
  intros v L w Hw. unfold OptimiseModel.func. destruct (reached_write _ v Hw L) as (s' & D & D0). rewrite D. cbn [fst snd o_store]. assert (Hv : has_vec v s') by (split; assumption). split; [exact (has_reached _ _ Hv)|]. intros sc E. split; [exact Hv|]. unfold obj. rewrite D0. exact E.
Qed.
Lemma step_fitness : forall v, length v = n -> step (fitness v) (fun sc s => has_vec v s /\ obj v = Ok sc).
Proof.
  intros v L w Hw. unfold OptimiseModel.fitness. destruct (step_func v L w Hw) as [H1 K1]. destruct (func v w) as [w1 [sc|e]]; cbn [fst snd] in *; [|split; [exact H1|discriminate]].
  destruct (o_log w1) as [lg|]; [destruct (log_score sc lg)|]; cbn [fst snd o_store]; (split; [exact H1|]); intros b E; try discriminate; injection E as <-; apply K1; reflexivity.
Qed.
Lemma step_grad : forall f, (forall v, length v = n -> step (f v) (fun sc s => has_vec v s /\ obj v = Ok sc)) -> forall v, length v = n -> step (grad_of gradient f v) (fun _ _ => True).
Proof. intros f Hf v L w Hw. unfold grad_of. destruct (Hf v L w Hw) as [H1 _]. destruct (f v w) as [w1 [sc|e]]; cbn [fst snd] in *; (split; [exact H1|auto]). Qed.
Lemma step_run : forall gg, (forall v, length v = n -> step (gg v) (fun _ _ => True)) -> forall t, sized n t ->
  step (run fitness gg t) (fun r _ => length (fst r) = n /\ (honest obj t -> obj (fst r) = Ok (snd r))).
Proof.
  intros gg Hg. induction t as [x f|e|x k IH|x k IH]; intros Sz w Hw; cbn [run sized honest] in *.
  - cbn [fst snd]. split; [exact Hw|]. intros b E. injection E as <-. cbn [fst snd]. auto.
  - cbn [fst snd]. split; [exact Hw|discriminate].
  - destruct Sz as [L Sz]. destruct (step_fitness x L w Hw) as [H1 K1]. destruct (fitness x w) as [w1 [v|e]]; cbn [fst snd] in *; [|split; [exact H1|discriminate]]. destruct (IH v (Sz v) w1 H1) as [H2 K2]. split; [exact H2|]. intros b E. destruct (K2 b E) as [L2 O2]. split; [exact L2|]. intros Ho. apply O2, Ho. exact (proj2 (K1 v eq_refl)).
  - destruct Sz as [L Sz]. destruct (Hg x L w Hw) as [H1 _]. destruct (gg x w) as [w1 [v|e]]; cbn [fst snd] in *; [|split; [exact H1|discriminate]]. destruct (IH v (Sz v) w1 H1) as [H2 K2]. split; [exact H2|]. intros b E. destruct (K2 b E) as [L2 O2]. split; [exact L2|]. intros Ho. apply O2, Ho.
Qed.
(* the shape of an extraction *)
Definition like (X : extracted) : Prop := x_models X = fm /\ x_index X = fk /\ length (x_params X) = n /\ length (x_lo X) = n /\ length (x_hi X) = n /\ length (x_types X) = n /\ length (x_steps X) = n.
Lemma like_extract : forall s X, reached s -> extract g s = Ok X -> like X.
Proof.
  intros s X R E. destruct (reached_extract s R) as (X' & E' & Q1 & Q2 & Q3 & Q4 & Q5 & Q6 & Q7). rewrite E in E'. injection E' as <-. pose proof (extract_aligned g s0 X0 W H0) as (A1 & A2 & A3 & A4 & A5 & A6 & _). unfold like. rewrite Q1, Q2, Q3, Q4, Q5, Q6. repeat (split; [congruence|]). congruence.
Qed.
Lemma step_put : forall X x, like X -> length x = n -> step (put_back X x) (fun _ s => has_vec x s).
Proof.
  intros X x (Q1 & Q2 & _) L w Hw. unfold put_back. rewrite Q1, Q2. destruct (reached_write _ x Hw L) as (s' & D & D0). rewrite D. cbn [fst snd o_store]. assert (Hv : has_vec x s') by (split; assumption). split; [exact (has_reached _ _ Hv)|]. intros _ _. exact Hv.
Qed.
Definition agreed (r : list pval * fl) (s : store) : Prop := has_vec (fst r) s /\ obj (fst r) = Ok (snd r).
Lemma step_return : forall v, length v = n -> step (andthen (func v) (fun sc w => (w, Ok (v, sc)))) agreed.
Proof. intros v L. eapply step_bind; [apply (step_func v L)|]. intros sc w [Hv Ho] R. cbn [fst snd]. split; [exact R|]. intros b E. injection E as <-. split; assumption. Qed.
Lemma step_finish : forall X x, like X -> length x = n -> step (finish eval fm fk X x) agreed.
Proof. intros X x Lk L. unfold finish. eapply step_then; [apply (step_put X x Lk L)|]. intros a s _. apply (step_return x L). Qed.
Lemma step_minimise : forall k X x, length x = n -> step (minimise eval gradient lbfgs fm fk k X x) (fun r _ => length (fst r) = n).
Proof. intros k X x L w Hw. destruct (step_run _ (step_grad _ step_func) _ (sz_lbfgs k x (x_lo X) (x_hi X) L) w Hw) as [H1 K]. split; [exact H1|]. intros b E. exact (proj1 (K b E)). Qed.
Lemma step_descend : forall k X x, length x = n -> step (descend eval gradient adam fm fk k X x) (fun r _ => length (fst r) = n).
Proof. intros k X x L w Hw. destruct (step_run _ (step_grad _ step_fitness) _ (sz_adam k (x_lo X) (x_hi X) x L) w Hw) as [H1 K]. split; [exact H1|]. intros b E. exact (proj1 (K b E)). Qed.
Lemma step_swarm : forall a b X, step (swarm eval gradient pso fm fk a b X) (fun r _ => length (fst r) = n /\ (honest obj (pso a b (x_lo X) (x_hi X)) -> obj (fst r) = Ok (snd r))).
Proof. intros a b X w Hw. exact (step_run _ (step_grad _ step_func) _ (sz_pso a b (x_lo X) (x_hi X)) w Hw). Qed.

Lemma length_candidate : forall x : list pval, length x = n -> candidate n (fun _ _ => True) x.
Proof. intros x L. split; [exact L|auto]. Qed.
Lemma sample_candidate : forall X, like X -> forall a b x, sample_list rs X a b = Ok x -> candidate n (fun _ _ => True) x.
Proof.
  intros X (_ & _ & L0 & L1 & L2 & L3 & L4) a b x E. apply length_candidate. unfold sample_list in E. apply sample_callable_length in E; [congruence|congruence..].
Qed.
Lemma computes_func : computes (fun w => reached (o_store w)) (candidate n (fun _ _ => True)) func obj.
Proof.
  intros w x R [L _]. unfold OptimiseModel.func, obj. destruct (reached_write _ x R L) as (s' & D & D0). rewrite D, D0. cbn [bind]. exists (mkWorld s' (o_log w)). split; [reflexivity|]. exists x. auto.
Qed.
Lemma keeps_note : keeps (fun w => reached (o_store w)) note.
Proof. intros l w R. exact (proj1 (step_log (log_all l) w R)). Qed.
Lemma step_genetic : forall X a b pop gens x, like X -> length x = n -> step (genetic eval sort lucks rs fm fk X a b pop gens x) (fun r _ => length (fst r) = n /\ obj (fst r) = Ok (snd r)).
Proof.
  intros X a b pop gens x Lk L w Hw. unfold genetic.
  match goal with |- context [parameters_genetic_algorithm ?A ?S ?f ?r ?nt ?so ?lu ?c ?m ?p ?k ?x0 w] => destruct (parameters_genetic_algorithm A S f r nt so lu c m p k x0 w) as [w1 r1] eqn:E end. cbn [fst snd].
  set (I := fun w => reached (o_store w)).
  split; [refine (search_state n (fun _ _ => True) _ _ _ _ _ _ _ _ _ I obj _ _ _ gens x w w1 r1 _ _ E)|];
    [apply (sample_candidate X Lk)|exact computes_func|exact keeps_note|exact sorts|apply length_candidate; exact L|exact Hw|].
  intros [y v] Er. rewrite Er in E. assert (O : candidate n (fun _ _ => True) y /\ obj y = Ok v); [|destruct O as [[Ly _] O]; auto].
  refine (search_ok n (fun _ _ => True) _ _ _ _ _ _ _ _ _ I obj _ _ _ gens x w w1 y v _ _ E);
    [apply (sample_candidate X Lk)|exact computes_func|exact keeps_note|exact sorts|apply length_candidate; exact L|exact Hw].
Qed.

Lemma by_method_ok : forall m X x, like X -> length x = n -> (m = M_PSO -> honest obj (pso 40 40 (x_lo X0) (x_hi X0))) ->
  step (by_method eval gradient lbfgs pso cma adam sort lucks rs rs_cheap kw g fm fk m X x) agreed.
Proof.
  intros m X x Lk L Ho. destruct m; cbn [by_method].
  - eapply step_then; [apply step_log|]. intros _ _ _. eapply step_then; [apply step_log|]. intros _ _ _. eapply step_then; [apply (step_minimise 500 X x L)|]. intros r s Lr. apply step_finish; assumption.
  - apply step_return. exact L.
  - eapply step_then; [apply step_log|]. intros _ _ _. eapply step_then; [apply step_log|]. intros _ _ _. eapply step_then; [apply step_swarm|]. intros r s [Lr _]. eapply step_then; [apply step_log|]. intros _ _ _.
    eapply step_then; [apply (step_minimise 100 X (fst r) Lr)|]. intros r' s' Lr'. apply step_finish; assumption.
  - eapply step_then; [apply step_log|]. intros _ _ _. eapply step_then; [apply step_log|]. intros _ _ _. eapply step_then; [apply (step_genetic X _ _ _ _ x Lk L)|]. intros r s [Lr _]. eapply step_then; [apply step_log|]. intros _ _ _.
    eapply step_then; [apply (step_minimise _ X (fst r) Lr)|]. intros r' s' Lr'. apply step_finish; assumption.
  - intros w Hw. unfold sample_parameters. destruct (extract g (o_store w)) as [X1|e] eqn:E1; cbn [bind]; [|cbn [fst snd]; split; [exact Hw|discriminate]].
    pose proof (like_extract _ _ Hw E1) as (Q1 & Q2 & L0 & L1 & L2 & L3 & L4). destruct (sample_callable _ _ _ _ _ _ _ _) as [vs|e] eqn:Sv; cbn [bind]; [|cbn [fst snd]; split; [exact Hw|discriminate]].
    apply sample_callable_length in Sv; [|congruence..]. rewrite L0 in Sv. rewrite Q1, Q2. destruct (reached_write _ vs Hw Sv) as (s' & D & D0). rewrite D. assert (R' : reached s') by (exists vs; auto).
    destruct (extract g s') as [X2|e] eqn:E2; [|cbn [fst snd o_store]; split; [exact R'|discriminate]]. pose proof (like_extract _ _ R' E2) as Lk2. assert (L' : length (x_params X2) = n) by apply Lk2.
    apply (step_then _ _ (set_alg LBFGS 1) (fun _ => andthen (minimise eval gradient lbfgs fm fk 5 X2 (x_params X2)) (fun r => finish eval fm fk X2 (fst r))) (fun _ _ => True) agreed); [apply step_log| |exact R'].
    intros _ _ _. eapply step_then; [apply (step_minimise 5 X2 _ L')|]. intros r s Lr. apply step_finish; assumption.
  - eapply step_then; [apply step_log|]. intros _ _ _. eapply step_then; [apply step_log|]. intros _ _ _. intros w Hw. destruct (reached_extract _ Hw) as (X1 & E1 & _ & _ & Q3 & Q4 & _). rewrite E1. pose proof (like_extract _ _ Hw E1) as Lk1.
    specialize (Ho eq_refl). rewrite <- Q3, <- Q4 in Ho.
    apply (step_then _ _ (swarm eval gradient pso fm fk 40 40 X1) (fun r => andthen (put_back X1 (fst r)) (fun _ w => (w, Ok r))) _ agreed (step_swarm 40 40 X1)); [|exact Hw].
    intros r s [Lr Or]. eapply step_bind; [apply (step_put X1 _ Lk1 Lr)|]. intros a w' Hv R. cbn [fst snd]. split; [exact R|]. intros b E. injection E as <-. split; [exact Hv|exact (Or Ho)].
  - intros w Hw. destruct (extract g (o_store w)) as [X1|e] eqn:E1; [|cbn [fst snd]; split; [exact Hw|discriminate]]. pose proof (like_extract _ _ Hw E1) as Lk1. destruct (o_log w); [cbn [fst snd]; split; [exact Hw|discriminate]|].
    apply (step_then _ _ (run fitness (grad_of gradient func) (cma x (x_lo X1) (x_hi X1))) (fun r => finish eval fm fk X1 (fst r)) _ agreed (step_run _ (step_grad _ step_func) _ (sz_cma x _ _ L))); [|exact Hw].
    intros r s [Lr _]. apply step_finish; assumption.
  - eapply step_then; [apply step_log|]. intros _ _ _. eapply step_then; [apply step_log|]. intros _ _ _. eapply step_then; [apply (step_descend 1000 X x L)|]. intros r s Lr. apply step_finish; assumption.
  - eapply step_then; [apply step_log|]. intros _ _ _. eapply step_then; [apply step_log|]. intros _ _ _. eapply step_then; [apply (step_genetic X _ _ _ _ x Lk L)|]. intros r s [Lr _]. eapply step_then; [apply step_log|]. intros _ _ _.
    eapply step_then; [apply (step_descend _ X (fst r) Lr)|]. intros r' s' Lr'. apply step_finish; assumption.
  - eapply step_then; [apply step_log|]. intros _ _ _. eapply step_then; [apply step_log|]. intros _ _ _. eapply step_then; [apply (step_genetic X _ _ _ _ x Lk L)|]. intros r s [Lr Or].
    eapply step_bind; [apply (step_put X _ Lk Lr)|]. intros a w' Hv R. cbn [fst snd]. split; [exact R|]. intros b E. injection E as <-. split; [exact Hv|exact Or].
  - intros w Hw. cbn [fst snd]. split; [exact Hw|discriminate].
Qed.
Notation optimize := (parameters_optimize eval gradient lbfgs pso cma adam sort lucks rs rs_cheap kw g fm fk).
Lemma optimize_ok : forall x0 m log w x sc, (forall v, x0 = Some v -> length v = n) -> (m = M_PSO -> honest (score_at eval g s0) (pso 40 40 (x_lo X0) (x_hi X0))) ->
  optimize x0 m log s0 = (w, Ok (x, sc)) -> holds g (o_store w) x /\ eval (o_store w) = Ok sc /\ same_except_free g s0 (o_store w) /\ length x = n.
Proof.
  intros x0 m log w x sc Lx Ho E. unfold parameters_optimize in E. rewrite H0 in E. cbv zeta in E. set (v := match x0 with Some v => v | None => x_params X0 end) in E. assert (Lv : length v = n) by (unfold v; destruct x0 as [u|]; [apply Lx; reflexivity|reflexivity]).
  assert (Ob : forall t, honest (score_at eval g s0) t -> honest obj t).
  { assert (Eo : forall y, score_at eval g s0 y = obj y) by (intros y; unfold score_at, obj; rewrite H0; reflexivity). induction t as [y f|e|y k IH|y k IH]; cbn [honest]; intros Hh; [rewrite <- Eo; exact Hh|exact I| |]; [intros u Eu; apply IH, Hh; rewrite Eo; exact Eu|intros d; apply IH, Hh]. }
  assert (F : forall (f : world -> world * res (list pval * fl)) w0, step f agreed -> reached (o_store w0) -> f w0 = (w, Ok (x, sc)) -> holds g (o_store w) x /\ eval (o_store w) = Ok sc /\ same_except_free g s0 (o_store w) /\ length x = n).
  { intros f w0 Hf R Ef. destruct (Hf w0 R) as [_ K]. rewrite Ef in K. cbn [fst snd] in K. destruct (K _ eq_refl) as [Hv Hob]. cbn [fst snd] in *. destruct (has_holds _ _ Hv) as (A1 & A2 & A3). split; [exact A1|]. split; [congruence|]. split; [exact A2|exact (proj1 Hv)]. }
  assert (Lk : like X0) by (apply (like_extract s0); [apply reached_start|exact H0]).
  destruct v as [|p v'] eqn:Ev.
  - refine (F _ _ _ _ E); [|exact reached_start]. apply step_return. exact Lv.
  - refine (F (by_method eval gradient lbfgs pso cma adam sort lucks rs rs_cheap kw g fm fk m X0 (p :: v')) _ _ _ E); [apply by_method_ok; [exact Lk|exact Lv|intros Em; apply Ob, Ho; exact Em]|exact reached_start].
Qed.
End Agree.

(** *** Unknown methods and graphs without free parameters *)
Section Plain.
Variable eval : store -> res fl.
Variable gradient : store -> res (list pval).
Variable lbfgs : nat -> list pval -> list pval -> list pval -> strategy.
Variable pso : nat -> nat -> list pval -> list pval -> strategy.
Variable cma : list pval -> list pval -> list pval -> strategy.
Variable adam : nat -> list pval -> list pval -> list pval -> strategy.
Variable sort : list (fl * list pval) -> list (fl * list pval).
Variable lucks : nat -> ga_luck.
Variable rs : nat -> nat -> nat -> rnd.
Variable rs_cheap : nat -> rnd.
Variable kw : options.
Variable g : graph.
Variable fm fk : list nat.
Notation optimize := (parameters_optimize eval gradient lbfgs pso cma adam sort lucks rs rs_cheap kw g fm fk).
Notation func := (func eval fm fk).
Notation fitness := (fitness eval fm fk).

Lemma optimize_unknown : forall x0 X log s, extract g s = Ok X -> x_params X <> [] -> (forall v, x0 = Some v -> length v = length (x_params X)) ->
  snd (optimize x0 M_Other log s) = Err ModuleNotFoundError /\ o_store (fst (optimize x0 M_Other log s)) = s.
Proof.
  intros x0 X log s E N L. unfold parameters_optimize. rewrite E. cbv zeta. destruct x0 as [[|p v]|].
  - specialize (L _ eq_refl). cbn [length] in L. destruct (x_params X); [congruence|discriminate].
  - split; reflexivity.
  - destruct (x_params X); [congruence|]. split; reflexivity.
Qed.
Lemma optimize_empty : forall x0 X m log s, extract g s = Ok X -> x_params X = [] -> (forall v, x0 = Some v -> length v = length (x_params X)) ->
  o_store (fst (optimize x0 m log s)) = s /\ snd (optimize x0 m log s) = (do sc <- eval s; Ok ([], sc)).
Proof.
  intros x0 X m log s E N L. unfold parameters_optimize. rewrite E. cbv zeta.
  assert (Ev : match x0 with Some v => v | None => x_params X end = []) by (destruct x0 as [[|p v]|]; [reflexivity|specialize (L _ eq_refl); rewrite N in L; discriminate|exact N]).
  rewrite Ev. unfold andthen, OptimiseModel.func. cbn [distribute o_store]. destruct (eval s); split; reflexivity.
Qed.

(** *** Logging *)
Definition lively (lg : logger) : Prop := exists a n off old ss, 0 < n /\ at_state a n off old ss lg.
Definition same (w w' : world) : Prop := o_store w = o_store w' /\ o_log w' = None /\ exists lg, o_log w = Some lg /\ lively lg.
(* the same step with and without a logger *)
Definition quiet {B} (f : world -> world * res B) : Prop := forall w w', same w w' -> related same (f w) (f w').
Lemma quiet_then : forall A B (f : world -> world * res A) (k : A -> world -> world * res B), quiet f -> (forall a, quiet (k a)) -> quiet (andthen f k).
Proof.
  intros A B f k Hf Hk w w' H. unfold andthen. destruct (Hf w w' H) as [H1 E]. destruct (f w) as [w1 r1], (f w') as [w1' r1']. cbn [fst snd] in *. subst r1'. destruct r1 as [a|e]; [apply Hk; exact H1|split; [exact H1|reflexivity]].
Qed.
Lemma quiet_func : forall v, quiet (func v).
Proof.
  intros v w w' (Es & N & lg & El & Lv). unfold OptimiseModel.func. rewrite <- Es. destruct (distribute v fm fk (o_store w)) as [s|e]; (split; [|reflexivity]); cbn [fst snd]; [|split; [exact Es|split; [exact N|eauto]]]. split; [reflexivity|]. cbn [o_log]. split; [exact N|eauto].
Qed.
Lemma quiet_fitness : forall v, quiet (fitness v).
Proof.
  intros v w w' H. unfold OptimiseModel.fitness. destruct (quiet_func v w w' H) as [H1 E]. destruct (func v w) as [w1 r1], (func v w') as [w1' r1']. cbn [fst snd] in *. subst r1'. destruct r1 as [sc|e]; [|split; [exact H1|reflexivity]].
  destruct H1 as (Es & N & lg & El & a & n & off & old & ss & Pn & St). rewrite N, El. destruct (log_one _ _ _ _ _ _ sc Pn St) as (lg' & Eg & St'). rewrite Eg. split; [|reflexivity]. cbn [fst]. split; [exact Es|]. split; [exact N|]. exists lg'. split; [reflexivity|]. exists a, n, off, old, (ss ++ [sc]). auto.
Qed.
Lemma quiet_grad : forall f, (forall v, quiet (f v)) -> forall v, quiet (grad_of gradient f v).
Proof.
  intros f Hf v w w' H. unfold grad_of. destruct (Hf v w w' H) as [H1 E]. destruct (f v w) as [w1 r1], (f v w') as [w1' r1']. cbn [fst snd] in *. subst r1'. destruct r1; [|split; [exact H1|reflexivity]]. split; [exact H1|]. cbn [snd]. destruct H1 as [-> _]. reflexivity.
Qed.
Lemma quiet_run : forall gg, (forall v, quiet (gg v)) -> forall t, quiet (run fitness gg t).
Proof.
  intros gg Hg. induction t as [x f|e|x k IH|x k IH]; intros w w' H; cbn [run]; [split; [exact H|reflexivity]..| |].
  - destruct (quiet_fitness x w w' H) as [H1 E]. destruct (fitness x w) as [w1 r1], (fitness x w') as [w1' r1']. cbn [fst snd] in *. subst r1'. destruct r1 as [v|e]; [apply IH; exact H1|split; [exact H1|reflexivity]].
  - destruct (Hg x w w' H) as [H1 E]. destruct (gg x w) as [w1 r1], (gg x w') as [w1' r1']. cbn [fst snd] in *. subst r1'. destruct r1 as [v|e]; [apply IH; exact H1|split; [exact H1|reflexivity]].
Qed.
Lemma quiet_put : forall X x, quiet (put_back X x).
Proof.
  intros X x w w' (Es & N & lg & El & Lv). unfold put_back. rewrite <- Es. destruct (distribute x _ _ (o_store w)) as [s|e]; (split; [|reflexivity]); cbn [fst snd]; [|split; [exact Es|split; [exact N|eauto]]]. split; [reflexivity|]. cbn [o_log]. split; [exact N|eauto].
Qed.
Lemma quiet_ret : forall B (b : res B), quiet (fun w => (w, b)).
Proof. intros B b w w' H. split; [exact H|reflexivity]. Qed.
Lemma quiet_finish : forall X x, quiet (finish eval fm fk X x).
Proof. intros X x. apply quiet_then; [apply quiet_put|]. intros _. apply quiet_then; [apply quiet_func|]. intros sc. apply quiet_ret. Qed.
Lemma quiet_note : forall l, quiet (note l).
Proof.
  intros l w w' (Es & N & lg & El & a & n & off & old & ss & Pn & St). unfold note, with_log. rewrite N, El. destruct (log_many _ _ _ _ l _ _ Pn St) as (lg' & Eg & St'). rewrite Eg. split; [|reflexivity]. cbn [fst]. split; [exact Es|]. split; [exact N|]. exists lg'. split; [reflexivity|]. exists a, n, off, old, (ss ++ l). auto.
Qed.
Lemma quiet_genetic : forall X a b pop gens x, quiet (genetic eval sort lucks rs fm fk X a b pop gens x).
Proof. intros X a b pop gens x w w' H. unfold genetic. apply search_sim; [intros y u u' Hu; apply quiet_func; exact Hu|intros l u u' Hu; apply quiet_note; exact Hu|exact H]. Qed.
Lemma quiet_set : forall a n, a <> AlgOther -> 0 < n -> quiet (set_alg a n).
Proof.
  intros a n A Pn w w' (Es & N & lg & El & a' & n' & off & old & ss & Pn' & St). unfold set_alg, with_log. rewrite N, El.
  destruct (set_works a n lg A) as [lg1 E1]; [destruct St as [? ? Hp ? ? ? ? ?]; rewrite Hp; lia|]. rewrite E1. split; [|reflexivity]. cbn [fst]. split; [exact Es|]. split; [exact N|]. exists lg1. split; [reflexivity|].
  exists (Some a), n, (l_num lg / l_pop lg)%Z, (l_rows lg), []. split; [exact Pn|]. apply (state_start a n lg lg1 lg1 E1). right. split; [reflexivity|]. destruct St. assumption.
Qed.
(* set the first algorithm and start the clock *)
Lemma begin_log : forall a n s B (k : world -> world * res B), a <> AlgOther -> 0 < n -> quiet k ->
  related (fun w w' => o_store w = o_store w') (andthen (set_alg a n) (fun _ => andthen start_time (fun _ => k)) (mkWorld s (Some new_logger))) (andthen (set_alg a n) (fun _ => andthen start_time (fun _ => k)) (mkWorld s None)).
Proof.
  intros a n s B k A Pn Hk. unfold andthen, set_alg, start_time, with_log. cbn [o_log o_store]. destruct (set_works a n new_logger A) as [lg1 E1]; [discriminate|]. rewrite E1. cbn [o_log o_store].
  assert (S : same (mkWorld s (Some (start_logger_time lg1))) (mkWorld s None)).
  { split; [reflexivity|]. split; [reflexivity|]. eexists. split; [reflexivity|]. exists (Some a), n, (l_num new_logger / l_pop new_logger)%Z, (l_rows new_logger), []. split; [exact Pn|]. apply (state_start a n new_logger lg1 _ E1). left. reflexivity. }
  destruct (Hk _ _ S) as [[H1 _] E]. split; [exact H1|exact E].
Qed.
Lemma log_same : forall x0 m s, m <> M_CHEAP -> m <> M_CMA -> 0 < k_swarm kw -> 0 < k_pop kw ->
  snd (optimize x0 m true s) = snd (optimize x0 m false s) /\ o_store (fst (optimize x0 m true s)) = o_store (fst (optimize x0 m false s)).
Proof.
  intros x0 m s N1 N2 P1 P2. unfold parameters_optimize. destruct (extract g s) as [X|e] eqn:EX; [|split; reflexivity]. cbv zeta. set (v := match x0 with Some v => v | None => x_params X end). destruct v as [|p x]; [split; reflexivity|]. set (y := p :: x).
  assert (F : related (fun w w' => o_store w = o_store w') (by_method eval gradient lbfgs pso cma adam sort lucks rs rs_cheap kw g fm fk m X y (mkWorld s (Some new_logger))) (by_method eval gradient lbfgs pso cma adam sort lucks rs rs_cheap kw g fm fk m X y (mkWorld s None))); [|destruct F; split; assumption].
  assert (A1 : LBFGS <> AlgOther) by discriminate. assert (A2 : PSO <> AlgOther) by discriminate. assert (A3 : GA <> AlgOther) by discriminate. assert (A4 : ADAM <> AlgOther) by discriminate. assert (One : 0 < 1) by lia.
  assert (Mi : forall k X x, quiet (minimise eval gradient lbfgs fm fk k X x)) by (intros k X' x'; apply quiet_run; apply quiet_grad; exact quiet_func).
  assert (De : forall k X x, quiet (descend eval gradient adam fm fk k X x)) by (intros k X' x'; apply quiet_run; apply quiet_grad; exact quiet_fitness).
  assert (Sw : forall a b X, quiet (swarm eval gradient pso fm fk a b X)) by (intros a b X'; apply quiet_run; apply quiet_grad; exact quiet_func).
  destruct m; cbn [by_method]; try congruence.
  - apply begin_log; [exact A1|exact One|]. apply quiet_then; [apply Mi|intros r; apply quiet_finish].
  - unfold andthen, OptimiseModel.func. cbn [o_store o_log]. destruct (distribute y fm fk s) as [s'|e]; [|split; reflexivity]. destruct (eval s'); split; reflexivity.
  - apply begin_log; [exact A2|exact P1|]. apply quiet_then; [apply Sw|intros r]. apply quiet_then; [apply quiet_set; [exact A1|exact One]|intros _]. apply quiet_then; [apply Mi|intros r'; apply quiet_finish].
  - apply begin_log; [exact A3|exact P2|]. apply quiet_then; [apply quiet_genetic|intros r]. apply quiet_then; [apply quiet_set; [exact A1|exact One]|intros _]. apply quiet_then; [apply Mi|intros r'; apply quiet_finish].
  - apply begin_log; [exact A2|lia|]. intros w w' H. pose proof H as (Es & _). rewrite <- Es. destruct (extract g (o_store w)) as [X'|e]; [|split; [exact H|reflexivity]].
    apply (quiet_then _ _ _ _ (Sw 40 40 X')); [|exact H]. intros r. apply quiet_then; [apply quiet_put|intros _; apply quiet_ret].
  - apply begin_log; [exact A4|exact One|]. apply quiet_then; [apply De|intros r; apply quiet_finish].
  - apply begin_log; [exact A3|lia|]. apply quiet_then; [apply quiet_genetic|intros r]. apply quiet_then; [apply quiet_set; [exact A4|exact One]|intros _]. apply quiet_then; [apply De|intros r'; apply quiet_finish].
  - apply begin_log; [exact A3|lia|]. apply quiet_then; [apply quiet_genetic|intros r]. apply quiet_then; [apply quiet_put|intros _; apply quiet_ret].
  - split; reflexivity.
Qed.
Lemma log_cma : forall x0 X s, extract g s = Ok X -> match x0 with Some v => v | None => x_params X end <> [] ->
  optimize x0 M_CMA true s = (mkWorld s (Some new_logger), Err TypeError).
Proof.
  intros x0 X s E N. unfold parameters_optimize. rewrite E. cbv zeta. destruct (match x0 with Some v => v | None => x_params X end); [congruence|]. cbn [by_method o_store]. rewrite E. reflexivity.
Qed.
Lemma log_cheap : forall x0 X s s1 X1 y k s2 sc, extract g s = Ok X -> match x0 with Some v => v | None => x_params X end <> [] ->
  sample_parameters Uniform g s rs_cheap = Ok s1 -> extract g s1 = Ok X1 -> lbfgs 5 (x_params X1) (x_lo X1) (x_hi X1) = AskF y k ->
  distribute y fm fk s1 = Ok s2 -> eval s2 = Ok sc -> snd (optimize x0 M_CHEAP true s) = Err TypeError.
Proof.
  intros x0 X s s1 X1 y k s2 sc E N Es E1 El D Ev. unfold parameters_optimize. rewrite E. cbv zeta. destruct (match x0 with Some v => v | None => x_params X end); [congruence|]. cbn [by_method o_store]. rewrite Es, E1. cbn [o_log].
  unfold andthen, set_alg, with_log, minimise. cbn [o_log o_store]. rewrite El. cbn. unfold OptimiseModel.fitness, OptimiseModel.func. cbn [o_store o_log]. rewrite D, Ev. reflexivity.
Qed.
End Plain.
