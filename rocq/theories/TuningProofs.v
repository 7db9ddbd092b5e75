(** Proofs about the tuning utilities. *)
From Coq Require Import List Arith Bool ZArith QArith String Lia Lqa Permutation Sorted.
From Verif Require Import Base GraphModel GraphSpec ParamsModel ParamsSpec ParamsProofs SamplingProofs FloatModel FloatArith GAModel GASpec GAProofs AdamModel OptimiseSpec OptimiseProofs TuningModel TuningSpec.
Import ListNotations.
Local Open Scope nat_scope.
Local Open Scope list_scope.

(** ** Mutation *)
Lemma remove_length : forall x l, NoDup l -> In x l -> List.length (remove Nat.eq_dec x l) = List.length l - 1 /\ NoDup (remove Nat.eq_dec x l).
Proof.
  intros x. induction l as [|y l IH]; intros N I; [destruct I|]. inversion N as [|? ? Ny Nl]; subst. cbn [remove]. destruct (Nat.eq_dec x y) as [->|D].
  - rewrite notin_remove by exact Ny. cbn [List.length]. split; [lia|exact Nl].
  - destruct I as [E|I]; [congruence|]. destruct (IH Nl I) as [L K]. cbn [List.length]. split.
    + assert (0 < List.length l) by (destruct l; [destruct I|cbn; lia]). lia.
    + constructor; [|exact K]. intro J. apply in_remove in J. tauto.
Qed.
Lemma choose_ok : forall num pick left, NoDup left -> num <= List.length left ->
  NoDup (choose pick num left) /\ List.length (choose pick num left) = num /\ incl (choose pick num left) left.
Proof.
  induction num as [|k IH]; intros pick left N L; cbn [choose]; [repeat split; [constructor|intros x []]|].
  assert (B : pick 0 mod List.length left < List.length left) by (apply Nat.mod_upper_bound; lia).
  destruct (nth_error left (pick 0 mod List.length left)) as [x|] eqn:E; [|apply nth_error_None in E; lia].
  apply nth_error_In in E. destruct (remove_length x left N E) as [L' N'].
  destruct (IH (fun i => pick (S i)) (remove Nat.eq_dec x left) N' ltac:(lia)) as (A & B' & C). split; [|split].
  - constructor; [|exact A]. intro J. apply C, in_remove in J. tauto.
  - cbn [List.length]. lia.
  - intros y [<-|J]; [exact E|]. apply C, in_remove in J. tauto.
Qed.
Lemma choose_any : forall I left, NoDup I -> NoDup left -> incl I left -> exists pick, choose pick (List.length I) left = I.
Proof.
  induction I as [|x I IH]; intros left NI NL C; [exists (fun _ => 0); reflexivity|]. inversion NI as [|? ? Nx NI']; subst.
  assert (Hx : In x left) by (apply C; left; reflexivity). destruct (In_nth_error _ _ Hx) as [k Hk]. destruct (remove_length x left NL Hx) as [_ N'].
  destruct (IH (remove Nat.eq_dec x left) NI' N') as [pick Hp].
  { intros y J. apply in_in_remove; [intros ->; exact (Nx J)|apply C; right; exact J]. }
  exists (fun i => match i with O => k | S j => pick j end). cbn [List.length choose].
  assert (B : k < List.length left) by (apply nth_error_Some; congruence). rewrite Nat.mod_small by exact B. rewrite Hk. f_equal. exact Hp.
Qed.
Lemma mixed : forall inds parent mutant, List.length parent = List.length mutant -> mixture parent mutant (mix_genes inds 0 parent mutant) inds.
Proof.
  intros inds p m L. split; [rewrite mix_genes_length; lia|]. intro i. rewrite mix_genes_nth. cbn [Nat.add].
  assert (E : existsb (Nat.eqb i) inds = true <-> In i inds).
  { rewrite existsb_exists. split; [intros (y & J & K); apply Nat.eqb_eq in K; subst; exact J|intro J; exists i; split; [exact J|apply Nat.eqb_refl]]. }
  destruct (nth_error p i) eqn:Ep, (nth_error m i) eqn:Em.
  - split; intro J; destruct (existsb (Nat.eqb i) inds); try reflexivity; exfalso; intuition congruence.
  - apply nth_error_None in Em. assert (i < List.length p) by (apply nth_error_Some; congruence). lia.
  - apply nth_error_None in Ep. assert (i < List.length m) by (apply nth_error_Some; congruence). lia.
  - split; reflexivity.
Qed.
Lemma mutation_takes : forall parent mutant r pick, List.length parent = List.length mutant -> 2 <= List.length mutant ->
  exists child from, TuningModel.mutation parent mutant r pick = Ok child /\ mixture parent mutant child from /\
    NoDup from /\ (forall i, In i from -> i < List.length mutant) /\ 1 <= List.length from < List.length mutant.
Proof.
  intros p m r pick L B. unfold TuningModel.mutation. cbv zeta. destruct (Nat.leb_spec (List.length m) 1); [lia|].
  pose proof (Nat.mod_upper_bound r (List.length m - 1) ltac:(lia)) as R. set (num := 1 + r mod (List.length m - 1)) in *.
  destruct (choose_ok num pick (seq 0 (List.length m)) (seq_NoDup _ _)) as (N & Ln & C); [rewrite seq_length; unfold num; lia|].
  exists (mix_genes (choose pick num (seq 0 (List.length m))) 0 p m), (choose pick num (seq 0 (List.length m))). split; [reflexivity|]. split; [apply mixed; exact L|]. split; [exact N|]. split; [|rewrite Ln; unfold num; lia].
  intros i J. apply C, in_seq in J. lia.
Qed.
Lemma mutation_any : forall parent mutant from, List.length parent = List.length mutant -> NoDup from ->
  (forall i, In i from -> i < List.length mutant) -> 1 <= List.length from < List.length mutant ->
  exists r pick child, TuningModel.mutation parent mutant r pick = Ok child /\ mixture parent mutant child from.
Proof.
  intros p m from L N C B. destruct (choose_any from (seq 0 (List.length m)) N (seq_NoDup _ _)) as [pick Hp]; [intros i J; apply in_seq; specialize (C i J); lia|].
  exists (List.length from - 1), pick. eexists. unfold TuningModel.mutation. cbv zeta. destruct (Nat.leb_spec (List.length m) 1); [lia|]. split; [reflexivity|].
  rewrite Nat.mod_small by lia. replace (1 + (List.length from - 1)) with (List.length from) by lia. rewrite Hp. apply mixed. exact L.
Qed.
Lemma mutation_short : forall parent mutant r pick, List.length mutant <= 1 -> TuningModel.mutation parent mutant r pick = Err ValueError.
Proof. intros p m r pick B. unfold TuningModel.mutation. cbv zeta. destruct (Nat.leb_spec (List.length m) 1); [reflexivity|lia]. Qed.

(** ** The logbook *)
Lemma fsum_fin : forall l a, fold_left fadd (map Fin l) (Fin a) = Fin (fold_left Qplus l a).
Proof. induction l as [|x l IH]; intro a; cbn [map fold_left fadd]; [reflexivity|apply IH]. Qed.
Lemma fold_total : forall l a, (fold_left Qplus l a == a + total l)%Q.
Proof. induction l as [|x l IH]; intro a; cbn [fold_left total]; [ring|]. rewrite IH. ring. Qed.
Lemma inject_pos : forall n, (0 < n)%nat -> (0 < inject_Z (Z.of_nat n))%Q.
Proof. intros n H. change 0%Q with (inject_Z 0). rewrite <- Zlt_Qlt. lia. Qed.
Lemma fmean_fin : forall l, l <> [] -> exists a, fmean (map Fin l) = Fin a /\ (a * inject_Z (Z.of_nat (List.length l)) == total l)%Q.
Proof.
  intros l NE. unfold fmean, fsum, count. rewrite fsum_fin, map_length. cbn [fdiv].
  assert (P : (0 < inject_Z (Z.of_nat (List.length l)))%Q) by (apply inject_pos; destruct l; [congruence|cbn [List.length]; lia]).
  destruct (Qeq_bool (inject_Z (Z.of_nat (List.length l))) 0) eqn:E; [apply Qeq_bool_iff in E; lra|].
  eexists. split; [reflexivity|]. rewrite fold_total. field. lra.
Qed.
Lemma total_eq : forall (f h : Q -> Q) l, (forall x, f x == h x)%Q -> (total (map f l) == total (map h l))%Q.
Proof. intros f h l E. induction l as [|x l IH]; cbn [map total]; [reflexivity|]. rewrite IH, E. reflexivity. Qed.
Lemma max_fin : forall l a, exists q, fold_left np_max (map Fin l) (Fin a) = Fin q /\ In q (a :: l) /\ forall x, In x (a :: l) -> (x <= q)%Q.
Proof.
  induction l as [|b l IH]; intro a; cbn [map fold_left]; [exists a; split; [reflexivity|]; split; [left; reflexivity|intros x [<-|[]]; apply Qle_refl]|].
  cbn [np_max fltb]. destruct (Qle_bool b a) eqn:B; cbn [negb].
  - destruct (IH a) as (q & E & I & K). exists q. split; [exact E|]. split; [destruct I as [<-|I]; [left; reflexivity|right; right; exact I]|].
    intros x [<-|[<-|J]]; [apply K; left; reflexivity| |apply K; right; exact J]. apply Qle_bool_iff in B. eapply Qle_trans; [exact B|apply K; left; reflexivity].
  - destruct (IH b) as (q & E & I & K). exists q. split; [exact E|]. split; [right; exact I|].
    intros x [<-|J]; [|apply K; exact J]. apply Qle_trans with b; [|apply K; left; reflexivity]. apply Qlt_le_weak, Qnot_le_lt. intro Z. apply Qle_bool_iff in Z. congruence.
Qed.
Lemma min_fin : forall l a, exists q, fold_left np_min (map Fin l) (Fin a) = Fin q /\ In q (a :: l) /\ forall x, In x (a :: l) -> (q <= x)%Q.
Proof.
  induction l as [|b l IH]; intro a; cbn [map fold_left]; [exists a; split; [reflexivity|]; split; [left; reflexivity|intros x [<-|[]]; apply Qle_refl]|].
  cbn [np_min fltb]. destruct (Qle_bool a b) eqn:B; cbn [negb].
  - destruct (IH a) as (q & E & I & K). exists q. split; [exact E|]. split; [destruct I as [<-|I]; [left; reflexivity|right; right; exact I]|].
    intros x [<-|[<-|J]]; [apply K; left; reflexivity| |apply K; right; exact J]. apply Qle_bool_iff in B. eapply Qle_trans; [apply K; left; reflexivity|exact B].
  - destruct (IH b) as (q & E & I & K). exists q. split; [exact E|]. split; [right; exact I|].
    intros x [<-|J]; [|apply K; exact J]. apply Qle_trans with b; [apply K; left; reflexivity|]. apply Qlt_le_weak, Qnot_le_lt. intro Z. apply Qle_bool_iff in Z. congruence.
Qed.
Lemma log_first : forall gen scores, scores <> [] -> exists r, logbook_update ["verbose"%string] gen scores [] = Ok [r] /\
  forall qs, scores = map Fin qs -> describes r gen qs.
Proof.
  intros gen [|a r] NE; [congruence|]. eexists. split; [reflexivity|]. intros [|q qs] E; [discriminate|].
  cbn [map] in E. injection E as -> ->. unfold describes. cbv zeta. cbn [lr_generation lr_size lr_mean lr_var lr_max lr_min].
  split; [reflexivity|]. split; [cbn [List.length]; rewrite map_length; reflexivity|].
  destruct (fmean_fin (q :: qs) ltac:(discriminate)) as (mean & Em & Pm). cbn [map] in Em. 
  assert (V : map (fun x => fpow (fsub x (Fin mean)) 2) (Fin q :: map Fin qs) = map Fin (map (fun x => (x + - mean) * ((x + - mean) * 1))%Q (q :: qs))).
  { change (Fin q :: map Fin qs) with (map Fin (q :: qs)). rewrite !map_map. reflexivity. }
  destruct (fmean_fin (map (fun x => (x + - mean) * ((x + - mean) * 1))%Q (q :: qs)) ltac:(discriminate)) as (var & Ev & Pv). rewrite map_length in Pv.
  destruct (min_fin qs q) as (lo & El & Il & Kl). destruct (max_fin qs q) as (hi & Eh & Ih & Kh).
  exists mean, var, lo, hi. split; [exact Em|]. split; [unfold fvar; rewrite Em, V; exact Ev|]. split; [exact El|]. split; [exact Eh|]. split; [exact Pm|].
  split; [|repeat split; assumption]. rewrite Pv. apply total_eq. intro x. cbn [Qpower Qpower_positive pow_pos]. ring.
Qed.

(** ** Sorting by score *)
Lemma insert_perm : forall a l, Permutation (insert_scored a l) (a :: l).
Proof. intros a. induction l as [|b l IH]; cbn [insert_scored]; [reflexivity|]. destruct (fltb (fst a) (fst b)); [reflexivity|]. rewrite IH. apply perm_swap. Qed.
Lemma by_score_perm_acc : forall l acc, Permutation (fold_left (fun acc a => insert_scored a acc) l acc) (l ++ acc).
Proof. induction l as [|a l IH]; intro acc; cbn [fold_left app]; [reflexivity|]. rewrite IH. rewrite insert_perm. symmetry. apply Permutation_middle. Qed.
Definition upward (l : list (fl * list pval)) : Prop := StronglySorted (fun x y => fltb (fst y) (fst x) = false) l.
Lemma fltb_total : forall a b, a <> NaN -> b <> NaN -> fltb a b = false -> fltb b a = false -> forall c, fltb a c = fltb b c.
Proof.
  intros [p| | |] [q| | |] Na Nb H1 H2 [r| | |]; try congruence; try reflexivity; cbn [fltb] in *; try discriminate.
  apply negb_false_iff, Qle_bool_iff in H1, H2. assert (E : (p == q)%Q) by (apply Qle_antisym; assumption).
  f_equal. destruct (Qle_bool r p) eqn:A, (Qle_bool r q) eqn:B; try reflexivity.
  - apply Qle_bool_iff in A. rewrite E in A. apply Qle_bool_iff in A. congruence.
  - apply Qle_bool_iff in B. rewrite <- E in B. apply Qle_bool_iff in B. congruence.
Qed.
Lemma fltb_asym : forall a b, fltb a b = true -> fltb b a = false.
Proof.
  intros [p| | |] [q| | |] H; cbn [fltb] in *; try discriminate; try reflexivity. apply negb_true_iff in H. apply negb_false_iff, Qle_bool_iff.
  apply Qlt_le_weak, Qnot_le_lt. intro Z. apply Qle_bool_iff in Z. congruence.
Qed.
Lemma fltb_mix : forall a b c, b <> NaN -> fltb b a = false -> fltb c b = false -> fltb c a = false.
Proof.
  intros [p| | |] [q| | |] [r| | |] N H1 H2; cbn [fltb] in *; try discriminate; try reflexivity; try congruence.
  apply negb_false_iff, Qle_bool_iff in H1, H2. apply negb_false_iff, Qle_bool_iff. eapply Qle_trans; eassumption.
Qed.
Lemma insert_upward : forall a l, fst a <> NaN -> (forall x, In x l -> fst x <> NaN) -> upward l -> upward (insert_scored a l).
Proof.
  intros a l Na. induction l as [|b l IH]; intros Nl S; cbn [insert_scored]; [constructor; constructor|].
  inversion S as [|? ? Sl Fl]; subst. destruct (fltb (fst a) (fst b)) eqn:E.
  - constructor; [exact S|]. constructor; [apply fltb_asym; exact E|]. apply Forall_forall. intros x J. pose proof (proj1 (Forall_forall _ _) Fl x J) as K.
    apply (fltb_mix _ (fst b)); [apply Nl; left; reflexivity|apply fltb_asym; exact E|exact K].
  - constructor; [apply IH; [intros x J; apply Nl; right; exact J|exact Sl]|]. apply Forall_forall. intros x J. apply (Permutation_in _ (insert_perm a l)) in J. destruct J as [<-|J]; [exact E|exact (proj1 (Forall_forall _ _) Fl x J)].
Qed.
Lemma by_score_ok : forall l, Permutation (by_score l) l /\ ((forall x, In x l -> fst x <> NaN) -> upward (by_score l)).
Proof.
  intro l. split; [unfold by_score; rewrite by_score_perm_acc, app_nil_r; reflexivity|]. unfold by_score. intro N.
  assert (G : forall l acc, (forall x, In x (l ++ acc) -> fst x <> NaN) -> upward acc -> upward (fold_left (fun acc a => insert_scored a acc) l acc)).
  { clear. induction l as [|a l IH]; intros acc N S; cbn [fold_left]; [exact S|]. apply IH.
    - intros x J. apply N. apply in_app_iff in J as [J|J]; [right; apply in_app_iff; left; exact J|]. apply (Permutation_in _ (insert_perm a acc)) in J. destruct J as [<-|J]; [left; reflexivity|right; apply in_app_iff; right; exact J].
    - apply insert_upward; [apply N; left; reflexivity|intros x J; apply N; right; apply in_app_iff; right; exact J|exact S]. }
  apply G; [intros x J; rewrite app_nil_r in J; exact (N x J)|constructor].
Qed.

(** ** Actions that never return *)
Section Fail.
Context {M : Type}.
Definition fails {A} (f : act M A) : Prop := forall w, exists w' e, f w = (w', Err e).
Lemma fails_first : forall {A B} (f : act M A) (k : A -> act M B), fails f -> fails (andthen M f k).
Proof. intros A B f k F w. destruct (F w) as (w' & e & E). exists w', e. unfold andthen. rewrite E. reflexivity. Qed.
Lemma fails_then : forall {A B} (f : act M A) (k : A -> act M B), (forall a, fails (k a)) -> fails (andthen M f k).
Proof. intros A B f k F w. unfold andthen. destruct (f w) as [w1 [a|e]]; [apply F|eexists _, _; reflexivity]. Qed.
Lemma fails_give : forall {A} e, fails (give M (Err e) : act M A).
Proof. intros A e w. exists w, e. reflexivity. Qed.
Lemma run_then : forall {A B} (f : act M A) (k : A -> act M B) w w1 a, f w = (w1, Ok a) -> andthen M f k w = k a w1.
Proof. intros A B f k w w1 a E. unfold andthen. rewrite E. reflexivity. Qed.
Lemma stop_then : forall {A B} (f : act M A) (k : A -> act M B) w w1 e, f w = (w1, Err e) -> andthen M f k w = (w1, Err e).
Proof. intros A B f k w w1 e E. unfold andthen. rewrite E. reflexivity. Qed.
End Fail.

Section Tuning.
Context {M : Type}.
Variable switch : bool -> M -> M.
Variable evaluate : store -> M -> M * res fl.
Variable simulate : store -> M -> M * res unit.
Variable resample : store -> M -> M * res unit.
Variable slope : store -> M -> res arr.
Variable root : fl -> fl.
Variable norm : arr -> fl.
Variable sort : list (fl * list pval) -> res (list (fl * list pval)).
Variable g : graph.
Variable rs : nat -> nat -> nat -> rnd.
Variable lucks : nat -> luck.
Notation genetic_run := (tuning_genetic_algorithm M switch evaluate simulate resample slope root norm sort g rs lucks).
Notation descent_run := (tuning_adam_gradient_descent M switch evaluate simulate resample slope root norm g rs).
Notation projection := (adam_gradient_projection M evaluate simulate slope root norm g).
Notation wrapper := (function_wrapper M evaluate simulate g).
Notation hess := (get_hessian M evaluate simulate slope g).

Lemma log_runtime : forall gen scores log, logbook_update ["runtime"; "verbose"]%string gen scores log = Err TypeError.
Proof. reflexivity. Qed.

Lemma batch_fails : forall c grad lo hi x b q, fails (one_batch M evaluate resample root norm g c grad lo hi x b q).
Proof. intros. unfold one_batch. apply fails_then; intro. apply fails_then; intro. apply fails_then; intro. rewrite log_runtime. apply fails_first, fails_give. Qed.
Lemma descent_fails : forall c n pop, (1 <= d_batches c)%Z -> fails (descent_run c n pop).
Proof.
  intros c n pop B. unfold tuning_adam_gradient_descent. do 5 (apply fails_then; intro). apply fails_first.
  destruct (Z.to_nat (d_batches c)) as [|t] eqn:E; [lia|]. cbn [batches]. apply fails_first, batch_fails.
Qed.
Lemma generation_fails : forall c x gen q, fails (one_generation M switch evaluate simulate resample slope root norm sort g rs lucks c x gen q).
Proof. intros c x gen [[p log] logs]. unfold one_generation. do 5 (apply fails_then; intro). cbv zeta. rewrite log_runtime. apply fails_first, fails_give. Qed.
Lemma genetic_fails : forall c, (1 <= g_generations c)%Z -> fails (genetic_run c).
Proof.
  intros c B. unfold tuning_genetic_algorithm. do 3 (apply fails_then; intro). apply fails_first.
  destruct (Z.to_nat (g_generations c)) as [|t] eqn:E; [lia|]. cbn [generations]. apply fails_first, generation_fails.
Qed.

(** ** lib/hessian.py *)
Lemma wrapper_key : forall s, match extract g s with
  | Ok _ => exists f, wrapper s = Ok f /\ forall v w, f v w = (w, Err KeyError)
  | Err e => wrapper s = Err e
  end.
Proof. intro s. unfold function_wrapper, extract_info. destruct (extract g s) as [x|e]; cbn [bind]; [|reflexivity]. eexists. split; [reflexivity|]. intros v w. reflexivity. Qed.
Lemma hess_key : forall s, match extract g s with
  | Ok _ => exists f, hess s = Ok f /\ forall v w, f v w = (w, Err KeyError)
  | Err e => hess s = Err e
  end.
Proof.
  intro s. pose proof (wrapper_key s) as K. unfold get_hessian. destruct (extract g s) as [x|e]; [|rewrite K; reflexivity].
  destruct K as (f & -> & F). cbn [bind]. eexists. split; [reflexivity|]. intros v w. unfold derivative. apply stop_then. apply F.
Qed.

(** ** With the graph's bounds known *)
Section Known.
Variable s0 : store.
Variable X0 : extracted.
Hypothesis W : wf g.
Hypothesis H0 : extract g s0 = Ok X0.
Hypothesis Sm : all_sampleable g s0.
Notation n := (List.length (x_params X0)).

Lemma columns : List.length (x_lo X0) = n /\ List.length (x_hi X0) = n /\ List.length (x_types X0) = n /\ List.length (x_steps X0) = n /\
  forall k lo hi st t, nth_error (x_lo X0) k = Some lo -> nth_error (x_hi X0) k = Some hi -> nth_error (x_steps X0) k = Some st -> nth_error (x_types X0) k = Some t -> sampleable lo hi st t.
Proof.
  pose proof (extract_aligned g s0 X0 W H0) as (L1 & L2 & L3 & L4 & L5 & L6 & L7 & Al). repeat (split; [assumption|]).
  intros k lo hi st t E1 E2 E3 E4. assert (K : k < n) by (rewrite <- L1; apply nth_error_Some; congruence).
  destruct (Al k K) as (c & pl & j & o & ps & v & lo' & hi' & t' & st' & Hs & Hh & F & M1 & M2 & M3 & M4 & M5 & M6 & M7 & M8 & M9 & M10 & M11 & M12 & M13).
  destruct (Sm (cid c) o ps j ltac:(exists c, pl; auto) Hh F) as (lo2 & hi2 & st2 & t2 & N1 & N2 & N3 & N4 & Q).
  assert (lo2 = lo) by congruence. assert (hi2 = hi) by congruence. assert (st2 = st) by congruence. assert (t2 = t) by congruence. subst. exact Q.
Qed.
Lemma numbers_total : forall l, (forall a, In a l -> exists q, a = Num q) -> exists q, numbers l = Ok q /\ List.length q = List.length l.
Proof.
  induction l as [|a l IH]; intro F; cbn [numbers]; [exists []; split; reflexivity|]. destruct (F a (or_introl eq_refl)) as [q ->]. cbn [number_of bind].
  destruct IH as (r & -> & L); [intros b J; apply F; right; exact J|]. cbn [bind]. eexists. split; [reflexivity|]. cbn [List.length]. congruence.
Qed.
Lemma bounds_run : forall m, exists lo hi, bounds M g (mkT M s0 m) = (mkT M s0 m, Ok (lo, hi)) /\ List.length lo = n /\ List.length hi = n.
Proof.
  intro m. destruct columns as (L1 & L2 & L3 & L4 & C).
  assert (G : forall i a, (nth_error (x_lo X0) i = Some a \/ nth_error (x_hi X0) i = Some a) -> exists q, a = Num q).
  { intros i a E. assert (K : i < n) by (destruct E as [E|E]; [rewrite <- L1|rewrite <- L2]; apply nth_error_Some; congruence).
    destruct (nth_error (x_lo X0) i) as [lo|] eqn:E1; [|apply nth_error_None in E1; lia]. destruct (nth_error (x_hi X0) i) as [hi|] eqn:E2; [|apply nth_error_None in E2; lia].
    destruct (nth_error (x_types X0) i) as [t|] eqn:E3; [|apply nth_error_None in E3; lia]. destruct (nth_error (x_steps X0) i) as [st|] eqn:E4; [|apply nth_error_None in E4; lia].
    destruct (C i lo hi st t E1 E2 E4 E3) as (p & q & -> & -> & _). destruct E as [E|E]; injection E as <-; eauto. }
  destruct (numbers_total (x_lo X0)) as (lo & El & Ll); [intros a J; apply In_nth_error in J as [i J]; apply (G i a); auto|].
  destruct (numbers_total (x_hi X0)) as (hi & Eh & Lh); [intros a J; apply In_nth_error in J as [i J]; apply (G i a); auto|].
  exists lo, hi. split; [|split; congruence]. unfold bounds.
  erewrite run_then; [|unfold read; cbn [t_store]; rewrite H0; reflexivity]. erewrite run_then; [|unfold give; rewrite El; reflexivity]. erewrite run_then; [|unfold give; rewrite Eh; reflexivity]. reflexivity.
Qed.
Lemma zip_same : forall f a b, List.length a = List.length b -> exists c, zip_with f a b = Ok c /\ List.length c = List.length a.
Proof.
  intros f. induction a as [|x a IH]; intros [|y b] L; try discriminate; cbn [zip_with]; [exists []; split; reflexivity|]. destruct (IH b ltac:(cbn in L; lia)) as (c & -> & Lc). cbn [bind]. eexists. split; [reflexivity|]. cbn [List.length]. congruence.
Qed.
Lemma adam_start : forall grad st lower upper x m v w, List.length lower = List.length upper -> exists lo hi,
  adam_bounded M root norm grad st lower upper x m v w =
  descend M root norm grad st lo hi (a_iters st) 0 x (match m with Some a => a | None => zeros (List.length x) end) (match v with Some a => a | None => zeros (List.length x) end) w.
Proof.
  intros grad st lower upper x m v w L. unfold adam_bounded, margin.
  destruct (zip_same (fun u l => fmul (fsub u l) (Fin (1 # 100000000))) upper lower ltac:(congruence)) as (delta & Ed & Ld).
  destruct (zip_same fadd lower delta ltac:(congruence)) as (lo & El & Ll). destruct (zip_same fsub upper delta ltac:(congruence)) as (hi & Eh & Lh).
  exists lo, hi. erewrite run_then; [|unfold give; rewrite Ed; reflexivity]. erewrite run_then; [|unfold give; rewrite El; reflexivity]. erewrite run_then; [|unfold give; rewrite Eh; reflexivity]. reflexivity.
Qed.
Lemma adam_key : forall grad st lower upper x m v w, List.length lower = List.length upper -> (forall y w, grad y w = (w, Err KeyError)) -> 1 <= a_iters st ->
  adam_bounded M root norm grad st lower upper x m v w = (w, Err KeyError).
Proof.
  intros grad st lower upper x m v w L K B. destruct (adam_start grad st lower upper x m v w L) as (lo & hi & ->). destruct (a_iters st); [lia|]. cbn [descend]. apply stop_then. apply K.
Qed.

Lemma projection_key : forall params check iters m, 1 <= iters -> projection params check iters (mkT M s0 m) = (mkT M s0 m, Err KeyError).
Proof.
  intros params check iters m B. unfold adam_gradient_projection. pose proof (hess_key s0) as K. rewrite H0 in K. destruct K as (f & Hf & F).
  erewrite run_then; [|unfold fitness_grad; cbn [t_store]; rewrite Hf; reflexivity].
  destruct (bounds_run m) as (lo & hi & E & L1 & L2). erewrite run_then; [|exact E]. apply adam_key; [cbn [fst snd]; congruence|exact F|exact B].
Qed.
Lemma projection_none : forall params check m, projection params check 0 (mkT M s0 m) =
  (mkT M s0 m, Ok (params, 0, repeat (Fin 0) (List.length params), repeat (Fin 0) (List.length params))).
Proof.
  intros params check m. unfold adam_gradient_projection. pose proof (hess_key s0) as K. rewrite H0 in K. destruct K as (f & Hf & F).
  erewrite run_then; [|unfold fitness_grad; cbn [t_store]; rewrite Hf; reflexivity].
  destruct (bounds_run m) as (lo & hi & E & L1 & L2). erewrite run_then; [|exact E]. cbn [fst snd].
  destruct (adam_start f (adam_settings check 0) lo hi params None None (mkT M s0 m) ltac:(congruence)) as (lo' & hi' & ->). reflexivity.
Qed.

(* the descent after its population is known *)
Definition descent_tail (c : descent) (px : list (fl * list pval) * extracted) : act M (list (fl * list pval) * logbook) :=
  andthen M (fitness_grad M evaluate simulate slope g) (fun grad =>
  andthen M (bounds M g) (fun lh =>
  andthen M (give M (logbook_update ["verbose"%string] 0 (map fst (fst px)) [])) (fun l =>
  andthen M (batches M evaluate resample root norm g c grad (fst lh) (snd lh) (snd px) (Z.to_nat (d_batches c)) 0
             (map (fun p => mkTu (Some (fst p)) (snd p) false None None) (fst px), l)) (fun q =>
  andthen M (give M (scored (fst q))) (fun out => ret M (by_score out, snd q)))))).
Lemma tail_key : forall c p X m, (1 <= d_batches c)%Z -> 1 <= d_size c -> d_per c = false -> (d_period c <= 0)%Z ->
  (exists a r, p = a :: r /\ forall v, In v (snd a) -> exists q, v = Num q) ->
  descent_tail c (p, X) (mkT M s0 m) = (mkT M s0 m, Err KeyError).
Proof.
  intros c p X m B Sz P Pe (a & r & -> & Nu). unfold descent_tail. pose proof (hess_key s0) as K. rewrite H0 in K. destruct K as (f & Hf & F).
  erewrite run_then; [|unfold fitness_grad; cbn [t_store]; rewrite Hf; reflexivity].
  destruct (bounds_run m) as (lo & hi & E & L1 & L2). erewrite run_then; [|exact E]. cbn [fst snd].
  destruct (log_first 0 (map fst (a :: r)) ltac:(discriminate)) as (row & El & _). erewrite run_then; [|unfold give; rewrite El; reflexivity].
  destruct (Z.to_nat (d_batches c)) as [|t] eqn:Et; [lia|]. cbn [batches]. apply stop_then. apply stop_then. unfold one_batch. rewrite P.
  replace (negb false && falls_on 0 (d_period c)) with false; [|unfold falls_on; destruct (Z.ltb_spec 0 (d_period c)); [lia|reflexivity]].
  erewrite run_then; [|reflexivity]. apply stop_then. cbn [fst snd map each]. apply stop_then. unfold tune_one. rewrite P. erewrite run_then; [|reflexivity]. cbn [tu_done tu_x].
  destruct (numbers_total (snd a) Nu) as (x & Ex & _). erewrite run_then; [|unfold give; rewrite Ex; reflexivity]. apply stop_then. apply adam_key; [congruence|exact F|exact Sz].
Qed.
Lemma scored_start : forall p, scored (map (fun q : fl * list pval => mkTu (Some (fst q)) (snd q) false None None) p) = Ok p.
Proof. induction p as [|[a v] p IH]; cbn [map scored tu_score tu_x of_option bind fst snd]; [reflexivity|]. rewrite IH. reflexivity. Qed.
Lemma tail_none : forall c p X m, (d_batches c <= 0)%Z -> p <> [] -> exists row,
  descent_tail c (p, X) (mkT M s0 m) = (mkT M s0 m, Ok (by_score p, [row])) /\ forall qs, map fst p = map Fin qs -> describes row 0 qs.
Proof.
  intros c p X m B NE. unfold descent_tail. pose proof (hess_key s0) as K. rewrite H0 in K. destruct K as (f & Hf & F).
  destruct (log_first 0 (map fst p)) as (row & El & D); [destruct p; [congruence|discriminate]|]. exists row. split; [|exact D].
  erewrite run_then; [|unfold fitness_grad; cbn [t_store]; rewrite Hf; reflexivity].
  destruct (bounds_run m) as (lo & hi & E & L1 & L2). erewrite run_then; [|exact E]. cbn [fst snd].
  erewrite run_then; [|unfold give; rewrite El; reflexivity].
  replace (Z.to_nat (d_batches c)) with 0 by lia. cbn [batches]. erewrite run_then; [|reflexivity]. cbn [fst snd].
  erewrite run_then; [|unfold give; rewrite scored_start; reflexivity]. reflexivity.
Qed.
Lemma descent_given : forall c p m, descent_run c (List.length p) (Some p) (mkT M s0 m) = descent_tail c (p, X0) (mkT M s0 (switch (d_noise c) m)).
Proof.
  intros c p m. unfold tuning_adam_gradient_descent. erewrite run_then; [|reflexivity]. rewrite Nat.eqb_refl. cbn [t_store t_more].
  erewrite run_then; [|unfold andthen, read; cbn [t_store]; rewrite H0; reflexivity]. reflexivity.
Qed.
Lemma descent_wrong : forall c k p m s, List.length p <> k -> descent_run c k (Some p) (mkT M s m) = (mkT M s (switch (d_noise c) m), Err ValueError).
Proof.
  intros c k p m s N. unfold tuning_adam_gradient_descent. erewrite run_then; [|reflexivity]. destruct (Nat.eqb_spec (List.length p) k); [congruence|]. reflexivity.
Qed.
End Known.
End Tuning.

(** ** Evaluating one individual after the other *)
Section Runs.
Context {M : Type}.
Variable switch : bool -> M -> M.
Variable evaluate : store -> M -> M * res fl.
Variable simulate : store -> M -> M * res unit.
Variable resample : store -> M -> M * res unit.
Variable slope : store -> M -> res arr.
Variable root : fl -> fl.
Variable norm : arr -> fl.
Variable sort : list (fl * list pval) -> res (list (fl * list pval)).
Variable g : graph.
Variable rs : nat -> nat -> nat -> rnd.
Variable lucks : nat -> luck.
Variable s0 : store.
Variable X0 : extracted.
Hypothesis W : wf g.
Hypothesis H0 : extract g s0 = Ok X0.
Hypothesis Sm : all_sampleable g s0.
Hypothesis U : unshared g s0.
Hypothesis Sc : always_scores evaluate.
Hypothesis Fr : forall gen call, frac_ok (rs gen call).
Notation n := (List.length (x_params X0)).
Notation genetic_run := (tuning_genetic_algorithm M switch evaluate simulate resample slope root norm sort g rs lucks).
Notation descent_run := (tuning_adam_gradient_descent M switch evaluate simulate resample slope root norm g rs).
Notation inv := (reached s0 X0).
Notation chain := (evaluations evaluate g s0).

Definition fit (i : nat) (a : pval) : Prop := forall lo hi, nth_error (x_lo X0) i = Some lo -> nth_error (x_hi X0) i = Some hi ->
  exists q l h, a = Num q /\ lo = Num l /\ hi = Num h /\ (l <= q)%Q /\ (q <= h)%Q.
Notation ok := (candidate n fit).

Lemma ok_range : forall v, ok v -> in_range g s0 v.
Proof. intros v [L P]. exists X0. split; [exact H0|]. split; [exact L|]. intros i a lo hi E1 E2 E3. exact (P i a E1 lo hi E2 E3). Qed.

Lemma chain_app : forall s m l1 s1 m1 l2 s2 m2, chain s m l1 s1 m1 -> chain s1 m1 l2 s2 m2 -> chain s m (l1 ++ l2) s2 m2.
Proof. intros s m l1 s1 m1 l2 s2 m2 H. revert l2 s2 m2. induction H as [|s m s1' v sc m1' l s2' m2' Hh Hr Hf He Hc IH]; intros l2 s3 m3 K; cbn [app]; [exact K|]. econstructor; eauto. Qed.

Lemma write_run : forall s m v, inv s -> ok v -> exists s1, spread M v (x_models X0) (x_index X0) (mkT M s m) = (mkT M s1 m, Ok tt) /\ inv s1 /\ holds g s1 v /\ same_except_free g s0 s1.
Proof.
  intros s m v I [L P]. destruct (reached_write g s0 X0 W H0 U s v I L) as (s1 & D & D0). exists s1. unfold spread. cbn [t_store t_more]. rewrite D.
  split; [reflexivity|]. split; [exists v; split; assumption|]. destruct (has_holds (fun _ => Err KeyError) g s0 X0 W H0 U v s1 (conj L D0)) as (A & B & _). split; assumption.
Qed.
Lemma eval_run : forall s m, exists m1 sc, lift M evaluate (mkT M s m) = (mkT M s m1, Ok sc) /\ evaluate s m = (m1, Ok sc).
Proof. intros s m. destruct (Sc s m) as [v E]. exists (fst (evaluate s m)), v. unfold lift. cbv zeta. cbn [t_store t_more]. destruct (evaluate s m) as [m1 r]. cbn [fst snd] in *. subst r. split; reflexivity. Qed.

(* an action that evaluates the individual it returns *)
Definition tries {A} (f : A -> act M (fl * list pval)) (a : A) : Prop :=
  forall s m, inv s -> exists s1 m1 sc v, f a (mkT M s m) = (mkT M s1 m1, Ok (sc, v)) /\ inv s1 /\ ok v /\ chain s m [(sc, v)] s1 m1.
Lemma each_run : forall {A} (f : A -> act M (fl * list pval)) l, (forall a, In a l -> tries f a) -> forall s m, inv s ->
  exists p s1 m1, each M f l (mkT M s m) = (mkT M s1 m1, Ok p) /\ List.length p = List.length l /\ inv s1 /\ Forall (fun e => ok (snd e)) p /\ chain s m p s1 m1.
Proof.
  intros A f. induction l as [|a l IH]; intros T s m I; cbn [each].
  - exists [], s, m. split; [reflexivity|]. split; [reflexivity|]. split; [exact I|]. split; constructor.
  - destruct (T a (or_introl eq_refl) s m I) as (s1 & m1 & sc & v & E & I1 & Ov & C1). destruct (IH (fun b J => T b (or_intror J)) s1 m1 I1) as (p & s2 & m2 & E2 & L & I2 & Op & C2).
    exists ((sc, v) :: p), s2, m2. erewrite run_then by exact E. erewrite run_then by exact E2. split; [reflexivity|]. split; [cbn [List.length]; congruence|]. split; [exact I2|].
    split; [constructor; [exact Ov|exact Op]|]. exact (chain_app _ _ _ _ _ _ _ _ C1 C2).
Qed.

Lemma sample_run : forall d gen k s m, d <> Triangle -> inv s -> exists v, sample_list M g rs d gen k (mkT M s m) = (mkT M s m, Ok v) /\ ok v.
Proof.
  intros d gen k s m D I. destruct (reached_extract g s0 X0 W H0 U s I) as (X & E & _ & _ & El & Eh & Et & Es & L).
  destruct (columns g s0 X0 W H0 Sm) as (L1 & L2 & L3 & L4 & C).
  destruct (sample_callable_ok d (x_params X) (x_lo X) (x_hi X) (x_types X) (x_steps X) (rs gen k) 0 D (Fr gen k)) as (v & Ev & Lv & B); rewrite ?El, ?Eh, ?Et, ?Es; try congruence; [exact C|].
  exists v. unfold sample_list. erewrite run_then; [|unfold read; cbn [t_store]; rewrite E; reflexivity]. unfold give. split; [rewrite Ev; reflexivity|].
  split; [congruence|]. intros i a Ea lo hi E1 E2. rewrite El, Eh in B. destruct (B i lo hi a Ea E1 E2) as (q & l & h & A1 & A2 & A3 & A4 & A5). exists q, l, h. auto.
Qed.
Lemma step_chain : forall s m s1 v sc m1, holds g s1 v -> ok v -> same_except_free g s0 s1 -> evaluate s1 m = (m1, Ok sc) -> chain s m [(sc, v)] s1 m1.
Proof. intros s m s1 v sc m1 Hh Ov Hf E. econstructor; [exact Hh|apply ok_range; exact Ov|exact Hf|exact E|constructor]. Qed.
Lemma first_tries : forall d k, d <> Triangle -> tries (first_one M evaluate resample g rs d false X0) k.
Proof.
  intros d k D s m I. unfold first_one. destruct (sample_run d 0 k s m D I) as (v & Ev & Ov). destruct (write_run s m v I Ov) as (s1 & Ew & I1 & Hh & Hf). destruct (eval_run s1 m) as (m1 & sc & Ee & Eq).
  exists s1, m1, sc, v. split; [|split; [exact I1|split; [exact Ov|apply step_chain; assumption]]].
  erewrite run_then by reflexivity. erewrite run_then by exact Ev. erewrite run_then by exact Ew. erewrite run_then by exact Ee. reflexivity.
Qed.
Lemma score_run : forall s m v, inv s -> ok v -> exists s1 m1 sc, individual_score M evaluate g v X0 (mkT M s m) = (mkT M s1 m1, Ok sc) /\ inv s1 /\ chain s m [(sc, v)] s1 m1.
Proof.
  intros s m v I Ov. unfold individual_score. destruct (write_run s m v I Ov) as (s1 & Ew & I1 & Hh & Hf). destruct (eval_run s1 m) as (m1 & sc & Ee & Eq).
  exists s1, m1, sc. erewrite run_then by exact Ew. rewrite Ee. split; [reflexivity|]. split; [exact I1|apply step_chain; assumption].
Qed.
Lemma child_tries : forall c v, g_per c = false -> ok v -> tries (add_child M evaluate resample g c X0) v.
Proof.
  intros c v P Ov s m I. unfold add_child. rewrite P. destruct (score_run s m v I Ov) as (s1 & m1 & sc & E & I1 & C). exists s1, m1, sc, v. erewrite run_then by reflexivity. erewrite run_then by exact E. split; [reflexivity|]. split; [exact I1|]. split; assumption.
Qed.
Lemma population_run : forall k d m, d <> Triangle -> exists p s1 m1,
  initial_population M evaluate resample g rs k d false (mkT M s0 m) = (mkT M s1 m1, Ok (p, X0)) /\ List.length p = k /\ inv s1 /\ Forall (fun e => ok (snd e)) p /\ chain s0 m p s1 m1.
Proof.
  intros k d m D. unfold initial_population. erewrite run_then; [|unfold read; cbn [t_store]; rewrite H0; reflexivity].
  destruct (each_run (first_one M evaluate resample g rs d false X0) (seq 0 k) (fun a _ => first_tries d a D) s0 m (reached_start g s0 X0 H0)) as (p & s1 & m1 & E & L & I & Op & C).
  exists p, s1, m1. erewrite run_then by exact E. split; [reflexivity|]. split; [rewrite L; apply seq_length|]. auto.
Qed.

(* recombination keeps the candidates *)
Lemma two_run : forall p r, 2 <= List.length p -> Forall (fun e => ok (snd e)) p -> exists a b, two_of pval (some_scores p) r = Ok (a, b) /\ ok a /\ ok b.
Proof.
  intros p r L F. assert (E : exists ab, two_of pval (some_scores p) r = Ok ab).
  { unfold two_of, some_scores. rewrite map_length. destruct (Nat.leb_spec (List.length p) 1); [lia|]. cbv zeta.
    pose proof (Nat.mod_upper_bound (fst r) (List.length p) ltac:(lia)) as B1. pose proof (Nat.mod_upper_bound (snd r) (List.length p - 1) ltac:(lia)) as B2.
    assert (X : forall k, k < List.length p -> exists x, nth_error (map (fun q : fl * list pval => (Some (fst q), snd q)) p) k = Some x).
    { intros k Hk. destruct (nth_error (map (fun q : fl * list pval => (Some (fst q), snd q)) p) k) eqn:E; [eauto|]. apply nth_error_None in E. rewrite map_length in E. lia. }
    destruct (X _ B1) as [x E1]. unfold GAModel.entry in *. rewrite E1.
    assert (B3 : (if snd r mod (List.length p - 1) <? fst r mod List.length p then snd r mod (List.length p - 1) else S (snd r mod (List.length p - 1))) < List.length p) by (destruct (_ <? _); lia).
    destruct (X _ B3) as [y E2]. rewrite E2. eexists; reflexivity. }
  destruct E as [[a b] E]. exists a, b. split; [exact E|].
  apply (two_ok (A := pval) n fit (some_scores p) r (a, b)); [|exact E]. unfold all_ok, some_scores. apply Forall_map. exact F.
Qed.
Lemma one_run : forall p r, p <> [] -> Forall (fun e => ok (snd e)) p -> exists a, one_of pval (some_scores p) r = Ok a /\ ok a.
Proof.
  intros p r NE F. assert (E : exists a, one_of pval (some_scores p) r = Ok a).
  { unfold one_of. assert (L : 0 < List.length (some_scores p)) by (unfold some_scores; rewrite map_length; destruct p; [congruence|cbn; lia]).
    destruct (some_scores p) as [|e q] eqn:Es; [cbn in L; lia|]. pose proof (Nat.mod_upper_bound r (List.length (e :: q)) ltac:(lia)) as B.
    destruct (nth_error (e :: q) (r mod List.length (e :: q))) as [x|] eqn:En; [unfold GAModel.entry; rewrite En; eexists; reflexivity|apply nth_error_None in En; lia]. }
  destruct E as [a E]. exists a. split; [exact E|]. apply (one_ok (A := pval) n fit (some_scores p) r a); [|exact E]. unfold all_ok, some_scores. apply Forall_map. exact F.
Qed.
Lemma cross_run : forall c cut gen, g_per c = false -> g_crossover c = singlepoint cut -> forall todo i p s m, 2 <= List.length p -> Forall (fun e => ok (snd e)) p -> inv s ->
  exists new s1 m1, cross_rounds M evaluate resample g lucks c X0 gen todo i p (mkT M s m) = (mkT M s1 m1, Ok (p ++ new)) /\ List.length new = 2 * todo /\ inv s1 /\ Forall (fun e => ok (snd e)) new /\ chain s m new s1 m1.
Proof.
  intros c cut gen P Cr. induction todo as [|t IH]; intros i p s m L F I; cbn [cross_rounds].
  - exists [], s, m. rewrite app_nil_r. split; [reflexivity|]. split; [reflexivity|]. split; [exact I|]. split; constructor.
  - destruct (two_run p (k_pair (lucks gen) i) L F) as (a & b & E2 & Oa & Ob). erewrite run_then; [|unfold give; rewrite E2; reflexivity].
    rewrite Cr. unfold singlepoint at 1. cbv zeta. cbn [fst snd]. erewrite run_then; [|reflexivity].
    destruct (ok_cross n fit a b (cut gen i) Oa Ob) as [O1 O2].
    destruct (each_run (add_child M evaluate resample g c X0) [fst (crossover_singlepoint a b (cut gen i)); snd (crossover_singlepoint a b (cut gen i))]) with (s := s) (m := m) as (new & s1 & m1 & E & Ln & I1 & On & C1).
    { intros v [<-|[<-|[]]]; apply child_tries; assumption. }
    { exact I. }
    erewrite run_then by exact E. destruct (IH (S i) (p ++ new) s1 m1) as (new2 & s2 & m2 & E' & L2 & I2 & On2 & C2); [rewrite app_length; lia|apply Forall_app; split; assumption|exact I1|].
    exists (new ++ new2), s2, m2. rewrite E', app_assoc. split; [reflexivity|]. split; [rewrite app_length; cbn [List.length] in Ln; lia|]. split; [exact I2|]. split; [apply Forall_app; split; assumption|]. eapply chain_app; eassumption.
Qed.
Lemma mutant_ok : forall a b r pick c, ok a -> ok b -> TuningModel.mutation a b r pick = Ok c -> ok c.
Proof.
  intros a b r pick c [La Pa] [Lb Pb] E. unfold TuningModel.mutation in E. cbv zeta in E. destruct (List.length b <=? 1); [discriminate|]. injection E as <-.
  split; [rewrite mix_genes_length; lia|]. intros i x Ex. rewrite mix_genes_nth in Ex. destruct (nth_error a i) eqn:Ea; [|discriminate]. destruct (nth_error b i) eqn:Eb; [|discriminate]. injection Ex as <-. destruct (existsb _ _); [apply (Pb i); exact Eb|apply (Pa i); exact Ea].
Qed.
Lemma mutate_run : forall c gen, g_per c = false -> 2 <= n -> forall todo i p s m, p <> [] -> Forall (fun e => ok (snd e)) p -> inv s ->
  exists new s1 m1, mutate_rounds M evaluate resample g rs lucks c X0 gen todo i p (mkT M s m) = (mkT M s1 m1, Ok (p ++ new)) /\ List.length new = todo /\ inv s1 /\ Forall (fun e => ok (snd e)) new /\ chain s m new s1 m1.
Proof.
  intros c gen P B. induction todo as [|t IH]; intros i p s m NE F I; cbn [mutate_rounds].
  - exists [], s, m. rewrite app_nil_r. split; [reflexivity|]. split; [reflexivity|]. split; [exact I|]. split; constructor.
  - destruct (one_run p (k_one (lucks gen) i) NE F) as (a & E1 & Oa). erewrite run_then; [|unfold give; rewrite E1; reflexivity].
    destruct (sample_run Uniform gen i s m ltac:(discriminate) I) as (b & E2 & Ob). erewrite run_then by exact E2.
    assert (E3 : exists ch, TuningModel.mutation a b (k_num (lucks gen) i) (k_pick (lucks gen) i) = Ok ch).
    { destruct (mutation_takes a b (k_num (lucks gen) i) (k_pick (lucks gen) i)) as (ch & _ & E & _); [rewrite (proj1 Oa), (proj1 Ob); reflexivity|rewrite (proj1 Ob); exact B|]. eauto. }
    destruct E3 as [ch E3]. pose proof (mutant_ok _ _ _ _ _ Oa Ob E3) as Oc. erewrite run_then; [|unfold give; rewrite E3; reflexivity].
    destruct (child_tries c ch P Oc s m I) as (s1 & m1 & sc & v & E4 & I1 & Ov & C1). erewrite run_then by exact E4.
    destruct (IH (S i) (p ++ [(sc, v)]) s1 m1) as (new2 & s2 & m2 & E' & L2 & I2 & On2 & C2); [destruct p; discriminate|apply Forall_app; split; [exact F|constructor; [exact Ov|constructor]]|exact I1|].
    exists ((sc, v) :: new2), s2, m2. rewrite E', <- app_assoc. split; [reflexivity|]. split; [cbn [List.length]; lia|]. split; [exact I2|]. split; [constructor; assumption|]. exact (chain_app _ _ _ _ _ _ _ _ C1 C2).
Qed.

(** ** The results *)
Lemma genetic_none : forall c m, (g_generations c <= 0)%Z -> g_per c = false -> g_dist c <> Triangle -> 1 <= g_population c ->
  exists p row s1 m1, genetic_run c (mkT M s0 m) = (mkT M s1 m1, Ok (p, [row], if (0 <? g_top c)%Z then Some [] else None)) /\
    List.length p = g_population c /\ chain s0 (switch (g_noise c) m) p s1 m1 /\ (forall qs, map fst p = map Fin qs -> describes row 0 qs).
Proof.
  intros c m B P D Np. unfold tuning_genetic_algorithm. erewrite run_then by reflexivity. rewrite P. cbn [t_store t_more].
  destruct (population_run (g_population c) (g_dist c) (switch (g_noise c) m) D) as (p & s1 & m1 & E & L & I & Op & C). erewrite run_then by exact E. cbn [fst snd].
  destruct (log_first 0 (map fst p)) as (row & El & De); [destruct p; [cbn in L; lia|discriminate]|]. exists p, row, s1, m1.
  erewrite run_then; [|unfold give; rewrite El; reflexivity]. replace (Z.to_nat (g_generations c)) with 0 by lia. cbn [generations]. erewrite run_then by reflexivity.
  split; [reflexivity|]. split; [exact L|]. split; [exact C|exact De].
Qed.
Lemma genetic_type : forall c cut m, (1 <= g_generations c)%Z -> g_per c = false -> (g_period c <= 0)%Z -> (g_top c <= 0)%Z -> g_dist c <> Triangle ->
  1 <= g_population c -> (g_crx c = 0 \/ 2 <= g_population c) -> (g_mut c = 0 \/ 2 <= n) -> g_crossover c = singlepoint cut -> (forall l, exists l', sort l = Ok l') ->
  exists p s1 m1, genetic_run c (mkT M s0 m) = (mkT M s1 m1, Err TypeError) /\
    List.length p = g_population c + 2 * g_crx c + g_mut c /\ chain s0 (switch (g_noise c) m) p s1 m1.
Proof.
  intros c cut m B P Pe T D Np Nc Nm Cr So. unfold tuning_genetic_algorithm. erewrite run_then by reflexivity. rewrite P. cbn [t_store t_more].
  destruct (population_run (g_population c) (g_dist c) (switch (g_noise c) m) D) as (p & s1 & m1 & E & L & I & Op & C). erewrite run_then by exact E. cbn [fst snd].
  destruct (log_first 0 (map fst p)) as (row & El & De); [destruct p; [cbn in L; lia|discriminate]|].
  erewrite run_then; [|unfold give; rewrite El; reflexivity]. destruct (Z.to_nat (g_generations c)) as [|t] eqn:Et; [lia|]. cbn [generations].
  assert (X : exists new s2 m2, cross_rounds M evaluate resample g lucks c X0 1 (g_crx c) 0 p (mkT M s1 m1) = (mkT M s2 m2, Ok (p ++ new)) /\ List.length new = 2 * g_crx c /\ inv s2 /\ Forall (fun e => ok (snd e)) new /\ chain s1 m1 new s2 m2).
  { destruct Nc as [->|Nc]; [|apply (cross_run c cut 1 P Cr); [lia|exact Op|exact I]]. exists [], s1, m1. rewrite app_nil_r. split; [reflexivity|]. split; [reflexivity|]. split; [exact I|]. split; constructor. }
  destruct X as (new & s2 & m2 & E2 & L2 & I2 & On & C2).
  assert (Y : exists mu s3 m3, mutate_rounds M evaluate resample g rs lucks c X0 1 (g_mut c) 0 (p ++ new) (mkT M s2 m2) = (mkT M s3 m3, Ok ((p ++ new) ++ mu)) /\ List.length mu = g_mut c /\ inv s3 /\ Forall (fun e => ok (snd e)) mu /\ chain s2 m2 mu s3 m3).
  { destruct Nm as [->|Nm]; [|apply (mutate_run c 1 P Nm); [destruct p; [cbn in L; lia|discriminate]|apply Forall_app; split; assumption|exact I2]]. exists [], s2, m2. rewrite app_nil_r. split; [reflexivity|]. split; [reflexivity|]. split; [exact I2|]. split; constructor. }
  destruct Y as (mu & s3 & m3 & E3 & L3 & I3 & Om & C3). destruct (So ((p ++ new) ++ mu)) as [srt Es].
  exists ((p ++ new) ++ mu), s3, m3. split; [|split; [rewrite !app_length; lia|eapply chain_app; [eapply chain_app; eassumption|eassumption]]].
  apply stop_then. apply stop_then. unfold one_generation. rewrite P.
  replace (negb false && falls_on 1 (g_period c)) with false; [|unfold falls_on; destruct (Z.ltb_spec 0 (g_period c)); [lia|reflexivity]].
  erewrite run_then by reflexivity. erewrite run_then by exact E2. erewrite run_then by exact E3. erewrite run_then; [|unfold give; rewrite Es; reflexivity].
  unfold tune_best. destruct (Z.ltb_spec 0 (g_top c)); [lia|]. erewrite run_then by reflexivity. cbv zeta. rewrite log_runtime. apply stop_then. reflexivity.
Qed.
(* the noise cannot be resampled *)
Lemma genetic_resample : forall c m e, (forall s m, snd (resample s m) = Err e) -> (1 <= g_generations c)%Z -> g_per c = false -> g_period c = 1%Z -> g_dist c <> Triangle -> 1 <= g_population c ->
  exists p s1 m1, genetic_run c (mkT M s0 m) = (mkT M s1 (fst (resample s1 m1)), Err e) /\ List.length p = g_population c /\ chain s0 (switch (g_noise c) m) p s1 m1.
Proof.
  intros c m e Re B P Pe D Np. unfold tuning_genetic_algorithm. erewrite run_then by reflexivity. rewrite P. cbn [t_store t_more].
  destruct (population_run (g_population c) (g_dist c) (switch (g_noise c) m) D) as (p & s1 & m1 & E & L & I & Op & C). erewrite run_then by exact E. cbn [fst snd].
  destruct (log_first 0 (map fst p)) as (row & El & De); [destruct p; [cbn in L; lia|discriminate]|].
  erewrite run_then; [|unfold give; rewrite El; reflexivity]. destruct (Z.to_nat (g_generations c)) as [|t] eqn:Et; [lia|]. cbn [generations].
  exists p, s1, m1. split; [|split; [exact L|exact C]]. apply stop_then. apply stop_then. unfold one_generation. rewrite P, Pe. apply stop_then.
  change (negb false && falls_on 1 1) with true. unfold resample_if, lift. cbv zeta. cbn [t_store t_more]. rewrite Re. reflexivity.
Qed.
Lemma genetic_resample_each : forall c m e, (forall s m, snd (resample s m) = Err e) -> g_per c = true -> 1 <= g_population c ->
  genetic_run c (mkT M s0 m) = (mkT M s0 (fst (resample s0 (switch (g_noise c) m))), Err e).
Proof.
  intros c m e Re P Np. unfold tuning_genetic_algorithm. erewrite run_then by reflexivity. rewrite P. cbn [t_store t_more]. apply stop_then. unfold initial_population.
  erewrite run_then; [|unfold read; cbn [t_store]; rewrite H0; reflexivity]. destruct (g_population c) as [|k]; [lia|]. cbn [seq each]. apply stop_then. apply stop_then. unfold first_one. apply stop_then.
  unfold resample_if, lift. cbv zeta. cbn [t_store t_more]. rewrite Re. reflexivity.
Qed.
Lemma descent_fresh_key : forall c k m, (1 <= d_batches c)%Z -> 1 <= d_size c -> d_per c = false -> (d_period c <= 0)%Z -> 1 <= k ->
  exists p s1 m1, descent_run c k None (mkT M s0 m) = (mkT M s1 m1, Err KeyError) /\ List.length p = k /\ chain s0 (switch (d_noise c) m) p s1 m1.
Proof.
  intros c k m B Sz P Pe K. unfold tuning_adam_gradient_descent. erewrite run_then by reflexivity. cbn [t_store t_more].
  destruct (population_run k Uniform (switch (d_noise c) m) ltac:(discriminate)) as (p & s1 & m1 & E & L & I & Op & C). erewrite run_then by exact E.
  destruct (reached_extract g s0 X0 W H0 U s1 I) as (X1 & E1 & _ & _ & El & Eh & Et & Es & Ln).
  exists p, s1, m1. split; [|split; [exact L|exact C]].
  assert (Sm1 : all_sampleable g s1).
  { intros i o ps j Hu [Ho Hl] F. destruct I as (u & Lu & Du). pose proof (distribute_frame_graph g s0 X0 u s1 W H0 Du) as (Fo & Fk & _).
    rewrite Fo in Ho. assert (Hi : exists ps0, assoc (o_list o) (s_lists s0) = Some ps0).
    { apply assoc_In_fst in Hl. rewrite Fk in Hl. clear - Hl. induction (s_lists s0) as [|[a b] l IH]; [destruct Hl|]. cbn [assoc map fst In] in *. destruct (Nat.eqb_spec (o_list o) a); [eexists; reflexivity|]. apply IH. destruct Hl; [congruence|assumption]. }
    destruct Hi as [ps0 Hi]. exact (Sm i o ps0 j Hu (conj Ho Hi) F). }
  apply (tail_key evaluate simulate resample slope root norm g s1 X1 W E1 Sm1 c p X0 m1 B Sz P Pe).
  destruct p as [|a r]; [cbn in L; lia|]. exists a, r. split; [reflexivity|]. inversion Op as [|? ? Oa _]; subst. intros v J. apply In_nth_error in J as [i J].
  destruct Oa as [La Pa]. assert (i < n) by (rewrite <- La; apply nth_error_Some; congruence). destruct (columns g s0 X0 W H0 Sm) as (L1 & L2 & _).
  destruct (nth_error (x_lo X0) i) as [lo|] eqn:N1; [|apply nth_error_None in N1; lia]. destruct (nth_error (x_hi X0) i) as [hi|] eqn:N2; [|apply nth_error_None in N2; lia].
  destruct (Pa i v J lo hi N1 N2) as (q & _ & _ & -> & _). eauto.
Qed.
End Runs.
