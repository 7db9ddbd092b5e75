(** Parameter optimisation: C32-C36 and C50. *)
From Coq Require Import List Arith Bool ZArith QArith Lia Lqa Permutation Sorted.
From Verif Require Import Base GraphModel GraphSpec ParamsModel ParamsSpec EvolverModel EvolverExamples FloatModel FloatArith GAModel GASpec GAProofs
  AdamModel AdamSpec AdamProofs LoggerModel LoggerSpec LoggerProofs OptimiseModel OptimiseSpec OptimiseProofs.
Import ListNotations.
Local Open Scope nat_scope.

(** ** C32: the genetic search *)
Section C32.
Context {A St : Type}.
(* n genes, those at position i satisfying P i; every random vector is one of these *)
Variable n : nat.
Variable P : nat -> A -> Prop.
Variable func : list A -> St -> St * res fl.
Variable random_vec : nat -> nat -> res (list A).
Variable note : list fl -> St -> St * res unit.
Variable sort : list (fl * list A) -> list (fl * list A).
Variable lucks : nat -> ga_luck.
Variable n_crx n_mut n_population : nat.
Hypothesis random_ok : forall g i x, random_vec g i = Ok x -> candidate n P x.
Variable Inv : St -> Prop.
Variable f : list A -> res fl.
Hypothesis comp : computes Inv (candidate n P) func f.
Hypothesis noted : keeps Inv note.
Hypothesis sorts : python_sort sort.
Notation population := (ga_population A St func random_vec note sort lucks n_crx n_mut n_population).
Notation search := (parameters_genetic_algorithm A St func random_vec note sort lucks n_crx n_mut n_population).

(* after any number of generations: the configured size, and every score is the objective there *)
Theorem C32_population : forall k x0 s s' p, candidate n P x0 -> Inv s -> population k x0 s = (s', Ok p) ->
  length p = n_population /\ forall v x, In (v, x) p -> candidate n P x /\ f x = Ok v.
Proof. intros k x0 s s' p Hx Hs E. exact (proj2 (population_ok n P func random_vec note sort lucks n_crx n_mut n_population random_ok Inv f comp noted sorts k x0 s s' p Hx Hs E)). Qed.
Theorem C32_true_score : forall k x0 s s' x v, candidate n P x0 -> Inv s -> search k x0 s = (s', Ok (x, v)) -> candidate n P x /\ f x = Ok v.
Proof. exact (search_ok n P func random_vec note sort lucks n_crx n_mut n_population random_ok Inv f comp noted sorts). Qed.
(* more generations are never worse *)
Theorem C32_monotone : forall k k' x0 s s1 s2 x v x' v', candidate n P x0 -> Inv s -> (forall y, candidate n P y -> f y <> Ok NaN) -> k <= k' ->
  search k x0 s = (s1, Ok (x, v)) -> search k' x0 s = (s2, Ok (x', v')) -> fltb v v' = false.
Proof. exact (search_better n P func random_vec note sort lucks n_crx n_mut n_population random_ok Inv f comp noted sorts). Qed.
Theorem C32_start : forall k x0 s s' x v, candidate n P x0 -> Inv s -> (forall y, candidate n P y -> f y <> Ok NaN) ->
  search k x0 s = (s', Ok (x, v)) -> exists v0, f x0 = Ok v0 /\ fltb v0 v = false.
Proof. exact (search_start n P func random_vec note sort lucks n_crx n_mut n_population random_ok Inv f comp noted sorts). Qed.
(* it does return *)
Theorem C32_returns : forall k x0 s, harmless Inv note -> candidate n P x0 -> Inv s -> (forall x, candidate n P x -> exists v, f x = Ok v) ->
  (forall g i, exists x, random_vec g i = Ok x) -> 0 < n -> 0 < n_population -> (n_crx = 0 \/ 2 <= n_population) ->
  exists s' x v, search k x0 s = (s', Ok (x, v)).
Proof. intros k x0 s Hn. exact (search_total n P func random_vec note sort lucks n_crx n_mut n_population random_ok Inv f comp noted sorts Hn k x0 s). Qed.
End C32.
Print Assumptions C32_population.
Print Assumptions C32_true_score.
Print Assumptions C32_monotone.
Print Assumptions C32_start.
Print Assumptions C32_returns.

(* Python's sort on short lists, by insertion: a new element moves left past those it is below *)
Section Sorting.
Context {A : Type}.
Notation scored := (fl * list A)%type.
(* the list is kept in reverse *)
Fixpoint sift (x : scored) (l : list scored) : list scored :=
  match l with [] => [x] | y :: r => if fltb (fst x) (fst y) then y :: sift x r else x :: l end.
Definition insertion (l : list scored) : list scored := rev (fold_left (fun acc x => sift x acc) l []).
Lemma sift_perm : forall x l, Permutation (sift x l) (x :: l).
Proof. intros x. induction l as [|y l IH]; cbn [sift]; [reflexivity|]. destruct (fltb (fst x) (fst y)); [|reflexivity]. rewrite IH. apply perm_swap. Qed.
Lemma fltb_asym : forall a b, fltb a b = true -> fltb b a = false.
Proof. intros [x| | |] [y| | |] H; cbn in *; try discriminate; try reflexivity. apply negb_true_iff in H. apply negb_false_iff, Qle_bool_iff. destruct (Qlt_le_dec y x) as [L|L]; [apply Qlt_le_weak in L|exact L]. destruct (Qle_bool y x) eqn:B; [discriminate|]. exfalso. assert (Qle_bool y x = true) by (apply Qle_bool_iff; exact L). congruence. Qed.
Lemma fltb_le_trans : forall a b c, a <> NaN -> b <> NaN -> c <> NaN -> fltb a b = false -> fltb b c = false -> fltb a c = false.
Proof.
  intros [x| | |] [y| | |] [z| | |] Na Nb Nc H1 H2; cbn in *; try congruence; try reflexivity.
  apply negb_false_iff in H1, H2. apply Qle_bool_iff in H1, H2. apply negb_false_iff, Qle_bool_iff. lra.
Qed.
Lemma sift_sorted : forall x l, fst x <> NaN -> (forall y, In y l -> fst y <> NaN) -> StronglySorted (fun y z => fltb (fst y) (fst z) = false) l ->
  StronglySorted (fun y z => fltb (fst y) (fst z) = false) (sift x l).
Proof.
  intros x l Nx. induction l as [|y l IH]; intros N S; cbn [sift]; [repeat constructor|]. inversion S as [|? ? S' F]; subst. destruct (fltb (fst x) (fst y)) eqn:E.
  - constructor; [apply IH; [intros z Hz; apply N; right; exact Hz|exact S']|]. apply Forall_forall. intros z Hz. apply (Permutation_in _ (sift_perm x l)) in Hz. destruct Hz as [<-|Hz]; [apply fltb_asym; exact E|]. exact (proj1 (Forall_forall _ _) F z Hz).
  - constructor; [exact S|]. constructor; [exact E|]. apply Forall_forall. intros z Hz. apply (fltb_le_trans _ (fst y)); [exact Nx|apply N; left; reflexivity|apply N; right; exact Hz|exact E|exact (proj1 (Forall_forall _ _) F z Hz)].
Qed.
Lemma sorted_snoc : forall (R : scored -> scored -> Prop) l x, StronglySorted R l -> Forall (fun y => R y x) l -> StronglySorted R (l ++ [x]).
Proof.
  intros R l x S F. induction S as [|y l S IH H]; cbn [app]; [repeat constructor|]. inversion F; subst. constructor; [apply IH; assumption|]. apply Forall_app. split; [exact H|constructor; [assumption|constructor]].
Qed.
Lemma sorted_rev : forall (R : scored -> scored -> Prop) l, StronglySorted R l -> StronglySorted (fun y z => R z y) (rev l).
Proof.
  intros R l S. induction S as [|y l S IH H]; cbn [rev]; [constructor|]. apply sorted_snoc; [exact IH|]. apply Forall_forall. intros z Hz. apply in_rev in Hz. exact (proj1 (Forall_forall _ _) H z Hz).
Qed.
Lemma insertion_python : python_sort insertion.
Proof.
  intros l. unfold insertion.
  assert (F : forall acc, Permutation (fold_left (fun acc x => sift x acc) l acc) (acc ++ l)).
  { induction l as [|x l IH]; intros acc; cbn [fold_left]; [rewrite app_nil_r; reflexivity|]. rewrite IH. rewrite (sift_perm x acc). cbn [app]. apply Permutation_middle. }
  split; [rewrite <- Permutation_rev; apply (F [])|]. intros N. apply (sorted_rev (fun y z => fltb (fst y) (fst z) = false)).
  assert (G : forall acc, (forall x, In x acc -> fst x <> NaN) -> StronglySorted (fun y z => fltb (fst y) (fst z) = false) acc -> StronglySorted (fun y z => fltb (fst y) (fst z) = false) (fold_left (fun acc x => sift x acc) l acc)).
  { clear F. induction l as [|x l IH]; intros acc Na S; cbn [fold_left]; [exact S|]. apply IH; [intros y Hy; apply N; right; exact Hy| |].
    - intros y Hy. apply (Permutation_in _ (sift_perm x acc)) in Hy. destruct Hy as [<-|Hy]; [apply N; left; reflexivity|apply Na; exact Hy].
    - apply sift_sorted; [apply N; left; reflexivity|exact Na|exact S]. }
  apply G; [intros x []|constructor].
Qed.
End Sorting.

(* two integer genes; the sum of their squares is to be made small; the state counts evaluations *)
Definition squares (x : list Z) : Z := fold_right (fun a s => (a * a + s)%Z) 0%Z x.
Definition count_squares (x : list Z) (s : nat) : nat * res fl := (S s, Ok (Fin (inject_Z (squares x)))).
Definition toy_vec (g i : nat) : res (list Z) := Ok [(5 - Z.of_nat (g + i))%Z; Z.of_nat (2 * i)].
Definition toy_lucks (g : nat) : ga_luck := mkGL (fun i => (g + i, i)) (fun i => i) (fun i => g + 2 * i) (fun i => g + i) (fun i => if Nat.even i then [0; 1] else []).
Definition toy_search (gens : nat) := parameters_genetic_algorithm Z nat count_squares toy_vec (fun _ s => (s, Ok tt)) insertion toy_lucks 1 3 4 gens [6; 7]%Z 0.
Example C32_case : map toy_search [0; 1; 2; 5] = [(4, Ok ([6; 7]%Z, Fin 85)); (9, Ok ([4; 0]%Z, Fin 16)); (14, Ok ([3; 0]%Z, Fin 9)); (29, Ok ([0; 0]%Z, Fin 0))].
Proof. vm_compute. reflexivity. Qed.

(* a score that is not a number: here the start has none and the search keeps it, though the candidate [1] scores 1 *)
Definition hole (x : list Z) (s : unit) : unit * res fl := (s, Ok (match x with [a] => if (a =? 0)%Z then NaN else Fin (inject_Z (a * a)) | _ => NaN end)).
Theorem C32_nan_refuted : exists (lucks : nat -> ga_luck) (rv : nat -> nat -> res (list Z)) x y,
  snd (hole y tt) = Ok (Fin 1) /\ rv 1 0 = Ok y /\
  parameters_genetic_algorithm Z unit hole rv (fun _ s => (s, Ok tt)) insertion lucks 0 1 1 1 x tt = (tt, Ok (x, NaN)).
Proof. exists (fun _ => mkGL (fun _ => (0, 0)) (fun _ => 0) (fun _ => 0) (fun _ => 0) (fun _ => [])), (fun _ _ => Ok [1%Z]), [0%Z], [1%Z]. repeat split; vm_compute; reflexivity. Qed.
Print Assumptions C32_nan_refuted.

(** ** C33: recombination *)

Theorem C33_single_point : forall A (p1 p2 : list A) r c1 c2, length p1 = length p2 -> crossover_singlepoint p1 p2 r = (c1, c2) ->
  length c1 = length p1 /\ length c2 = length p1 /\
  (length p1 <= 1 -> c1 = p1 /\ c2 = p2) /\
  (2 <= length p1 -> exists c, 0 < c < length p1 /\ forall i,
    (i < c -> nth_error c1 i = nth_error p1 i /\ nth_error c2 i = nth_error p2 i) /\
    (c <= i -> nth_error c1 i = nth_error p2 i /\ nth_error c2 i = nth_error p1 i)).
Proof. exact @single_point. Qed.
Print Assumptions C33_single_point.
Theorem C33_double_point : forall A (p1 p2 : list A) r1 r2, length p1 = length p2 ->
  (length p1 <= 2 -> crossover_doublepoint p1 p2 r1 r2 = Err ValueError) /\
  (3 <= length p1 -> exists c1 c2 a b, crossover_doublepoint p1 p2 r1 r2 = Ok (c1, c2) /\ length c1 = length p1 /\ length c2 = length p1 /\ 2 <= a <= b /\ b < length p1 /\
    forall i, (i < a \/ b <= i -> nth_error c1 i = nth_error p1 i /\ nth_error c2 i = nth_error p2 i) /\
              (a <= i < b -> nth_error c1 i = nth_error p2 i /\ nth_error c2 i = nth_error p1 i)).
Proof. exact @double_point. Qed.
Print Assumptions C33_double_point.
Theorem C33_mutation : forall A (p m : list A) first more, length p = length m -> m <> [] -> exists c, mutation p m first more = Ok c /\ length c = length m /\
  (forall i, nth_error c i = nth_error p i \/ nth_error c i = nth_error m i) /\ exists i, i < length m /\ nth_error c i = nth_error m i.
Proof. exact @mutated. Qed.
Print Assumptions C33_mutation.
(* the search sees the objective only on vectors of allowed genes: two objectives that agree there cannot be told apart *)
Theorem C33_only_candidates : forall A St n P (func func' : list A -> St -> St * res fl) random_vec note sort lucks n_crx n_mut n_population,
  (forall g i x, random_vec g i = Ok x -> candidate n P x) -> (forall x s, candidate n P x -> func x s = func' x s) -> (forall l, Permutation (sort l) l) ->
  forall k x0 s, candidate n P x0 ->
  parameters_genetic_algorithm A St func random_vec note sort lucks n_crx n_mut n_population k x0 s =
  parameters_genetic_algorithm A St func' random_vec note sort lucks n_crx n_mut n_population k x0 s.
Proof. intros A St n P func func' rv note sort lucks a b c H1 H2 H3. exact (ga_agree n P func rv note sort lucks a b c H1 func' H2 H3). Qed.
Print Assumptions C33_only_candidates.
Example C33_case : crossover_singlepoint [1; 2; 3; 4] [5; 6; 7; 8] 1 = ([1; 2; 7; 8], [5; 6; 3; 4]) /\
  crossover_doublepoint [1; 2; 3; 4] [5; 6; 7; 8] 0 1 = Ok ([1; 2; 7; 4], [5; 6; 3; 8]) /\
  mutation [1; 2; 3; 4] [5; 6; 7; 8] 2 [7; 2] = Ok [1; 2; 7; 8] /\ crossover_singlepoint [1] [5] 3 = ([1], [5]) /\ crossover_doublepoint [1; 2] [5; 6] 0 0 = Err ValueError.
Proof. repeat split; vm_compute; reflexivity. Qed.

(** ** C34: bounded Adam *)

(* at least one iteration, any gradient and settings: each coordinate is not a number or inside the box, 1e-8 of
   its width away from the faces *)
Theorem C34_inside : forall root norm grad st lower upper x m v y k m' v', box lower upper -> 0 < a_iters st ->
  adam_bounded root norm grad st lower upper x m v = Ok (y, k, m', v') ->
  length y = length lower /\ k <= a_iters st /\ forall j, j < length lower -> nth_error y j = Some NaN \/ within (1 # 100000000) lower upper y j.
Proof. exact adam_inside. Qed.
Print Assumptions C34_inside.
Theorem C34_no_iterations : forall root norm grad st lower upper x m v, length lower = length upper -> a_iters st = 0 ->
  exists m' v', adam_bounded root norm grad st lower upper x m v = Ok (x, 0, m', v').
Proof. exact adam_zero. Qed.
Print Assumptions C34_no_iterations.
(* finite gradients and a finite start: it returns, and every coordinate is inside *)
Theorem C34_finite : forall root norm grad st lower upper x s b1 b2 eps, box lower upper -> 0 < a_iters st -> length x = length lower -> all_finite x -> is_root root ->
  a_step st = Fin s -> a_b1 st = Fin b1 -> a_b2 st = Fin b2 -> a_eps st = Fin eps -> (0 <= b1)%Q /\ (b1 < 1)%Q -> (0 <= b2)%Q /\ (b2 < 1)%Q -> (0 < eps)%Q -> a_period st <> Some 0 ->
  (forall x, length x = length lower -> all_finite x -> exists g, grad x = Ok g /\ length g = length lower /\ all_finite g) ->
  exists y k m' v', adam_bounded root norm grad st lower upper x None None = Ok (y, k, m', v') /\ forall j, j < length lower -> within (1 # 100000000) lower upper y j.
Proof. exact adam_finite. Qed.
Print Assumptions C34_finite.
(* apart from the start the gradient is only asked for inside the box *)
Theorem C34_asks_inside : forall root norm grad grad' st lower upper x m v, box lower upper -> grad x = grad' x ->
  (forall y, length y = length lower -> (forall j, j < length lower -> nth_error y j = Some NaN \/ within (1 # 100000000) lower upper y j) -> grad y = grad' y) ->
  adam_bounded root norm grad st lower upper x m v = adam_bounded root norm grad' st lower upper x m v.
Proof. exact adam_agree. Qed.
Print Assumptions C34_asks_inside.

Definition toy_settings := mkAS None (Fin 0) 3 (Fin 1) (Fin (1 # 2)) (Fin (1 # 2)) (Fin (1 # 100)).
Definition push (d : fl) (x : arr) : res arr := Ok (map (fun _ => d) x).
Definition shortest (a : fl) : fl := match a with Fin q => Fin (Qred q) | a => a end.
Definition outcome (r : res (arr * nat * arr * arr)) : option (arr * nat) := match r with Ok (y, k, _, _) => Some (map shortest y, k) | Err _ => None end.
Lemma toy_box : box [Fin 0; Fin (-1)] [Fin 2; Fin 1].
Proof. split; [reflexivity|]. intros [|[|[|j]]] a b Ha Hb; cbn in Ha, Hb; try discriminate; injection Ha as <-; injection Hb as <-; do 2 eexists; (split; [reflexivity|split; [reflexivity|]]); lra. Qed.
Example C34_case : 
  outcome (adam_bounded (fun a => a) (fun _ => Fin 1) (push (Fin 1)) toy_settings [Fin 0; Fin (-1)] [Fin 2; Fin 1] [Fin 9; Fin 0] None None)
    = Some ([Fin (99999899 # 5050000000); Fin (-49999999 # 50000000)], 3) /\
  outcome (adam_bounded (fun a => a) (fun _ => Fin 1) (push (Fin 1)) (mkAS None (Fin 0) 0 (Fin 1) (Fin 0) (Fin 0) (Fin 0)) [Fin 0] [Fin 2] [Fin 9] None None) = Some ([Fin 9], 0).
Proof. split; vm_compute; reflexivity. Qed.
(* one gradient that is not a number, and the result is outside every bound *)
Theorem C34_nan_refuted : exists grad x, all_finite x /\ length x = 2 /\
  outcome (adam_bounded (fun a => a) (fun _ => Fin 1) grad toy_settings [Fin 0; Fin (-1)] [Fin 2; Fin 1] x None None) = Some ([NaN; NaN], 3).
Proof. exists (push NaN), [Fin 1; Fin 0]. split; [repeat constructor; eexists; reflexivity|]. split; vm_compute; reflexivity. Qed.
Print Assumptions C34_nan_refuted.

(** ** C35: score, vector and graph agree *)

(* [s] holds the parameters before the call, the objective was prepared for this graph, and the optimisers answer with vectors
   of as many entries as they were given; only the particle swarm has to report a true value.  Whatever is returned: the
   graph holds that vector in its free parameters, nothing else has changed, and the score is the one of the graph as it is now *)
Theorem C35_agreement : forall eval gradient lbfgs pso cma adam sort lucks rs rs_cheap kw g s X,
  wf g -> extract g s = Ok X -> unshared g s -> python_sort sort ->
  let n := length (x_params X) in
  (forall k x lo hi, length x = n -> sized n (lbfgs k x lo hi)) -> (forall a b lo hi, sized n (pso a b lo hi)) ->
  (forall x lo hi, length x = n -> sized n (cma x lo hi)) -> (forall k lo hi x, length x = n -> sized n (adam k lo hi x)) ->
  forall x0 m log w x sc, (forall v, x0 = Some v -> length v = n) ->
  (m = M_PSO -> honest (score_at eval g s) (pso 40 40 (x_lo X) (x_hi X))) ->
  parameters_optimize eval gradient lbfgs pso cma adam sort lucks rs rs_cheap kw g (x_models X) (x_index X) x0 m log s = (w, Ok (x, sc)) ->
  holds g (o_store w) x /\ eval (o_store w) = Ok sc /\ same_except_free g s (o_store w) /\ length x = n.
Proof. intros eval gradient lbfgs pso cma adam sort lucks rs rs_cheap kw g s X W E U So n S1 S2 S3 S4. exact (optimize_ok eval gradient lbfgs pso cma adam sort lucks rs rs_cheap kw g s X W E U So S1 S2 S3 S4). Qed.
Print Assumptions C35_agreement.
(* an unknown method with something to optimise *)
Theorem C35_unknown : forall eval gradient lbfgs pso cma adam sort lucks rs rs_cheap kw g fm fk x0 X log s,
  extract g s = Ok X -> x_params X <> [] -> (forall v, x0 = Some v -> length v = length (x_params X)) ->
  let r := parameters_optimize eval gradient lbfgs pso cma adam sort lucks rs rs_cheap kw g fm fk x0 M_Other log s in
  snd r = Err ModuleNotFoundError /\ o_store (fst r) = s.
Proof. exact optimize_unknown. Qed.
Print Assumptions C35_unknown.
(* nothing to optimise: every method, known or not, gives the graph's own score *)
Theorem C35_nothing_free : forall eval gradient lbfgs pso cma adam sort lucks rs rs_cheap kw g fm fk x0 X m log s,
  extract g s = Ok X -> x_params X = [] -> (forall v, x0 = Some v -> length v = length (x_params X)) ->
  let r := parameters_optimize eval gradient lbfgs pso cma adam sort lucks rs rs_cheap kw g fm fk x0 m log s in
  o_store (fst r) = s /\ snd r = (do sc <- eval s; Ok ([], sc)).
Proof. exact optimize_empty. Qed.
Print Assumptions C35_nothing_free.

(* the system of EvolverExamples with one free parameter, the laser power; the score is its distance from 1/50 *)
Definition g1 := w_graph whess.
Definition s1 := w_store whess.
Definition X1 := match extract g1 s1 with Ok X => X | Err _ => mkX [] [] [] [] [] [] [] [] end.
Definition toy_eval (s : store) : res fl :=
  do X <- extract g1 s; match x_params X with [Num q] => Ok (Fin (Qred (Qabs.Qabs (q - (1 # 50))))) | _ => Err TypeError end.
Definition toy_gradient (s : store) : res (list pval) := Ok [Num 1].
(* value at the start, gradient there, value at the lower bound, the better of the two *)
Definition toy_lbfgs (k : nat) (x lo hi : list pval) : strategy :=
  AskF x (fun v => AskG x (fun _ => AskF (firstn (length x) (lo ++ x)) (fun u => if fltb u v then Return (firstn (length x) (lo ++ x)) u else Return x v))).
Definition toy_pso (a b : nat) (lo hi : list pval) : strategy := AskF [Num (1 # 100)] (fun v => Return [Num (1 # 100)] v).
Definition lying_pso (a b : nat) (lo hi : list pval) : strategy := AskF [Num (1 # 100)] (fun v => Return [Num (1 # 100)] (Fin 0)).
Definition toy_cma (x lo hi : list pval) : strategy := AskF x (fun v => Return x v).
Definition toy_adam (k : nat) (lo hi x : list pval) : strategy := AskG x (fun d => Return (firstn (length x) (lo ++ x)) NaN).
Definition toy_rs (a b i : nat) : rnd := mkRnd (Z.of_nat (a + b) # 50) 0.
Definition toy_kw := mkOpt 4 4 2 1 5.
Definition toy_optimize pso := parameters_optimize toy_eval toy_gradient toy_lbfgs pso toy_cma toy_adam insertion toy_lucks toy_rs (toy_rs 9 9) toy_kw g1 (x_models X1) (x_index X1).
Definition view (r : OptimiseModel.world * res (list pval * fl)) : res (list Q * fl * list Q * res fl) :=
  match snd r with
  | Ok (x, sc) => Ok (map (fun p => match p with Num q => Qred q | _ => 0%Q end) x, shortest sc,
                      match extract g1 (o_store (fst r)) with Ok X => map (fun p => match p with Num q => Qred q | _ => 0%Q end) (x_params X) | Err _ => [] end,
                      toy_eval (o_store (fst r)))
  | Err e => Err e
  end.
Lemma toy_fits : wf g1 /\ unshared g1 s1 /\ extract g1 s1 = Ok X1 /\ length (x_params X1) = 1.
Proof.
  assert (B : init_graph small_nodes small_edges = Some g1) by (vm_compute; reflexivity).
  assert (ND : NoDup (map fst small_nodes)) by (simpl; repeat constructor; simpl; intuition discriminate).
  destruct (BuildProofs.new_healthy small_nodes small_edges 1 2 ND g1 B) as (w & E & _ & _ & _ & _ & _ & H).
  - apply EvolutionExamples.typedb_typed; [apply (proj1 (InitProofs.init_graph_some small_nodes small_edges g1 ND B))|vm_compute; reflexivity].
  - simpl; repeat constructor; simpl; intuition discriminate.
  - assert (w = EvolveSpec.with_hess whess None) as -> by (assert (Ok w = Ok (EvolveSpec.with_hess whess None)) as Q by (rewrite <- E; vm_compute; reflexivity); injection Q as ->; reflexivity).
    destruct H as ((W & _) & _ & U & _). split; [exact W|]. split; [exact U|]. split; vm_compute; reflexivity.
Qed.
Example C35_case : map (fun m => view (toy_optimize toy_pso None m false s1)) [M_LBFGS; M_NULL; M_LBFGS_PSO; M_LBFGS_GA; M_CHEAP; M_PSO; M_CMA; M_ADAM; M_GA; M_Other] =
  let ok q d := Ok ([q], Fin d, [q], Ok (Fin d)) in
  [ok (1 # 100000000) (1999999 # 100000000); ok (1 # 25) (1 # 50); ok (1 # 100) (1 # 100); ok (4000049 # 5000000000) (95999951 # 5000000000);
   ok (2250001 # 156250000) (874999 # 156250000); ok (1 # 100) (1 # 100); ok (1 # 25) (1 # 50); ok (1 # 100000000) (1999999 # 100000000);
   ok (4000001 # 200000000) (1 # 200000000); Err ModuleNotFoundError].
Proof. vm_compute. reflexivity. Qed.
(* the toy optimisers satisfy the hypotheses *)
Example C35_hypotheses : (forall k x lo hi, length x = 1 -> sized 1 (toy_lbfgs k x lo hi)) /\ (forall a b lo hi, sized 1 (toy_pso a b lo hi)) /\
  (forall x lo hi, length x = 1 -> sized 1 (toy_cma x lo hi)) /\ (forall k lo hi x, length x = 1 -> sized 1 (toy_adam k lo hi x)) /\ python_sort (@insertion pval) /\
  honest (score_at toy_eval g1 s1) (toy_pso 40 40 (x_lo X1) (x_hi X1)).
Proof.
  assert (F : forall (x lo : list pval), length x = 1 -> length (firstn (length x) (lo ++ x)) = 1) by (intros x lo L; rewrite firstn_length, app_length; lia).
  split; [intros k x lo hi L; cbn [sized toy_lbfgs]; split; [exact L|]; intros v; split; [exact L|]; intros _; split; [apply F; exact L|]; intros u; destruct (fltb u v); cbn [sized]; auto|].
  split; [intros; cbn; auto|]. split; [intros x lo hi L; cbn; auto|]. split; [intros k lo hi x L; cbn [toy_adam sized]; split; [exact L|]; intros _; apply F; exact L|]. split; [apply insertion_python|]. cbn [toy_pso honest]. auto.
Qed.
(* the particle swarm's own value is returned unchecked: it says 0, the graph scores 1/100 *)
Theorem C35_swarm_refuted : exists pso, (forall a b lo hi, sized 1 (pso a b lo hi)) /\
  view (toy_optimize pso None M_PSO false s1) = Ok ([1 # 100]%Q, Fin 0, [1 # 100]%Q, Ok (Fin (1 # 100))).
Proof. exists lying_pso. split; [intros; cbn; auto|vm_compute; reflexivity]. Qed.
Print Assumptions C35_swarm_refuted.

(** ** C36: the optimisation log *)

(* one algorithm with n scores per generation, on any logger whose clock runs: after any scores, row r (counted from the offset) is
   about generation r, and all other rows are as before *)
Theorem C36_rows : forall a n lg lg1 lg2 scores, 0 < n -> set_optimization_algorithm a (Z.of_nat n) lg = Ok lg1 ->
  (lg2 = start_logger_time lg1 \/ lg2 = lg1 /\ l_started lg = true) ->
  exists lg', log_all scores lg2 = Ok lg' /\
    (forall r, r * n < length scores -> exists w, row_at (l_off lg1 + Z.of_nat r)%Z (l_rows lg') = Some w /\ row_of a n r scores w) /\
    (forall k, (forall r, r * n < length scores -> k <> (l_off lg1 + Z.of_nat r)%Z) -> row_at k (l_rows lg') = row_at k (l_rows lg)).
Proof. exact rows_ok. Qed.
Print Assumptions C36_rows.
(* two algorithms, the first stopping at the end of a generation: the rows of both, one after the other, and no others *)
Theorem C36_two_algorithms : forall a b n m ss tt, 0 < n -> 0 < m -> a <> AlgOther -> b <> AlgOther -> length ss mod n = 0 ->
  exists lg lg', (do l1 <- set_optimization_algorithm a (Z.of_nat n) new_logger; log_all ss (start_logger_time l1)) = Ok lg /\
    (do l2 <- set_optimization_algorithm b (Z.of_nat m) lg; log_all tt l2) = Ok lg' /\
    (forall r, r * n < length ss -> exists w, row_at (Z.of_nat r) (l_rows lg') = Some w /\ row_of a n r ss w) /\
    (forall r, r * m < length tt -> exists w, row_at (Z.of_nat (length ss / n + r)) (l_rows lg') = Some w /\ row_of b m r tt w) /\
    (forall k w, row_at k (l_rows lg') = Some w -> exists r, k = Z.of_nat r /\ (r * n < length ss \/ length ss / n <= r /\ (r - length ss / n) * m < length tt)).
Proof. exact two_algorithms. Qed.
Print Assumptions C36_two_algorithms.
(* misuse: no algorithm set, no clock started, an empty population *)
Theorem C36_misuse : (forall x, log_score x new_logger = Err IndexError /\ log_score x (start_logger_time new_logger) = Err IndexError) /\
  (forall a n lg lg1 x, 0 < n -> set_optimization_algorithm a (Z.of_nat n) lg = Ok lg1 -> l_started lg = false -> log_score x lg1 = Err TypeError) /\
  (forall a lg lg1 x, set_optimization_algorithm a 0 lg = Ok lg1 -> log_score x lg1 = Err ZeroDivisionError /\ log_score x (start_logger_time lg1) = Err ZeroDivisionError /\
    forall b k, set_optimization_algorithm b k lg1 = Err ZeroDivisionError).
Proof. exact (conj log_unset (conj log_not_started log_empty_population)). Qed.
Print Assumptions C36_misuse.

Definition q (z : Z) : fl := Fin (inject_Z z).
Definition logged (runs : list (alg * Z * list fl)) : res logger :=
  fold_left (fun r t => do lg <- r; do l1 <- set_optimization_algorithm (fst (fst t)) (snd (fst t)) lg; log_all (snd t) (start_logger_time l1)) runs (Ok new_logger).
Definition table (r : res logger) : list (Z * (option alg * Z * fl * fl * fl)) :=
  match r with Ok lg => map (fun p => (fst p, (r_alg (snd p), r_gen (snd p), shortest (r_min (snd p)), shortest (r_mean (snd p)), shortest (r_max (snd p))))) (l_rows lg) | Err _ => [] end.
Example C36_case : table (logged [(PSO, 2%Z, [q 5; q 3; q 4; q 8]); (LBFGS, 1%Z, [q 2; q 1])]) =
  [(0, (Some PSO, 0, q 3, q 4, q 5)); (1, (Some PSO, 1, q 4, q 6, q 8)); (2, (Some LBFGS, 0, q 2, q 2, q 2)); (3, (Some LBFGS, 1, q 1, q 1, q 1))]%Z.
Proof. vm_compute. reflexivity. Qed.
(* a third algorithm writes over rows of the first two: their minimum 3 of PSO is gone *)
Theorem C36_third_algorithm_refuted : exists ss tt uu, length ss mod 2 = 0 /\
  row_at 1 (l_rows (match logged [(PSO, 2%Z, ss); (LBFGS, 1%Z, tt)] with Ok l => l | Err _ => new_logger end)) <>
  row_at 1 (l_rows (match logged [(PSO, 2%Z, ss); (LBFGS, 1%Z, tt); (ADAM, 1%Z, uu)] with Ok l => l | Err _ => new_logger end)).
Proof. exists [q 5; q 3; q 4; q 8], [q 2], [q 7]. split; [reflexivity|]. vm_compute. discriminate. Qed.
Print Assumptions C36_third_algorithm_refuted.
(* so does a second one if the first stopped within a generation *)
Theorem C36_partial_generation_refuted : exists ss tt,
  row_at 1 (l_rows (match logged [(PSO, 2%Z, ss)] with Ok l => l | Err _ => new_logger end)) <> None /\
  row_at 1 (l_rows (match logged [(PSO, 2%Z, ss); (LBFGS, 1%Z, tt)] with Ok l => l | Err _ => new_logger end)) <>
  row_at 1 (l_rows (match logged [(PSO, 2%Z, ss)] with Ok l => l | Err _ => new_logger end)).
Proof. exists [q 5; q 3; q 4], [q 2]. split; vm_compute; discriminate. Qed.
Print Assumptions C36_partial_generation_refuted.
(* the mean of an unfinished generation counts the missing scores as 0 *)
Theorem C36_mean_refuted : exists x, table (logged [(PSO, 2%Z, [x])]) = [(0, (Some PSO, 0, q 4, q 2, q 4))]%Z.
Proof. exists (q 4). vm_compute. reflexivity. Qed.
Print Assumptions C36_mean_refuted.
(* a score that is not a number hides the smaller ones before it *)
Theorem C36_nan_refuted : exists ss, In (q 1) ss /\ map (fun p => (fst p, fst (fst (snd p)))) (table (logged [(PSO, 3%Z, ss)])) = [(0, (Some PSO, 0, q 2))]%Z.
Proof. exists [q 1; NaN; q 2]. split; [left; reflexivity|]. vm_compute. reflexivity. Qed.
Print Assumptions C36_nan_refuted.

(** ** C50: logging does not change the optimisation *)

Theorem C50_same : forall eval gradient lbfgs pso cma adam sort lucks rs rs_cheap kw g fm fk x0 m s, m <> M_CHEAP -> m <> M_CMA -> 0 < k_swarm kw -> 0 < k_pop kw ->
  let go log := parameters_optimize eval gradient lbfgs pso cma adam sort lucks rs rs_cheap kw g fm fk x0 m log s in
  snd (go true) = snd (go false) /\ o_store (fst (go true)) = o_store (fst (go false)).
Proof. exact log_same. Qed.
Print Assumptions C50_same.
(* the two exceptions: CMA hands its candidates over as population size, CHEAP never starts the clock *)
Theorem C50_cma : forall eval gradient lbfgs pso cma adam sort lucks rs rs_cheap kw g fm fk x0 X s, extract g s = Ok X ->
  match x0 with Some v => v | None => x_params X end <> [] ->
  parameters_optimize eval gradient lbfgs pso cma adam sort lucks rs rs_cheap kw g fm fk x0 M_CMA true s = (OptimiseModel.mkWorld s (Some new_logger), Err TypeError).
Proof. exact log_cma. Qed.
Print Assumptions C50_cma.
Theorem C50_cheap : forall eval gradient lbfgs pso cma adam sort lucks rs rs_cheap kw g fm fk x0 X s s1 X1 y k s2 sc, extract g s = Ok X ->
  match x0 with Some v => v | None => x_params X end <> [] ->
  sample_parameters Uniform g s rs_cheap = Ok s1 -> extract g s1 = Ok X1 -> lbfgs 5 (x_params X1) (x_lo X1) (x_hi X1) = AskF y k ->
  distribute y fm fk s1 = Ok s2 -> eval s2 = Ok sc ->
  snd (parameters_optimize eval gradient lbfgs pso cma adam sort lucks rs rs_cheap kw g fm fk x0 M_CHEAP true s) = Err TypeError.
Proof. exact log_cheap. Qed.
Print Assumptions C50_cheap.
Example C50_case : map (fun m => match view (toy_optimize toy_pso None m true s1), view (toy_optimize toy_pso None m false s1) with
    | Ok (_, a, _, _), Ok (_, b, _, _) => Ok (a, b) | Err e, _ => Err e | _, Err e => Err e end) [M_LBFGS; M_LBFGS_PSO; M_LBFGS_GA; M_PSO; M_ADAM; M_CHEAP; M_CMA] =
  [Ok (Fin (1999999 # 100000000), Fin (1999999 # 100000000)); Ok (Fin (1 # 100), Fin (1 # 100)); Ok (Fin (95999951 # 5000000000), Fin (95999951 # 5000000000)); Ok (Fin (1 # 100), Fin (1 # 100));
   Ok (Fin (1999999 # 100000000), Fin (1999999 # 100000000)); Err TypeError; Err TypeError] /\
  view (toy_optimize toy_pso None M_CHEAP false s1) = Ok ([2250001 # 156250000]%Q, Fin (874999 # 156250000), [2250001 # 156250000]%Q, Ok (Fin (874999 # 156250000))).
Proof. split; vm_compute; reflexivity. Qed.
