(** C89: the scaled matrix of second derivatives and the local analysis. *)
From Coq Require Import Reals Lra List Arith Bool Lia ZArith Permutation.
From Verif Require Import Base GraphModel GraphSpec GraphProofs OperatorsModel OperatorsSpec InitSpec ParamsModel ParamsSpec ParamsProofs EvolverModel EvolverSpec EvolveSpec BuildProofs OpticsSessionProofs
  EvolutionExamples EvolverExamples Complex LocalModel LocalSpec LocalProofs.
Import ListNotations.
Local Open Scope nat_scope.
Local Open Scope R_scope.

(** Every graph that a session reaches has an imprecision for each of its free parameters, in the order
    in which the parameters are extracted, and all of them are positive. *)
Theorem C89_scales : forall L ops nodes edges cur parent g w0 w, lib_ok L -> NoDup ops -> NoDup (map fst nodes) ->
  NoDup (map (fun p => cid (snd p)) nodes ++ map (fun p => cid (snd p)) edges) ->
  init_graph nodes edges = Some g -> typed g -> new_world nodes edges cur parent = Ok w0 -> session L ops w0 w ->
  exists x u, extract (w_graph w) (w_store w) = Ok x /\ scales (w_graph w) (w_store w) = Ok u /\
    lined (w_store w) (components (w_graph w)) (x_models x) (x_index x) u /\ (forall a, In a u -> 0 < a).
Proof.
  intros L ops nodes edges cur parent g w0 w LO OND ND DO Hi T Hw Hs.
  destruct (new_healthy_gen nodes edges cur parent ND g Hi T DO) as (w1 & H1 & H2 & _ & _ & _ & _ & H7 & H8). assert (w1 = w0) by congruence; subst w1.
  pose proof (new_kept nodes edges cur parent g w0 ND Hi T DO Hw) as K0.
  destruct (session_gen L ops w0 w LO OND Hs H7 H8) as (((W & A & T' & Rd & Wi) & D & _) & _ & _).
  pose proof (session_kept L ops w0 w LO OND Hs H7 H8 K0) as K. destruct (extract_total _ _ W Rd) as (x & Ex). destruct (scales_ok _ _ W K) as (u & Eu & Pu).
  exists x, u. split; [exact Ex|]. split; [exact Eu|]. split; [exact (scales_lined _ _ _ _ W Ex Eu)|exact Pu].
Qed.
Print Assumptions C89_scales.
(* a splitter, a laser, a phase modulator and a wave shaper *)
Example C89_scales_case : session default_library evo_op_list w0 w0 /\
  scales (w_graph w0) (w_store w0) = Ok ([sci 5 (-2); sci 1 (-6); sci 2 (-3); sci 1 5; sci 1 (-2)] ++ repeat (sci 1 (-1)) 15 ++ repeat (sci 1 (-1) * 2 * PI) 15) /\
  exists x, extract (w_graph w0) (w_store w0) = Ok x /\ firstn 6 (x_models x) = [102; 104; 105; 105; 105; 106]%nat /\ firstn 6 (x_index x) = [0; 0; 0; 1; 2; 0]%nat.
Proof.
  split; [constructor|]. split; [lazy -[sci PI Rmult]; reflexivity|]. eexists. split; [vm_compute; reflexivity|]. split; reflexivity.
Qed.

(** The scaled matrix has at i, j the entry of the matrix times the imprecisions of parameters i and j;
    it is 0, positive or negative where the matrix is. *)
Theorem C89_scaled : forall hess g s x u h, scales g s = Ok u -> (forall a, In a u -> 0 < a) -> hess x = Ok h -> square_matrix (length u) h ->
  exists sh, scaled_hess hess g s x = Ok sh /\ square_matrix (length u) sh /\
    forall i j, (i < length u)%nat -> (j < length u)%nat ->
      entry sh i j = nth i u 0 * nth j u 0 * entry h i j /\
      (entry sh i j = 0 <-> entry h i j = 0) /\ (0 < entry sh i j <-> 0 < entry h i j) /\ (entry sh i j = entry sh j i <-> entry h i j = entry h j i).
Proof.
  intros hess g s x u h Eu Pu Eh Sq. destruct (scaled_spec hess g s x u h Eu Eh Sq) as (sh & E & S & En). exists sh. split; [exact E|]. split; [exact S|]. intros i j Hi Hj.
  rewrite (En i j Hi Hj), (En j i Hj Hi). split; [reflexivity|].
  assert (P : 0 < nth i u 0 * nth j u 0) by (apply Rmult_lt_0_compat; apply Pu; apply nth_In; assumption).
  set (k := nth i u 0 * nth j u 0) in *. replace (nth j u 0 * nth i u 0) with k by (unfold k; ring). split; [|split].
  - split; [intros H; apply Rmult_integral in H; destruct H as [H|H]; [lra|exact H]|intros ->; ring].
  - split; [intros H|intros H; apply Rmult_lt_0_compat; assumption]. apply (Rmult_lt_reg_l k); [exact P|]. rewrite Rmult_0_r. exact H.
  - split; [intros H; apply (Rmult_eq_reg_l k); [exact H|lra]|intros ->; reflexivity].
Qed.
Print Assumptions C89_scaled.
Definition h_35 : list (list R) := repeat (repeat 1 35) 35.
Example C89_scaled_case : exists sh, scaled_hess (fun _ => Ok h_35) (w_graph w0) (w_store w0) [] = Ok sh /\ entry sh 0 2 = sci 5 (-2) * sci 2 (-3) * 1 /\ entry sh 3 3 = sci 1 5 * sci 1 5 * 1.
Proof.
  destruct C89_scales_case as (S & E & _).
  destruct (C89_scales default_library evo_op_list nodes0 edges0 1 2 g0 w0 w0 default_lib_ok ops_nodup nodes0_nodup objects0_nodup g0_built g0_typed w0_built S) as (x & u & _ & Eu & _ & Pu).
  rewrite E in Eu. injection Eu as <-.
  destruct (C89_scaled (fun _ => Ok h_35) (w_graph w0) (w_store w0) [] _ h_35 E Pu eq_refl) as (sh & Esh & _ & En).
  { split; [reflexivity|]. intros r H. unfold h_35 in H. apply repeat_spec in H. subst r. reflexivity. }
  exists sh. split; [exact Esh|]. split; [exact (proj1 (En 0%nat 2%nat ltac:(cbn; lia) ltac:(cbn; lia)))|exact (proj1 (En 3%nat 3%nat ltac:(cbn; lia) ltac:(cbn; lia)))].
Qed.

(** These are the second derivatives of the score in steps of the imprecisions. *)
Theorem C89_units : forall f x u i j d, second_derivative f x i j d ->
  second_derivative (fun y => f (fun k => x k + u k * y k)) (fun _ => 0) i j (u i * u j * d).
Proof. exact units. Qed.
Print Assumptions C89_units.
(* f(x) = x0 x1 at (2, 3) *)
Example C89_units_case : let f := fun x : nat -> R => x 0%nat * x 1%nat in let x := fun k => match k with 0%nat => 2 | _ => 3 end in
  second_derivative f x 0 1 1 /\ second_derivative (fun y => f (fun k => x k + (match k with 0%nat => 5 | _ => 7 end) * y k)) (fun _ => 0) 0 1 35.
Proof.
  assert (S : second_derivative (fun x : nat -> R => x 0%nat * x 1%nat) (fun k => match k with 0%nat => 2 | _ => 3 end) 0 1 1).
  { exists (fun z => z 1%nat). split.
    - intros z. unfold upd. cbn [Nat.eqb]. pose proof (derivable_pt_lim_mult id (fct_cte (z 1%nat)) (z 0%nat) 1 0 (derivable_pt_lim_id _) (derivable_pt_lim_const _ _)) as D.
      replace (1 * fct_cte (z 1%nat) (z 0%nat) + id (z 0%nat) * 0) with (z 1%nat) in D by (unfold fct_cte, id; ring). exact D.
    - unfold upd. cbn [Nat.eqb]. exact (derivable_pt_lim_id 3). }
  split; [exact S|]. pose proof (C89_units _ _ (fun k => match k with 0%nat => 5 | _ => 7 end) 0 1 1 S) as H. cbn beta iota in H. replace (5 * 7 * 1) with 35 in H by ring. exact H.
Qed.

(** The local analysis returns the diagonal, the matrix, and the eigenvalues sorted by magnitude, each
    with its eigenvector in the same column.  It warns exactly when two entries that should be equal
    differ by more than 1e-5, and the number in the warning is the largest such difference. *)
Theorem C89_analysis : forall eig argsort hess x h values vectors n, (0 < n)%nat -> hess x = Ok h -> square_matrix n h ->
  eig h = Ok (values, vectors) -> eigenpairs n h values vectors -> sorts (argsort (map Cabs values)) (map Cabs values) ->
  exists a, lha_analysis eig argsort hess x = Ok a /\ a_matrix a = h /\
    (length (a_diagonal a) = n /\ forall i, (i < n)%nat -> nth i (a_diagonal a) 0 = entry h i i) /\
    eigenpairs n h (a_values a) (a_vectors a) /\
    (forall k m, (k < m < n)%nat -> Cabs (nth k (a_values a) C0) <= Cabs (nth m (a_values a) C0)) /\
    (exists p, Permutation p (seq 0 n) /\ forall k, (k < n)%nat -> nth k (a_values a) C0 = nth (nth k p 0%nat) values C0 /\ column (a_vectors a) k = column vectors (nth k p 0%nat)) /\
    (a_warning a = None <-> forall i j, (i < n)%nat -> (j < n)%nat -> Rabs (entry h i j - entry h j i) <= 1 / 100000) /\
    (forall m, a_warning a = Some m ->
       (exists i j, (i < n)%nat /\ (j < n)%nat /\ m = Rabs (entry h i j - entry h j i)) /\ forall i j, (i < n)%nat -> (j < n)%nat -> Rabs (entry h i j - entry h j i) <= m).
Proof.
  intros eig argsort hess x h values vectors n Pn Eh Sq Ee Eg So.
  destruct (analysis_spec eig argsort hess x h values vectors n Pn Eh Sq Ee Eg So) as (a & Ea & A1 & A2 & A3 & A4 & A5 & A6 & A7 & A8).
  exists a. split; [exact Ea|]. split; [exact A1|]. split; [exact A3|]. split; [exact (conj A4 (conj A5 A6))|]. split; [exact A7|]. split; [exact A8|].
  destruct (asymmetry_max h) as (m & Em & M1 & i0 & j0 & Hi & Hj & M2). { destruct Sq as [L _]. intros ->. cbn in L. lia. }
  rewrite (proj1 Sq) in M1, Hi, Hj. rewrite (A2 m Em).
  assert (S5 : sci 1 (-5) = 1 / 100000) by (unfold sci; change (powerRZ 10 (-5)) with (/ (10 ^ 5)); unfold pow; field). rewrite S5.
  destruct (Rlt_dec (1 / 100000) m) as [Lt|Ge].
  - split; [split; [discriminate|]|].
    + intros H. specialize (H i0 j0 Hi Hj). exfalso. lra.
    + intros q E. injection E as <-. split; [exists i0, j0; auto|exact M1].
  - split; [split; [intros _ i j I J; specialize (M1 i j I J); lra|reflexivity]|]. discriminate.
Qed.
Print Assumptions C89_analysis.
(** Without parameters there is nothing to analyse. *)
Theorem C89_no_parameters : forall eig argsort hess x, hess x = Ok [] -> lha_analysis eig argsort hess x = Err ValueError.
Proof. intros eig argsort hess x E. unfold lha_analysis. rewrite E. reflexivity. Qed.
Print Assumptions C89_no_parameters.

(* a matrix with eigenvalues 2 and 1 *)
Definition h_e : list (list R) := [[41/25; -(12/25)]; [-(12/25); 34/25]].
Definition values_e : list C := [RtoC 2; RtoC 1].
Definition vectors_e : list (list C) := [[RtoC (-(4/5)); RtoC (3/5)]; [RtoC (3/5); RtoC (4/5)]].
Lemma h_e_square : square_matrix 2 h_e.
Proof. split; [reflexivity|]. intros r [<-|[<-|[]]]; reflexivity. Qed.
Lemma pair_eq : forall a b : C, re a = re b -> im a = im b -> a = b.
Proof. intros [a b] [c d] H K. cbn in H, K. subst. reflexivity. Qed.
Lemma h_e_pairs : eigenpairs 2 h_e values_e vectors_e.
Proof.
  split; [reflexivity|]. split; [split; [reflexivity|]; intros r [<-|[<-|[]]]; reflexivity|].
  intros [|[|k]] Hk; [| |lia]; (split; [reflexivity|]); intros [|[|i]] Hi; try (cbn in Hi; lia); apply pair_eq; cbn; lra.
Qed.
Lemma Cabs_real : forall a, 0 <= a -> Cabs (RtoC a) = a.
Proof. intros a H. unfold Cabs, Cnorm2, RtoC, re, im. cbn [fst snd]. replace (a * a + 0 * 0) with (a * a) by ring. apply sqrt_square. exact H. Qed.
Lemma h_e_sorts : sorts [1; 0]%nat (map Cabs values_e).
Proof.
  unfold values_e. cbn [map]. rewrite !Cabs_real by lra. split; [apply perm_swap|]. intros [|a] [|[|b]] H; cbn in H; try lia. cbn. lra.
Qed.
Example C89_analysis_case : lha_analysis (fun _ => Ok (values_e, vectors_e)) (fun _ => [1; 0]%nat) (fun _ => Ok h_e) [] =
  Ok (mkA None [41/25; 34/25] h_e [RtoC 1; RtoC 2] [[RtoC (3/5); RtoC (-(4/5))]; [RtoC (4/5); RtoC (3/5)]]).
Proof.
  destruct (C89_analysis (fun _ => Ok (values_e, vectors_e)) (fun _ => [1; 0]%nat) (fun _ => Ok h_e) [] h_e values_e vectors_e 2 ltac:(lia) eq_refl h_e_square eq_refl h_e_pairs h_e_sorts) as (a & Ea & _ & _ & _ & _ & _ & Wn & _).
  assert (N : a_warning a = None). { apply Wn. intros [|[|i]] [|[|j]] Hi Hj; try lia; cbn; unfold Rminus; rewrite ?Rplus_opp_r, Rabs_R0; lra. }
  rewrite Ea. f_equal. unfold lha_analysis in Ea. cbn [bind] in Ea. destruct (amax (asymmetry h_e)) as [m|]; [|discriminate Ea]. cbn [bind take map_res at_ nth_error of_option values_e vectors_e] in Ea.
  injection Ea as <-. cbn [a_warning] in N. rewrite N. reflexivity.
Qed.

(** The plot of the eigenvectors draws the rows of their matrix: there are a matrix and its
    eigenvectors for which a drawn line is no eigenvector at all. *)
Theorem C89_stems_refuted : exists n h values vectors lines v a, square_matrix n h /\ (forall i j, (i < n)%nat -> (j < n)%nat -> entry h i j = entry h j i) /\
  eigenpairs n h values vectors /\ stems n vectors values = Ok lines /\ In (v, a) lines /\ forall b, ~ eigenpair h b v.
Proof.
  exists 2%nat, h_e, [RtoC 1; RtoC 2], [[RtoC (3/5); RtoC (-(4/5))]; [RtoC (4/5); RtoC (3/5)]]. eexists. exists [RtoC (3/5); RtoC (-(4/5))], (RtoC 1). split; [exact h_e_square|].
  split; [intros [|[|i]] [|[|j]] Hi Hj; try lia; reflexivity|]. split.
  - split; [reflexivity|]. split; [split; [reflexivity|]; intros r [<-|[<-|[]]]; reflexivity|].
    intros [|[|k]] Hk; [| |lia]; (split; [reflexivity|]); intros [|[|i]] Hi; try (cbn in Hi; lia); apply pair_eq; cbn; lra.
  - split; [reflexivity|]. split; [left; reflexivity|]. intros [br bi] [_ H]. pose proof (f_equal re (H 0%nat ltac:(cbn; lia))) as H0. pose proof (f_equal re (H 1%nat ltac:(cbn; lia))) as H1. cbn in H0, H1. lra.
Qed.
Print Assumptions C89_stems_refuted.

(** The part of a matrix for some indices exists exactly if they are indices of it, and has their
    entries.  A binarized matrix has a 1 where the magnitude is above the threshold, else a 0. *)
Theorem C89_part : forall h inds n, square_matrix n h ->
  ((exists p, partial_hessian h inds = Ok p) <-> forall i, In i inds -> (i < n)%nat) /\
  forall p, partial_hessian h inds = Ok p -> square_matrix (length inds) p /\
    forall a b, (a < length inds)%nat -> (b < length inds)%nat -> entry p a b = entry h (nth a inds 0%nat) (nth b inds 0%nat).
Proof.
  intros h inds n Sq. split; [split|].
  - intros (p & E). exact (partial_only h inds n p Sq E).
  - intros H. destruct (partial_spec h inds n Sq H) as (p & E & _). exists p. exact E.
  - intros p E. destruct (partial_spec h inds n Sq (partial_only h inds n p Sq E)) as (q & Eq & R). replace p with q by congruence. exact R.
Qed.
Print Assumptions C89_part.
Theorem C89_binarized : forall h t n, square_matrix n h -> square_matrix n (binarize h t) /\
  forall i j, (i < n)%nat -> (j < n)%nat -> (entry (binarize h t) i j = 1 /\ t < Rabs (entry h i j)) \/ (entry (binarize h t) i j = 0 /\ Rabs (entry h i j) <= t).
Proof. exact binarize_spec. Qed.
Print Assumptions C89_binarized.
Example C89_part_case : partial_hessian [[1; 2; 3]; [4; 5; 6]; [7; 8; 9]] [2; 0]%nat = Ok [[9; 7]; [3; 1]] /\ partial_hessian [[1; 2; 3]; [4; 5; 6]; [7; 8; 9]] [3]%nat = Err IndexError /\
  binarize [[1; -8]; [5; 9]] 5 = [[0; 1]; [0; 1]].
Proof.
  split; [reflexivity|]. split; [reflexivity|]. unfold binarize. cbn [map].
  repeat match goal with |- context [Rlt_dec 5 (Rabs ?a)] => let L := fresh in destruct (Rlt_dec 5 (Rabs a)) as [L|L]; unfold Rabs in L; destruct (Rcase_abs a) in L; try lra end. reflexivity.
Qed.

(** Asked for the part of nodes or edges, partial_hessian_node finds no parameter of them: the part is
    empty, whatever the matrix, the graph and the nodes.  Asked for components, it gives theirs. *)
Theorem C89_node_part_empty : forall A h g s (names : res (list A)) nodes r, (forall v, In v nodes -> exists pl, v = APlace pl) ->
  partial_hessian_node h g s names nodes = Ok r -> r = ([], []).
Proof.
  intros A h g s names nodes r N E. unfold partial_hessian_node in E. apply bind_ok in E. destruct E as (x & _ & E). rewrite none_selected in E by exact N. apply bind_ok in E. destruct E as (ns & _ & E). cbn in E. congruence.
Qed.
Print Assumptions C89_node_part_empty.
Theorem C89_component_part : forall A h g s x (names : list A) i, extract g s = Ok x -> square_matrix (length (x_models x)) h -> length names = length (x_models x) ->
  exists inds p ns, partial_hessian_node h g s (Ok names) [AModel i] = Ok (p, ns) /\ (forall k, In k inds <-> nth_error (x_models x) k = Some i) /\ NoDup inds /\
    square_matrix (length inds) p /\ length ns = length inds /\
    (forall a, (a < length inds)%nat -> nth_error ns a = nth_error names (nth a inds 0%nat)) /\
    forall a b, (a < length inds)%nat -> (b < length inds)%nat -> entry p a b = entry h (nth a inds 0%nat) (nth b inds 0%nat).
Proof.
  intros A h g s x names i Ex Sq Ln. set (inds := filter (fun k => existsb (value_eqb (AModel (nth k (x_models x) 0%nat))) [AModel i]) (seq 0 (length (x_models x)))).
  assert (Hi : forall k, In k inds <-> nth_error (x_models x) k = Some i).
  { intros k. unfold inds. rewrite filter_In, in_seq. cbn [existsb value_eqb]. rewrite orb_false_r, Nat.eqb_eq. split.
    - intros [[_ L] <-]. apply nth_error_nth'. exact L.
    - intros H. split; [assert (k < length (x_models x))%nat by (apply nth_error_Some; congruence); lia|]. apply nth_error_nth. exact H. }
  assert (Lt : forall k, In k inds -> (k < length (x_models x))%nat) by (intros k H; apply Hi in H; apply nth_error_Some; congruence).
  destruct (partial_spec h inds _ Sq Lt) as (p & Ep & Sp & Np). destruct (take_ok names inds) as (ns & En); [intros k H; rewrite Ln; exact (Lt k H)|].
  exists inds, p, ns. unfold partial_hessian_node. rewrite Ex. cbn [bind]. fold inds. rewrite En. cbn [bind]. rewrite Ep. cbn [bind]. split; [reflexivity|]. split; [exact Hi|]. split; [apply NoDup_filter, seq_NoDup|]. split; [exact Sp|].
  pose proof (fun d => take_nth names inds ns d En) as T. split; [destruct names as [|d0 names']; [destruct inds as [|k inds']; [cbn in En; injection En as <-; reflexivity|exfalso; specialize (Lt k (or_introl eq_refl)); rewrite <- Ln in Lt; cbn in Lt; lia]|exact (proj1 (T d0))]|]. split; [|exact Np].
  intros a Ha. assert (Hk : (nth a inds 0 < length names)%nat) by (rewrite Ln; apply Lt, nth_In; exact Ha). destruct names as [|d0 names']; [cbn in Hk; lia|]. destruct (T d0) as (L1 & _ & N1).
  rewrite (nth_error_nth' ns d0) by (rewrite L1; exact Ha). rewrite (N1 a Ha). symmetry. apply nth_error_nth'. exact Hk.
Qed.
Print Assumptions C89_component_part.
Example C89_node_part_case : partial_hessian_node h_35 (w_graph w0) (w_store w0) (Ok (seq 0 35)) [APlace (PNode 1); APlace (PEdge (1, 2, 0)%nat)] = Ok ([], []) /\
  partial_hessian_node h_35 (w_graph w0) (w_store w0) (Ok (seq 0 35)) [AModel 105] = Ok (repeat (repeat 1 3) 3, [2; 3; 4]%nat).
Proof. split; lazy -[IZR]; reflexivity. Qed.
