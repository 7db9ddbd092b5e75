(** C93: what the sensitivity panel of the interactive viewer shows. *)
From Coq Require Import Reals Lra List Arith Bool Lia ZArith String.
From Verif Require Import Base GraphModel GraphSpec ParamsModel ParamsSpec EvolverModel SaveModel SaveSpec SaveProperties Complex LocalModel LocalSpec LocalProperties
  EvolutionExamples EvolverExamples ViewerModel ViewerSpec SensitivityModel SensitivitySpec SensitivityProofs.
Import ListNotations.
Local Open Scope nat_scope.
Local Open Scope list_scope.

(** Every graph that was saved and loaded can be labelled. *)
Theorem C93_loaded : forall g st next, savable g st -> g_nodes g <> [] -> loadable g -> unused_from next st -> complete g st ->
  exists g' st' x t, save_and_load g st next = Ok (g', st') /\ wf g' /\ as_made g' st' /\ extract g' st' = Ok x /\ labels g' st' = Ok t.
Proof.
  intros g st next (W & A & Gr & Cn & B & Sz) Nn Lo Un Cp. destruct (C14_round_trip g st next W A Gr Cn Nn B Lo Un) as (f & _ & _ & K & _). destruct (K Sz) as (g' & st' & El & W' & _ & _ & _ & Nm & Em & _).
  pose proof (loaded_made g st g' st' f W W' Cn B Sz Cp Nm Em) as M. destruct (made_extract g' st' W' M) as (x & Ex). destruct (labels_ok g' st' W' M) as (t & Et). exists g', st', x, t. auto.
Qed.
Print Assumptions C93_loaded.

(** There is one label for each free parameter, in the order of the parameters, and it names that parameter
    and its component. *)
Theorem C93_labels : forall g s x t, extract g s = Ok x -> labels g s = Ok t ->
  List.length (x_params x) = List.length t /\ List.length (x_models x) = List.length t /\ List.length (x_index x) = List.length t /\
  Forall2 (fun p text => names_it g s (fst p) (snd p) text) (combine (x_models x) (x_index x)) t.
Proof. exact labels_lined. Qed.
Print Assumptions C93_labels.

(** The labels are different unless the graph has delay lines of both kinds. *)
Theorem C93_distinct : forall g s t, wf g -> as_made g s -> labels g s = Ok t -> (NoDup t <-> ~ (In DelayLine (classes g) /\ In IntegratedDelayLine (classes g))).
Proof. exact labels_distinct. Qed.
Print Assumptions C93_distinct.

(** The matrix is drawn as it is written: row r is the r-th from the top, column c the c-th from the left,
    and each square carries its own entry and the labels of its column and row. *)
Theorem C93_squares : forall hess g s x t h n, extract g s = Ok x -> labels g s = Ok t -> hess (x_params x) = Ok h -> List.length t = n -> square_matrix n h ->
  exists d m, update_hessian_data hess g s = Ok d /\ d_hess d = h /\ heatmap_of (Some d) = Ok m /\
    List.length (m_x m) = n * n /\ List.length (m_y m) = n * n /\ List.length (m_value m) = n * n /\ List.length (m_log m) = n * n /\ List.length (m_xname m) = n * n /\ List.length (m_yname m) = n * n /\
    forall r c, r < n -> c < n ->
      nth_error (m_x m) (r * n + c) = Some c /\ nth_error (m_y m) (r * n + c) = Some (n - 1 - r) /\
      nth_error (m_value m) (r * n + c) = Some (LocalModel.entry h r c) /\ nth_error (m_log m) (r * n + c) = Some (1 + Rabs (LocalModel.entry h r c))%R /\
      nth_error (m_xname m) (r * n + c) = nth_error t c /\ nth_error (m_yname m) (r * n + c) = nth_error t r.
Proof. exact squares. Qed.
Print Assumptions C93_squares.

(** Each bar shows one entry of one eigenvector, with its eigenvalue and the label of its parameter. *)
Theorem C93_bars : forall {K} (cmap : R -> K) eig hess g s x t h n values vectors, extract g s = Ok x -> labels g s = Ok t -> hess (x_params x) = Ok h -> List.length t = n -> square_matrix n h ->
  eig h = Ok (values, vectors) -> eigenpairs n h values vectors ->
  exists d p, update_hessian_data hess g s = Ok d /\ add_lha_eigenvectors cmap eig (Some d) = Ok p /\
    List.length (e_bars p) = n * n /\ List.length (e_names p) = n * n /\ List.length (e_boxes p) = n /\
    (forall i, i < n -> exists b, nth_error (e_boxes p) i = Some b /\ x_value b = nth i values C0 /\ (x_bottom b = 2 * INR i - 95 / 100 /\ x_top b = 2 * INR i + 95 / 100)%R) /\
    (forall k b, nth_error (e_bars p) k = Some b -> (r_top b = Cadd (RtoC (r_bottom b)) (r_weight b))%R) /\
    forall i, i < n -> exists v, eigenpair h (nth i values C0) v /\
      forall j, j < n -> exists b, nth_error (e_bars p) (i * n + j) = Some b /\ r_x b = j /\ r_bottom b = (2 * INR i)%R /\
        nth_error v j = Some (r_weight b) /\ r_value b = nth i values C0 /\ r_color b = cmap (INR i / INR n)%R /\ nth_error (e_names p) (i * n + j) = nth_error t j.
Proof.
  intros K cmap eig hess g s x t h n values vectors Ex Et Eh Lt Sq Ee (Lv & Sv & Pr). destruct (bars cmap eig hess g s x t h n values vectors Ex Et Eh Lt Sq Ee Lv Sv) as (d & p & Ed & Ep & L1 & L2 & L3 & _ & _ & Bx & Br).
  exists d, p. repeat (split; [assumption|]). split; [|split].
  - intros i Hi. eexists. split; [exact (Bx i Hi)|]. cbn [x_value x_bottom x_top]. auto.
  - intros k b Hk. assert (Lk : k < n * n) by (rewrite <- L1; apply nth_error_Some; congruence). assert (Nn : n <> 0) by lia.
    pose proof (Nat.div_mod k n Nn) as Dk. pose proof (Nat.mod_upper_bound k n Nn) as Mk. assert (Qk : k / n < n) by (apply Nat.div_lt_upper_bound; lia).
    replace k with (k / n * n + k mod n) in Hk by lia. rewrite (proj1 (Br (k / n) (k mod n) Qk Mk)) in Hk. injection Hk as <-. reflexivity.
  - intros i Hi. exists (column vectors i). split; [exact (Pr i Hi)|]. intros j Hj. destruct (Br i j Hi Hj) as [B1 B2]. eexists. split; [exact B1|]. cbn [r_x r_bottom r_weight r_value r_color].
    split; [reflexivity|]. split; [reflexivity|]. split; [apply nth_error_nth'; unfold column; rewrite map_length, (proj1 Sv); exact Hj|]. split; [reflexivity|]. split; [reflexivity|exact B2].
Qed.
Print Assumptions C93_bars.

(** With vectors of length 1 the bars of different vectors do not overlap.  Up to three parameters all bars
    are inside the range shown; from six parameters on all bars of the last vector are above it. *)
Theorem C93_frame : forall {K} (cmap : R -> K) eig hess g s x t h n values vectors d p, extract g s = Ok x -> labels g s = Ok t -> hess (x_params x) = Ok h -> List.length t = n -> square_matrix n h ->
  eig h = Ok (values, vectors) -> eigenpairs n h values vectors -> unit_entries vectors -> update_hessian_data hess g s = Ok d -> add_lha_eigenvectors cmap eig (Some d) = Ok p ->
  (forall i i' j j' b b', i < i' -> i' < n -> j < n -> j' < n -> nth_error (e_bars p) (i * n + j) = Some b -> nth_error (e_bars p) (i' * n + j') = Some b' -> (high b <= low b')%R) /\
  (forall b, In b (e_bars p) -> (fst (e_xrange p) < INR (r_x b) < snd (e_xrange p))%R) /\
  (n <= 3 -> forall b, In b (e_bars p) -> inside b (e_yrange p)) /\
  (6 <= n -> forall j, j < n -> exists b, nth_error (e_bars p) ((n - 1) * n + j) = Some b /\ (snd (e_yrange p) < low b)%R).
Proof.
  intros K cmap eig hess g s x t h n values vectors d p Ex Et Eh Lt Sq Ee (Lv & Sv & Pr) U Ed Ep.
  destruct (bars cmap eig hess g s x t h n values vectors Ex Et Eh Lt Sq Ee Lv Sv) as (d' & p' & Ed' & Ep' & L1 & _ & _ & Xr & Yr & _ & Br). rewrite Ed in Ed'. injection Ed' as <-. rewrite Ep in Ep'. injection Ep' as <-. rewrite Xr, Yr. cbn [fst snd].
  assert (Pl : forall i j b, i < n -> j < n -> nth_error (e_bars p) (i * n + j) = Some b -> r_x b = j /\ (2 * INR i - 1 <= low b /\ high b <= 2 * INR i + 1)%R).
  { intros i j b Hi Hj H. rewrite (proj1 (Br i j Hi Hj)) in H. injection H as <-. unfold low, high. cbn [r_x r_bottom r_top]. destruct (unit_column vectors n i j Sv U Hi Hj) as [_ V]. set (v := nth j (column vectors i) C0) in *.
    change (re (Cadd (RtoC (2 * INR i)) v)) with (2 * INR i + re v)%R. split; [reflexivity|]. split; [apply Rmin_glb; lra|apply Rmax_lub; lra]. }
  assert (At : forall b, In b (e_bars p) -> exists i j, i < n /\ j < n /\ nth_error (e_bars p) (i * n + j) = Some b).
  { intros b Hb. apply In_nth_error in Hb. destruct Hb as (k & Hk). assert (Lk : k < n * n) by (rewrite <- L1; apply nth_error_Some; congruence). assert (Nn : n <> 0) by lia.
    pose proof (Nat.div_mod k n Nn) as Dk. pose proof (Nat.mod_upper_bound k n Nn) as Mk. exists (k / n), (k mod n). split; [apply Nat.div_lt_upper_bound; lia|]. split; [exact Mk|]. replace (k / n * n + k mod n) with k by lia. exact Hk. }
  split; [|split; [|split]].
  - intros i i' j j' b b' Hi Hi' Hj Hj' Hb Hb'. destruct (Pl i j b ltac:(lia) Hj Hb) as (_ & _ & H1). destruct (Pl i' j' b' Hi' Hj' Hb') as (_ & H2 & _).
    pose proof (le_INR (S i) i' Hi) as Q. rewrite S_INR in Q. lra.
  - intros b Hb. destruct (At b Hb) as (i & j & Hi & Hj & H). destruct (Pl i j b Hi Hj H) as (-> & _). pose proof (pos_INR j). pose proof (lt_INR j n Hj). lra.
  - intros Hn b Hb. destruct (At b Hb) as (i & j & Hi & Hj & H). destruct (Pl i j b Hi Hj H) as (_ & H1 & H2). unfold inside. cbn [fst snd]. pose proof (pos_INR i). pose proof (le_INR (S i) n Hi) as Q. rewrite S_INR in Q. pose proof (le_INR n 3 Hn) as Q3. cbn in Q3. lra.
  - intros Hn j Hj. eexists. split; [exact (proj1 (Br (n - 1) j ltac:(lia) Hj))|]. destruct (Pl (n - 1) j _ ltac:(lia) Hj (proj1 (Br (n - 1) j ltac:(lia) Hj))) as (_ & H1 & _).
    eapply Rlt_le_trans; [|exact H1]. pose proof (le_INR 6 n Hn) as Q. cbn in Q. rewrite minus_INR by lia. cbn [INR]. lra.
Qed.
Print Assumptions C93_frame.

(** ** Cases *)
(* a splitter, a laser, a phase modulator and a wave shaper *)
Example C93_labels_case : exists t, labels (w_graph w0) (w_store w0) = Ok t /\ List.length t = 35 /\
  firstn 6 t = ["ratio-0-BS0"; "peak_power-CW0"; "depth-PM0"; "frequency-PM0"; "shift-PM0"; "amplitude0-WS0"]%string /\ nth 20 t ""%string = "phase0-WS0"%string.
Proof. eexists. split; [vm_compute; reflexivity|]. repeat split. Qed.

(* two delay lines one after the other *)
Definition two_delays (c : cls) : world := the (new_world [(0, mkComp 1 TerminalSource false); (1, mkComp 2 VariablePowerSplitter false); (2, mkComp 3 VariablePowerSplitter false); (3, mkComp 4 TerminalSink false)]
  [((0, 1, 0), mkComp 5 ContinuousWaveLaser false); ((1, 2, 0), mkComp 6 DelayLine false); ((1, 2, 1), mkComp 7 c false); ((2, 3, 0), mkComp 8 Photodiode false)] 1 2).
Example C93_distinct_case : labels (w_graph (two_delays DelayLine)) (w_store (two_delays DelayLine)) = Ok ["ratio-0-BS0"; "peak_power-CW0"; "delay-DL0"; "delay-DL1"]%string.
Proof. vm_compute. reflexivity. Qed.
Theorem C93_distinct_refuted : exists g s t, wf g /\ labels g s = Ok t /\ ~ NoDup t.
Proof.
  exists (w_graph (two_delays IntegratedDelayLine)), (w_store (two_delays IntegratedDelayLine)), ["ratio-0-BS0"; "peak_power-CW0"; "delay-DL0"; "delay-DL0"]%string.
  split; [|split; [vm_compute; reflexivity|intros N; inversion N as [|? ? _ N1]; inversion N1 as [|? ? _ N2]; inversion N2 as [|? ? N3 _]; apply N3; left; reflexivity]].
  set (nodes := [(0, mkComp 1 TerminalSource false); (1, mkComp 2 VariablePowerSplitter false); (2, mkComp 3 VariablePowerSplitter false); (3, mkComp 4 TerminalSink false)]).
  set (edges := [((0, 1, 0), mkComp 5 ContinuousWaveLaser false); ((1, 2, 0), mkComp 6 DelayLine false); ((1, 2, 1), mkComp 7 IntegratedDelayLine false); ((2, 3, 0), mkComp 8 Photodiode false)]).
  assert (E : init_graph nodes edges = Some (w_graph (two_delays IntegratedDelayLine))) by (vm_compute; reflexivity).
  refine (proj1 (InitProofs.init_graph_some nodes edges _ _ E)). simpl; repeat constructor; simpl; intuition discriminate.
Qed.
Print Assumptions C93_distinct_refuted.

(* a matrix of two parameters: the squares from the top left, and the bars of its eigenvectors *)
Definition data_e : hessian_data := mkHess h_e [["a"; "b"]; ["a"; "b"]]%string [["a"; "a"]; ["b"; "b"]]%string.
Example C93_squares_case : exists m, heatmap_of (Some data_e) = Ok m /\ m_x m = [0; 1; 0; 1] /\ m_y m = [1; 1; 0; 0] /\ m_value m = [41/25; -(12/25); -(12/25); 34/25]%R /\
  m_xname m = ["a"; "b"; "a"; "b"]%string /\ m_yname m = ["a"; "a"; "b"; "b"]%string.
Proof. eexists. split; [reflexivity|]. repeat split. Qed.
Example C93_bars_case : exists p, add_lha_eigenvectors (fun r => r) (fun _ => Ok (values_e, vectors_e)) (Some data_e) = Ok p /\
  map r_x (e_bars p) = [0; 1; 0; 1] /\ map r_weight (e_bars p) = [RtoC (-(4/5)); RtoC (3/5); RtoC (3/5); RtoC (4/5)]%R /\ map r_value (e_bars p) = [RtoC 2; RtoC 2; RtoC 1; RtoC 1]%R /\
  e_names p = ["a"; "b"; "a"; "b"]%string /\ e_yrange p = (-1, INR 2 + 2)%R /\ unit_entries vectors_e.
Proof.
  eexists. split; [reflexivity|]. split; [reflexivity|]. split; [reflexivity|]. split; [reflexivity|]. split; [reflexivity|]. split; [reflexivity|].
  intros row v Hr Hv. destruct Hr as [<-|[<-|[]]]; destruct Hv as [<-|[<-|[]]]; cbn; split; lra.
Qed.

(* 35 parameters and the matrix with ones on its diagonal *)
Definition one_at (i j : nat) : R := if Nat.eqb i j then 1%R else 0%R.
Definition ones (n : nat) : list (list R) := ArrayModel.tabulate n (fun i => ArrayModel.tabulate n (one_at i)).
Definition ones_c (n : nat) : list (list C) := ArrayModel.tabulate n (fun i => ArrayModel.tabulate n (fun j => RtoC (one_at i j))).
Lemma ones_pairs : forall n, eigenpairs n (ones n) (repeat (RtoC 1) n) (ones_c n).
Proof.
  intros n. split; [apply repeat_length|]. split; [apply LocalProofs.tab_square|]. intros k Hk. assert (Lo : List.length (ones n) = n) by apply LocalProofs.tab_length.
  assert (Cl : forall j, j < n -> nth j (column (ones_c n) k) C0 = RtoC (one_at j k)).
  { intros j Hj. unfold column. rewrite (nth_indep _ C0 (nth k [] C0)) by (rewrite map_length; unfold ones_c; rewrite LocalProofs.tab_length; exact Hj). rewrite (map_nth (fun row => nth k row C0)). unfold ones_c. rewrite (LocalProofs.tab_nth n (fun i => ArrayModel.tabulate n (fun j => RtoC (one_at i j))) j [] Hj). exact (LocalProofs.tab_nth n (fun m => RtoC (one_at j m)) k C0 Hk). }
  split; [unfold column, ones_c; rewrite map_length, LocalProofs.tab_length, Lo; reflexivity|]. rewrite Lo. intros i Hi.
  replace (nth k (repeat (RtoC 1) n) C0) with (RtoC 1) by (symmetry; apply nth_error_nth; clear -Hk; revert n Hk; induction k as [|k IH]; intros [|n] Hk; try lia; [reflexivity|]; cbn [repeat nth_error]; apply IH; lia).
  rewrite (csum_single n i); [|exact Hi|].
  - unfold ones. rewrite LocalProofs.tab_entry by assumption. unfold one_at at 1. rewrite Nat.eqb_refl. reflexivity.
  - intros j Hj N. unfold ones. rewrite LocalProofs.tab_entry by assumption. unfold one_at at 1. destruct (Nat.eqb_spec i j) as [E|_]; [congruence|]. apply pair_eq; cbn; ring.
Qed.
Example C93_frame_case : exists d p b, let hess := fun _ : list pval => Ok (ones 35) in
  update_hessian_data hess (w_graph w0) (w_store w0) = Ok d /\ add_lha_eigenvectors (fun r => r) (fun _ => Ok (repeat (RtoC 1) 35, ones_c 35)) (Some d) = Ok p /\
  nth_error (e_bars p) (34 * 35 + 3) = Some b /\ (snd (e_yrange p) < low b)%R.
Proof.
  cbv zeta. assert (X : exists x, extract (w_graph w0) (w_store w0) = Ok x) by (eexists; vm_compute; reflexivity). destruct X as (x & Ex). destruct C93_labels_case as (t & Et & Lt & _).
  assert (U : unit_entries (ones_c 35)).
  { intros row v Hr Hv. apply LocalProofs.tab_In in Hr. destruct Hr as (i & _ & ->). apply LocalProofs.tab_In in Hv. destruct Hv as (j & _ & ->). unfold one_at. destruct (Nat.eqb i j); cbn; split; lra. }
  pose proof (ones_pairs 35) as P. assert (Sq : square_matrix 35 (ones 35)) by apply LocalProofs.tab_square.
  set (hess := fun _ : list pval => Ok (ones 35)). set (eig := fun _ : list (list R) => Ok (repeat (RtoC 1) 35, ones_c 35)). set (cm := fun r : R => r).
  destruct (C93_bars cm eig hess _ _ x t (ones 35) 35 _ _ Ex Et eq_refl Lt Sq eq_refl P) as (d & p & Ed & Ep & _).
  destruct (C93_frame cm eig hess _ _ x t (ones 35) 35 _ _ d p Ex Et eq_refl Lt Sq eq_refl P U Ed Ep) as (_ & _ & _ & F). destruct (F ltac:(lia) 3 ltac:(lia)) as (b & Hb & Lb). exists d, p, b. auto.
Qed.
(* before the matrix is computed there is nothing to show *)
Example C93_before_case : heatmap_of None = Err IndexError /\ forall K (cmap : R -> K) eig, add_lha_eigenvectors cmap eig None = Err IndexError.
Proof. split; reflexivity. Qed.
