(** A Mach-Zehnder interferometer in numbers. *)
From Coq Require Import Reals Qreals List Arith Bool Lia Lra ZArith QArith.
From Verif Require Import Base GraphModel GraphSpec GraphProofs ParamsModel PropagateModel PropagateSpec PropagateProofs Complex ArrayModel ComponentModel ComponentSpec ComponentProofs DetectorProofs ButterworthProofs OpticsModel OpticsProofs PhaseModel EvolutionExamples.
Import ListNotations.
Local Open Scope nat_scope.
Local Open Scope R_scope.

(** ** Splitters of steady fields *)
Lemma tabulate_const : forall {A} (v : A) f n, (forall i, (i < n)%nat -> f i = v) -> tabulate n f = repeat v n.
Proof.
  intros A v f n. unfold tabulate. enough (H : forall k m, (forall i, (k <= i < k + m)%nat -> f i = v) -> map f (seq k m) = repeat v m) by (intros Hf; apply H; intros i Hi; apply Hf; lia).
  intros k m. revert k. induction m as [|m IH]; intros k Hf; [reflexivity|]. cbn [seq map repeat]. rewrite Hf by lia. f_equal. apply IH. intros i Hi. apply Hf. lia.
Qed.
Lemma cis_half_turn : cis (- PI) = Copp C1.
Proof. unfold cis. rewrite cos_neg, sin_neg, cos_PI, sin_PI. cplx. f_equal; ring. Qed.
Lemma split_steady : forall a z N, a = 1 / 2 -> splitter [a] 1 2 [repeat z N] = Ok [repeat (Cmul (RtoC (1 / 2)) z) N; repeat (Cmul (RtoC (- (1 / 2))) z) N].
Proof.
  intros a z N ->. unfold splitter, splitter_rows, splitter_weights, product, broadcast. cbn -[INR Cmul cis]. unfold tabulate at 1 2. cbn -[INR Cmul cis tabulate]. rewrite repeat_length, Nat.eqb_refl. cbn [andb negb].
  replace (INR 0) with 0 by reflexivity. replace (INR 1) with 1 by reflexivity. replace (INR 2) with 2 by (cbn; lra).
  replace ((1 - 1 / 2) * 1) with (1 / 2) by lra. replace (1 / 2 * 1) with (1 / 2) by lra.
  assert (S : sqrt (1 / 2) / sqrt 2 = 1 / 2).
  { replace 2 with (4 * (1 / 2)) at 2 by lra. rewrite sqrt_mult by lra. replace 4 with (2 * 2) by lra. rewrite sqrt_square by lra. assert (0 < sqrt (1 / 2)) by (apply sqrt_lt_R0; lra). field. lra. }
  rewrite S. replace (- (2 * PI) * (0 / 1 + 0 / 2)) with 0 by lra. replace (- (2 * PI) * (0 / 1 + 1 / 2)) with (- PI) by lra. rewrite cis_0, cis_half_turn. do 2 f_equal; [|f_equal].
  - apply tabulate_const. intros i Hi. rewrite nth_repeat_lt by exact Hi. ring.
  - apply tabulate_const. intros i Hi. rewrite nth_repeat_lt by exact Hi. cplx. f_equal; field.
Qed.
Lemma join_steady : forall u v N, splitter [] 2 1 [repeat u N; repeat v N] = Ok [repeat (Csub u v) N].
Proof.
  intros u v N. unfold splitter, splitter_rows, splitter_weights, product, broadcast. cbn -[INR Cmul cis]. unfold tabulate at 1. cbn -[INR Cmul cis tabulate]. rewrite !repeat_length, Nat.eqb_refl. cbn [andb negb].
  replace (INR 0) with 0 by reflexivity. replace (INR 1) with 1 by reflexivity. replace (INR 2) with 2 by (cbn; lra). rewrite sqrt_1.
  replace (- (2 * PI) * (0 / 2 + 0 / 1)) with 0 by lra. replace (- (2 * PI) * (1 / 2 + 0 / 1)) with (- PI) by lra. rewrite cis_0, cis_half_turn. do 2 f_equal.
  apply tabulate_const. intros i Hi. rewrite !nth_repeat_lt by exact Hi. cplx. f_equal; field.
Qed.

(** ** The graph *)
Definition two_arms (k : nat) (c1 c2 : comp) : graph :=
  mkG [(0, mkND (mkComp k TerminalSource false) TerminalSource); (1, mkND (mkComp (k + 2) VariablePowerSplitter false) VariablePowerSplitter);
       (2, mkND (mkComp (k + 3) VariablePowerSplitter false) VariablePowerSplitter); (3, mkND (mkComp (k + 1) TerminalSink false) TerminalSink)]%nat
      [mkE 0 1 0 (mkED (mkComp (k + 4) ContinuousWaveLaser false) ContinuousWaveLaser); mkE 1 2 0 (mkED c1 (ccls c1));
       mkE 1 2 1 (mkED c2 (ccls c2)); mkE 2 3 0 (mkED (mkComp (k + 7) MeasurementDevice true) MeasurementDevice)]%nat.

Section Arms.
Variable B : behaviour (list C) unit.
Variable k : nat.
Variables c1 c2 : comp.
Variable N : nat.
Variables a ratio x y : R.
Hypothesis half : ratio = 1 / 2.
Hypothesis BS : forall s i o, snd (node_act B (mkComp k TerminalSource false) s i o tt) = Ok s.
Hypothesis BE : forall s i o, snd (node_act B (mkComp (k + 1) TerminalSink false) s i o tt) = Ok s.
Hypothesis B1 : forall s, snd (node_act B (mkComp (k + 2) VariablePowerSplitter false) s 1 2 tt) = splitter [ratio] 1 2 s.
Hypothesis B2 : forall s, snd (node_act B (mkComp (k + 3) VariablePowerSplitter false) s 2 1 tt) = splitter [] 2 1 s.
Hypothesis BL : forall s, length s = N -> snd (edge_act B (mkComp (k + 4) ContinuousWaveLaser false) s tt) = Ok (repeat (RtoC a) N).
Hypothesis BX : forall s, length s = N -> snd (edge_act B c1 s tt) = Ok (map (Cmul (cis x)) s).
Hypothesis BY : forall s, length s = N -> snd (edge_act B c2 s tt) = Ok (map (Cmul (cis y)) s).
Hypothesis BM : forall s, snd (edge_act B (mkComp (k + 7) MeasurementDevice true) s tt) = Ok (map RtoC (map Cnorm2 s)).
Let g := two_arms k c1 c2.
Definition detected_power : R := a * a / 2 * (1 + cos (x - y)).
Definition arm_value (e : edge) : list C :=
  match e_src e, e_key e with
  | 0%nat, _ => repeat (RtoC a) N
  | 1%nat, 0%nat => repeat (Cmul (cis x) (Cmul (RtoC (1 / 2)) (RtoC a))) N
  | 1%nat, _ => repeat (Cmul (cis y) (Cmul (RtoC (- (1 / 2))) (RtoC a))) N
  | _, _ => repeat (RtoC detected_power) N
  end.
Lemma arms_power : Cnorm2 (Csub (Cmul (cis x) (Cmul (RtoC (1 / 2)) (RtoC a))) (Cmul (cis y) (Cmul (RtoC (- (1 / 2))) (RtoC a)))) = detected_power.
Proof.
  unfold detected_power. rewrite cos_minus. unfold cis, Cnorm2. cplx. pose proof (sin2_cos2 x) as X. pose proof (sin2_cos2 y) as Y. unfold Rsqr in X, Y. revert X Y.
  generalize (sin x) (cos x) (sin y) (cos y). intros s c s' c' X Y. replace (a * a / 2 * (1 + (c * c' + s * s'))) with (a * a / 4 * ((s * s + c * c) + (s' * s' + c' * c') + 2 * (c * c' + s * s'))) by (rewrite X, Y; field). field.
Qed.
Lemma arms_solve : solves B tt g (repeat C0 N) arm_value (fun _ => repeat (RtoC detected_power) N).
Proof.
  intros n c (d & Hd & <-). unfold g in Hd. cbn [g_nodes two_arms] in Hd. destruct Hd as [Hd|[Hd|[Hd|[Hd|[]]]]]; injection Hd as <- <-; cbn [n_model].
  - exists [repeat C0 N]. split; [apply BS|]. split; [intros D; discriminate D|]. intros [|i] e E; [|destruct i; discriminate E]. injection E as <-. exists (repeat C0 N). split; [reflexivity|]. cbn [e_dat e_model]. apply BL. apply repeat_length.
  - exists [repeat (Cmul (RtoC (1 / 2)) (RtoC a)) N; repeat (Cmul (RtoC (- (1 / 2))) (RtoC a)) N]. split; [exact (eq_trans (B1 _) (split_steady ratio (RtoC a) N half))|]. split; [intros D; discriminate D|].
    intros [|[|i]] e E; [| |destruct i; discriminate E]; injection E as <-; eexists; (split; [reflexivity|]); cbn [e_dat e_model].
    + rewrite BX by apply repeat_length. rewrite map_repeat. reflexivity.
    + rewrite BY by apply repeat_length. rewrite map_repeat. reflexivity.
  - exists [repeat (Csub (Cmul (cis x) (Cmul (RtoC (1 / 2)) (RtoC a))) (Cmul (cis y) (Cmul (RtoC (- (1 / 2))) (RtoC a)))) N]. split; [exact (eq_trans (B2 _) (join_steady _ _ N))|]. split; [intros D; discriminate D|].
    intros [|i] e E; [|destruct i; discriminate E]. injection E as <-. eexists. split; [reflexivity|]. cbn [e_dat e_model]. rewrite BM, !map_repeat, arms_power. reflexivity.
  - exists [repeat (RtoC detected_power) N]. split; [apply BE|]. split; [reflexivity|]. intros i e E. destruct i; discriminate E.
Qed.
Lemma arms_run : wf g -> acyclic g -> forall old, exists sv, propagate B g (repeat C0 N) tt old = (tt, sv, Ok tt) /\ saved sv (PNode 3) = Some (repeat (RtoC detected_power) N).
Proof.
  intros W A old. destruct (proj2 (propagate_solution B g (repeat C0 N) W tt old (kind_steady B g) A) _ _ arms_solve) as (sv & E & Rc). exists sv. split; [exact E|]. apply (proj1 (proj2 Rc)).
  split; [eexists; cbn; right; right; right; left; reflexivity|]. intros e He Q. unfold g in He. cbn [g_edges two_arms] in He. destruct He as [<-|[<-|[<-|[<-|[]]]]]; discriminate Q.
Qed.
End Arms.

(** ** The mean detected power *)
Lemma mean_value_steady : forall v N, (0 < N)%nat -> mean_value (repeat (RtoC v) N) = v.
Proof.
  intros v N P. unfold mean_value. rewrite map_repeat, repeat_length. assert (S : forall n, fold_right Rplus 0 (repeat (re (RtoC v)) n) = INR n * v).
  { induction n as [|n IH]; [cbn; ring|]. rewrite S_INR. cbn [repeat fold_right]. rewrite IH. unfold RtoC, re. cbn [fst]. ring. }
  rewrite S. apply lt_0_INR in P. field. lra.
Qed.
Lemma mean_square_steady : forall v N, (0 < N)%nat -> mean_square (repeat (RtoC v) N) = v * v.
Proof.
  intros v N P. unfold mean_square. rewrite map_repeat, repeat_length. assert (S : forall n, fold_right Rplus 0 (repeat (re (RtoC v) * re (RtoC v)) n) = INR n * (v * v)).
  { induction n as [|n IH]; [cbn; ring|]. rewrite S_INR. cbn [repeat fold_right]. rewrite IH. unfold RtoC, re. cbn [fst]. ring. }
  rewrite S. apply lt_0_INR in P. field. lra.
Qed.
Lemma arms_function : forall st p k c1 c2 phases mean P rest x y, let g := two_arms k c1 c2 in wf g -> acyclic g -> 0 <= Q2R P ->
  get_params st k = Ok [] -> get_params st (k + 1) = Ok [] -> get_params st (k + 2) = Ok [Num (1 # 2)] -> get_params st (k + 3) = Ok [] -> get_params st (k + 4) = Ok (Num P :: rest) -> get_params st (k + 7) = Ok [] ->
  phases (k + 4)%nat = None -> phases (k + 7)%nat = None ->
  (forall s, length s = n_samples p -> snd (edge_act (phase_optics st p phases) c1 s tt) = Ok (map (Cmul (cis x)) s)) ->
  (forall s, length s = n_samples p -> snd (edge_act (phase_optics st p phases) c2 s tt) = Ok (map (Cmul (cis y)) s)) ->
  phase_function mean st p g 3 phases = Ok (mean (repeat (RtoC (Q2R P / 2 * (1 + cos (x - y)))) (n_samples p))).
Proof.
  intros st p k c1 c2 phases mean P rest x y g W A HP G0 G1 G2 G3 G4 G7 N4 N7 A1 A2.
  destruct (arms_run (phase_optics st p phases) k c1 c2 (n_samples p) (sqrt (Q2R P)) (Q2R (1 # 2)) x y) with (old := @nil (place * list C)) as (sv & E & V).
  - unfold Q2R. cbn. lra.
  - intros s i o. unfold phase_optics, optics. cbn [node_act snd cid ccls]. rewrite G0. reflexivity.
  - intros s i o. unfold phase_optics, optics. cbn [node_act snd cid ccls]. rewrite G1. reflexivity.
  - intros s. unfold phase_optics, optics. cbn [node_act snd cid ccls]. rewrite G2. reflexivity.
  - intros s. unfold phase_optics, optics. cbn [node_act snd cid ccls]. rewrite G3. reflexivity.
  - intros s L. unfold phase_optics, optics. cbn [edge_act snd cid ccls]. rewrite N4, G4. cbn [bind component real_at at_ nth_error of_option as_number snd]. unfold real_at, at_. cbn [nth_error of_option bind as_number]. f_equal.
    unfold continuous_wave_laser. rewrite <- L. clear. induction s as [|z s IH]; [reflexivity|]. cbn [map length repeat]. f_equal. exact IH.
  - exact A1.
  - exact A2.
  - intros s. unfold phase_optics, optics. cbn [edge_act snd cid ccls]. rewrite N7, G7. reflexivity.
  - exact W.
  - exact A.
  - unfold phase_function. fold g in E. rewrite E. cbn [bind]. unfold measure. rewrite V. cbn [of_option bind]. unfold detected_power. rewrite (sqrt_sqrt _ HP). reflexivity.
Qed.
