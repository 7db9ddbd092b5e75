(** Proofs about recorded transforms. *)
From Coq Require Import Reals Qreals List Arith Bool Lia Lra ZArith QArith.
From Verif Require Import Base GraphModel GraphSpec GraphProofs TopoProofs ParamsModel ParamsSpec OperatorsSpec EvolveSpec PropagateModel PropagateSpec PropagateProofs FlowProofs Complex ArrayModel FourierProofs GridProofs FilterProofs ComponentModel ComponentSpec ComponentProofs ShaperProofs DetectorModel DetectorProofs
  MoreComponentsModel MoreComponentsSpec MoreComponentsProofs OpticsModel OpticsSpec OpticsComponentProofs OpticsProofs EvaluatorProofs LinearProofs NoisyProofs PhaseProofs TransformModel TransformSpec.
Import ListNotations.
Local Open Scope nat_scope.
Local Open Scope R_scope.

(** ** When a recording succeeds *)
Lemma broadcast_shape : forall {A B D A' B' D'} (f : A -> B -> D) (f' : A' -> B' -> D') a b a' b' r,
  broadcast f a b = Ok r -> length a' = length a -> length b' = length b -> exists r', broadcast f' a' b' = Ok r' /\ length r' = length r.
Proof.
  intros A B D A' B' D' f f' a b a' b' r H La Lb. unfold broadcast in *. rewrite La, Lb. destruct (Nat.eqb (length a) (length b)).
  - injection H as <-. eexists; split; [reflexivity|]. rewrite !map_length, !combine_length, La, Lb. reflexivity.
  - destruct a as [|x [|x2 a]], a' as [|x' [|x2' a']]; try discriminate La; destruct b as [|y [|y2 b]], b' as [|y' [|y2' b']]; try discriminate Lb; try discriminate H;
      injection H as <-; eexists; (split; [reflexivity|]); cbn [length map] in *; rewrite ?map_length; lia.
Qed.
Lemma argmin_from_lt : forall l best b i, (b < i)%nat -> (argmin_from best b i l < i + length l)%nat.
Proof. induction l as [|x l IH]; intros best b i H; cbn [argmin_from length]; [lia|]. destruct (Rlt_dec x best); [specialize (IH x i (S i))|specialize (IH best b (S i))]; lia. Qed.
Lemma delay_index_ok : forall p d, (0 < n_samples p)%nat -> exists i, delay_index p d = Ok i.
Proof.
  intros p d H. unfold delay_index. pose proof (grid_t_length p) as L. destruct (grid_t p) as [|t l]; [cbn in L; lia|]. eexists; reflexivity.
Qed.
Lemma put_ratios_ok : forall p rs k l, (0 < n_samples p)%nat -> exists r, put_ratios p k rs l = Ok r.
Proof. intros p rs. induction rs as [|a rs IH]; intros k l H; cbn [put_ratios]; [eexists; reflexivity|]. destruct (delay_index_ok p (stage_delay k) H) as (i & ->). cbn [bind]. apply IH; exact H. Qed.

Lemma recording_ok : forall save c ps p s y, (0 < n_samples p)%nat -> component c ps p s = Ok y -> (save = true -> ~ unrecordable c) -> exists f, recording save c ps p s = Ok f.
Proof.
  intros save c ps p s y P E N. destruct save; [|destruct c; eexists; reflexivity]. specialize (N eq_refl). unfold unrecordable in N. destruct c; cbn [recording component] in *; try (eexists; reflexivity); try (exfalso; tauto).
  - (* PhaseModulator *) destruct (real_at ps 0); [|discriminate]. destruct (real_at ps 1); [|discriminate]. destruct (real_at ps 2); [|discriminate]. cbn [bind] in *. unfold phase_modulator in E. destruct (broadcast _ _ _) as [ang|] eqn:Eb; [|discriminate]. cbn [bind]. eexists; reflexivity.
  - (* IntensityModulator *) destruct (real_at ps 0) as [d|]; [|discriminate]. destruct (real_at ps 1) as [fr|]; [|discriminate]. destruct (real_at ps 2) as [b|]; [|discriminate]. cbn [bind] in *. unfold intensity_modulator in E.
    destruct (broadcast Cmul (scale _ _) _) as [m|] eqn:E1; [|discriminate]. cbn [bind] in E. destruct (broadcast Cadd _ m) as [m'|] eqn:E2; [|discriminate].
    destruct (broadcast_shape Cmul Cmul _ _ (map (fun _ => RtoC (1 / 2)) s) (map cis (map (fun t => d * cos (2 * PI * fr * t) + b) (grid_t p))) _ E1) as (r1 & -> & L1); [rewrite scale_length, map_length; reflexivity|reflexivity|]. cbn [bind].
    destruct (broadcast_shape Cadd Cadd _ _ (map (fun _ => RtoC (1 / 2)) s) r1 _ E2) as (r2 & -> & _); [rewrite scale_length, map_length; reflexivity|exact L1|]. eexists; reflexivity.
  - (* WaveShaper *) destruct (reals (firstn 15 ps)); [|discriminate]. destruct (reals (skipn 15 ps)); [|discriminate]. eexists; reflexivity.
  - (* IntegratedSplitAndDelayLine *) destruct (reals ps) as [rs|]; [|discriminate]. cbn [bind]. destruct (put_ratios_ok p (firstn 8 rs) 0 (map (fun _ => 0) (grid_t p)) P) as (r & ->). eexists; reflexivity.
  - (* OpticalAmplifier *) destruct (amplifier_of ps); [|discriminate]. eexists; reflexivity.
  - (* ProgrammableFilter *) destruct (reals (firstn 10 ps)); [|discriminate]. destruct (reals (skipn 10 ps)); [|discriminate]. cbn [bind] in *. unfold programmable_filter in E. destruct (broadcast Rmult _ _) as [m|]; [|discriminate]. cbn [bind] in *. destruct (broadcast Rmult _ _) as [m2|]; [|discriminate]. eexists; reflexivity.
  - (* SquareFilter *) destruct (real_at ps 0); [|discriminate]. eexists; reflexivity.
  - (* DelayLine *) destruct (real_at ps 0) as [d|]; [|discriminate]. cbn [bind]. destruct (delay_index_ok p d P) as (i & ->). eexists; reflexivity.
  - (* IntegratedDelayLine *) destruct (real_at ps 0) as [d|]; [|discriminate]. cbn [bind]. destruct (delay_index_ok p (d * ten_to (-12)) P) as (i & ->). eexists; reflexivity.
Qed.

Definition trouble (save : bool) (c : cls) : Prop := save = true /\ unrecordable c.
Lemma trouble_dec : forall save c, trouble save c \/ ~ trouble save c.
Proof. intros save c. unfold trouble, unrecordable. destruct save; [|right; intros [H _]; discriminate]. destruct c; try (right; intros [_ [H|H]]; discriminate H); left; split; auto. Qed.
Lemma early_ok : forall save c ps, ~ trouble save c -> match c with DispersiveFiber => if save then (do _ <- real_at ps 0; Err NameError) else Ok tt | _ => Ok tt end = Ok tt.
Proof. intros save c ps N. destruct c; try reflexivity. destruct save; [exfalso; apply N; split; [reflexivity|left; reflexivity]|reflexivity]. Qed.
Lemma recorded_trouble : forall save c ps p s, trouble save c -> recorded_component save c ps p s = Err NameError \/ exists er, component c ps p s = Err er /\ recorded_component save c ps p s = Err er.
Proof.
  intros save c ps p s [-> [->| ->]]; unfold recorded_component.
  - cbn [component]. destruct (real_at ps 0) as [d|er]; cbn [bind]; [left; reflexivity|right; exists er; split; reflexivity].
  - cbn [bind]. destruct (component PhaseShifter ps p s) as [y|er]; cbn [bind recording]; [left; reflexivity|right; exists er; split; reflexivity].
Qed.
Lemma recorded_fine : forall save c ps p s, (0 < n_samples p)%nat -> ~ trouble save c ->
  (exists er, component c ps p s = Err er /\ recorded_component save c ps p s = Err er) \/
  (exists y f, component c ps p s = Ok y /\ recording save c ps p s = Ok f /\ recorded_component save c ps p s = Ok (y, f)).
Proof.
  intros save c ps p s P N. unfold recorded_component. rewrite early_ok by exact N. cbn [bind]. destruct (component c ps p s) as [y|er] eqn:E; cbn [bind].
  - right. destruct (recording_ok save c ps p s y P E) as (f & ->); [intros H U; apply N; split; assumption|]. exists y, f. repeat split.
  - left. exists er. split; reflexivity.
Qed.
Lemma recorded_ok : forall save c ps p s y f, recorded_component save c ps p s = Ok (y, f) -> component c ps p s = Ok y /\ recording save c ps p s = Ok f.
Proof.
  intros save c ps p s y f H. unfold recorded_component in H. destruct (match c with DispersiveFiber => _ | _ => _ end); [|discriminate]. cbn [bind] in H. destruct (component c ps p s); [|discriminate]. cbn [bind] in H. destruct (recording save c ps p s); [|discriminate]. injection H as <- <-. split; reflexivity.
Qed.

(** ** Fields tagged with what the component recorded *)
Definition tagged (save : bool) (st : store) (p : grid) : behaviour (list C * effect) unit :=
  mkBeh (fun c states nin nout u => (u, do ps <- get_params st (cid c); do r <- connector (ccls c) ps p (map fst states) nin nout; Ok (map (fun s => (s, Untouched)) r)))
        (fun c state u => (u, do ps <- get_params st (cid c); recorded_component save (ccls c) ps p (fst state))).
Lemma tagged_steady : forall save st p g, steady (tagged save st p) g tt.
Proof. intros. split; reflexivity. Qed.
Definition strip (sv : saves (list C * effect)) : saves (list C) := map (fun q => (fst q, fst (snd q))) sv.
Lemma saved_strip : forall sv pl, saved (strip sv) pl = option_map fst (saved sv pl).
Proof. induction sv as [|[q [y f]] sv IH]; intros pl; [reflexivity|]. cbn [strip map saved fst snd]. destruct (place_eqb pl q); [reflexivity|apply IH]. Qed.
Lemma strip_save : forall pl y f sv, strip (save pl (y, f) sv) = save pl y (strip sv). Proof. reflexivity. Qed.
Lemma map_res_ext : forall {A B D} (f : A -> res B) (h : A -> res D) (q : B -> D) l, (forall a, h a = match f a with Ok b => Ok (q b) | Err e => Err e end) ->
  map_res h l = match map_res f l with Ok r => Ok (map q r) | Err e => Err e end.
Proof.
  intros A B D f h q l H. induction l as [|a l IH]; [reflexivity|]. cbn [map_res]. rewrite H. destruct (f a); [|reflexivity]. cbn [bind]. rewrite IH. destruct (map_res f l); reflexivity.
Qed.
Lemma inputs_strip : forall g src sv n, node_inputs g src (strip sv) n = match node_inputs g (src, Untouched) sv n with Ok l => Ok (map fst l) | Err e => Err e end.
Proof.
  intros g src sv n. unfold node_inputs. destruct (pre g n); [reflexivity|]. apply map_res_ext. intros e. rewrite saved_strip. destruct (saved sv _) as [[y f]|]; reflexivity.
Qed.

Section Track.
Variables (save : bool) (st : store) (p : grid) (g : graph) (src : list C).
Hypothesis W : wf g.
Hypothesis D : distinct_objects g.
Variable T0 : transforms.
Local Notation B2 := (recording_optics save st p).
Local Notation B3 := (tagged save st p).
Local Notation src3 := (src, Untouched).

Definition tag_of (sv : saves (list C * effect)) (e : edge) : effect := match saved sv (PEdge (e_id e)) with Some (_, f) => f | None => Untouched end.
Definition tracks (T : transforms) (sv : saves (list C * effect)) : Prop :=
  (forall e, In e (g_edges g) -> T (cid (e_model (e_dat e))) = apply_effect (tag_of sv e) (T0 (cid (e_model (e_dat e))))) /\
  (forall i, (forall e, In e (g_edges g) -> cid (e_model (e_dat e)) <> i) -> T i = T0 i).

Lemma edges_same_id : forall e e', In e (g_edges g) -> In e' (g_edges g) -> e_id e = e_id e' -> e = e'.
Proof.
  intros e e' H H' E. pose proof (wf_keys g W) as N. change (NoDup (map e_id (g_edges g))) in N. revert N H H'. generalize (g_edges g). induction l as [|x l IH]; intros N H H'; [contradiction|]. cbn [map] in N. inversion N as [|? ? Nn N']; subst.
  destruct H as [<-|H], H' as [<-|H']; [reflexivity| | |apply IH; assumption]; exfalso; apply Nn; [rewrite E|rewrite <- E]; apply in_map; assumption.
Qed.
Lemma send_track : forall es i states T sv, incl es (g_edges g) -> NoDup (map e_id es) -> tracks T sv -> (forall e, In e es -> saved sv (PEdge (e_id e)) = None) ->
  exists T' sv' r, send B3 es i states tt sv = (tt, sv', r) /\ send B2 es i (map fst states) T (strip sv) = (T', strip sv', r) /\ (r = Ok tt -> tracks T' sv').
Proof.
  induction es as [|e es IH]; intros i states T sv I N Tr Un; cbn [send].
  - exists T, sv, (Ok tt). auto.
  - rewrite nth_error_map. destruct (nth_error states i) as [[s f0]|]; cbn [option_map fst]; [|exists T, sv, (Err IndexError); repeat split; discriminate].
    cbn [edge_act recording_optics tagged fst]. destruct (do ps <- get_params st (cid (e_model (e_dat e))); recorded_component save (ccls (e_model (e_dat e))) ps p s) as [[y f]|er]; [|exists T, sv, (Err er); repeat split; discriminate].
    cbn [map] in N. apply NoDup_cons_iff in N as [Nn N]. rewrite <- strip_save with (f := f). apply IH; [intros a Ha; apply I; right; exact Ha|exact N| |].
    + assert (Ie : In e (g_edges g)) by (apply I; left; reflexivity). split.
      * intros e' He'. unfold set_transform. destruct (Nat.eqb_spec (cid (e_model (e_dat e'))) (cid (e_model (e_dat e)))) as [Q|Q].
        -- apply (distinct_edges g e' e D He' Ie) in Q. subst e'. unfold tag_of. rewrite saved_same. rewrite (proj1 Tr e Ie). unfold tag_of. rewrite (Un e (or_introl eq_refl)). reflexivity.
        -- rewrite (proj1 Tr e' He'). unfold tag_of. rewrite saved_other; [reflexivity|]. intros Z. apply pedge_inj in Z. apply Q. rewrite (edges_same_id e' e He' Ie Z). reflexivity.
      * intros j Hj. unfold set_transform. destruct (Nat.eqb_spec j (cid (e_model (e_dat e)))) as [Q|Q]; [exfalso; exact (Hj e Ie (eq_sym Q))|]. apply (proj2 Tr). exact Hj.
    + intros e' He'. rewrite saved_other; [apply Un; right; exact He'|]. intros Z. apply pedge_inj in Z. apply Nn. rewrite <- Z. apply in_map. exact He'.
Qed.
Lemma tracks_node : forall T n y sv, tracks T sv -> tracks T (PropagateModel.save (PNode n) y sv).
Proof. intros T n y sv [H1 H2]. split; [|exact H2]. intros e He. rewrite (H1 e He). unfold tag_of. rewrite saved_other by discriminate. reflexivity. Qed.
Lemma visit_track : forall n T sv, is_node g n -> tracks T sv -> (forall e, In e (g_edges g) -> e_src e = n -> saved sv (PEdge (e_id e)) = None) ->
  exists T' sv' r, visit B3 g src3 n tt sv = (tt, sv', r) /\ visit B2 g src n T (strip sv) = (T', strip sv', r) /\ (r = Ok tt -> tracks T' sv').
Proof.
  intros n T sv Hn Tr Un. unfold visit. rewrite inputs_strip. destruct (node_inputs g src3 sv n) as [ins|er]; [|exists T, sv, (Err er); repeat split; discriminate].
  destruct (node_data g n) as [nd|]; [|exists T, sv, (Err KeyError); repeat split; discriminate]. cbn [node_act recording_optics tagged].
  destruct (get_params st (cid (n_model nd))) as [ps|er]; cbn [bind]; [|exists T, sv, (Err er); repeat split; discriminate].
  destruct (connector (ccls (n_model nd)) ps p (map fst ins) (in_degree g n) (out_degree g n)) as [r|er]; cbn [bind]; [|exists T, sv, (Err er); repeat split; discriminate].
  assert (Ms : map fst (map (fun s : list C => (s, Untouched)) r) = r) by (rewrite map_map; apply map_id).
  assert (I : incl (leaving g n) (g_edges g)) by (apply leaving_incl). rewrite out_edges_leaving by assumption.
  assert (Un' : forall e, In e (leaving g n) -> saved sv (PEdge (e_id e)) = None) by (intros e He; apply In_leaving in He as [H1 H2]; apply Un; assumption).
  destruct (Nat.eqb _ _).
  - destruct r as [|s0 r]; [exists T, sv, (Err IndexError); repeat split; discriminate|].
    destruct (send_track (leaving g n) 0 (map (fun s => (s, Untouched)) (s0 :: r)) T (PropagateModel.save (PNode n) (s0, Untouched) sv) I (leaving_ids g n W) (tracks_node _ _ _ _ Tr)) as (T' & sv' & q & H1 & H2 & H3).
    { intros e He. rewrite saved_other by discriminate. apply Un'. exact He. }
    exists T', sv', q. rewrite Ms in H2. cbn [map] in H1 |- *. split; [exact H1|]. split; [exact H2|exact H3].
  - destruct (send_track (leaving g n) 0 (map (fun s => (s, Untouched)) r) T sv I (leaving_ids g n W) Tr Un') as (T' & sv' & q & H1 & H2 & H3). exists T', sv', q. rewrite Ms in H2. auto.
Qed.
Lemma visit_all_track : forall o T sv, NoDup o -> (forall n, In n o -> is_node g n) -> tracks T sv -> (forall e, In e (g_edges g) -> In (e_src e) o -> saved sv (PEdge (e_id e)) = None) ->
  exists T' sv' r, visit_all B3 g src3 o tt sv = (tt, sv', r) /\ visit_all B2 g src o T (strip sv) = (T', strip sv', r) /\ (r = Ok tt -> tracks T' sv').
Proof.
  induction o as [|n o IH]; intros T sv N Hn Tr Un; cbn [visit_all]; [exists T, sv, (Ok tt); auto|]. apply NoDup_cons_iff in N as [Nn N].
  destruct (visit_track n T sv (Hn n (or_introl eq_refl)) Tr) as (T1 & sv1 & r1 & H1 & H2 & H3); [intros e He E; apply Un; [exact He|left; symmetry; exact E]|]. rewrite H1, H2.
  destruct r1 as [[]|er]; [|exists T1, sv1, (Err er); repeat split; discriminate]. apply IH; [exact N|intros m Hm; apply Hn; right; exact Hm|apply H3; reflexivity|].
  intros e He Ho. rewrite (visit_keys B3 g src3 W n tt sv tt sv1 (Ok tt) (Hn n (or_introl eq_refl)) H1 (PEdge (e_id e))); [apply Un; [exact He|right; exact Ho]|left; discriminate|].
  intros e' He' E' Z. apply pedge_inj in Z. apply (edges_same_id e e' He He') in Z. subst e'. apply Nn. rewrite <- E'. exact Ho.
Qed.
Lemma propagate_track : forall old old3, acyclic g -> exists T' sv' r, propagate B3 g src3 tt old3 = (tt, sv', r) /\ propagate B2 g src T0 old = (T', strip sv', r) /\ (r = Ok tt -> tracks T' sv').
Proof.
  intros old old3 A. unfold propagate. destruct (toposort_some g W A) as (o & -> & V). unfold propagate_along. destruct (valid_closed g W o V) as (N & Mem & _).
  apply visit_all_track; [exact N|intros n Hn; apply Mem; exact Hn| |intros; apply saved_nil]. split; [|reflexivity]. intros e He. reflexivity.
Qed.

(** ** Against the run without recording *)
Hypothesis P : (0 < n_samples p)%nat.
Local Notation B1 := (optics st p).
Local Notation cl e := (ccls (e_model (e_dat e))).
(* outcomes of the two runs: [es] are the connections passed *)
Definition compared (es : edge -> Prop) (r1 r3 : res unit) (sv1 : saves (list C)) (sv3 : saves (list C * effect)) : Prop :=
  (r1 = r3 /\ sv1 = strip sv3 /\ (r3 = Ok tt -> forall e, es e -> ~ trouble save (cl e))) \/
  (r3 = Err NameError /\ exists e, es e /\ trouble save (cl e)).
Lemma send_compare : forall es i states sv, exists sv1 sv3 r1 r3,
  send B1 es i (map fst states) tt (strip sv) = (tt, sv1, r1) /\ send B3 es i states tt sv = (tt, sv3, r3) /\ compared (fun e => In e es) r1 r3 sv1 sv3.
Proof.
  induction es as [|e es IH]; intros i states sv; cbn [send].
  - exists (strip sv), sv, (Ok tt), (Ok tt). repeat split. left. repeat split. intros _ e [].
  - rewrite nth_error_map. destruct (nth_error states i) as [[s f0]|]; cbn [option_map fst]; [|exists (strip sv), sv, (Err IndexError), (Err IndexError); repeat split; left; repeat split; discriminate].
    cbn [edge_act optics tagged fst]. destruct (get_params st (cid (e_model (e_dat e)))) as [ps|er]; cbn [bind]; [|exists (strip sv), sv, (Err er), (Err er); repeat split; left; repeat split; discriminate].
    destruct (trouble_dec save (cl e)) as [Tb|Nt].
    + destruct (recorded_trouble save (cl e) ps p s Tb) as [E|(er & E1 & E3)].
      * rewrite E. destruct (component (cl e) ps p s) as [y|er].
        -- destruct (IH (S i) states (PropagateModel.save (PEdge (e_id e)) (y, Untouched) sv)) as (sv1 & sv3 & r1 & r3 & H1 & _). rewrite strip_save in H1. exists sv1, sv, r1, (Err NameError). split; [exact H1|]. split; [reflexivity|]. right. split; [reflexivity|]. exists e. split; [left; reflexivity|exact Tb].
        -- exists (strip sv), sv, (Err er), (Err NameError). repeat split. right. split; [reflexivity|]. exists e. split; [left; reflexivity|exact Tb].
      * rewrite E1, E3. exists (strip sv), sv, (Err er), (Err er). repeat split. left. repeat split. discriminate.
    + destruct (recorded_fine save (cl e) ps p s P Nt) as [(er & E1 & E3)|(y & f & E1 & _ & E3)]; rewrite E1, E3.
      * exists (strip sv), sv, (Err er), (Err er). repeat split. left. repeat split. discriminate.
      * destruct (IH (S i) states (PropagateModel.save (PEdge (e_id e)) (y, f) sv)) as (sv1 & sv3 & r1 & r3 & H1 & H3 & Cm). rewrite strip_save in H1. exists sv1, sv3, r1, r3. split; [exact H1|]. split; [exact H3|].
        destruct Cm as [(-> & -> & K)|(-> & e' & He' & K)]; [left|right].
        -- repeat split. intros R e' [<-|He']; [exact Nt|apply K; assumption].
        -- split; [reflexivity|]. exists e'. split; [right; exact He'|exact K].
Qed.
Lemma visit_compare : forall n sv, is_node g n -> exists sv1 sv3 r1 r3,
  visit B1 g src n tt (strip sv) = (tt, sv1, r1) /\ visit B3 g src3 n tt sv = (tt, sv3, r3) /\ compared (fun e => In e (g_edges g) /\ e_src e = n) r1 r3 sv1 sv3.
Proof.
  intros n sv Hn. unfold visit. rewrite inputs_strip. destruct (node_inputs g src3 sv n) as [ins|er]; [|exists (strip sv), sv, (Err er), (Err er); repeat split; left; repeat split; discriminate].
  destruct (node_data g n) as [nd|]; [|exists (strip sv), sv, (Err KeyError), (Err KeyError); repeat split; left; repeat split; discriminate]. cbn [node_act optics tagged].
  destruct (get_params st (cid (n_model nd))) as [ps|er]; cbn [bind]; [|exists (strip sv), sv, (Err er), (Err er); repeat split; left; repeat split; discriminate].
  destruct (connector (ccls (n_model nd)) ps p (map fst ins) (in_degree g n) (out_degree g n)) as [r|er]; cbn [bind]; [|exists (strip sv), sv, (Err er), (Err er); repeat split; left; repeat split; discriminate].
  assert (Ms : map fst (map (fun s : list C => (s, Untouched)) r) = r) by (rewrite map_map; apply map_id). rewrite out_edges_leaving by assumption.
  assert (Cv : forall r1 r3 sv1 sv3, compared (fun e => In e (leaving g n)) r1 r3 sv1 sv3 -> compared (fun e => In e (g_edges g) /\ e_src e = n) r1 r3 sv1 sv3).
  { intros r1 r3 sv1 sv3 [(E & E' & K)|(E & e & He & K)]; [left|right].
    - split; [exact E|]. split; [exact E'|]. intros R e He. apply K; [exact R|]. apply In_leaving. exact He.
    - split; [exact E|]. exists e. split; [apply In_leaving; exact He|exact K]. }
  destruct (Nat.eqb _ _).
  - destruct r as [|s0 r]; [exists (strip sv), sv, (Err IndexError), (Err IndexError); repeat split; left; repeat split; discriminate|].
    destruct (send_compare (leaving g n) 0 (map (fun s => (s, Untouched)) (s0 :: r)) (PropagateModel.save (PNode n) (s0, Untouched) sv)) as (sv1 & sv3 & r1 & r3 & H1 & H3 & Cm). rewrite Ms, strip_save in H1. exists sv1, sv3, r1, r3. split; [exact H1|]. split; [exact H3|apply Cv; exact Cm].
  - destruct (send_compare (leaving g n) 0 (map (fun s => (s, Untouched)) r) sv) as (sv1 & sv3 & r1 & r3 & H1 & H3 & Cm). rewrite Ms in H1. exists sv1, sv3, r1, r3. split; [exact H1|]. split; [exact H3|apply Cv; exact Cm].
Qed.
Lemma visit_all_compare : forall o sv, (forall n, In n o -> is_node g n) -> exists sv1 sv3 r1 r3,
  visit_all B1 g src o tt (strip sv) = (tt, sv1, r1) /\ visit_all B3 g src3 o tt sv = (tt, sv3, r3) /\ compared (fun e => In e (g_edges g) /\ In (e_src e) o) r1 r3 sv1 sv3.
Proof.
  induction o as [|n o IH]; intros sv Hn; cbn [visit_all].
  - exists (strip sv), sv, (Ok tt), (Ok tt). repeat split. left. repeat split. intros _ e [_ []].
  - destruct (visit_compare n sv (Hn n (or_introl eq_refl))) as (sv1 & sv3 & r1 & r3 & H1 & H3 & Cm). rewrite H1, H3. destruct Cm as [(-> & -> & K)|(-> & e & (He & En) & K)].
    + destruct r3 as [[]|er]; [|exists (strip sv3), sv3, (Err er), (Err er); repeat split; left; repeat split; discriminate].
      destruct (IH sv3 (fun m Hm => Hn m (or_intror Hm))) as (sv1' & sv3' & r1' & r3' & H1' & H3' & Cm'). exists sv1', sv3', r1', r3'. split; [exact H1'|]. split; [exact H3'|].
      destruct Cm' as [(-> & -> & K')|(-> & e & (He & Ho) & K')]; [left|right].
      * repeat split. intros R e [He [E|Ho]]; [apply (K eq_refl); split; [exact He|symmetry; exact E]|apply (K' R); split; assumption].
      * split; [reflexivity|]. exists e. split; [split; [exact He|right; exact Ho]|exact K'].
    + assert (Cx : exists sv1' r1', match r1 with Ok _ => visit_all B1 g src o tt sv1 | Err er => (tt, sv1, Err er) end = (tt, sv1', r1')).
      { destruct r1 as [u|er]; [|do 2 eexists; reflexivity]. destruct (visit_all B1 g src o tt sv1) as [[[] sv1'] r1']. do 2 eexists; reflexivity. }
      destruct Cx as (sv1' & r1' & Ex). exists sv1', sv3, r1', (Err NameError). split; [exact Ex|]. split; [reflexivity|]. right. split; [reflexivity|]. exists e. split; [split; [exact He|left; symmetry; exact En]|exact K].
Qed.
Lemma propagate_compare : forall old1 old3, acyclic g -> exists sv1 sv3 r1 r3,
  propagate B1 g src tt old1 = (tt, sv1, r1) /\ propagate B3 g src3 tt old3 = (tt, sv3, r3) /\ compared (fun e => In e (g_edges g)) r1 r3 sv1 sv3.
Proof.
  intros old1 old3 A. unfold propagate. destruct (toposort_some g W A) as (o & -> & V). unfold propagate_along. destruct (valid_closed g W o V) as (N & Mem & _).
  destruct (visit_all_compare o [] (fun n Hn => proj1 (Mem n) Hn)) as (sv1 & sv3 & r1 & r3 & H1 & H3 & Cm). exists sv1, sv3, r1, r3. split; [exact H1|]. split; [exact H3|].
  destruct Cm as [(-> & -> & K)|(-> & e & (He & Ho) & K)]; [left|right].
  - repeat split. intros R e He. apply K; [exact R|]. split; [exact He|]. apply Mem. apply (wf_ends g W e He).
  - split; [reflexivity|]. exists e. split; [exact He|exact K].
Qed.

Lemma run_compare : forall old, acyclic g -> exists T' sv3 r3, simulate_recording save st p g src T0 old = (T', strip sv3, r3) /\ propagate B3 g src3 tt [] = (tt, sv3, r3) /\ (r3 = Ok tt -> tracks T' sv3) /\
  compared (fun e => In e (g_edges g)) (snd (simulate st p g src old)) r3 (fst (simulate st p g src old)) sv3.
Proof.
  intros old A. destruct (propagate_track old [] A) as (T' & sv3 & r & H3 & H2 & Tr). destruct (propagate_compare old [] A) as (sv1 & sv3' & r1 & r3 & H1 & H3' & Cm).
  assert (Q : (tt, sv3, r) = (tt, sv3', r3)) by (exact (eq_trans (eq_sym H3) H3')). injection Q as <- <-. exists T', sv3, r. split; [exact H2|]. split; [exact H3|]. split; [exact Tr|]. unfold simulate. rewrite H1. exact Cm.
Qed.
End Track.

(** ** Contents *)
Lemma argmin_from_spec : forall l pre best b, (b < length pre)%nat -> nth b pre 0 = best -> (forall j, (j < length pre)%nat -> best <= nth j pre 0) -> (forall j, (j < b)%nat -> best < nth j pre 0) ->
  let i := argmin_from best b (length pre) l in (i < length (pre ++ l))%nat /\ (forall j, (j < length (pre ++ l))%nat -> nth i (pre ++ l) 0 <= nth j (pre ++ l) 0) /\ (forall j, (j < i)%nat -> nth i (pre ++ l) 0 < nth j (pre ++ l) 0).
Proof.
  induction l as [|x l IH]; intros pre best b Hb Eb Hm Hs; cbn [argmin_from].
  - cbv zeta. rewrite app_nil_r, Eb. auto.
  - replace (pre ++ x :: l) with ((pre ++ [x]) ++ l) by (rewrite <- app_assoc; reflexivity). replace (S (length pre)) with (length (pre ++ [x])) by (rewrite app_length; cbn; lia).
    assert (Nx : nth (length pre) (pre ++ [x]) 0 = x) by (rewrite app_nth2 by lia; rewrite Nat.sub_diag; reflexivity).
    assert (Np : forall j, (j < length pre)%nat -> nth j (pre ++ [x]) 0 = nth j pre 0) by (intros j Hj; apply app_nth1; exact Hj).
    destruct (Rlt_dec x best) as [R|R]; apply IH.
    + rewrite app_length; cbn; lia.
    + exact Nx.
    + intros j Hj. rewrite app_length in Hj. cbn in Hj. destruct (Nat.eq_dec j (length pre)) as [->|Ne]; [rewrite Nx; lra|]. rewrite Np by lia. specialize (Hm j ltac:(lia)). lra.
    + intros j Hj. rewrite Np by lia. specialize (Hm j Hj). lra.
    + rewrite app_length; cbn; lia.
    + rewrite Np by exact Hb. exact Eb.
    + intros j Hj. rewrite app_length in Hj. cbn in Hj. destruct (Nat.eq_dec j (length pre)) as [->|Ne]; [rewrite Nx; lra|]. rewrite Np by lia. apply Hm; lia.
    + intros j Hj. rewrite Np by lia. apply Hs; exact Hj.
Qed.
Lemma argmin_spec : forall l i, argmin l = Ok i -> (i < length l)%nat /\ (forall j, (j < length l)%nat -> nth i l 0 <= nth j l 0) /\ (forall j, (j < i)%nat -> nth i l 0 < nth j l 0).
Proof.
  intros [|x l] i H; [discriminate|]. cbn [argmin] in H. injection H as <-. apply (argmin_from_spec l [x] x 0); cbn [length nth]; [lia|reflexivity| |intros j Hj; lia]. intros [|j] Hj; [cbn; lra|lia].
Qed.
Lemma delay_nearest : forall p d i, delay_index p d = Ok i -> nearest (n_samples p) (window_t p) (- d) i.
Proof.
  intros p d i H. apply argmin_spec in H. rewrite map_length, grid_t_length in H. destruct H as (H1 & H2 & H3).
  assert (V : forall j, (j < n_samples p)%nat -> nth j (map (fun t => Rabs (t - - d)) (grid_t p)) 0 = Rabs (sample_time (n_samples p) (window_t p) j - - d)).
  { intros j Hj. rewrite (nth_indep _ 0 (Rabs (0 - - d))) by (rewrite map_length, grid_t_length; exact Hj). rewrite (map_nth (fun t => Rabs (t - - d))). rewrite grid_t_nth by exact Hj. reflexivity. }
  split; [exact H1|]. split; intros j Hj; [specialize (H2 j Hj)|specialize (H3 j Hj)]; rewrite !V in * by lia; assumption.
Qed.
Lemma nearest_unique : forall N Wd t i j, nearest N Wd t i -> nearest N Wd t j -> i = j.
Proof.
  intros N Wd t i j (Hi & Mi & Si) (Hj & Mj & Sj). destruct (Nat.lt_trichotomy i j) as [L|[E|L]]; [|exact E|]; exfalso.
  - specialize (Sj i L). specialize (Mi j Hj). lra.
  - specialize (Si j L). specialize (Mj i Hi). lra.
Qed.
Lemma put_length : forall l i v, length (put i v l) = length l.
Proof. induction l as [|x l IH]; intros i v; [destruct i; reflexivity|]. destruct i; cbn [put length]; [reflexivity|]. rewrite IH; reflexivity. Qed.
Lemma put_same : forall l i v, (i < length l)%nat -> nth i (put i v l) 0 = v.
Proof. induction l as [|x l IH]; intros i v H; cbn in H; [lia|]. destruct i; cbn [put nth]; [reflexivity|]. apply IH. lia. Qed.
Lemma put_other : forall l i j v, j <> i -> nth j (put i v l) 0 = nth j l 0.
Proof. induction l as [|x l IH]; intros i j v H; [destruct i; reflexivity|]. destruct i, j; cbn [put nth]; try reflexivity; [congruence|]. apply IH. lia. Qed.
Lemma zeros_nth : forall {A} (l : list A) j, nth j (map (fun _ => 0) l) 0 = 0.
Proof. induction l as [|x l IH]; intros [|j]; cbn; auto. Qed.
Lemma mark_put : forall p d i, delay_index p d = Ok i -> mark (n_samples p) (window_t p) (- d) (put i 1 (map (fun _ => 0) (grid_t p))).
Proof.
  intros p d i H. apply delay_nearest in H. split; [rewrite put_length, map_length; apply grid_t_length|]. exists i. split; [exact H|]. split.
  - apply put_same. rewrite map_length, grid_t_length. exact (proj1 H).
  - intros j Hj. rewrite put_other by exact Hj. apply zeros_nth.
Qed.
Lemma put_ratios_spec : forall p rs k l r, put_ratios p k rs l = Ok r -> length l = n_samples p -> length r = n_samples p /\ forall i, (i < n_samples p)%nat ->
  (exists j ratio, nth_error rs j = Some ratio /\ nth i r 0 = ratio /\ nearest (n_samples p) (window_t p) (- stage_delay (k + j)) i /\
     forall j' ratio', (j < j')%nat -> nth_error rs j' = Some ratio' -> ~ nearest (n_samples p) (window_t p) (- stage_delay (k + j')) i) \/
  (nth i r 0 = nth i l 0 /\ forall j ratio, nth_error rs j = Some ratio -> ~ nearest (n_samples p) (window_t p) (- stage_delay (k + j)) i).
Proof.
  intros p rs. induction rs as [|a rs IH]; intros k l r H L; cbn [put_ratios] in H.
  - injection H as <-. split; [exact L|]. intros i Hi. right. split; [reflexivity|]. intros [|j] ratio Hj; discriminate.
  - destruct (delay_index p (stage_delay k)) as [i0|] eqn:E0; [|discriminate]. cbn [bind] in H. pose proof (delay_nearest _ _ _ E0) as N0. destruct (IH (S k) (put i0 a l) r H) as (Lr & K); [rewrite put_length; exact L|]. split; [exact Lr|].
    intros i Hi. destruct (K i Hi) as [(j & ratio & H1 & H2 & H3 & H4)|(H1 & H2)].
    + left. exists (S j), ratio. split; [exact H1|]. split; [exact H2|]. rewrite Nat.add_succ_r. split; [exact H3|]. intros [|j'] ratio' Hj Hr; [lia|]. rewrite Nat.add_succ_r. apply (H4 j' ratio'); [lia|exact Hr].
    + destruct (Nat.eq_dec i i0) as [->|Ne].
      * left. exists 0%nat, a. split; [reflexivity|]. split; [rewrite H1; apply put_same; lia|]. rewrite Nat.add_0_r. split; [exact N0|]. intros [|j'] ratio' Hj Hr; [lia|]. rewrite Nat.add_succ_r. exact (H2 j' ratio' Hr).
      * right. split; [rewrite H1; apply put_other; exact Ne|]. intros [|j] ratio Hr; [rewrite Nat.add_0_r; intros X; apply Ne; exact (nearest_unique _ _ _ _ _ X N0)|]. rewrite Nat.add_succ_r. exact (H2 j ratio Hr).
Qed.
Lemma reals_length : forall ps rs, reals ps = Ok rs -> length rs = length ps.
Proof.
  unfold reals. induction ps as [|v ps IH]; intros rs H; cbn [map_res] in H; [injection H as <-; reflexivity|]. destruct (as_number v); [|discriminate]. cbn [bind] in H. destruct (map_res as_number ps) as [l|]; [|discriminate]. injection H as <-. cbn [length]. f_equal. apply IH. reflexivity.
Qed.
Lemma reals_nth : forall ps rs k, reals ps = Ok rs -> forall r, real_at ps k = Ok r <-> nth_error rs k = Some r.
Proof.
  unfold reals, real_at, at_. induction ps as [|v ps IH]; intros rs k H r; cbn [map_res] in H.
  - injection H as <-. destruct k; cbn; split; discriminate.
  - destruct (as_number v) as [q|] eqn:Ev; [|discriminate]. cbn [bind] in H. destruct (map_res as_number ps) as [l|] eqn:El; [|discriminate]. injection H as <-. destruct k as [|k]; cbn [nth_error of_option bind].
    + rewrite Ev. split; congruence.
    + apply (IH l k eq_refl).
Qed.
Lemma nth_error_firstn_lt : forall {A} n k (l : list A), (k < n)%nat -> nth_error (firstn n l) k = nth_error l k.
Proof. induction n as [|n IH]; intros k l H; [lia|]. destruct l as [|x l]; [reflexivity|]. destruct k as [|k]; [reflexivity|]. cbn [firstn nth_error]. apply IH. lia. Qed.
Lemma nth_error_firstn_some : forall {A} n k (l : list A) a, nth_error (firstn n l) k = Some a -> (k < n)%nat /\ nth_error l k = Some a.
Proof.
  intros A n k l a H. assert (k < n)%nat. { assert (X : nth_error (firstn n l) k <> None) by congruence. apply nth_error_Some in X. rewrite firstn_length in X. lia. } split; [assumption|]. rewrite nth_error_firstn_lt in H by assumption. exact H.
Qed.

Lemma filter_relation : forall p mask c x z, usable (n_samples p) (window_t p) -> length x = n_samples p -> length mask = n_samples p ->
  (do s <- filter_spectrum p (ifft_shift_ mask) x; Ok (scale c s)) = Ok z -> filters (n_samples p) (fun i => Cmul (RtoC c) (nth i mask C0)) x z.
Proof.
  intros p mask c x z U L Lm E. pose proof (pos_len p x U L) as Lp. destruct (filter_spectra p (ifft_shift_ mask) x (grid_dt_nz p U) Lp) as (out & X & E' & Lo & F & F'); [rewrite ifft_shift_length; lia|].
  rewrite E' in E. cbn [bind] in E. injection E as <-. exists X. eexists. split; [exact F|]. split; [apply fft_scale; exact F'|]. intros k Hk. destruct (fft_ok _ _ F) as (LX & _ & _).
  rewrite scale_nth, zipmul_nth by (rewrite ifft_shift_length; lia). rewrite ifft_shift_nth by lia. rewrite Lm. unfold upper. ring.
Qed.
Lemma filters_ext : forall N f h x z, (forall i, (i < N)%nat -> f i = h i) -> filters N f x z -> filters N h x z.
Proof. intros N f h x z E (X & Y & HX & HY & K). exists X, Y. split; [exact HX|]. split; [exact HY|]. intros k Hk. rewrite K by exact Hk. rewrite E; [reflexivity|]. unfold upper. apply Nat.mod_upper_bound. lia. Qed.
Lemma gain_pos : forall a p x g, In g (amplifier_gain a p x) -> 0 < g.
Proof. intros a p x g H. unfold amplifier_gain in H. apply in_map_iff in H as (s & <- & Hs). pose proof (small_signal_pos _ _ _ Hs). pose proof (real_power_nonneg (s * mean_power x / P_out_max a) (alpha a)). apply Rdiv_lt_0_compat; lra. Qed.
Lemma ln10_pos : 0 < ln 10. Proof. rewrite <- ln_1. apply ln_increasing; lra. Qed.
Lemma doubled_dB : forall G, 0 < G -> Rpower 10 (2 * (10 * log10 (sqrt G)) / 10) = G.
Proof.
  intros G H. pose proof ln10_pos. unfold Rpower, log10. assert (S0 : 0 < sqrt G) by (apply sqrt_lt_R0; exact H). replace (2 * (10 * (ln (sqrt G) / ln 10)) / 10 * ln 10) with (ln (sqrt G) + ln (sqrt G)) by (field; lra).
  rewrite <- ln_mult by exact S0. rewrite exp_ln by (apply Rmult_lt_0_compat; exact S0). apply sqrt_sqrt. lra.
Qed.

Lemma portrays_amplifier : forall a p s y, usable (n_samples p) (window_t p) -> length s = n_samples p -> optical_amplifier a p s = Ok y ->
  let r := map (fun x => 10 * log10 x) (ifft_shift_ (map sqrt (amplifier_gain a p s))) in
  length r = n_samples p /\ exists S Y, fft s = Ok S /\ fft y = Ok Y /\
    forall i, (i < n_samples p)%nat -> sample_power Y (upper (n_samples p) i) = Rpower 10 (2 * nth i r 0 / 10) * sample_power S (upper (n_samples p) i).
Proof.
  intros a p s y U L E r. assert (Lg : length (amplifier_gain a p s) = n_samples p) by (unfold amplifier_gain; rewrite map_length; apply small_signal_length).
  split; [unfold r; rewrite map_length, ifft_shift_length, map_length; exact Lg|]. unfold optical_amplifier in E.
  destruct (filter_spectra p (map (fun g => RtoC (sqrt g)) (amplifier_gain a p s)) s (grid_dt_nz p U) (pos_len p s U L)) as (out & X & E' & Lo & F & F'); [rewrite map_length; lia|].
  rewrite E' in E. injection E as <-. exists X. eexists. split; [exact F|]. split; [exact F'|]. intros i Hi. destruct (fft_ok _ _ F) as (LX & _ & _).
  assert (Hu : (upper (n_samples p) i < n_samples p)%nat) by (unfold upper; apply Nat.mod_upper_bound; lia).
  unfold sample_power. rewrite zipmul_nth by (rewrite map_length; lia). rewrite Cnorm2_mul. f_equal.
  rewrite (map_nth_d (fun g => RtoC (sqrt g)) _ _ 0) by (rewrite sqrt_0; reflexivity). rewrite Cnorm2_RtoC.
  set (G := nth (upper (n_samples p) i) (amplifier_gain a p s) 0). assert (PG : 0 < G) by (apply (gain_pos a p s); apply nth_In; lia).
  rewrite sqrt_sqrt by lra. unfold r. rewrite (nth_indep _ 0 (10 * log10 0)) by (rewrite map_length, ifft_shift_length, map_length; lia). rewrite (map_nth (fun x => 10 * log10 x)).
  rewrite ifft_shift_nth by (rewrite map_length; lia). rewrite map_length, Lg. fold (upper (n_samples p) i). rewrite (map_nth_d sqrt _ _ 0) by apply sqrt_0. fold G. symmetry. apply doubled_dB. exact PG.
Qed.
Lemma half_factor : forall th, Cnorm2 (Cadd (RtoC (1 / 2)) (Cmul (RtoC (1 / 2)) (cis th))) = Rsqr (cos (th / 2)).
Proof.
  intros th. unfold Cnorm2, Cadd, Cmul, RtoC, cis, re, im. cbn [fst snd]. pose proof (cos_2a_cos (th / 2)) as H1. pose proof (sin2_cos2 th) as H2. replace (2 * (th / 2)) with th in H1 by field. unfold Rsqr in *. nra.
Qed.
Lemma portrays_intensity : forall depth fr bias p (s sv1 sv2 : list C), usable (n_samples p) (window_t p) -> length s = n_samples p ->
  let tr := map (fun t => depth * cos (2 * PI * fr * t) + bias) (grid_t p) in let half := map (fun _ => RtoC (1 / 2)) s in
  broadcast Cmul half (map cis tr) = Ok sv1 -> broadcast Cadd half sv1 = Ok sv2 ->
  length (power_ sv2) = n_samples p /\ (forall i, 0 <= nth i (power_ sv2) 0 <= 1) /\
  forall x z, length x = n_samples p -> intensity_modulator depth fr bias p x = Ok z -> forall i, (i < n_samples p)%nat -> sample_power z i = Rpower 10 (- (4 / 10)) * nth i (power_ sv2) 0 * sample_power x i.
Proof.
  intros depth fr bias p s sv1 sv2 U L tr half E1 E2. assert (Lh : length half = n_samples p) by (unfold half; rewrite map_length; exact L). assert (Lt : length (map cis tr) = n_samples p) by (unfold tr; rewrite !map_length; apply grid_t_length).
  rewrite broadcast_same in E1 by lia. injection E1 as <-. match type of E2 with broadcast _ _ ?m = _ => set (m1 := m) in * end. assert (L1 : length m1 = n_samples p) by (unfold m1; rewrite map_length, combine_length; lia).
  rewrite broadcast_same in E2 by lia. injection E2 as <-. match goal with |- context [power_ ?m] => set (m2 := m) in * end. assert (L2 : length m2 = n_samples p) by (unfold m2; rewrite map_length, combine_length; lia).
  assert (V : forall i, (i < n_samples p)%nat -> nth i (power_ m2) 0 = Rsqr (cos ((depth * cos (2 * PI * fr * nth i (grid_t p) 0) + bias) / 2))).
  { intros i Hi. unfold power_. rewrite (map_nth_d Cnorm2 _ _ C0) by (unfold Cnorm2, C0, re, im; cbn [fst snd]; ring). unfold m2. rewrite (combine_nth_0 Cadd half m1 i C0 C0) by lia. unfold m1. rewrite (combine_nth_0 Cmul half (map cis tr) i C0 C0) by lia.
    assert (Eh : nth i half C0 = RtoC (1 / 2)) by (unfold half; rewrite (nth_indep _ C0 (RtoC (1 / 2))) by (rewrite map_length; lia); exact (map_nth (fun _ => RtoC (1 / 2)) s C0 i)).
    rewrite Eh. rewrite (nth_indep (map cis tr) C0 (cis 0)) by lia. rewrite map_nth. unfold tr. rewrite (nth_indep _ 0 (depth * cos (2 * PI * fr * 0) + bias)) by (rewrite map_length, grid_t_length; lia). rewrite (map_nth (fun t => depth * cos (2 * PI * fr * t) + bias)). apply half_factor. }
  split; [unfold power_; rewrite map_length; exact L2|]. split.
  - intros i. destruct (Nat.lt_ge_cases i (n_samples p)) as [Hi|Hi]; [|rewrite nth_overflow by (unfold power_; rewrite map_length; lia); lra]. rewrite V by exact Hi. match goal with |- context [cos ?a] => pose proof (COS_bound a); set (c := cos a) in * end. unfold Rsqr. nra.
  - intros x z Lx E i Hi. destruct (intensity_modulator_power depth fr bias p x U Lx) as (z' & E' & _ & K). rewrite E' in E. injection E as <-. rewrite K by lia. rewrite V by exact Hi. reflexivity.
Qed.
Lemma portrays_phase : forall depth fr shift p ang, usable (n_samples p) (window_t p) ->
  broadcast (fun t n => 2 * PI * fr * t + shift + n) (grid_t p) (repeat 0 (n_samples p)) = Ok ang -> let r := map (fun a => depth * cos a) ang in
  length r = n_samples p /\ forall x z, length x = n_samples p -> phase_modulator depth fr shift (repeat 0 (n_samples p)) p x = Ok z -> forall i, (i < n_samples p)%nat -> nth i z C0 = Cmul (nth i x C0) (cis (nth i r 0)).
Proof.
  intros depth fr shift p ang U E r. assert (Lr : length r = n_samples p).
  { unfold r. rewrite map_length. rewrite broadcast_same in E by (rewrite grid_t_length, repeat_length; reflexivity). injection E as <-. rewrite map_length, combine_length, grid_t_length, repeat_length. apply Nat.min_id. }
  split; [exact Lr|]. intros x z L Z i Hi. unfold phase_modulator in Z. rewrite E in Z. cbn [bind] in Z. fold r in Z. rewrite broadcast_same in Z by (rewrite map_length; lia). cbn [bind] in Z. rewrite ratio_m0, scale_1 in Z. injection Z as <-.
  rewrite (combine_nth_0 Cmul x (map cis r) i C0 C0) by (rewrite ?map_length; lia). rewrite (nth_indep (map cis r) C0 (cis 0)) by (rewrite map_length; lia). rewrite map_nth. reflexivity.
Qed.

Lemma portrays_recording : forall c ps p n s y f t, usable (n_samples p) (window_t p) -> bin_spans (n_samples p) (window_t p) n -> length s = n_samples p -> allowed c ps -> (c = WaveShaper -> n_samples p <> 2%nat) ->
  component c ps p s = Ok y -> recording true c ps p s = Ok f -> portrays c ps p s y (apply_effect f t).
Proof.
  intros c ps p n s y f t U Hn L Al N2 E R. destruct c; try exact I; cbn [recording component portrays] in *.
  - (* VariableOpticalAttenuator *) injection R as <-. reflexivity.
  - (* PhaseModulator *) destruct (real_at ps 0) as [d|]; [|discriminate]. destruct (real_at ps 1) as [fr|]; [|discriminate]. destruct (real_at ps 2) as [sh|]; [|discriminate]. cbn [bind] in *. destruct (broadcast _ _ _) as [ang|] eqn:Eb; [|discriminate]. injection R as <-.
    cbn [apply_effect]. destruct (portrays_phase d fr sh p ang U Eb) as (Lr & K). eexists. split; [reflexivity|]. split; [exact Lr|exact K].
  - (* IntensityModulator *) destruct (real_at ps 0) as [d|]; [|discriminate]. destruct (real_at ps 1) as [fr|]; [|discriminate]. destruct (real_at ps 2) as [b|]; [|discriminate]. cbn [bind] in *.
    destruct (broadcast Cmul _ _) as [m1|] eqn:E1; [|discriminate]. cbn [bind] in R. destruct (broadcast Cadd _ m1) as [m2|] eqn:E2; [|discriminate]. injection R as <-. destruct (portrays_intensity d fr b p s m1 m2 U L E1 E2) as (K1 & K2 & K3). eexists. split; [reflexivity|]. auto.
  - (* WaveShaper *) destruct (reals (firstn 15 ps)) as [am|] eqn:Ea; [|discriminate]. destruct (reals (skipn 15 ps)) as [ph|] eqn:Ep; [|discriminate]. cbn [bind] in *. injection R as <-.
    assert (La : length am = 15%nat /\ length ph = 15%nat).
    { destruct Al as [Al _]. cbn in Al. apply reals_length in Ea, Ep. rewrite firstn_length in Ea. rewrite skipn_length in Ep. rewrite Al in *. cbn in Ea, Ep. lia. }
    destruct La as (La & Lp). assert (F : fits (n_samples p) (length am * n)).
    { unfold fits. destruct (le_lt_dec (length am * n) (n_samples p)) as [H|H]; [left; exact H|right]. destruct (Nat.Even_or_Odd (length am * n - n_samples p)) as [Ev|Od]; [exact Ev|]. exfalso.
      rewrite (wave_shaper_misfit am ph p s n U L ltac:(lia) Hn H Od) in E; [discriminate|]. destruct U as [U _]. specialize (N2 eq_refl). lia. }
    rewrite (bin_samples_spec p n U Hn). set (a := fit_mask extinction_ratio (n_samples p) (bins n am)). set (h := fit_mask extinction_ratio (n_samples p) (bins n ph)).
    assert (L1 : length a = n_samples p) by (apply fits_length; rewrite bins_length; exact F). assert (L2 : length h = n_samples p) by (apply fits_length; rewrite bins_length, Lp, <- La; exact F).
    exists a, h. split; [reflexivity|]. split; [exact L1|]. split; [exact L2|]. intros x z Lx Z. unfold wave_shaper in Z. rewrite (bin_samples_spec p n U Hn) in Z. fold a h in Z. rewrite broadcast_same in Z by lia. cbn [bind] in Z.
    apply filter_relation in Z; [|exact U|exact Lx|rewrite map_length, combine_length; lia]. eapply filters_ext; [|exact Z]. intros i Hi. cbv beta. rewrite (combine_nth_0 (fun a h => Cmul (RtoC a) (cis h)) a h i 0 0) by lia. f_equal. f_equal. unfold dB_to_amplitude_ratio, ten_to. f_equal. field.
  - (* IntegratedSplitAndDelayLine *) destruct (reals ps) as [rs|] eqn:Er; [|discriminate]. cbn [bind] in *. destruct (put_ratios p 0 (firstn 8 rs) _) as [r|] eqn:Eq; [|discriminate]. injection R as <-. cbn [apply_effect].
    destruct (put_ratios_spec _ _ _ _ _ Eq) as (Lr & K); [rewrite map_length; apply grid_t_length|]. exists r. split; [reflexivity|]. split; [exact Lr|]. intros i Hi. unfold stage_delay, ten_to in K. cbn [Nat.add] in K. destruct (K i Hi) as [(j & ratio & H1 & H2 & H3 & H4)|(H1 & H2)].
    + left. apply nth_error_firstn_some in H1 as [J H1]. exists j, ratio. split; [exact J|]. split; [apply (reals_nth ps rs j Er); exact H1|]. split; [exact H2|]. split; [exact H3|]. intros k' ratio' Hk Hk8 Hr. apply (H4 k' ratio' Hk). rewrite nth_error_firstn_lt by exact Hk8. apply (reals_nth ps rs k' Er). exact Hr.
    + right. split; [rewrite H1; apply zeros_nth|]. intros k ratio Hk Hr. apply (H2 k ratio). rewrite nth_error_firstn_lt by exact Hk. apply (reals_nth ps rs k Er). exact Hr.
  - (* OpticalAmplifier *) destruct (amplifier_of ps) as [a|]; [|discriminate]. cbn [bind] in *. injection R as <-. cbn [apply_effect]. destruct (portrays_amplifier a p s y U L E) as (K1 & K2). eexists. split; [reflexivity|]. split; [exact K1|exact K2].
  - (* ProgrammableFilter *) destruct (reals (firstn 10 ps)) as [am|]; [|discriminate]. destruct (reals (skipn 10 ps)) as [ph|]; [|discriminate]. cbn [bind] in *.
    destruct (programmable_masks am ph p) as (a & h & E1 & E2 & E3 & L1 & L2 & _). rewrite E1 in R. cbn [bind] in R. rewrite E2 in R. cbn [bind] in R. injection R as <-. exists a, h. split; [reflexivity|]. split; [exact L1|]. split; [exact L2|].
    intros x z Lx Z. unfold programmable_filter in Z. rewrite E1 in Z. cbn [bind] in Z. rewrite E2 in Z. cbn [bind] in Z. rewrite E3 in Z. cbn [bind] in Z.
    apply filter_relation in Z; [|exact U|exact Lx|rewrite map_length, combine_length; lia]. eapply filters_ext; [|exact Z]. intros i Hi. cbv beta. rewrite (combine_nth_0 (fun a h => Cmul (RtoC a) (cis h)) a h i 0 0) by lia. f_equal. f_equal. unfold dB_to_amplitude_ratio, ten_to. f_equal. field.
  - (* SquareFilter *) destruct (real_at ps 0) as [bw|]; [|discriminate]. cbn [bind] in *. injection R as <-. cbn [apply_effect]. eexists. split; [reflexivity|]. split; [rewrite map_length; apply grid_f_length|].
    intros x z Lx Z. unfold square_filter in Z. destruct (Req_EM_T bw 0); [discriminate|]. apply filter_relation in Z; [|exact U|exact Lx|rewrite !map_length; apply grid_f_length]. eapply filters_ext; [|exact Z]. intros i Hi. cbv beta. rewrite ratio_0. rewrite (map_nth_d RtoC _ _ 0) by reflexivity. change (RtoC 1) with C1. ring.
  - (* DelayLine *) destruct (real_at ps 0) as [d|]; [|discriminate]. cbn [bind] in *. destruct (delay_index p d) as [i|] eqn:Ei; [|discriminate]. injection R as <-. eexists. exists d. split; [reflexivity|]. split; [reflexivity|]. apply mark_put. exact Ei.
  - (* IntegratedDelayLine *) destruct (real_at ps 0) as [d|]; [|discriminate]. cbn [bind] in *. destruct (delay_index p (d * ten_to (-12))) as [i|] eqn:Ei; [|discriminate]. injection R as <-. eexists. exists d. split; [reflexivity|]. split; [reflexivity|]. apply (mark_put p (d * ten_to (-12))). exact Ei.
Qed.

(** ** The whole run *)
Lemma recording_off : forall c ps p s f, recording false c ps p s = Ok f -> f = if clearing c then Stored None else Untouched.
Proof. intros c ps p s f H. destruct c; cbn [recording clearing] in *; congruence. Qed.
Lemma recording_kept : forall c ps p s f, recording true c ps p s = Ok f -> clearing c = false -> c <> OpticalAmplifier -> f = Untouched.
Proof. intros c ps p s f H K N. destruct c; cbn [recording clearing] in *; congruence. Qed.

Lemma edge_source : forall g e, wf g -> In e (g_edges g) -> exists c, model_at g (e_src e) c.
Proof. intros g e W He. destruct (proj1 (wf_ends g W e He)) as (d & H). exists (n_model d), d. split; [exact H|reflexivity]. Qed.
Lemma model_unique : forall g n c c', wf g -> model_at g n c -> model_at g n c' -> c = c'.
Proof.
  intros g n c c' W M M'. destruct (model_at_data g W n c M) as (d & E & <-). destruct (model_at_data g W n c' M') as (d' & E' & <-). congruence.
Qed.
Lemma position_unique : forall g n i j e, wf g -> nth_error (leaving g n) i = Some e -> nth_error (leaving g n) j = Some e -> i = j.
Proof.
  intros g n i j e W Hi Hj. pose proof (leaving_ids g n W) as N. apply NoDup_nth_error with (l := map e_id (leaving g n)); [exact N| |].
  - rewrite map_length. apply nth_error_Some. congruence.
  - rewrite !nth_error_map, Hi, Hj. reflexivity.
Qed.
Lemma enters_unique : forall st p g src val e s s', wf g -> enters st p g src val e s -> enters st p g src val e s' -> s' = s.
Proof.
  intros st p g src val e s s' W (c & ps & states & i & M & G & K & L & S) (c' & ps' & states' & i' & M' & G' & K' & L' & S'). pose proof (model_unique _ _ _ _ W M M'). subst c'. rewrite G in G'. injection G' as <-. rewrite K in K'. injection K' as <-.
  pose proof (position_unique _ _ _ _ _ W L L'). subst i'. congruence.
Qed.
Lemma received_strip : forall g src (val : edge -> list C * effect) n, map fst (received g (src, Untouched) val n) = received g src (fun e => fst (val e)) n.
Proof. intros g src val n. unfold received. destruct (arriving g n) as [|e l]; [reflexivity|]. rewrite map_map. reflexivity. Qed.

Section Run.
Variables (save : bool) (st : store) (p : grid) (g : graph) (src : list C) (T T' : transforms) (old sv : saves (list C)).
Hypothesis W : wf g.
Hypothesis A : acyclic g.
Hypothesis D : distinct_objects g.
Hypothesis P : (0 < n_samples p)%nat.
Hypothesis Run : simulate_recording save st p g src T old = (T', sv, Ok tt).

Lemma run_edges : exists val, solves (optics st p) tt g src val (fun n => match saved sv (PNode n) with Some s => s | None => src end) /\ (forall e, In e (g_edges g) -> saved sv (PEdge (e_id e)) = Some (val e)) /\
  (forall i, (forall e, In e (g_edges g) -> cid (e_model (e_dat e)) <> i) -> T' i = T i) /\
  forall e, In e (g_edges g) -> exists ps s f, enters st p g src val e s /\ get_params st (cid (e_model (e_dat e))) = Ok ps /\ component (ccls (e_model (e_dat e))) ps p s = Ok (val e) /\
    recording save (ccls (e_model (e_dat e))) ps p s = Ok f /\ T' (cid (e_model (e_dat e))) = apply_effect f (T (cid (e_model (e_dat e)))).
Proof.
  destruct (run_compare save st p g src W D T P old A) as (T'' & sv3 & r3 & E & E3 & Tr & _). rewrite Run in E. injection E as <- -> <-. specialize (Tr eq_refl).
  destruct (proj1 (propagate_solution (tagged save st p) g (src, Untouched) W tt [] (tagged_steady save st p g) A) tt sv3 E3) as (_ & val3 & out3 & Sol & Rec).
  assert (Ed : forall e, In e (g_edges g) -> exists ps s f, enters st p g src (fun e => fst (val3 e)) e s /\ get_params st (cid (e_model (e_dat e))) = Ok ps /\ recorded_component save (ccls (e_model (e_dat e))) ps p s = Ok (val3 e) /\ f = snd (val3 e)).
  { intros e He. destruct (edge_source g e W He) as (c & M). destruct (Sol (e_src e) c M) as (states & H1 & _ & H3). assert (Hl : In e (leaving g (e_src e))) by (apply In_leaving; split; [exact He|reflexivity]). apply In_nth_error in Hl as (i & Hi).
    destruct (H3 i e Hi) as ((s & f0) & Hs & Ha). cbn [node_act edge_act tagged snd fst] in H1, Ha. destruct (get_params st (cid c)) as [ps|] eqn:G; [|discriminate]. cbn [bind] in H1. rewrite received_strip in H1. destruct (connector _ _ _ _ _ _) as [ss|] eqn:Ec; [|discriminate]. cbn [bind] in H1. injection H1 as <-.
    rewrite nth_error_map in Hs. destruct (nth_error ss i) as [s1|] eqn:Es; [|discriminate]. injection Hs as -> <-. destruct (get_params st (cid (e_model (e_dat e)))) as [ps'|] eqn:G'; [|discriminate]. cbn [bind] in Ha. exists ps', s, (snd (val3 e)).
    split; [|auto]. exists c, ps, ss, i. auto. }
  exists (fun e => fst (val3 e)). split; [|split; [|split]].
  - intros n c M. destruct (Sol n c M) as (states & H1 & H2 & H3). cbn [node_act edge_act tagged optics snd fst] in *. destruct (get_params st (cid c)) as [ps|] eqn:G; [|discriminate]. cbn [bind] in *. rewrite received_strip in H1. destruct (connector _ _ _ _ _ _) as [ss|] eqn:Ec; [|discriminate]. cbn [bind] in H1. injection H1 as <-.
    exists ss. split; [reflexivity|]. split.
    + intros Z. specialize (H2 Z). rewrite nth_error_map in H2. destruct (nth_error ss 0) as [s0|] eqn:E0; [|discriminate]. rewrite saved_strip. assert (No : no_output g n) by (apply (no_output_dep g n); [destruct M as (d & M & _); exists d; exact M|exact Z]).
      rewrite (proj1 (proj2 Rec) n No). injection H2 as H2. cbn [option_map]. rewrite <- H2. reflexivity.
    + intros i e Hi. destruct (H3 i e Hi) as ((s & f0) & Hs & Ha). rewrite nth_error_map in Hs. destruct (nth_error ss i) as [s1|] eqn:Es; [|discriminate]. injection Hs as -> <-. exists s. split; [reflexivity|]. cbn [fst] in Ha.
      destruct (get_params st (cid (e_model (e_dat e)))) as [ps'|]; [|discriminate]. cbn [bind] in *. destruct (val3 e) as [y f]. exact (proj1 (recorded_ok _ _ _ _ _ _ _ Ha)).
  - intros e He. rewrite saved_strip. rewrite (proj1 Rec e He : saved sv3 (PEdge (e_id e)) = Some (val3 e)). reflexivity.
  - exact (proj2 Tr).
  - intros e He. destruct (Ed e He) as (ps & s & f & H1 & H2 & H3 & ->). exists ps, s, (snd (val3 e)). destruct (val3 e) as [y f] eqn:Ev. destruct (recorded_ok _ _ _ _ _ _ _ H3) as [K1 K2]. cbn [snd fst] in *. split; [exact H1|]. split; [exact H2|]. split; [exact K1|]. split; [exact K2|].
    rewrite (proj1 Tr e He). unfold tag_of. rewrite (proj1 Rec e He : saved sv3 (PEdge (e_id e)) = Some (val3 e)). rewrite Ev. reflexivity.
Qed.
End Run.
