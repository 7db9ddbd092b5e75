(** Proofs of C96. *)
From Coq Require Import Reals Qreals List Arith Bool Lia Lra ZArith QArith Permutation.
From Verif Require Import Base GraphModel GraphSpec GraphProofs TopoProofs OperatorsModel OperatorsSpec OperatorsProofs EvolutionProofs TypingProofs InitProofs ParamsModel ParamsSpec EvolverModel EvolverSpec EvolveSpec BuildProofs
  PropagateModel PropagateSpec PropagateProofs FlowSpec FlowProofs Complex ArrayModel ComponentModel ComponentSpec MoreComponentsSpec ComponentProofs ComponentProperties FourierProofs
  OpticsModel OpticsSpec OpticsSessionProofs OpticsComponentProofs OpticsProofs StrengthProofs NetworkProofs RedundantSpec.
Import ListNotations.
Local Open Scope nat_scope.
Local Open Scope R_scope.

Lemma splitter_through : forall s, splitter [] 1 1 [s] = Ok [s].
Proof.
  intros s. unfold splitter, splitter_rows, splitter_weights. cbn [length tabulate app firstn product fold_right seq]. unfold broadcast. cbn.
  rewrite Nat.eqb_refl. cbn [negb andb].
  f_equal. f_equal. apply (list_eq_nth C0); [apply tabulate_length|]. rewrite tabulate_length. intros t Ht. rewrite tabulate_nth by exact Ht.
  cbn. replace (- (2 * PI) * (0 / 1 + 0 / 1)) with 0 by (unfold Rdiv; ring). rewrite cis_0, sqrt_1. unfold Rdiv. rewrite Rinv_1, Rmult_1_r. change (RtoC 1) with C1. ring.
Qed.

Lemma real_at_num : forall ps a, nth_error ps 0 = Some (Num a) -> real_at ps 0 = Ok (Q2R a).
Proof. intros ps a H. unfold real_at, at_. rewrite H. reflexivity. Qed.

Lemma sums : forall a b a' b' : Q, (a + b == a' + b')%Q -> Q2R a + Q2R b = Q2R a' + Q2R b'.
Proof. intros. rewrite <- !Q2R_plus. apply Qeq_eqR. assumption. Qed.

Lemma one_number_law : forall k ps qs ps' qs' a b a' b' p x, one_number k -> usable (n_samples p) (window_t p) -> length x = n_samples p ->
  nth_error ps 0 = Some (Num a) -> nth_error qs 0 = Some (Num b) -> nth_error ps' 0 = Some (Num a') -> nth_error qs' 0 = Some (Num b') -> (a + b == a' + b')%Q ->
  bind (component k ps p x) (component k qs p) = bind (component k ps' p x) (component k qs' p).
Proof.
  intros k ps qs ps' qs' a b a' b' p x K U L Ha Hb Ha' Hb' E. apply sums in E.
  assert (F : forall h : R -> list C -> res (list C), (forall vs v z, nth_error vs 0 = Some (Num v) -> component k vs p z = h (Q2R v) z) ->
    (exists H : R -> res (list C), forall l m, bind (h l x) (h m) = H (l + m)) -> bind (component k ps p x) (component k qs p) = bind (component k ps' p x) (component k qs' p)).
  { intros h Hh (H & HH). rewrite (Hh _ _ _ Ha), (Hh _ _ _ Ha'). transitivity (bind (h (Q2R a) x) (h (Q2R b))); [destruct (h (Q2R a) x); cbn [bind]; [apply Hh; exact Hb|reflexivity]|].
    rewrite HH, E, <- HH. destruct (h (Q2R a') x); cbn [bind]; [symmetry; apply Hh; exact Hb'|reflexivity]. }
  destruct K as [-> |[-> |[-> |[-> | ->]]]].
  - apply (F (fun l z => dispersive_fiber l p z)); [intros vs v z H; cbn [component]; rewrite (real_at_num _ _ H); reflexivity|]. exists (fun l => dispersive_fiber l p x). intros. apply C51_fibers; assumption.
  - apply (F (fun l z => delay_line l p z)); [intros vs v z H; cbn [component]; rewrite (real_at_num _ _ H); reflexivity|]. exists (fun l => delay_line l p x). intros. apply C51_delays; assumption.
  - apply (F (fun l z => integrated_delay_line l p z)); [intros vs v z H; cbn [component]; rewrite (real_at_num _ _ H); reflexivity|]. exists (fun l => delay_line (l * ten_to (-12)) p x). intros.
    unfold integrated_delay_line. rewrite Rmult_plus_distr_r. apply C51_delays; assumption.
  - apply (F (fun l z => phase_shifter l p z)); [intros vs v z H; cbn [component]; rewrite (real_at_num _ _ H); reflexivity|]. exists (fun l => phase_shifter l p x). intros. apply C51_phases; assumption.
  - apply (F (fun l z => Ok (attenuator l z))); [intros vs v z H; cbn [component]; rewrite (real_at_num _ _ H); reflexivity|]. exists (fun l => Ok (attenuator l x)). intros. cbn [bind]. rewrite attenuator_compose. reflexivity.
Qed.

Lemma holds_params : forall s c ps, holds s c ps -> get_params s (cid c) = Ok ps.
Proof. intros s c ps (o & H). exact (has_params _ _ _ _ H). Qed.

Lemma single_list : forall {A} (l : list A) a, NoDup l -> In a l -> (forall x, In x l -> x = a) -> l = [a].
Proof.
  intros A l a N I H. destruct l as [|x [|y l]]; [destruct I| |].
  - rewrite (H x (or_introl eq_refl)). reflexivity.
  - exfalso. inversion N as [|? ? Hx _]. apply Hx. left. rewrite (H x (or_introl eq_refl)), (H y (or_intror (or_introl eq_refl))). reflexivity.
Qed.

Lemma nodup_tail : forall {A} (l l' : list A), NoDup (l ++ l') -> NoDup l'.
Proof. intros A l l' N. induction l as [|x l IH]; [exact N|]. inversion N. apply IH. assumption. Qed.

Lemma node_data_inj : forall g n x y, wf g -> In (n, x) (g_nodes g) -> In (n, y) (g_nodes g) -> x = y.
Proof. intros g n x y W H H'. apply (node_data_iff g n _ W) in H, H'. rewrite H in H'. injection H' as <-. reflexivity. Qed.

Lemma edges_nodup : forall g, wf g -> NoDup (g_edges g).
Proof. intros g W. pose proof (wf_keys g W) as N. eapply NoDup_map_inv. exact N. Qed.

Section Moved.
Variables (st st' : store) (p : grid) (g : graph) (src : list C) (n0 : nat) (e f : edge) (a b a' b' : Q).
Hypothesis W : wf g.
Hypothesis A : acyclic g.
Hypothesis T : typed g.
Hypothesis D : distinct_objects g.
Hypothesis Fu : furnished g st.
Hypothesis Fu' : furnished g st'.
Hypothesis U : usable (n_samples p) (window_t p).
Hypothesis Ls : length src = n_samples p.
Hypothesis Hn : bin_spans (n_samples p) (window_t p) n0.
Hypothesis Se : in_series g e f.
Hypothesis K : one_number (ccls (e_model (e_dat e))).
Hypothesis Ke : ccls (e_model (e_dat f)) = ccls (e_model (e_dat e)).
Hypothesis Sa : set_to st (e_model (e_dat e)) a.
Hypothesis Sb : set_to st (e_model (e_dat f)) b.
Hypothesis Sa' : set_to st' (e_model (e_dat e)) a'.
Hypothesis Sb' : set_to st' (e_model (e_dat f)) b'.
Hypothesis Sum : (a + b == a' + b')%Q.
Hypothesis Same : same_but g st st' e f.

Lemma e_not_f : e <> f.
Proof. intros E. destruct Se as (He & _ & J & _). apply (A (e_src e)). rewrite <- E in J. apply Relation_Operators.t_step. exists e. auto. Qed.

Lemma same_params : forall c, In c (components g) -> c <> e_model (e_dat e) -> c <> e_model (e_dat f) -> get_params st (cid c) = get_params st' (cid c).
Proof.
  intros c Hc N1 N2. assert (X : exists ps, holds st c ps).
  { unfold components in Hc. apply in_app_or in Hc as [Hc|Hc]; apply in_map_iff in Hc as (x & <- & Hx).
    - destruct (proj2 Fu (fst x) (n_model (snd x))) as (o & ps & H & _); [exists (snd x); destruct x; auto|]. exists ps, o. exact H.
    - destruct (proj1 Fu x Hx) as (o & ps & H & _). exists ps, o. exact H. }
  destruct X as (ps & H). rewrite (holds_params _ _ _ H). apply (Same c Hc N1 N2) in H. rewrite (holds_params _ _ _ H). reflexivity.
Qed.

Lemma node_component : forall n c, model_at g n c -> In c (components g) /\ forall d, In d (g_edges g) -> c <> e_model (e_dat d).
Proof.
  intros n c (x & Hx & Ec). assert (I : In c (map (fun q => n_model (snd q)) (g_nodes g))) by (apply in_map_iff; exists (n, x); auto). split; [apply in_or_app; left; exact I|].
  intros d Hd E. unfold distinct_objects, components in D. rewrite map_app in D. apply (NoDup_app_disjoint' _ _ (cid c) D); [apply in_map; exact I|]. rewrite E. apply in_map. apply (in_map (fun d => e_model (e_dat d))). exact Hd.
Qed.

Lemma edge_component : forall d d', In d (g_edges g) -> In d' (g_edges g) -> e_model (e_dat d) = e_model (e_dat d') -> d = d'.
Proof.
  intros d d' H H' E. unfold distinct_objects, components in D. rewrite map_app in D. assert (D2 := nodup_tail _ _ D). clear D. rename D2 into D. rewrite map_map in D.
  revert H H'. induction (g_edges g) as [|x l IH]; [intros []|]. cbn [map] in D. apply NoDup_cons_iff in D as [Nx Nl]. intros [->|H] [->|H']; [reflexivity| | |exact (IH Nl H H')]; exfalso; apply Nx.
  - rewrite E. apply (in_map (fun d => cid (e_model (e_dat d)))). exact H'.
  - rewrite <- E. apply (in_map (fun d => cid (e_model (e_dat d)))). exact H.
Qed.

Definition moved (val : edge -> list C) (y : list C) (d : edge) : list C := if eid_eqb (e_id d) (e_id e) then y else val d.
Lemma moved_e : forall val y, moved val y e = y.
Proof. intros. unfold moved. assert (X : eid_eqb (e_id e) (e_id e) = true) by (apply eid_eqb_eq; reflexivity). rewrite X. reflexivity. Qed.
Lemma moved_other : forall val y d, In d (g_edges g) -> d <> e -> moved val y d = val d.
Proof.
  intros val y d Hd N. unfold moved. destruct (eid_eqb (e_id d) (e_id e)) eqn:X; [|reflexivity]. apply eid_eqb_eq in X. exfalso. apply N.
  apply (same_edge g d e W Hd); [exact (proj1 Se)|exact X].
Qed.

Lemma moved_solves : forall val out, solves (optics st p) tt g src val out -> exists y, solves (optics st' p) tt g src (moved val y) out.
Proof.
  intros val out Sol. destruct Se as (He & Hf & J & Oe & Of & (c & Mc & Cc)).
  destruct (wf_ends g W e He) as [Ns Nd].
  destruct Sa as (ps & Ha & Pa). destruct Sb as (qs & Hb & Pb). destruct Sa' as (ps' & Ha' & Pa'). destruct Sb' as (qs' & Hb' & Pb').
  apply holds_params in Ha, Hb, Ha', Hb'.
  (* the field that enters e *)
  assert (Ms : exists m, model_at g (e_src e) m) by (destruct Ns as (x & Hx); exists (n_model x), x; auto). destruct Ms as (m & Ms).
  assert (Le : forall d, In d (g_edges g) -> length (val d) = n_samples p) by (exact (run_lengths st p g src n0 W A T Fu U Ls Hn (optics st p) (phased_optics st p g) val out Sol)).
  assert (Lr : forall k s, In s (received g src val k) -> length s = n_samples p).
  { intros k s Hs. unfold received in Hs. destruct (arriving g k) as [|d0 l] eqn:Ea; [destruct Hs as [<-|[]]; exact Ls|]. rewrite <- Ea in Hs. apply in_map_iff in Hs as (d & <- & Hd). apply Le. apply (In_arriving g k d W) in Hd. apply Hd. }
  assert (Ll : forall k, length (received g src val k) = Nat.max 1 (arrivals g k)).
  { intros k. unfold received, arrivals. rewrite <- (Permutation_length (arriving_perm g W k)). destruct (arriving g k); [reflexivity|]. rewrite map_length. cbn [length]. lia. }
  destruct (Sol _ _ Ms) as (states & E1 & _ & E3).
  pose proof (node_works st p g src W T Fu U Ls (optics st p) (phased_optics st p g) _ _ _ Ms (Ll _) (Lr _)) as Nw.
  assert (Lst : forall s, In s states -> length s = n_samples p).
  { destruct (outputs_of g (e_src e)) as [k|]; [destruct Nw as (ss & Ew & _ & H)|destruct Nw as (er & Ew)]; rewrite Ew in E1; cbn [snd] in E1; [|discriminate]. injection E1 as <-. exact H. }
  assert (Ie : exists i, nth_error (leaving g (e_src e)) i = Some e) by (apply In_nth_error; apply In_leaving; auto). destruct Ie as (i & Ie).
  destruct (E3 i e Ie) as (x & Hx & Ex). assert (Lx : length x = n_samples p) by (apply Lst; exact (nth_error_In _ _ Hx)).
  assert (Ex' : component (ccls (e_model (e_dat e))) ps p x = Ok (val e)). { cbn [edge_act optics snd] in Ex. rewrite Ha in Ex. exact Ex. }
  (* the connection e under the new setting *)
  assert (Y : exists y, component (ccls (e_model (e_dat e))) ps' p x = Ok y /\ length y = n_samples p).
  { destruct (proj1 Fu' e He) as (o & ps2 & H2 & Al). apply has_params in H2. rewrite Ha' in H2. injection H2 as <-.
    apply (component_ok _ ps' p x n0 Al (edge_comp g e W T He) U Lx Hn). split; [intros Q|intros Q]; exfalso; destruct K as [K'|[K'|[K'|[K'|K']]]]; rewrite K' in Q; discriminate. }
  destruct Y as (y & Ey & Ly). exists y.
  (* the splitter between them *)
  assert (Ar : arriving g (e_dst e) = [e]).
  { apply single_list; [|apply (In_arriving g _ e W); auto|]. 
    - apply (Permutation_NoDup (l := filter (fun d => Nat.eqb (e_dst d) (e_dst e)) (g_edges g))); [apply Permutation_sym, (arriving_perm g W)|]. apply NoDup_filter, edges_nodup, W.
    - intros d Hd. apply (In_arriving g _ d W) in Hd. apply Oe; apply Hd. }
  assert (Lf : leaving g (e_dst e) = [f]).
  { apply single_list; [apply NoDup_filter, edges_nodup, W|apply In_leaving; split; [exact Hf|symmetry; exact J]|]. intros d Hd. apply In_leaving in Hd as [Hd Ed]. apply Of; [exact Hd|]. rewrite Ed. exact J. }
  assert (Nar : arrivals g (e_dst e) = 1%nat). { unfold arrivals. rewrite <- (Permutation_length (arriving_perm g W (e_dst e))), Ar. reflexivity. }
  assert (Ndp : departures g (e_dst e) = 1%nat) by (rewrite departures_leaving, Lf; reflexivity).
  assert (Pc : forall s, furnished g s -> get_params s (cid c) = Ok []).
  { intros s F. destruct (proj2 F _ _ Mc) as (o & cs & H & Rt). apply has_params in H. rewrite H. rewrite Cc in Rt. cbn [family_of] in Rt. destruct Rt as [Rt _]. rewrite Ndp in Rt. destruct cs; [reflexivity|discriminate]. }
  assert (Through : forall s z, furnished g s -> snd (node_act (optics s p) c [z] 1 1 tt) = Ok [z]).
  { intros s z F. cbn [node_act optics snd]. rewrite (Pc s F). cbn [bind]. rewrite Cc. cbn [connector reals map_res bind]. apply splitter_through. }
  assert (Nl : e_dst e <> e_src e). { intros E. apply (A (e_src e)). apply Relation_Operators.t_step. exists e. auto. }
  intros n m' Mm. destruct (Nat.eq_dec n (e_dst e)) as [->|Nn].
  - assert (m' = c). { destruct Mm as (x1 & H1 & <-), Mc as (x2 & H2 & <-). f_equal. exact (node_data_inj g (e_dst e) x1 x2 W H1 H2). } subst m'.
    exists [y]. split; [|split].
    + unfold received. rewrite Ar, Nar, Ndp. cbn [map]. rewrite moved_e. apply Through, Fu'.
    + rewrite Ndp. discriminate.
    + intros i' d Hd. rewrite Lf in Hd. destruct i' as [|[|i']]; cbn [nth_error] in Hd; try discriminate. injection Hd as <-. exists y. split; [reflexivity|].
      rewrite moved_other; [|exact Hf|apply not_eq_sym, e_not_f].
      destruct (Sol _ _ Mc) as (ss & Ess & _ & Ess3). unfold received in Ess. rewrite Ar, Nar, Ndp in Ess. cbn [map] in Ess. rewrite (Through st _ Fu) in Ess. injection Ess as <-.
      destruct (Ess3 0%nat f) as (z & Hz & Ez); [rewrite Lf; reflexivity|]. cbn [nth_error] in Hz. injection Hz as <-. cbn [edge_act optics snd] in *. rewrite Hb in Ez. rewrite Hb'. cbn [bind] in *. rewrite Ke in *.
      pose proof (one_number_law _ ps qs ps' qs' a b a' b' p x K U Lx Pa Pb Pa' Pb' Sum) as Law. rewrite Ex', Ey in Law. cbn [bind] in Law. rewrite <- Law. exact Ez.
  - destruct (Sol n m' Mm) as (ss & Q1 & Q2 & Q3). destruct (node_component n m' Mm) as [Cm Nm].
    assert (Er : received g src (moved val y) n = received g src val n).
    { apply (received_ext g src W). intros d Hd Ed. apply moved_other; [exact Hd|]. intros ->. apply Nn. symmetry. exact Ed. }
    exists ss. split; [|split; [exact Q2|]].
    + rewrite Er. cbn [node_act optics snd] in *. rewrite <- (same_params m' Cm (Nm e He) (Nm f Hf)). exact Q1.
    + intros i' d Hd. destruct (Q3 i' d Hd) as (s & Hs & Es). exists s. split; [exact Hs|]. assert (Hd' := nth_error_In _ _ Hd). apply In_leaving in Hd' as [Hd1 Hd2].
      destruct (eid_eqb (e_id d) (e_id e)) eqn:X.
      * apply eid_eqb_eq in X. assert (d = e) by (apply (same_edge g d e W Hd1 He X)). subst d. rewrite moved_e. subst n.
        assert (m' = m). { destruct Mm as (x1 & H1 & <-), Ms as (x2 & H2 & <-). f_equal. exact (node_data_inj g (e_src e) x1 x2 W H1 H2). } subst m'. rewrite Q1 in E1. injection E1 as <-.
        assert (i' = i). { pose proof (leaving_ids g (e_src e) W) as Nd2. apply NoDup_map_inv in Nd2. apply (proj1 (NoDup_nth_error _) Nd2); [apply nth_error_Some; rewrite Hd; discriminate|rewrite Hd, Ie; reflexivity]. } subst i'.
        rewrite Hx in Hs. injection Hs as <-. cbn [edge_act optics snd]. rewrite Ha'. exact Ey.
      * assert (Nde : d <> e). { intros ->. assert (Y2 : eid_eqb (e_id e) (e_id e) = true) by (apply eid_eqb_eq; reflexivity). rewrite Y2 in X. discriminate. }
        rewrite (moved_other val y d Hd1 Nde). assert (Ndf : d <> f). { intros ->. apply Nn. rewrite <- Hd2. symmetry. exact J. }
        cbn [edge_act optics snd] in *. rewrite <- (same_params (e_model (e_dat d))); [exact Es| | |].
        -- apply in_or_app. right. apply (in_map (fun d => e_model (e_dat d))). exact Hd1.
        -- intros E. apply Nde, edge_component; assumption.
        -- intros E. apply Ndf, edge_component; assumption.
Qed.

Lemma moved_simulates : forall old old', snd (simulate st p g src old) = Ok tt -> snd (simulate st' p g src old') = Ok tt /\
  forall pl, pl <> PEdge (e_src e, e_dst e, e_key e) -> saved (fst (simulate st' p g src old')) pl = saved (fst (simulate st p g src old)) pl.
Proof.
  intros old old'. unfold simulate. destruct (propagate (optics st p) g src tt old) as [[x sv] r] eqn:E. cbn [fst snd]. intros ->.
  destruct (proj1 (propagate_solution (optics st p) g src W tt old (kind_steady (optics st p) g) A) x sv E) as (_ & val & out & Sol & Rc).
  destruct (moved_solves val out Sol) as (y & Sol').
  destruct (proj2 (propagate_solution (optics st' p) g src W tt old' (kind_steady (optics st' p) g) A) (moved val y) out Sol') as (sv' & E' & Rc'). rewrite E'. cbn [fst snd]. split; [reflexivity|].
  destruct Rc as (R1 & R2 & R3 & R4), Rc' as (R1' & R2' & R3' & R4'). intros [n|i] Np.
  - destruct (existsb (fun d => Nat.eqb (e_src d) n) (g_edges g)) eqn:X.
    + apply existsb_exists in X as (d & Hd & Ed). apply Nat.eqb_eq in Ed. assert (No : ~ no_output g n) by (intros [_ No]; exact (No d Hd Ed)). rewrite R3, R3' by exact No. reflexivity.
    + destruct (node_data g n) as [nd|] eqn:En.
      * assert (No : no_output g n). { split; [exists nd; apply (node_data_iff g n nd W); exact En|]. intros d Hd Ed. assert (Y : existsb (fun d => Nat.eqb (e_src d) n) (g_edges g) = true) by (apply existsb_exists; exists d; split; [exact Hd|apply Nat.eqb_eq; exact Ed]). rewrite Y in X. discriminate. }
        rewrite (R2 n No), (R2' n No). reflexivity.
      * assert (No : ~ no_output g n). { intros [(nd & Hnd) _]. apply (node_data_iff g n nd W) in Hnd. rewrite Hnd in En. discriminate. } rewrite R3, R3' by exact No. reflexivity.
  - destruct (existsb (fun d => eid_eqb (e_id d) i) (g_edges g)) eqn:X.
    + apply existsb_exists in X as (d & Hd & Ed). apply eid_eqb_eq in Ed. subst i. assert (N : d <> e) by (intros ->; apply Np; reflexivity).
      change (e_id d) with (e_src d, e_dst d, e_key d). rewrite (R1 d Hd), (R1' d Hd). f_equal. apply moved_other; assumption.
    + assert (N : forall d, In d (g_edges g) -> (e_src d, e_dst d, e_key d) <> i). { intros d Hd Ed. assert (Y : existsb (fun d => eid_eqb (e_id d) i) (g_edges g) = true) by (apply existsb_exists; exists d; split; [exact Hd|apply eid_eqb_eq; exact Ed]). rewrite Y in X. discriminate. }
      rewrite (R4 i N), (R4' i N). reflexivity.
Qed.
End Moved.
