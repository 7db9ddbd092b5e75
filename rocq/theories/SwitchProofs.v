(** Noise at the level of the calls a program makes (C19, C20). *)
From Coq Require Import List Arith Bool Lia Permutation.
From Verif Require Import Base GraphModel GraphSpec ParamsModel PropagateModel PropagateSpec SimulateModel SimulateSpec GraphProofs TopoProofs PropagateProofs SimulateProofs.
Import ListNotations.

(** ** Two runs side by side *)
Section Related.
Context {S X Y : Type}.
Variable B : behaviour S X.
Variable B' : behaviour S Y.
Variable g : graph.
Variable src : S.
Variable Rel : X -> Y -> Prop.
Hypothesis edge_rel : forall e s x y, In e (g_edges g) -> Rel x y ->
  snd (edge_act B (e_model (e_dat e)) s x) = snd (edge_act B' (e_model (e_dat e)) s y) /\ Rel (fst (edge_act B (e_model (e_dat e)) s x)) (fst (edge_act B' (e_model (e_dat e)) s y)).
Hypothesis node_rel : forall c ss i o x y, Rel x y ->
  snd (node_act B c ss i o x) = snd (node_act B' c ss i o y) /\ Rel (fst (node_act B c ss i o x)) (fst (node_act B' c ss i o y)).

Definition agree (a : X * saves S * res unit) (b : Y * saves S * res unit) : Prop :=
  snd (fst a) = snd (fst b) /\ snd a = snd b /\ Rel (fst (fst a)) (fst (fst b)).

Lemma send_agree : forall es i states x y sv, incl es (g_edges g) -> Rel x y -> agree (send B es i states x sv) (send B' es i states y sv).
Proof.
  induction es as [|e es IH]; intros i states x y sv In1 H; simpl; [repeat split; exact H|]. destruct (nth_error states i) as [s|]; [|repeat split; exact H].
  destruct (edge_rel e s x y (In1 e (or_introl eq_refl)) H) as [E1 E2].
  destruct (edge_act B (e_model (e_dat e)) s x) as [x1 r1], (edge_act B' (e_model (e_dat e)) s y) as [y1 r2]. simpl in E1, E2. subst r2.
  destruct r1 as [s'|er]; [|repeat split; exact E2]. apply IH; [|exact E2]. intros a Ha; apply In1; right; exact Ha.
Qed.
Lemma visit_agree : forall n x y sv, Rel x y -> agree (visit B g src n x sv) (visit B' g src n y sv).
Proof.
  intros n x y sv H. unfold visit. destruct (node_inputs g src sv n) as [ins|]; [|repeat split; exact H]. destruct (node_data g n) as [nd|]; [|repeat split; exact H].
  destruct (node_rel (n_model nd) ins (in_degree g n) (out_degree g n) x y H) as [E1 E2].
  destruct (node_act B (n_model nd) ins (in_degree g n) (out_degree g n) x) as [x1 r1], (node_act B' (n_model nd) ins (in_degree g n) (out_degree g n) y) as [y1 r2]. simpl in E1, E2. subst r2.
  destruct r1 as [states|er]; [|repeat split; exact E2].
  destruct (get_out_degree g n =? 0); [destruct states; [repeat split; exact E2|]|]; apply send_agree; solve [apply out_edges_incl|exact E2].
Qed.
Lemma visit_all_agree : forall r x y sv, Rel x y -> agree (visit_all B g src r x sv) (visit_all B' g src r y sv).
Proof.
  induction r as [|n r IH]; intros x y sv H; simpl; [repeat split; exact H|]. destruct (visit_agree n x y sv H) as (E1 & E2 & E3).
  destruct (visit B g src n x sv) as [[x1 sv1] r1], (visit B' g src n y sv) as [[y1 sv2] r2]. simpl in E1, E2, E3. subst sv2 r2.
  destruct r1 as [u|er]; [apply IH; exact E3|repeat split; exact E3].
Qed.
Lemma propagate_agree : forall x y old old', Rel x y -> agree (propagate B g src x old) (propagate B' g src y old').
Proof. intros x y old old' H. unfold propagate. destruct (topological_sort g); [unfold propagate_along; apply visit_all_agree; exact H|repeat split; exact H]. Qed.
End Related.

Section Calls.
Context {S V R : Type}.
Variable ph : physics S V R.
Variable st : store.
Variable g : graph.
Let process := @process S V R.

(** ** The switch *)
Lemma run_switch : forall p src (w : process), switch_of (fst (run ph st g p src w)) = switch_of w.
Proof.
  intros p src w. unfold run, switch_of. pose proof (run_switch_noise ph st g p src (p_noise w) (p_saves w)) as K.
  destruct (propagate (parts ph st p) g src (p_noise w) (p_saves w)) as [[x sv] r]. exact K.
Qed.

Definition place_of (q : option place) : res place :=
  match q with Some q => Ok q | None => do n <- of_option IndexError (get_output_node g); Ok (PNode n) end.
Lemma place_of_ok : forall q, (q <> None \/ exists n, no_output g n) -> wf g -> exists pl, place_of q = Ok pl.
Proof.
  intros q H W. unfold place_of. destruct q as [pl|]; [exists pl; reflexivity|]. destruct H as [H|(n & Hn)]; [contradiction|].
  unfold get_output_node. destruct (find _ (node_ids g)) as [m|] eqn:E; [exists (PNode m); reflexivity|]. exfalso.
  assert (K := find_none _ _ E n (proj2 (node_ids_is_node g n) (proj1 Hn))). cbn beta in K.
  destruct (nx_out_edges g n) as [|e l] eqn:El; [discriminate|]. assert (He : In e (nx_out_edges g n)) by (rewrite El; left; reflexivity).
  unfold nx_out_edges in He. apply filter_In in He as [He1 He2]. apply Nat.eqb_eq in He2. apply (proj2 Hn e He1); exact He2.
Qed.
Lemma place_of_err : forall q, ~ (q <> None \/ exists n, no_output g n) -> place_of q = Err IndexError.
Proof.
  intros q H. unfold place_of. destruct q as [pl|]; [exfalso; apply H; left; discriminate|].
  unfold get_output_node. destruct (find _ (node_ids g)) as [m|] eqn:E; [|reflexivity]. exfalso. apply H. right. exists m.
  apply find_some in E as [E1 E2]. split; [apply node_ids_is_node; exact E1|]. intros e He Q. destruct (nx_out_edges g m) eqn:El; [|discriminate].
  assert (K : In e (nx_out_edges g m)) by (unfold nx_out_edges; apply filter_In; split; [exact He|apply Nat.eqb_eq; exact Q]). rewrite El in K. exact K.
Qed.

Lemma get_output_cases : forall b p src q (w : process), wf g ->
  (~ (q <> None \/ exists n, no_output g n) /\ get_output ph b st g p src q w = (w, Err IndexError)) \/
  ((q <> None \/ exists n, no_output g n) /\ exists pl, place_of q = Ok pl /\
    match run ph st g p src (with_switch b w) with
    | (w', Err e) => get_output ph b st g p src q w = (w', Err e)
    | (w', Ok _) => get_output ph b st g p src q w = (with_switch (switch_of w) w', measure (p_saves w') pl)
    end).
Proof.
  intros b p src q w W. unfold get_output. fold (place_of q).
  assert (D : (q <> None \/ exists n, no_output g n) \/ ~ (q <> None \/ exists n, no_output g n)).
  { destruct q as [pl|]; [left; left; discriminate|]. destruct (place_of None) as [pl|e] eqn:E.
    - left. right. unfold place_of in E. destruct (get_output_node g) as [m|] eqn:Em; [|discriminate]. exists m. unfold get_output_node in Em. apply find_some in Em as [E1 E2].
      split; [apply node_ids_is_node; exact E1|]. intros e He Q. destruct (nx_out_edges g m) eqn:El; [|discriminate].
      assert (K : In e (nx_out_edges g m)) by (unfold nx_out_edges; apply filter_In; split; [exact He|apply Nat.eqb_eq; exact Q]). rewrite El in K. exact K.
    - right. intro K. destruct (place_of_ok None K W) as (pl & E'). congruence. }
  destruct D as [D|D].
  - right. split; [exact D|]. destruct (place_of_ok q D W) as (pl & E). exists pl. split; [exact E|]. rewrite E.
    destruct (run ph st g p src (with_switch b w)) as [w' [u|e]]; reflexivity.
  - left. split; [exact D|]. rewrite (place_of_err q D). reflexivity.
Qed.

Lemma get_output_switch : forall b p src q (w w' : process) r, wf g -> get_output ph b st g p src q w = (w', r) ->
  ((exists s, r = Ok s) -> switch_of w' = switch_of w) /\
  ((q <> None \/ exists n, no_output g n) -> forall e, snd (run ph st g p src (with_switch b w)) = Err e -> r = Err e /\ switch_of w' = b) /\
  (snd (run ph st g p src (with_switch b w)) = Ok tt -> switch_of w' = switch_of w) /\
  (~ (q <> None \/ exists n, no_output g n) -> r = Err IndexError /\ w' = w).
Proof.
  intros b p src q w w' r W H. pose proof (run_switch p src (with_switch b w)) as Sw.
  destruct (get_output_cases b p src q w W) as [[D E]|(D & pl & Pl & E)].
  - rewrite E in H. injection H as <- <-. repeat split; try reflexivity; try contradiction.
  - destruct (run ph st g p src (with_switch b w)) as [w1 [[]|e1]]; rewrite E in H; injection H as <- <-; cbn [fst snd] in *.
    + repeat split; try reflexivity; try discriminate; contradiction.
    + split; [intros (s & Q); discriminate|]. split; [intros _ e Q; injection Q as ->; split; [reflexivity|exact Sw]|]. split; [discriminate|contradiction].
Qed.

Lemma get_output_noise_switch : forall p src q (w w' : process) r, wf g -> get_output_noise ph st g p src q w = (w', r) ->
  ((exists s, r = Ok s) -> switch_of w' = switch_of w) /\
  (switch_of w' = switch_of w \/
   (exists e, r = Err e /\ snd (run ph st g p src (with_switch true w)) = Err e /\ switch_of w' = true) \/
   (exists e w1 s, r = Err e /\ get_output_signal ph st g p src q w = (w1, Ok s) /\ snd (run ph st g p src (with_switch false w1)) = Err e /\ switch_of w' = false)).
Proof.
  intros p src q w w' r W H. unfold get_output_noise in H. destruct (get_output_signal ph st g p src q w) as [w1 r1] eqn:E1.
  destruct (get_output_switch true p src q w w1 r1 W E1) as (A1 & A2 & A3 & A4).
  destruct r1 as [a|e1].
  - specialize (A1 (ex_intro _ a eq_refl)). destruct (get_output_signal_pure ph st g p src q w1) as [w2 r2] eqn:E2.
    destruct (get_output_switch false p src q w1 w2 r2 W E2) as (B1 & B2 & B3 & B4). destruct r2 as [b|e2].
    + injection H as <- <-. specialize (B1 (ex_intro _ b eq_refl)). split; [intros _|left]; congruence.
    + injection H as <- <-. split; [intros (s & Q); discriminate|].
      destruct (snd (run ph st g p src (with_switch false w1))) as [[]|e] eqn:Er; [left; rewrite B3 by reflexivity; exact A1|].
      destruct (get_output_cases false p src q w1 W) as [[D E]|(D & pl & Pl & E)].
      * destruct (B4 D) as [_ ->]. left; exact A1.
      * destruct (B2 D e eq_refl) as [Q1 Q2]. right; right. exists e, w1, a. tauto.
  - injection H as <- <-. split; [intros (s & Q); discriminate|].
    destruct (snd (run ph st g p src (with_switch true w))) as [[]|e] eqn:Er; [left; apply A3; reflexivity|].
    destruct (get_output_cases true p src q w W) as [[D E]|(D & pl & Pl & E)].
    + destruct (A4 D) as [_ ->]. left; reflexivity.
    + destruct (A2 D e eq_refl) as [Q1 Q2]. right; left. exists e. tauto.
Qed.

Lemma snr_switch : forall p src sink (w w' : process) r, snr_signals ph st g p src sink w = (w', r) ->
  ((exists ab, r = Ok ab) -> switch_of w' = true) /\
  (snd (run ph st g p src (with_switch false w)) <> Ok tt -> switch_of w' = false).
Proof.
  intros p src sink w w' r H. unfold snr_signals in H. pose proof (run_switch p src (with_switch false w)) as S1.
  destruct (run ph st g p src (with_switch false w)) as [w1 [[]|e1]]; cbn [fst snd] in *.
  - split; [|intro Q; contradiction]. intros (ab & ->). destruct (measure (p_saves w1) (PNode sink)) as [a|]; [|discriminate].
    pose proof (run_switch p src (with_switch true w1)) as S2. destruct (run ph st g p src (with_switch true w1)) as [w2 [[]|e2]]; [|discriminate].
    destruct (measure (p_saves w2) (PNode sink)) as [b|]; [|discriminate]. injection H as <- <-. exact S2.
  - injection H as <- <-. split; [intros (ab & Q); discriminate|]. intros _. exact S1.
Qed.
End Calls.

(** ** Without noise *)
Lemma pure_edge : forall {S V R} (ph ph' : physics S V R) st p c s (x x' : noise V R), same_without_noise ph ph' ->
  n_switch x = false -> n_switch x' = false ->
  (ccls c = PhaseModulator -> (assoc (cid c) (n_models x) = None <-> assoc (cid c) (n_models x') = None)) ->
  snd (edge_step ph st p c s x) = snd (edge_step ph' st p c s x').
Proof.
  intros S V R ph ph' st p c s x x' (P1 & P2 & P3 & P4 & P5) H H' Hm.
  assert (A : forall ps sin sout, snd (with_noise ph c ps p sin sout x) = Ok sout).
  { intros ps sin sout. unfold with_noise. destruct (assoc (cid c) (n_models x)); [|reflexivity]. rewrite H, orb_true_r. reflexivity. }
  assert (A' : forall ps sin sout, snd (with_noise ph' c ps p sin sout x') = Ok sout).
  { intros ps sin sout. unfold with_noise. destruct (assoc (cid c) (n_models x')); [|reflexivity]. rewrite H', orb_true_r. reflexivity. }
  unfold edge_step. destruct (ccls c); try reflexivity; try (rewrite A, A'; reflexivity);
   try (destruct (get_params st (cid c)) as [ps|]; [|reflexivity]; rewrite P1; destruct (transform ph' c ps p s); [rewrite A, A'|]; reflexivity).
  destruct (get_params st (cid c)) as [ps|]; [|reflexivity]. unfold phase_noise.
  specialize (Hm eq_refl). destruct (assoc (cid c) (n_models x)) as [m|] eqn:E.
  - destruct (assoc (cid c) (n_models x')) as [m'|] eqn:E'; [|destruct Hm as [_ Hm]; specialize (Hm eq_refl); discriminate].
    rewrite H, H'. cbn [negb]. rewrite A, A', P2, P3. reflexivity.
  - rewrite (proj1 Hm eq_refl). reflexivity.
Qed.
Lemma pure_node : forall {S V R} (ph ph' : physics S V R) st c ss i o (x x' : noise V R), same_without_noise ph ph' ->
  snd (node_step ph st c ss i o x) = snd (node_step ph' st c ss i o x').
Proof.
  intros S V R ph ph' st c ss i o x x' (P1 & P2 & P3 & P4 & P5). unfold node_step. destruct (ccls c); try reflexivity; destruct (get_params st (cid c)); try reflexivity.
  - destruct (broadcast _ o); [|reflexivity]. destruct (length ss =? i); [|reflexivity]. rewrite P4. reflexivity.
  - rewrite P5. reflexivity.
Qed.

Lemma In_assoc_some : forall {A} (l : list (nat * A)) i m, In (i, m) l -> assoc i l <> None.
Proof. induction l as [|[j a] l IH]; intros i m H; [contradiction|]. simpl. destruct (Nat.eqb_spec i j); [discriminate|]. destruct H as [H|H]; [congruence|exact (IH i m H)]. Qed.

Lemma pure_run : forall {S V R} (ph ph' : physics S V R) st g p src (w w' : @process S V R), wf g -> same_without_noise ph ph' ->
  modulators_ready g w -> modulators_ready g w' -> switch_of w = false -> switch_of w' = false ->
  p_saves (fst (run ph st g p src w)) = p_saves (fst (run ph' st g p src w')) /\ snd (run ph st g p src w) = snd (run ph' st g p src w').
Proof.
  intros S V R ph ph' st g p src w w' W Sm M M' H H'. unfold run.
  assert (St : steady (parts ph st p) g (p_noise w)) by (apply settled_steady; right; exact H).
  assert (St' : steady (parts ph' st p) g (p_noise w')) by (apply settled_steady; right; exact H').
  destruct (propagate_agree (parts ph st p) (parts ph' st p) g src (fun x y => x = p_noise w /\ y = p_noise w')) with (x := p_noise w) (y := p_noise w') (old := p_saves w) (old' := p_saves w') as (E1 & E2 & E3).
  - intros e s x y He [-> ->]. split; [|split; [apply (proj2 St e He)|apply (proj2 St' e He)]]. apply pure_edge; try assumption.
    intro Hc. destruct (M e He Hc) as (m & Hm). destruct (M' e He Hc) as (m' & Hm'). split; intro Q; exfalso; [exact (In_assoc_some _ _ _ Hm Q)|exact (In_assoc_some _ _ _ Hm' Q)].
  - intros c ss i o x y [-> ->]. simpl. split; [apply pure_node; exact Sm|]. split; rewrite node_step_same; reflexivity.
  - split; reflexivity.
  - destruct (propagate (parts ph st p) g src (p_noise w) (p_saves w)) as [[x1 sv1] r1], (propagate (parts ph' st p) g src (p_noise w') (p_saves w')) as [[y1 sv2] r2].
    simpl in *. split; assumption.
Qed.

Lemma pure_result : forall {S V R} (ph ph' : physics S V R) st g p src q (w w' : @process S V R), wf g -> same_without_noise ph ph' ->
  modulators_ready g w -> modulators_ready g w' ->
  snd (get_output_signal_pure ph st g p src q w) = snd (get_output_signal_pure ph' st g p src q w').
Proof.
  intros S V R ph ph' st g p src q w w' W Sm M M'. unfold get_output_signal_pure, get_output.
  destruct (match q with Some q0 => Ok q0 | None => do n <- of_option IndexError (get_output_node g); Ok (PNode n) end) as [pl|e]; [|reflexivity].
  destruct (pure_run ph ph' st g p src (with_switch false w) (with_switch false w') W Sm M M' eq_refl eq_refl) as [E1 E2].
  destruct (run ph st g p src (with_switch false w)) as [w1 r1], (run ph' st g p src (with_switch false w')) as [w2 r2]. simpl in E1, E2. subst r2.
  destruct r1; [|reflexivity]. simpl. rewrite E1. reflexivity.
Qed.

Lemma set_switch_twice : forall {V R} a b (x : noise V R), set_switch a (set_switch b x) = set_switch a x.
Proof. reflexivity. Qed.
Lemma set_switch_id : forall {V R} (x : noise V R), set_switch (n_switch x) x = x.
Proof. intros V R [a b c]; reflexivity. Qed.

Lemma run_steady : forall {S V R} (ph : physics S V R) st g p src (w : @process S V R), wf g ->
  settled p g (p_noise w) \/ switch_of w = false -> p_noise (fst (run ph st g p src w)) = p_noise w.
Proof.
  intros S V R ph st g p src w W H. unfold run. pose proof (propagate_steady (parts ph st p) g src W (p_noise w) (p_saves w) (settled_steady ph st p g (p_noise w) H)) as K.
  destruct (propagate (parts ph st p) g src (p_noise w) (p_saves w)) as [[x1 sv1] r1]. exact K.
Qed.

(* a run that changes nothing leaves at most the switch changed *)
Lemma get_output_steady : forall {S V R} (ph : physics S V R) st g b p src q (w : @process S V R), wf g ->
  settled p g (p_noise w) \/ b = false ->
  exists b', p_noise (fst (get_output ph b st g p src q w)) = set_switch b' (p_noise w) /\ ((exists s, snd (get_output ph b st g p src q w) = Ok s) -> b' = switch_of w).
Proof.
  intros S V R ph st g b p src q w W H. destruct (get_output_cases ph st g b p src q w W) as [[D E]|(D & pl & Pl & E)].
  - rewrite E. exists (switch_of w). simpl. split; [symmetry; apply set_switch_id|reflexivity].
  - assert (H' : settled p g (p_noise (with_switch b w)) \/ switch_of (with_switch b w) = false) by (destruct H as [H|H]; [left; exact H|right; exact H]).
    pose proof (run_steady ph st g p src (with_switch b w) W H') as K.
    destruct (run ph st g p src (with_switch b w)) as [w1 [u|e]]; rewrite E; cbn [fst snd] in *.
    + exists (switch_of w). split; [|reflexivity]. simpl. rewrite K. reflexivity.
    + exists b. split; [exact K|]. intros (s & Q); discriminate.
Qed.

Lemma pure_leaves : forall {S V R} (ph : physics S V R) st g p src q (w w' : @process S V R) r, wf g -> get_output_signal_pure ph st g p src q w = (w', r) ->
  models_of w' = models_of w /\ rng_of w' = rng_of w /\ ((exists s, r = Ok s) -> p_noise w' = p_noise w).
Proof.
  intros S V R ph st g p src q w w' r W H. destruct (get_output_steady ph st g false p src q w W (or_intror eq_refl)) as (b' & K1 & K2).
  unfold get_output_signal_pure in H. rewrite H in K1, K2. cbn [fst snd] in *. unfold models_of, rng_of. rewrite K1. split; [reflexivity|]. split; [reflexivity|].
  intro Q. rewrite (K2 Q). apply set_switch_id.
Qed.

(** ** With noise: repeating on one propagator *)
Definition still {V R} (x y : noise V R) : Prop := n_models y = n_models x.

Lemma settled_still : forall {V R} p g (x y : noise V R), still x y -> settled p g x -> settled p g y.
Proof. intros V R p g x y H K e He m Em U. unfold still in H. rewrite H in Em. exact (K e He m Em U). Qed.

Lemma quiet_still : forall {S V R} (ph : physics S V R) st g p a (w : @process S V R), wf g -> settled p g (p_noise w) -> quiet p a -> still (p_noise w) (p_noise (act ph st g a w)).
Proof.
  intros S V R ph st g p a w W Se Q. unfold still.
  assert (Sig : forall b src q (v : @process S V R), settled p g (p_noise v) -> n_models (p_noise (fst (get_output ph b st g p src q v))) = n_models (p_noise v)).
  { intros b src q v Sv. destruct (get_output_steady ph st g b p src q v W (or_introl Sv)) as (b' & K & _). rewrite K. reflexivity. }
  destruct Q; simpl.
  - apply Sig; exact Se.
  - destruct (get_output_steady ph st g false p' src q w W (or_intror eq_refl)) as (b' & K & _). unfold get_output_signal_pure. rewrite K. reflexivity.
  - unfold get_output_noise. pose proof (Sig true src q w Se) as K1. fold (@get_output_signal S V R ph) in K1.
    destruct (get_output_signal ph st g p src q w) as [w1 [a|e]]; [|exact K1]. cbn [fst] in K1.
    assert (Se1 : settled p g (p_noise w1)) by (apply (settled_still p g (p_noise w)); [exact K1|exact Se]).
    pose proof (Sig false src q w1 Se1) as K2. fold (@get_output_signal_pure S V R ph) in K2. destruct (get_output_signal_pure ph st g p src q w1) as [w2 [b|e]]; cbn [fst] in *; congruence.
  - rewrite (run_steady ph st g p src w W (or_introl Se)). reflexivity.
  - unfold snr_signals. pose proof (run_steady ph st g p src (with_switch false w) W (or_intror eq_refl)) as K1.
    destruct (run ph st g p src (with_switch false w)) as [w1 [u|e]]; cbn [fst] in *; [|rewrite K1; reflexivity].
    destruct (measure (p_saves w1) (PNode n)) as [a|]; [|cbn [fst]; rewrite K1; reflexivity].
    assert (Se1 : settled p g (p_noise (with_switch true w1))) by (apply (settled_still p g (p_noise w)); [unfold still; simpl; rewrite K1; reflexivity|exact Se]).
    pose proof (run_steady ph st g p src (with_switch true w1) W (or_introl Se1)) as K2.
    destruct (run ph st g p src (with_switch true w1)) as [w2 [u2|e]]; cbn [fst] in *; [destruct (measure (p_saves w2) (PNode n)); cbn [fst]|]; rewrite K2; simpl; rewrite K1; reflexivity.
  - reflexivity.
  - reflexivity.
  - reflexivity.
Qed.

Lemma quiet_history : forall {S V R} (ph : physics S V R) st g p l (w : @process S V R), wf g -> settled p g (p_noise w) -> Forall (quiet p) l -> still (p_noise w) (p_noise (acts ph st g l w)).
Proof.
  intros S V R ph st g p l. induction l as [|a l IH]; intros w W Se Q; [reflexivity|]. inversion Q; subst. simpl.
  pose proof (quiet_still ph st g p a w W Se H1) as K. unfold still in *. rewrite <- K.
  apply IH; [exact W|apply (settled_still p g (p_noise w)); assumption|assumption].
Qed.

Lemma noisy_repeat : forall {S V R} (ph : physics S V R) st g p src q (w w1 : @process S V R) s l, wf g ->
  get_output_signal ph st g p src q w = (w1, Ok s) -> Forall (quiet p) l ->
  models_of (acts ph st g l w1) = models_of w1 /\
  exists w2, get_output_signal ph st g p src q (acts ph st g l w1) = (w2, Ok s) /\ models_of w2 = models_of w1 /\ rng_of w2 = rng_of (acts ph st g l w1).
Proof.
  intros S V R ph st g p src q w w1 s l W H Q.
  destruct (get_output_cases ph st g true p src q w W) as [[D E]|(D & pl & Pl & E)]; [unfold get_output_signal in H; congruence|].
  unfold get_output_signal in *. unfold run in E.
  destruct (propagate (parts ph st p) g src (p_noise (with_switch true w)) (p_saves (with_switch true w))) as [[x1 sv1] [[]|e]] eqn:Ep; [|congruence].
  rewrite E in H. injection H as <- Hm. cbn [p_saves] in Hm.
  destruct (noisy_run_settles ph st g W p src _ _ x1 sv1 (eq_refl : n_switch (p_noise (with_switch true w)) = true) Ep) as (Se & L & Rp).
  set (w1 := with_switch (switch_of w) (mkP x1 sv1)) in *.
  assert (Se1 : settled p g (p_noise w1)) by (apply (settled_still p g x1); [reflexivity|exact Se]).
  pose proof (quiet_history ph st g p l w1 W Se1 Q) as K. unfold still in K. split; [exact K|].
  set (w2 := acts ph st g l w1) in *.
  destruct (get_output_cases ph st g true p src q w2 W) as [[D2 E2]|(D2 & pl2 & Pl2 & E2)]; [contradiction|]. assert (pl2 = pl) by congruence. subst pl2.
  unfold run in E2. rewrite (Rp (p_noise (with_switch true w2)) (p_saves (with_switch true w2))) in E2.
  - eexists. split; [rewrite E2; cbn [p_saves]; rewrite Hm; reflexivity|]. split; [exact K|reflexivity].
  - split; [simpl; exact (eq_sym (proj1 L))|]. intro i. simpl. rewrite K. simpl. destruct (assoc i (n_models x1)) as [m|]; [exists m; tauto|reflexivity].
Qed.

(** ** Noise models switched off one by one *)
Lemma off_run : forall {S V R} (ph : physics S V R) st g p src q (w : @process S V R), wf g -> all_off w ->
  (forall e, In e (g_edges g) -> ccls (e_model (e_dat e)) <> PhaseModulator) ->
  snd (get_output_signal ph st g p src q w) = snd (get_output_signal_pure ph st g p src q w) /\
  models_of (fst (get_output_signal ph st g p src q w)) = models_of w.
Proof.
  intros S V R ph st g p src q w W Off Np.
  assert (Se : settled p g (p_noise w)).
  { intros e He m Em [U|U]; [|exfalso; exact (Np e He U)]. exfalso. assert (K : nm_on m = false); [|congruence]. apply (Off (cid (e_model (e_dat e))) m).
    unfold models_of. clear - Em. induction (n_models (p_noise w)) as [|[j a] l IH]; [discriminate|]. simpl in Em. destruct (Nat.eqb_spec (cid (e_model (e_dat e))) j); [left; congruence|right; apply IH; exact Em]. }
  split.
  - unfold get_output_signal, get_output_signal_pure, get_output.
    destruct (match q with Some q0 => Ok q0 | None => do n <- of_option IndexError (get_output_node g); Ok (PNode n) end) as [pl|e]; [|reflexivity].
    assert (St : steady (parts ph st p) g (p_noise (with_switch true w))) by (apply settled_steady; left; exact Se).
    assert (St' : steady (parts ph st p) g (p_noise (with_switch false w))) by (apply settled_steady; left; exact Se).
    destruct (propagate_agree (parts ph st p) (parts ph st p) g src (fun x y => x = p_noise (with_switch true w) /\ y = p_noise (with_switch false w))) with (x := p_noise (with_switch true w)) (y := p_noise (with_switch false w)) (old := p_saves w) (old' := p_saves w) as (E1 & E2 & E3).
    + intros e s x y He [-> ->]. split; [|split; [apply (proj2 St e He)|apply (proj2 St' e He)]]. simpl.
      assert (A : forall b c ps sin sout, snd (with_noise ph c ps p sin sout (set_switch b (p_noise w))) = Ok sout).
      { intros b c ps sin sout. unfold with_noise. simpl. destruct (assoc (cid c) (n_models (p_noise w))) as [m|] eqn:Em; [|reflexivity].
        assert (K : nm_on m = false); [|rewrite K; reflexivity]. apply (Off (cid c) m). unfold models_of. clear - Em.
        induction (n_models (p_noise w)) as [|[j a] l IH]; [discriminate|]. simpl in Em. destruct (Nat.eqb_spec (cid c) j); [left; congruence|right; apply IH; exact Em]. }
      unfold edge_step. pose proof (Np e He) as Ne. destruct (ccls (e_model (e_dat e))); try reflexivity; try (rewrite !A; reflexivity); try contradiction;
        (destruct (get_params st (cid (e_model (e_dat e)))) as [ps|]; [|reflexivity]; destruct (transform ph (e_model (e_dat e)) ps p s); [rewrite !A|]; reflexivity).
    + intros c ss i o x y [-> ->]. simpl. split; [apply node_step_result|]. split; rewrite node_step_same; reflexivity.
    + split; reflexivity.
    + unfold run. change (p_saves (with_switch true w)) with (p_saves w). change (p_saves (with_switch false w)) with (p_saves w).
      destruct (propagate (parts ph st p) g src (p_noise (with_switch true w)) (p_saves w)) as [[x1 sv1] r1], (propagate (parts ph st p) g src (p_noise (with_switch false w)) (p_saves w)) as [[y1 sv2] r2].
      simpl in E1, E2. subst sv2 r2. destruct r1; reflexivity.
  - destruct (get_output_steady ph st g true p src q w W (or_introl Se)) as (b' & K & _). unfold models_of, get_output_signal. rewrite K. reflexivity.
Qed.

(** ** Resampling *)
Lemma resample_all_raises : forall {S V R} (ph : physics S V R) g seed (w : @process S V R), wf g -> g_edges g <> [] ->
  (forall n c, model_at g n c -> forall m, ~ In (cid c, m) (models_of w)) ->
  snd (resample_all_noise ph g seed w) = Err AttributeError /\ models_of (fst (resample_all_noise ph g seed w)) = models_of w.
Proof.
  intros S V R ph g seed w W Ne Hn. unfold resample_all_noise.
  set (w0 := match seed with Some k => mkP (mkN (n_switch (p_noise w)) (seeded ph k) (n_models (p_noise w))) (p_saves w) | None => w end).
  assert (M : models_of w0 = models_of w) by (unfold w0; destruct seed; reflexivity).
  assert (K : resample_nodes ph (map (fun q => n_model (snd q)) (g_nodes g)) w0 = (w0, Ok tt)).
  { assert (A : forall c, In c (map (fun q => n_model (snd q)) (g_nodes g)) -> assoc (cid c) (n_models (p_noise w0)) = None).
    { intros c Hc. apply in_map_iff in Hc as ([n d] & <- & Hd). destruct (assoc (cid (n_model (snd (n, d)))) (n_models (p_noise w0))) as [m|] eqn:Em; [|reflexivity]. exfalso.
      apply (Hn n (n_model d)) with (m := m); [exists d; tauto|]. rewrite <- M. unfold models_of. simpl in Em. clear - Em.
      induction (n_models (p_noise w0)) as [|[j a] l IH]; [discriminate|]. simpl in Em. destruct (Nat.eqb_spec (cid (n_model d)) j); [left; congruence|right; apply IH; exact Em]. }
    induction (map (fun q => n_model (snd q)) (g_nodes g)) as [|c l IH]; [reflexivity|]. simpl. rewrite (A c (or_introl eq_refl)). apply IH. intros c' Hc'. apply A. right; exact Hc'. }
  rewrite K. destruct (edges_view g) as [|e l] eqn:Ee; [|split; [reflexivity|exact M]]. exfalso.
  destruct (g_edges g) as [|e es] eqn:Eg; [contradiction|]. assert (He : In e (g_edges g)) by (rewrite Eg; left; reflexivity).
  assert (In e (edges_view g)); [|rewrite Ee in H; exact H]. unfold edges_view. apply in_flat_map. exists (e_src e). split; [apply node_ids_is_node; apply (wf_ends g W e He)|].
  unfold nx_out_edges. apply filter_In. split; [exact He|apply Nat.eqb_refl].
Qed.

(** ** Every successful run solves the equations of the graph, noise included *)
Lemma run_solves : forall {S V R} (ph : physics S V R) st g p src (w w' : @process S V R), wf g -> run ph st g p src w = (w', Ok tt) ->
  (settled p g (p_noise w') \/ switch_of w' = false) /\
  exists val out, solves (parts ph st p) (p_noise w') g src val out /\ records g (p_saves w') val out.
Proof.
  intros S V R ph st g p src w w' W H. unfold run in H. destruct (propagate (parts ph st p) g src (p_noise w) (p_saves w)) as [[x1 sv1] r1] eqn:Ep. injection H as <- ->.
  cbn [p_noise p_saves].
  assert (K : (settled p g x1 \/ n_switch x1 = false) /\ propagate (parts ph st p) g src x1 (p_saves w) = (x1, sv1, Ok tt)).
  { destruct (n_switch (p_noise w)) eqn:Es.
    - destruct (noisy_run_settles ph st g W p src _ _ x1 sv1 Es Ep) as (Se & L & Rp). split; [left; exact Se|]. apply Rp. apply le_refl.
    - pose proof (propagate_steady (parts ph st p) g src W (p_noise w) (p_saves w) (settled_steady ph st p g (p_noise w) (or_intror Es))) as Q.
      rewrite Ep in Q. simpl in Q. subst x1. split; [right; exact Es|exact Ep]. }
  destruct K as [K1 K2]. split; [exact K1|]. unfold propagate in K2. pose proof (topological_sort_spec g W) as T. destruct (topological_sort g) as [o|]; [|discriminate].
  destruct (along_sound (parts ph st p) g src W o x1 _ x1 sv1 (settled_steady ph st p g x1 K1) T K2) as (_ & val & out & Sol & Rec). exists val, out. tauto.
Qed.

(* from then on, any valid order gives the same states *)
Lemma run_any_order : forall {S V R} (ph : physics S V R) st g p src (w w' : @process S V R) o old, wf g -> run ph st g p src w = (w', Ok tt) -> valid_order g o ->
  exists sv, propagate_along (parts ph st p) g o src (p_noise w') old = (p_noise w', sv, Ok tt) /\ forall pl, saved sv pl = saved (p_saves w') pl.
Proof.
  intros S V R ph st g p src w w' o old W H V0. destruct (run_solves ph st g p src w w' W H) as (K & val & out & Sol & Rec).
  destruct (along_complete (parts ph st p) g src W o (p_noise w') old val out (settled_steady ph st p g (p_noise w') K) V0 Sol) as (sv & E & Rec').
  exists sv. split; [exact E|]. exact (records_saved g sv (p_saves w') val out Rec' Rec).
Qed.

Lemma terminal_reports_first : forall {S V R} (ph : physics S V R) st g p src (w w' : @process S V R) n c e rest, wf g -> run ph st g p src w = (w', Ok tt) ->
  no_output g n -> model_at g n c -> ccls c = TerminalSink \/ ccls c = TerminalSource -> arriving g n = e :: rest ->
  measure (p_saves w') (PNode n) = measure (p_saves w') (PEdge (e_src e, e_dst e, e_key e)).
Proof.
  intros S V R ph st g p src w w' n c e rest W H No Mo Hc Ar. destruct (run_solves ph st g p src w w' W H) as (K & val & out & Sol & (R1 & R2 & _ & _)).
  destruct (Sol n c Mo) as (states & E1 & E2 & _). cbn [parts node_act] in E1.
  assert (Es : states = received g src val n) by (unfold node_step in E1; destruct Hc as [Hc|Hc]; rewrite Hc in E1; simpl in E1; congruence).
  assert (Z : departures g n = 0) by (apply no_output_dep; [apply No|exact No]). specialize (E2 Z). rewrite Es in E2. unfold received in E2. rewrite Ar in E2. simpl in E2.
  assert (He : In e (g_edges g)) by (apply (In_arriving g n e W); rewrite Ar; left; reflexivity).
  unfold measure. rewrite (R2 n No), (R1 e He). congruence.
Qed.
