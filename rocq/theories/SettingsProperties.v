(** C86: which settings a component simulates with. *)
From Coq Require Import List Arith ZArith String Lia.
From Verif Require Import Base GraphModel ParamsModel SettingsModel SettingsSpec SettingsProofs.
Import ListNotations.
Local Open Scope list_scope.

(* Every component but a photodiode shapes the field by its parameters as they are now, however and
   whenever they were changed. *)
Theorem C86_current : forall h k p, fitting h -> nth_error (w_parts (run h)) k = Some p -> p_cls p <> Photodiode ->
  exists s values, snd (simulate (run h) k) = Ok s /\ parameters (run h) k = Ok values /\ shaped_by (p_cls p) values (seen_field s).
Proof.
  intros h k p F H N. destruct (simulate_good (run h) k p (run_good h F) H) as (s & values & S & P & _ & _ & _ & C & _).
  exists s, values. auto.
Qed.
Print Assumptions C86_current.

(* A photodiode uses the parameters it had when it was last given a list; entries that are changed
   later, by name or in the list, are shown as its parameters but not used. *)
Theorem C86_detector : forall h k h0 p, fitting h -> last_given h k h0 -> nth_error (w_parts (run h)) k = Some p -> p_cls p = Photodiode ->
  exists s values, snd (simulate (run h) k) = Ok s /\ parameters (run h0) k = Ok values /\ shaped_by Photodiode values (seen_field s).
Proof.
  intros h k h0 q F G Q C. destruct (given_part h k h0 F G) as (p & q' & values & P & Q' & S & V & L & A & _).
  rewrite Q in Q'; inversion Q'; subst q'. destruct S as (K & _ & _ & _ & E).
  destruct (simulate_good (run h) k q (run_good h F) Q) as (s & now & Si & _ & _ & _ & _ & _ & R).
  exists s, values. split; auto. split; auto. specialize (R C).
  assert (Pc : p_cls p = Photodiode) by congruence. rewrite E in R by (rewrite Pc; reflexivity).
  destruct (map_attributes (p_attrs p) (names_of Photodiode) values (uses Photodiode)) as (f & X & Y).
  { intros n I. apply A; auto. cbn in I |- *. tauto. }
  rewrite R in X. inversion X; subst f. exact Y.
Qed.
Print Assumptions C86_detector.

(* The noise of a continuous wave laser, a phase modulator and a photodiode is that of the parameters
   it had when it was last given a list. *)
Theorem C86_noise : forall h k h0 p, fitting h -> last_given h k h0 -> nth_error (w_parts (run h)) k = Some p ->
  In (p_cls p) [ContinuousWaveLaser; PhaseModulator; Photodiode] ->
  exists s values, snd (simulate (run h) k) = Ok s /\ parameters (run h0) k = Ok values /\ noisy_by (p_cls p) values (seen_noise s).
Proof.
  intros h k h0 q F G Q C. destruct (given_part h k h0 F G) as (p & q' & values & P & Q' & S & V & L & _ & N).
  rewrite Q in Q'; inversion Q'; subst q'. destruct S as (K & _ & M & _ & _).
  destruct (simulate_good (run h) k q (run_good h F) Q) as (s & now & Si & _ & _ & _ & No & _ & _).
  exists s, values. split; auto. split; auto. rewrite No, M, K. apply N. rewrite <- K.
  destruct C as [<- | [<- | [<- | []]]]; exact I.
Qed.
Print Assumptions C86_noise.

(* The filter of a photodiode and the noise of a pulsed laser are those of the parameters it was made
   with, whatever is done later. *)
Theorem C86_fixed : forall h k h0 p, fitting h -> made h k h0 -> nth_error (w_parts (run h)) k = Some p ->
  exists s values, snd (simulate (run h) k) = Ok s /\ parameters (run h0) k = Ok values /\
    (p_cls p = PulsedLaser -> noisy_by PulsedLaser values (seen_noise s)) /\
    (p_cls p = Photodiode -> exists b o, seen_filter s = Some (b, o) /\
       value_at (names_of Photodiode) values (Text "bandwidth") = Some b /\ value_at (names_of Photodiode) values (Text "filter_order") = Some o).
Proof.
  intros h k h0 q F (early & c & how & late & E0 & E & K & L) Q. subst h0 h.
  assert (Fe : fits (run early) (Make c how)).
  { apply (F early (Make c how) late). rewrite <- app_assoc. reflexivity. }
  rewrite run_snoc in L. cbn [step] in L. destruct (make (run early) c how) as [w' |] eqn:M; cbn [or_same] in L; [| lia].
  destruct (make_given _ _ _ Fe _ M) as (p & values & P & C & Li & V & _ & Fi & No & A).
  assert (R : run (early ++ [Make c how]) = w') by (rewrite run_snoc; cbn [step]; rewrite M; reflexivity).
  rewrite <- K in P. destruct (later_kind late (early ++ [Make c how]) k p) as (q' & Q' & X & Y & Z). { rewrite R. exact P. }
  rewrite Q in Q'; inversion Q'; subst q'.
  destruct (simulate_good _ k q (run_good _ F) Q) as (s & now & Si & _ & _ & Sf & Sn & _ & _).
  exists s, values. split; auto. split. { rewrite R. eapply parameters_ok; eauto. }
  rewrite Sf, Sn, X, Y, C. split; intro T; rewrite T in *.
  - rewrite Z by (rewrite C; exact I). cbn [first_noise] in No.
    destruct (A eq_refl (Text "FWHM_linewidth")) as (v & B & D); [cbn; tauto |]. rewrite B in No. cbn [bind] in No. inversion No.
    eexists. split; [reflexivity |]. cbn [noise_names map src_kind src_values fst snd]. rewrite D. reflexivity.
  - cbn [first_filter] in Fi.
    destruct (A eq_refl (Text "bandwidth")) as (v & B & D); [cbn; tauto |]. rewrite B in Fi. cbn [bind] in Fi.
    destruct (A eq_refl (Text "filter_order")) as (u & B' & D'); [cbn; tauto |]. rewrite B' in Fi. cbn [bind] in Fi.
    inversion Fi. eauto.
Qed.
Print Assumptions C86_fixed.

(* Every component has such moments. *)
Theorem C86_moments : forall h k p, nth_error (w_parts (run h)) k = Some p -> (exists h0, last_given h k h0) /\ (exists h0, made h k h0).
Proof. intros h k p H. apply nth_error_lt in H. split; [now apply moments | now apply made_exists]. Qed.
Print Assumptions C86_moments.

(* Loading a saved graph makes sources and detectors plainly and then gives them the saved list.  A
   photodiode then filters with 100 GHz and order 2 and a pulsed laser has the noise of 1 kHz,
   whatever was saved. *)
Theorem C86_loaded : forall early c late, fitting (early ++ [Make c Plain] ++ late) ->
  let k := List.length (w_parts (run early)) in let w := run (early ++ [Make c Plain] ++ late) in
  (c = Photodiode -> exists s, snd (simulate w k) = Ok s /\ seen_filter s = Some (dec 100 9, dec 2 0)) /\
  (c = PulsedLaser -> exists s, snd (simulate w k) = Ok s /\ seen_noise s = Some [mkSrc "FWHM linewidth" [dec 1 3]]).
Proof.
  intros early c late F k w. subst k w. set (k := List.length (w_parts (run early))).
  assert (X : ~ terminal c -> exists w', make (run early) c Plain = Ok w' /\ parameters w' k = Ok (sp_def (spec_of c))).
  { intro T. apply (make_total (run early) c Plain (List.length (w_lists (run early))) (sp_def (spec_of c)) (sp_def (spec_of c)) T); auto.
    apply defaults_length. }
  assert (Y : ~ terminal c -> exists p s, p_cls p = c /\ snd (simulate (run (early ++ [Make c Plain] ++ late)) k) = Ok s /\
    (p_cls p = PulsedLaser -> noisy_by PulsedLaser (sp_def (spec_of c)) (seen_noise s)) /\
    (p_cls p = Photodiode -> exists b o, seen_filter s = Some (b, o) /\
       value_at (names_of Photodiode) (sp_def (spec_of c)) (Text "bandwidth") = Some b /\ value_at (names_of Photodiode) (sp_def (spec_of c)) (Text "filter_order") = Some o)).
  { intro T. destruct (X T) as (w' & M & P).
    assert (R : run (early ++ [Make c Plain]) = w') by (rewrite run_snoc; cbn [step]; rewrite M; reflexivity).
    pose proof M as M'. apply make_inv in M' as (a & mine & attrs & values & n & f & E & _).
    assert (N : nth_error (w_parts (run (early ++ [Make c Plain]))) k = Some (mkPart c a attrs n f)).
    { rewrite R, E. cbn [w_parts]. unfold k. rewrite nth_error_app2, Nat.sub_diag by lia. reflexivity. }
    destruct (later_kind late _ k _ N) as (q & Q & C & _). cbn in C. rewrite <- app_assoc in Q.
    destruct (C86_fixed _ k (early ++ [Make c Plain]) q F) as (s & vs & S & V & A & B).
    { exists early, c, Plain, late. rewrite <- app_assoc. repeat split; auto. eapply nth_error_lt; eauto. }
    { exact Q. }
    rewrite R, P in V. inversion V; subst vs. exists q, s. auto. }
  split; intro T; subst c.
  - destruct Y as (p & s & C & S & _ & B); [cbn; tauto |]. destruct (B C) as (b & o & Sf & Vb & Vo). exists s. split; auto.
    cbn in Vb, Vo. rewrite Sf. inversion Vb. inversion Vo. reflexivity.
  - destruct Y as (p & s & C & S & A & _); [cbn; tauto |]. destruct (A C) as (srcs & N & M). exists s. split; auto. rewrite N. f_equal.
    cbn in M. destruct srcs as [| [kind vs] [| ? ?]]; try discriminate. cbn in M. inversion M as [[M1 M2]].
    destruct vs as [| v [| ? ?]]; try discriminate. cbn in M2. inversion M2. reflexivity.
Qed.
Print Assumptions C86_loaded.

(* Making a component by names: with known names the named parameters get their values and the others
   their defaults; with an unknown name a ValueError. *)
Theorem C86_made : forall w c d, ~ terminal c -> NoDup (map fst d) ->
  ((forall n, In n (map fst d) -> In n (names_of c)) ->
   exists w' values, make w c (FromNames d) = Ok w' /\ parameters w' (List.length (w_parts w)) = Ok values /\
     List.length values = List.length (names_of c) /\
     (forall n v, In (n, v) d -> value_at (names_of c) values n = Some v) /\
     (forall n, ~ In n (map fst d) -> value_at (names_of c) values n = value_at (names_of c) (sp_def (spec_of c)) n)) /\
  ((exists n, In n (map fst d) /\ ~ In n (names_of c)) -> make w c (FromNames d) = Err ValueError).
Proof.
  intros w c d T D. split.
  - intro A. destruct (write_names_ok (names_of c) d (sp_def (spec_of c))) as (l & L). { apply defaults_length. }
    { intros n v I. apply A. now apply (in_map fst) in I. }
    assert (V : List.length l = List.length (names_of c)) by (rewrite (write_names_length _ _ _ _ L); apply defaults_length).
    destruct (make_total w c (FromNames d) (List.length (w_lists w)) l l T V) as (w' & M & P); auto.
    exists w', l. repeat split; auto.
    + intros n v I. rewrite (write_names_value _ _ _ _ D L), (attribute_In _ _ _ D I). reflexivity.
    + intros n I. rewrite (write_names_value _ _ _ _ D L), (attribute_out _ _ I). reflexivity.
  - intros (n & I & N). apply make_bad; auto. apply write_names_bad; [apply defaults_length |].
    apply in_map_iff in I as ([m v] & E & I). cbn in E; subst m. eauto.
Qed.
Print Assumptions C86_made.

(* A component that is made without arguments has the following values under the following names, and
   no other name. *)
Theorem C86_defaults : forall w c, ~ terminal c -> exists w', make w c Plain = Ok w' /\
  (forall n v, In (n, v) (new_values c) -> get_by_name w' (List.length (w_parts w)) n = Ok v) /\
  (forall n, ~ In n (map fst (new_values c)) -> get_by_name w' (List.length (w_parts w)) n = Err ValueError).
Proof.
  intros w c T. destruct (make_total w c Plain (List.length (w_lists w)) (sp_def (spec_of c)) (sp_def (spec_of c)) T (defaults_length c)) as (w' & M & P); auto.
  exists w'. split; [exact M|].
  assert (Hp : exists p, nth_error (w_parts w') (List.length (w_parts w)) = Some p /\ p_cls p = c).
  { destruct (make_inv _ _ _ _ M) as (a & mine & attrs & values & n & f & -> & _). exists (mkPart c a attrs n f). cbn [w_parts]. rewrite nth_error_app2, Nat.sub_diag by lia. split; reflexivity. }
  destruct Hp as (p & Hp & Cp).
  assert (G : forall n, get_by_name w' (List.length (w_parts w)) n = do i <- index_of n (names_of c); load_item (sp_def (spec_of c)) i).
  { intros n. unfold parameters in P. unfold get_by_name. unfold part_at in *. rewrite Hp in *. cbn [of_option bind] in *. rewrite Cp, P. destruct (index_of n (names_of c)); reflexivity. }
  split.
  - intros n v I. rewrite G. assert (F : Forall (fun e => (do i <- index_of (fst e) (names_of c); load_item (sp_def (spec_of c)) i) = Ok (snd e)) (new_values c)) by (clear; destruct c; vm_compute; repeat constructor).
    rewrite Forall_forall in F. exact (F (n, v) I).
  - intros n N. rewrite G, index_missing; [reflexivity|]. intros I. apply N. revert I. clear. destruct c; vm_compute; tauto.
Qed.
Print Assumptions C86_defaults.
Example C86_defaults_case : ~ terminal PhaseModulator /\ In (Text "shift", dec 2 (-2)) (new_values PhaseModulator) /\
  match make (mkW [] []) PhaseModulator Plain with Ok w' => get_by_name w' 0 (Text "shift") = Ok (dec 2 (-2)) /\ get_by_name w' 0 (Text "bias") = Err ValueError | Err _ => False end.
Proof. split; [intros []|]. split; [cbn; tauto|]. vm_compute. split; reflexivity. Qed.

(* Setting a parameter by name: it is read back, other names keep their values, components with the
   same list show the change and all others do not; an unknown name is a ValueError. *)
Theorem C86_by_name : forall h k p n v, fitting h -> nth_error (w_parts (run h)) k = Some p ->
  (In n (names_of (p_cls p)) ->
   exists w' before after, set_by_name (run h) k n v = Ok w' /\ parameters (run h) k = Ok before /\ parameters w' k = Ok after /\
     get_by_name w' k n = Ok v /\
     (forall m, m <> n -> value_at (names_of (p_cls p)) after m = value_at (names_of (p_cls p)) before m) /\
     (forall j q, nth_error (w_parts (run h)) j = Some q ->
        (p_list q = p_list p -> parameters w' j = Ok after) /\ (p_list q <> p_list p -> parameters w' j = parameters (run h) j))) /\
  (~ In n (names_of (p_cls p)) -> set_by_name (run h) k n v = Err ValueError /\ get_by_name (run h) k n = Err ValueError).
Proof.
  intros h k p n v F H. destruct (run_good h F k p H) as (values & L & V & _). split.
  - intro I. destruct (index_value (names_of (p_cls p)) values n) as (i & old & X & Li & N & Va); auto; try lia.
    destruct (set_nth_Some _ i v values) as (after & S); try lia.
    exists (put_list (run h) (p_list p) after), values, after.
    unfold set_by_name, write. rewrite (proj2 (part_at_Ok _ _ _) H). cbn [bind]. rewrite X. cbn [bind].
    rewrite (proj2 (list_at_Ok _ _ _) L). cbn [bind]. unfold store_item. rewrite S. cbn [bind of_option].
    assert (P : forall j q, nth_error (w_parts (run h)) j = Some q -> nth_error (w_parts (put_list (run h) (p_list p) after)) j = Some q)
      by (intros; now rewrite put_list_parts).
    assert (La : nth_error (w_lists (put_list (run h) (p_list p) after)) (p_list p) = Some after) by (eapply put_list_same; eauto).
    split; auto. split; [eapply parameters_ok; eauto |]. split; [eapply parameters_ok; eauto |]. split; [| split].
    + unfold get_by_name. rewrite (proj2 (part_at_Ok _ _ _) (P k p H)). cbn [bind]. rewrite X. cbn [bind].
      rewrite (proj2 (list_at_Ok _ _ _) La). cbn [bind]. unfold load_item. rewrite (set_nth_same _ _ _ _ _ S). reflexivity.
    + intros m N'. rewrite (value_set _ _ _ _ _ _ m X S), pname_eqb_neq by auto. reflexivity.
    + intros j q Q. split; intro E.
      * eapply parameters_ok; eauto. rewrite E. exact La.
      * unfold parameters. rewrite (proj2 (part_at_Ok _ _ _) (P j q Q)), (proj2 (part_at_Ok _ _ _) Q). cbn [bind].
        unfold list_at. rewrite put_list_other by auto. reflexivity.
  - intro N. unfold set_by_name, get_by_name. rewrite (proj2 (part_at_Ok _ _ _) H). cbn [bind]. rewrite index_missing by auto. auto.
Qed.
Print Assumptions C86_by_name.

(* Components of a program that hands no lists to components share no list. *)
Theorem C86_apart : forall h j k p q, own_lists h -> nth_error (w_parts (run h)) j = Some p -> nth_error (w_parts (run h)) k = Some q ->
  j <> k -> p_list p <> p_list q.
Proof. intros h j k p q O P Q N E. apply N. eapply (proj2 (apart h O)); eauto. Qed.
Print Assumptions C86_apart.

(* A list that is too short: when making and when simulating fail, and with which error; sources fill
   in their defaults instead. *)
Theorem C86_short : forall w c a l, ~ takes_whole_list c -> nth_error (w_lists w) a = Some l ->
  (List.length l < needed_to_make c -> make w c (FromList a) = Err (shortage c)) /\
  (needed_to_make c <= List.length l ->
   exists w', make w c (FromList a) = Ok w' /\ parameters w' (List.length (w_parts w)) = Ok l /\
     (List.length l < needed_to_simulate c -> snd (simulate w' (List.length (w_parts w))) = Err (shortage c)) /\
     (needed_to_simulate c <= List.length l ->
      exists s, snd (simulate w' (List.length (w_parts w))) = Ok s /\
        map Some (seen_field s) = map (entry_or_default c l) (uses c) /\
        (In c [ContinuousWaveLaser; PulsedLaser] -> exists srcs, seen_noise s = Some srcs /\
           map (fun s => (src_kind s, map Some (src_values s))) srcs =
           map (fun e => (fst e, map (entry_or_default c l) (snd e))) (noise_names c)))).
Proof.
  intros w c a l T L.
  assert (Tc : ~ terminal c) by (destruct c; cbn in *; tauto).
  rewrite (make_full w c (FromList a) a (sp_def (spec_of c)) l Tc) by auto. cbv zeta.
  assert (M : forall attrs n f, let w' := mkW (w_lists w ++ [sp_def (spec_of c)]) (w_parts w ++ [mkPart c a attrs n f]) in
     parameters w' (List.length (w_parts w)) = Ok l /\
     snd (simulate w' (List.length (w_parts w))) =
       (do field <- reads c (if attrs_refreshed c then set_attrs (names_of c) l attrs else attrs) l; Ok (mkSeen field f n))).
  { intros attrs n f w'.
    assert (P : nth_error (w_parts w') (List.length (w_parts w)) = Some (mkPart c a attrs n f)).
    { subst w'. cbn [w_parts]. rewrite nth_error_app2, Nat.sub_diag by lia. reflexivity. }
    assert (Q : nth_error (w_lists w') a = Some l). { subst w'. cbn [w_lists]. rewrite nth_error_app1; auto. eapply nth_error_lt; eauto. }
    split; [eapply parameters_ok; eauto |]. rewrite (simulate_ok w' _ _ l P Q). reflexivity. }
  destruct c; try (exfalso; apply T; exact I); clear T Tc;
    (destruct l as [| v0 [| v1 [| v2 [| v3 [| v4 [| v5 [| v6 [| v7 [| v8 l]]]]]]]]];
      split; intro Le; cbn in Le; try lia; try reflexivity;
      (eexists; split; [reflexivity |]; split; [apply M |]; split; intro Ls; cbn in Ls; try lia;
        rewrite (proj2 (M _ _ _)); try reflexivity;
        (eexists; split; [reflexivity |]; split; [reflexivity |]; intros [Cc | [Cc | []]]; try discriminate; eexists; split; reflexivity))).
Qed.
Print Assumptions C86_short.

(* A photodiode: its load is changed by name (shown, not used), then it is given a new list (used, but
   for the filter). *)
Definition photodiode_program : list event :=
  [Make Photodiode Plain; SetByName 0 (Text "load_resistance") (dec 75 0);
   NewList [dec 1 0; dec 1 9; dec 4 0; dec 1 (-3); dec 25 0; dec 300 0; dec 1 (-9)]].
Example C86_case :
  fitting (photodiode_program ++ [Assign 0 1]) /\
  get_by_name (run photodiode_program) 0 (Text "load_resistance") = Ok (dec 75 0) /\
  snd (simulate (run photodiode_program) 0)
    = Ok (mkSeen [dec 5 (-1); dec 3 (-3); dec 50 0] (Some (dec 100 9, dec 2 0))
        (Some [mkSrc "rms" [dec 293 0; dec 100 9; dec 50 0]; mkSrc "shot" [dec 50 0; dec 5 (-9)]])) /\
  snd (simulate (run (photodiode_program ++ [Assign 0 1])) 0)
    = Ok (mkSeen [dec 1 0; dec 1 (-3); dec 25 0] (Some (dec 100 9, dec 2 0))
        (Some [mkSrc "rms" [dec 300 0; dec 1 9; dec 25 0]; mkSrc "shot" [dec 25 0; dec 1 (-9)]])).
Proof.
  split; [| split; [| split]]; try (vm_compute; reflexivity).
  intros early e late E. destruct early as [| e0 [| e1 [| e2 [| e3 early]]]]; inversion E; subst; try exact I.
  - vm_compute. eexists; eexists. repeat split.
  - destruct early; discriminate.
Qed.
(* a continuous wave laser shines with the power set by name, and has the noise of its defaults *)
Example C86_laser_case :
  snd (simulate (run [Make ContinuousWaveLaser Plain; SetByName 0 (Text "peak_power") (dec 1 (-2)); SetByName 0 (Text "osnr_dB") (dec 20 0)]) 0)
    = Ok (mkSeen [dec 1 (-2)] None (Some [mkSrc "FWHM linewidth" [dec 1 2]; mkSrc "osnr" [dec 55 0]])).
Proof. vm_compute. reflexivity. Qed.
(* two attenuators made with one list: setting one sets both *)
Example C86_shared_case :
  let h := [NewList [dec (-3) 0]; Make VariableOpticalAttenuator (FromList 0); Make VariableOpticalAttenuator (FromList 0);
            SetByName 0 (Text "attenuation") (dec (-9) 0)] in
  parameters (run h) 1 = Ok [dec (-9) 0] /\ ~ own_lists h.
Proof. split; [vm_compute; reflexivity |]. intro O. apply (O (Make VariableOpticalAttenuator (FromList 0))). cbn. auto. Qed.
(* names: one known, one of another class (scripts/hessian_observations.py line 182) *)
Example C86_names_case :
  (exists w', make (mkW [] []) PhaseModulator (FromNames [(Text "frequency", dec 5 9); (Text "depth", dec 11 0)]) = Ok w' /\
     parameters w' 0 = Ok [dec 11 0; dec 5 9; dec 2 (-2); dec 0 0]) /\
  make (mkW [] []) VariablePowerSplitter (FromNames [(Text "coupling_ratio", dec 0 0)]) = Err ValueError.
Proof. split; [eexists; split; vm_compute; reflexivity | vm_compute; reflexivity]. Qed.
(* short lists *)
Example C86_short_case :
  let w := run [NewList [dec 1 (-2)]] in
  make w PhaseModulator (FromList 0) = Err IndexError /\ make w Photodiode (FromList 0) = Err AttributeError /\
  (exists w', make w ContinuousWaveLaser (FromList 0) = Ok w' /\
     snd (simulate w' 0) = Ok (mkSeen [dec 1 (-2)] None (Some [mkSrc "FWHM linewidth" [dec 1 2]; mkSrc "osnr" [dec 55 0]]))) /\
  (exists w', make w OpticalAmplifier (FromList 0) = Ok w' /\ snd (simulate w' 0) = Err AttributeError).
Proof.
  cbv zeta. split; [vm_compute; reflexivity |]. split; [vm_compute; reflexivity |].
  split; eexists; split; vm_compute; reflexivity.
Qed.
