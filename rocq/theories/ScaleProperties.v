(** C83: the units of the axes of plots. *)
From Coq Require Import Reals List String ZArith Lia Lra.
From Verif Require Import Base Complex ArrayModel FourierProofs EvaluatorSpec EvaluatorProofs ScaleModel ScaleSpec ScaleProofs.
Import ListNotations.
Local Open Scope string_scope.
Local Open Scope list_scope.
Local Open Scope R_scope.

(* the label of an axis *)
Definition label (a : axis) (p : plot) : string := match a with X => p_xlabel p | Y => p_ylabel p end.

(* an axis whose first line reaches a value between 1e-21 and 1e21: one power of a thousand for all lines, named in the label; the greatest
   value of the first line is shown as a number between 1 and 1000; the other axis stays as it is *)
Theorem C83_scaled : forall p unit a first rest t, p_lines p = first :: rest -> greatest (get_data a first) t -> powerRZ 10 (-21) <= t < powerRZ 10 21 ->
  exists q m s, scale_units p unit [name_of a] = (q, inl (Some (m, s))) /\ si_prefix m s /\ 1 <= t / powerRZ 10 m < 1000 /\
  Forall2 (fun l l' => in_units m (get_data a l) (get_data a l') /\ get_data (other a) l' = get_data (other a) l) (p_lines p) (p_lines q) /\
  label a q = (label a p ++ " (" ++ s ++ unit ++ ")")%string /\ label (other a) q = label (other a) p.
Proof.
  intros p unit a first rest t L G B. destruct (scale_of_ok _ _ G B) as (k & s & E & S & B').
  exists (append_label a (scaled a (3 * k) p) (suffix s unit)), (3 * k)%Z, s. split; [exact (units_one p first rest a unit _ s L E)|]. split; [exact S|]. split.
  - pose proof (ten_pos (3 * k)) as P. destruct B' as [B1 B2]. rewrite powerRZ_add in B2 by lra. change (powerRZ 10 3) with (10 * (10 * (10 * 1))) in B2. split.
    + apply (Rmult_le_reg_r (powerRZ 10 (3 * k))); [exact P|]. unfold Rdiv. rewrite Rmult_assoc, Rinv_l by lra. lra.
    + apply (Rmult_lt_reg_r (powerRZ 10 (3 * k))); [exact P|]. unfold Rdiv. rewrite Rmult_assoc, Rinv_l by lra. lra.
  - split; [|split; destruct a; reflexivity]. rewrite lines_append. pose proof (scaled_lines a (3 * k) p) as F. pose proof (scaled_other a (3 * k) p) as O.
    clear - F O. induction F as [|l l' r r' H F IH]; [constructor|]. cbn [map] in O. injection O as O1 O2. constructor; [split; assumption|apply IH; assumption].
Qed.
Print Assumptions C83_scaled.

(* the other axes: nothing is changed and an error raised *)
Theorem C83_fails : forall p unit a first rest, p_lines p = first :: rest ->
  (get_data a first = [] -> scale_units p unit [name_of a] = (p, inr (Py ValueError))) /\
  (greatest (get_data a first) 0 -> scale_units p unit [name_of a] = (p, inr OverflowError)) /\
  (forall t, greatest (get_data a first) t -> 0 < t -> t < powerRZ 10 (-21) \/ powerRZ 10 21 <= t -> scale_units p unit [name_of a] = (p, inr (Py KeyError))).
Proof.
  intros p unit a first rest L.
  assert (K : forall e, scale_of (get_data a first) = inr e -> scale_units p unit [name_of a] = (p, inr e)).
  { intros e E. unfold scale_units. rewrite L, (loop_fail p first rest a unit [] None e L E). reflexivity. }
  split; [|split].
  - intros E. apply K. rewrite E. reflexivity.
  - intros G. apply K. apply scale_of_zero. exact G.
  - intros t G P H. apply K. exact (scale_of_bad _ t G P H).
Qed.
Print Assumptions C83_fails.

(* a second call on an axis: the numbers stay, and the label gets the unit without the prefix which they are shown in *)
Theorem C83_again : forall p unit unit' a q m s, scale_units p unit [name_of a] = (q, inl (Some (m, s))) ->
  exists q', scale_units q unit' [name_of a] = (q', inl (Some (0%Z, ""))) /\ p_lines q' = p_lines q /\
  label a q' = (label a p ++ " (" ++ s ++ unit ++ ")" ++ " (" ++ unit' ++ ")")%string.
Proof.
  intros p unit unit' a q m s H. unfold scale_units in H. destruct (p_lines p) as [|first rest] eqn:L; [discriminate|].
  destruct (scale_of (get_data a first)) as [[m' s']|e] eqn:E; [|rewrite (loop_fail p first rest a unit [] None e L E) in H; discriminate].
  rewrite (loop_step p first rest a unit [] None m' s' L E) in H. cbn [scale_loop] in H. injection H as <- -> ->.
  set (q := append_label a (scaled a m p) (suffix s unit)). destruct (scale_of_inl _ _ _ E) as (t & k & G & Em & S & B).
  assert (Lq : p_lines q = set_data a first (map (fun v => v / powerRZ 10 m) (get_data a first)) :: map (fun l => set_data a l (map (fun v => v / powerRZ 10 m) (get_data a l))) rest).
  { unfold q. rewrite lines_append. unfold scaled, set_lines. cbn [p_lines]. rewrite L. reflexivity. }
  assert (Z0 : scale_of (get_data a (set_data a first (map (fun v => v / powerRZ 10 m) (get_data a first)))) = inl (0%Z, "")).
  { rewrite get_set. pose proof (in_units_greatest m _ _ t (in_units_map m (get_data a first)) G) as G'. pose proof (ten_pos m) as P.
    assert (B' : 1 <= t / powerRZ 10 m < 1000).
    { destruct B as [B1 B2]. rewrite powerRZ_add in B2 by lra. change (powerRZ 10 3) with (10 * (10 * (10 * 1))) in B2. split.
      - apply (Rmult_le_reg_r (powerRZ 10 m)); [exact P|]. unfold Rdiv. rewrite Rmult_assoc, Rinv_l by lra. lra.
      - apply (Rmult_lt_reg_r (powerRZ 10 m)); [exact P|]. unfold Rdiv. rewrite Rmult_assoc, Rinv_l by lra. lra. }
    assert (I0 : powerRZ 10 (3 * 0) <= t / powerRZ 10 m < powerRZ 10 (3 * 0 + 3)) by (change (powerRZ 10 (3 * 0)) with 1; change (powerRZ 10 (3 * 0 + 3)) with (10 * (10 * (10 * 1))); lra).
    assert (W : powerRZ 10 (-21) <= t / powerRZ 10 m < powerRZ 10 21).
    { pose proof (ten_le (-21) (3 * 0) ltac:(lia)) as T1. pose proof (ten_le (3 * 0 + 3) 21 ltac:(lia)) as T2. destruct I0 as [I1 I2]. split; [exact (Rle_trans _ _ _ T1 I1)|exact (Rlt_le_trans _ _ _ I2 T2)]. }
    destruct (scale_of_ok _ _ G' W) as (k' & s0 & E' & S' & B''). pose proof (order_unique _ _ _ B'' I0) as K. subst k'. rewrite E'. f_equal. f_equal.
    destruct S' as (j & N & J). assert (j = 7%nat) by lia. subst j. injection N as <-. reflexivity. }
  exists (append_label a (scaled a 0 q) (suffix "" unit')). split; [exact (units_one q _ _ a unit' 0%Z "" Lq Z0)|]. split.
  - rewrite lines_append. unfold scaled, set_lines. cbn [p_lines]. rewrite <- (map_id (p_lines q)) at 2. apply map_ext. intros l.
    replace (map (fun v => v / powerRZ 10 0) (get_data a l)) with (get_data a l); [destruct l, a; reflexivity|].
    rewrite <- (map_id (get_data a l)) at 1. apply map_ext. intros v. cbn. field.
  - assert (As : forall x y z : string, ((x ++ y) ++ z = x ++ y ++ z)%string) by (intros x y z; induction x as [|c x IH]; [reflexivity|cbn; rewrite IH; reflexivity]).
    destruct a; cbn [label append_label scaled set_lines p_xlabel p_ylabel q]; unfold suffix; rewrite As; f_equal; cbn; rewrite !As; cbn; rewrite ?As; reflexivity.
Qed.
Print Assumptions C83_again.

(* several axes: every one is scaled by its own power, and only that of the last one is returned; an error leaves the earlier axes scaled *)
Theorem C83_two : forall p unit a first rest t, p_lines p = first :: rest -> greatest (get_data a first) t -> powerRZ 10 (-21) <= t < powerRZ 10 21 ->
  exists q m s, scale_units p unit [name_of a] = (q, inl (Some (m, s))) /\
  (forall u, greatest (get_data (other a) first) u -> powerRZ 10 (-21) <= u < powerRZ 10 21 ->
     exists q' m' s', scale_units p unit [name_of (other a)] = (q', inl (Some (m', s'))) /\
     exists r, scale_units p unit [name_of a; name_of (other a)] = (r, inl (Some (m', s'))) /\
       map (get_data a) (p_lines r) = map (get_data a) (p_lines q) /\ label a r = label a q /\
       map (get_data (other a)) (p_lines r) = map (get_data (other a)) (p_lines q') /\ label (other a) r = label (other a) q') /\
  (forall u, greatest (get_data (other a) first) u -> u < powerRZ 10 (-21) \/ powerRZ 10 21 <= u -> exists e, scale_units p unit [name_of a; name_of (other a)] = (q, inr e)).
Proof.
  intros p unit a first rest t L G B. destruct (scale_of_ok _ _ G B) as (k & s & E & S & B').
  set (q := append_label a (scaled a (3 * k) p) (suffix s unit)). exists q, (3 * k)%Z, s. split; [exact (units_one p first rest a unit _ s L E)|].
  assert (Lq : exists f' r', p_lines q = f' :: r' /\ get_data (other a) f' = get_data (other a) first).
  { unfold q. rewrite lines_append. unfold scaled, set_lines. cbn [p_lines]. rewrite L. cbn [map]. eexists; eexists; split; [reflexivity|]. destruct a; reflexivity. }
  destruct Lq as (f' & r' & Lq & Fo).
  assert (St : scale_units p unit [name_of a; name_of (other a)] = match scale_loop q unit [name_of (other a)] (Some ((3 * k)%Z, s)) with (x, inl r) => (x, inl (Some r)) | (x, inr e) => (x, inr e) end).
  { unfold scale_units at 1. rewrite L, (loop_step p first rest a unit [name_of (other a)] None _ s L E). reflexivity. }
  split.
  - intros u Gu Bu. destruct (scale_of_ok _ _ Gu Bu) as (k' & s' & E' & S' & _). exists (append_label (other a) (scaled (other a) (3 * k') p) (suffix s' unit)), (3 * k')%Z, s'.
    split; [exact (units_one p first rest (other a) unit _ s' L E')|]. rewrite <- Fo in E'.
    exists (append_label (other a) (scaled (other a) (3 * k') q) (suffix s' unit)). split; [rewrite St, (loop_step q f' r' (other a) unit [] _ _ s' Lq E'); reflexivity|].
    unfold q, scaled, set_lines. destruct a; cbn [append_label label p_lines p_xlabel p_ylabel]; rewrite !map_map; cbn [get_data set_data l_x l_y other append_label label p_lines p_xlabel p_ylabel]; rewrite ?map_map; cbn [get_data set_data l_x l_y]; repeat split; reflexivity.
  - intros u Gu Bu. rewrite <- Fo in Gu. assert (X : exists e, scale_of (get_data (other a) f') = inr e).
    { destruct (Rle_lt_dec u 0) as [N|N].
      - assert (u = 0) as -> by (destruct Gu as [_ (x & _ & Ex)]; pose proof (Rabs_pos x); lra). eexists. apply scale_of_zero. exact Gu.
      - eexists. exact (scale_of_bad _ u Gu N Bu). }
    destruct X as (e & X). exists e. rewrite St, (loop_fail q f' r' (other a) unit [] _ e Lq X). reflexivity.
Qed.
Print Assumptions C83_two.

(* no line: nothing happens, whatever the names; no name, and names other than x and y, raise once there is a line *)
Theorem C83_names : forall p unit names,
  (p_lines p = [] -> scale_units p unit names = (p, inl None)) /\
  (p_lines p <> [] -> scale_units p unit [] = (p, inr UnboundLocalError) /\ scale_units p unit ("z" :: names) = (p, inr (Py AttributeError)) /\
     forall n, n <> "x" -> n <> "y" -> n <> "z" -> scale_units p unit (n :: names) = (p, inr UnboundLocalError)).
Proof.
  intros p unit names. unfold scale_units. split; [intros ->; reflexivity|]. intros H. destruct (p_lines p) as [|l r] eqn:L; [contradiction|].
  split; [reflexivity|]. split; [reflexivity|]. intros n Nx Ny Nz. cbn [scale_loop]. unfold axis_of.
  apply String.eqb_neq in Nx, Ny, Nz. rewrite Nx, Ny, Nz. reflexivity.
Qed.
Print Assumptions C83_names.

(* the comparison plots *)
Lemma tabulate_greatest : forall k, greatest (tabulate (S k) INR) (INR k).
Proof.
  intros k. unfold tabulate. split.
  - intros x I. apply in_map_iff in I. destruct I as (i & <- & J). apply in_seq in J. rewrite Rabs_right by (apply Rle_ge, pos_INR). apply le_INR. lia.
  - exists (INR k). split; [apply in_map, in_seq; lia|]. apply Rabs_right, Rle_ge, pos_INR.
Qed.

Lemma grid_greatest : forall g, (1 <= n_samples g)%nat -> 0 < window_t g -> greatest (grid_t g) (window_t g / 2).
Proof.
  intros g N W. unfold grid_t, linspace, tabulate. split.
  - intros x I. apply in_map_iff in I. destruct I as (i & <- & J). apply in_seq in J. apply Rabs_le.
    destruct (Nat.eq_dec i 0) as [->|D]; [cbn; lra|].
    assert (P : 0 < INR (n_samples g - 1)) by (apply lt_0_INR; lia). assert (Q : INR i <= INR (n_samples g - 1)) by (apply le_INR; lia). pose proof (pos_INR i) as Pi.
    assert (F : 0 <= INR i / INR (n_samples g - 1) <= 1).
    { split; [apply Rmult_le_pos; [exact Pi|left; apply Rinv_0_lt_compat; exact P]|]. apply (Rmult_le_reg_r (INR (n_samples g - 1))); [exact P|]. unfold Rdiv. rewrite Rmult_assoc, Rinv_l by lra. lra. }
    replace (INR i * ((window_t g / 2 - - window_t g / 2) / INR (n_samples g - 1))) with (window_t g * (INR i / INR (n_samples g - 1))) by (field; lra).
    assert (0 <= window_t g * (INR i / INR (n_samples g - 1))) by (apply Rmult_le_pos; lra).
    assert (window_t g * (INR i / INR (n_samples g - 1)) <= window_t g * 1) by (apply Rmult_le_compat_l; lra). lra.
  - eexists. split; [apply in_map, in_seq; split; [apply le_n|lia]|]. cbv beta. cbn [INR]. rewrite Rmult_0_l, Rplus_0_r. rewrite Rabs_left; lra.
Qed.

Lemma grid_t_length : forall g, List.length (grid_t g) = n_samples g.
Proof. intros g. unfold grid_t, linspace, tabulate. rewrite map_length, seq_length. reflexivity. Qed.

(* fields and targets of the length of the grid are compared: the times in one unit for both lines, as the label says.  The second figure counts the
   samples of the spectrum, in powers of a thousand, and calls them Hz whatever the window is *)
Theorem C83_compare : forall g state target, (2 <= n_samples g)%nat -> powerRZ 10 (-21) <= window_t g / 2 < powerRZ 10 21 -> INR (n_samples g / 2) < powerRZ 10 21 ->
  List.length state = n_samples g -> List.length target = n_samples g ->
  exists times counts spectrum m s m' s', compare g state (Some target) =
     inl (mkPlot [mkLine times (map Cnorm2 state); mkLine times target] ("Time (" ++ s ++ "s)") "Power a.u.",
          mkPlot [mkLine counts spectrum] (" (" ++ s' ++ "Hz)") "Power a.u.") /\
  in_units m (grid_t g) times /\ si_prefix m s /\ 1 <= (window_t g / 2) / powerRZ 10 m < 1000 /\
  in_units m' (map INR (seq 0 (n_samples g / 2 + 1))) counts /\ si_prefix m' s' /\ 1 <= INR (n_samples g / 2) / powerRZ 10 m' < 1000 /\
  forall k, (k <= n_samples g / 2)%nat -> nth_error spectrum k = Some (sqrt (Cnorm2 (harmonic_at (map (fun z => RtoC (Cnorm2 z)) state) k))).
Proof.
  intros g state target N W M Ls Lt. pose proof (ten_pos (-21)) as P0.
  set (p1 := mkPlot [mkLine (grid_t g) (power_ state); mkLine (grid_t g) target] "Time" "Power a.u.").
  destruct (C83_scaled p1 "s" X (mkLine (grid_t g) (power_ state)) [mkLine (grid_t g) target] (window_t g / 2) eq_refl (grid_greatest g ltac:(lia) ltac:(lra)) W) as (q & m & s & E & S & B & F & Lx & Ly).
  assert (Hs : List.length (power_ state) = n_samples g) by (unfold power_; rewrite map_length; exact Ls).
  destruct (rfspectrum_ state) as [y|e] eqn:Sp; [|unfold rfspectrum_ in Sp; destruct state; [cbn in Ls; lia|discriminate]].
  assert (Ly' : List.length y = (n_samples g / 2 + 1)%nat).
  { unfold rfspectrum_ in Sp. unfold fft in Sp. destruct (map RtoC (power_ state)) as [|z r] eqn:Em; [discriminate|]. rewrite <- Em in Sp. injection Sp as <-.
    rewrite map_length, firstn_length. unfold tabulate. rewrite map_length, seq_length, map_length, Hs, Ls. apply Nat.min_l. pose proof (Nat.div_lt (n_samples g) 2). lia. }
  assert (Vy : forall k, (k <= n_samples g / 2)%nat -> nth_error y k = Some (sqrt (Cnorm2 (harmonic_at (map (fun z => RtoC (Cnorm2 z)) state) k)))).
  { intros k Hk. pose proof (Nat.div_lt (n_samples g) 2 ltac:(lia) ltac:(lia)) as Hd. unfold rfspectrum_ in Sp. destruct (fft (map RtoC (power_ state))) as [Y|] eqn:Fy; [|discriminate]. injection Sp as <-.
    unfold power_ in Fy. rewrite map_map in Fy. destruct (fft_ok _ _ Fy) as (LY & _ & _). rewrite map_length, Ls in LY.
    rewrite nth_error_map. rewrite <- (harmonic_fft _ _ k Fy) by (rewrite map_length; lia). rewrite Ls.
    rewrite (nth_error_nth' (firstn (n_samples g / 2 + 1) Y) C0) by (rewrite firstn_length; lia). cbn [option_map]. f_equal. f_equal. f_equal.
    rewrite <- (firstn_skipn (n_samples g / 2 + 1) Y) at 2. rewrite app_nth1 by (rewrite firstn_length; lia). reflexivity. }
  set (p2 := mkPlot [mkLine (tabulate (n_samples g / 2 + 1) INR) y] "" "Power a.u.").
  assert (G2 : greatest (tabulate (n_samples g / 2 + 1) INR) (INR (n_samples g / 2))) by (rewrite Nat.add_1_r; apply tabulate_greatest).
  assert (H1 : 1 <= INR (n_samples g / 2)) by (change 1 with (INR 1); apply le_INR; apply Nat.div_le_lower_bound; lia).
  assert (W2 : powerRZ 10 (-21) <= INR (n_samples g / 2) < powerRZ 10 21) by (split; [pose proof (ten_le (-21) 0 ltac:(lia)) as T; change (powerRZ 10 0) with 1 in T; lra|exact M]).
  destruct (C83_scaled p2 "Hz" X (mkLine (tabulate (n_samples g / 2 + 1) INR) y) [] (INR (n_samples g / 2)) eq_refl G2 W2) as (q2 & m2 & s2 & E2 & S2 & B2 & F2 & Lx2 & Ly2).
  cbn [p1 p_lines] in F. cbn [p2 p_lines] in F2. destruct q as [ls qx qy]. destruct q2 as [ls2 qx2 qy2]. cbn [p_lines] in F, F2. cbn in Lx, Ly, Lx2, Ly2.
  inversion F as [|? [x1 y1] ? ? [U1 V1] F' Q1 Q2]; subst. inversion F' as [|? [x2 y2] ? ? [U2 V2] F'' Q3 Q4]; subst. inversion F''; subst. cbn in U1, V1, U2, V2. subst y1 y2.
  pose proof (in_units_unique _ _ _ _ U1 U2) as <-.
  inversion F2 as [|? [x3 y3] ? ? [U3 V3] F3 Q5 Q6]; subst. inversion F3; subst. cbn in U3, V3. subst y3.
  exists x1, x3, y, m, s, m2, s2. split; [|split; [assumption|split; [assumption|split; [exact B|split; [assumption|split; [assumption|split; [exact B2|exact Vy]]]]]]].
  unfold compare, plot_line. rewrite grid_t_length, Hs, Nat.eqb_refl. rewrite Lt, Nat.eqb_refl.
  change (set_labels (set_lines (set_lines empty_plot (p_lines empty_plot ++ [mkLine (grid_t g) (power_ state)])) (p_lines (set_lines empty_plot (p_lines empty_plot ++ [mkLine (grid_t g) (power_ state)])) ++ [mkLine (grid_t g) target])) "Time" "Power a.u.") with p1.
  change ["x"%string] with [name_of X]. rewrite E, Sp.
  replace (set_labels (plot_values empty_plot y) "" "Power a.u.") with p2 by (unfold p2, plot_values, set_labels, set_lines; cbn; rewrite Ly'; reflexivity).
  rewrite E2. reflexivity.
Qed.
Print Assumptions C83_compare.

(* the evaluator without a target cannot compare anything, and one sample is too few *)
Theorem C83_compare_raises : forall g state target,
  (exists e, compare g state None = inr e) /\ (List.length state = n_samples g -> compare g state None = inr (Py AttributeError)) /\
  (n_samples g = 1%nat -> powerRZ 10 (-21) <= window_t g / 2 < powerRZ 10 21 -> List.length state = 1%nat -> List.length target = 1%nat -> compare g state (Some target) = inr OverflowError) /\
  (List.length state <> n_samples g \/ List.length target <> n_samples g -> compare g state (Some target) = inr (Py ValueError)).
Proof.
  intros g state target.
  assert (A : List.length state = n_samples g -> compare g state None = inr (Py AttributeError)).
  { intros L. unfold compare, plot_line, power_. rewrite grid_t_length, map_length, L, Nat.eqb_refl. reflexivity. }
  assert (B : List.length state <> n_samples g -> forall t, compare g state t = inr (Py ValueError)).
  { intros L t. unfold compare, plot_line, power_. rewrite grid_t_length, map_length. destruct (Nat.eqb_spec (n_samples g) (List.length state)); [congruence|reflexivity]. }
  split; [|split; [exact A|split]].
  - destruct (Nat.eq_dec (List.length state) (n_samples g)) as [E|E]; [eexists; exact (A E)|eexists; exact (B E None)].
  - intros N W Ls Lt. pose proof (ten_pos (-21)) as P0. unfold compare, plot_line, power_. rewrite !grid_t_length, map_length, Ls, N, Lt. cbn [Nat.eqb].
    destruct (C83_scaled (mkPlot [mkLine (grid_t g) (map Cnorm2 state); mkLine (grid_t g) target] "Time" "Power a.u.") "s" X _ _ (window_t g / 2) eq_refl (grid_greatest g ltac:(lia) ltac:(lra)) W) as (q & m & s & E & _).
    change ["x"%string] with [name_of X].
    match goal with |- context [scale_units ?p "s" _] => change p with (mkPlot [mkLine (grid_t g) (map Cnorm2 state); mkLine (grid_t g) target] "Time" "Power a.u.") end. rewrite E.
    destruct state as [|z [|z' r]]; try discriminate. change (rfspectrum_ [z]) with (rfspectrum_ [z]). unfold rfspectrum_. cbn [power_ map fft List.length].
    match goal with |- context [plot_values empty_plot ?y] => set (v := y) end. assert (Lv : List.length v = 1%nat) by reflexivity.
    destruct (C83_fails (set_labels (plot_values empty_plot v) "" "Power a.u.") "Hz" X (mkLine (tabulate (List.length v) INR) v) [] eq_refl) as (_ & Z0 & _).
    rewrite Z0; [reflexivity|]. cbn [get_data l_x]. rewrite Lv. exact (tabulate_greatest 0).
  - intros [L|L]; [exact (B L _)|]. destruct (Nat.eq_dec (List.length state) (n_samples g)) as [E|E]; [|exact (B E _)].
    unfold compare, plot_line, power_. rewrite !grid_t_length, map_length, E, Nat.eqb_refl. destruct (Nat.eqb_spec (n_samples g) (List.length target)); [congruence|reflexivity].
Qed.
Print Assumptions C83_compare_raises.

(* the second figure does not depend on the window, that is not on what the frequencies of the spectrum are *)
Theorem C83_spectrum : forall g g' state target target' f1 f2 f1' f2', compare g state (Some target) = inl (f1, f2) -> compare g' state (Some target') = inl (f1', f2') -> f2 = f2'.
Proof.
  assert (K : forall g state target f1 f2, compare g state (Some target) = inl (f1, f2) ->
    match rfspectrum_ state with inl s => fst (scale_units (set_labels (plot_values empty_plot s) "" "Power a.u.") "Hz" ["x"%string]) = f2 | inr _ => False end).
  { intros g state target f1 f2 H. unfold compare in H. destruct (plot_line empty_plot (grid_t g) (power_ state)) as [p1|]; [|discriminate]. destruct (plot_line p1 (grid_t g) target) as [p2|]; [|discriminate].
    destruct (scale_units (set_labels p2 "Time" "Power a.u.") "s" ["x"%string]) as [a [b|b]]; [|discriminate]. destruct (rfspectrum_ state) as [s|]; [|discriminate].
    destruct (scale_units (set_labels (plot_values empty_plot s) "" "Power a.u.") "Hz" ["x"%string]) as [c [d|d]]; [|discriminate]. injection H as _ <-. reflexivity. }
  intros g g' state target target' f1 f2 f1' f2' H H'. apply K in H. apply K in H'. destruct (rfspectrum_ state); [congruence|contradiction].
Qed.
Print Assumptions C83_spectrum.

(* the scale of a number of a known order *)
Lemma scale_is : forall d t k s, greatest d t -> powerRZ 10 (3 * k) <= t < powerRZ 10 (3 * k + 3) -> lookup (3 * k) prefixes = Some s -> scale_of d = inl ((3 * k)%Z, s).
Proof.
  intros d t k s G B H. pose proof (ten_pos (3 * k)) as P. destruct (greatest_cons d t G) as (x & r & -> & E). unfold scale_of. cbn [map]. rewrite E. destruct (Req_EM_T t 0); [lra|]. cbv zeta.
  rewrite (order_unique t _ k (order t ltac:(lra)) B), H. reflexivity.
Qed.

(* half a nanosecond to either side, and a second line far outside: picoseconds, and the second line reaches 2 000 000 of them *)
Example C83_case : forall y y',
  scale_units (mkPlot [mkLine [- (5 * / 10 ^ 10); 5 * / 10 ^ 10] y; mkLine [2 * / 10 ^ 6] y'] "Time" "Power") "s" ["x"%string] =
  (mkPlot [mkLine [- 500; 500] y; mkLine [2000000] y'] "Time (ps)" "Power", inl (Some (-12, "p")%Z)).
Proof.
  intros y y'. assert (V : powerRZ 10 (-12) = / 10 ^ 12) by reflexivity.
  assert (G : greatest [- (5 * / 10 ^ 10); 5 * / 10 ^ 10] (5 * / 10 ^ 10)).
  { split; [|exists (5 * / 10 ^ 10); split; [right; left; reflexivity|rewrite Rabs_right; lra]]. intros x [<-|[<-|[]]]; [rewrite Rabs_left; lra|rewrite Rabs_right; lra]. }
  change ["x"%string] with [name_of X].
  rewrite (units_one (mkPlot [mkLine [- (5 * / 10 ^ 10); 5 * / 10 ^ 10] y; mkLine [2 * / 10 ^ 6] y'] "Time" "Power") (mkLine [- (5 * / 10 ^ 10); 5 * / 10 ^ 10] y) [mkLine [2 * / 10 ^ 6] y'] X "s" (-12)%Z "p" eq_refl).
  - unfold scaled, set_lines, append_label, suffix. cbn [p_lines p_xlabel p_ylabel map get_data set_data l_x l_y String.append]. rewrite V.
    replace (- (5 * / 10 ^ 10) / / 10 ^ 12) with (-500) by lra. replace (5 * / 10 ^ 10 / / 10 ^ 12) with 500 by lra. replace (2 * / 10 ^ 6 / / 10 ^ 12) with 2000000 by lra. reflexivity.
  - apply (scale_is _ (5 * / 10 ^ 10) (-4) "p" G); [|reflexivity]. change (3 * -4)%Z with (-12)%Z. change (-12 + 3)%Z with (-9)%Z. rewrite V. change (powerRZ 10 (-9)) with (/ 10 ^ 9). lra.
Qed.

(* four samples in a window of two seconds: the figure shows 0, 1, 2 and says Hz, but the second entry of the spectrum belongs to 3/8 Hz (1 / (n dt)) *)
Theorem C83_spectrum_labels_refuted : exists g state target f1 f2 y, compare g state (Some target) = inl (f1, f2) /\ f2 = mkPlot [mkLine [0; 1; 2] y] " (Hz)" "Power a.u." /\ 1 / (INR (n_samples g) * grid_dt g) <> 1.
Proof.
  set (g := mkGrid 4 2 1). set (z := [C1; C1; C1; C1]).
  destruct (C83_compare g z [1; 1; 1; 1]) as (tm & ct & sp & m & s & m' & s' & E & _ & _ & _ & U & S & B & _); try reflexivity; try (cbn; lia).
  - cbn [window_t g]. change (powerRZ 10 (-21)) with (/ 10 ^ 21). change (powerRZ 10 21) with (10 ^ 21). lra.
  - cbn [n_samples g Nat.div Nat.divmod fst]. change (powerRZ 10 21) with (10 ^ 21). cbn [INR]. lra.
  - assert (Em : m' = 0%Z).
    { destruct S as (k & N & ->). assert (K : (3 * Z.of_nat k - 21 = 3 * (Z.of_nat k - 7))%Z) by lia. rewrite K in B |- *. clear K U E. pose proof (ten_pos (3 * (Z.of_nat k - 7))) as P.
      change (INR (n_samples g / 2)) with (1 + 1) in B. cut (Z.of_nat k - 7 = 0)%Z; [lia|]. apply (order_unique 2 _ 0).
      - destruct B as [B1 B2]. rewrite powerRZ_add by lra. change (powerRZ 10 3) with (10 * (10 * (10 * 1))). set (w := powerRZ 10 (3 * (Z.of_nat k - 7))) in *.
        apply (Rmult_le_compat_r w) in B1; [|lra]. apply (Rmult_lt_compat_r w) in B2; [|lra]. unfold Rdiv in B1, B2. rewrite Rmult_assoc, Rinv_l in B1, B2 by lra. lra.
      - change (powerRZ 10 (3 * 0)) with 1. change (powerRZ 10 (3 * 0 + 3)) with (10 * (10 * (10 * 1))). lra. }
    subst m'. destruct S as (k & N & J). assert (k = 7%nat) by lia. subst k. injection N as <-.
    assert (Ec : ct = [0; 1; 2]).
    { apply (in_units_unique 0 _ _ _ U). change (map INR (seq 0 (n_samples g / 2 + 1))) with [0; 1; 1 + 1]. change (powerRZ 10 0) with 1. unfold in_units. repeat constructor; change (powerRZ 10 0) with 1; lra. }
    subst ct. exists g, z, [1; 1; 1; 1]. eexists; eexists; eexists. split; [exact E|]. split; [reflexivity|].
    unfold grid_dt. cbn [n_samples window_t g Nat.sub INR]. replace (1 / ((1 + 1 + 1 + 1) * ((2 / 2 - - (2) / 2) / (1 + 1 + 1)))) with (3 / 8) by field. lra.
Qed.
Print Assumptions C83_spectrum_labels_refuted.
