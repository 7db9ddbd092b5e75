(** Proofs about the units of plots. *)
From Coq Require Import Reals List String ZArith Lia Lra.
From Verif Require Import Base Complex ArrayModel ScaleModel ScaleSpec.
Import ListNotations.
Local Open Scope string_scope.
Local Open Scope list_scope.
Local Open Scope R_scope.

Lemma ln10 : 0 < ln 10. Proof. rewrite <- ln_1. apply ln_increasing; lra. Qed.

Lemma ten_pos : forall m, 0 < powerRZ 10 m. Proof. intros. apply powerRZ_lt. lra. Qed.

Lemma ten_log : forall t, 0 < t -> t = Rpower 10 (log10 t).
Proof. intros t H. unfold Rpower, log10. replace (ln t / ln 10 * ln 10) with (ln t) by (field; pose proof ln10; lra). rewrite exp_ln; auto. Qed.

Lemma order : forall t, 0 < t -> let m := (3 * Int_part (log10 t / 3))%Z in powerRZ 10 m <= t < powerRZ 10 (m + 3).
Proof.
  intros t H m. destruct (base_Int_part (log10 t / 3)) as [A B]. rewrite !powerRZ_Rpower by lra.
  assert (E : IZR m = 3 * IZR (Int_part (log10 t / 3))) by (unfold m; rewrite mult_IZR; reflexivity).
  rewrite plus_IZR, E. rewrite (ten_log t H) at 2 3. split.
  - apply Rle_Rpower; lra.
  - apply Rpower_lt; lra.
Qed.

Lemma ten_le : forall a b, (a <= b)%Z -> powerRZ 10 a <= powerRZ 10 b.
Proof. intros. rewrite !powerRZ_Rpower by lra. apply Rle_Rpower; [lra|]. apply IZR_le. assumption. Qed.

Lemma ten_lt_inv : forall a b, powerRZ 10 a < powerRZ 10 b -> (a < b)%Z.
Proof. intros a b H. destruct (Z_lt_le_dec a b); [assumption|]. apply ten_le in l. lra. Qed.

Lemma order_unique : forall t a b, powerRZ 10 (3 * a) <= t < powerRZ 10 (3 * a + 3) -> powerRZ 10 (3 * b) <= t < powerRZ 10 (3 * b + 3) -> a = b.
Proof.
  intros t a b [A1 A2] [B1 B2]. assert (3 * a < 3 * b + 3)%Z by (apply ten_lt_inv; lra). assert (3 * b < 3 * a + 3)%Z by (apply ten_lt_inv; lra). lia.
Qed.

Lemma maximum_spec : forall l b, (b <= maximum_from b l) /\ (forall x, In x l -> x <= maximum_from b l) /\ (maximum_from b l = b \/ In (maximum_from b l) l).
Proof.
  induction l as [|y l IH]; intros b; cbn.
  - split; [lra|]. split; [tauto|left; reflexivity].
  - destruct (Rlt_dec b y) as [L|L].
    + destruct (IH y) as (A & B & D). split; [lra|]. split; [intros x [<-|I]; auto|]. destruct D as [D|D]; [right; left; auto|right; right; exact D].
    + destruct (IH b) as (A & B & D). split; [exact A|]. split; [intros x [<-|I]; [lra|auto]|]. destruct D as [D|D]; [left; exact D|right; right; exact D].
Qed.

Lemma greatest_unique : forall d t t', greatest d t -> greatest d t' -> t = t'.
Proof. intros d t t' [A (x & I & E)] [B (y & J & F)]. apply Rle_antisym; [rewrite <- E; apply B; exact I|rewrite <- F; apply A; exact J]. Qed.

Lemma maximum_greatest : forall x r, greatest (x :: r) (maximum_from (Rabs x) (map Rabs r)).
Proof.
  intros x r. destruct (maximum_spec (map Rabs r) (Rabs x)) as (A & B & D). split.
  - intros y [<-|I]; [exact A|]. apply B. apply in_map. exact I.
  - destruct D as [D|D]; [exists x; split; [left; reflexivity|symmetry; exact D]|]. apply in_map_iff in D. destruct D as (y & E & I). exists y. split; [right; exact I|exact E].
Qed.

Lemma greatest_cons : forall d t, greatest d t -> exists x r, d = x :: r /\ maximum_from (Rabs x) (map Rabs r) = t.
Proof. intros [|x r] t G. - destruct G as [_ (x & [] & _)]. - exists x, r. split; [reflexivity|]. exact (greatest_unique _ _ _ (maximum_greatest x r) G). Qed.

Lemma lookup_spec : forall m s, lookup m prefixes = Some s -> si_prefix m s.
Proof.
  intros m s. unfold prefixes. cbn [lookup].
  repeat match goal with |- context [Z.eqb ?k m] => destruct (Z.eqb_spec k m) as [<-|?]; [intros [= <-]|] end; [..|discriminate].
  all: match goal with |- si_prefix ?z _ => let n := eval vm_compute in (Z.to_nat ((z + 21) / 3)) in exists n; split; reflexivity end.
Qed.

Lemma lookup_some : forall k, (-7 <= k <= 6)%Z -> exists s, lookup (3 * k) prefixes = Some s.
Proof.
  intros k H. assert (E : (k = -7 \/ k = -6 \/ k = -5 \/ k = -4 \/ k = -3 \/ k = -2 \/ k = -1 \/ k = 0 \/ k = 1 \/ k = 2 \/ k = 3 \/ k = 4 \/ k = 5 \/ k = 6)%Z) by lia.
  repeat destruct E as [->|E]; try (eexists; reflexivity). subst; eexists; reflexivity.
Qed.

Lemma lookup_none : forall k, (k < -7 \/ 6 < k)%Z -> lookup (3 * k) prefixes = None.
Proof.
  intros k H. unfold prefixes. cbn [lookup].
  repeat match goal with |- context [Z.eqb ?a (3 * k)] => destruct (Z.eqb_spec a (3 * k)); [exfalso; lia|] end. reflexivity.
Qed.

Lemma scale_of_ok : forall d t, greatest d t -> powerRZ 10 (-21) <= t < powerRZ 10 21 ->
  exists k s, scale_of d = inl ((3 * k)%Z, s) /\ si_prefix (3 * k) s /\ powerRZ 10 (3 * k) <= t < powerRZ 10 (3 * k + 3).
Proof.
  intros d t G [L U]. destruct (greatest_cons d t G) as (x & r & -> & E). unfold scale_of. cbn [map]. rewrite E.
  pose proof (ten_pos (-21)) as P. destruct (Req_EM_T t 0) as [Z|_]; [lra|]. cbv zeta.
  destruct (order t ltac:(lra)) as [A B]. set (k := Int_part (log10 t / 3)) in *.
  assert (-21 < 3 * k + 3)%Z by (apply ten_lt_inv; lra). assert (3 * k < 21)%Z by (apply ten_lt_inv; lra).
  destruct (lookup_some k ltac:(lia)) as (s & F). exists k, s. rewrite F. split; [reflexivity|]. split; [apply lookup_spec; exact F|]. split; assumption.
Qed.

Lemma scale_of_bad : forall d t, greatest d t -> 0 < t -> t < powerRZ 10 (-21) \/ powerRZ 10 21 <= t -> scale_of d = inr (Py KeyError).
Proof.
  intros d t G P H. destruct (greatest_cons d t G) as (x & r & -> & E). unfold scale_of. cbn [map]. rewrite E.
  destruct (Req_EM_T t 0) as [Z|_]; [lra|]. cbv zeta. destruct (order t P) as [A B]. set (k := Int_part (log10 t / 3)) in *.
  rewrite lookup_none; [reflexivity|]. destruct H as [H|H].
  - left. assert (3 * k < -21)%Z by (apply ten_lt_inv; lra). lia.
  - right. assert (21 < 3 * k + 3)%Z by (apply ten_lt_inv; lra). lia.
Qed.

Lemma scale_of_zero : forall d, greatest d 0 -> scale_of d = inr OverflowError.
Proof. intros d G. destruct (greatest_cons d 0 G) as (x & r & -> & E). unfold scale_of. cbn [map]. rewrite E. destruct (Req_EM_T 0 0); [reflexivity|contradiction]. Qed.

Lemma scale_of_inl : forall d m s, scale_of d = inl (m, s) -> exists t k, greatest d t /\ m = (3 * k)%Z /\ si_prefix m s /\ powerRZ 10 m <= t < powerRZ 10 (m + 3).
Proof.
  intros d m s H. destruct d as [|x r]; [discriminate|]. pose proof (maximum_greatest x r) as G. set (t := maximum_from (Rabs x) (map Rabs r)) in *.
  assert (N : 0 <= t) by (destruct G as [A _]; apply Rle_trans with (Rabs x); [apply Rabs_pos|apply A; left; reflexivity]).
  destruct N as [N|N].
  - assert (D : (powerRZ 10 (-21) <= t < powerRZ 10 21) \/ (t < powerRZ 10 (-21) \/ powerRZ 10 21 <= t)) by lra. destruct D as [D|D].
    + destruct (scale_of_ok _ _ G D) as (k & s' & E & S & B). rewrite E in H. injection H as <- <-. exists t, k. auto.
    + rewrite (scale_of_bad _ _ G N D) in H. discriminate.
  - rewrite <- N in G. rewrite (scale_of_zero _ G) in H. discriminate.
Qed.

Lemma in_units_map : forall m d, in_units m d (map (fun v => v / powerRZ 10 m) d).
Proof. intros m d. pose proof (ten_pos m). induction d as [|x d IH]; cbn; constructor; [field; lra|exact IH]. Qed.

Lemma in_units_greatest : forall m d e t, in_units m d e -> greatest d t -> greatest e (t / powerRZ 10 m).
Proof.
  intros m d e t U [A (x & I & E)]. pose proof (ten_pos m) as P.
  assert (Q : forall x y, y * powerRZ 10 m = x -> Rabs y = Rabs x / powerRZ 10 m).
  { intros a b F. rewrite <- F, Rabs_mult, (Rabs_right (powerRZ 10 m)) by lra. field. lra. }
  split.
  - clear E I x. induction U as [|a b d e H U IH]; [intros y []|]. intros y [<-|J].
    + rewrite (Q _ _ H). apply Rmult_le_compat_r; [left; apply Rinv_0_lt_compat; exact P|]. apply A. left. reflexivity.
    + apply IH; [|exact J]. intros z Iz. apply A. right. exact Iz.
  - clear A. induction U as [|a b d e H U IH]; [destruct I|]. destruct I as [I|I].
    + exists b. split; [left; reflexivity|]. rewrite (Q _ _ H), I, E. reflexivity.
    + destruct (IH I) as (y & J & F). exists y. split; [right; exact J|exact F].
Qed.

Lemma in_units_unique : forall m d e e', in_units m d e -> in_units m d e' -> e = e'.
Proof.
  intros m d e e' U. pose proof (ten_pos m) as P. revert e'. induction U as [|a b d e H U IH]; intros e' V; inversion V; subst; [reflexivity|]. f_equal; [|apply IH; assumption].
  apply (Rmult_eq_reg_r (powerRZ 10 m)); lra.
Qed.

(* one axis after the other *)
Definition scaled (a : axis) (m : Z) (p : plot) : plot := set_lines p (map (fun l => set_data a l (map (fun v => v / powerRZ 10 m) (get_data a l))) (p_lines p)).
Definition name_of (a : axis) : string := match a with X => "x" | Y => "y" end.
Definition suffix (s unit : string) : string := (" (" ++ s ++ unit ++ ")")%string.

Lemma axis_of_name : forall a, axis_of (name_of a) = inl a. Proof. intros []; reflexivity. Qed.

Lemma loop_step : forall p first rest a unit names last m s, p_lines p = first :: rest -> scale_of (get_data a first) = inl (m, s) ->
  scale_loop p unit (name_of a :: names) last = scale_loop (append_label a (scaled a m p) (suffix s unit)) unit names (Some (m, s)).
Proof. intros p first rest a unit names last m s L S. cbn [scale_loop]. rewrite axis_of_name, L, S. unfold scaled. rewrite L. reflexivity. Qed.

Lemma loop_fail : forall p first rest a unit names last e, p_lines p = first :: rest -> scale_of (get_data a first) = inr e -> scale_loop p unit (name_of a :: names) last = (p, inr e).
Proof. intros p first rest a unit names last e L S. cbn [scale_loop]. rewrite axis_of_name, L, S. reflexivity. Qed.

Lemma units_one : forall p first rest a unit m s, p_lines p = first :: rest -> scale_of (get_data a first) = inl (m, s) ->
  scale_units p unit [name_of a] = (append_label a (scaled a m p) (suffix s unit), inl (Some (m, s))).
Proof. intros p first rest a unit m s L S. unfold scale_units. rewrite L. rewrite (loop_step p first rest a unit [] None m s L S). reflexivity. Qed.

Lemma get_set : forall a l d, get_data a (set_data a l d) = d. Proof. intros [] l d; reflexivity. Qed.

Lemma lines_append : forall a p s, p_lines (append_label a p s) = p_lines p. Proof. intros [] p s; reflexivity. Qed.

Lemma scaled_lines : forall a m p, Forall2 (fun l l' => in_units m (get_data a l) (get_data a l')) (p_lines p) (p_lines (scaled a m p)).
Proof. intros a m p. cbn. induction (p_lines p) as [|l r IH]; cbn; constructor; [rewrite get_set; apply in_units_map|exact IH]. Qed.

Definition other (a : axis) : axis := match a with X => Y | Y => X end.
Lemma scaled_other : forall a m p, map (get_data (other a)) (p_lines (scaled a m p)) = map (get_data (other a)) (p_lines p).
Proof. intros a m p. cbn. rewrite map_map. apply map_ext. intros l. destruct a; reflexivity. Qed.
