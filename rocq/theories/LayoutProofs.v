(** Layout (C21). *)
From Coq Require Import List Arith Bool Lia Relations Permutation QArith.
From Verif Require Import Base GraphModel GraphSpec GraphProofs TopoProofs OperatorsModel OperatorsSpec OperatorsProofs EvolutionProofs ParamsModel ParamsProofs LayoutModel LayoutSpec.
Import ListNotations.
Local Open Scope nat_scope.

Section Longest.
Variable g : graph.
Hypothesis W : wf g.
Hypothesis A : acyclic g.

Lemma steps_path : forall u k v, steps g u k v -> path g u v.
Proof. intros u k v H; induction H as [|k v w H IH C]; [apply rt_refl|]. eapply rt_trans; [exact IH|apply rt_step; exact C]. Qed.
Lemma steps_app : forall u j v k w, steps g u j v -> steps g v k w -> steps g u (j + k) w.
Proof.
  intros u j v k w H1 H2; induction H2 as [|k v' w H IH C]; [rewrite Nat.add_0_r; exact H1|].
  rewrite Nat.add_succ_r. exact (steps_S _ _ _ _ _ IH C).
Qed.
Lemma path_steps : forall u v, path g u v -> exists k, steps g u k v.
Proof.
  intros u v H; induction H as [x y C| |x y z _ [j H1] _ [k H2]].
  - exists 1. apply (steps_S g x 0 x y (steps_0 g x) C).
  - exists 0. constructor.
  - exists (j + k). apply (steps_app _ _ _ _ _ H1 H2).
Qed.
Lemma path1_steps : forall u v, path1 g u v -> exists k, steps g u (S k) v.
Proof.
  intros u v H. apply path1_step_path in H as (z & C & H). apply path_steps in H as (k & H). exists k.
  change (S k) with (1 + k). apply (steps_app u 1 z k v); [exact (steps_S g u 0 u z (steps_0 g u) C)|exact H].
Qed.
Lemma steps_split : forall i u k v, steps g u k v -> i <= k -> exists m, steps g u i m /\ steps g m (k - i) v.
Proof.
  intros i u k v H; induction H as [|k v w H IH C]; intro L.
  - assert (i = 0) by lia; subst i. exists u. split; constructor.
  - destruct (Nat.eq_dec i (S k)) as [->|N].
    + exists w. split; [exact (steps_S _ _ _ _ _ H C)|]. rewrite Nat.sub_diag. constructor.
    + destruct IH as (m & H1 & H2); [lia|]. exists m. split; [exact H1|]. replace (S k - i) with (S (k - i)) by lia. exact (steps_S _ _ _ _ _ H2 C).
Qed.

Lemma steps_dec : forall u k v, steps g u k v \/ ~ steps g u k v.
Proof.
  intros u k; induction k as [|k IH]; intro v.
  - destruct (Nat.eq_dec u v) as [->|N]; [left; constructor|right; intro H; inversion H; subst; contradiction].
  - assert (L : forall es, incl es (g_edges g) -> (exists e, In e es /\ e_dst e = v /\ steps g u k (e_src e)) \/ ~ (exists e, In e es /\ e_dst e = v /\ steps g u k (e_src e))).
    { induction es as [|e es IHe]; intro Inc; [right; intros (e & [] & _)|].
      destruct IHe as [(e' & H1 & H2)|Q]; [intros a Ha; apply Inc; right; exact Ha|left; exists e'; split; [right; exact H1|exact H2]|].
      destruct (Nat.eq_dec (e_dst e) v) as [E|N].
      - destruct (IH (e_src e)) as [S1|S1]; [left; exists e; split; [left; reflexivity|split; assumption]|].
        right. intros (e' & [<-|H1] & H2 & H3); [contradiction|]. apply Q. exists e'; auto.
      - right. intros (e' & [<-|H1] & H2 & H3); [contradiction|]. apply Q. exists e'; auto. }
    destruct (L (g_edges g) (fun a Ha => Ha)) as [(e & H1 & H2 & H3)|Q].
    + left. apply (steps_S g u k (e_src e) v H3). exists e; auto.
    + right. intro H. inversion H as [|k' v' w H' (e & He & Es & Ed)]; subst. apply Q. exists e; auto.
Qed.

Lemma steps_bounded : exists B : node -> nat, forall u k v, steps g u k v -> k <= B v.
Proof.
  destruct (acyclic_rank g W A) as (r & Hr). exists r. intros u k v H. induction H as [|k v w H IH C]; [lia|]. specialize (Hr v w C). lia.
Qed.

Lemma longest_exists : forall u v, path g u v -> exists k, longest g u v k.
Proof.
  intros u v H. apply path_steps in H as (k0 & H0). destruct steps_bounded as (B & HB).
  assert (L : forall d, (forall j, steps g u j v -> j <= d) -> exists k, longest g u v k).
  { induction d as [|d IH]; intro Hd.
    - exists k0. pose proof (Hd k0 H0). split; [exact H0|]. intros j Hj. specialize (Hd j Hj). lia.
    - destruct (steps_dec u (S d) v) as [S1|S1]; [exists (S d); split; assumption|]. apply IH. intros j Hj. pose proof (Hd j Hj).
      destruct (Nat.eq_dec j (S d)) as [->|N]; [contradiction|lia]. }
  apply (L (B v)). intros j Hj. apply (HB u j v Hj).
Qed.
Lemma longest_unique : forall u v j k, longest g u v j -> longest g u v k -> j = k.
Proof. intros u v j k [H1 H2] [H3 H4]. specialize (H2 k H3). specialize (H4 j H1). lia. Qed.
Lemma longest_prefix : forall u v k i, longest g u v k -> i <= k -> exists m, longest g u m i /\ steps g m (k - i) v.
Proof.
  intros u v k i [H1 H2] L. destruct (steps_split i u k v H1 L) as (m & S1 & S2). exists m. split; [|exact S2]. split; [exact S1|].
  intros j Hj. pose proof (H2 _ (steps_app _ _ _ _ _ Hj S2)). lia.
Qed.
Lemma longest_start : forall u k, longest g u u k <-> k = 0.
Proof.
  intros u k. assert (Z : forall j, steps g u j u -> j = 0).
  { intros j Hj. destruct j as [|j]; [reflexivity|]. exfalso. inversion Hj as [|j' v w Hs C]; subst. apply (A u).
    eapply path_trans_path1; [exact (steps_path _ _ _ Hs)|apply t_step; exact C]. }
  split; [intros [H _]; apply Z; exact H|]. intros ->. split; [constructor|]. intros j Hj. rewrite (Z j Hj). lia.
Qed.

Lemma In_suc : forall n m, In m (suc g n) <-> connects g n m.
Proof.
  intros n m. unfold suc, nx_out_edges. rewrite nodup_In, in_map_iff. split.
  - intros (e & E & H). apply filter_In in H as [H1 H2]. apply Nat.eqb_eq in H2. exists e; auto.
  - intros (e & H1 & H2 & H3). exists e. split; [exact H3|]. apply filter_In. split; [exact H1|apply Nat.eqb_eq; exact H2].
Qed.

Lemma In_successors : forall row m, In m (successors_of g row) <-> exists n, In n row /\ connects g n m.
Proof.
  intros row m. unfold successors_of. rewrite nodup_In, in_flat_map. split; intros (n & H1 & H2); exists n; [rewrite In_suc in H2|rewrite In_suc]; auto.
Qed.

Lemma ancestor_iff : forall a n, is_ancestor g a n = true <-> path1 g a n.
Proof.
  intros a n. unfold is_ancestor. rewrite andb_true_iff, negb_true_iff, Nat.eqb_neq, (has_path_iff g a n W). split.
  - intros [H1 H2]. destruct (path_cases g a n H2) as [E|E]; [contradiction|exact E].
  - intro H. split; [intros ->; exact (A n H)|apply path1_path; exact H].
Qed.

(* one round: the row of distance k is followed by the row of distance k + 1 *)
Lemma next_row_level : forall s row k, (forall n, In n row <-> longest g s n k) -> forall n, In n (next_row g row) <-> longest g s n (S k).
Proof.
  intros s row k Hr n. unfold next_row. rewrite filter_In, negb_true_iff. split.
  - intros [H1 H2]. apply In_successors in H1 as (m & Hm & C). apply Hr in Hm as [Sm Lm].
    assert (Sn : steps g s (S k) n) by exact (steps_S _ _ _ _ _ Sm C).
    destruct (longest_exists s n (steps_path _ _ _ Sn)) as (d & Hd). destruct (Nat.eq_dec d (S k)) as [->|Nd]; [exact Hd|]. exfalso.
    assert (Ld : S k <= d) by (apply Hd; exact Sn).
    destruct (longest_prefix s n d k Hd ltac:(lia)) as (x & Hx & _).
    destruct (longest_prefix s n d (S k) Hd Ld) as (m' & Hm' & Sm').
    assert (P1 : path1 g m' n).
    { destruct (d - S k) as [|j] eqn:Ej; [lia|]. inversion Sm' as [|j' v w Hs Cv]; subst. eapply path_trans_path1; [exact (steps_path _ _ _ Hs)|apply t_step; exact Cv]. }
    assert (In' : In m' (successors_of g row)).
    { destruct Hm' as [Sm2 Lm2]. inversion Sm2 as [|k' v w Hv Cv]; subst. apply In_successors. exists v. split; [|exact Cv]. apply Hr. split; [exact Hv|].
      intros j Hj. pose proof (Lm2 _ (steps_S _ _ _ _ _ Hj Cv)). lia. }
    assert (T : existsb (fun m0 => is_ancestor g m0 n) (successors_of g row) = true).
    { apply existsb_exists. exists m'. split; [exact In'|apply ancestor_iff; exact P1]. }
    congruence.
  - intros [Sn Ln]. inversion Sn as [|k' v w Hv Cv]; subst. split.
    + apply In_successors. exists v. split; [|exact Cv]. apply Hr. split; [exact Hv|]. intros j Hj. pose proof (Ln _ (steps_S _ _ _ _ _ Hj Cv)). lia.
    + apply not_true_iff_false. intro T. apply existsb_exists in T as (m & Hm & Am). apply ancestor_iff in Am. apply In_successors in Hm as (x & Hx & C). apply Hr in Hx as [Sx _].
      apply path1_steps in Am as (j & Sj). pose proof (Ln _ (steps_app _ _ _ _ _ (steps_S _ _ _ _ _ Sx C) Sj)). lia.
Qed.
Lemma next_row_nodup : forall row, NoDup (next_row g row).
Proof. intro row. unfold next_row. apply NoDup_filter. apply NoDup_nodup. Qed.
End Longest.

Lemma put_new : forall {B} k (b : B) l, ~ In k (map fst l) -> put k b l = l ++ [(k, b)].
Proof. intros B k b l H. unfold put. apply mem_false in H. rewrite H. reflexivity. Qed.

Lemma place_row_new : forall rand r row i pos pos' i', NoDup row -> (forall n, In n row -> ~ In n (map fst pos)) -> place_row rand r row i pos = (pos', i') ->
  exists ys, pos' = pos ++ combine row (map (fun y => (r, (y * 4)%Q)) ys) /\ length ys = length row /\ Forall (fun y => exists j, y = rand j) ys.
Proof.
  intros rand r row; induction row as [|n row IH]; intros i pos pos' i' Nd Hn H; simpl in H.
  - injection H as <- <-. exists []. split; [rewrite app_nil_r; reflexivity|]. split; [reflexivity|constructor].
  - apply NoDup_cons_iff in Nd as [N1 N2]. rewrite put_new in H by (apply Hn; left; reflexivity).
    assert (Fr : forall m, In m row -> ~ In m (map fst (pos ++ [(n, (r, (rand i * 4)%Q))]))).
    { intros m Hm. rewrite map_app. intro Q. apply in_app_or in Q as [Q|[Q|[]]]; [exact (Hn m (or_intror Hm) Q)|]. simpl in Q. subst m. contradiction. }
    destruct (IH (S i) _ pos' i' N2 Fr H) as (ys & E & Ly & Fy).
    exists (rand i :: ys). split; [rewrite E, <- app_assoc; reflexivity|]. split; [simpl; lia|]. constructor; [exists i; reflexivity|exact Fy].
Qed.

Section Loop.
Variable enum : list node -> list node.
Hypothesis EN : forall l, Permutation (enum l) l.
Variable rand : nat -> Q.
Variable g : graph.
Hypothesis W : wf g.
Hypothesis A : acyclic g.
Variable s : node.
Hypothesis Hs : is_node g s.

(* everything that was placed has its distance; the rest is farther than k *)
Definition inv (k : nat) (row rem : list node) (pos : positions) : Prop :=
  NoDup row /\ (forall n, In n row <-> longest g s n k) /\ NoDup rem /\
  (forall n, In n rem <-> is_node g n /\ forall j, j < k -> ~ longest g s n j) /\
  NoDup (map fst pos) /\ (forall n r y, In (n, (r, y)) pos -> longest g s n r /\ exists j, y = (rand j * 4)%Q) /\
  (forall n, In n (map fst pos) <-> exists j, j < k /\ longest g s n j).

Lemma in_combine_pair : forall {X Y} (l : list X) (l' : list Y) x y, In (x, y) (combine l l') -> In x l /\ In y l'.
Proof. intros X Y l l' x y H. split; [eapply in_combine_l; exact H|eapply in_combine_r; exact H]. Qed.
Lemma map_fst_combine : forall {X Y} (l : list X) (l' : list Y), length l' = length l -> map fst (combine l l') = l.
Proof. induction l as [|x l IH]; intros [|y l'] H; try discriminate; [reflexivity|]. simpl. rewrite IH; [reflexivity|]. simpl in H; lia. Qed.

Lemma longest_node : forall n k, longest g s n k -> is_node g n.
Proof.
  intros n k [H _]. destruct H as [|k v w H (e & He & _ & <-)]; [exact Hs|]. apply (wf_ends g W e He).
Qed.

Lemma inv_step : forall k row rem pos i pos' i', inv k row rem pos -> place_row rand k (enum row) i pos = (pos', i') ->
  inv (S k) (next_row g row) (filter (fun n => negb (mem n row)) rem) pos'.
Proof.
  intros k row rem pos i pos' i' (I1 & I2 & I3 & I4 & I5 & I6 & I7) H.
  assert (Nd : NoDup (enum row)) by (apply (Permutation_NoDup (Permutation_sym (EN row))); exact I1).
  assert (In_e : forall n, In n (enum row) <-> longest g s n k).
  { intro n. rewrite <- I2. split; intro Q; [exact (Permutation_in _ (EN row) Q)|exact (Permutation_in _ (Permutation_sym (EN row)) Q)]. }
  assert (Fresh : forall n, In n (enum row) -> ~ In n (map fst pos)).
  { intros n Hn Q. apply In_e in Hn. apply I7 in Q as (j & Lj & Hj). rewrite (longest_unique g s n j k Hj Hn) in Lj. lia. }
  destruct (place_row_new rand k (enum row) i pos pos' i' Nd Fresh H) as (ys & -> & Ly & Fy).
  assert (Ec : map fst (combine (enum row) (map (fun y => (k, (y * 4)%Q)) ys)) = enum row) by (apply map_fst_combine; rewrite map_length; exact Ly).
  split; [apply next_row_nodup|]. split; [exact (next_row_level g W A s row k I2)|]. split; [apply NoDup_filter; exact I3|].
  split; [|split; [|split]].
  - intro n. rewrite filter_In, I4, negb_true_iff, mem_false, I2. split.
    + intros [[Hn Hj] Hk]. split; [exact Hn|]. intros j Lj. destruct (Nat.eq_dec j k) as [->|N]; [exact Hk|apply Hj; lia].
    + intros [Hn Hj]. split; [split; [exact Hn|intros j Lj; apply Hj; lia]|apply Hj; lia].
  - rewrite map_app, Ec. apply NoDup_app_intro; [exact I5|exact Nd|]. intros n H1 H2. exact (Fresh n H2 H1).
  - intros n r y Q. apply in_app_or in Q as [Q|Q]; [exact (I6 n r y Q)|]. apply in_combine_pair in Q as [Q1 Q2]. apply in_map_iff in Q2 as (y0 & E & Hy). injection E as <- <-.
    split; [apply In_e; exact Q1|]. rewrite Forall_forall in Fy. destruct (Fy y0 Hy) as (j & ->). exists j; reflexivity.
  - intro n. rewrite map_app, Ec, in_app_iff, I7, In_e. split.
    + intros [(j & Lj & Hj)|Hk]; [exists j; split; [lia|exact Hj]|exists k; split; [lia|exact Hk]].
    + intros (j & Lj & Hj). destruct (Nat.eq_dec j k) as [->|N]; [right; exact Hj|left; exists j; split; [lia|exact Hj]].
Qed.

Lemma filter_length_le' : forall {X} (f : X -> bool) l, length (filter f l) <= length l.
Proof. induction l as [|a l IH]; simpl; [lia|]. destruct (f a); simpl; lia. Qed.
Lemma filter_shorter : forall (f : node -> bool) l x, In x l -> f x = false -> length (filter f l) < length l.
Proof.
  induction l as [|a l IH]; intros x H E; [contradiction|]. destruct H as [->|H]; simpl.
  - rewrite E. pose proof (filter_length_le' f l). lia.
  - specialize (IH x H E). destruct (f a); simpl; lia.
Qed.

Lemma loop_ends : (forall n, is_node g n -> path g s n) -> forall fuel k row rem i pos, inv k row rem pos -> length rem < fuel ->
  exists pos', layout_loop enum rand g fuel k row rem i pos = Ok pos' /\ exists k' row', inv k' row' [] pos'.
Proof.
  intro Re. induction fuel as [|f IH]; intros k row rem i pos I L; [lia|]. simpl. destruct rem as [|n rem].
  - exists pos. split; [reflexivity|]. exists k, row. exact I.
  - destruct (place_row rand k (enum row) i pos) as [pos' i'] eqn:E. pose proof (inv_step k row (n :: rem) pos i pos' i' I E) as I'.
    destruct I as (I1 & I2 & I3 & I4 & _). assert (Hn : In n (n :: rem)) by (left; reflexivity). apply I4 in Hn as [Hn Hk].
    destruct (longest_exists g W A s n (Re n Hn)) as (d & Hd). assert (Ld : k <= d) by (destruct (le_lt_dec k d) as [Q|Q]; [exact Q|exfalso; exact (Hk d Q Hd)]).
    destruct (longest_prefix g s n d k Hd Ld) as (m & Hm & _).
    assert (Hin : In m (n :: rem)).
    { apply I4. split; [exact (longest_node m k Hm)|]. intros j Lj Hj. pose proof (longest_unique g s m j k Hj Hm). lia. }
    apply (IH (S k) (next_row g row) (filter (fun n0 => negb (mem n0 row)) (n :: rem)) i' pos' I').
    apply I2 in Hm. apply Nat.lt_le_trans with (length (n :: rem)).
    + apply (filter_shorter (fun n0 => negb (mem n0 row)) (n :: rem) m Hin). apply negb_false_iff. apply mem_true. exact Hm.
    + simpl in *; lia.
Qed.

Lemma loop_forever : (exists n, is_node g n /\ ~ path g s n) -> forall fuel k row rem i pos, inv k row rem pos ->
  layout_loop enum rand g fuel k row rem i pos = Err OutOfFuel.
Proof.
  intros (x & Hx & Np). induction fuel as [|f IH]; intros k row rem i pos I; [reflexivity|]. simpl.
  destruct (place_row rand k (enum row) i pos) as [pos' i'] eqn:E. pose proof (inv_step k row rem pos i pos' i' I E) as I'.
  assert (Hin : In x rem). { destruct I as (_ & _ & _ & I4 & _). apply I4. split; [exact Hx|]. intros j _ [Q _]. apply Np. exact (steps_path g _ _ _ Q). }
  destruct rem as [|n rem]; [contradiction|]. exact (IH _ _ _ _ _ I').
Qed.

Lemma inv_start : forall o, NoDup (s :: o) -> (forall n, In n (s :: o) <-> is_node g n) -> inv 0 [s] (s :: o) [].
Proof.
  intros o Nd Mem. split; [constructor; [intros []|constructor]|]. split.
  { intro n. split.
    - intros [<-|[]]. apply longest_start; [exact A|reflexivity].
    - intros [H _]. inversion H; subst. left; reflexivity. }
  split; [exact Nd|]. split.
  { intro n. rewrite Mem. split; [intro H; split; [exact H|intros j L; lia]|intros [H _]; exact H]. }
  split; [constructor|]. split; [intros n r y []|]. intro n. split; [intros []|intros (j & L & _); lia].
Qed.
End Loop.

(** ** Reachability from the first node *)
Lemma reaches_all : forall g s, wf g -> acyclic g -> no_input g s -> (forall n, no_input g n -> n = s) -> forall n, is_node g n -> path g s n.
Proof.
  intros g s W A Hs Un. destruct (acyclic_rank g W A) as (r & Hr).
  assert (L : forall k n, r n <= k -> is_node g n -> path g s n).
  { induction k as [|k IH]; intros n Lk Hn.
    - destruct (Nat.eq_dec (in_degree g n) 0) as [Z|Z].
      + assert (n = s); [|subst; apply rt_refl]. apply Un. split; [exact Hn|]. intros e He E. rewrite in_degree_zero in Z. exact (Z e He E).
      + apply in_degree_pos in Z as (e & He & E). exfalso. specialize (Hr _ _ (connects_intro g e He)). rewrite E in Hr. lia.
    - destruct (Nat.eq_dec (in_degree g n) 0) as [Z|Z].
      + assert (n = s); [|subst; apply rt_refl]. apply Un. split; [exact Hn|]. intros e He E. rewrite in_degree_zero in Z. exact (Z e He E).
      + apply in_degree_pos in Z as (e & He & E). pose proof (Hr _ _ (connects_intro g e He)) as Q. rewrite E in Q.
        eapply rt_trans; [apply (IH (e_src e)); [lia|apply (wf_ends g W e He)]|]. apply rt_step. exists e. auto. }
  intros n Hn. exact (L (r n) n (le_n _) Hn).
Qed.

Lemma first_no_input : forall g s o, wf g -> valid_order g (s :: o) -> no_input g s.
Proof.
  intros g s o W V. destruct (V) as [P Fw]. assert (Nd : NoDup (s :: o)) by (apply (Permutation_NoDup (Permutation_sym P)); exact (wf_nodes g W)).
  split.
  - apply node_ids_is_node. exact (Permutation_in _ P (or_introl eq_refl)).
  - intros e He E. assert (Hin : In (e_src e) (s :: o)).
    { apply (Permutation_in _ (Permutation_sym P)). apply (node_ids_is_node g (e_src e)). apply (wf_ends g W e He). }
    apply in_split in Hin as (l1 & l2 & El). assert (Q : In s l2) by (apply (Fw l1 (e_src e) l2 s El); exists e; auto).
    destruct l1 as [|a l1]; simpl in El; injection El as E1 E2.
    + subst o. apply NoDup_cons_iff in Nd as [N _]. contradiction.
    + subst a o. apply NoDup_cons_iff in Nd as [N _]. apply N. apply in_or_app. right. right. exact Q.
Qed.

Lemma no_input_path : forall g s n, no_input g n -> path g s n -> s = n.
Proof.
  intros g s n [_ H] P. destruct (path_cases g s n P) as [E|E]; [exact E|]. exfalso. apply clos_trans_tn1 in E. destruct E as [y (e & He & _ & Ed)|y z (e & He & _ & Ed) _]; exact (H e He Ed).
Qed.

Lemma layout_ends : forall enum rand g s, (forall l, Permutation (enum l) l) -> wf g -> acyclic g -> no_input g s -> (forall n, no_input g n -> n = s) ->
  exists pos, (forall fuel, length (g_nodes g) < fuel -> optical_system_layout enum rand g fuel = Ok pos) /\
    NoDup (map fst pos) /\ (forall n, In n (map fst pos) <-> is_node g n) /\
    (forall n r y, In (n, (r, y)) pos -> longest g s n r /\ exists j, y = (rand j * 4)%Q) /\
    (forall e r y r' y', In e (g_edges g) -> In (e_src e, (r, y)) pos -> In (e_dst e, (r', y')) pos -> r < r').
Proof.
  intros enum rand g s EN W A Hs Un. unfold optical_system_layout. destruct (toposort_some g W A) as (o & -> & V). destruct o as [|s' o].
  { exfalso. destruct V as [P _]. apply Permutation_nil in P. destruct Hs as [(d & Hd) _]. destruct (g_nodes g); [contradiction|discriminate]. }
  pose proof (first_no_input g s' o W V) as Hs'. assert (s' = s) by (apply Un; exact Hs'). subst s'.
  destruct V as [P Fw]. assert (Nd : NoDup (s :: o)) by (apply (Permutation_NoDup (Permutation_sym P)); exact (wf_nodes g W)).
  assert (Mem : forall n, In n (s :: o) <-> is_node g n).
  { intro n. rewrite <- node_ids_is_node. split; intro H; [exact (Permutation_in _ P H)|exact (Permutation_in _ (Permutation_sym P) H)]. }
  pose proof (inv_start rand g A s (proj1 Hs) o Nd Mem) as I0.
  assert (Len : length (s :: o) = length (g_nodes g)) by (rewrite (Permutation_length P); apply map_length).
  pose proof (reaches_all g s W A Hs Un) as Re.
  destruct (loop_ends enum EN rand g W A s (proj1 Hs) Re (S (length (g_nodes g))) 0 [s] (s :: o) 0 [] I0 ltac:(lia)) as (pos & E & k' & row' & (_ & _ & _ & I4 & I5 & I6 & I7)).
  exists pos. split.
  { intros fuel L. destruct (loop_ends enum EN rand g W A s (proj1 Hs) Re fuel 0 [s] (s :: o) 0 [] I0 ltac:(lia)) as (pos2 & E2 & _). rewrite E2. f_equal.
    assert (M : forall f f' k row rem i p r r', layout_loop enum rand g f k row rem i p = Ok r -> layout_loop enum rand g f' k row rem i p = Ok r' -> r = r').
    { induction f as [|f IH]; intros f' k row rem i p r r' H1 H2; [discriminate|]. destruct f' as [|f']; [discriminate|]. simpl in H1, H2.
      destruct rem as [|x rem]; [congruence|]. destruct (place_row rand k (enum row) i p) as [p' i']. exact (IH _ _ _ _ _ _ _ _ H1 H2). }
    exact (M _ _ _ _ _ _ _ _ _ E2 E). }
  split; [exact I5|].
  assert (Keys : forall n, In n (map fst pos) <-> is_node g n).
  { intro n. rewrite I7. split.
    - intros (j & _ & Hj). exact (longest_node g W s (proj1 Hs) n j Hj).
    - intro Hn. destruct (longest_exists g W A s n (Re n Hn)) as (d & Hd). exists d. split; [|exact Hd].
      destruct (le_lt_dec k' d) as [Q|Q]; [|exact Q]. exfalso. apply (proj2 (I4 n)). split; [exact Hn|]. intros j Lj Hj. pose proof (longest_unique g s n j d Hj Hd). lia. }
  split; [exact Keys|]. split; [exact I6|].
  intros e r y r' y' He H1 H2. destruct (I6 _ _ _ H1) as [[S1 _] _]. destruct (I6 _ _ _ H2) as [[_ L2] _].
  pose proof (L2 (S r) (steps_S g s r _ _ S1 (connects_intro g e He))). lia.
Qed.

Lemma layout_forever : forall enum rand g, (forall l, Permutation (enum l) l) -> wf g -> acyclic g -> (exists a b, no_input g a /\ no_input g b /\ a <> b) -> never_ends enum rand g.
Proof.
  intros enum rand g EN W A (a & b & Ha & Hb & Nab) fuel. unfold optical_system_layout. destruct (toposort_some g W A) as (o & -> & V). destruct o as [|s o].
  { exfalso. destruct V as [P _]. apply Permutation_nil in P. destruct Ha as [(d & Hd) _]. destruct (g_nodes g); [contradiction|discriminate]. }
  pose proof (first_no_input g s o W V) as Hs. destruct V as [P Fw].
  assert (Nd : NoDup (s :: o)) by (apply (Permutation_NoDup (Permutation_sym P)); exact (wf_nodes g W)).
  assert (Mem : forall n, In n (s :: o) <-> is_node g n).
  { intro n. rewrite <- node_ids_is_node. split; intro H; [exact (Permutation_in _ P H)|exact (Permutation_in _ (Permutation_sym P) H)]. }
  apply (loop_forever enum EN rand g W A s); [|exact (inv_start rand g A s (proj1 Hs) o Nd Mem)].
  destruct (Nat.eq_dec a s) as [->|N].
  - exists b. split; [exact (proj1 Hb)|]. intro Q. apply Nab. exact (no_input_path g s b Hb Q).
  - exists a. split; [exact (proj1 Ha)|]. intro Q. apply N. symmetry. exact (no_input_path g s a Ha Q).
Qed.

Lemma layout_raises : forall enum rand g fuel, wf g ->
  (g_nodes g = [] -> optical_system_layout enum rand g fuel = Err IndexError) /\
  (~ acyclic g -> optical_system_layout enum rand g fuel = Err Unfeasible).
Proof.
  intros enum rand g fuel W. unfold optical_system_layout. pose proof (topological_sort_spec g W) as T. pose proof (toposort_iff g W) as I. split.
  - intro Z. destruct (topological_sort g) as [[|n o]|] eqn:E; [reflexivity| |].
    + destruct T as [P _]. rewrite Z in P. apply Permutation_sym, Permutation_nil in P. discriminate.
    + exfalso. assert (Ac : acyclic g).
      { intros n H. apply path_is_node in H as [(d & Hd) _]; [|exact W]. rewrite Z in Hd. contradiction. }
      apply I in Ac as (o & Q). discriminate.
  - intro C. destruct (topological_sort g) as [o|] eqn:E; [|reflexivity]. exfalso. apply C, I. exists o; reflexivity.
Qed.

(* exactly one node without input, two of them, or no node at all *)
Lemma source_cases : forall g, wf g -> acyclic g ->
  (exists s, no_input g s /\ forall n, no_input g n -> n = s) \/ (exists a b, no_input g a /\ no_input g b /\ a <> b) \/ g_nodes g = [].
Proof.
  intros g W A. destruct (toposort_some g W A) as (o & _ & V). destruct o as [|s o].
  { right; right. destruct V as [P _]. apply Permutation_nil in P. destruct (g_nodes g); [reflexivity|discriminate]. }
  pose proof (first_no_input g s o W V) as Hs.
  destruct (existsb (fun n => (in_degree g n =? 0) && negb (n =? s)) (node_ids g)) eqn:E.
  - right; left. apply existsb_exists in E as (b & Hb & E). apply andb_true_iff in E as [E1 E2]. apply Nat.eqb_eq in E1. apply negb_true_iff, Nat.eqb_neq in E2.
    exists b, s. split; [|split; [exact Hs|exact E2]]. split; [apply node_ids_is_node; exact Hb|]. intros e He Q. rewrite in_degree_zero in E1. exact (E1 e He Q).
  - left. exists s. split; [exact Hs|]. intros n Hn. destruct (Nat.eq_dec n s) as [Q|Q]; [exact Q|]. exfalso.
    apply not_true_iff_false in E. apply E. apply existsb_exists. exists n. split; [apply node_ids_is_node; exact (proj1 Hn)|].
    apply andb_true_iff. split; [apply Nat.eqb_eq; apply in_degree_zero; exact (proj2 Hn)|apply negb_true_iff, Nat.eqb_neq; exact Q].
Qed.

Lemma layout_exact : forall enum rand g, (forall l, Permutation (enum l) l) -> wf g -> acyclic g ->
  ((exists s, no_input g s /\ forall n, no_input g n -> n = s) <-> exists pos, ends_with enum rand g (Ok pos)) /\
  ((exists a b, no_input g a /\ no_input g b /\ a <> b) <-> never_ends enum rand g).
Proof.
  intros enum rand g EN W A.
  assert (X1 : (exists s, no_input g s /\ forall n, no_input g n -> n = s) -> exists pos, ends_with enum rand g (Ok pos)).
  { intros (s & Hs & Un). destruct (layout_ends enum rand g s EN W A Hs Un) as (pos & E & _). exists pos. split; [discriminate|].
    exists (S (length (g_nodes g))). intros fuel L. apply E. lia. }
  pose proof (layout_forever enum rand g EN W A) as X2. split; split.
  - exact X1.
  - intros (pos & _ & f & Hf). destruct (source_cases g W A) as [C|[C|C]]; [exact C| |].
    + specialize (X2 C f). rewrite (Hf f (le_n _)) in X2. discriminate.
    + specialize (Hf f (le_n _)). rewrite (proj1 (layout_raises enum rand g f W) C) in Hf. discriminate.
  - exact X2.
  - intro Ne. destruct (source_cases g W A) as [C|[C|C]]; [|exact C|].
    + destruct (X1 C) as (pos & _ & f & Hf). specialize (Ne f). rewrite (Hf f (le_n _)) in Ne. discriminate.
    + specialize (Ne 0). rewrite (proj1 (layout_raises enum rand g 0 W) C) in Ne. discriminate.
Qed.

(* evolution never changes whether the layout ends *)
Lemma layout_evolved : forall enum rand enum' rand' L g os g', (forall l, Permutation (enum l) l) -> (forall l, Permutation (enum' l) l) -> wf g -> acyclic g -> evo_run L g os g' ->
  ((exists pos, ends_with enum' rand' g' (Ok pos)) <-> exists pos, ends_with enum rand g (Ok pos)) /\
  (never_ends enum' rand' g' <-> never_ends enum rand g).
Proof.
  intros enum rand enum' rand' L g os g' EN EN' W A R. destruct (run_wf_acyclic L g os g' R W A) as [W' A'].
  assert (K : forall n, no_input g' n <-> no_input g n).
  { apply (run_invariant L (fun h => forall n, no_input h n <-> no_input g n)) with (g := g) (os := os); [|exact R|exact W|exact A|intro n; reflexivity].
    intros h o h' Wh Ah Wh' IH E n. rewrite (proj1 (effect_terminals L h o h' Wh Ah Wh' E)). apply IH. }
  destruct (layout_exact enum rand g EN W A) as [E1 E2]. destruct (layout_exact enum' rand' g' EN' W' A') as [E3 E4].
  rewrite <- E1, <- E2, <- E3, <- E4. split; split.
  - intros (s & Hs & Un). exists s. split; [apply K; exact Hs|]. intros n Hn. apply Un, K, Hn.
  - intros (s & Hs & Un). exists s. split; [apply K; exact Hs|]. intros n Hn. apply Un, K, Hn.
  - intros (a & b & Ha & Hb & N). exists a, b. rewrite <- !K. auto.
  - intros (a & b & Ha & Hb & N). exists a, b. rewrite !K. auto.
Qed.
