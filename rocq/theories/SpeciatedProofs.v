(** Proofs about the outer loop with speciation. *)
From Coq Require Import List Arith Bool ZArith QArith Permutation Sorted Lia Lqa FinFun.
From Verif Require Import Base GraphModel GraphSpec OperatorsModel OperatorsSpec ParamsModel EvolverModel EvolveSpec FloatModel HofModel HofSpec HofProofs
  PopulationModel PopulationSpec PopulationProofs RouletteProofs PreferentialProofs SpeciationModel SpeciationSpec SpeciationProofs DistanceModel DistanceProofs TopologyModel TopologySpec TopologyProofs
  SpeciatedModel SpeciatedSpec.
Import ListNotations.
Local Open Scope nat_scope.

(** ** Lists *)
Lemma perm_positions : forall A (l q : list A), Permutation q l -> exists is, Permutation is (seq 0 (length l)) /\ Forall2 (fun i x => nth_error l i = Some x) is q.
Proof.
  intros A l q P. symmetry in P. apply Permutation_nth_error in P as (Ln & f & Inj & F).
  assert (B : forall n, n < length q -> f n < length l). { intros n H. apply nth_error_Some. rewrite <- F. apply nth_error_Some. exact H. }
  exists (map f (seq 0 (length q))). split.
  - apply NoDup_Permutation_bis.
    + apply Injective_map_NoDup; [exact Inj|apply seq_NoDup].
    + rewrite map_length, !seq_length. lia.
    + intros x Hx. apply in_map_iff in Hx as (n & <- & Hn). apply in_seq in Hn. apply in_seq. specialize (B n). lia.
  - assert (G : forall (q0 : list A) k, (forall n, nth_error q0 n = nth_error l (f (k + n))) -> Forall2 (fun i x => nth_error l i = Some x) (map f (seq k (length q0))) q0).
    { induction q0 as [|x q0 IH]; intros k H; cbn; constructor.
      - specialize (H 0). rewrite Nat.add_0_r in H. symmetry. exact H.
      - apply IH. intro n. specialize (H (S n)). cbn in H. rewrite H. f_equal. f_equal. lia. }
    apply (G q 0 F).
Qed.
Lemma sorted_transfer : forall A B (R : A -> B -> Prop) (S : B -> B -> Prop) (T : A -> A -> Prop) is q, Forall2 R is q -> StronglySorted S q ->
  (forall i j x y, R i x -> R j y -> S x y -> T i j) -> StronglySorted T is.
Proof.
  intros A B R S T is q F. induction F as [|i x is q Rx F IH]; intros H K; [constructor|]. inversion H as [|a b H1 H2]; subst. constructor; [apply IH; assumption|].
  rewrite Forall_forall in *. intros j Hj. destruct (In_nth_error _ _ Hj) as [n En].
  assert (G : exists y, nth_error q n = Some y /\ R j y).
  { clear - F En. revert n En. induction F as [|a b is q Rb F IH]; intros [|n] En; try discriminate; cbn in *; [injection En as <-; exists b; auto|apply IH; exact En]. }
  destruct G as (y & Ey & Ry). apply (K i j x y Rx Ry). apply H2. apply (nth_error_In _ _ Ey).
Qed.
Lemma Forall2_nth : forall A B (R : A -> B -> Prop) l m, Forall2 R l m -> forall i x, nth_error l i = Some x -> exists y, nth_error m i = Some y /\ R x y.
Proof.
  intros A B R l m F. induction F as [|a b l m Rb F IH]; intros [|i] x E; try discriminate; cbn in *; [injection E as <-; exists b; auto|apply IH; exact E].
Qed.
Lemma Forall2_nth_r : forall A B (R : A -> B -> Prop) l m, Forall2 R l m -> forall i y, nth_error m i = Some y -> exists x, nth_error l i = Some x /\ R x y.
Proof.
  intros A B R l m F. induction F as [|a b l m Rb F IH]; intros [|i] y E; try discriminate; cbn in *; [injection E as <-; exists a; auto|apply IH; exact E].
Qed.
Lemma Forall2_first : forall A B (R : A -> B -> Prop) l m n, Forall2 R l m -> Forall2 R (firstn n l) (firstn n m).
Proof. intros A B R l m n F. revert n. induction F as [|a b l m Rb F IH]; intros [|n]; cbn; constructor; [exact Rb|apply IH]. Qed.
Lemma picked_at : forall A (l : list A) is q, Forall2 (fun i x => nth_error l i = Some x) is q -> picked is l = q.
Proof. intros A l is q F. induction F as [|i x is q E F IH]; [reflexivity|]. rewrite picked_cons, E, IH. reflexivity. Qed.
Lemma map_res_ok : forall A B (f : A -> res B) l m, map_res f l = Ok m -> Forall2 (fun x y => f x = Ok y) l m.
Proof.
  induction l as [|x l IH]; intros m H; cbn in H; [injection H as <-; constructor|]. destruct (f x) as [y|] eqn:E; [|discriminate]. cbn [bind] in H.
  destruct (map_res f l) as [r|]; [|discriminate]. cbn [bind] in H. injection H as <-. constructor; [exact E|apply IH; reflexivity].
Qed.
Lemma nth_lt : forall A (l : list A) n x, nth_error l n = Some x -> n < length l.
Proof. intros A l n x E. apply nth_error_Some. congruence. Qed.
Lemma nth_seq : forall n k i, i < n -> nth_error (seq k n) i = Some (k + i).
Proof. induction n as [|n IH]; intros k i H; [lia|]. destruct i as [|i]; cbn; [f_equal; lia|]. rewrite IH by lia. f_equal. lia. Qed.
Lemma nth_combine : forall A B (l : list A) (m : list B) i x y, nth_error l i = Some x -> nth_error m i = Some y -> nth_error (combine l m) i = Some (x, y).
Proof. induction l as [|a l IH]; intros [|b m] [|i] x y E F; try discriminate; cbn in *; [congruence|apply IH; assumption]. Qed.
Lemma combine_nth : forall A B (l : list A) (m : list B) i x y, nth_error (combine l m) i = Some (x, y) -> nth_error l i = Some x /\ nth_error m i = Some y.
Proof. induction l as [|a l IH]; intros [|b m] [|i] x y E; try discriminate; cbn in *; [injection E as -> ->; auto|apply IH; assumption]. Qed.
Lemma map_fst_combine : forall A B (l : list A) (m : list B), length l <= length m -> map fst (combine l m) = l.
Proof. induction l as [|a l IH]; intros [|b m] H; cbn in *; try reflexivity; [lia|]. rewrite IH by lia. reflexivity. Qed.
Lemma map_snd_combine : forall A B (l : list A) (m : list B), length m <= length l -> map snd (combine l m) = m.
Proof. induction l as [|a l IH]; intros [|b m] H; cbn in *; try reflexivity; [lia|]. rewrite IH by lia. reflexivity. Qed.

(** ** Descriptors *)
Lemma desc_dset : forall d k x r, desc_of (dset d k x) r = if Nat.eqb k r then x else desc_of d r.
Proof. intros d k x r. unfold desc_of. rewrite dget_dset. destruct (Nat.eqb k r); reflexivity. Qed.
Lemma inherit_cons : forall c par pairs d, inherit ((c, par) :: pairs) d = inherit pairs (dset d c (desc_of d par)).
Proof. reflexivity. Qed.
Lemma inherit_other : forall pairs d r, ~ In r (map fst pairs) -> desc_of (inherit pairs d) r = desc_of d r.
Proof.
  induction pairs as [|[c par] pairs IH]; intros d r H; [reflexivity|]. cbn [map fst In] in H. rewrite inherit_cons, IH by tauto. rewrite desc_dset. destruct (Nat.eqb_spec c r); [exfalso; tauto|reflexivity].
Qed.
Lemma inherit_child : forall pairs d c par, NoDup (map fst pairs) -> (forall q, In q (map snd pairs) -> ~ In q (map fst pairs)) -> In (c, par) pairs ->
  desc_of (inherit pairs d) c = desc_of d par.
Proof.
  induction pairs as [|[a b] pairs IH]; intros d c par N Ds Hi; [contradiction|]. cbn [map fst snd] in *. inversion N as [|x y Na Nd]; subst. rewrite inherit_cons. destruct Hi as [E|Hi].
  - injection E as -> ->. rewrite inherit_other by exact Na. rewrite desc_dset, Nat.eqb_refl. reflexivity.
  - rewrite (IH _ c par Nd); [|intros q Hq Hf; apply (Ds q); [right; exact Hq|right; exact Hf]|exact Hi]. rewrite desc_dset.
    destruct (Nat.eqb_spec a par) as [->|]; [|reflexivity]. exfalso. apply (Ds par); [right; apply (in_map snd _ _ Hi)|left; reflexivity].
Qed.
Definition kind (s : scheme) (d : descriptor) : Prop :=
  match s with SubpopScheme => exists l, d = Subpopulation l | VectorScheme => d = VectorDiff | EditScheme => d = EditDist | PhotoScheme => False end.
Lemma kind_some : forall s d, kind s d -> d <> NoDescriptor.
Proof. intros [] d H; cbn in H; [destruct H as [l ->]|subst|contradiction|subst]; discriminate. Qed.

Section Describe.
Variable target : option Z.
Lemma describe_other : forall s p i d d' r, describe target s i p d = Ok d' -> ~ In r (map snd p) -> desc_of d' r = desc_of d r.
Proof.
  intros s. induction p as [|[o q] p IH]; intros i d d' r H N; cbn [describe] in H; [injection H as <-; reflexivity|]. cbn [map snd In] in N.
  match type of H with bind ?b _ = _ => destruct b as [x|]; [|discriminate] end. cbn [bind] in H. rewrite (IH _ _ _ r H) by tauto. rewrite desc_dset. destruct (Nat.eqb_spec q r); [tauto|reflexivity].
Qed.
Lemma describe_kind : forall s p i d d', describe target s i p d = Ok d' -> forall x, In x p -> kind s (desc_of d' (snd x)).
Proof.
  intros s. induction p as [|[o q] p IH]; intros i d d' H x Hx; cbn [describe] in H; [contradiction|].
  destruct (match s with SubpopScheme => _ | VectorScheme => _ | PhotoScheme => _ | EditScheme => _ end) as [v|] eqn:V; [|discriminate]. cbn [bind] in H.
  assert (K : kind s v). { destruct s; cbn; try congruence. destruct target as [t|]; [|discriminate]. destruct (t =? 0)%Z; [discriminate|]. injection V as <-. eexists. reflexivity. }
  destruct (in_dec Nat.eq_dec (snd x) (map snd p)) as [J|J].
  - apply in_map_iff in J as (y & Ey & Hy). rewrite <- Ey. apply (IH _ _ _ H y Hy).
  - destruct Hx as [<-|Hx]; [|exfalso; apply J; apply in_map; exact Hx]. rewrite (describe_other s p (S i) _ _ _ H) by exact J. cbn [snd]. rewrite desc_dset, Nat.eqb_refl. exact K.
Qed.
Lemma describe_label : forall p i d d' k x, NoDup (map snd p) -> describe target SubpopScheme i p d = Ok d' -> nth_error p k = Some x ->
  exists t, target = Some t /\ t <> 0%Z /\ desc_of d' (snd x) = Subpopulation (label t (i + k)).
Proof.
  induction p as [|[o q] p IH]; intros i d d' k x N H E; [destruct k; discriminate|]. cbn [describe] in H. cbn [map snd] in N. inversion N as [|a b Na Nd]; subst.
  destruct target as [t|] eqn:T; [|discriminate]. destruct (Z.eqb_spec t 0) as [|Nt]; [discriminate|]. cbn [bind] in H. destruct k as [|k]; cbn in E.
  - injection E as <-. exists t. split; [reflexivity|]. split; [exact Nt|]. rewrite Nat.add_0_r. cbn [snd].
    rewrite <- T in H. rewrite (describe_other _ _ _ _ _ _ H) by exact Na. rewrite desc_dset, Nat.eqb_refl. reflexivity.
  - destruct (IH (S i) _ _ k x Nd H E) as (t' & E1 & E2 & E3). exists t'. split; [exact E1|]. split; [exact E2|]. rewrite E3. f_equal. f_equal. lia.
Qed.
End Describe.

(** ** Addresses and parents of the offspring *)
Lemma NoDup_apart : forall (a b : list nat), NoDup a -> NoDup b -> (forall x, In x a -> ~ In x b) -> NoDup (a ++ b).
Proof.
  intros a b Na Nb H. induction Na as [|x a Nx Na IH]; [exact Nb|]. cbn. constructor; [|apply IH; intros y Hy; apply H; right; exact Hy].
  rewrite in_app_iff. intros [I|I]; [exact (Nx I)|exact (H x (or_introl eq_refl) I)].
Qed.
Section Update.
Variable L : library.
Variable ops : list op.
Variable ev : evolver.

Definition fresh (h h' : heap) (k : population) : Prop := NoDup (map snd k) /\ length h <= length h' /\ forall x, In x k -> length h <= snd x < length h'.

Lemma reproduce_fresh : forall gen fuel h r vs tgt ms ks chs stops i h' k, reproduce L ops ev gen fuel h r vs tgt ms ks chs stops i = Ok (h', k) -> fresh h h' k /\ k <> [].
Proof.
  intros gen. induction fuel as [|f IH]; intros h r vs tgt ms ks chs stops i h' k H; cbn [reproduce] in H; [discriminate|].
  destruct (deref h r) as [w|]; [|discriminate]. cbn [bind alloc] in H.
  destruct (evolve_at L ops ev gen (h ++ [w]) (length h) (chs i)) as [h2|] eqn:E; [|discriminate]. cbn [bind] in H. apply evolve_at_ok in E as (_ & _ & _ & _ & _ & Ln & _).
  rewrite app_length in Ln. cbn [length] in Ln.
  destruct (deref h2 tgt) as [wt|]; [|discriminate]. cbn [bind] in H. destruct (distribute vs ms ks (w_store wt)) as [s|]; [|discriminate]. cbn [bind] in H.
  destruct (store_at h2 tgt _) as [h3|] eqn:S3; [|discriminate]. cbn [bind] in H. apply store_at_ok in S3 as (Ln3 & _).
  destruct (deref h3 (length h)) as [w'|]; [|discriminate]. cbn [bind] in H. destruct (extract (w_graph w') (w_store w')) as [x|]; [|discriminate]. cbn [bind] in H.
  assert (Sub : forall k', fresh h3 h' k' -> fresh h h' k'). { intros k' (A & B & C). split; [exact A|]. split; [lia|]. intros y Hy. specialize (C y Hy). lia. }
  destruct (negb (is_dag (w_graph w'))); [apply IH in H as [A B]; split; [apply Sub; exact A|exact B]|].
  destruct (x_params x); [apply IH in H as [A B]; split; [apply Sub; exact A|exact B]|].
  destruct (stops i); [injection H as <- <-; split; [|discriminate]; split; [cbn; constructor; [intros []|constructor]|split; [lia|]]; intros y [<-|[]]; cbn; lia|].
  destruct (reproduce L ops ev gen f h3 r vs (length h) (x_models x) (x_index x) chs stops (S i)) as [[ha ka]|] eqn:R; [|discriminate]. cbn [bind fst snd] in H. injection H as <- <-.
  apply IH in R as [(A & B & C) _]. split; [|discriminate]. split; [|split; [lia|]].
  - cbn [map snd]. constructor; [|exact A]. intro I. apply in_map_iff in I as (y & Ey & Hy). specialize (C y Hy). lia.
  - intros y [<-|Hy]; [cbn; lia|specialize (C y Hy); lia].
Qed.

Lemma litter_ok : forall gen fuel p h chs stops i h' k l, reproduce_each L ops ev gen fuel h p chs stops i = Ok (h', k) -> litter_parents L ops ev gen fuel h p chs stops i = Ok l ->
  length l = length k /\ (forall q, In q l <-> In q (map snd p)) /\ fresh h h' k /\ length p <= length k.
Proof.
  intros gen fuel. induction p as [|[s r] p IH]; intros h chs stops i h' k l H G; cbn [reproduce_each litter_parents] in *.
  - injection H as <- <-. injection G as <-. split; [reflexivity|]. split; [intros q; reflexivity|]. split; [|lia]. split; [constructor|]. split; [lia|intros x []].
  - destruct (deref h r) as [w|]; [|discriminate]. cbn [bind] in *. destruct (extract (w_graph w) (w_store w)) as [x|]; [|discriminate]. cbn [bind] in *.
    destruct (reproduce L ops ev gen fuel h r (x_params x) r (x_models x) (x_index x) (chs i) (stops i) 0) as [[h1 k1]|] eqn:R1; [|discriminate]. cbn [bind fst snd] in *.
    destruct (reproduce_each L ops ev gen fuel h1 p chs stops (S i)) as [[h2 k2]|] eqn:R2; [|discriminate]. cbn [bind fst snd] in H. injection H as <- <-.
    destruct (litter_parents L ops ev gen fuel h1 p chs stops (S i)) as [l2|] eqn:G2; [|discriminate]. cbn [bind] in G. injection G as <-.
    apply reproduce_fresh in R1 as [(A & B & C) Ne]. destruct (IH _ _ _ _ _ _ _ R2 G2) as (L2 & P2 & (A2 & B2 & C2) & N2).
    split; [rewrite !app_length, repeat_length; lia|]. split; [|split; [split; [|split; [lia|]]|]].
    + intro q. cbn [map snd In]. rewrite in_app_iff, P2. split.
      * intros [Hq|Hq]; [left; symmetry; exact (repeat_spec _ _ _ Hq)|right; exact Hq].
      * intros [<-|Hq]; [left|right; exact Hq]. destruct k1; [contradiction|left; reflexivity].
    + rewrite map_app. apply NoDup_apart; [exact A|exact A2|]. intros a Ha Hb. apply in_map_iff in Ha as (y & <- & Hy). apply in_map_iff in Hb as (z & Ez & Hz). specialize (C y Hy). specialize (C2 z Hz). lia.
    + intros y Hy. apply in_app_iff in Hy as [Hy|Hy]; [specialize (C y Hy)|specialize (C2 y Hy)]; lia.
    + destruct k1; [contradiction|]. cbn [length app]. rewrite app_length. lia.
Qed.

Lemma breed_parents_ok : forall n p pick i l, breed_parents n p pick i = Ok l -> length l = n /\ forall q, In q l -> In q (map snd p).
Proof.
  induction n as [|n IH]; intros p pick i l H; cbn [breed_parents] in H; [injection H as <-; split; [reflexivity|intros q []]|].
  destruct (pick i) as [j|]; [|discriminate]. cbn [bind] in H. destruct (nth_error p j) as [par|] eqn:E; [|discriminate]. cbn [bind of_option] in H.
  destruct (breed_parents n p pick (S i)) as [r|] eqn:R; [|discriminate]. cbn [bind] in H. injection H as <-. apply IH in R as [A B]. split; [cbn; lia|].
  intros q [<-|Hq]; [apply in_map; exact (nth_error_In _ _ E)|apply B, Hq].
Qed.
Lemma breed_fresh : forall gen n h p pick chs i h' k, holds_all h p -> breed L ops ev gen n h p pick chs i = Ok (h', k) -> fresh h h' k /\ length k = n.
Proof.
  intros gen n h p pick chs i h' k Hd H. apply breed_ok in H as (Lk & _ & Ln & K); [|exact Hd].
  assert (M : map snd k = seq (length h) n).
  { apply (nth_ext _ _ 0 0); [rewrite map_length, seq_length; exact Lk|]. intros j Hj. rewrite map_length in Hj. rewrite seq_nth by (rewrite <- Lk; exact Hj).
    destruct (nth_error k j) as [x|] eqn:E; [|apply nth_error_None in E; exfalso; apply (Nat.lt_irrefl j); apply (Nat.lt_le_trans _ _ _ Hj); exact E]. destruct (K j x E) as (_ & Ex & _). rewrite <- Ex. apply nth_error_nth. exact (map_nth_error snd _ _ E). }
  split; [|exact Lk]. split; [rewrite M; apply seq_NoDup|]. split; [lia|]. intros x Hx. apply (in_map snd) in Hx. rewrite M in Hx. apply in_seq in Hx. lia.
Qed.

(* what an update that carries no elite over does to objects and descriptors *)
Record update_facts (ru : rule) (pairs : list (nat * nat)) (h h' : heap) (p p' : population) : Prop := {
  uf_heap : length h <= length h';
  uf_holds : holds_all h' p';
  uf_once : NoDup (map snd p');
  uf_size : length p <= length p';
  uf_old : forall d r, r < length h -> desc_of (inherit pairs d) r = desc_of d r;
  uf_kid : forall d x, In x p' -> exists y, In y p /\ desc_of (inherit pairs d) (snd x) = desc_of d (snd y);
  uf_every : ru = RulePreferential \/ ru = RuleRandom -> forall d y, In y p -> exists x, In x p' /\ desc_of (inherit pairs d) (snd x) = desc_of d (snd y);
  uf_random : ru = RuleRandom -> map snd p' = map snd p;
  uf_keys : forall r, In r (map fst pairs) -> length h <= r < length h' }.

Lemma bred_facts : forall ru l h h' p k, ru <> RuleRandom -> holds_all h p -> fresh h h' k -> length l = length k -> length p <= length k -> (forall q, In q l -> In q (map snd p)) ->
  (ru = RulePreferential -> forall q, In q (map snd p) -> In q l) -> update_facts ru (combine (map snd k) l) h h' p k.
Proof.
  intros ru l h h' p k NR Hd (Nk & Lh & Rk) Ll Lp Pl Ev.
  unfold population, individual in *.
  assert (Mf : map fst (combine (map snd k) l) = map snd k) by (apply map_fst_combine; rewrite map_length; lia).
  assert (Ms : map snd (combine (map snd k) l) = l) by (apply map_snd_combine; rewrite map_length; lia).
  assert (Old : forall q, In q (map snd p) -> ~ In q (map snd k)).
  { intros q Hq Hk. apply in_map_iff in Hq as ([s r] & <- & Hi). specialize (Hd s r Hi). apply in_map_iff in Hk as (x & Ex & Hx). specialize (Rk x Hx). cbn [snd] in Ex. lia. }
  assert (Ch : forall d c par, In (c, par) (combine (map snd k) l) -> desc_of (inherit (combine (map snd k) l) d) c = desc_of d par).
  { intros d c par Hi. apply inherit_child; [rewrite Mf; exact Nk| |exact Hi]. rewrite Mf, Ms. intros q Hq. apply Old, Pl, Hq. }
  constructor.
  - exact Lh.
  - intros s r Hi. exact (proj2 (Rk (s, r) Hi)).
  - exact Nk.
  - exact Lp.
  - intros d r Hr. apply inherit_other. rewrite Mf. intro Hi. apply in_map_iff in Hi as (x & <- & Hx). specialize (Rk x Hx). lia.
  - intros d x Hx. destruct (In_nth_error _ _ Hx) as [n En]. destruct (nth_error l n) as [par|] eqn:El; [|apply nth_error_None in El; pose proof (nth_lt _ _ _ _ En); unfold population, individual in *; lia].
    assert (Hi : In (snd x, par) (combine (map snd k) l)) by (apply (nth_error_In _ n), nth_combine; [apply map_nth_error; exact En|exact El]).
    pose proof (Pl par (nth_error_In _ _ El)) as Pp. apply in_map_iff in Pp as (y & <- & Hy). exists y. split; [exact Hy|]. exact (Ch d _ _ Hi).
  - intros [E|E]; [|contradiction]. intros d y Hy. specialize (Ev E (snd y) (in_map snd _ _ Hy)). destruct (In_nth_error _ _ Ev) as [n En].
    destruct (nth_error k n) as [x|] eqn:Ek; [|apply nth_error_None in Ek; pose proof (nth_lt _ _ _ _ En); unfold population, individual in *; lia].
    exists x. split; [exact (nth_error_In _ _ Ek)|]. apply Ch. apply (nth_error_In _ n), nth_combine; [apply map_nth_error; exact Ek|exact En].
  - intro E. contradiction.
  - rewrite Mf. intros r Hr. apply in_map_iff in Hr as (x & <- & Hx). exact (Rk x Hx).
Qed.

Variable lucks : nat -> luck.
Variable cfg : config.
Lemma update_facts_hold : forall ru g gen h p h' p' pairs, holds_all h p -> NoDup (map snd p) -> scored p -> (forall x, In x p' -> fst x = None) ->
  update_population L ops ev lucks (with_rule cfg ru) g gen h p = Ok (h', p') -> lineage L ops ev lucks cfg ru g gen h p p' = Ok pairs -> update_facts ru pairs h h' p p'.
Proof.
  intros ru g gen h p h' p' pairs Hd Nd Sc Un H G. unfold update_population in H. cbn [with_rule cf_rule cf_elitism] in H. unfold lineage in G. cbv zeta in G.
  assert (NE : forall k, p' = k ++ slice_to (pass_index (cf_elitism cfg) p) p -> slice_to (pass_index (cf_elitism cfg) p) p = []).
  { intros k E. pose proof (elites_scored (cf_elitism cfg) p Sc) as F. destruct (slice_to _ p) as [|y e] eqn:El; [reflexivity|]. exfalso. apply (F y (or_introl eq_refl)). apply Un. rewrite E. apply in_app_iff. right. left. reflexivity. }
  destruct ru.
  - unfold update_random in H. destruct (copy_all h _) as [[h1 e]|] eqn:C; [|discriminate]. cbn [bind fst snd] in H.
    destruct (evolve_each L ops ev _ _ h1 p _ 0) as [[h2 k]|] eqn:E; [|discriminate]. cbn [bind fst snd] in H. injection H as <- <-. injection G as <-.
    apply copies_scored in C as (C1 & _ & C3 & _). apply evolve_each_shape in E as (Ln & ->).
    assert (e = []). { destruct e as [|x e]; [reflexivity|]. exfalso. pose proof (elites_scored (cf_elitism cfg) p Sc) as F. destruct (slice_to _ p) as [|y l]; [discriminate|]. cbn in C1. injection C1 as C1 _. apply (F y (or_introl eq_refl)). rewrite <- C1. apply Un. apply in_app_iff. right. left. reflexivity. }
    subst e. rewrite app_nil_r. assert (M : map snd (map (fun x : individual => (@None fl, snd x)) p) = map snd p) by (rewrite map_map; reflexivity).
    destruct (slice_to (pass_index (cf_elitism cfg) p) p) as [|y0 l0]; [|discriminate]. cbn [length map] in *. rewrite combine_nil.
    constructor; cbn [inherit fold_left map fst].
    + lia.
    + intros s r Hi. apply in_map_iff in Hi as ([s' r'] & Er & Hi). cbn [snd] in Er. injection Er as <- <-. specialize (Hd s' r' Hi). lia.
    + replace (map snd _) with (map snd p) by (symmetry; exact M). exact Nd.
    + rewrite map_length. apply le_n.
    + reflexivity.
    + intros d x Hx. apply in_map_iff in Hx as (y & <- & Hy). exists y. auto.
    + intros _ d y Hy. exists (None, snd y). split; [apply (in_map (fun x : individual => (@None fl, snd x)) _ _ Hy)|reflexivity].
    + intros _. exact M.
    + intros r [].
  - unfold update_preferential in H. destruct (map fst p) as [|s0 sr]; [discriminate|].
    match type of H with (if ?b then _ else _) = _ => destruct b; [discriminate|] end.
    destruct (reproduce_each L ops ev _ _ h p _ _ 0) as [[h1 ks]|] eqn:R; [|discriminate]. cbn [bind fst snd] in H. injection H as <- <-.
    rewrite (NE ks eq_refl) in *. rewrite app_nil_r in *.
    destruct (litter_parents L ops ev _ _ h p _ _ 0) as [l|] eqn:Lp; [|discriminate]. cbn [bind] in G. injection G as <-.
    destruct (litter_ok _ _ _ _ _ _ _ _ _ _ R Lp) as (A & B & F & Sz). apply bred_facts; [discriminate|exact Hd|exact F|exact A|exact Sz|intros q; apply B|intros _ q; apply B].
  - unfold update_roulette in H. destruct (roulette p) as [ps|]; [|discriminate]. cbn [bind] in *.
    destruct (breed L ops ev _ _ h p _ _ 0) as [[h1 ks]|] eqn:R; [|discriminate]. cbn [bind fst snd] in H. injection H as <- <-. rewrite (NE ks eq_refl) in *. rewrite app_nil_r in *.
    destruct (breed_parents _ p _ 0) as [l|] eqn:Lp; [|discriminate]. cbn [bind] in G. injection G as <-. apply breed_fresh in R as [F Lk]; [|exact Hd]. apply breed_parents_ok in Lp as [A B].
    apply bred_facts; [discriminate|exact Hd|exact F|lia|lia|exact B|discriminate].
  - unfold update_tournament in H. destruct p as [|x0 p]; [discriminate|]. destruct (Nat.eqb 3 0); [discriminate|].
    destruct (breed L ops ev _ _ h (x0 :: p) _ _ 0) as [[h1 ks]|] eqn:R; [|discriminate]. cbn [bind fst snd] in H. injection H as <- <-. rewrite (NE ks eq_refl) in *. rewrite app_nil_r in *.
    destruct (breed_parents _ (x0 :: p) _ 0) as [l|] eqn:Lp; [|discriminate]. cbn [bind] in G. injection G as <-. apply breed_fresh in R as [F Lk]; [|exact Hd]. apply breed_parents_ok in Lp as [A B].
    apply bred_facts; [discriminate|exact Hd|exact F|lia|lia|exact B|discriminate].
Qed.
End Update.

(** ** Speciation of one population *)
Lemma Forall2_compose : forall A B C (R : A -> B -> Prop) (S : B -> C -> Prop) (T : A -> C -> Prop) l m n, Forall2 R l m -> Forall2 S m n -> (forall x y z, R x y -> S y z -> T x z) -> Forall2 T l n.
Proof. intros A B C R S T l m n F. revert n. induction F as [|x y l m Rx F IH]; intros n G K; inversion G; subst; constructor; [apply (K x y); assumption|apply IH; assumption]. Qed.
Lemma Forall2_len : forall A B (R : A -> B -> Prop) l m, Forall2 R l m -> length l = length m.
Proof. intros A B R l m F. induction F; cbn; [reflexivity|congruence]. Qed.
Lemma same_fl_refl : forall a, same_fl a a.
Proof. intros []; cbn; reflexivity. Qed.
Lemma same_individual_refl : forall x, same_individual x x.
Proof. intros [[s|] r]; (split; [reflexivity|]); cbn; [apply same_fl_refl|exact I]. Qed.

Section Run.
Variable L : library.
Variable ops : list op.
Variable ev : evolver.
Variable sim : world -> world -> res Q.
Variable rounded : Z * Z -> fl.
Variable root : nat -> Q.
Variable opt0 : world -> res (fl * world).
Variable opt : nat -> nat -> world -> res (fl * world).
Variable lucks : nat -> luck.
Variable orders : nat -> bool -> list nat -> list nat.
Variable picks : nat -> bool -> nat -> list nat -> list nat.
Variable cfg : config.
Variable target : option Z.
Variable half : option (nat -> Q).
Hypothesis IT : iterations orders picks.

Notation object_distance := (object_distance L sim rounded).
Notation do_speciate := (do_speciate L sim rounded root orders picks).
Notation setup := (setup target half).
Notation spec_generation := (spec_generation L ops ev sim rounded root opt lucks orders picks cfg target half).
Notation spec_generations := (spec_generations L ops ev sim rounded root opt lucks orders picks cfg target half).
Notation optimise_topology := (optimise_topology L ops ev sim rounded root opt0 opt lucks orders picks cfg target half).

Definition weak (pr : process) : Prop :=
  match pr_overseer pr with
  | None => True
  | Some o => (exists n, managed (ov_target o) root (4 # 10) n (ov_state o)) /\ forall k, In k (dkeys (sp_species (ov_state o))) -> k < length (pr_heap pr)
  end.
Definition pop_ok (h : heap) (p : population) : Prop := scored p /\ holds_all h p /\ NoDup (map snd p).
Definition scheme_in (pr : process) : option scheme := option_map ov_scheme (pr_overseer pr).
Definition half_in (pr : process) : option (nat -> Q) := match pr_overseer pr with None => None | Some o => ov_half o end.

Definition divides (pr pr' : process) (p : population) : Prop :=
  match pr_overseer pr, pr_overseer pr' with
  | None, None => True
  | Some o, Some o' => ov_scheme o' = ov_scheme o /\ ov_target o' = ov_target o /\ ov_half o' = ov_half o /\ (0 < sp_thresh (ov_state o) < 1)%Q /\
      divided (object_distance pr (ov_scheme o)) (sp_thresh (ov_state o)) p (ov_state o') /\ (p <> [] -> sp_species (ov_state o') <> [])
  | _, _ => False
  end.
Lemma do_speciate_ok : forall g b pr p pr', weak pr -> holds_all (pr_heap pr) p -> do_speciate g b pr p = Ok pr' ->
  pr_heap pr' = pr_heap pr /\ pr_desc pr' = pr_desc pr /\ weak pr' /\ divides pr pr' p /\ scheme_in pr' = scheme_in pr /\ half_in pr' = half_in pr.
Proof.
  intros g b [h d [o|]] p pr' W Hd H; unfold SpeciatedModel.do_speciate in H; cbn [pr_overseer pr_heap pr_desc] in *.
  - destruct (speciate _ _ _ _ _ _ _) as [sp|] eqn:E; [|discriminate]. cbn [bind] in H. injection H as <-. cbn [pr_heap pr_desc]. destruct W as [[n M] K]. destruct IT as [IO IP].
    assert (SO : set_orders (orders g b (dkeys (sp_species (ov_state o)))) (picks g b) (ov_state o)) by (split; [apply IO|intros; apply IP]).
    pose proof (speciate_divided _ _ _ _ _ _ _ _ (managed_once _ _ _ _ _ M) SO E) as D.
    repeat (split; [reflexivity|]). split; [|split; [|split; reflexivity]].
    + unfold weak. cbn [pr_overseer ov_target ov_state pr_heap]. split; [exists (S n); exact (mg_next _ _ _ n _ _ _ _ _ _ M SO E)|].
      intros k Hk. destruct (dv_reps _ _ _ _ D k Hk) as [I _]. apply in_map_iff in I as ([s r] & <- & I). exact (Hd s r I).
    + unfold divides. cbn [pr_overseer ov_scheme ov_target ov_half ov_state]. repeat (split; [reflexivity|]). destruct (threshold_range _ _ _ _ _ M) as (T & _). split; [exact T|]. split; [exact D|].
      intros N Es. destruct p as [|x p]; [contradiction|]. destruct (dv_assigned _ _ _ _ D x (or_introl eq_refl)) as (rep & _ & I & _). rewrite Es in I. exact I.
  - injection H as <-. split; [reflexivity|]. split; [reflexivity|]. split; [exact I|]. split; [exact I|]. split; reflexivity.
Qed.

(* sharing, sorting, truncating, undoing *)
Lemma positions : forall base (done : list (fl * world)) i x, nth_error (combine (map (fun x => Some (fst x)) done) (seq base (length done))) i = Some x ->
  exists s w, nth_error done i = Some (s, w) /\ x = (Some s, base + i).
Proof.
  intros base done i [o r] E. apply combine_nth in E as [A B]. assert (i < length done) by (rewrite <- (seq_length (length done) base); exact (nth_lt _ _ _ _ B)).
  rewrite nth_seq in B by assumption. injection B as <-. rewrite nth_error_map in A. destruct (nth_error done i) as [[s w]|]; [|discriminate]. injection A as <-. exists s, w. auto.
Qed.
Lemma positions_at : forall base (done : list (fl * world)) i s w, nth_error done i = Some (s, w) ->
  nth_error (combine (map (fun x => Some (fst x)) done) (seq base (length done))) i = Some (Some s, base + i).
Proof. intros base done i s w E. apply nth_combine; [rewrite nth_error_map, E; reflexivity|]. apply nth_seq. exact (nth_lt _ _ _ _ E). Qed.
Lemma positions_addresses : forall base (done : list (fl * world)), map snd (combine (map (fun x => Some (fst x)) done) (seq base (length done))) = seq base (length done).
Proof. intros base done. apply map_snd_combine. rewrite map_length, seq_length. lia. Qed.

Lemma count_filter : forall A (f : A -> nat) (q : A -> bool) r l, (forall x, In x l -> q x = Nat.eqb (f x) r) -> count_occ Nat.eq_dec (map f l) r = length (filter q l).
Proof.
  intros A f q r l H. induction l as [|x l IH]; [reflexivity|]. cbn [map count_occ filter]. rewrite (H x (or_introl eq_refl)).
  destruct (Nat.eq_dec (f x) r) as [e|n]; [apply Nat.eqb_eq in e|apply Nat.eqb_neq in n]; [rewrite e|rewrite n]; cbn [length]; rewrite IH; auto; intros y Hy; apply H; right; exact Hy.
Qed.
Lemma size_alone : forall n i, i < n -> species_size (seq 0 n) i = 1.
Proof.
  intros n i H. unfold species_size. rewrite nth_seq by exact H. cbn [Nat.add]. assert (I : In i (seq 0 n)) by (apply in_seq; lia).
  pose proof (proj1 (NoDup_count_occ Nat.eq_dec (seq 0 n)) (seq_NoDup n 0) i). apply (count_occ_In Nat.eq_dec) in I. lia.
Qed.

Lemma sharing_weights : forall g pr pr' h0 (done : list (fl * world)) p', weak pr -> pr_heap pr = h0 ++ map snd done ->
  let p := combine (map (fun x => Some (fst x)) done) (seq (length h0) (length done)) in
  do_speciate g true pr p = Ok pr' -> do_share g pr' p = Ok p' ->
  exists rep ss, grouping sim (scheme_in pr) (combine (map (fun x => desc_of (pr_desc pr) (snd x)) p) (map snd done)) rep /\
    weighed (half_in pr) g (species_size rep) done ss /\
    (forall i x, nth_error p' i = Some x -> exists s, nth_error ss i = Some s /\ x = (Some s, length h0 + i)) /\ length p' = length done /\
    forall is, exists r, do_unshare g pr' (picked is p') = Ok r /\ Forall2 same_individual (picked is p) r.
Proof.
  intros g pr pr' h0 done p' W Hh p S E.
  assert (Lp : length p = length done) by (unfold p; rewrite combine_length, map_length, seq_length; lia).
  assert (Mp : map snd p = seq (length h0) (length done)) by apply positions_addresses.
  assert (Hd : holds_all (pr_heap pr) p).
  { intros s r Hi. apply (in_map snd) in Hi. rewrite Mp in Hi. apply in_seq in Hi. rewrite Hh, app_length, map_length. cbn [snd] in Hi. lia. }
  pose proof (do_speciate_ok g true pr p pr' W Hd S) as (_ & _ & W' & D & _). unfold divides, do_share, do_unshare, scheme_in, half_in in *.
  destruct (pr_overseer pr) as [o|] eqn:O; destruct (pr_overseer pr') as [o'|] eqn:O'; try contradiction; cbn [option_map].
  2:{ injection E as <-. exists (seq 0 (length done)), (map fst done). split; [cbn; f_equal; rewrite combine_length, !map_length; unfold population, individual in *; lia|]. split; [|split; [|split; [exact Lp|]]].
      - split; [apply map_length|]. intros i s w s' Es E'. rewrite nth_error_map, Es in E'. injection E' as <-. rewrite size_alone by exact (nth_lt _ _ _ _ Es). destruct s as [q| | |]; cbn; try reflexivity. exists q. split; [reflexivity|]. ring.
      - intros i x Ex. apply positions in Ex as (s & w & Es & ->). exists s. split; [rewrite nth_error_map, Es; reflexivity|reflexivity].
      - intro is. exists (picked is p). split; [reflexivity|]. clear. induction (picked is p); constructor; [apply same_individual_refl|assumption]. }
  destruct D as (D1 & D2 & D3 & Th & D & _). rewrite <- D3.
  assert (Sp : forall x, In x p -> fst x <> None /\ In (snd x) (map snd p)).
  { intros x Hx. split; [|apply in_map; exact Hx]. apply In_nth_error in Hx as [i Ei]. apply positions in Ei as (s & w & _ & ->). discriminate. }
  pose (rep := map (fun x : individual => match dget (sp_map (ov_state o')) (snd x) with Some r => r - length h0 | None => 0 end) p).
  assert (Lr : length rep = length done) by (unfold rep; rewrite map_length; exact Lp).
  (* the representative of position i *)
  assert (At : forall i, i < length done -> exists x, nth_error p i = Some x /\ snd x = length h0 + i).
  { intros i Hi. destruct (nth_error done i) as [[s w]|] eqn:Ed; [|apply nth_error_None in Ed; lia]. eexists. split; [exact (positions_at _ _ _ _ _ Ed)|reflexivity]. }
  assert (Rp : forall i, i < length done -> exists r, nth_error rep i = Some r /\ r < length done /\ dget (sp_map (ov_state o')) (length h0 + i) = Some (length h0 + r) /\
             In (length h0 + r) (dkeys (sp_species (ov_state o'))) /\ (r = i \/ close (object_distance pr (ov_scheme o)) (sp_thresh (ov_state o)) (length h0 + r) (length h0 + i))).
  { intros i Hi. destruct (At i Hi) as (x & Ex & Sx). destruct (dv_assigned _ _ _ _ D x (nth_error_In _ _ Ex)) as (a & Ea & Ia & Ca). destruct (dv_reps _ _ _ _ D a Ia) as [Ip _]. rewrite Mp in Ip. apply in_seq in Ip.
    exists (a - length h0). rewrite Sx in *. replace (length h0 + (a - length h0)) with a by lia. split; [etransitivity; [exact (map_nth_error _ _ _ Ex)|]; cbn beta; rewrite Sx, Ea; reflexivity|]. split; [lia|]. split; [exact Ea|]. split; [exact Ia|].
    destruct Ca as [->|Ca]; [left; lia|right; exact Ca]. }
  assert (Sz : forall i x n, nth_error p i = Some x -> size_of (ov_state o') (snd x) = Some n -> n = species_size rep i).
  { intros i x n Ex Hn. pose proof (nth_lt _ _ _ _ Ex) as Hi. rewrite Lp in Hi. destruct (Rp i Hi) as (r & Er & Lr' & Em & Ik & _). destruct (At i Hi) as (y & Ey & Sy). rewrite Ex in Ey. injection Ey as <-.
    unfold size_of in Hn. rewrite Sy, Em in Hn. destruct (dv_sizes _ _ _ _ D _ _ Hn) as [-> _]. unfold species_size. rewrite Er. unfold members, rep. symmetry. apply count_filter. intros z Hz.
    apply In_nth_error in Hz as [j Ej]. pose proof (nth_lt _ _ _ _ Ej) as Hj. rewrite Lp in Hj. destruct (Rp j Hj) as (r' & _ & _ & Em' & _). destruct (At j Hj) as (y & Ey & Sy'). rewrite Ej in Ey. injection Ey as <-.
    rewrite Sy', Em'. replace (length h0 + r' - length h0) with r' by lia. destruct (Nat.eqb_spec r' r); [apply Nat.eqb_eq; lia|apply Nat.eqb_neq; lia]. }
  (* positions and distances *)
  assert (It : forall i, i < length done -> exists w, nth_error done i <> None /\ nth_error (pr_heap pr) (length h0 + i) = Some w /\
             nth_error (combine (map (fun x => desc_of (pr_desc pr) (snd x)) p) (map snd done)) i = Some (desc_of (pr_desc pr) (length h0 + i), w)).
  { intros i Hi. destruct (nth_error done i) as [[s w]|] eqn:Ed; [|apply nth_error_None in Ed; lia]. exists w. split; [discriminate|]. split.
    - rewrite Hh, nth_error_app2 by lia. replace (length h0 + i - length h0) with i by lia. rewrite nth_error_map, Ed. reflexivity.
    - destruct (At i Hi) as (x & Ex & Sx). apply nth_combine; [etransitivity; [exact (map_nth_error _ _ _ Ex)|]; cbn beta; rewrite Sx; reflexivity|rewrite nth_error_map, Ed; reflexivity]. }
  assert (Ds : forall i j d, i < length done -> j < length done -> object_distance pr (ov_scheme o) (length h0 + i) (length h0 + j) = Ok d ->
     (fltb d (Fin (sp_thresh (ov_state o))) = true -> related (alike sim (ov_scheme o)) (combine (map (fun x => desc_of (pr_desc pr) (snd x)) p) (map snd done)) i j) /\
     (fltb d (Fin (sp_thresh (ov_state o))) = false -> related (unlike sim (ov_scheme o)) (combine (map (fun x => desc_of (pr_desc pr) (snd x)) p) (map snd done)) i j)).
  { intros i j d Hi Hj Ed. destruct (It i Hi) as (wi & _ & Hwi & Ii). destruct (It j Hj) as (wj & _ & Hwj & Ij). unfold related.
    assert (Q0 : fltb (Fin (inject_Z 0)) (Fin (sp_thresh (ov_state o))) = true). { cbn. apply negb_true_iff. destruct (Qle_bool _ _) eqn:Q; [apply Qle_bool_iff in Q; change (inject_Z 0) with 0%Q in Q; lra|reflexivity]. }
    assert (Q1 : fltb (Fin (inject_Z 1)) (Fin (sp_thresh (ov_state o))) = false). { cbn. apply negb_false_iff. apply Qle_bool_iff. change (inject_Z 1) with 1%Q. lra. }
    unfold SpeciatedModel.object_distance in Ed. cbv zeta in Ed. unfold deref in Ed. rewrite Hwi, Hwj in Ed. cbn [of_option bind] in Ed. unfold alike, unlike.
    destruct (ov_scheme o).
    - destruct (subpop_distance _ _) as [z|] eqn:Es; [|discriminate]. cbn [bind] in Ed. injection Ed as <-. unfold subpop_distance in Es. destruct (check_names _ _ _); [|discriminate]. cbn [bind] in Es.
      destruct (desc_of (pr_desc pr) (length h0 + i)) as [|la| |]; try discriminate. destruct (desc_of (pr_desc pr) (length h0 + j)) as [|lb| |]; try discriminate. injection Es as <-.
      destruct (Nat.eqb_spec la lb) as [->|Nb]; (split; intro F; [|]); try congruence.
      + eexists. eexists. split; [exact Ii|]. split; [exact Ij|]. reflexivity.
      + eexists. eexists. split; [exact Ii|]. split; [exact Ij|]. cbn. congruence.
    - split; intros _; eexists; eexists; (split; [exact Ii|]); (split; [exact Ij|exact I]).
    - discriminate.
    - destruct (edit_distance _ _ _ _ _ _) as [z|] eqn:Es; [|discriminate]. cbn [bind] in Ed. injection Ed as <-. unfold edit_distance in Es. destruct (check_names _ _ _); [|discriminate]. cbn [bind] in Es.
      destruct (sim wi wj) as [q|] eqn:Sm; [|discriminate]. cbn [bind] in Es. injection Es as <-. destruct (Qle_bool q (1 # 100)) eqn:Ql.
      + split; intro F; [|congruence]. eexists. eexists. split; [exact Ii|]. split; [exact Ij|]. exists q. split; [exact Sm|]. apply Qle_bool_iff. exact Ql.
      + split; intro F; [congruence|]. eexists. eexists. split; [exact Ii|]. split; [exact Ij|]. exists q. split; [exact Sm|]. apply Qnot_le_lt. intro X. apply Qle_bool_iff in X. congruence. }
  destruct (share_ok (ov_half o') _ _ _ _ g p D Sp) as (q & Eq & Lq & K). rewrite E in Eq. injection Eq as <-.
  exists rep, (map (fun x => match fst x with Some s => s | None => NaN end) p'). split; [|split; [|split; [|split; [exact (eq_trans Lq Lp)|]]]].
  - split; [rewrite Lr, combine_length, !map_length; unfold population, individual in *; lia|]. split.
    + intros i r Er. pose proof (nth_lt _ _ _ _ Er) as Hi. rewrite Lr in Hi. destruct (Rp i Hi) as (r' & Er' & Hr & _ & Ik & C). rewrite Er in Er'. injection Er' as <-. split.
      * destruct (Rp r Hr) as (r2 & E2 & _ & Em & _). rewrite E2. destruct (dv_reps _ _ _ _ D _ Ik) as [_ X]. rewrite X in Em. injection Em as Em. f_equal. lia.
      * destruct C as [->|(d & Ed & Cl)]; [left; reflexivity|right]. exact (proj1 (Ds r i d Hr Hi Ed) Cl).
    + intros r r' Er Er' Ne. assert (Key : forall r, nth_error rep r = Some r -> r < length done /\ In (length h0 + r) (dkeys (sp_species (ov_state o')))).
      { intros a Ea. pose proof (nth_lt _ _ _ _ Ea) as Ha. rewrite Lr in Ha. destruct (Rp a Ha) as (b & Eb & _ & _ & Ik & _). rewrite Ea in Eb. injection Eb as <-. auto. }
      destruct (Key r Er) as [Hr Kr]. destruct (Key r' Er') as [Hr' Kr'].
      assert (Op : forall (R : nat -> nat -> Prop) l a b, ForallOrdPairs R l -> In a l -> In b l -> a <> b -> R a b \/ R b a).
      { clear. intros R l a b F. induction F as [|x l F G IH]; intros Ia Ib Ne; [contradiction|]. rewrite Forall_forall in F. destruct Ia as [->|Ia]; destruct Ib as [->|Ib]; [contradiction|left; apply F, Ib|right; apply F, Ia|apply IH; assumption]. }
      destruct (Op _ _ _ _ (dv_apart _ _ _ _ D) Kr Kr' ltac:(lia)) as [(d & Ed & Cl)|(d & Ed & Cl)]; [left; exact (proj2 (Ds r r' d Hr Hr' Ed) Cl)|right; exact (proj2 (Ds r' r d Hr' Hr Ed) Cl)].
  - split; [rewrite map_length; exact (eq_trans Lq Lp)|]. intros i s w s' Es E'. pose proof (positions_at (length h0) done i s w Es) as Ex. destruct (K i _ Ex) as (n & s1 & Hn & Pn & E1 & E2). cbn [fst] in E1. injection E1 as <-.
    pose proof (eq_trans (eq_sym E') (map_nth_error (fun x : individual => match fst x with Some s => s | None => NaN end) _ _ E2)) as E3. cbn [fst] in E3. injection E3 as ->. rewrite <- (Sz i _ n Ex Hn). apply scaled_shared. exact Pn.
  - intros i x Ex. assert (Hi : i < length done) by (rewrite <- (eq_trans Lq Lp); exact (nth_lt _ _ _ _ Ex)). destruct (At i Hi) as (y & Ey & Sy). destruct (K i y Ey) as (n & s1 & Hn & Pn & E1 & E2). rewrite Ex in E2. injection E2 as ->.
    exists (fl_mul s1 (scaling (ov_half o') g n)). split; [exact (map_nth_error _ _ _ Ex)|]. rewrite Sy. reflexivity.
  - intro is. exact (sharing_undone (ov_half o') _ _ _ _ g p p' is D Sp E).
Qed.

Definition places (base : nat) (done : list (fl * world)) : population := combine (map (fun x => Some (fst x)) done) (seq base (length done)).
Definition labels_of (pr : process) (p : population) : list descriptor := map (fun x => desc_of (pr_desc pr) (snd x)) p.

Lemma selection : forall g n pr pr' h0 (done : list (fl * world)) p5 p6 p7 kept, weak pr -> pr_heap pr = h0 ++ map snd done ->
  do_speciate g true pr (places (length h0) done) = Ok pr' -> do_share g pr' (places (length h0) done) = Ok p5 -> sort_population p5 = Ok p6 ->
  do_unshare g pr' (firstn n p6) = Ok p7 -> contents (pr_heap pr') p7 = Ok kept ->
  pop_ok (pr_heap pr') p7 /\ incl (map snd p7) (map snd (places (length h0) done)) /\ length p7 = length kept /\ length kept = Nat.min n (length done) /\
  exists rep ss, grouping sim (scheme_in pr) (combine (labels_of pr (places (length h0) done)) (map snd done)) rep /\ weighed (half_in pr) g (species_size rep) done ss /\ selected n ss done kept.
Proof.
  intros g n pr pr' h0 done p5 p6 p7 kept W Hh S Sh So Un Co. destruct (sharing_weights g pr pr' h0 done p5 W Hh S Sh) as (rep & ss & G & We & K5 & L5 & U). fold (places (length h0) done) in *.
  assert (Mp : map snd (places (length h0) done) = seq (length h0) (length done)) by apply positions_addresses.
  assert (Hd : holds_all (pr_heap pr) (places (length h0) done)).
  { intros s r Hi. apply (in_map snd) in Hi. rewrite Mp in Hi. apply in_seq in Hi. rewrite Hh, app_length, map_length. cbn [snd] in Hi. lia. }
  pose proof (do_speciate_ok g true pr _ pr' W Hd S) as (Hh' & _).
  assert (Sc : forall x, In x p5 -> fst x <> None). { intros x Hx. apply In_nth_error in Hx as [i Ei]. destruct (K5 i x Ei) as (s & _ & ->). discriminate. }
  destruct (sort_population_ok p5 Sc) as (q & Eq & Pq & Oq). rewrite So in Eq. injection Eq as <-.
  destruct (perm_positions _ _ _ Pq) as (is & Pi & Fi). rewrite L5 in Pi.
  pose proof (Forall2_first _ _ _ _ _ n Fi) as Fn. rewrite <- (picked_at _ _ _ _ Fn) in Un. destruct (U (firstn n is)) as (r & Er & Fr). rewrite Un in Er. injection Er as <-.
  assert (Li : length is = length done) by (rewrite (Permutation_length Pi), seq_length; reflexivity).
  assert (Ri : forall i, In i (firstn n is) -> i < length done).
  { intros i Hi. assert (In i is) by (rewrite <- (firstn_skipn n is); apply in_app_iff; left; exact Hi). apply (Permutation_in _ Pi) in H. apply in_seq in H. lia. }
  assert (Fp : Forall2 (fun i x => nth_error (places (length h0) done) i = Some x) (firstn n is) (picked (firstn n is) (places (length h0) done))).
  { clear - Ri. revert Ri. generalize (firstn n is) as js. induction js as [|j js IH]; intro Ri; [constructor|]. rewrite picked_cons.
    destruct (nth_error done j) as [[s w]|] eqn:Ed; [|apply nth_error_None in Ed; specialize (Ri j (or_introl eq_refl)); lia].
    unfold places in *. rewrite (positions_at _ _ _ _ _ Ed). cbn [app]. constructor; [apply (positions_at _ _ _ _ _ Ed)|apply IH; intros i Hi; apply Ri; right; exact Hi]. }
  assert (F7 : Forall2 (fun i x => exists s w s', nth_error done i = Some (s, w) /\ x = (Some s', length h0 + i) /\ same_fl s s') (firstn n is) p7).
  { apply (Forall2_compose _ _ _ _ _ _ _ _ _ Fp Fr). intros i x y Ex [Sy Fy]. apply positions in Ex as (s & w & Ed & ->). cbn [fst snd] in *. destruct y as [[s'|] ry]; cbn [fst snd] in *; [|contradiction]. exists s, w, s'. subst. auto. }
  assert (M7 : map snd p7 = map (fun i => length h0 + i) (firstn n is)).
  { clear - F7. revert F7. generalize (firstn n is) as js. intros js F. induction F as [|i x js p7 (s & w & s' & _ & -> & _) F IH]; [reflexivity|]. cbn. f_equal. exact IH. }
  assert (Nn : NoDup (firstn n is)).
  { assert (Ni : NoDup is) by (apply (Permutation_NoDup (Permutation_sym Pi)), seq_NoDup). rewrite <- (firstn_skipn n is) in Ni. clear - Ni. induction (firstn n is) as [|x l IH]; [constructor|]. cbn in Ni. inversion Ni; subst. constructor; [intro X; apply H1; apply in_app_iff; left; exact X|apply IH; assumption]. }
  pose proof (map_res_ok _ _ _ _ _ Co) as Fc. pose proof (Forall2_len _ _ _ _ _ F7) as L7. pose proof (Forall2_len _ _ _ _ _ Fc) as Lc.
  assert (Fk : Forall2 (fun i x => exists s, nth_error done i = Some (s, snd x) /\ same_fl s (fst x)) (firstn n is) kept).
  { apply (Forall2_compose _ _ _ _ _ _ _ _ _ F7 Fc). intros i x z (s & w & s' & Ed & -> & Sf) Ez. cbn [fst snd of_option bind] in Ez. unfold deref in Ez. rewrite Hh', Hh, nth_error_app2 in Ez by lia.
    replace (length h0 + i - length h0) with i in Ez by lia. rewrite nth_error_map, Ed in Ez. cbn in Ez. injection Ez as <-. exists s. auto. }
  split; [|split; [|split; [|split]]].
  - split; [|split].
    + intros x Hx. apply In_nth_error in Hx as [k Ek]. destruct (Forall2_nth_r _ _ _ _ _ F7 k x Ek) as (i & _ & s & w & s' & _ & -> & _). discriminate.
    + intros s r Hi. apply (in_map snd) in Hi. rewrite M7 in Hi. apply in_map_iff in Hi as (i & Ei & Hi). cbn [snd] in Ei. subst r. rewrite Hh', Hh, app_length, map_length. specialize (Ri i Hi). lia.
    + rewrite M7. apply Injective_map_NoDup; [intros a b; lia|exact Nn].
  - rewrite M7, Mp. intros a Ha. apply in_map_iff in Ha as (i & <- & Hi). apply in_seq. specialize (Ri i Hi). lia.
  - exact Lc.
  - transitivity (length (firstn n is)); [exact (eq_sym (eq_trans L7 Lc))|]. rewrite firstn_length, Li. reflexivity.
  - exists rep, ss. split; [exact G|]. split; [exact We|]. exists (firstn n is), (skipn n is). rewrite firstn_skipn. split; [exact Pi|]. split; [rewrite firstn_length, Li; reflexivity|]. split; [|exact Fk].
    apply (sorted_transfer _ _ _ _ _ _ _ Fi Oq). intros i j x y Ex Ey Hxy a b Ea Eb. destruct (K5 i x Ex) as (s & Es & ->). destruct (K5 j y Ey) as (t & Et & ->). cbn [fst] in Hxy. apply Hxy; congruence.
Qed.

(** ** One generation *)
Lemma setup_ok : forall s pr p pr', weak pr -> setup s pr p = Ok pr' -> pr_heap pr' = pr_heap pr /\ weak pr' /\
  exists x rest, p = x :: rest /\
    ((desc_of (pr_desc pr) (snd x) <> NoDescriptor /\ pr' = pr) \/
     (desc_of (pr_desc pr) (snd x) = NoDescriptor /\ s <> PhotoScheme /\ describe target s 0 p (pr_desc pr) = Ok (pr_desc pr') /\
      exists o, pr_overseer pr' = Some o /\ ov_scheme o = s /\ ov_half o = half /\ sp_species (ov_state o) = [])).
Proof.
  intros s pr p pr' W H. unfold SpeciatedModel.setup in H. destruct p as [|[o r] rest]; [discriminate|].
  destruct (desc_of (pr_desc pr) r) eqn:D.
  2,3,4: injection H as <-; split; [reflexivity|]; split; [exact W|]; exists (o, r), rest; split; [reflexivity|]; left; cbn [snd]; rewrite D; split; [discriminate|reflexivity].
  assert (G : s <> PhotoScheme /\ bind (new_speciation (4 # 10)) (fun sp => bind (describe target s 0 ((o, r) :: rest) (pr_desc pr)) (fun d => Ok (mkPr (pr_heap pr) d (Some (mkOv s (match s with EditScheme => None | _ => target end) half sp))))) = Ok pr').
  { destruct s; try (split; [discriminate|exact H]). }
  destruct G as [Ns G]. destruct (new_speciation (4 # 10)) as [sp|] eqn:N; [|discriminate]. cbn [bind] in G. destruct (describe target s 0 _ _) as [d|] eqn:Ds; [|discriminate]. cbn [bind] in G. injection G as <-.
  assert (E : sp_species sp = []). { unfold new_speciation in N. destruct (_ || _); [discriminate|]. injection N as <-. reflexivity. }
  split; [reflexivity|]. split.
  - unfold weak. cbn [pr_overseer ov_target ov_state pr_heap]. split; [exists 0; constructor; exact N|]. rewrite E. intros k [].
  - exists (o, r), rest. split; [reflexivity|]. right. cbn [snd pr_desc pr_overseer]. split; [exact D|]. split; [exact Ns|]. split; [first [exact Ds|reflexivity]|]. eexists. split; [reflexivity|]. cbn. auto.
Qed.

Lemma share_shape : forall g pr pr' p p', weak pr -> pop_ok (pr_heap pr) p -> do_speciate g false pr p = Ok pr' -> do_share g pr' p = Ok p' ->
  map snd p' = map snd p /\ pop_ok (pr_heap pr) p'.
Proof.
  intros g pr pr' p p' W (Sc & Hd & Nd) S E. pose proof (do_speciate_ok g false pr p pr' W Hd S) as (_ & _ & _ & D & _). unfold divides, do_share in *.
  assert (G : map snd p' = map snd p /\ scored p').
  { destruct (pr_overseer pr) as [o|]; destruct (pr_overseer pr') as [o'|]; try contradiction; [|injection E as <-; auto].
    destruct D as (_ & _ & _ & _ & D & _). destruct (share_ok (ov_half o') _ _ _ _ g p D (fun x Hx => conj (Sc x Hx) (in_map snd _ _ Hx))) as (q & Eq & Lq & K). rewrite E in Eq. injection Eq as <-.
    assert (N : forall i x', nth_error p' i = Some x' -> exists x s, nth_error p i = Some x /\ x' = (Some s, snd x)).
    { intros i x' Ex'. destruct (nth_error p i) as [x|] eqn:Ex; [|apply nth_error_None in Ex; exfalso; apply (Nat.lt_irrefl i); apply (Nat.lt_le_trans _ _ _ (nth_lt _ _ _ _ Ex')); rewrite Lq; exact Ex]. destruct (K i x Ex) as (n & s & _ & _ & _ & E2). rewrite Ex' in E2. injection E2 as ->. eexists. eexists. split; reflexivity. }
    split.
    - apply (nth_ext _ _ 0 0); [rewrite !map_length; exact Lq|]. intros i Hi. rewrite map_length in Hi. destruct (nth_error p' i) as [x'|] eqn:E1; [|apply nth_error_None in E1; exfalso; apply (Nat.lt_irrefl i), (Nat.lt_le_trans _ _ _ Hi E1)].
      destruct (N i x' E1) as (x & s & E2 & ->). rewrite (nth_error_nth _ _ _ (map_nth_error snd _ _ E1)), (nth_error_nth _ _ _ (map_nth_error snd _ _ E2)). reflexivity.
    - intros x' Hx. apply In_nth_error in Hx as [i Ei]. destruct (N i x' Ei) as (x & s & _ & ->). discriminate. }
  destruct G as [M S']. split; [exact M|]. split; [exact S'|]. split; [|rewrite M; exact Nd].
  intros s r Hi. apply (in_map snd) in Hi. rewrite M in Hi. apply in_map_iff in Hi as ([s' r'] & Er & Hi). cbn [snd] in Er. subst r'. exact (Hd s' r Hi).
Qed.

Lemma unshare_unscored : forall g pr p p', do_unshare g pr p = Ok p' -> (forall x, In x p' -> fst x = None) ->
  p' = p /\ forall o x, pr_overseer pr = Some o -> In x p -> size_of (ov_state o) (snd x) = None.
Proof.
  intros g pr p p' H N. unfold do_unshare in H. destruct (pr_overseer pr) as [o|]; [|injection H as <-; split; [reflexivity|discriminate]].
  unfold reverse_fitness_sharing in H. apply map_res_ok in H.
  assert (K : forall x y, unshare_one (ov_half o) (ov_state o) g x = Ok y -> fst y = None -> y = x /\ size_of (ov_state o) (snd x) = None).
  { intros x y E Ny. unfold unshare_one in E. destruct (size_of (ov_state o) (snd x)); [|injection E as <-; auto]. destruct (fst x); [|discriminate]. destruct (fl_div _ _); [|discriminate]. cbn [bind] in E. injection E as <-. discriminate. }
  split.
  - clear - H N K. induction H as [|x y p p' E F IH]; [reflexivity|]. destruct (K x y E (N y (or_introl eq_refl))) as [-> _]. f_equal. apply IH. intros z Hz. apply N. right. exact Hz.
  - intros o' x E Hx. injection E as <-. apply In_nth_error in Hx as [i Ei]. destruct (Forall2_nth _ _ _ _ _ H i x Ei) as (y & Ey & Exy). exact (proj2 (K x y Exy (N y (nth_error_In _ _ Ey)))).
Qed.

Definition generation_of (g : nat) : Q := (inject_Z (Z.of_nat g) / inject_Z (Z.of_nat (cf_generations cfg) - 1))%Q.
Record anatomy (ru : rule) (sch : option scheme) (g : nat) (st st' : sstate) (pr1 : process) (p1 : population) (pr2 : process) (h3 : heap) (pk : population) (pairs : list (nat * nat))
  (done kept : list (fl * world)) (top : slot world) (rest : hof world) : Prop := {
  an_first : g = 0 -> pr1 = ss_process st /\ p1 = ss_pop st;
  an_later : g <> 0 -> do_speciate g false (ss_process st) (ss_pop st) = Ok pr1 /\ do_share g pr1 (ss_pop st) = Ok p1;
  an_p1 : map snd p1 = map snd (ss_pop st) /\ pop_ok (pr_heap (ss_process st)) p1;
  an_pr1 : pr_heap pr1 = pr_heap (ss_process st) /\ pr_desc pr1 = pr_desc (ss_process st) /\ weak pr1 /\ scheme_in pr1 = scheme_in (ss_process st) /\ half_in pr1 = half_in (ss_process st);
  an_gens : cf_generations cfg <> 1;
  an_setup : match sch with None => pr2 = pr1 | Some s => setup s pr1 p1 = Ok pr2 end;
  an_pr2 : pr_heap pr2 = pr_heap (ss_process st) /\ weak pr2;
  an_update : update_population L ops ev lucks (with_rule cfg ru) g (generation_of g) (pr_heap pr2) p1 = Ok (h3, pk);
  an_facts : update_facts ru pairs (pr_heap pr2) h3 p1 pk;
  an_unscored : forall x, In x pk -> fst x = None;
  an_unknown : g <> 0 -> forall o x, pr_overseer pr2 = Some o -> In x pk -> size_of (ov_state o) (snd x) = None;
  an_done : optimise_all opt g 0 h3 pk = Ok done;
  an_heap : pr_heap (ss_process st') = h3 ++ map snd done;
  an_inherited : labels_of (ss_process st') (places (length h3) done) = map (fun x => desc_of (inherit pairs (pr_desc pr2)) (snd x)) pk;
  an_old : forall r, r < length h3 -> desc_of (pr_desc (ss_process st')) r = desc_of (inherit pairs (pr_desc pr2)) r;
  an_speciate : exists pr4, pr_heap pr4 = h3 ++ map snd done /\ pr_desc pr4 = pr_desc (ss_process st') /\ pr_overseer pr4 = pr_overseer pr2 /\
    do_speciate g true pr4 (places (length h3) done) = Ok (ss_process st') /\ divides pr4 (ss_process st') (places (length h3) done);
  an_weak : weak (ss_process st');
  an_scheme : scheme_in (ss_process st') = scheme_in pr2 /\ half_in (ss_process st') = half_in pr2;
  an_pop : pop_ok (pr_heap (ss_process st')) (ss_pop st') /\ incl (map snd (ss_pop st')) (map snd (places (length h3) done)) /\ length (ss_pop st') = length kept;
  an_kept : kept <> [] /\ length kept = Nat.min (cf_population cfg) (length done);
  an_choice : exists rep ss, grouping sim (scheme_in pr2) (combine (labels_of (ss_process st') (places (length h3) done)) (map snd done)) rep /\
    weighed (half_in pr2) g (species_size rep) done ss /\ selected (cf_population cfg) ss done kept;
  an_saved : ss_saved st' = ss_saved st ++ [kept];
  an_evaluated : ss_evaluated st' = ss_evaluated st ++ [done];
  an_labels : ss_labels st' = ss_labels st ++ [labels_of (ss_process st') (places (length h3) done)];
  an_log : ss_log st' = ss_log st ++ [mkRow g (option_map fst top) (length kept)];
  an_hof : ss_hof st' = top :: rest /\ update_hof world sim (cf_threshold cfg) (ss_hof st) done = Ok (top :: rest) }.

Lemma dissect : forall ru sch g st st', weak (ss_process st) -> pop_ok (pr_heap (ss_process st)) (ss_pop st) -> spec_generation ru sch g st = Ok st' ->
  exists pr1 p1 pr2 h3 pk pairs done kept top rest, anatomy ru sch g st st' pr1 p1 pr2 h3 pk pairs done kept top rest.
Proof.
  intros ru sch g st st' W Po H. unfold SpeciatedModel.spec_generation in H. cbv zeta in H.
  match type of H with bind ?b _ = _ => destruct b as [pr1|] eqn:E1; [|discriminate] end. cbn [bind] in H.
  match type of H with bind ?b _ = _ => destruct b as [p1|] eqn:E2; [|discriminate] end. cbn [bind] in H.
  destruct (Nat.eqb_spec (cf_generations cfg) 1) as [|G1]; [discriminate|]. fold (generation_of g) in H.
  match type of H with bind ?b _ = _ => destruct b as [pr2|] eqn:E3; [|discriminate] end. cbn [bind] in H.
  unfold do_update in H. destruct (update_population L ops ev lucks (with_rule cfg ru) g (generation_of g) (pr_heap pr2) p1) as [[h3 pk]|] eqn:E4; [|discriminate]. cbn [bind fst snd] in H.
  destruct (lineage L ops ev lucks cfg ru g (generation_of g) (pr_heap pr2) p1 pk) as [pairs|] eqn:E5; [|discriminate]. cbn [bind fst snd pr_heap pr_desc pr_overseer] in H.
  match type of H with bind ?b _ = _ => destruct b as [p3|] eqn:E6; [|discriminate] end. cbn [bind] in H.
  destruct (optimise_all opt g 0 h3 p3) as [done|] eqn:E7; [|discriminate]. cbn [bind] in H. unfold arrive in H. cbn [pr_heap pr_desc pr_overseer] in H. fold (places (length h3) done) in H.
  destruct (update_hof world sim (cf_threshold cfg) (ss_hof st) done) as [hof'|] eqn:E8; [|discriminate]. cbn [bind] in H.
  match type of H with bind ?b _ = _ => destruct b as [pr5|] eqn:E9; [|discriminate] end. cbn [bind] in H.
  destruct (do_share g pr5 (places (length h3) done)) as [p5|] eqn:E10; [|discriminate]. cbn [bind] in H.
  destruct (sort_population p5) as [p6|] eqn:E11; [|discriminate]. cbn [bind] in H.
  destruct (do_unshare g pr5 (firstn (cf_population cfg) p6)) as [p7|] eqn:E12; [|discriminate]. cbn [bind] in H.
  destruct (contents (pr_heap pr5) p7) as [kept|] eqn:E13; [|discriminate]. cbn [bind] in H.
  destruct hof' as [|top rest]; [discriminate|].
  assert (K : kept <> [] /\ st' = mkSS pr5 p7 (top :: rest) (ss_log st ++ [mkRow g (option_map fst top) (length kept)]) (ss_saved st ++ [kept]) (ss_evaluated st ++ [done]) (ss_labels st ++ [map (fun x => desc_of (pr_desc pr5) (snd x)) (places (length h3) done)])).
  { destruct kept; [discriminate|]. split; [discriminate|]. injection H as <-. reflexivity. }
  destruct K as [Kn ->]. clear H.
  assert (B1 : (g = 0 -> pr1 = ss_process st /\ p1 = ss_pop st) /\ (g <> 0 -> do_speciate g false (ss_process st) (ss_pop st) = Ok pr1 /\ do_share g pr1 (ss_pop st) = Ok p1)).
  { destruct (Nat.eqb_spec g 0); split; intro; try contradiction; [injection E1 as <-; injection E2 as <-; auto|auto]. }
  destruct B1 as [B1 B2].
  assert (B3 : map snd p1 = map snd (ss_pop st) /\ pop_ok (pr_heap (ss_process st)) p1).
  { destruct (Nat.eq_dec g 0) as [Z|Z]; [destruct (B1 Z) as [_ ->]; auto|]. destruct (B2 Z) as [X Y]. exact (share_shape g _ _ _ _ W Po X Y). }
  assert (B4 : pr_heap pr1 = pr_heap (ss_process st) /\ pr_desc pr1 = pr_desc (ss_process st) /\ weak pr1 /\ scheme_in pr1 = scheme_in (ss_process st) /\ half_in pr1 = half_in (ss_process st)).
  { destruct (Nat.eq_dec g 0) as [Z|Z]; [destruct (B1 Z) as [-> _]; auto|]. destruct (B2 Z) as [X Y]. destruct (do_speciate_ok g false _ _ _ W (proj1 (proj2 Po)) X) as (Q1 & Q2 & Q3 & _ & Q5 & Q6). auto. }
  destruct B4 as (Q1 & Q2 & Q3 & Q5 & Q6).
  assert (B5 : match sch with None => pr2 = pr1 | Some s => setup s pr1 p1 = Ok pr2 end) by (destruct sch; [exact E3|injection E3 as <-; reflexivity]).
  assert (B6 : pr_heap pr2 = pr_heap (ss_process st) /\ weak pr2).
  { destruct sch as [s|]; [|subst pr2; auto]. destruct (setup_ok s pr1 p1 pr2 Q3 B5) as (X & Y & _). split; [congruence|exact Y]. }
  destruct B6 as [B6 B7]. pose proof (optimise_all_ok opt _ _ _ _ _ E7) as (Ld & Un & _).
  assert (B8 : p3 = pk /\ (g <> 0 -> forall o x, pr_overseer pr2 = Some o -> In x pk -> size_of (ov_state o) (snd x) = None)).
  { destruct (Nat.eqb_spec g 0) as [Z|Z]; [injection E6 as <-; split; [reflexivity|intro; contradiction]|]. destruct (unshare_unscored g (mkPr h3 (inherit pairs (pr_desc pr2)) (pr_overseer pr2)) pk p3 E6 Un) as [X Y]. split; [exact X|intros _; exact Y]. }
  destruct B8 as [-> B8]. destruct B3 as [B3 (Sc1 & Hd1 & Nd1)].
  assert (UF : update_facts ru pairs (pr_heap pr2) h3 p1 pk) by (apply (update_facts_hold L ops ev lucks cfg ru g (generation_of g)); try assumption; rewrite B6; exact Hd1).
  set (pr4 := mkPr (h3 ++ map snd done) (inherit (combine (seq (length h3) (length done)) (map snd pk)) (inherit pairs (pr_desc pr2))) (pr_overseer pr2)) in *.
  assert (W4 : weak pr4). { unfold weak, pr4 in *. cbn [pr_overseer pr_heap]. destruct (pr_overseer pr2) as [o|]; [|exact I]. destruct B7 as [M K]. split; [exact M|]. intros k Hk. specialize (K k Hk). pose proof (uf_heap _ _ _ _ _ _ UF). rewrite app_length. lia. }
  assert (Mp : map snd (places (length h3) done) = seq (length h3) (length done)) by apply positions_addresses.
  assert (Hd4 : holds_all (pr_heap pr4) (places (length h3) done)).
  { intros s r Hi. apply (in_map snd) in Hi. rewrite Mp in Hi. apply in_seq in Hi. unfold pr4. cbn [pr_heap snd] in *. rewrite app_length, map_length. lia. }
  destruct (do_speciate_ok g true pr4 _ pr5 W4 Hd4 E9) as (R1 & R2 & R3 & R4 & R5 & R6).
  destruct (selection g (cf_population cfg) pr4 pr5 h3 done p5 p6 p7 kept W4 eq_refl E9 E10 E11 E12 E13) as (S1 & S2 & S3 & S4 & S5).
  assert (Pf : map fst (combine (seq (length h3) (length done)) (map snd pk)) = seq (length h3) (length done)) by (apply map_fst_combine; rewrite map_length, seq_length; unfold population, individual in *; lia).
  assert (Ps : map snd (combine (seq (length h3) (length done)) (map snd pk)) = map snd pk) by (apply map_snd_combine; rewrite map_length, seq_length; unfold population, individual in *; lia).
  exists pr1, p1, pr2, h3, pk, pairs, done, kept, top, rest. constructor; cbn [ss_process ss_pop ss_saved ss_evaluated ss_labels ss_log ss_hof]; try assumption; auto.
  - split; [exact B3|]. split; [exact Sc1|]. split; [exact Hd1|exact Nd1].
  - unfold labels_of. rewrite R2. unfold pr4 at 1. cbn [pr_desc]. apply (nth_ext _ _ NoDescriptor NoDescriptor).
    + unfold places. rewrite !map_length, combine_length, map_length, seq_length. unfold population, individual in *. lia.
    + intros i Hi. assert (Hi' : i < length done) by (unfold places in Hi; rewrite map_length, combine_length, map_length, seq_length in Hi; lia).
      destruct (nth_error done i) as [[s w]|] eqn:Ed; [|apply nth_error_None in Ed; lia]. destruct (nth_error pk i) as [x|] eqn:Ex; [|apply nth_error_None in Ex; unfold population, individual in *; lia].
      rewrite (nth_error_nth _ _ _ (map_nth_error (fun x : individual => desc_of (inherit (combine (seq (length h3) (length done)) (map snd pk)) (inherit pairs (pr_desc pr2))) (snd x)) _ _ (positions_at (length h3) done i s w Ed))).
      rewrite (nth_error_nth _ _ _ (map_nth_error (fun x : individual => desc_of (inherit pairs (pr_desc pr2)) (snd x)) _ _ Ex)). cbn [snd].
      apply inherit_child; [rewrite Pf; apply seq_NoDup| |].
      * rewrite Pf, Ps. intros q Hq Hs. apply in_map_iff in Hq as ([s1 r1] & <- & Hq). pose proof (uf_holds _ _ _ _ _ _ UF s1 r1 Hq). apply in_seq in Hs. cbn [snd] in Hs. lia.
      * apply (nth_error_In _ i). apply nth_combine; [apply nth_seq; exact Hi'|apply map_nth_error; exact Ex].
  - intros r Hr. rewrite R2. unfold pr4. cbn [pr_desc]. apply inherit_other. rewrite Pf. intro Hi. apply in_seq in Hi. lia.
  - exists pr4. split; [reflexivity|]. split; [symmetry; exact R2|]. split; [reflexivity|]. split; [exact E9|exact R4].
  - unfold labels_of in *. rewrite R2. exact S5.
Qed.

(** ** The start *)
Notation spec_start := (spec_start opt0 cfg).
Lemma start_ok : forall pr r0 st, spec_start pr r0 = Ok st -> weak pr ->
  weak (ss_process st) /\ pop_ok (pr_heap (ss_process st)) (ss_pop st) /\ length (ss_pop st) = cf_population cfg /\ pr_overseer (ss_process st) = pr_overseer pr /\
  (forall x, In x (ss_pop st) -> desc_of (pr_desc (ss_process st)) (snd x) = desc_of (pr_desc pr) r0 /\ length (pr_heap pr) <= snd x) /\
  (forall r, r < length (pr_heap pr) -> desc_of (pr_desc (ss_process st)) r = desc_of (pr_desc pr) r) /\
  length (pr_heap pr) <= length (pr_heap (ss_process st)) /\ ss_hof st = init_hof world (cf_hof cfg) /\ ss_log st = [] /\ ss_saved st = [] /\ ss_evaluated st = [] /\ ss_labels st = [].
Proof.
  intros pr r0 st H W. unfold SpeciatedModel.spec_start in H. destruct (deref (pr_heap pr) r0) as [w|] eqn:D; [|discriminate]. cbn [bind] in H.
  destruct (optimise_complete opt0 None w) as [sw|]; [|discriminate]. cbn [bind] in H. destruct (store_at (pr_heap pr) r0 (snd sw)) as [h|] eqn:S; [|discriminate]. cbn [bind] in H.
  apply store_at_ok in S as (Lh & S2 & _). pose proof (nth_lt _ _ _ _ S2) as R0. unfold arrive in H. cbn [pr_heap pr_desc pr_overseer] in H. injection H as <-.
  cbn [ss_process ss_pop ss_hof ss_log ss_saved ss_evaluated ss_labels pr_heap pr_desc pr_overseer]. rewrite !repeat_length. set (n := cf_population cfg).
  assert (Mr : forall m, map snd (repeat (@None fl, r0) m) = repeat r0 m) by (induction m; cbn; congruence).
  rewrite Mr. set (q := combine (map (fun x => Some (fst x)) (repeat sw n)) (seq (length h) n)).
  assert (Mq : map snd q = seq (length h) n) by (unfold q; apply map_snd_combine; rewrite map_length, repeat_length, seq_length; lia).
  assert (Lq : length q = n) by (unfold q; rewrite combine_length, map_length, repeat_length, seq_length; lia).
  assert (Pf : map fst (combine (seq (length h) n) (repeat r0 n)) = seq (length h) n) by (apply map_fst_combine; rewrite repeat_length, seq_length; lia).
  assert (Ps : map snd (combine (seq (length h) n) (repeat r0 n)) = repeat r0 n) by (apply map_snd_combine; rewrite repeat_length, seq_length; lia).
  rewrite app_length, map_length, repeat_length.
  split; [|split; [|split; [exact Lq|split; [reflexivity|split; [|split; [|split; [lia|auto 10]]]]]]].
  - unfold weak in *. cbn [pr_overseer pr_heap]. destruct (pr_overseer pr) as [o|]; [|exact I]. destruct W as [M K]. split; [exact M|]. intros k Hk. specialize (K k Hk). rewrite app_length. lia.
  - split; [|split].
    + intros x Hx. unfold q in Hx. destruct x as [o r]. apply in_combine_l in Hx. apply in_map_iff in Hx as (y & E & _). cbn. rewrite <- E. discriminate.
    + intros s r Hi. apply (in_map snd) in Hi. rewrite Mq in Hi. apply in_seq in Hi. cbn [snd] in Hi. rewrite app_length, map_length, repeat_length. lia.
    + rewrite Mq. apply seq_NoDup.
  - intros x Hx. apply (in_map snd) in Hx. rewrite Mq in Hx. split; [|apply in_seq in Hx; lia]. apply inherit_child; [rewrite Pf; apply seq_NoDup| |].
    + rewrite Pf, Ps. intros a Ha Hs. apply repeat_spec in Ha. apply in_seq in Hs. lia.
    + apply in_seq in Hx. apply (nth_error_In _ (snd x - length h)). apply nth_combine; [rewrite nth_seq by lia; f_equal; lia|]. assert (J : snd x - length h < n) by lia. clear - J. revert J. generalize (snd x - length h) as k. induction n as [|m IH]; intros k J; [lia|]. destruct k; [reflexivity|]. cbn. apply IH. lia.
  - intros r Hr. apply inherit_other. rewrite Pf. intro Hs. apply in_seq in Hs. lia.
Qed.

(** ** What holds between runs *)
Definition sane (pr : process) : Prop := weak pr /\ forall o, pr_overseer pr = Some o -> sp_species (ov_state o) <> [].
Lemma places_nonempty : forall base (done : list (fl * world)), done <> [] -> places base done <> [].
Proof. intros base [|x done] H; [contradiction|]. discriminate. Qed.
Lemma kept_done : forall kept done : list (fl * world), kept <> [] -> length kept = Nat.min (cf_population cfg) (length done) -> done <> [].
Proof. intros [|x kept] [|y done] K E; try contradiction; try discriminate. cbn in E. lia. Qed.
Lemma anatomy_sane : forall ru sch g st st' pr1 p1 pr2 h3 pk pairs done kept top rest, anatomy ru sch g st st' pr1 p1 pr2 h3 pk pairs done kept top rest -> sane (ss_process st').
Proof.
  intros ru sch g st st' pr1 p1 pr2 h3 pk pairs done kept top rest A. split; [exact (an_weak _ _ _ _ _ _ _ _ _ _ _ _ _ _ _ A)|]. intros o Ho.
  destruct (an_speciate _ _ _ _ _ _ _ _ _ _ _ _ _ _ _ A) as (pr4 & _ & _ & _ & _ & D). unfold divides in D. rewrite Ho in D. destruct (pr_overseer pr4); [|contradiction]. destruct D as (_ & _ & _ & _ & _ & D). apply D. apply places_nonempty.
  destruct (an_kept _ _ _ _ _ _ _ _ _ _ _ _ _ _ _ A) as [K1 K2]. exact (kept_done _ _ K1 K2).
Qed.
Lemma generations_sane : forall n ru sch g st st', sane (ss_process st) -> pop_ok (pr_heap (ss_process st)) (ss_pop st) -> spec_generations ru sch n g st = Ok st' -> sane (ss_process st').
Proof.
  induction n as [|n IH]; intros ru sch g st st' S P H; cbn [SpeciatedModel.spec_generations] in H; [injection H as <-; exact S|].
  destruct (spec_generation ru sch g st) as [s1|] eqn:E; [|discriminate]. cbn [bind] in H. destruct (dissect ru sch g st s1 (proj1 S) P E) as (? & ? & ? & ? & ? & ? & ? & ? & ? & ? & A).
  apply (IH _ _ _ _ _ (anatomy_sane _ _ _ _ _ _ _ _ _ _ _ _ _ _ _ A) (proj1 (an_pop _ _ _ _ _ _ _ _ _ _ _ _ _ _ _ A)) H).
Qed.
Lemma run_sane : forall u pr r0 st, sane pr -> optimise_topology u pr r0 = Ok st -> sane (ss_process st).
Proof.
  intros u pr r0 st S H. unfold SpeciatedModel.optimise_topology in H. destruct (rule_of u) as [[ru sch]|]; [|discriminate]. cbn [bind fst snd] in H.
  destruct (spec_start pr r0) as [s0|] eqn:E; [|discriminate]. cbn [bind] in H. destruct (start_ok pr r0 s0 E (proj1 S)) as (W & P & _ & O & _).
  apply (generations_sane _ _ _ _ _ _ (conj W (fun o Ho => proj2 S o (eq_trans (eq_sym O) Ho))) P H).
Qed.
End Run.
Lemma lifetime_sane : forall root pr, lifetime root pr -> sane root pr.
Proof.
  intros root pr H. induction H as [h|pr h H [W N] Lh|pr L ops ev sim rounded opt0 opt lucks orders picks cfg target half u r0 st H IH IT E].
  - split; [exact I|discriminate].
  - split; [|exact N]. unfold weak in *. cbn [pr_overseer pr_heap]. destruct (pr_overseer pr) as [o|]; [|exact I]. destruct W as [M K]. split; [exact M|]. intros k Hk. specialize (K k Hk). lia.
  - exact (run_sane L ops ev sim rounded root opt0 opt lucks orders picks cfg target half IT u pr r0 st IH E).
Qed.
