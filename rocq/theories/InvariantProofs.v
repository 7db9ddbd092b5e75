(** Proofs of C98. *)
From Coq Require Import Reals List Arith Bool Lia Lra.
From Verif Require Import Base GraphModel Complex ArrayModel FourierProofs ComponentModel ComponentSpec FilterProofs ComponentProofs GridProofs CommuteProofs.
Import ListNotations.
Local Open Scope R_scope.

(* moving a field is itself a filter *)
Definition shift_mask (N m : nat) : list C := tabulate N (fun k => cis (2 * PI * INR k * INR m / INR N)).
Lemma shift_filter : forall p m x, usable (n_samples p) (window_t p) -> length x = n_samples p ->
  exists z, filter_spectrum p (shift_mask (n_samples p) m) x = Ok z /\ advanced m x z.
Proof.
  intros p m x U L. set (n := n_samples p) in *. assert (Pn : 0 < INR n) by (apply INR_pos; destruct U; lia). assert (Ls : length (shift_mask n m) = n) by apply tabulate_length.
  destruct (filter_ok p (shift_mask n m) x) as (y & out & F & Ly & E & I & Lo); [apply grid_dt_nz; exact U|apply (pos_len p); assumption|lia|].
  exists out. split; [exact E|]. split; [exact Lo|]. rewrite L. intros j Hj.
  destruct (fft_ok _ _ F) as (_ & P0 & _). destruct (ifft_total y) as (x' & I'); [lia|]. pose proof (ifft_fft _ _ _ F I') as X. subst x'. destruct (ifft_ok _ _ I') as (_ & _ & V'). rewrite Ly, L in V'.
  destruct (ifft_ok _ _ I) as (_ & _ & V). rewrite zipmul_length in V by lia. rewrite Ly, L in V. rewrite V by exact Hj.
  assert (Ha : ((j + m) mod n < n)%nat) by (apply Nat.mod_upper_bound; destruct U; lia). rewrite V' by exact Ha. f_equal. apply csum_ext. intros k Hk. rewrite zipmul_nth by lia. unfold shift_mask. rewrite tabulate_nth by exact Hk.
  assert (K : Cmul (cis (2 * PI * INR k * INR m / INR n)) (cis (2 * PI * INR j * INR k / INR n)) = cis (2 * PI * INR ((j + m) mod n) * INR k / INR n)).
  { rewrite <- cis_add. pose proof (Nat.div_mod (j + m) n ltac:(destruct U; lia)) as DM. apply (f_equal INR) in DM. rewrite plus_INR, plus_INR, mult_INR in DM.
    replace (2 * PI * INR k * INR m / INR n + 2 * PI * INR j * INR k / INR n) with (2 * PI * INR ((j + m) mod n) * INR k / INR n + 2 * PI * INR ((j + m) / n * k)).
    2: { rewrite mult_INR. transitivity (2 * PI * INR k / INR n * (INR n * INR ((j + m) / n) + INR ((j + m) mod n))); [field; lra|]. rewrite <- DM. field. lra. }
    rewrite cis_add, cis_turns. ring. }
  rewrite <- K. ring.
Qed.
Lemma advanced_unique : forall m x z z', advanced m x z -> advanced m x z' -> z = z'.
Proof. intros m x z z' (L & H) (L' & H'). apply (list_eq_nth C0); [lia|]. intros j Hj. rewrite H, H' by lia. reflexivity. Qed.

Lemma spectral_invariant : forall p F m x y z, usable (n_samples p) (window_t p) -> spectral p F -> length x = n_samples p -> F x = Ok y -> advanced m x z ->
  exists w, F z = Ok w /\ advanced m y w.
Proof.
  intros p F m x y z U [Hf|(mk & k & Lm & H)] L E A; [destruct (Hf x L) as (e & Ee); congruence|].
  assert (H2 : (2 <= n_samples p)%nat) by exact (proj1 U). assert (Ls : length (shift_mask (n_samples p) m) = n_samples p) by apply tabulate_length. pose proof (grid_dt_nz p U) as D.
  destruct (shift_filter p m x U L) as (z' & Ez & A'). rewrite (advanced_unique m x z' z A' A) in Ez. clear z' A'. rewrite (H x L) in E.
  destruct (filter_len p U mk x Lm L) as (s & Es & Lx). rewrite Es in E. cbn [bind] in E. injection E as <-.
  destruct (shift_filter p m s U Lx) as (w & Ew & Aw). exists (map (Cmul k) w). assert (Lz : length z = n_samples p) by (rewrite (proj1 A); exact L). rewrite (H z Lz).
  pose proof (filter_compose p mk (shift_mask (n_samples p) m) x D ltac:(lia) ltac:(lia) ltac:(lia)) as C1'. pose proof (filter_compose p (shift_mask (n_samples p) m) mk x D ltac:(lia) ltac:(lia) ltac:(lia)) as C2'.
  rewrite Es in C1'. rewrite Ez in C2'. cbn [bind] in C1', C2'. rewrite (zipmul_comm mk) in C2' by lia. rewrite C2', <- C1', Ew. cbn [bind]. split; [reflexivity|].
  split; [rewrite !map_length; exact (proj1 Aw)|]. rewrite map_length. intros j Hj. rewrite !(map_nth_d (Cmul k) _ _ C0 C0) by ring. f_equal. apply Aw. exact Hj.
Qed.

Lemma temporal_local : forall p F x x' y, temporal p F -> length x = n_samples p -> length x' = n_samples p -> F x = Ok y ->
  exists y', F x' = Ok y' /\ length y' = length y /\ forall i, nth i x C0 = nth i x' C0 -> nth i y C0 = nth i y' C0.
Proof.
  intros p F x x' y [Hf|(m & Lm & H)] L L' E; [destruct (Hf x L) as (e & Ee); congruence|]. rewrite (H x L) in E. injection E as <-. rewrite (H x' L'). eexists. split; [reflexivity|]. split; [rewrite !zipmul_length by lia; lia|].
  intros i Hi. rewrite !zipmul_nth by lia. rewrite Hi. reflexivity.
Qed.
