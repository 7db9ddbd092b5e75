(** C22-C24: the hall of fame. *)
From Coq Require Import List Arith Bool QArith Qabs Sorted Lia ZArith.
From Verif Require Import Base FloatModel HofModel HofSpec HofProofs HofBestProofs.
Import ListNotations.
Local Open Scope nat_scope.

(** ** C22 *)
Theorem C22_shape : forall G sim threshold n ps h, hof_run G sim threshold (init_hof G n) ps = Ok h ->
  length h = n /\ (forall s g, In (Some (s, g)) h -> In (s, g) (concat ps)) /\ ranked h.
Proof. exact hof_shape. Qed.
Print Assumptions C22_shape.

(** ** C23 *)
Theorem C23_best : forall G sim threshold n ps h, 0 < n -> hof_run G sim threshold (init_hof G n) ps = Ok h -> no_nan (concat ps) -> concat ps <> [] ->
  exists s g rest, h = Some (s, g) :: rest /\ In (s, g) (concat ps) /\ forall s' g', In (s', g') (concat ps) -> fltb s' s = false.
Proof. exact hof_best. Qed.
Print Assumptions C23_best.

Theorem C23_nan_sticks : forall G sim threshold pop h h' g, update_hof G sim threshold (Some (NaN, g) :: h) pop = Ok h' -> exists r, h' = Some (NaN, g) :: r.
Proof. exact nan_sticks. Qed.
Print Assumptions C23_nan_sticks.

(** ** C24 *)
Theorem C24_holds_best : forall G sim threshold,
  (forall a b, exists d, sim a b = Ok d) -> (forall a b, similar sim threshold a b -> similar sim threshold b a) ->
  (forall a b c, similar sim threshold a b -> similar sim threshold b c -> similar sim threshold a c) ->
  forall n ps, no_nan (concat ps) ->
  exists h, hof_run G sim threshold (init_hof G n) ps = Ok h /\ holds_best sim threshold (concat ps) n h.
Proof. exact hof_holds_best. Qed.
Print Assumptions C24_holds_best.

Theorem C24_diverse : forall G sim threshold,
  (forall a b, similar sim threshold a b -> similar sim threshold b a) ->
  forall (hist : list (fl * G)) n h, holds_best sim threshold hist n h ->
  forall a x b y c, h = a ++ Some x :: b ++ Some y :: c -> ~ similar sim threshold (snd x) (snd y).
Proof. exact holds_best_diverse. Qed.
Print Assumptions C24_diverse.

Theorem C24_admission : forall G sim threshold h s g h', update_hof G sim threshold h [(s, g)] = Ok h' ->
  h' = h \/ exists l1 t l2, h = l1 ++ t /\ h' = l1 ++ Some (s, g) :: l2 /\ forall s' g', In (Some (s', g')) l1 -> fltb s s' = false /\ ~ similar sim threshold g g'.
Proof. exact hof_admission. Qed.
Print Assumptions C24_admission.

(* a distance on a line; "at most 1.5 apart" is symmetric but not transitive *)
Definition line (a b : Z) : res Q := Ok (inject_Z (Z.abs (a - b))).
Theorem C24_diverse_refuted : exists ps x y,
  (forall a b, similar line (3 # 2) a b -> similar line (3 # 2) b a) /\ (forall a, similar line (3 # 2) a a) /\
  hof_run Z line (3 # 2) (init_hof Z 3) ps = Ok [Some x; Some y; None] /\ similar line (3 # 2) (snd x) (snd y).
Proof.
  exists [[(Fin 5, 0%Z); (Fin 6, 2%Z)]; [(Fin 1, 1%Z)]], (Fin 1, 1%Z), (Fin 6, 2%Z). split; [|split; [|split; [vm_compute; reflexivity|]]].
  - intros a b (d & E & C). unfold line in *. exists d. split; [|exact C]. rewrite <- E. do 2 f_equal. lia.
  - intro a. unfold similar, line. exists (inject_Z (Z.abs (a - a))). split; [reflexivity|]. left. rewrite Z.sub_diag. cbn. unfold Qle; cbn; lia.
  - exists 1%Q. split; [reflexivity|]. left. unfold Qle; cbn; lia.
Qed.

Print Assumptions C24_diverse_refuted.

(* a history with ties, empty slots, a replaced member and a late duplicate; kinds are numbers modulo 3 *)
Definition kind (a b : Z) : res Q := Ok (if (a mod 3 =? b mod 3)%Z then 0%Q else 7%Q).
Definition some_history : list (list (fl * Z)) :=
  [[(Fin 5, 0%Z); (Fin 7, 1%Z); (PInf, 4%Z)]; [(Fin 5, 3%Z); (Fin 6, 4%Z); (Fin 9, 2%Z)]; [(Fin 4, 6%Z); (Fin 6, 5%Z)]; [(NInf, 7%Z)]].
Example C22_C24_case :
  hof_run Z kind (3 # 2) (init_hof Z 2) some_history = Ok [Some (NInf, 7%Z); Some (Fin 4, 6%Z)] /\
  hof_run Z kind (3 # 2) (init_hof Z 4) some_history = Ok [Some (NInf, 7%Z); Some (Fin 4, 6%Z); Some (Fin 6, 5%Z); None] /\
  hof_run Z kind (3 # 2) (init_hof Z 0) some_history = Ok [] /\
  hof_run Z kind (3 # 2) (init_hof Z 2) [[(NaN, 0%Z); (Fin 1, 1%Z)]; [(Fin 0, 2%Z)]] = Ok [Some (NaN, 0%Z); Some (Fin 0, 2%Z)] /\
  no_nan (concat some_history) /\ (forall a b c, similar kind (3 # 2) a b -> similar kind (3 # 2) b c -> similar kind (3 # 2) a c).
Proof.
  split; [vm_compute; reflexivity|]. split; [vm_compute; reflexivity|]. split; [reflexivity|]. split; [vm_compute; reflexivity|]. split.
  - intros s g Hi. vm_compute in Hi. repeat destruct Hi as [Q|Hi]; try contradiction Hi; injection Q as <- <-; discriminate.
  - assert (K : forall a b, similar kind (3 # 2) a b <-> (a mod 3 = b mod 3)%Z).
    { intros a b. unfold similar, kind. destruct (Z.eqb_spec (a mod 3) (b mod 3)) as [E|E].
      - split; [auto|]. intros _. exists 0%Q. split; [reflexivity|]. left. unfold Qle; cbn; lia.
      - split; [|contradiction]. intros (d & Q & C). injection Q as <-. exfalso. destruct C as [C|C]; vm_compute in C; apply C; reflexivity. }
    intros a b c. rewrite !K. congruence.
Qed.
