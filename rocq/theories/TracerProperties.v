(** C88: where autograd's tracers are left in a graph. *)
From Coq Require Import List Arith Bool.
From Verif Require Import Base GraphModel GraphSpec ParamsModel ParamsSpec PropagateModel PhaseModel EvolveSpec TracerModel TracerSpec TracerProofs TracerExamples.
Import ListNotations.

(** A score at plain numbers that is returned is plain, wherever tracers were before, and leaves
    plain parameters, which can be saved.  With an evaluator that reads the saved states, these and
    what the amplifiers remember are plain as well. *)
Theorem C88_scored : forall N ev g w x w' a, wf g -> makes_none N -> fair ev -> separate (w_store w) -> plain_locked g w -> extract g (w_store w) = Ok x ->
  func N ev g (x_models x) (x_index x) 0 w (repeat [] (length (x_models x))) = (w', Ok a) ->
  a = [] /\ plain_parameters g w' /\ (all_readable g (w_store w) -> save_parameters g w' = Ok tt) /\
  (reading ev -> plain_states w' /\ plain_gains g w').
Proof.
  intros N ev g w x w' a W NN Fe Sp Pl E H. pose proof (extract_stands g w x W Sp Pl E) as St.
  destruct (func_plain N g ev (x_models x) (x_index x) W NN Fe w w' a St H) as (_ & I2 & I3 & _ & I5).
  split; [exact I3|]. split; [exact I2|]. split; [|exact I5]. intros Rd. apply save_plain; [exact W|exact I2|]. exact (func_present _ _ _ _ _ _ _ _ _ _ H (readable_present g w Rd)).
Qed.
Print Assumptions C88_scored.
Example C88_scored_case : makes_none blend /\ fair detect /\ separate (w_store w_t) /\ plain_locked g_t w_t /\ extract g_t (w_store w_t) = Ok x_t /\ length (x_models x_t) = 4 /\
  (let '(w, r) := func_t w_t in view w = (plain_view, repeat (Some []) 5, [[]]) /\ r = Ok []).
Proof. split; [exact blend_makes_none|]. split; [exact detect_fair|]. split; [exact (proj2 s_t_sound)|]. split; [exact w_t_plain|]. vm_compute. repeat split; reflexivity. Qed.

(** A gradient or a matrix of second derivatives leaves a tracer in every free parameter, whatever
    becomes of it, and a graph with a free parameter cannot be saved then. *)
Theorem C88_gradient : forall N ev g w x xs w' r, wf g -> separate (w_store w) -> plain_locked g w -> extract g (w_store w) = Ok x -> length xs = length (x_models x) ->
  gradient N ev g (x_models x) (x_index x) 0 w xs = (w', r) ->
  traced g w' /\ (x_models x <> [] -> one_phase g w -> all_readable g (w_store w) -> save_parameters g w' = Err TypeError).
Proof.
  intros N ev g w x xs w' r W Sp Pl E Len H. unfold gradient in H. destruct (func N ev g (x_models x) (x_index x) 1 w (map (add 0) xs)) as [w1 q] eqn:Ef. injection H as <- _.
  apply (traced_after N ev g 1 w x (map (add 0) xs) w1 q 0 W Sp Pl E); [rewrite map_length; exact Len| |exact Ef].
  intros b Hb. apply in_map_iff in Hb. destruct Hb as (c & <- & _). left; reflexivity.
Qed.
Print Assumptions C88_gradient.
Theorem C88_hessian : forall N ev g w x xs w' r, wf g -> separate (w_store w) -> plain_locked g w -> extract g (w_store w) = Ok x -> length xs = length (x_models x) ->
  hessian N ev g (x_models x) (x_index x) 0 w xs = (w', r) ->
  traced g w' /\ (x_models x <> [] -> one_phase g w -> all_readable g (w_store w) -> save_parameters g w' = Err TypeError).
Proof.
  intros N ev g w x xs w' r W Sp Pl E Len H. unfold hessian in H. destruct (func N ev g (x_models x) (x_index x) 2 w (map (fun a => add 1 (add 0 a)) xs)) as [w1 q] eqn:Ef. injection H as <- _.
  apply (traced_after N ev g 2 w x _ w1 q 0 W Sp Pl E) with (3 := Ef); [rewrite map_length; exact Len|].
  intros b Hb. apply in_map_iff in Hb. destruct Hb as (c & <- & _). right; left; reflexivity.
Qed.
Print Assumptions C88_hessian.
Example C88_gradient_case : one_phase g_t w_t /\ all_readable g_t (w_store w_t) /\
  (let '(w, r) := gradient_t w_t in view w = (marked_view [0], repeat (Some [0]) 5, [[0]]) /\ r = Ok [] /\ save_parameters g_t w = Err TypeError) /\
  (let '(w, r) := hessian_t w_t in view w = (marked_view [1; 0], repeat (Some [1; 0]) 5, [[1; 0]]) /\ r = Ok [] /\ save_parameters g_t w = Err TypeError).
Proof. split; [exact w_t_phase|]. split; [exact (proj1 s_t_sound)|]. vm_compute. repeat split; reflexivity. Qed.

(** The derivatives themselves are plain, and a score at plain numbers afterwards removes the tracers. *)
Theorem C88_recovers : forall N ev g w x w1 d w' a, wf g -> makes_none N -> fair ev -> separate (w_store w) -> plain_locked g w -> extract g (w_store w) = Ok x ->
  let zs := repeat [] (length (x_models x)) in
  gradient N ev g (x_models x) (x_index x) 0 w zs = (w1, Ok d) \/ hessian N ev g (x_models x) (x_index x) 0 w zs = (w1, Ok d) ->
  d = [] /\
  (func N ev g (x_models x) (x_index x) 0 w1 zs = (w', Ok a) ->
   a = [] /\ plain_parameters g w' /\ (all_readable g (w_store w) -> save_parameters g w' = Ok tt) /\ (reading ev -> plain_states w' /\ plain_gains g w')).
Proof.
  intros N ev g w x w1 d w' a W NN Fe Sp Pl E zs H. pose proof (extract_stands g w x W Sp Pl E) as St.
  assert (D : (stands g (x_models x) (x_index x) w1 /\ d = []) /\ (present g w -> present g w1)).
  { destruct H as [H|H].
    - split; [exact (gradient_stands N g ev _ _ W NN Fe w w1 d St H)|]. unfold gradient in H. destruct (func N ev g (x_models x) (x_index x) 1 w (map (add 0) zs)) as [w2 q] eqn:Ef. injection H as <- _. exact (func_present _ _ _ _ _ _ _ _ _ _ Ef).
    - split; [exact (hessian_stands N g ev _ _ W NN Fe w w1 d St H)|]. unfold hessian in H. destruct (func N ev g (x_models x) (x_index x) 2 w (map (fun a => add 1 (add 0 a)) zs)) as [w2 q] eqn:Ef. injection H as <- _. exact (func_present _ _ _ _ _ _ _ _ _ _ Ef). }
  destruct D as [[St1 Hd] Pr]. split; [exact Hd|]. intros Hf.
  destruct (func_plain N g ev (x_models x) (x_index x) W NN Fe w1 w' a St1 Hf) as (_ & I2 & I3 & _ & I5).
  split; [exact I3|]. split; [exact I2|]. split; [|exact I5]. intros Rd. apply save_plain; [exact W|exact I2|]. exact (func_present _ _ _ _ _ _ _ _ _ _ Hf (Pr (readable_present g w Rd))).
Qed.
Print Assumptions C88_recovers.
Example C88_recovers_case :
  let '(w1, d) := hessian_t w_t in let '(w2, a) := func_t w1 in d = Ok [] /\ a = Ok [] /\ view w2 = view (fst (func_t w_t)) /\ view w1 <> view w2.
Proof. vm_compute. repeat split; try reflexivity. discriminate. Qed.

(** parameters_optimize with every method: the solution, its score and the parameters are plain.
    After a method whose last simulation is a plain one, so is everything else. *)
Theorem C88_method : forall N ev g me w x x0 w' xs a, wf g -> makes_none N -> fair ev -> separate (w_store w) -> plain_locked g w -> extract g (w_store w) = Ok x ->
  read_vector w (x_models x) (x_index x) = Ok x0 -> optimise N ev g (x_models x) (x_index x) me x0 w = (w', Ok (xs, a)) ->
  (forall b, In b xs -> b = []) /\ a = [] /\ plain_parameters g w' /\ (ends_plainly me -> reading ev -> plain_states w' /\ plain_gains g w').
Proof.
  intros N ev g me w x x0 w' xs a W NN Fe Sp Pl E Ev H. pose proof (extract_stands g w x W Sp Pl E) as St.
  destruct (optimise_stands N g ev (x_models x) (x_index x) W NN Fe me x0 w w' xs a St (read_vector_plain _ _ _ _ (proj1 (st_covers _ _ _ _ St)) Ev) H) as (_ & I2 & I3 & -> & I5).
  split; [intros b Hb; exact (repeat_spec _ _ _ Hb)|]. split; [exact I3|]. split; [exact I2|exact I5].
Qed.
Print Assumptions C88_method.
Example C88_method_case : forall me, In me [Null; Search [AskFunc; AskGrad; AskFunc; AskGrad] true 0; Search [AskGrad] true 0; Search [AskFunc; AskFunc] false 1] ->
  ends_plainly me /\ read_vector (fst (gradient_t w_t)) (x_models x_t) (x_index x_t) = Ok plain_t /\
  (let '(w, r) := optimise blend detect g_t (x_models x_t) (x_index x_t) me plain_t (fst (gradient_t w_t)) in view w = (plain_view, repeat (Some []) 5, [[]]) /\ r = Ok (plain_t, [])).
Proof.
  intros me [<-|[<-|[<-|[<-|[]]]]]; (split; [cbn [ends_plainly]; try exact I; try (left; reflexivity); right; exists [AskFunc]; reflexivity|]); vm_compute; repeat split; reflexivity.
Qed.

(** parameters_optimize_complete with every method and evaluator: the score, the matrix kept with
    the graph and the parameters are plain, and the graph can be saved. *)
Theorem C88_complete : forall N ev g me w w' score h, wf g -> makes_none N -> fair ev -> separate (w_store w) -> plain_locked g w ->
  complete N ev g me w = (w', Ok (score, h)) ->
  score = [] /\ (forall m, h = Some m -> m = []) /\ plain_parameters g w' /\ (all_readable g (w_store w) -> save_parameters g w' = Ok tt) /\
  (reading ev -> plain_states w' /\ plain_gains g w').
Proof.
  intros N ev g me w w' score h W NN Fe Sp Pl H. destruct (complete_spec N ev g me w w' score h W NN Fe Sp Pl H) as (I1 & I2 & I3 & _ & I5).
  split; [exact I2|]. split; [exact I3|]. split; [exact I1|]. split; [|exact I5]. intros Rd. apply save_plain; [exact W|exact I1|]. exact (complete_present _ _ _ _ _ _ _ H (readable_present g w Rd)).
Qed.
Print Assumptions C88_complete.
(* from a graph that still holds the tracers of an earlier matrix *)
Example C88_complete_case :
  let '(w, r) := complete blend detect g_t (Search [AskFunc; AskGrad] true 0) (fst (hessian_t w_t)) in
  view w = (plain_view, repeat (Some []) 5, [[]]) /\ r = Ok ([], Some []) /\ save_parameters g_t w = Ok tt.
Proof. vm_compute. repeat split; reflexivity. Qed.

(** With the evaluator of the phase sensitivity the saved states are those of its own trace: tracers
    of this one trace at most, removed by clear_propagation.  *)
Theorem C88_sensitivity : forall N sink g me w w' score h, wf g -> makes_none N -> separate (w_store w) -> plain_locked g w ->
  complete N (Sensitivity sink) g me w = (w', Ok (score, h)) ->
  (forall p b l, saved (w_saves w') p = Some b -> In l b -> l = 0) /\ plain_states (clear w') /\ plain_parameters g (clear w').
Proof.
  intros N sink g me w w' score h W NN Sp Pl H. destruct (complete_spec N (Sensitivity sink) g me w w' score h W NN I Sp Pl H) as (I1 & _ & _ & I4 & _).
  split; [exact I4|]. split; [|exact I1]. intros p a Hp. discriminate Hp.
Qed.
Print Assumptions C88_sensitivity.
(** That the saved states are always plain is false: they stay traced after the optimisation. *)
Theorem C88_sensitivity_states_refuted : exists N sink g me w w' score h, wf g /\ makes_none N /\ separate (w_store w) /\ plain_locked g w /\ all_readable g (w_store w) /\
  complete N (Sensitivity sink) g me w = (w', Ok (score, h)) /\ ~ plain_states w' /\ save_parameters g w' = Ok tt.
Proof.
  destruct (complete blend (Sensitivity 3) g_t (Search [AskFunc; AskGrad] true 0) w_t) as [w' r] eqn:E.
  assert (F : r = Ok ([], Some []) /\ saved (w_saves w') (PNode 3) = Some [0] /\ save_parameters g_t w' = Ok tt).
  { replace w' with (fst (complete blend (Sensitivity 3) g_t (Search [AskFunc; AskGrad] true 0) w_t)) by (rewrite E; reflexivity).
    replace r with (snd (complete blend (Sensitivity 3) g_t (Search [AskFunc; AskGrad] true 0) w_t)) by (rewrite E; reflexivity). vm_compute. repeat split; reflexivity. }
  destruct F as (-> & F2 & F3). exists blend, 3, g_t, (Search [AskFunc; AskGrad] true 0), w_t, w', [], (Some []).
  split; [exact g_t_wf|]. split; [exact blend_makes_none|]. split; [exact (proj2 s_t_sound)|]. split; [exact w_t_plain|]. split; [exact (proj1 s_t_sound)|]. split; [exact E|]. split; [|exact F3].
  intros C. discriminate (C _ _ F2).
Qed.
Print Assumptions C88_sensitivity_states_refuted.
Example C88_sensitivity_case :
  let '(w, r) := complete blend (Sensitivity 3) g_t (Search [AskFunc; AskGrad] true 0) w_t in
  fst (fst (view w)) = plain_view /\ r = Ok ([], Some []) /\ last (snd (fst (view w))) None = Some [0] /\ snd (fst (view (clear w))) = repeat None 5.
Proof. vm_compute. repeat split; reflexivity. Qed.
