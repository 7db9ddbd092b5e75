(** Model of the population updates, algorithms/topology_optimization.py:254-428, and of
    one parameter optimisation, lines 539-569.  Definitions only.
    Graph objects live in a heap, because some update rules modify the parents in place
    and some work on copies.  Printing is left out. *)
From Coq Require Import List Arith Bool ZArith QArith.
From Verif Require Import Base GraphModel OperatorsModel ParamsModel EvolverModel FloatModel.
Import ListNotations.
Local Open Scope nat_scope.

(* graph objects by address *)
Definition heap := list world.
(* (score, graph); None = no score yet *)
Definition individual := (option fl * nat)%type.
Definition population := list individual.

Definition deref (h : heap) (r : nat) : res world := of_option KeyError (nth_error h r).
Definition alloc (h : heap) (w : world) : heap * nat := (h ++ [w], length h).
Definition store_at (h : heap) (r : nat) (w : world) : res heap := of_option KeyError (set_nth r w h).

(* population[0:k] for an integer k of any sign *)
Definition slice_to {A} (k : Z) (l : list A) : list A :=
  if (k <? 0)%Z then firstn (length l - Z.to_nat (- k)) l else firstn (Z.to_nat k) l.
(* round(elitism_ratio * len(population)), lines 256, 336, 379, 423; the comparisons on the
   following line ("population_pass_index == len(population)") have no effect *)
Definition pass_index {A} (ratio : Q) (l : list A) : Z := py_round (ratio * inject_Z (Z.of_nat (length l)))%Q.

(* nx.is_directed_acyclic_graph, lib/graph.py:477-481 *)
Definition is_dag (g : graph) : bool := match topological_sort g with Some _ => true | None => false end.

(* the random numbers of one evolution call, which may depend on the graph they are used for *)
Definition dice := world -> chance.

Section Update.
Variable L : library.
Variable ops : list op.
Variable ev : evolver.
Variable gen : option Q.
Variable elitism_ratio : Q.

(* evolver.evolve_graph on the object at r *)
Definition evolve_at (h : heap) (r : nat) (ch : dice) : res heap :=
  do w <- deref h r;
  let (w', e) := evolve_graph L ops ev gen w (ch w) in
  do h' <- store_at h r w';
  do _ <- e;
  Ok h'.

(** *** Random rule, lines 254-280 *)

(* lines 264-277: the while loop on one graph object; one unit of fuel per round.
   [chs i] are the random numbers of round i *)
Fixpoint evolve_until (fuel : nat) (h : heap) (r : nat) (chs : nat -> dice) (i : nat) : res heap :=
  match fuel with
  | O => Err OutOfFuel
  | S f =>
      do h' <- evolve_at h r (chs i);
      do w <- deref h' r;
      do x <- extract (w_graph w) (w_store w);
      if negb (is_dag (w_graph w)) then evolve_until f h' r chs (S i)
      else match x_params x with
           | [] => evolve_until f h' r chs (S i)
           | _ => Ok h'
           end
  end.

(* line 260: copy.deepcopy of a prefix of the population *)
Fixpoint copy_all (h : heap) (p : population) : res (heap * population) :=
  match p with
  | [] => Ok (h, [])
  | (s, r) :: rest =>
      do w <- deref h r;
      let (h1, r') := alloc h w in
      do hp <- copy_all h1 rest;
      Ok (fst hp, (s, r') :: snd hp)
  end.

Fixpoint evolve_each (fuel : nat) (h : heap) (p : population) (chs : nat -> nat -> dice) (i : nat) : res (heap * population) :=
  match p with
  | [] => Ok (h, [])
  | (_, r) :: rest =>
      do h1 <- evolve_until fuel h r (chs i) 0;
      do hp <- evolve_each fuel h1 rest chs (S i);
      Ok (fst hp, (None, r) :: snd hp)
  end.

Definition update_random (fuel : nat) (chs : nat -> nat -> dice) (h : heap) (p : population) : res (heap * population) :=
  do c <- copy_all h (slice_to (pass_index elitism_ratio p) p);
  do e <- evolve_each fuel (fst c) p chs 0;
  Ok (fst e, snd e ++ snd c).

(** *** Offspring of a copy of a parent: lines 371-372, 415-416 *)
Definition child_of (h : heap) (r : nat) (ch : dice) : res (heap * nat) :=
  do w <- deref h r;
  let (h1, r') := alloc h w in
  do h2 <- evolve_at h1 r' ch;
  do w' <- deref h2 r';
  if is_dag (w_graph w') then Ok (h2, r') else Err AssertionError.

(* [pick i] is the index of the parent of offspring i *)
Fixpoint breed (n : nat) (h : heap) (p : population) (pick : nat -> res nat) (chs : nat -> dice) (i : nat) : res (heap * population) :=
  match n with
  | O => Ok (h, [])
  | S m =>
      do j <- pick i;
      do par <- of_option IndexError (nth_error p j);
      do c <- child_of h (snd par) (chs i);
      do hp <- breed m (fst c) p pick chs (S i);
      Ok (fst hp, (None, snd c) :: snd hp)
  end.

(** *** Tournament rule, lines 387-428 *)
(* lines 407-410 *)
Definition tournament_size (n divisor : nat) : nat := match Nat.div n divisor with O => 1 | k => k end.
(* np.random.choice(np.arange(0, n), size): any [size] indices below n, with repetition *)
Definition contestants (n size : nat) (rnd : nat -> nat) : list nat := map (fun i => Nat.modulo (rnd i) n) (seq 0 size).
Definition list_min (l : list nat) : res nat :=
  match l with [] => Err ValueError | a :: r => Ok (fold_left Nat.min r a) end.
Definition update_tournament (divisor : nat) (rnds : nat -> nat -> nat) (chs : nat -> dice) (h : heap) (p : population)
  : res (heap * population) :=
  match p with
  | [] => Err IndexError                                   (* population[0], line 399 *)
  | _ =>
      if Nat.eqb divisor 0 then Err ZeroDivisionError
      else
        do hp <- breed (length p) h p (fun i => list_min (contestants (length p) (tournament_size (length p) divisor) (rnds i))) chs 0;
        Ok (fst hp, snd hp ++ slice_to (pass_index elitism_ratio p) p)
  end.

(** *** Roulette rule, lines 344-384, with the default preferentiality_param = 1 *)
(* 1 / score; None: not a finite number *)
Definition reciprocal (s : fl) : option Q :=
  match s with
  | Fin q => if Qeq_bool q 0 then None else Some (/ q)%Q
  | PInf | NInf => Some 0%Q
  | NaN => None
  end.
Fixpoint all_some {A} (l : list (option A)) : option (list A) :=
  match l with
  | [] => Some []
  | Some a :: r => match all_some r with Some t => Some (a :: t) | None => None end
  | None :: _ => None
  end.
(* lines 360-366 and the checks of np.random.choice(p=...): a NaN or negative entry, or entries that
   do not sum to one, are a ValueError; so is the two-dimensional array of line 359.  A later None is a
   TypeError in the division. *)
Definition roulette (p : population) : res (list Q) :=
  match map fst p with
  | [] => Err IndexError
  | None :: _ => Err ValueError
  | scores =>
      match all_some scores with
      | None => Err TypeError
      | Some ss =>
          match all_some (map reciprocal ss) with
          | None => Err ValueError
          | Some rs =>
              let t := qsum rs in
              if Qeq_bool t 0 then Err ValueError
              else
                let ps := map (fun q => q / t)%Q rs in
                if forallb (Qle_bool 0) ps then Ok ps else Err ValueError
          end
      end
  end.
Definition update_roulette (us : nat -> Q) (chs : nat -> dice) (h : heap) (p : population) : res (heap * population) :=
  do ps <- roulette p;
  do hp <- breed (length p) h p (fun i => of_option IndexError (choose ps (us i))) chs 0;
  Ok (fst hp, snd hp ++ slice_to (pass_index elitism_ratio p) p).

(** *** Preferential rule, lines 283-341 *)

(* lines 313-333: the while loop for one parent at address r.  [tgt], [models], [idx] are the current
   contents of node_edge_index and parameter_index: they name parameters of the object at address tgt.
   [stops i] is the outcome of random.random() < break_probability[i], whose value is not modelled *)
Fixpoint reproduce (fuel : nat) (h : heap) (r : nat) (parent_params : list pval)
  (tgt : nat) (models idx : list nat) (chs : nat -> dice) (stops : nat -> bool) (i : nat) : res (heap * population) :=
  match fuel with
  | O => Err OutOfFuel
  | S f =>
      do w <- deref h r;
      let (h1, r') := alloc h w in
      do h2 <- evolve_at h1 r' (chs i);
      do wt <- deref h2 tgt;
      do s <- distribute parent_params models idx (w_store wt);
      do h3 <- store_at h2 tgt (mkW (w_graph wt) s (w_cur wt) (w_parent wt) (w_mut wt) (w_hess wt));
      do w' <- deref h3 r';
      do x <- extract (w_graph w') (w_store w');
      if negb (is_dag (w_graph w')) then reproduce f h3 r parent_params r' (x_models x) (x_index x) chs stops (S i)
      else match x_params x with
           | [] => reproduce f h3 r parent_params r' (x_models x) (x_index x) chs stops (S i)
           | _ =>
               if stops i then Ok (h3, [(None, r')])
               else
                 do hp <- reproduce f h3 r parent_params r' (x_models x) (x_index x) chs stops (S i);
                 Ok (fst hp, (None, r') :: snd hp)
           end
  end.
Fixpoint reproduce_each (fuel : nat) (h : heap) (p : population) (chs : nat -> nat -> dice) (stops : nat -> nat -> bool) (i : nat)
  : res (heap * population) :=
  match p with
  | [] => Ok (h, [])
  | (_, r) :: rest =>
      do w <- deref h r;
      do x <- extract (w_graph w) (w_store w);
      do a <- reproduce fuel h r (x_params x) r (x_models x) (x_index x) (chs i) (stops i) 0;
      do b <- reproduce_each fuel (fst a) rest chs stops (S i);
      Ok (fst b, snd a ++ snd b)
  end.
(* the score arithmetic of lines 294-309 fails on an empty population and on scores of which only
   some are None *)
Definition update_preferential (fuel : nat) (chs : nat -> nat -> dice) (stops : nat -> nat -> bool) (h : heap) (p : population)
  : res (heap * population) :=
  match map fst p with
  | [] => Err IndexError
  | s0 :: _ =>
      if match s0 with None => false | Some _ => match all_some (map fst p) with Some _ => false | None => true end end
      then Err TypeError
      else
        do hp <- reproduce_each fuel h p chs stops 0;
        Ok (fst hp, snd hp ++ slice_to (pass_index elitism_ratio p) p)
  end.
End Update.

(** *** One individual's parameter optimisation, lines 539-569 *)
(* [opt] stands for everything between extract_parameters_to_list and the return: the evaluation of
   a graph without free parameters, or parameters_optimize and the Hessian (lines 548-558).
   An exception is re-raised (line 563).  clear_propagation does not touch the modelled state. *)
Definition optimise_complete (opt : world -> res (fl * world)) (score : option fl) (w : world) : res (fl * world) :=
  match score with
  | Some _ => Err RuntimeError
  | None =>
      do s <- update_graph (w_graph w) (w_store w);
      opt (mkW (w_graph w) s (w_cur w) (w_parent w) (w_mut w) (w_hess w))
  end.
