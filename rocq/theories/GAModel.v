(** Model of the genetic parameter search, algorithms/parameter_optimization.py:318-406.
    Definitions only.  A candidate is a list of genes; the objective may read and write a state
    (evaluating a graph writes the candidate into it).  Random choices are functions of
    the generation and the position in it.  Printing and the unused logbook are left out. *)
From Coq Require Import List Arith Bool ZArith.
From Verif Require Import Base FloatModel PopulationModel.
Import ListNotations.
Local Open Scope nat_scope.

Section GA.
Variable A : Type.
Notation vec := (list A).

(** ** Recombination *)

(* lines 377-384.  [r] decides np.random.randint(1, len(parent1)), which raises ValueError for
   lengths below two; every exception is caught *)
Definition crossover_singlepoint (p1 p2 : vec) (r : nat) : vec * vec :=
  if length p1 <=? 1 then (p1, p2)
  else let c := 1 + Nat.modulo r (length p1 - 1) in (firstn c p1 ++ skipn c p2, firstn c p2 ++ skipn c p1).

(* lines 387-392: two points from randint(2, len), ValueError for lengths below three *)
Definition crossover_doublepoint (p1 p2 : vec) (r1 r2 : nat) : res (vec * vec) :=
  if length p1 <=? 2 then Err ValueError
  else
    let c r := 2 + Nat.modulo r (length p1 - 2) in
    let a := Nat.min (c r1) (c r2) in let b := Nat.max (c r1) (c r2) in
    let middle (x : vec) := firstn (b - a) (skipn a x) in
    Ok (firstn a p1 ++ middle p2 ++ skipn b p1, firstn a p2 ++ middle p1 ++ skipn b p2).

(* [mut if i in inds else par for i, (par, mut) in enumerate(zip(parent, mutant))] *)
Fixpoint mix_genes (inds : list nat) (i : nat) (parent mutant : vec) : vec :=
  match parent, mutant with
  | p :: pr, m :: mr => (if existsb (Nat.eqb i) inds then m else p) :: mix_genes inds (S i) pr mr
  | _, _ => []
  end.
(* lines 395-406.  [first :: more] decides the non-empty set of indices; random.randint(1, 0) raises *)
Definition mutation (parent mutant : vec) (first : nat) (more : list nat) : res vec :=
  match mutant with
  | [] => Err ValueError
  | _ => Ok (mix_genes (map (fun k => Nat.modulo k (length mutant)) (first :: more)) 0 parent mutant)
  end.

(** ** The search *)

Variable St : Type.
(* the objective *)
Variable func : vec -> St -> St * res fl.
(* generate_random_func: call number k of generation g *)
Variable random_vec : nat -> nat -> res vec.
(* lines 370-372: the scores of the population are logged; nothing happens without a logger *)
Variable note : list fl -> St -> St * res unit.
(* list.sort on (score, candidate) tuples *)
Variable sort : list (fl * vec) -> list (fl * vec).

(* the random numbers of one generation *)
Record ga_luck := mkGL {
  gl_pair : nat -> nat * nat;          (* random.sample(population, 2) *)
  gl_cut : nat -> nat;
  gl_one : nat -> nat;                 (* random.sample(population, 1) *)
  gl_first : nat -> nat;
  gl_more : nat -> list nat }.
Variable lucks : nat -> ga_luck.
(* np.floor(rate_crx * n_population), np.floor(rate_mut * n_population), whatever the rounding *)
Variable n_crx n_mut : nat.
Variable n_population : nat.

(* (score or None, candidate) *)
Definition entry := (option fl * vec)%type.

(* lines 329-332 *)
Fixpoint start_population (n : nat) (x0 : vec) (s : St) : St * res (list (fl * vec)) :=
  match n with
  | O => (s, Ok [])
  | S m =>
      match func x0 s with
      | (s1, Err e) => (s1, Err e)
      | (s1, Ok sc) => match start_population m x0 s1 with
                       | (s2, Err e) => (s2, Err e)
                       | (s2, Ok l) => (s2, Ok ((sc, x0) :: l))
                       end
      end
  end.

(* random.sample(population, 2): two different positions *)
Definition two_of (p : list entry) (r : nat * nat) : res (vec * vec) :=
  let n := length p in
  if n <=? 1 then Err ValueError
  else
    let i := Nat.modulo (fst r) n in
    let j0 := Nat.modulo (snd r) (n - 1) in
    let j := if j0 <? i then j0 else S j0 in
    match nth_error p i, nth_error p j with Some a, Some b => Ok (snd a, snd b) | _, _ => Err IndexError end.
Definition one_of (p : list entry) (r : nat) : res vec :=
  match p with
  | [] => Err ValueError
  | _ => match nth_error p (Nat.modulo r (length p)) with Some a => Ok (snd a) | None => Err IndexError end
  end.

(* lines 338-345 *)
Fixpoint cross_all (lk : ga_luck) (todo i : nat) (p : list entry) : res (list entry) :=
  match todo with
  | O => Ok p
  | S t =>
      do ab <- two_of p (gl_pair lk i);
      let cs := crossover_singlepoint (fst ab) (snd ab) (gl_cut lk i) in
      cross_all lk t (S i) (p ++ [(None, fst cs); (None, snd cs)])
  end.
(* lines 346-350 *)
Fixpoint mutate_all (g : nat) (lk : ga_luck) (todo i : nat) (p : list entry) : res (list entry) :=
  match todo with
  | O => Ok p
  | S t =>
      do parent <- one_of p (gl_one lk i);
      do mutant <- random_vec g i;
      do child <- mutation parent mutant (gl_first lk i) (gl_more lk i);
      mutate_all g lk t (S i) (p ++ [(None, child)])
  end.
(* lines 352-356; the calls of the generator continue after those of the mutations *)
Fixpoint newcomers (g : nat) (todo i : nat) (p : list entry) (s : St) : St * res (list entry) :=
  match todo with
  | O => (s, Ok p)
  | S t =>
      match random_vec g i with
      | Err e => (s, Err e)
      | Ok x => match func x s with
                | (s1, Err e) => (s1, Err e)
                | (s1, Ok sc) => newcomers g t (S i) (p ++ [(Some sc, x)]) s1
                end
      end
  end.
(* lines 359-363 *)
Fixpoint score_all (p : list entry) (s : St) : St * res (list (fl * vec)) :=
  match p with
  | [] => (s, Ok [])
  | (sc, x) :: r =>
      match (match sc with Some v => (s, Ok v) | None => func x s end) with
      | (s1, Err e) => (s1, Err e)
      | (s1, Ok v) => match score_all r s1 with
                      | (s2, Err e) => (s2, Err e)
                      | (s2, Ok l) => (s2, Ok ((v, x) :: l))
                      end
      end
  end.
(* population[:-(len(population) - n_population) or None] *)
Definition truncate (l : list (fl * vec)) : list (fl * vec) :=
  let k := (- (Z.of_nat (length l) - Z.of_nat n_population))%Z in
  if (k =? 0)%Z then l else slice_to k l.

(* lines 335-372 *)
Definition ga_generation (g : nat) (p : list (fl * vec)) (s : St) : St * res (list (fl * vec)) :=
  let lk := lucks g in
  match (do p1 <- cross_all lk n_crx 0 (map (fun q => (Some (fst q), snd q)) p); mutate_all g lk n_mut 0 p1) with
  | Err e => (s, Err e)
  | Ok p2 =>
      match newcomers g (n_population / 20) n_mut p2 s with
      | (s1, Err e) => (s1, Err e)
      | (s1, Ok p3) =>
          match score_all p3 s1 with
          | (s2, Err e) => (s2, Err e)
          | (s2, Ok p4) =>
              let p5 := truncate (sort p4) in
              match note (map fst p5) s2 with
              | (s3, Err e) => (s3, Err e)
              | (s3, Ok _) => (s3, Ok p5)
              end
          end
      end
  end.

Fixpoint ga_generations (todo g : nat) (p : list (fl * vec)) (s : St) : St * res (list (fl * vec)) :=
  match todo with
  | O => (s, Ok p)
  | S t => match ga_generation g p s with
           | (s1, Err e) => (s1, Err e)
           | (s1, Ok p') => ga_generations t (S g) p' s1
           end
  end.

(* the population after [n] generations *)
Definition ga_population (n : nat) (x0 : vec) (s : St) : St * res (list (fl * vec)) :=
  match start_population n_population x0 s with
  | (s1, Err e) => (s1, Err e)
  | (s1, Ok p) => ga_generations n 1 p s1
  end.

(* lines 318-374; the result is (candidate, score) *)
Definition parameters_genetic_algorithm (n_generations : nat) (x0 : vec) (s : St) : St * res (vec * fl) :=
  match ga_population n_generations x0 s with
  | (s1, Err e) => (s1, Err e)
  | (s1, Ok []) => (s1, Err IndexError)
  | (s1, Ok ((sc, x) :: _)) => (s1, Ok (x, sc))
  end.
End GA.
Arguments crossover_singlepoint {A}. Arguments crossover_doublepoint {A}. Arguments mix_genes {A}. Arguments mutation {A}.
