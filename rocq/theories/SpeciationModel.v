(** Model of speciation, algorithms/speciation.py:30-233.  Definitions only.
    Graphs are dictionary keys by identity (networkx graphs define no equality), here the
    addresses of PopulationModel.  Printing and historical_marker are left out.  When a call
    raises, the model gives the exception only, not the partly updated manager or list.
    Numbers are exact rationals. *)
From Coq Require Import List Arith Bool ZArith QArith Qminmax.
From Verif Require Import Base FloatModel PopulationModel.
Import ListNotations.
Local Open Scope nat_scope.

(** *** Dictionaries in insertion order *)
Section Dict.
Context {V : Type}.
Definition dict := list (nat * V).
Fixpoint dget (d : dict) (k : nat) : option V :=
  match d with [] => None | (k', v) :: r => if Nat.eqb k' k then Some v else dget r k end.
Fixpoint dset (d : dict) (k : nat) (v : V) : dict :=
  match d with [] => [(k, v)] | (k', v') :: r => if Nat.eqb k' k then (k', v) :: r else (k', v') :: dset r k v end.
Definition dpop (d : dict) (k : nat) : dict := filter (fun p => negb (Nat.eqb (fst p) k)) d.
Definition dkeys (d : dict) : list nat := map fst d.
End Dict.
Arguments dict : clear implicits.

Definition mem (k : nat) (l : list nat) : bool := existsb (Nat.eqb k) l.
Definition drop (k : nat) (l : list nat) : list nat := filter (fun x => negb (Nat.eqb x k)) l.

Record manager := mkSp {
  sp_thresh : Q;                          (* d_thresh *)
  sp_species : dict nat;                  (* representative -> size *)
  sp_map : dict nat }.                    (* individual -> representative *)

(* lines 37-58 *)
Definition new_speciation (d_thresh : Q) : res manager :=
  if Qle_bool d_thresh 0 || Qle_bool 1 d_thresh then Err ValueError else Ok (mkSp d_thresh [] []).

Section Speciation.
Variable target : option Z.                       (* target_species_num *)
Variable half_life : option (nat -> Q).           (* protection_half_life: generation -> exp(-generation/coeff) *)
Variable dist : nat -> nat -> res fl.             (* distance_func *)
Variable root : nat -> Q.                         (* np.sqrt as computed in floating point *)

(** *** speciate, lines 60-142 *)

(* lines 82-88: the candidate loop, in the iteration order of the set *)
Fixpoint best_rep (thresh : Q) (species : dict nat) (rep : nat) (cands : list nat) (best : option nat) (score : fl) : res (option nat) :=
  match cands with
  | [] => Ok best
  | g :: r =>
      if mem g (dkeys species) then best_rep thresh species rep r best score
      else
        do s <- dist rep g;
        if fltb s score && fltb s (Fin thresh) then best_rep thresh species rep r (Some g) s
        else best_rep thresh species rep r best score
  end.

(* lines 75-93; [order] the iteration order of rep_set, [pick k] that of graph_set in round k *)
Fixpoint renew (thresh : Q) (pick : nat -> list nat -> list nat) (k : nat) (order : list nat) (graphs : list nat) (species : dict nat) : res (dict nat) :=
  match order with
  | [] => Ok species
  | rep :: r =>
      if mem rep graphs then renew thresh pick (S k) r (drop rep graphs) (dset species rep 0)
      else
        do b <- best_rep thresh species rep (pick k graphs) None (Fin 5);
        let species1 := dpop species rep in
        match b with
        | Some g => renew thresh pick (S k) r (drop g graphs) (dset species1 g 0)
        | None => renew thresh pick (S k) r graphs species1
        end
  end.

(* lines 97-101: one row of the double loop, then the double loop *)
Fixpoint redundant_row (thresh : Q) (s0 : nat) (keys : list nat) (red : list nat) : res (list nat) :=
  match keys with
  | [] => Ok red
  | s1 :: r =>
      if negb (Nat.eqb s0 s1) && negb (mem s0 red) && negb (mem s1 red) then
        do d <- dist s0 s1;
        redundant_row thresh s0 r (if fltb d (Fin thresh) then s1 :: red else red)
      else redundant_row thresh s0 r red
  end.
Fixpoint redundant (thresh : Q) (rows keys : list nat) (red : list nat) : res (list nat) :=
  match rows with
  | [] => Ok red
  | s0 :: r => do red' <- redundant_row thresh s0 keys red; redundant thresh r keys red'
  end.

(* lines 119-123: the first representative that is close enough *)
Fixpoint find_rep (thresh : Q) (g : nat) (keys : list nat) : res (option nat) :=
  match keys with
  | [] => Ok None
  | rep :: r => do d <- dist rep g; if fltb d (Fin thresh) then Ok (Some rep) else find_rep thresh g r
  end.
Definition incr (species : dict nat) (k : nat) : dict nat :=
  match dget species k with Some n => dset species k (S n) | None => species end.

(* lines 114-128, one individual *)
Definition slot_one (thresh : Q) (sm : dict nat * dict nat) (x : individual) : res (dict nat * dict nat) :=
  let (species, map_) := sm in
  let g := snd x in
  if mem g (dkeys species) then Ok (incr species g, dset map_ g g)
  else
    do r <- find_rep thresh g (dkeys species);
    match r with
    | Some rep => Ok (incr species rep, dset map_ g rep)
    | None => if mem g (dkeys map_) then Ok (species, map_) else Ok (dset species g 1, dset map_ g g)
    end.

(* lines 135-142, THRESH_MAX_ADJUST and THRESH_ADJUST_PROP_CONSTANT at 27-28.  For an empty
   population numpy divides by zero: the adjustment is infinite or, for target 0, NaN, which
   max/min turn into 0.05 *)
Definition clip (x lo hi : Q) : Q := Qmin (Qmax x lo) hi.
Definition adjusted (t : Z) (thresh : Q) (npop nspecies : nat) : Q :=
  let diff := (-1 * (t - Z.of_nat nspecies))%Z in
  match npop with
  | O => if (diff =? 0)%Z then 5 # 100
         else Qmax (5 # 100) (Qmin ((if (diff <? 0)%Z then - (3 # 10) else 3 # 10) + thresh) (95 # 100))
  | S _ => Qmax (5 # 100) (Qmin (clip (inject_Z diff * ((1 # 10) / root npop)) (- (3 # 10)) (3 # 10) + thresh) (95 # 100))
  end%Q.

Definition speciate (order : list nat) (pick : nat -> list nat -> list nat) (sp : manager) (population : population) : res manager :=
  let t := sp_thresh sp in
  do species1 <- renew t pick 0 order (nodup Nat.eq_dec (map snd population)) (sp_species sp);
  do red <- redundant t (dkeys species1) (dkeys species1) [];
  let species2 := filter (fun p => negb (mem (fst p) red)) species1 in
  do sm <- fold_res (slot_one t) population (species2, []);
  Ok (mkSp (match target with Some z => adjusted z t (length population) (length (fst sm)) | None => t end) (fst sm) (snd sm)).

(** *** Fitness sharing, lines 144-204, with minimization=True as every caller has it *)
Definition scaling (gen size : nat) : Q :=
  match half_life with
  | None => inject_Z (Z.of_nat size)
  | Some d => Qmax 1 (d gen * inject_Z (Z.of_nat size))
  end.
(* multiplication by a coefficient; 0 * inf is NaN *)
Definition fl_mul (s : fl) (c : Q) : fl :=
  match s with
  | Fin q => Fin (q * c)
  | NaN => NaN
  | PInf => match (c ?= 0)%Q with Gt => PInf | Lt => NInf | Eq => NaN end
  | NInf => match (c ?= 0)%Q with Gt => NInf | Lt => PInf | Eq => NaN end
  end.
Definition fl_div (s : fl) (c : Q) : res fl := if Qeq_bool c 0 then Err ZeroDivisionError else Ok (fl_mul s (/ c)).

Definition size_of (sp : manager) (g : nat) : option nat :=
  match dget (sp_map sp) g with Some rep => dget (sp_species sp) rep | None => None end.

Definition share_one (sp : manager) (gen : nat) (x : individual) : res individual :=
  do size <- of_option KeyError (size_of sp (snd x));
  match fst x with
  | None => Err TypeError
  | Some s => Ok (Some (fl_mul s (scaling gen size)), snd x)
  end.
Definition unshare_one (sp : manager) (gen : nat) (x : individual) : res individual :=
  match size_of sp (snd x) with
  | None => Ok x                                                     (* except KeyError: pass *)
  | Some size =>
      match fst x with
      | None => Err TypeError
      | Some s => do s' <- fl_div s (scaling gen size); Ok (Some s', snd x)
      end
  end.
Definition execute_fitness_sharing (sp : manager) (gen : nat) (p : population) : res population := map_res (share_one sp gen) p.
Definition reverse_fitness_sharing (sp : manager) (gen : nat) (p : population) : res population := map_res (unshare_one sp gen) p.

(** *** get_crossover_candidates, lines 206-228 *)
(* the loop; None = KeyError, caught *)
Fixpoint same_species (sp : manager) (graph : nat) (p : population) : option population :=
  match p with
  | [] => Some []
  | x :: r =>
      match dget (sp_map sp) (snd x), dget (sp_map sp) graph with
      | Some a, Some b =>
          match same_species sp graph r with
          | Some l => Some (if Nat.eqb a b && negb (Nat.eqb (snd x) graph) then x :: l else l)
          | None => None
          end
      | _, _ => None
      end
  end.
(* sort by score, ascending and stable; comparing a missing score raises TypeError.  The order for
   NaN scores is not Python's *)
Fixpoint insert_scored (x : fl * nat) (l : list (fl * nat)) : list (fl * nat) :=
  match l with [] => [x] | y :: r => if fltb (fst x) (fst y) then x :: l else y :: insert_scored x r end.
Definition sort_scored (l : list (fl * nat)) : list (fl * nat) := fold_left (fun acc x => insert_scored x acc) l [].
Definition sort_population (p : population) : res population :=
  match p with
  | [] | [_] => Ok p
  | _ => do l <- map_res (fun x => match fst x with Some s => Ok (s, snd x) | None => Err TypeError end) p;
         Ok (map (fun y => (Some (fst y), snd y)) (sort_scored l))
  end.
Definition get_crossover_candidates (sp : manager) (graph : nat) (p : population) : res population :=
  match same_species sp graph p with
  | Some l => sort_population l
  | None => Ok []
  end.
End Speciation.
