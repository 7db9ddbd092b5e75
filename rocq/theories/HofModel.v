(** Model of the hall of fame, algorithms/topology_optimization.py:165-251.
    Definitions only.  Graphs are opaque: the hall of fame stores deep copies
    that nothing else can reach, so their contents never change.  The similarity
    measure (similarity_reduced_ged or similarity_full_ged) is a parameter; it may
    raise.  An empty slot (None, None) is [None].  Printing is left out. *)
From Coq Require Import List Arith Bool QArith Qabs.
From Verif Require Import Base FloatModel.
Import ListNotations.
Local Open Scope nat_scope.

(* np.isclose(a, b) with its default tolerances, used at line 227 *)
Definition isclose (a b : Q) : bool := Qle_bool (Qabs (a - b)) ((1 # 100000000) + (1 # 100000) * Qabs b)%Q.

Section Hof.
Variable G : Type.
Variable sim : G -> G -> res Q.
Variable threshold : Q.

Definition slot := option (fl * G).
Definition hof := list slot.

(* lines 165-167 *)
Definition init_hof (n : nat) : hof := repeat None n.

(* lines 197-214: index of the first slot that is empty or has a worse score; None when
   the loop ends without break, in which case insert = check_similarity = False *)
Fixpoint insert_index (h : hof) (score : fl) (j : nat) : option nat :=
  match h with
  | [] => None
  | None :: _ => Some j
  | Some (sj, _) :: rest => if fltb score sj then Some j else insert_index rest score (S j)
  end.

(* line 227 *)
Definition too_similar (d : Q) : bool := Qle_bool d threshold || isclose d threshold.

(* lines 219-241: index of the first similar member *)
Fixpoint similar_index (h : hof) (graph : G) (k : nat) : res (option nat) :=
  match h with
  | [] => Ok None
  | None :: rest => similar_index rest graph (S k)
  | Some (_, gk) :: rest =>
      match sim graph gk with
      | Err e => Err e
      | Ok d => if too_similar d then Ok (Some k) else similar_index rest graph (S k)
      end
  end.

(* lines 242-245: hof[remove_ind] = 'x'; hof.insert(insert_ind, ..); hof.remove('x');
   the mark 'x' is [None] of the outer option *)
Fixpoint mark (i : nat) (l : list (option slot)) : list (option slot) :=
  match l, i with
  | [], _ => []
  | _ :: r, O => None :: r
  | s :: r, S i => s :: mark i r
  end.
Fixpoint insert_at (i : nat) (s : slot) (l : list (option slot)) : list (option slot) :=
  match i, l with
  | O, _ => Some s :: l
  | S i, [] => [Some s]
  | S i, x :: r => x :: insert_at i s r
  end.
Fixpoint remove_mark (l : list (option slot)) : list (option slot) :=
  match l with
  | [] => []
  | None :: r => r
  | s :: r => s :: remove_mark r
  end.
Fixpoint unwrap (l : list (option slot)) : hof :=
  match l with
  | [] => []
  | Some s :: r => s :: unwrap r
  | None :: r => unwrap r
  end.
Definition replace (h : hof) (remove_ind insert_ind : nat) (e : fl * G) : hof :=
  unwrap (remove_mark (insert_at insert_ind (Some e) (mark remove_ind (map Some h)))).

(* lines 188-249: one individual *)
Definition update_one (h : hof) (ind : fl * G) : res hof :=
  let (score, graph) := ind in
  match insert_index h score 0 with
  | None => Ok h
  | Some j =>
      match similar_index h graph 0 with
      | Err e => Err e
      | Ok (Some k) => if k <? j then Ok h else Ok (replace h k j (score, graph))
      | Ok None => Ok (replace h (length h - 1) j (score, graph))     (* remove_ind = -1 *)
      end
  end.

(* lines 170-251 *)
Fixpoint update_hof (h : hof) (population : list (fl * G)) : res hof :=
  match population with
  | [] => Ok h
  | ind :: rest =>
      match update_one h ind with
      | Err e => Err e
      | Ok h' => update_hof h' rest
      end
  end.

(* the calls made by successive generations, topology_optimization lines 84, 124 *)
Fixpoint hof_run (h : hof) (populations : list (list (fl * G))) : res hof :=
  match populations with
  | [] => Ok h
  | p :: rest =>
      match update_hof h p with
      | Err e => Err e
      | Ok h' => hof_run h' rest
      end
  end.
End Hof.
Arguments slot G : clear implicits.
Arguments hof G : clear implicits.
