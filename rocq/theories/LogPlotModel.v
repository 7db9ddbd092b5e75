(** Model of the plots of a log of a parameter optimisation: display_log and display_log_comparison of
    ParameterOptimizationLogger, algorithms/functions.py:114-150, with the colours of its constructor, lines 71-77.
    Definitions only.  The log is that of LoggerModel; its run time column is not in that model, so what a row
    has in a column is a function given from outside.  Colours are numbers: those of the palette 'Accent', which
    has eight, or any of a dictionary given by the user.  Not modelled: axis labels, title, legend and printed text. *)
From Coq Require Import List Arith Bool ZArith String.
From Verif Require Import Base FloatModel LoggerModel.
Import ListNotations.
Local Open Scope string_scope.
Local Open Scope list_scope.
Local Open Scope nat_scope.

(* lines 61-69: the columns *)
Definition columns : list string :=
  ["algorithm"; "process runtime (s)"; "gen_or_iter"; "n_population"; "minimum"; "mean"; "maximum"; "variance"].
Definition has_column (c : string) : bool := existsb (String.eqb c) columns.

Definition alg_eq_dec (a b : option alg) : {a = b} + {a <> b}.
Proof. decide equality. decide equality. Defined.

(* dataframe.algorithm.unique(), line 118: in the order of first appearance *)
Fixpoint unique (l : list (option alg)) : list (option alg) :=
  match l with
  | [] => []
  | x :: r => x :: filter (fun a => if alg_eq_dec a x then false else true) (unique r)
  end.

(* a colour map of eight colours called with i / n: entry int(8 * i / n) *)
Definition map_colour (i n : nat) : nat := 8 * i / n.

(* lines 71-77: the five algorithms of line 50 in order, or a dictionary of the user; only in the first case does
   the logger get a colour map *)
Inductive palette := Default | Own (c : alg -> option nat).
Definition algorithm_colour (p : palette) (a : option alg) : res nat :=
  match p, a with
  | _, None => Err KeyError
  | Own c, Some a => of_option KeyError (c a)
  | Default, Some LBFGS => Ok (map_colour 0 5)
  | Default, Some PSO => Ok (map_colour 1 5)
  | Default, Some CMA => Ok (map_colour 2 5)
  | Default, Some ADAM => Ok (map_colour 3 5)
  | Default, Some GA => Ok (map_colour 4 5)
  | Default, Some AlgOther => Err KeyError
  end.

Section Plots.
Variable V : Type.
Variable value : string -> Z * row -> V.

(* dataframe[xaxis], dataframe[yaxis] *)
Definition pairs (x y : string) (rows : list (Z * row)) : res (list (V * V)) :=
  if negb (has_column x) then Err KeyError
  else if negb (has_column y) then Err KeyError
  else Ok (map (fun r => (value x r, value y r)) rows).

Record group := mkGroup { g_label : option alg; g_colour : nat; g_points : list (V * V) }.

(* lines 120-122 *)
Fixpoint groups (p : palette) (rows : list (Z * row)) (x y : string) (algs : list (option alg)) : res (list group) :=
  match algs with
  | [] => Ok []
  | a :: rest =>
      let filtered := filter (fun r => if alg_eq_dec (r_alg (snd r)) a then true else false) rows in
      do points <- pairs x y filtered;
      do colour <- algorithm_colour p a;
      do others <- groups p rows x y rest;
      Ok (mkGroup a colour points :: others)
  end.
(* lines 114-129 *)
Definition display_log (p : palette) (rows : list (Z * row)) (x y : string) : res (list group) :=
  groups p rows x y (unique (map (fun r => r_alg (snd r)) rows)).

Record line := mkLine { n_label : string; n_colour : nat; n_points : list (V * V) }.

(* lines 141-143; a logger is its palette and rows, or None as parameters_optimize returns without log_callback *)
Fixpoint lines_from (i n : nat) (x y : string) (l : list (string * option (palette * list (Z * row)))) : res (list line) :=
  match l with
  | [] => Ok []
  | (label, None) :: _ => Err AttributeError                       (* None.get_log() *)
  | (label, Some (p, rows)) :: rest =>
      do points <- pairs x y rows;
      match p with
      | Own _ => Err AttributeError                                (* no colour_map *)
      | Default =>
          do others <- lines_from (S i) n x y rest;
          Ok (mkLine label (map_colour i n) points :: others)
      end
  end.
(* lines 131-150 *)
Definition display_log_comparison (l : list (string * option (palette * list (Z * row)))) (x y : string) : res (list line) :=
  lines_from 0 (List.length l) x y l.
End Plots.
