(** What is wanted of a function on which optimisers are tried (C91); independent of the model. *)
From Coq Require Import List Reals String.
Import ListNotations.
Local Open Scope R_scope.

(* p is the only point where f is least, and the value there is v *)
Definition only_least (f : R * R -> R) (p : R * R) (v : R) : Prop := f p = v /\ forall q, v <= f q /\ (f q = v -> q = p).

(* the names whose marked point is the only least one, with the point and the value there *)
Definition known_minima : list (string * ((R * R) * R)) := [
  ("booth_function", ((1, 3), 0)); ("matyas_function", ((0, 0), 0)); ("ackley_function", ((0, 0), 0));
  ("easom_function", ((PI, PI), 0)); ("rastrigin_function", ((0, 0), 0)); ("rosenbrock_function", ((1, 1), 0));
  ("beale_function", ((3, / 2), 0)); ("goldstein_price_function", ((0, -1), 3)); ("levi13_function", ((1, 1), 0)) ]%string.

(* the square that the samples cover: 1000 by 1000 points at equal distances, the corners among them *)
Definition square (name : string) : (R * R) * (R * R) :=
  (if String.eqb name "booth_function" then ((-10, 10), (-10, 10))
  else if String.eqb name "matyas_function" then ((-10, 10), (-10, 10))
  else if String.eqb name "levi13_function" then ((-10, 10), (-10, 10))
  else if String.eqb name "easom_function" then ((-10, 10), (-6, 6))
  else if String.eqb name "beale_function" then ((- (9 / 2), 9 / 2), (- (9 / 2), 4))
  else if String.eqb name "goldstein_price_function" then ((-2, 2), (-2, 2))
  else ((-5, 5), (-5, 5)))%string.
Definition sample (lo hi : R) (i : nat) : R := lo + (hi - lo) * INR i / 999.

(* the function of one number on the line through p in direction d *)
Definition along (f : R * R -> R) (p d : R * R) (t : R) : R := f (fst p + t * fst d, snd p + t * snd d).

(* the matrix of second derivatives a b / b c of f at p, by its quadratic form on every line through p; the first derivative
   there is 0 *)
Definition curvature (f : R * R -> R) (p : R * R) (m : R * R * R) : Prop := forall d, exists slope,
  (forall t, derivable_pt_lim (along f p d) t (slope t)) /\ slope 0 = 0 /\
  derivable_pt_lim slope 0 (fst (fst m) * fst d ^ 2 + 2 * snd (fst m) * fst d * snd d + snd m * snd d ^ 2).
Definition definite (m : R * R * R) : Prop := 0 < fst (fst m) /\ 0 < fst (fst m) * snd m - snd (fst m) ^ 2.
Definition known_curvatures : list (string * (R * R * R)) := [
  ("booth_function", (10, 8, 10)); ("matyas_function", (52 / 100, - (48 / 100), 52 / 100)); ("easom_function", (3, 0, 3));
  ("rastrigin_function", (2 + 40 * PI ^ 2, 0, 2 + 40 * PI ^ 2)); ("rosenbrock_function", (802, -400, 200));
  ("beale_function", (101 / 32, - (183 / 16), 369 / 8)); ("goldstein_price_function", (504, -216, 864));
  ("levi13_function", (2 + 18 * PI ^ 2, 0, 2)) ]%string.
