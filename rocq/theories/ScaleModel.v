(** Model of lib/functions.py:245-300 (units of the axes of a plot) and of the comparison plots of the evaluators
    (evaluator_pulserep.py:90-109, evaluator_rfawg.py:100-119, evaluator_noise_suppression.py:90-109).  Definitions only.

    A plot is what the code reads and writes of a matplotlib axes object: the data of its lines in the order they were drawn, and its labels.
    Real numbers stand for floating point numbers: rounding of the logarithm, nan and inf are not modelled. *)
From Coq Require Import Reals List String ZArith.
From Verif Require Import Base Complex ArrayModel.
Import ListNotations.
Local Open Scope string_scope.
Local Open Scope list_scope.
Local Open Scope R_scope.

(* the errors of Python missing in Base, and the others; UnboundLocalError: a local variable is read before it is assigned *)
Inductive plot_error := OverflowError | UnboundLocalError | Py (e : exn).
Definition outcome (A : Type) : Type := (A + plot_error)%type.

Record line := mkLine { l_x : list R; l_y : list R }.
Record plot := mkPlot { p_lines : list line; p_xlabel : string; p_ylabel : string }.

(* lines 248-261: the dictionary of prefixes, in the order of the source *)
Definition prefixes : list (Z * string) :=
  [(18, "E"); (15, "P"); (12, "T"); (9, "G"); (6, "M"); (3, "k"); (0, ""); (-3, "m"); (-6, "$\mu$"); (-9, "n"); (-12, "p"); (-15, "f"); (-18, "a"); (-21, "z")]%Z.

Fixpoint lookup (m : Z) (l : list (Z * string)) : option string :=
  match l with [] => None | (k, s) :: r => if Z.eqb k m then Some s else lookup m r end.

(* max(abs(data)) *)
Fixpoint maximum_from (best : R) (l : list R) : R :=
  match l with [] => best | x :: r => if Rlt_dec best x then maximum_from x r else maximum_from best r end.

(* np.log10 *)
Definition log10 (x : R) : R := ln x / ln 10.

(* lines 247-267, scale: the logarithm of zero is -inf, which int() refuses *)
Definition scale_of (data : list R) : outcome (Z * string) :=
  match map Rabs data with
  | [] => inr (Py ValueError)
  | x :: r =>
      let top := maximum_from x r in
      if Req_EM_T top 0 then inr OverflowError
      else let multiplier := (3 * Int_part (log10 top / 3))%Z in
           match lookup multiplier prefixes with Some prefix => inl (multiplier, prefix) | None => inr (Py KeyError) end
  end.

(* lines 269-277, pass_function_handles: which data and which label a name stands for.  matplotlib's lines have no get_zdata *)
Inductive axis := X | Y.
Definition axis_of (name : string) : outcome axis :=
  if String.eqb name "x" then inl X else if String.eqb name "y" then inl Y else if String.eqb name "z" then inr (Py AttributeError) else inr UnboundLocalError.

Definition get_data (a : axis) (l : line) : list R := match a with X => l_x l | Y => l_y l end.
Definition set_data (a : axis) (l : line) (d : list R) : line := match a with X => mkLine d (l_y l) | Y => mkLine (l_x l) d end.
Definition set_lines (p : plot) (ls : list line) : plot := mkPlot ls (p_xlabel p) (p_ylabel p).
Definition append_label (a : axis) (p : plot) (s : string) : plot :=
  match a with X => mkPlot (p_lines p) (p_xlabel p ++ s)%string (p_ylabel p) | Y => mkPlot (p_lines p) (p_xlabel p) (p_ylabel p ++ s)%string end.

(* lines 280-296, the loop over the names; [last] holds the local variables multiplier and prefix *)
Fixpoint scale_loop (p : plot) (unit : string) (names : list string) (last : option (Z * string)) : plot * outcome (Z * string) :=
  match names with
  | [] => (p, match last with Some r => inl r | None => inr UnboundLocalError end)
  | name :: rest =>
      match axis_of name with
      | inr e => (p, inr e)
      | inl a =>
          match p_lines p with
          | [] => (p, inr (Py IndexError))
          | first :: _ =>
          match scale_of (get_data a first) with
          | inr e => (p, inr e)
          | inl (m, prefix) =>
              let p1 := set_lines p (map (fun l => set_data a l (map (fun v => v / powerRZ 10 m) (get_data a l))) (p_lines p)) in
              let p2 := append_label a p1 (" (" ++ prefix ++ unit ++ ")")%string in
              scale_loop p2 unit rest (Some (m, prefix))
          end
          end
      end
  end.

(* lines 246, 279-300: without a line nothing is done and None returned *)
Definition scale_units (p : plot) (unit : string) (names : list string) : plot * outcome (option (Z * string)) :=
  match p_lines p with
  | [] => (p, inl None)
  | _ => match scale_loop p unit names None with (q, inl r) => (q, inl (Some r)) | (q, inr e) => (q, inr e) end
  end.

(* matplotlib's ax.plot(x, y) and ax.plot(y): the latter counts the samples from 0 *)
Definition plot_line (p : plot) (x y : list R) : outcome plot :=
  if Nat.eqb (List.length x) (List.length y) then inl (set_lines p (p_lines p ++ [mkLine x y])) else inr (Py ValueError).
Definition plot_values (p : plot) (y : list R) : plot := set_lines p (p_lines p ++ [mkLine (tabulate (List.length y) INR) y]).

(* functions.py 50-53: np.fft.rfft keeps the first n // 2 + 1 entries; an empty array is a ValueError *)
Definition rfspectrum_ (state : list C) : outcome (list R) :=
  match fft (map RtoC (power_ state)) with Ok y => inl (map (fun z => sqrt (Cnorm2 z)) (firstn (List.length state / 2 + 1)%nat y)) | Err e => inr (Py e) end.

(* compare: the two figures, the first with the state at the end of the system and the target, the second with the radio spectrum.
   [target] is None for an evaluator without this attribute; [state] is what measure_propagator returns.
   A figure is returned with the labels of line 96 / 104 before and the result of scale_units after. *)
Definition empty_plot : plot := mkPlot [] "" "".
Definition set_labels (p : plot) (x y : string) : plot := mkPlot (p_lines p) x y.
Definition compare (g : grid) (state : list C) (target : option (list R)) : outcome (plot * plot) :=
  match plot_line empty_plot (grid_t g) (power_ state) with
  | inr e => inr e
  | inl p1 =>
      match target with
      | None => inr (Py AttributeError)
      | Some y =>
          match plot_line p1 (grid_t g) y with
          | inr e => inr e
          | inl p2 =>
              match scale_units (set_labels p2 "Time" "Power a.u.") "s" ["x"%string] with
              | (_, inr e) => inr e
              | (figure1, inl _) =>
                  match rfspectrum_ state with
                  | inr e => inr e
                  | inl s =>
                      match scale_units (set_labels (plot_values empty_plot s) "" "Power a.u.") "Hz" ["x"%string] with
                      | (_, inr e) => inr e
                      | (figure2, inl _) => inl (figure1, figure2)
                      end
                  end
              end
          end
      end
  end.
