(** Python floats as the optimisers compare them: exact rationals, the two
    infinities and NaN.  Rounding is not modelled. *)
From Coq Require Import QArith Bool.

Inductive fl := Fin (q : Q) | PInf | NInf | NaN.

(* a < b as Python evaluates it: every comparison with NaN is False *)
Definition fltb (a b : fl) : bool :=
  match a, b with
  | NaN, _ | _, NaN => false
  | Fin x, Fin y => negb (Qle_bool y x)
  | NInf, NInf => false | NInf, _ => true
  | PInf, _ => false
  | Fin _, PInf => true | Fin _, NInf => false
  end.
