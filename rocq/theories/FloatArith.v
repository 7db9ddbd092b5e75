(** Arithmetic on the floats of FloatModel as numpy does it: no exception, infinities and NaN
    propagate.  Simplifications: no rounding, no overflow, and one unsigned zero (dividing
    by zero gives the infinity with the sign of the dividend).  Definitions only. *)
From Coq Require Import QArith Bool List.
From Verif Require Import FloatModel.
Import ListNotations.

Inductive sign := Neg | Zero | Pos.
Definition fsign (a : fl) : option sign :=
  match a with
  | NaN => None
  | PInf => Some Pos
  | NInf => Some Neg
  | Fin q => Some (match (q ?= 0)%Q with Lt => Neg | Eq => Zero | Gt => Pos end)
  end.
Definition sign_mul (a b : sign) : sign :=
  match a, b with Zero, _ | _, Zero => Zero | Pos, Pos | Neg, Neg => Pos | _, _ => Neg end.
Definition inf_of (s : sign) : fl := match s with Neg => NInf | Zero => NaN | Pos => PInf end.

Definition fopp (a : fl) : fl := match a with Fin q => Fin (- q) | PInf => NInf | NInf => PInf | NaN => NaN end.
Definition fadd (a b : fl) : fl :=
  match a, b with
  | Fin x, Fin y => Fin (x + y)
  | NaN, _ | _, NaN => NaN
  | PInf, NInf | NInf, PInf => NaN
  | PInf, _ | _, PInf => PInf
  | NInf, _ | _, NInf => NInf
  end.
Definition fsub (a b : fl) : fl := fadd a (fopp b).
Definition fmul (a b : fl) : fl :=
  match a, b with
  | Fin x, Fin y => Fin (x * y)
  | _, _ => match fsign a, fsign b with Some s, Some t => inf_of (sign_mul s t) | _, _ => NaN end
  end.
Definition fdiv (a b : fl) : fl :=
  match a, b with
  | NaN, _ | _, NaN => NaN
  | Fin x, Fin y => if Qeq_bool y 0 then match fsign a with Some s => inf_of s | None => NaN end else Fin (x / y)
  | Fin _, _ => Fin 0
  | _, Fin y =>
      match fsign a, fsign b with
      | Some s, Some t => inf_of (match t with Zero => s | _ => sign_mul s t end)
      | _, _ => NaN
      end
  | _, _ => NaN
  end.
Fixpoint fpow (a : fl) (n : nat) : fl := match n with O => Fin 1 | S k => fmul a (fpow a k) end.

(* Python's min(a, b) and max(a, b): the first argument unless the second is strictly better *)
Definition py_min (a b : fl) : fl := if fltb b a then b else a.
Definition py_max (a b : fl) : fl := if fltb a b then b else a.
(* np.minimum and np.maximum: NaN wins *)
Definition np_min (a b : fl) : fl := match a, b with NaN, _ | _, NaN => NaN | _, _ => if fltb b a then b else a end.
Definition np_max (a b : fl) : fl := match a, b with NaN, _ | _, NaN => NaN | _, _ => if fltb a b then b else a end.

(* np.mean and np.var of a non-empty array *)
Definition fsum (l : list fl) : fl := fold_left fadd l (Fin 0).
Definition count (l : list fl) : fl := Fin (inject_Z (Z.of_nat (length l))).
Definition fmean (l : list fl) : fl := fdiv (fsum l) (count l).
Definition fvar (l : list fl) : fl := fmean (map (fun x => fpow (fsub x (fmean l)) 2) l).
