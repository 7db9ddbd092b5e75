(** Model of algorithms/parameter_optimization.py:260-315, Adam with projection on the bounds.
    Definitions only.  Arithmetic is that of FloatArith (no rounding).  Not modelled: printing
    and the callback.  Arrays of different lengths are a ValueError (numpy would stretch an
    array of length one). *)
From Coq Require Import List Arith Bool QArith.
From Verif Require Import Base FloatModel FloatArith.
Import ListNotations.
Local Open Scope nat_scope.

Definition arr := list fl.

(* an elementwise operation on two arrays *)
Fixpoint zip_with (f : fl -> fl -> fl) (a b : arr) : res arr :=
  match a, b with
  | [], [] => Ok []
  | x :: r, y :: q => do l <- zip_with f r q; Ok (f x y :: l)
  | _, _ => Err ValueError
  end.

(* np.clip(x, a_min, a_max) *)
Definition clip (x lo hi : arr) : res arr := do y <- zip_with np_max x lo; zip_with np_min y hi.

Section Adam.
(* np.sqrt of one number, np.linalg.norm, and the gradient handed in *)
Variable root : fl -> fl.
Variable norm : arr -> fl.
Variable grad : arr -> res arr.

Record settings := mkAS {
  a_period : option nat;      (* convergence_check_period *)
  a_thresh : fl;              (* convergence_thresh_abs *)
  a_iters : nat;              (* num_iters *)
  a_step : fl; a_b1 : fl; a_b2 : fl; a_eps : fl }.

Variable st : settings.
(* the bounds after lines 283-286 *)
Variable lo hi : arr.
Definition one_less (a : fl) : fl := fsub (Fin 1) a.

(* lines 300-302: the two moments and the step subtracted from x *)
Definition moment1 (g m : arr) : res arr := zip_with (fun g m => fadd (fmul (one_less (a_b1 st)) g) (fmul (a_b1 st) m)) g m.
Definition moment2 (g v : arr) : res arr := zip_with (fun g v => fadd (fmul (one_less (a_b2 st)) (fpow g 2)) (fmul (a_b2 st) v)) g v.
Definition the_step (i : nat) (m v : arr) : res arr :=
  zip_with (fun m v =>
    let mhat := fdiv m (one_less (fpow (a_b1 st) (S i))) in
    let vhat := fdiv v (one_less (fpow (a_b2 st) (S i))) in
    fdiv (fmul (a_step st) mhat) (fadd (root vhat) (a_eps st))) m v.

(* lines 288-289 *)
Definition period : nat := match a_period st with Some p => p | None => S (a_iters st) end.

(* lines 296-315: iterations i, i+1, ... *)
Fixpoint adam_loop (todo i : nat) (x m v : arr) : res (arr * nat * arr * arr) :=
  match todo with
  | O => Ok (x, a_iters st, m, v)
  | S t =>
      do g <- grad x;
      do m' <- moment1 g m;
      do v' <- moment2 g v;
      do d <- the_step i m' v';
      do x' <- zip_with fsub x d;
      if period =? 0 then Err ZeroDivisionError
      else
        do y <- clip x' lo hi;
        if (Nat.modulo i period =? period - 1) && fltb (norm d) (a_thresh st) then Ok (y, i, m', v')
        else adam_loop t (S i) y m' v'
  end.
End Adam.

(* line 283: (upper - lower) * 10 ** -8 *)
Definition margin (lower upper : arr) : res arr := zip_with (fun u l => fmul (fsub u l) (Fin (1 # 100000000))) upper lower.

Definition zeros (n : nat) : arr := repeat (Fin 0) n.

(* lines 260-315 *)
Definition adam_bounded (root : fl -> fl) (norm : arr -> fl) (grad : arr -> res arr) (st : settings)
  (lower upper x : arr) (m v : option arr) : res (arr * nat * arr * arr) :=
  do delta <- margin lower upper;
  do lo <- zip_with fadd lower delta;
  do hi <- zip_with fsub upper delta;
  let m0 := match m with Some a => a | None => zeros (length x) end in
  let v0 := match v with Some a => a | None => zeros (length x) end in
  adam_loop root norm grad st lo hi (a_iters st) 0 x m0 v0.
