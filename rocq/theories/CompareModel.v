(** Model of the condensed comparison of parameter optimisers: scripts/compare_algorithms.py:88-110, for one
    method, with np.linspace, np.nanmean, np.nanmin, np.nanmax and scipy's linear interp1d as far as they are
    used there.  Definitions only.

    A log is the list of its records: the value of 'process runtime (s)' and that of 'mean', line 100.  Numbers
    are exact reals, a missing number (NaN) is None.  Not modelled: colours and the legend; the variance of line
    106, which is not drawn; logs with fewer than two records, on which interp1d differs between versions of
    scipy (log_value gives None for the empty one); logs whose times do not increase, which interp1d sorts. *)
From Coq Require Import List Bool Arith Reals.
From Verif Require Import Base.
Import ListNotations.
Local Open Scope R_scope.

Definition log := list (R * R).

Definition less (x y : R) : bool := if Rlt_dec x y then true else false.

(* np.max of the column of times, lines 93-94; None for the empty column (NaN) *)
Definition last_time (l : log) : option R :=
  match map fst l with
  | [] => None
  | x :: r => Some (fold_left Rmax r x)
  end.
(* lines 91-94; None stands for np.inf, and nothing is less than NaN *)
Definition lower_end (t_max : option R) (l : log) : option R :=
  match last_time l with
  | None => t_max
  | Some e => match t_max with
              | None => Some e
              | Some t => if less e t then Some e else Some t
              end
  end.
Definition end_time (logs : list log) : option R := fold_left lower_end logs None.

(* line 95, np.linspace(0, t_max, 1000) *)
Definition times (t_max : R) : list R := map (fun i => INR i * (t_max / 999)) (seq 0 1000).

(* scipy.interpolate.interp1d, lines 100-101: searchsorted, clip to 1 .. len-1, the line through the records on
   both sides; NaN outside the first and the last time because of bounds_error=False, fill_value=np.nan *)
Definition search (l : log) (t : R) : nat := List.length (filter (fun p => less (fst p) t) l).
Definition log_value (l : log) (t : R) : option R :=
  let i := Nat.min (Nat.max (search l t) 1) (List.length l - 1) in
  match nth_error l 0, nth_error l (List.length l - 1), nth_error l (i - 1), nth_error l i with
  | Some first, Some final, Some lo, Some hi =>
      if less t (fst first) then None
      else if less (fst final) t then None
      else Some ((snd hi - snd lo) / (fst hi - fst lo) * (t - fst lo) + snd lo)
  | _, _, _, _ => None
  end.

(* np.nanmean, np.nanmin and np.nanmax of one row, lines 103-105 *)
Definition numbers (row : list (option R)) : list R :=
  flat_map (fun o => match o with Some x => [x] | None => [] end) row.
Definition nan_mean (row : list (option R)) : option R :=
  match numbers row with
  | [] => None
  | vs => Some (fold_right Rplus 0 vs / INR (List.length vs))
  end.
Definition nan_min (row : list (option R)) : option R :=
  match numbers row with
  | [] => None
  | x :: r => Some (fold_left Rmin r x)
  end.
Definition nan_max (row : list (option R)) : option R :=
  match numbers row with
  | [] => None
  | x :: r => Some (fold_left Rmax r x)
  end.

(* one point of the drawn line, line 108, and of the filled band, line 109 *)
Record point := mkPoint { p_time : R; p_line : option R; p_low : option R; p_high : option R }.
Definition point_at (logs : list log) (t : R) : point :=
  let row := map (fun l => log_value l t) logs in
  mkPoint t (nan_mean row) (nan_min row) (nan_max row).

(* lines 90-110; logs[k] of line 99 raises IndexError if there are fewer logs than n_runs, and np.nanmin of rows
   without entries raises ValueError.  If there is a run there is an end, so that the last case is not reached
   with logs that have records. *)
Definition condensed (n_runs : nat) (logs : list log) : res (list point) :=
  if Nat.ltb (List.length logs) n_runs then Err IndexError
  else if Nat.eqb n_runs 0 then Err ValueError
  else match end_time logs with
       | Some t_max => Ok (map (point_at (firstn n_runs logs)) (times t_max))
       | None => Err ValueError
       end.
