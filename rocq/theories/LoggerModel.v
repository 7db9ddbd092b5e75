(** Model of ParameterOptimizationLogger, algorithms/functions.py:35-183, with the default
    metrics.  Definitions only.  The run time column is left out (its metric still raises
    TypeError while no start time is set); plotting is not modelled. *)
From Coq Require Import List Arith Bool ZArith QArith.
From Verif Require Import Base FloatModel FloatArith.
Import ListNotations.
Local Open Scope Z_scope.

(* line 50: valid_algorithms; [AlgOther] is any other string *)
Inductive alg := LBFGS | PSO | CMA | ADAM | GA | AlgOther.

(* one row of the data frame, lines 60-69 *)
Record row := mkRow {
  r_alg : option alg;       (* 'algorithm' *)
  r_gen : Z;                (* 'gen_or_iter' *)
  r_pop : Z;                (* 'n_population' *)
  r_min : fl;               (* 'minimum' *)
  r_mean : fl;              (* 'mean' *)
  r_max : fl;               (* 'maximum' *)
  r_var : fl }.             (* 'variance' *)

Record logger := mkLog {
  l_started : bool;                 (* start_time is not None *)
  l_alg : option alg;               (* current_algorithm *)
  l_pop : Z;                        (* current_population *)
  l_num : Z;                        (* log_number *)
  l_off : Z;                        (* row_offset *)
  l_scores : list fl;               (* scores_in_this_generation *)
  l_rows : list (Z * row) }.        (* dataframe, by row label *)

(* lines 48-80 *)
Definition new_logger : logger := mkLog false None (-1) 0 0 [] [].

(* lines 85-86 *)
Definition start_logger_time (lg : logger) : logger :=
  mkLog true (l_alg lg) (l_pop lg) (l_num lg) (l_off lg) (l_scores lg) (l_rows lg).

Definition py_div (a b : Z) : res Z := if b =? 0 then Err ZeroDivisionError else Ok (Z.div a b).
Definition py_mod (a b : Z) : res Z := if b =? 0 then Err ZeroDivisionError else Ok (Z.modulo a b).

(* lines 88-101; np.zeros of a negative size is a ValueError *)
Definition set_optimization_algorithm (a : alg) (pop : Z) (lg : logger) : res logger :=
  do off <- py_div (l_num lg) (l_pop lg);
  match a with
  | AlgOther => Err ValueError
  | _ => if pop <? 0 then Err ValueError
         else Ok (mkLog (l_started lg) (Some a) pop 0 off (repeat (Fin 0) (Z.to_nat pop)) (l_rows lg))
  end.

Fixpoint row_at (k : Z) (l : list (Z * row)) : option row :=
  match l with [] => None | (i, r) :: rest => if k =? i then Some r else row_at k rest end.
(* dataframe.loc[k] = r: replaced in place, or appended *)
Fixpoint put_row (k : Z) (r : row) (l : list (Z * row)) : list (Z * row) :=
  match l with [] => [(k, r)] | (i, x) :: rest => if k =? i then (k, r) :: rest else (i, x) :: put_row k r rest end.

(* lines 166-183: 'minimum' and 'maximum'; a missing row is a KeyError *)
Definition update_extreme (best : fl -> fl -> fl) (column : row -> fl) (lg : logger) (k : Z) (score : fl) : res fl :=
  do i <- py_mod (l_num lg) (l_pop lg);
  if i =? 0 then Ok score
  else do r <- of_option KeyError (row_at k (l_rows lg)); Ok (best score (column r)).

(* array[i] = x for a Python index: negative ones count from the end *)
Definition set_entry (i : Z) (x : fl) (l : list fl) : res (list fl) :=
  let j := if i <? 0 then i + Z.of_nat (length l) else i in
  if j <? 0 then Err IndexError else of_option IndexError (set_nth (Z.to_nat j) x l).

(* lines 103-115 *)
Definition log_score (score : fl) (lg : logger) : res logger :=
  do i <- py_mod (l_num lg) (l_pop lg);
  do scores <- set_entry i score (l_scores lg);
  if negb (l_started lg) then Err TypeError                         (* process_time() - None *)
  else
    do gen <- py_div (l_num lg) (l_pop lg);
    let k := l_off lg + gen in                                      (* lines 154-156 *)
    do lo <- update_extreme py_min r_min lg k score;
    do hi <- update_extreme py_max r_max lg k score;
    let rows := put_row k (mkRow (l_alg lg) gen (l_pop lg) lo (fmean scores) hi (fvar scores)) (l_rows lg) in
    do j <- py_mod (l_num lg + 1) (l_pop lg);
    Ok (mkLog (l_started lg) (l_alg lg) (l_pop lg) (l_num lg + 1) (l_off lg)
              (if j =? 0 then repeat (Fin 0) (Z.to_nat (l_pop lg)) else scores) rows).

Fixpoint log_all (scores : list fl) (lg : logger) : res logger :=
  match scores with [] => Ok lg | x :: r => do lg' <- log_score x lg; log_all r lg' end.
