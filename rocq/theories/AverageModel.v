(** Model of the average of the logs of repeated runs: scripts/elitism_data_analysis.py:24-69.
    Definitions only.

    A log is a pandas table: rows with whole numbers as labels, named columns of numbers, each cell possibly
    missing (NaN).  Numbers are exact reals.  What is on the disk is given by two functions: the names in a
    directory of a category, in the order in which the system lists them, and the log in one of these.
    Not modelled: colours, axis labels and the legend. *)
From Coq Require Import List Bool Arith Reals String Ascii DecimalString.
From Verif Require Import Base FilesModel.
Import ListNotations.
Local Open Scope string_scope.
Local Open Scope list_scope.
Local Open Scope nat_scope.

Record frame := mkFrame { f_rows : list nat; f_cell : string -> nat -> option R }.

(* a cell outside the rows is missing *)
Definition cell (a : frame) (col : string) (g : nat) : option R :=
  if existsb (Nat.eqb g) (f_rows a) then f_cell a col g else None.

(* the outer join of the labels of two tables: the common labels if they are the same, else all of them in order *)
Fixpoint insert_label (g : nat) (l : list nat) : list nat :=
  match l with
  | [] => [g]
  | h :: r => match Nat.compare g h with Lt => g :: l | Eq => l | Gt => h :: insert_label g r end
  end.
Definition join_labels (a b : list nat) : list nat :=
  if list_eq_dec Nat.eq_dec a b then a else fold_right insert_label [] (a ++ b).

(* line 54, DataFrame.add with fill_value=0: missing where both are missing *)
Definition filled_sum (a b : option R) : option R :=
  match a, b with
  | None, None => None
  | _, _ => Some (match a with Some x => x | None => 0 end + match b with Some y => y | None => 0 end)%R
  end.
Definition add_frames (a b : frame) : frame :=
  mkFrame (join_labels (f_rows a) (f_rows b)) (fun col g => filled_sum (cell a col g) (cell b col g)).
(* line 55 *)
Definition divide_frame (a : frame) (n : nat) : frame :=
  mkFrame (f_rows a) (fun col g => option_map (fun x => x / INR n)%R (f_cell a col g)).

(* an elitism ratio: a whole number, or a float given by the text that str makes of it and its whole part *)
Inductive ratio := Whole (n : nat) | Float (text : string) (whole : nat).
(* str(x).split('.', 1)[1] *)
Fixpoint after_dot (s : string) : option string :=
  match s with EmptyString => None | String c r => if Ascii.eqb c "." then Some r else after_dot r end.
(* lines 40-43 *)
Definition subdirectory (size : nat) (r : ratio) : string + ioexn :=
  match r with
  | Whole n => inl ("popSize" ++ num size ++ "_elitismRatio" ++ num n)%string
  | Float t w => match after_dot t with
                 | Some d => inl ("popSize" ++ num size ++ "_elitismRatio" ++ num w ++ "_" ++ d)%string
                 | None => inr (Py IndexError)
                 end
  end.

Section Disk.
  Variable dirs : string -> list string + ioexn.           (* os.listdir, line 45 *)
  Variable logs : string -> string -> frame + ioexn.       (* open and pickle.load, lines 48-49 *)

  (* lines 47-54; [acc] is sum_df *)
  Fixpoint sum_logs (sub : string) (names : list string) (acc : option frame) : option frame + ioexn :=
    match names with
    | [] => inl acc
    | d :: r => match logs sub d with
                | inr e => inr e
                | inl l => sum_logs sub r (Some (match acc with None => l | Some a => add_frames a l end))
                end
    end.

  (* lines 33-55: the averaged table of a category and the number of its runs; None / 0 raises TypeError *)
  Definition average (size : nat) (r : ratio) : frame * nat + ioexn :=
    match subdirectory size r with
    | inr e => inr e
    | inl sub =>
        match dirs sub with
        | inr e => inr e
        | inl names =>
            match sum_logs sub names None with
            | inr e => inr e
            | inl None => inr (Py TypeError)
            | inl (Some a) => inl (divide_frame a (List.length names), List.length names)
            end
        end
    end.

  (* a drawn line: category, column and points; a point with a missing coordinate is not drawn *)
  Record line := mkLine { l_size : nat; l_ratio : ratio; l_column : string; l_points : list (option R * option R) }.
  Definition points (a : frame) (x y : string) : list (option R * option R) := map (fun g => (f_cell a x g, f_cell a y g)) (f_rows a).
  (* lines 56-61 *)
  Definition lines_of (size : nat) (r : ratio) (a : frame) (x : string) (ys : list string) : list line :=
    map (fun y => mkLine size r y (points a x y)) (filter (fun y => existsb (String.eqb y) ys) ["mean"; "minimum"; "maximum"]).

  (* lines 32-61; the last number of runs is that of the variable sub_subdirectory *)
  Fixpoint all_lines (x : string) (ys : list string) (cats : list (nat * ratio)) (last : option nat) : list line * option nat + ioexn :=
    match cats with
    | [] => inl ([], last)
    | (size, r) :: rest =>
        match average size r with
        | inr e => inr e
        | inl (a, n) => match all_lines x ys rest (Some n) with
                        | inr e => inr e
                        | inl (ls, m) => inl (lines_of size r a x ys ++ ls, m)
                        end
        end
    end.

  (* lines 24-69: the lines and the number of runs in the title.  Without categories the title names a variable that was
     not assigned (UnboundLocalError, a NameError) *)
  Definition display_log_data (x : string) (ys : list string) (cats : list (nat * ratio)) : list line * nat + ioexn :=
    if existsb (String.eqb x) ["generation"; "time"] then
      match all_lines x ys cats None with
      | inr e => inr e
      | inl (_, None) => inr (Py NameError)
      | inl (ls, Some n) => inl (ls, n)
      end
    else inr (Py ValueError).
End Disk.
