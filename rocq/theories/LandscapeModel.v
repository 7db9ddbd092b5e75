(** Model of the functions on which optimisers are tried: testing/test_functions.py.
    Definitions only.

    Numbers are exact reals, decimals are the fractions they spell, np.pi is PI; numpy's
    functions are applied entry by entry, so that a function of the two coordinate arrays is
    the array of its values. *)
From Coq Require Import List Reals String.
From Verif Require Import Base.
Import ListNotations.
Local Open Scope R_scope.

Definition landscape := R * R -> R.

(* testing/test_functions.py:37-42 *)
Definition theta : R := 0 * PI.
Definition rotate_coordinates (p : R * R) : R * R :=
  (fst p * cos theta - snd p * sin theta, fst p * sin theta + snd p * cos theta).

(* line 47 *)
Definition booth : landscape := fun p => let q := rotate_coordinates p in (fst q + 2 * snd q - 7) ^ 2 + (2 * fst q + snd q - 5) ^ 2.
(* line 54 *)
Definition matyas : landscape := fun '(x, y) => 26 / 100 * (x ^ 2 + y ^ 2) - 48 / 100 * x * y.
(* lines 68-69 *)
Definition ackley : landscape := fun '(x, y) =>
  - 20 * exp (- (25 / 100) * sqrt (5 / 10 * (x ^ 2 + y ^ 2))) - exp (5 / 10 * (cos (2 * PI * x) + cos (2 * PI * y))) + exp 1 + 20.
(* line 82 *)
Definition easom : landscape := fun '(x, y) => - cos x * cos y * exp (- ((x - PI) ^ 2 + (y - PI) ^ 2)) + 1.
(* lines 92-93 *)
Definition rastrigin : landscape := fun '(x, y) => 10 * 2 + x ^ 2 - 10 * cos (2 * PI * x) + y ^ 2 - 10 * cos (2 * PI * y).
(* line 102 *)
Definition sphere : landscape := fun '(x, y) => x ^ 2 + y ^ 2.
(* line 111 *)
Definition rosenbrock : landscape := fun '(x, y) => 100 * (y - x ^ 2) ^ 2 + (1 - x) ^ 2.
(* lines 121-122 *)
Definition beale : landscape := fun '(x, y) =>
  (15 / 10 - x + x * y) ^ 2 + (225 / 100 - x + x * y ^ 2) ^ 2 + (2625 / 1000 - x + x * y ^ 3) ^ 2.
(* lines 131-133 *)
Definition goldstein_price : landscape := fun '(x, y) =>
  (1 + (x + y + 1) ^ 2 * (19 - 14 * x + 3 * x ^ 2 - 14 * y + 6 * x * y + 3 * y ^ 2)) *
  (30 + (2 * x - 3 * y) ^ 2 * (18 - 32 * x + 12 * x ^ 2 + 48 * y - 36 * x * y + 27 * y ^ 2)).
(* lines 142-145 *)
Definition levi13 : landscape := fun '(x, y) =>
  sin (3 * PI * x) ^ 2 + (x - 1) ^ 2 * (1 + sin (3 * PI * y) ^ 2) + (y - 1) ^ 2 * (1 + sin (2 * PI * y) ^ 2).
(* lines 154-156 *)
Definition eggholder : landscape := fun '(x, y) =>
  - (y + 47) * sin (sqrt (Rabs (x / 2 + (y + 47)))) - x * sin (sqrt (Rabs (x - (y + 47)))) + 9596407 / 10000.
(* line 164 *)
Definition gaussian : landscape := fun '(x, y) => exp (- (5 / 10) * (1 * x ^ 2 + 50 * y ^ 2)).

(* What the functions of the module return: the landscape, the two ranges and the marked point;
   None where the tuple ends before the point (lines 160 and 167) *)
Definition setup := (landscape * list R * list R * option (R * R))%type.
Definition setup_named (name : string) : option setup :=
  (if String.eqb name "booth_function" then Some (booth, [-10; 10], [-10; 10], Some (1, 3))                    (* lines 44-50 *)
  else if String.eqb name "matyas_function" then Some (matyas, [-10; 10], [-10; 10], Some (0, 0))              (* lines 52-58 *)
  else if String.eqb name "ackley_function" then Some (ackley, [-5; 5], [-5; 5], Some (0, 0))                  (* lines 62-73 *)
  else if String.eqb name "easom_function" then Some (easom, [-10; 10], [-6; 6], Some (PI, PI))                (* lines 76-86 *)
  else if String.eqb name "rastrigin_function" then Some (rastrigin, [-5; 5], [-5; 5], Some (0, 0))            (* lines 90-97 *)
  else if String.eqb name "sphere_function" then Some (sphere, [-5; 5], [-5; 5], Some (1 / 10, 1 / 10))        (* lines 100-106 *)
  else if String.eqb name "rosenbrock_function" then Some (rosenbrock, [-5; 5], [-5; 5], Some (1, 1))          (* lines 109-115 *)
  else if String.eqb name "beale_function" then Some (beale, [-45 / 10; 45 / 10], [-45 / 10; 4; 5], Some (3, 5 / 10))  (* lines 119-126; the comma in the range is the source's *)
  else if String.eqb name "goldstein_price_function" then Some (goldstein_price, [-2; 2], [-2; 2], Some (0, -1))       (* lines 129-137 *)
  else if String.eqb name "levi13_function" then Some (levi13, [-10; 10], [-10; 10], Some (1, 1))              (* lines 140-149 *)
  else if String.eqb name "eggholder_function" then Some (eggholder, [-512; 512], [-512; 512], None)           (* lines 152-160 *)
  else if String.eqb name "gaussian_function" then Some (gaussian, [-5; 5], [-5; 5], None)                     (* lines 162-167 *)
  else None)%string.

(* np.linspace *)
Definition linspace (a b : R) (n : nat) : list R := map (fun i => a + INR i * ((b - a) / INR (n - 1))) (seq 0 n).
(* np.meshgrid: one row per y *)
Definition mesh_x (xs ys : list R) : list (list R) := map (fun _ => xs) ys.
Definition mesh_y (xs ys : list R) : list (list R) := map (fun y => map (fun _ => y) xs) ys.
(* a function of two numbers on two arrays of the same shape *)
Definition rowwise (f : landscape) (xs ys : list R) : list R := map f (combine xs ys).
Definition on_arrays (f : landscape) (X Y : list (list R)) : list (list R) := map (fun '(xs, ys) => rowwise f xs ys) (combine X Y).

(* the fields of TestFunction, lines 22-33 *)
Record test_function := mkTest {
  t_name : string; t_function : landscape; t_x_range : list R; t_y_range : list R;
  t_X : list (list R); t_Y : list (list R); t_Z : list (list R); t_xP : R * R; t_zP : R
}.
(* line 10 *)
Definition samples : nat := 1000.
(* TestFunction.__init__, lines 12-35.  eval of a name that is not in the module raises NameError; other
   names of the module (np, TestFunction, rotate_coordinates, ...) and texts that are not names are left out *)
Definition make_test (name : string) : res test_function :=
  do s <- of_option NameError (setup_named name);
  match s with
  | (_, _, _, None) => Err ValueError   (* line 13: not enough values to unpack *)
  | (f, xr, yr, Some p) =>
    do x0 <- of_option IndexError (nth_error xr 0);
    do x1 <- of_option IndexError (nth_error xr 1);
    do y0 <- of_option IndexError (nth_error yr 0);
    do y1 <- of_option IndexError (nth_error yr 1);
    let x := linspace x0 x1 samples in
    let y := linspace y0 y1 samples in
    let X := mesh_x x y in let Y := mesh_y x y in
    Ok (mkTest name f xr yr X Y (on_arrays f X Y) p (f p))
  end.
