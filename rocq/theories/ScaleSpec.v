(** What the plots should show, without the dictionary or the logarithm of the code. *)
From Coq Require Import Reals List String ZArith.
Import ListNotations.
Local Open Scope string_scope.
Local Open Scope list_scope.
Local Open Scope R_scope.

(* the prefixes of the units from the smallest to the largest: one step is a factor of a thousand, the smallest is 1e-21 *)
Definition si_prefixes : list string := ["z"; "a"; "f"; "p"; "n"; "$\mu$"; "m"; ""; "k"; "M"; "G"; "T"; "P"; "E"].
Definition si_prefix (m : Z) (s : string) : Prop := exists k, nth_error si_prefixes k = Some s /\ m = (3 * Z.of_nat k - 21)%Z.

(* the greatest size among the values *)
Definition greatest (d : list R) (t : R) : Prop := (forall x, In x d -> Rabs x <= t) /\ exists x, In x d /\ Rabs x = t.

(* [shown] are the values [d] in units of ten to the power of m *)
Definition in_units (m : Z) (d shown : list R) : Prop := Forall2 (fun x y => y * powerRZ 10 m = x) d shown.
