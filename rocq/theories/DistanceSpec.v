(** Specification vocabulary for the speciation distances. *)
From Coq Require Import List.
From Verif Require Import GraphModel GraphSpec.
Import ListNotations.

(* how many components of class c the graph has *)
Definition copies (g : graph) (c : cls) : nat := count_occ cls_eq_dec (map ccls (components g)) c.
