(** Which names a text spells, and what can have happened to the object that saves and loads.  Definitions only. *)
From Coq Require Import List Bool String Ascii.
From Verif Require Import Base FilesModel FilesSpec.
Import ListNotations.

(* pieces without slashes, joined by slashes; empty pieces and single dots do not count *)
Definition spells (s : string) (names : list string) : Prop :=
  exists pieces, pieces <> [] /\ s = String.concat "/" pieces /\ (forall x, In x pieces -> without "/" x) /\
  names = filter (fun x => negb (String.eqb x "") && negb (String.eqb x ".")) pieces.
(* a text that begins with a slash *)
Definition rooted (s : string) : Prop := exists r, s = String "/" r.

(* any number of calls that choose directories, successful or not *)
Inductive used {bytes : Type} (io0 : inout) : inout -> Prop :=
| used_new : used io0 io0
| used_save : forall (f : fsys bytes) io sub id, used io0 io -> used io0 (fst (init_save_dir f io sub id))
| used_load : forall (f : fsys bytes) io sub, used io0 io -> used io0 (fst (init_load_dir f io sub)).
