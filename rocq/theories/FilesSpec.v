(** What is said about files and about the printed text.  Definitions only. *)
From Coq Require Import List Bool String Ascii Arith.
From Verif Require Import Base FilesModel.
Import ListNotations.

(* everything is in a directory *)
Definition tree {B} (f : fsys B) : Prop := f [] = Some Dir /\ forall l n, f (l ++ [n]) <> None -> f l = Some Dir.

(* no double dots *)
Definition plain (parts : list string) : Prop := ~ In ".."%string parts.
Definition plain_path (p : path) : Prop := plain (p_parts p).

(* q is an ancestor of l, or l itself *)
Definition above (q l : place) : Prop := exists r, l = q ++ r.
Definition strictly_above (q l : place) : Prop := exists r, r <> [] /\ l = q ++ r.

Definition holds_file {B} (f : fsys B) (l : place) : Prop := exists b, f l = Some (File b).

(* directories stay, files stay files, and nothing disappears *)
Definition grows {B} (f f' : fsys B) : Prop := forall l, (f l = Some Dir -> f' l = Some Dir) /\ (holds_file f l -> holds_file f' l).

(* the place of a file of a path without double dots *)
Definition target (io : inout) (name : arg) : place := p_parts (join_to_save_path io name).

(* what a program does with an InputOutput besides loading *)
Inductive file_op {obj : Type} :=
| SaveObject (io : inout) (o : obj) (name : arg)
| SaveJson (io : inout) (o : obj) (name : arg)
| SaveDir (io : inout) (sub id : option string)
| Metadata (io : inout) (sub : option arg) (meta : option obj).
Arguments file_op : clear implicits.

Definition do_op {obj bytes} (pickle json : writer obj bytes) (f : fsys bytes) (c : file_op obj) : fsys bytes :=
  match c with
  | SaveObject io o name => fst (save_object pickle f io o name)
  | SaveJson io o name => fst (save_json json f io o name)
  | SaveDir io sub id => fst (snd (init_save_dir f io sub id))
  | Metadata io sub meta => fst (save_machine_metadata json f io sub meta)
  end.

(* the file an operation writes, if its path has no double dots *)
Definition op_targets {obj} (c : file_op obj) (l : place) : Prop :=
  match c with
  | SaveObject io _ name | SaveJson io _ name => target io name = l
  | SaveDir _ _ _ => False
  | Metadata io sub _ =>
      match sub with
      | None => p_parts (io_path io) ++ ["metadata.json"%string] = l
      | Some (APath p) => if p_abs p then p_parts p ++ ["metadata.json"%string] = l else target io (APath p) ++ ["metadata.json"%string] = l
      | Some (Text s) => target io (Text s) ++ ["metadata.json"%string] = l
      end
  end.
Definition op_plain {obj} (c : file_op obj) : Prop :=
  match c with
  | SaveObject io _ name | SaveJson io _ name => plain (target io name)
  | SaveDir _ _ _ => True
  | Metadata io sub _ =>
      plain_path (io_path io) /\ match sub with None => True | Some a => plain (target io a) end
  end.

(* the characters of drawn identifiers *)
Definition all_chars (P : ascii -> Prop) (s : string) : Prop := forall i c, String.get i s = Some c -> P c.
(* the character does not occur *)
Definition without (c : ascii) : string -> Prop := all_chars (fun x => x <> c).
Definition decimal_char (c : ascii) : Prop := 48 <= nat_of_ascii c <= 57.
Definition hex_char (c : ascii) : Prop := decimal_char c \/ 97 <= nat_of_ascii c <= 102 \/ 65 <= nat_of_ascii c <= 70.
Definition drawn_id (id : string) : Prop :=
  exists date digits, id = unique_id date digits /\ String.length date = 8 /\ all_chars decimal_char date /\ String.length digits = 4 /\ all_chars hex_char digits.

(* the streams a print passes *)
Inductive passes (s : screen) : stream -> nat -> Prop :=
| PassHere k : k < List.length (s_tees s) -> passes s (TeeOf k) k
| PassBehind k t j : nth_error (s_tees s) k = Some t -> passes s (t_behind t) j -> passes s (TeeOf k) j.
Definition in_use (s : screen) (k : nat) : Prop := passes s (s_stdout s) k.

Definition older (k : nat) (w : stream) : Prop := match w with Terminal => True | TeeOf j => j < k end.
(* every Tee was made after the stream behind it *)
Definition sound (s : screen) : Prop :=
  older (List.length (s_tees s)) (s_stdout s) /\ forall k t, nth_error (s_tees s) k = Some t -> older k (t_behind t).
Definition log_of (s : screen) (k : nat) : option (list string) := option_map t_log (nth_error (s_tees s) k).
Definition is_open (s : screen) (k : nat) : Prop := exists t, nth_error (s_tees s) k = Some t /\ t_open t = true.
