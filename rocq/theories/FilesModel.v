(** Model of lib/functions.py:45-243 (log of the printed text, saving and loading of files) and of
    algorithms/topology_optimization.py:85-92,147-157 (the files of the populations).  Definitions only.

    The file system is a map from places (lists of names, from the root) to directories and files.  Not modelled: links, permissions,
    full disks, names the system refuses, other processes, and the text printed when [verbose] is set. *)
From Coq Require Import List Bool String Ascii Arith DecimalString.
From Verif Require Import Base.
Import ListNotations.
Local Open Scope string_scope.
Local Open Scope list_scope.

(* the errors of the operating system, and the others *)
Inductive oserr := FileNotFoundError | FileExistsError | NotADirectoryError | IsADirectoryError.
Inductive ioexn := OS (e : oserr) | Py (e : exn).

(* pathlib: a path is a flag (starts with a slash) and its names; a double slash in front is taken for a single one *)
Record path := { p_abs : bool; p_parts : list string }.

(* the names between the slashes of a text, empty ones included *)
Fixpoint split_slash (s : string) (cur : string) : list string :=
  match s with
  | EmptyString => [cur]
  | String c r => if Ascii.eqb c "/" then cur :: split_slash r EmptyString else split_slash r (cur ++ String c EmptyString)%string
  end.

(* pathlib drops empty names and single dots, and keeps double dots *)
Definition kept_name (n : string) : bool := negb (String.eqb n "" || String.eqb n ".").

Definition is_abs (s : string) : bool := match s with String c _ => Ascii.eqb c "/" | EmptyString => false end.

Definition parse_path (s : string) : path := {| p_abs := is_abs s; p_parts := filter kept_name (split_slash s EmptyString) |}.

(* Path.joinpath: an absolute argument replaces the path *)
Definition join_path (p q : path) : path := if p_abs q then q else {| p_abs := p_abs p; p_parts := p_parts p ++ p_parts q |}.

(* Path.parent: the path without its last name *)
Definition parent_path (p : path) : path := {| p_abs := p_abs p; p_parts := removelast (p_parts p) |}.

(* an argument which is a text or a path *)
Inductive arg := Text (s : string) | APath (p : path).
Definition to_path (a : arg) : path := match a with Text s => parse_path s | APath p => p end.
(* os.path.isabs *)
Definition arg_abs (a : arg) : bool := match a with Text s => is_abs s | APath p => p_abs p end.

Section Files.
Context {obj bytes : Type}.

Inductive entry := Dir | File (b : bytes).
Definition place := list string.
Definition fsys := place -> option entry.

Definition place_eqb (a b : place) : bool := if list_eq_dec string_dec a b then true else false.
Definition set_entry (f : fsys) (l : place) (e : entry) : fsys := fun k => if place_eqb k l then Some e else f k.

(* what a call leaves: the file system and the value or the exception *)
Definition outcome (A : Type) := (fsys * (A + ioexn))%type.

(* the system follows the names of an absolute path: everything passed through has to be a directory *)
Fixpoint walk (f : fsys) (cur : place) (parts : list string) : place + ioexn :=
  match parts with
  | [] => inl cur
  | n :: r => match f cur with
              | None => inr (OS FileNotFoundError)
              | Some (File _) => inr (OS NotADirectoryError)
              | Some Dir => walk f (if String.eqb n ".." then removelast cur else cur ++ [n]) r
              end
  end.

(* os.mkdir *)
Definition mkdir1 (f : fsys) (parts : list string) : fsys + ioexn :=
  match walk f [] parts with
  | inr e => inr e
  | inl l => match f l with Some _ => inr (OS FileExistsError) | None => inl (set_entry f l Dir) end
  end.

(* Path.is_dir *)
Definition is_dir (f : fsys) (parts : list string) : bool :=
  match walk f [] parts with inl l => match f l with Some Dir => true | _ => false end | inr _ => false end.

(* Path.mkdir(parents=True, exist_ok=True); the names come in reverse order *)
Fixpoint mkdirs_rev (f : fsys) (rp : list string) : outcome unit :=
  match mkdir1 f (rev rp) with
  | inl f' => (f', inl tt)
  | inr (OS FileNotFoundError) =>
      match rp with
      | [] => (f, inr (OS FileNotFoundError))
      | _ :: rp' =>
          match mkdirs_rev f rp' with
          | (f1, inr e) => (f1, inr e)
          | (f1, inl _) =>
              match mkdir1 f1 (rev rp) with
              | inl f2 => (f2, inl tt)
              | inr (OS FileNotFoundError) => (f1, inr (OS FileNotFoundError))
              | inr e => if is_dir f1 (rev rp) then (f1, inl tt) else (f1, inr e)
              end
          end
      end
  | inr e => if is_dir f (rev rp) then (f, inl tt) else (f, inr e)
  end.
Definition mkdirs (f : fsys) (p : path) : outcome unit := mkdirs_rev f (rev (p_parts p)).

(* open for writing: the place of the file, which is emptied or made *)
Definition open_write (f : fsys) (p : path) : place + ioexn :=
  match walk f [] (p_parts p) with
  | inr e => inr e
  | inl l => match f l with Some Dir => inr (OS IsADirectoryError) | _ => inl l end
  end.

(* open for reading: the contents *)
Definition open_read (f : fsys) (p : path) : bytes + ioexn :=
  match walk f [] (p_parts p) with
  | inr e => inr e
  | inl l => match f l with None => inr (OS FileNotFoundError) | Some Dir => inr (OS IsADirectoryError) | Some (File b) => inl b end
  end.

(* dill.dump, json.dump: what was written, and the exception if one was raised on the way; dill.load, json.load *)
Definition writer := obj -> bytes * option ioexn.
Definition reader := bytes -> obj + ioexn.

(* with open(filepath, 'wb') as file: dump(object, file) *)
Definition write_file (dump : writer) (f : fsys) (p : path) (o : obj) : outcome unit :=
  match open_write f p with
  | inr e => (f, inr e)
  | inl l => let '(b, e) := dump o in (set_entry f l (File b), match e with Some e => inr e | None => inl tt end)
  end.

(* with open(filepath, 'rb') as file: load(file) *)
Definition read_file (load : reader) (f : fsys) (p : path) : obj + ioexn :=
  match open_read f p with inr e => inr e | inl b => load b end.

(* the object: lib/functions.py:121-123 *)
Record inout := { io_path : path; io_save : path; io_load : path }.

(* lib/functions.py:103-124 InputOutput.__init__; cwd is the working directory *)
Definition init_io (cwd : path) (directory : option string) : inout :=
  let base := join_path (parent_path (parent_path cwd)) (parse_path "asope_data") in
  let p := match directory with
           | None => base
           | Some d => if is_abs d then parse_path d else join_path base (parse_path d)
           end in
  {| io_path := p; io_save := p; io_load := p |}.

(* lib/functions.py:219-223 *)
Definition join_to_save_path (io : inout) (name : arg) : path := join_path (io_save io) (to_path name).
Definition join_to_load_path (io : inout) (name : arg) : path := join_path (io_load io) (to_path name).

(* lib/functions.py:133-141 save_object *)
Definition save_object (dump : writer) (f : fsys) (io : inout) (o : obj) (name : arg) : outcome unit :=
  let p := join_to_save_path io name in
  match mkdirs f (parent_path p) with
  | (f1, inr e) => (f1, inr e)
  | (f1, inl _) => write_file dump f1 p o
  end.

(* lib/functions.py:143-148 load_object, 198-203 load_json *)
Definition load_object (load : reader) (f : fsys) (io : inout) (name : arg) : obj + ioexn := read_file load f (join_to_load_path io name).
Definition load_json := load_object.

(* lib/functions.py:205-210 save_json *)
Definition save_json (dump : writer) (f : fsys) (io : inout) (o : obj) (name : arg) : outcome unit := write_file dump f (join_to_save_path io name) o.

(* lib/functions.py:150-152 unique_id: the date and four drawn characters *)
Definition unique_id (date digits : string) : string := (date ++ "_" ++ digits)%string.

(* lib/functions.py:154-168 init_save_dir; [id] is what unique_id returns, None for unique_id=False *)
Definition save_dir (io : inout) (sub : option string) (id : option string) : path :=
  match sub, id with
  | Some s, Some i => join_path (io_path io) (parse_path (i ++ "_" ++ s)%string)
  | Some s, None => join_path (io_path io) (parse_path s)
  | None, Some i => join_path (io_path io) (parse_path i)
  | None, None => io_path io
  end.
Definition init_save_dir (f : fsys) (io : inout) (sub : option string) (id : option string) : inout * outcome unit :=
  let io' := {| io_path := io_path io; io_save := save_dir io sub id; io_load := io_load io |} in
  (io', mkdirs f (io_save io')).

(* lib/functions.py:170-178 init_load_dir; os.path.exists *)
Definition exists_path (f : fsys) (p : path) : bool :=
  match walk f [] (p_parts p) with inl l => match f l with Some _ => true | None => false end | inr _ => false end.
Definition init_load_dir (f : fsys) (io : inout) (sub : option string) : inout * (unit + ioexn) :=
  let p := match sub with Some s => join_path (io_path io) (parse_path s) | None => io_path io end in
  let io' := {| io_path := io_path io; io_save := io_save io; io_load := p |} in
  (io', if exists_path f p then inl tt else inr (OS FileExistsError)).

(* lib/functions.py:180-196 save_machine_metadata; [meta] is the dictionary of get_machine_metadata with the time put in, None when
   get_machine_metadata caught an exception and returned nothing (225-243) *)
Definition save_machine_metadata (dump : writer) (f : fsys) (io : inout) (sub : option arg) (meta : option obj) : outcome unit :=
  match meta with
  | None => (f, inr (Py TypeError))
  | Some m =>
      match (match sub with
             | None => Some (io_path io)
             | Some a => if arg_abs a then match a with APath p => Some p | Text _ => None end (* a text has no mkdir *)
                         else Some (join_to_save_path io a)
             end) with
      | None => (f, inr (Py AttributeError))
      | Some p => match mkdirs f p with
                  | (f1, inr e) => (f1, inr e)
                  | (f1, inl _) => write_file dump f1 (join_path p (parse_path "metadata.json")) m
                  end
      end
  end.

Definition num (n : nat) : string := NilEmpty.string_of_uint (Nat.to_uint n).

(* algorithms/topology_optimization.py:147-157 save_minimal_graph_data_pop; an individual is None when its score or its graph is None, else
   the data of extract_minimal_graph_info (SaveModel.v) with the identifiers and the score *)
Definition pop_name (subfolder prefix : string) (gen ind : nat) : arg :=
  APath (join_path (parse_path subfolder) (parse_path (prefix ++ "gen" ++ num gen ++ "_ind" ++ num ind ++ ".json")%string)).
Fixpoint save_pop (dump : writer) (f : fsys) (io : inout) (subfolder prefix : string) (gen ind : nat) (pop : list (option obj)) : outcome unit :=
  match pop with
  | [] => (f, inl tt)
  | None :: r => save_pop dump f io subfolder prefix gen (S ind) r
  | Some o :: r => match save_json dump f io o (pop_name subfolder prefix gen ind) with
                   | (f1, inr e) => (f1, inr e)
                   | (f1, inl _) => save_pop dump f1 io subfolder prefix gen (S ind) r
                   end
  end.

(* the populations of generations gen, gen+1, ... saved one after the other: topology_optimization.py:135-138 within the loop *)
Fixpoint save_pops (dump : writer) (f : fsys) (io : inout) (subfolder prefix : string) (gen : nat) (pops : list (list (option obj))) : outcome unit :=
  match pops with
  | [] => (f, inl tt)
  | pop :: r => match save_pop dump f io subfolder prefix gen 0 pop with
                | (f1, inr e) => (f1, inr e)
                | (f1, inl _) => save_pops dump f1 io subfolder prefix (S gen) r
                end
  end.

(* topology_optimization.py:85-92 and the loop: the directory, the starting graph as generation 0, then every population *)
Definition save_run (dump : writer) (f : fsys) (io : inout) (subfolder prefix : string) (pops : list (list (option obj))) : outcome unit :=
  match mkdirs f (join_to_save_path io (Text subfolder)) with
  | (f1, inr e) => (f1, inr e)
  | (f1, inl _) => save_pops dump f1 io subfolder prefix 0 pops
  end.
End Files.
Arguments entry : clear implicits.
Arguments fsys : clear implicits.
Arguments writer : clear implicits.
Arguments reader : clear implicits.

(** The printed text.  A stream is the terminal or a Tee; each Tee is an object with a log of its own, a stream behind it and a flag.
    What another handle writes to the same file is not modelled. *)
Inductive stream := Terminal | TeeOf (k : nat).
Record tee := { t_behind : stream; t_log : list string; t_open : bool }.
Record screen := { s_terminal : list string; s_tees : list tee; s_stdout : stream }.

Fixpoint set_tee (k : nat) (t : tee) (l : list tee) : list tee :=
  match l, k with [], _ => [] | _ :: r, O => t :: r | a :: r, S j => a :: set_tee j t r end.

(* lib/functions.py:52-54 Tee.write: first the stream behind, then the log, which refuses when it is closed.
   The fuel is the number of Tees (every Tee was made after the stream behind it) *)
Fixpoint write_stream (fuel : nat) (s : screen) (w : stream) (m : string) : screen * (unit + ioexn) :=
  match w with
  | Terminal => ({| s_terminal := s_terminal s ++ [m]; s_tees := s_tees s; s_stdout := s_stdout s |}, inl tt)
  | TeeOf k =>
      match fuel with
      | O => (s, inr (Py OutOfFuel))
      | S fuel =>
          match nth_error (s_tees s) k with
          | None => (s, inr (Py OutOfFuel))
          | Some t =>
              match write_stream fuel s (t_behind t) m with
              | (s1, inr e) => (s1, inr e)
              | (s1, inl _) =>
                  if t_open t
                  then ({| s_terminal := s_terminal s1; s_tees := set_tee k {| t_behind := t_behind t; t_log := t_log t ++ [m]; t_open := true |} (s_tees s1); s_stdout := s_stdout s1 |}, inl tt)
                  else (s1, inr (Py ValueError))
              end
          end
      end
  end.

(* a print: what is written to sys.stdout *)
Definition print_to (s : screen) (m : string) : screen * (unit + ioexn) := write_stream (S (List.length (s_tees s))) s (s_stdout s) m.

(* several prints; the first failing one stops *)
Fixpoint prints (s : screen) (ms : list string) : screen * (unit + ioexn) :=
  match ms with
  | [] => (s, inl tt)
  | m :: r => match print_to s m with (s1, inr e) => (s1, inr e) | (s1, inl _) => prints s1 r end
  end.

(* lib/functions.py:49-51,59-66,126-128 init_logging outside IPython, once the log file could be opened: sys.stdout becomes a new Tee; the
   result is the number of the Tee, kept in self._tee *)
Definition init_logging (s : screen) : screen * nat :=
  ({| s_terminal := s_terminal s; s_tees := s_tees s ++ [{| t_behind := s_stdout s; t_log := []; t_open := true |}]; s_stdout := TeeOf (List.length (s_tees s)) |}, List.length (s_tees s)).

(* lib/functions.py:55-56 Tee.flush closes the log *)
Definition flush_tee (s : screen) (k : nat) : screen :=
  match nth_error (s_tees s) k with
  | None => s
  | Some t => {| s_terminal := s_terminal s; s_tees := set_tee k {| t_behind := t_behind t; t_log := t_log t; t_open := false |} (s_tees s); s_stdout := s_stdout s |}
  end.

(* sys.stdout.flush(), print(..., flush=True): nothing changes at the terminal *)
Definition flush_stdout (s : screen) : screen := match s_stdout s with Terminal => s | TeeOf k => flush_tee s k end.

(* lib/functions.py:78-84,130-131 close_logging *)
Definition close_logging (s : screen) (k : nat) : screen :=
  match nth_error (s_tees s) k with
  | None => s
  | Some t => flush_tee {| s_terminal := s_terminal s; s_tees := s_tees s; s_stdout := t_behind t |} k
  end.
