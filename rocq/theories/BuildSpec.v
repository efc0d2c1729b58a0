(** What a schema declares, by the rules of protobuf; and how it must be written for a scan by lines to find that. *)

From Coq Require Import String Ascii ZArith List Bool Arith.
From Verif Require Import GenModel GenSpec BuildModel.
Import ListNotations.
Open Scope string_scope.

(** * Sources as tokens *)

(** A line of a source consists of words (also full names and numbers), other characters, literals in quotes, comments (a
    comment over several lines gives one on each of them), and blanks. *)
Inductive token : Type :=
| Word (s : string) | Symbol (c : ascii) | Quoted (s : string) | Comment (s : string) | Blank (s : string).

Definition show (t : token) : string :=
  match t with Word s | Quoted s | Comment s | Blank s => s | Symbol c => String c EmptyString end.
Definition show_line (l : list token) : string := fold_right (fun t s => show t ++ s) "" l.

Definition letters (s : string) : list ascii := list_ascii_of_string s.
Definition line_end : ascii := ascii_of_nat 10.
Definition word_letters : list ascii := (small_letters ++ capital_letters ++ letters "0123456789_")%list.
Definition blank_letters : list ascii := [ascii_of_nat 9; " "%char].
Definition symbols : list ascii := letters "{}()[]<>=;,:-+".

(** Words have letters, digits, underscores and dots; literals and comments start with their marks (a comment that goes on may
    start with anything). *)
Definition token_ok (t : token) : Prop :=
  match t with
  | Word s => s <> "" /\ Forall (fun c => In c word_letters \/ c = "."%char) (letters s)
  | Symbol c => In c symbols
  | Blank s => s <> "" /\ Forall (fun c => In c blank_letters) (letters s)
  | Quoted s => exists c s', s = String c s' /\ (c = quote \/ c = "'"%char) /\ free_of line_end s
  | Comment s => free_of line_end s
  end.
(** Words have something between them. *)
Fixpoint apart (l : list token) : Prop :=
  match l with
  | Word _ :: ((Word _ :: _) as l') => False
  | Word _ :: ((Comment s :: _) as l') => (exists s', s = String "/" s') /\ apart l'
  | _ :: l' => apart l'
  | [] => True
  end.
Definition line_ok (l : list token) : Prop := Forall token_ok l /\ apart l.

(** The text. *)
Fixpoint lines_text (ls : list string) : string :=
  match ls with
  | [] => ""
  | [x] => x
  | x :: ls' => x ++ String line_end (lines_text ls')
  end.
Definition source_text (ls : list (list token)) : string := lines_text (map show_line ls).

(** * What is declared *)

(** Reading a source from its start: the braces that are open, whether a statement of the top level can start here, its first word,
    the kind of the declaration that we are in, and all declarations, as kind and name. *)
Record reading : Type := mkReading {
  r_depth : nat; r_start : bool; r_word : option string; r_inside : option string; r_found : list (string * string)
}.
Definition reading_start : reading := mkReading 0 true None None [].

Definition kinds : list string := ["package"; "message"; "service"; "enum"].

Definition read_token (r : reading) (t : token) : reading :=
  match t with
  | Blank _ | Comment _ => r
  | Quoted _ => mkReading (r_depth r) false None (r_inside r) (r_found r)
  | Word w =>
      match r_word r with
      | Some k =>
          if existsb (String.eqb k) kinds
          then mkReading (r_depth r) false None (Some k) (r_found r ++ [(k, w)])
          else mkReading (r_depth r) false None (r_inside r) (r_found r)
      | None =>
          if r_start r then mkReading (r_depth r) false (Some w) (r_inside r) (r_found r) else r
      end
  | Symbol c =>
      if Ascii.eqb c "{" then mkReading (S (r_depth r)) false None (r_inside r) (r_found r)
      else if Ascii.eqb c "}" then
        match r_depth r with
        | 1 => mkReading 0 true None None (r_found r)
        | d => mkReading (pred d) false None (r_inside r) (r_found r)
        end
      else if Ascii.eqb c ";" then
        match r_depth r with
        | 0 => mkReading 0 true None None (r_found r)
        | d => mkReading d false None (r_inside r) (r_found r)
        end
      else mkReading (r_depth r) false None (r_inside r) (r_found r)
  end.
Definition read_line (r : reading) (l : list token) : reading := fold_left read_token l r.
Definition read_source (ls : list (list token)) : reading := fold_left read_line ls reading_start.

Definition declared (kind : string) (ls : list (list token)) : list string :=
  map snd (filter (fun d => String.eqb (fst d) kind) (r_found (read_source ls))).

(** What protoc refuses: a closing brace too many, and a message without braces. *)
Definition token_fits (r : reading) (t : token) : Prop :=
  (t = Symbol "}" -> r_depth r <> 0) /\ (t = Symbol ";" -> r_inside r = Some "message" -> r_depth r <> 0).
Fixpoint line_fits (r : reading) (l : list token) : Prop :=
  match l with [] => True | t :: l' => token_fits r t /\ line_fits (read_token r t) l' end.

(** * How it must be written *)

(** A text starts with a keyword and a name behind it, from the view of someone who knows about neither comments nor
    statements. *)
Definition looks_like (kind text : string) : Prop :=
  exists indent gap c rest,
    text = indent ++ kind ++ gap ++ String c rest
    /\ Forall (fun b => In b blank_letters) (letters indent) /\ Forall (fun b => In b blank_letters) (letters gap) /\ gap <> ""
    /\ (In c word_letters \/ kind = "package" /\ (c = "." \/ c = "-")%char).

(** The new declarations of a line. *)
Definition new_found (r : reading) (l : list token) (new : list (string * string)) : Prop :=
  r_found (read_line r l) = (r_found r ++ new)%list.

Definition is_blank_token (t : token) : Prop := exists s, t = Blank s.

(** What may follow a name. *)
Definition name_ends (rest : list token) : Prop :=
  rest = [] \/ exists t more, rest = t :: more
    /\ (is_blank_token t \/ t = Symbol "{" \/ t = Symbol ";" \/ exists s, t = Comment s).

(** A line with a declaration starts with it and has no other one.  Names of messages and the like have no dots. *)
Definition declaration_first (r : reading) (l : list token) : Prop :=
  forall new, new_found r l new ->
    new = [] \/ exists kind name blanks gap rest,
      new = [(kind, name)] /\ r_start r = true /\ Forall is_blank_token blanks
      /\ l = (blanks ++ Word kind :: Blank gap :: Word name :: rest)%list
      /\ (kind = "package" \/ free_of "." name) /\ name_ends rest.

(** A line that looks like a declaration is one, or stands inside of a message. *)
Definition no_lookalike (r : reading) (l : list token) : Prop :=
  forall kind, In kind kinds -> looks_like kind (show_line l) ->
    (exists name, new_found r l [(kind, name)])
    \/ (r_inside r = Some "message" /\ r_depth r <> 0 /\ (kind = "message" \/ kind = "enum")).

(** In a message (and where it starts), a line has at most one opening brace and at most one closing brace, in this order, and none in
    comments and literals. *)
Definition brace_free (t : token) : Prop := free_of "{" (show t) /\ free_of "}" (show t).
Definition plain_braces (l : list token) : Prop :=
  exists a b c opening closing, l = (a ++ opening ++ b ++ closing ++ c)%list
    /\ Forall brace_free (a ++ b ++ c)%list
    /\ (opening = [] \/ opening = [Symbol "{"]) /\ (closing = [] \/ closing = [Symbol "}"]).
Definition braces_apart (r : reading) (l : list token) : Prop :=
  r_inside r = Some "message" \/ (exists name, new_found r l [("message", name)]) -> plain_braces l.

Definition tidy_line (r : reading) (l : list token) : Prop :=
  declaration_first r l /\ no_lookalike r l /\ braces_apart r l.
Fixpoint tidy (r : reading) (ls : list (list token)) : Prop :=
  match ls with
  | [] => True
  | l :: ls' => line_ok l /\ line_fits r l /\ tidy_line r l /\ tidy (read_line r l) ls'
  end.

(** Square brackets are closed on the line where they are opened, and no line ends in a backslash. *)
Fixpoint count (c : ascii) (s : string) : nat :=
  match s with EmptyString => 0 | String d s' => (if Ascii.eqb c d then 1 else 0) + count c s' end.
Definition brackets_closed (l : list token) : Prop :=
  count "[" (show_line l) = count "]" (show_line l) /\ ~ ends_with (String (ascii_of_nat 92) "") (show_line l).

Definition tidy_source (ls : list (list token)) : Prop := tidy reading_start ls /\ Forall brackets_closed ls.

(** * Files *)

(** Two paths below a directory are the same: slashes without anything between them count as one. *)
Fixpoint split_path (s : string) : list string :=
  match s with
  | EmptyString => [""]
  | String c s' =>
      let l := split_path s' in
      if Ascii.eqb c "/" then "" :: l else match l with x :: l' => String c x :: l' | [] => [] end
  end.
Definition same_path (a b : string) : Prop :=
  filter (fun x => negb (String.eqb x "")) (split_path a) = filter (fun x => negb (String.eqb x "")) (split_path b).

(** Two lists of paths have the same members. *)
Definition each_in (l l' : list string) : Prop := forall x, In x l -> exists y, In y l' /\ same_path x y.
Definition same_files (l l' : list string) : Prop := each_in l l' /\ each_in l' l.

(** A path of the schema "base.proto", in whatever directory. *)
Definition path_to (base path : string) : Prop :=
  free_of "/" base /\ (path = base ++ ".proto" \/ exists dir, path = dir ++ "/" ++ base ++ ".proto").

(** What protoc tells the generator about a source with some path.  The path that protoc knows depends on its search path. *)
Definition described (path : string) (ls : list (list token)) (f : proto_file) : Prop :=
  (exists base, path_to base path /\ path_to base (f_path f))
  /\ f_package f = last (declared "package" ls) ""
  /\ f_messages f = declared "message" ls
  /\ f_enums f = declared "enum" ls
  /\ f_services f = declared "service" ls.

(** A name that CMake takes for false. *)
Definition means_false (name : string) : Prop :=
  In (in_small name) ["n"; "no"; "off"; "false"; "ignore"; "0"] \/ name = "NOTFOUND".
Definition not_false (names : list string) : Prop := forall name, names = [name] -> ~ means_false name.
