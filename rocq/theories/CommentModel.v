(** Model of comments in generated headers: BasePrinter::printComments, src/generator/baseprinter.h 62-95, and the printer of
    libprotobuf (google/protobuf/io/printer.cc, version 3) that it writes to, by what is known of it.

    Texts are lists of characters: 10 newline, 36 dollar sign, 42 asterisk, 47 slash. *)

From Coq Require Import ZArith List Bool.
From Verif Require Import Base.
Import ListNotations.
Open Scope Z_scope.

(** * io::Printer *)

(** What has been written, and whether the next character is the first of a line. *)
Record out : Type := mkOut { o_text : list Z; o_start : bool }.

(** What becomes of a call: GOOGLE_LOG(DFATAL) ends the generator if libprotobuf was built without NDEBUG. *)
Inductive printed : Type := Printed (o : out) | Fatal | Undefined.

Section Printer.
  (** libprotobuf built without NDEBUG. *)
  Variable debug : bool.
  (** The spaces of Indent, baseprinter.h 97-100. *)
  Variable indent : list Z.

  (** Printer::WriteRaw. *)
  Definition write_raw (data : list Z) (o : out) : out :=
    match data with
    | [] => o
    | c :: _ =>
        if o_start o && negb (c =? 10) then mkOut (o_text o ++ indent ++ data) false
        else mkOut (o_text o ++ data) (o_start o)
    end.

  Definition is_dollar (c : Z) : bool := c =? 36.

  (** Printer::Print(text) without variables: [pending] are the characters since the position, [name] those of the name of a variable
      up to now.  A name that is empty stands for the dollar sign.  If a name is not closed, it is taken as empty, and the
      character after the dollar sign is skipped; if there is none, the rest has the size -1. *)
  Fixpoint print_loop (name : option (list Z)) (pending text : list Z) (o : out) : printed :=
    match text with
    | [] => Printed (write_raw pending o)
    | c :: text' =>
        match name with
        | Some v =>
            if is_dollar c then
              match v with
              | [] => print_loop None [] text' (write_raw [36] o)
              | _ => if debug then Fatal else print_loop None [] text' o
              end
            else print_loop (Some (v ++ [c])) [] text' o
        | None =>
            if c =? 10 then
              let o' := write_raw (pending ++ [10]) o in print_loop None [] text' (mkOut (o_text o') true)
            else if is_dollar c then
              let o' := write_raw pending o in
              if existsb is_dollar text' then print_loop (Some []) [] text' o'
              else if debug then Fatal
              else match text' with [] => Undefined | _ :: text'' => print_loop None [] text'' (write_raw [36] o') end
            else print_loop None (pending ++ [c]) text' o
        end
    end.
  Definition print (text : list Z) (o : out) : printed := print_loop None [] text o.
  Definition after (p : printed) (f : out -> printed) : printed := match p with Printed o => f o | p' => p' end.

  (** * The comments *)

  (** utils.h 105-124: rtrim, ltrim and trim. *)
  Definition is_space (c : Z) : bool := (c =? 32) || (c =? 9) || (c =? 10) || (c =? 13) || (c =? 12) || (c =? 11).
  Fixpoint ltrim (s : list Z) : list Z := match s with c :: s' => if is_space c then ltrim s' else s | [] => [] end.
  Definition rtrim (s : list Z) : list Z := rev (ltrim (rev s)).
  Definition trim (s : list Z) : list Z := ltrim (rtrim s).

  (** utils.h 63-69: replace, here of newlines by newline, space and asterisk. *)
  Definition starred (s : list Z) : list Z := flat_map (fun c => if c =? 10 then [10; 32; 42] else [c]) s.

  (** baseprinter.h 71-84: a space before comments that do not begin with an exclamation mark, an asterisk or a space. *)
  Definition prefixed (single : bool) (c : list Z) : list Z :=
    match c with
    | [] => []
    | x :: _ =>
        if negb (x =? 33) && negb (x =? 42) && negb (x =? 32) then (if single then 32 :: c else 10 :: 32 :: c) else c
    end.

  (** baseprinter.h 62-95 with the option COMMENTS; [leading] are the leading comments of the descriptor, as libprotobuf gives
      them: without the slashes that begin a line comment, without the slash and asterisks of a block comment, and without U+0000. *)
  Definition printComments (leading : list Z) (o : out) : printed :=
    let c := trim leading in
    match c with
    | [] => Printed o
    | _ =>
        let single := negb (existsb (fun x => x =? 10) c) in
        let c1 := prefixed single c in
        after (print [10; 47; 42] o) (fun o1 =>
        after (if single then print c1 o1
               else after (print (starred c1) o1) (fun o2 => if last (starred c1) 0 =? 10 then Printed o2 else print [10] o2)) (fun o3 =>
        print [32; 42; 47] o3))
    end.
End Printer.
