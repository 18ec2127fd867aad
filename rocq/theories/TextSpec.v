(** * Standard streams in text mode (definitions only)

    iff.c 66 and 101 open files in binary mode, but iff.c 90 and 117 use stdin
    and stdout as they are.  A C library may open those in text mode, and
    Microsoft's does, for which src/libiff, src/iffpp and src/iffjoin have
    project files.  Its translations, for devices that do not run full: *)

From Coq Require Import List Bool.
From Coq Require Import Strings.Byte.
Import ListNotations.

Definition LF : byte := x0a.
Definition CR : byte := x0d.
Definition SUB : byte := x1a.

(** output: a line feed becomes a carriage return and a line feed *)
Fixpoint text_out (l : list byte) : list byte :=
  match l with
  | [] => []
  | b :: r => if Byte.eqb b LF then CR :: LF :: text_out r else b :: text_out r
  end.

(** input: a carriage return before a line feed is dropped, and SUB
    (control-Z) is the end of the file *)
Fixpoint text_in (l : list byte) : list byte :=
  match l with
  | [] => []
  | b :: r =>
      if Byte.eqb b SUB then []
      else if Byte.eqb b CR then
        match r with
        | c :: _ => if Byte.eqb c LF then text_in r else b :: text_in r
        | [] => [b]
        end
      else b :: text_in r
  end.
