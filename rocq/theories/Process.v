(** * The tools as processes (definitions only): what is left when they have ended *)

From Coq Require Import ZArith List Bool String Ascii.
From Coq Require Import Strings.Byte.
From Verif Require Import Machine Iff Main.
Import ListNotations.
Open Scope Z_scope.

Fixpoint text_bytes (s : string) : list byte :=
  match s with
  | EmptyString => []
  | String a r => byte_of_ascii a :: text_bytes r
  end.

(** printf, puts and fprintf(stdout, ...): util.c 25-37, rawchunk.c 115-158,
    chunk.c 115-125, iffpp/main.c 33-61, iffjoin/main.c 34-62.  Nobody looks at
    their results: after a failure the next byte is tried. *)
Definition print_out (l : list byte) (f : wfile) : wfile :=
  fold_left (fun f b => snd (put_byte b f)) l f.

(** A process that has ended: its exit status; what reached the device behind
    standard output; what it said on standard error, which is not buffered, in
    order; the files. *)
Record ended := mkEnded {
  en_status : Z;
  en_stdout : list byte;
  en_stderr : list string;
  en_files : string -> option (list byte)
}.

(** return from main: exit flushes standard output; the status is not changed
    if that fails (C11 5.1.2.2.3, 7.22.4.4) *)
Definition exit_with (status : Z) (text : string) (s : sys) : ended :=
  mkEnded status (o_dev (snd (flush (print_out (text_bytes text) (sy_stdout s))))) (rev (sy_log s)) (sy_files s).

(** iffpp/main.c 63-138 *)
Definition iffpp (version command : string) (b : build) (args : list string) (e : env) (s : sys) : outcome ended :=
  match pp_main version command b args e s with
  | Done ((z, t), s') => Done (exit_with z t s')
  | Undefined u => Undefined u
  | OutOfFuel => OutOfFuel
  end.

(** iffjoin/main.c 64-154 *)
Definition iffjoin (version command : string) (b : build) (args : list string) (e : env) (s : sys) : outcome ended :=
  match join_main version command b args e s with
  | Done ((z, t), s') => Done (exit_with z t s')
  | Undefined u => Undefined u
  | OutOfFuel => OutOfFuel
  end.
