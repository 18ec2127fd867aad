(** * The public API (iff.c) and the tools (iffjoin/join.c, iffpp/pp.c).
    Definitions only. *)

From Coq Require Import ZArith List Bool String.
From Coq Require Import Strings.Byte.
From Verif Require Import Machine Io Types Build Read Write Check Compare Print Search.
Import ListNotations.
Open Scope Z_scope.

(** ** Operations on one open stream *)

(** iff.c 40-61 IFF_readFd.  The step bound is the number of input bytes. *)
Definition IFF_readFd (rg : option registry) : M (option chunk) :=
  fun e w =>
    (oc <- IFF_readChunk (selectChunkRegistry rg) (S (List.length (r_rest (w_in w)))) 0 ;;
     match oc with
     | None => IFF_error ("ERROR: cannot open main chunk!" ++ nl)%string ;;; ret None
     | Some c =>
         ob <- fgetc ;;
         match ob with
         | None => ret (Some c)
         | Some b =>
             IFF_error ("WARNING: Trailing IFF contents found: " ++ dec (b2z b) ++ "!" ++ nl)%string ;;;
             ret (Some c)
         end
     end) e w.

(** iff.c 93-96 IFF_writeFd *)
Definition IFF_writeFd (c : chunk) (rg : option registry) : M bool :=
  IFF_writeChunk (selectChunkRegistry rg) c 0.

(** iff.c 122-125 IFF_free *)
Definition IFF_free (c : chunk) (rg : option registry) : outcome unit :=
  IFF_freeChunk (selectChunkRegistry rg) c 0.

(** iff.c 127-140 IFF_check *)
Definition IFF_check (c : chunk) (rg : option registry) : M bool :=
  if negb (chunkId c =? IFF_ID_FORM) && negb (chunkId c =? IFF_ID_CAT)
     && negb (chunkId c =? IFF_ID_LIST)
  then
    IFF_error ("Not a valid IFF-85 file: First bytes should start with either: 'FORM', 'CAT ' or 'LIST'"
               ++ nl)%string ;;;
    ret false
  else IFF_checkChunk (selectChunkRegistry rg) c 0.

(** iff.c 142-145 IFF_print *)
Definition IFF_print (c : chunk) (level : nat) (rg : option registry) : outcome string :=
  IFF_printChunk (selectChunkRegistry rg) c level 0.

(** iff.c 147-150 IFF_compare *)
Definition IFF_compare (e : env) (c1 c2 : chunk) (rg : option registry) : outcome bool :=
  IFF_compareChunk e (selectChunkRegistry rg) c1 c2 0.

(** ** Operations on named files *)

(** The part of the operating system the tools see.  [sy_files]: contents of
    the readable files.  [sy_writable]: whether fopen(name, "wb") succeeds.
    [sy_room]: how many bytes the device takes for that file. *)
Record sys := mkSys {
  sy_files : string -> option (list byte);
  sy_writable : string -> bool;
  sy_room : string -> option nat;
  sy_bufsize : nat;
  sy_stdin : rfile;
  sy_stdout : wfile;
  sy_log : list string;
  sy_allocs : nat
}.

Definition MS (A : Type) : Type := env -> sys -> outcome (A * sys).
Definition retS {A} (a : A) : MS A := fun _ s => Done (a, s).
Definition bindS {A B} (m : MS A) (k : A -> MS B) : MS B :=
  fun e s => match m e s with
             | Done (a, s') => k a e s'
             | Undefined u => Undefined u
             | OutOfFuel => OutOfFuel
             end.
Notation "x <-s m ;; k" := (bindS m (fun x => k))
  (at level 61, m at next level, right associativity).

Definition no_out : wfile := mkWfile [] [] 0 None.
Definition no_in : rfile := mkRfile [] false.

(** Run a stream operation with given streams; the final streams are returned. *)
Definition with_streams {A} (m : M A) (i : rfile) (o : wfile) : MS (A * (rfile * wfile)) :=
  fun e s =>
    match m e (mkWorld i o (sy_log s) (sy_allocs s)) with
    | Done (a, w) =>
        Done ((a, (w_in w, w_out w)),
              mkSys (sy_files s) (sy_writable s) (sy_room s) (sy_bufsize s)
                    (sy_stdin s) (sy_stdout s) (w_log w) (w_allocs w))
    | Undefined u => Undefined u
    | OutOfFuel => OutOfFuel
    end.

Definition set_file (s : sys) (name : string) (data : list byte) : sys :=
  mkSys (fun n => if String.eqb n name then Some data else sy_files s n)
        (sy_writable s) (sy_room s) (sy_bufsize s)
        (sy_stdin s) (sy_stdout s) (sy_log s) (sy_allocs s).

(** An operation that touches no stream. *)
Definition no_streams {A} (m : M A) : MS A :=
  r <-s with_streams m no_in no_out ;; retS (fst r).

(** iff.c 63-83 IFF_readFile *)
Definition IFF_readFile (filename : string) (rg : option registry) : MS (option chunk) :=
  fun e s =>
    match sy_files s filename with
    | None =>
        (r <-s no_streams (IFF_error ("ERROR: cannot open file: " ++ filename ++ nl)%string) ;;
         retS None) e s
    | Some data =>
        (r <-s with_streams (IFF_readFd rg) (mkRfile data true) no_out ;; retS (fst r)) e s
    end.

(** iff.c 85-91 IFF_read; a NULL filename is standard input *)
Definition IFF_read (filename : option string) (rg : option registry) : MS (option chunk) :=
  match filename with
  | None => fun e s =>
      match with_streams (IFF_readFd rg) (sy_stdin s) no_out e s with
      | Done ((oc, (i, _)), s') =>
          Done (oc, mkSys (sy_files s') (sy_writable s') (sy_room s') (sy_bufsize s')
                          i (sy_stdout s') (sy_log s') (sy_allocs s'))
      | Undefined u => Undefined u
      | OutOfFuel => OutOfFuel
      end
  | Some f => IFF_readFile f rg
  end.

(** iff.c 98-112 IFF_writeFile: fopen truncates the file; the result of fclose,
    which flushes, is ignored *)
Definition IFF_writeFile (filename : string) (c : chunk) (rg : option registry) : MS bool :=
  fun e s =>
    if sy_writable s filename then
      match with_streams (IFF_writeFd c rg) no_in
              (mkWfile [] [] (sy_bufsize s) (sy_room s filename)) e s with
      | Done ((status, (_, o)), s') => Done (status, set_file s' filename (o_dev (snd (flush o))))
      | Undefined u => Undefined u
      | OutOfFuel => OutOfFuel
      end
    else
      (r <-s no_streams (IFF_error ("ERROR: cannot open file: " ++ filename ++ nl)%string) ;;
       retS false) e s.

(** iff.c 114-120 IFF_write; a NULL filename is standard output *)
Definition IFF_write (filename : option string) (c : chunk) (rg : option registry) : MS bool :=
  match filename with
  | None => fun e s =>
      match with_streams (IFF_writeFd c rg) no_in (sy_stdout s) e s with
      | Done ((status, (_, o)), s') =>
          Done (status, mkSys (sy_files s') (sy_writable s') (sy_room s') (sy_bufsize s')
                              (sy_stdin s') o (sy_log s') (sy_allocs s'))
      | Undefined u => Undefined u
      | OutOfFuel => OutOfFuel
      end
  | Some f => IFF_writeFile f c rg
  end.

Definition liftS {A} (o : outcome A) : MS A :=
  fun _ s => match o with
             | Done a => Done (a, s)
             | Undefined u => Undefined u
             | OutOfFuel => OutOfFuel
             end.

(** ** iffjoin/join.c *)

(** join.c 37-50: the loop; [inl cat] when all inputs were added, [inr 1] when
    it returned early *)
Fixpoint join_loop (inputs : list string) (cat : chunk) : MS (chunk + Z) :=
  match inputs with
  | [] => retS (inl cat)
  | f :: r =>
      oc <-s IFF_readFile f None ;;
      match oc with
      | None => u <-s liftS (IFF_free cat None) ;; retS (inr 1)
      | Some c =>
          ok <-s no_streams (IFF_check c None) ;;
          if ok then
            cat' <-s no_streams (IFF_addToCATAndUpdateContentsType cat c) ;;
            join_loop r cat'
          else u <-s liftS (IFF_free cat None) ;; retS (inr 1)
      end
  end.

(** join.c 31-61 IFF_join: the exit status.  With a NULL CAT the first use of
    it dereferences NULL. *)
Definition IFF_join (inputs : list string) (output : option string) : MS Z :=
  ocat <-s no_streams IFF_createEmptyCAT ;;
  match ocat with
  | None => liftS (Undefined UB_null_deref)
  | Some cat =>
      r <-s join_loop inputs cat ;;
      match r with
      | inr status => retS status
      | inl cat' =>
          ok <-s IFF_write output cat' None ;;
          u <-s liftS (IFF_free cat' None) ;;
          retS (if ok then 0 else 1)
      end
  end.

(** ** iffpp/pp.c *)

(** pp.c 25-55 IFF_prettyPrint: exit status, and text printed on standard
    output.  [disable_check] is options & IFFPP_DISABLE_CHECK.  The message on
    stderr for an unreadable file (pp.c 32) is kept with those of the error
    callback, which by default writes to stderr as well. *)
Definition IFF_prettyPrint (filename : option string) (disable_check : bool) : MS (Z * string) :=
  oc <-s IFF_read filename None ;;
  match oc with
  | None =>
      u <-s no_streams (IFF_error ("Cannot open IFF file!" ++ nl)%string) ;;
      retS (1, EmptyString)
  | Some c =>
      ok <-s (if disable_check then retS true else no_streams (IFF_check c None)) ;;
      r <-s (if ok then
               t <-s liftS (IFF_print c 0 None) ;; retS (0, t)
             else retS (1, EmptyString)) ;;
      u <-s liftS (IFF_free c None) ;;
      retS r
  end.
