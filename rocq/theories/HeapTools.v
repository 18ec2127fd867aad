(** * Files and the command-line tools over the heap

    The functions of Iff.v again, now with the memory they allocate and
    release.  Files are those of Iff.v. *)

From Coq Require Import ZArith List Bool String.
From Coq Require Import Strings.Byte.
From Verif Require Import Machine Io Types Build Read Write Check Print Iff Heap HeapPass.
Import ListNotations.
Open Scope Z_scope.

Definition HS (A : Type) : Type := env -> sys -> heap -> outcome (A * sys * heap).
Definition hretS {A} (a : A) : HS A := fun _ s h => Done (a, s, h).
Definition hundefinedS {A} (u : ub) : HS A := fun _ _ _ => Undefined u.
Definition hbindS {A B} (m : HS A) (k : A -> HS B) : HS B :=
  fun e s h => match m e s h with
               | Done (a, s', h') => k a e s' h'
               | Undefined u => Undefined u
               | OutOfFuel => OutOfFuel
               end.
Notation "x <-hs m ;; k" := (hbindS m (fun x => k))
  (at level 61, m at next level, right associativity).

(** Run a stream operation with given streams; the final streams are returned. *)
Definition hwith_streams {A} (m : H A) (i : rfile) (o : wfile) : HS (A * (rfile * wfile)) :=
  fun e s h =>
    match m e (mkWorld i o (sy_log s) (sy_allocs s)) h with
    | Done (a, w, h') =>
        Done ((a, (w_in w, w_out w)),
              mkSys (sy_files s) (sy_writable s) (sy_room s) (sy_bufsize s)
                    (sy_stdin s) (sy_stdout s) (w_log w) (w_allocs w), h')
    | Undefined u => Undefined u
    | OutOfFuel => OutOfFuel
    end.

(** An operation that touches no stream. *)
Definition hno_streams {A} (m : H A) : HS A :=
  r <-hs hwith_streams m no_in no_out ;; hretS (fst r).

(** iff.c 63-83 IFF_readFile *)
Definition hIFF_readFile (filename : string) (rg : option registry) : HS ptr :=
  fun e s h =>
    match sy_files s filename with
    | None =>
        (r <-hs hno_streams (io (IFF_error ("ERROR: cannot open file: " ++ filename ++ nl)%string)) ;;
         hretS None) e s h
    | Some data =>
        (r <-hs hwith_streams (hIFF_readFd rg) (mkRfile data true) no_out ;; hretS (fst r)) e s h
    end.

(** iff.c 85-91 IFF_read; a NULL filename is standard input *)
Definition hIFF_read (filename : option string) (rg : option registry) : HS ptr :=
  match filename with
  | None => fun e s h =>
      match hwith_streams (hIFF_readFd rg) (sy_stdin s) no_out e s h with
      | Done ((p, (i, _)), s', h') =>
          Done (p, mkSys (sy_files s') (sy_writable s') (sy_room s') (sy_bufsize s')
                         i (sy_stdout s') (sy_log s') (sy_allocs s'), h')
      | Undefined u => Undefined u
      | OutOfFuel => OutOfFuel
      end
  | Some f => hIFF_readFile f rg
  end.

(** iff.c 98-112 IFF_writeFile *)
Definition hIFF_writeFile (filename : string) (a : addr) (rg : option registry) : HS bool :=
  fun e s h =>
    if sy_writable s filename then
      match hwith_streams (hIFF_writeFd a rg) no_in
              (mkWfile [] [] (sy_bufsize s) (sy_room s filename)) e s h with
      | Done ((status, (_, o)), s', h') => Done (status, set_file s' filename (o_dev (snd (flush o))), h')
      | Undefined u => Undefined u
      | OutOfFuel => OutOfFuel
      end
    else
      (r <-hs hno_streams (io (IFF_error ("ERROR: cannot open file: " ++ filename ++ nl)%string)) ;;
       hretS false) e s h.

(** iff.c 114-120 IFF_write; a NULL filename is standard output *)
Definition hIFF_write (filename : option string) (a : addr) (rg : option registry) : HS bool :=
  match filename with
  | None => fun e s h =>
      match hwith_streams (hIFF_writeFd a rg) no_in (sy_stdout s) e s h with
      | Done ((status, (_, o)), s', h') =>
          Done (status, mkSys (sy_files s') (sy_writable s') (sy_room s') (sy_bufsize s')
                              (sy_stdin s') o (sy_log s') (sy_allocs s'), h')
      | Undefined u => Undefined u
      | OutOfFuel => OutOfFuel
      end
  | Some f => hIFF_writeFile f a rg
  end.

(** cat.c 30-38 IFF_createEmptyCAT *)
Definition hcreateEmptyCAT : H ptr := hcreateEmptyGroup IFF_ID_CAT IFF_ID_JJJJ.

(** ** iffjoin/join.c *)

(** join.c 37-50: the loop; [None] when all inputs were added, [Some 1] when it
    returned early.  Line 43-47: the early return frees the concatenation but
    not the chunk that was just read. *)
Fixpoint hjoin_loop (inputs : list string) (cat : addr) : HS (option Z) :=
  match inputs with
  | [] => hretS None
  | f :: r =>
      p <-hs hIFF_readFile f None ;;
      match p with
      | None => u <-hs hno_streams (hIFF_free cat None) ;; hretS (Some 1)
      | Some c =>
          ok <-hs hno_streams (hIFF_check c None) ;;
          if ok then
            u <-hs hno_streams (haddToCATAndUpdateContentsType cat c) ;;
            hjoin_loop r cat
          else u <-hs hno_streams (hIFF_free cat None) ;; hretS (Some 1)
      end
  end.

(** join.c 31-61 IFF_join *)
Definition hIFF_join (inputs : list string) (output : option string) : HS Z :=
  p <-hs hno_streams hcreateEmptyCAT ;;
  match p with
  | None => hundefinedS UB_null_deref
  | Some cat =>
      r <-hs hjoin_loop inputs cat ;;
      match r with
      | Some status => hretS status
      | None =>
          ok <-hs hIFF_write output cat None ;;
          u <-hs hno_streams (hIFF_free cat None) ;;
          hretS (if ok then 0 else 1)
      end
  end.

(** ** iffpp/pp.c *)

(** pp.c 25-55 IFF_prettyPrint *)
Definition hIFF_prettyPrint (filename : option string) (disable_check : bool) : HS (Z * string) :=
  p <-hs hIFF_read filename None ;;
  match p with
  | None =>
      u <-hs hno_streams (io (IFF_error ("Cannot open IFF file!" ++ nl)%string)) ;;
      hretS (1, EmptyString)
  | Some c =>
      ok <-hs (if disable_check then hretS true else hno_streams (hIFF_check c None)) ;;
      r <-hs (if ok then
               t <-hs hno_streams (hIFF_print c 0 None) ;; hretS (0, t)
             else hretS (1, EmptyString)) ;;
      u <-hs hno_streams (hIFF_free c None) ;;
      hretS r
  end.
