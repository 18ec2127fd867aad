(** * Machine model: C integers, outcomes, stdio, heap oracle, error log.

    This file models the parts of the C language and of libc that
    /repo/src/libiff relies on.  It contains definitions only. *)

From Coq Require Import ZArith List Bool String Ascii DecimalString.
From Coq Require Import Strings.Byte.
Import ListNotations.
Open Scope Z_scope.

(** ** Bytes and C integer types (ifftypes.h.in 25-54) *)

Definition b2z (b : byte) : Z := Z.of_N (Byte.to_N b).

Definition z2b (z : Z) : byte :=
  match Byte.of_N (Z.to_N (z mod 256)) with
  | Some b => b
  | None => x00
  end.

Definition INT_MAX : Z := 2147483647.
Definition INT_MIN : Z := -2147483648.

(** Conversion to an unsigned / signed type of [k] bits (two's complement). *)
Definition wrap_u (k z : Z) : Z := z mod 2 ^ k.
Definition wrap_s (k z : Z) : Z := (z + 2 ^ (k - 1)) mod 2 ^ k - 2 ^ (k - 1).

(** ** Outcomes of running a C function

    [Undefined] is undefined behaviour (or a certain crash) and is never
    confused with an ordinary result.  [OutOfFuel] only exists because loops
    of the reader are given a step bound; a theorem shows it is never
    reached. *)

Inductive ub :=
| UB_signed_overflow     (* int arithmetic out of range *)
| UB_signed_shift        (* ISO C: left shift into or out of the sign bit *)
| UB_printf_type         (* ISO C: conversion specifier / argument mismatch *)
| UB_type_confusion      (* a struct accessed as a struct of another type *)
| UB_null_deref          (* access through a NULL pointer *)
| UB_out_of_bounds       (* access outside an allocated block *)
| UB_uninitialised       (* use of an indeterminate value *)
| UB_dangling            (* access to a block that is not allocated (heap model only) *)
| UB_invalid_free        (* free of a block that is not allocated (heap model only) *)
| UB_stack_overflow.     (* a nested call without room on the stack (stack model only) *)

Inductive outcome (A : Type) :=
| Done (a : A)
| Undefined (u : ub)
| OutOfFuel.
Arguments Done {A} a.
Arguments Undefined {A} u.
Arguments OutOfFuel {A}.

Definition obind {A B} (m : outcome A) (k : A -> outcome B) : outcome B :=
  match m with
  | Done a => k a
  | Undefined u => Undefined u
  | OutOfFuel => OutOfFuel
  end.

(** ** The platform: everything the C code does not decide itself *)

Record env := mkEnv {
  big_endian : bool;       (* IFF_BIG_ENDIAN == 1, ifftypes.h.in 49-54 *)
  char_signed : bool;      (* whether plain char is signed *)
  lp64 : bool;             (* size_t and long have 64 bits (else 32) *)
  strict_c : bool;         (* treat ISO C violations that mainstream compilers
                              define (signed shifts, printf types) as UB *)
  malloc_ok : nat -> Z -> bool;  (* does the n-th allocation, of so many bytes, succeed *)
  garbage : Z;             (* what printing a pointer with %d shows *)
  place : nat -> nat       (* where the allocator would like to put the n-th
                              allocation, if nothing is there *)
}.

Definition size_t_bits (e : env) : Z := if lp64 e then 64 else 32.

(** (char) conversion of an integer, as stored in an IFF_ID2 (id.h 30). *)
Definition to_char (e : env) (z : Z) : Z :=
  if char_signed e then wrap_s 8 z else wrap_u 8 z.

(** ** stdio streams *)

(** A stream opened for reading: the bytes not read yet; pipes and terminals
    are not seekable. *)
Record rfile := mkRfile { r_rest : list byte; r_seekable : bool }.

(** A stream opened for writing: what the device holds, what is still in the
    stdio buffer, the buffer size, and how many more bytes the device accepts
    ([None]: unlimited).  A full disk, a file size limit, a broken pipe or a
    crash are all "the device accepts no more". *)
Record wfile := mkWfile {
  o_dev : list byte; o_buf : list byte; o_bufsize : nat; o_room : option nat }.

(** The state a libiff call runs in: one input stream, one output stream, the
    strings passed to the error callback so far (newest first) and the number
    of allocations made so far. *)
Record world := mkWorld {
  w_in : rfile; w_out : wfile; w_log : list string; w_allocs : nat }.

Definition M (A : Type) : Type := env -> world -> outcome (A * world).

Definition ret {A} (a : A) : M A := fun _ w => Done (a, w).
Definition bind {A B} (m : M A) (k : A -> M B) : M B :=
  fun e w => match m e w with
             | Done (a, w') => k a e w'
             | Undefined u => Undefined u
             | OutOfFuel => OutOfFuel
             end.
Definition undefined {A} (u : ub) : M A := fun _ _ => Undefined u.
Definition nofuel {A} : M A := fun _ _ => OutOfFuel.
Definition lift {A} (o : outcome A) : M A :=
  fun _ w => match o with
             | Done a => Done (a, w)
             | Undefined u => Undefined u
             | OutOfFuel => OutOfFuel
             end.
Definition ask : M env := fun e w => Done (e, w).

Notation "x <- m ;; k" := (bind m (fun x => k))
  (at level 61, m at next level, right associativity).
Notation "' p <- m ;; k" := (bind m (fun p => k))
  (at level 61, p pattern, m at next level, right associativity).
Notation "m ;;; k" := (bind m (fun _ => k))
  (at level 61, right associativity).
Notation "x <-o m ;; k" := (obind m (fun x => k))
  (at level 61, m at next level, right associativity).

(** C's short-circuit [&&]. *)
Definition andM (m1 m2 : M bool) : M bool :=
  b <- m1 ;; if b then m2 else ret false.

(** *** Reading *)

Definition set_in (f : rfile) (w : world) : world :=
  mkWorld f (w_out w) (w_log w) (w_allocs w).
Definition set_out (f : wfile) (w : world) : world :=
  mkWorld (w_in w) f (w_log w) (w_allocs w).

(** fgetc: [None] is EOF. *)
Definition fgetc : M (option byte) :=
  fun _ w =>
    match r_rest (w_in w) with
    | [] => Done (None, w)
    | b :: r => Done (Some b, set_in (mkRfile r (r_seekable (w_in w))) w)
    end.

(** [ztake n l] / [zdrop n l]: first [n] elements / the rest, [n] an integer. *)
Fixpoint ztake {A} (n : Z) (l : list A) : list A :=
  match l with
  | [] => []
  | x :: r => if n <=? 0 then [] else x :: ztake (n - 1) r
  end.
Fixpoint zdrop {A} (n : Z) (l : list A) : list A :=
  match l with
  | [] => []
  | x :: r => if n <=? 0 then l else zdrop (n - 1) r
  end.
Definition zlength {A} (l : list A) : Z := Z.of_nat (List.length l).

(** fread of [n] bytes: the bytes obtained (fewer than [n] at end of file). *)
Definition fread (n : Z) : M (list byte) :=
  fun _ w =>
    let r := r_rest (w_in w) in
    Done (ztake n r, set_in (mkRfile (zdrop n r) (r_seekable (w_in w))) w).

(** fseek(file, n, SEEK_CUR) for n > 0; TRUE iff it returns 0.  Seeking past
    the end of a seekable file succeeds. *)
Definition fseek_cur (n : Z) : M bool :=
  fun _ w =>
    if r_seekable (w_in w)
    then Done (true, set_in (mkRfile (zdrop n (r_rest (w_in w))) true) w)
    else Done (false, w).

(** *** Writing *)

Definition flush (f : wfile) : bool * wfile :=
  match o_room f with
  | None => (true, mkWfile (o_dev f ++ o_buf f) [] (o_bufsize f) None)
  | Some r =>
      let n := List.length (o_buf f) in
      (Nat.leb n r,
       mkWfile (o_dev f ++ firstn r (o_buf f)) [] (o_bufsize f) (Some (r - n)%nat))
  end.

(** One byte into the buffer; the buffer is flushed when full. *)
Definition put_byte (b : byte) (f : wfile) : bool * wfile :=
  let f1 := mkWfile (o_dev f) (o_buf f ++ [b]) (o_bufsize f) (o_room f) in
  if Nat.ltb (List.length (o_buf f1)) (o_bufsize f1) then (true, f1) else flush f1.

Fixpoint put_bytes (l : list byte) (f : wfile) : bool * wfile :=
  match l with
  | [] => (true, f)
  | b :: r => let '(ok, f1) := put_byte b f in
              if ok then put_bytes r f1 else (false, f1)
  end.

(** fwrite / fputc: TRUE iff everything was accepted. *)
Definition fwrite (l : list byte) : M bool :=
  fun _ w => let '(ok, f) := put_bytes l (w_out w) in Done (ok, set_out f w).
Definition fputc (b : byte) : M bool := fwrite [b].

(** *** Allocation: requests above PTRDIFF_MAX always fail. *)
Definition malloc (sz : Z) : M bool :=
  fun e w =>
    Done ((sz <? 2 ^ (size_t_bits e - 1)) && malloc_ok e (w_allocs w) sz,
          mkWorld (w_in w) (w_out w) (w_log w) (S (w_allocs w))).

(** *** Text helpers *)

Definition dec (z : Z) : string := NilZero.string_of_int (Z.to_int z).

Definition nl : string := String (Ascii.ascii_of_nat 10) EmptyString.

Definition chr (z : Z) : string := String (ascii_of_byte (z2b z)) EmptyString.

(** ** error.c *)

(** error.c 32-39 IFF_error: one call of the error callback with the formatted
    text (by default 25-28 IFF_errorCallbackStderr, which prints it; 30 lets the
    application install another, and the log is what that one is given). *)
Definition IFF_error (s : string) : M unit :=
  fun _ w => Done (tt, mkWorld (w_in w) (w_out w) (s :: w_log w) (w_allocs w)).

(** id.c 37-43 IFF_idToString *)
Definition IFF_idToString (e : env) (id : Z) : list Z :=
  [ to_char e (Z.shiftr id 24);
    to_char e (Z.shiftr (Z.land id 0xff0000) 16);
    to_char e (Z.shiftr (Z.land id 0xff00) 8);
    to_char e (Z.land id 0xff) ].

(** error.c 41-50 IFF_errorId *)
Definition IFF_errorId (id : Z) : M unit :=
  e <- ask ;;
  (fix loop (l : list Z) : M unit :=
     match l with
     | [] => ret tt
     | c :: r => IFF_error (chr c) ;;; loop r
     end) (IFF_idToString e id).

(** error.c 52-57 IFF_readError *)
Definition IFF_readError (chunkId : Z) (attributeName : string) : M unit :=
  IFF_error "Error reading '" ;;; IFF_errorId chunkId ;;;
  IFF_error ("'." ++ attributeName ++ nl)%string.

(** error.c 59-64 IFF_writeError *)
Definition IFF_writeError (chunkId : Z) (attributeName : string) : M unit :=
  IFF_error "Error writing '" ;;; IFF_errorId chunkId ;;;
  IFF_error ("'." ++ attributeName ++ nl)%string.
