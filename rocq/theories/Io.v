(** * io.c, id.c: primitive reads and writes, padding, skipping, IDs.

    Definitions only.  A C function returning IFF_Bool with an output
    parameter is modelled as a function returning an [option]. *)

From Coq Require Import ZArith List Bool String.
From Coq Require Import Strings.Byte.
From Verif Require Import Machine.
Import ListNotations.
Open Scope Z_scope.

(** ** Object representation of an unsigned integer in host byte order *)

Fixpoint le_load (l : list byte) : Z :=
  match l with
  | [] => 0
  | b :: r => b2z b + 256 * le_load r
  end.

Fixpoint le_store (n : nat) (v : Z) : list byte :=
  match n with
  | O => []
  | S n' => z2b v :: le_store n' (v / 256)
  end.

Definition native_load (e : env) (l : list byte) : Z :=
  if big_endian e then le_load (rev l) else le_load l.

Definition native_store (e : env) (n : nat) (v : Z) : list byte :=
  if big_endian e then rev (le_store n v) else le_store n v.

(** io.c 61, 81, 101, 119: (v & 0xff) << 8 | (v & 0xff00) >> 8 *)
Definition swap16 (v : Z) : Z :=
  Z.lor (Z.shiftl (Z.land v 0xff) 8) (Z.shiftr (Z.land v 0xff00) 8).

(** io.c 141, 158, 180, 197:
    (v & 0xff) << 24 | (v & 0xff00) << 8 | (v & 0xff0000) >> 8 | (v & 0xff000000) >> 24 *)
Definition swap32 (v : Z) : Z :=
  Z.lor (Z.lor (Z.lor (Z.shiftl (Z.land v 0xff) 24)
                      (Z.shiftl (Z.land v 0xff00) 8))
               (Z.shiftr (Z.land v 0xff0000) 8))
        (Z.shiftr (Z.land v 0xff000000) 24).

(** ** io.c: primitive types *)

(** io.c 26-40 IFF_readUByte *)
Definition IFF_readUByte (chunkId : Z) (attributeName : string) : M (option Z) :=
  ob <- fgetc ;;
  match ob with
  | None => IFF_readError chunkId attributeName ;;; ret None
  | Some b => ret (Some (b2z b))
  end.

(** io.c 42-51 IFF_writeUByte *)
Definition IFF_writeUByte (value chunkId : Z) (attributeName : string) : M bool :=
  ok <- fputc (z2b value) ;;
  if ok then ret true
  else IFF_writeError chunkId attributeName ;;; ret false.

(** io.c 53-73 IFF_readUWord *)
Definition IFF_readUWord (chunkId : Z) (attributeName : string) : M (option Z) :=
  e <- ask ;;
  l <- fread 2 ;;
  if zlength l =? 2 then
    let v := native_load e l in
    ret (Some (if big_endian e then v else wrap_u 16 (swap16 v)))
  else IFF_readError chunkId attributeName ;;; ret None.

(** io.c 75-91 IFF_writeUWord *)
Definition IFF_writeUWord (value chunkId : Z) (attributeName : string) : M bool :=
  e <- ask ;;
  let v := if big_endian e then value else wrap_u 16 (swap16 value) in
  ok <- fwrite (native_store e 2 v) ;;
  if ok then ret true
  else IFF_writeError chunkId attributeName ;;; ret false.

(** io.c 93-112 IFF_readWord: the operands are promoted to int, the result is
    converted to short *)
Definition IFF_readWord (chunkId : Z) (attributeName : string) : M (option Z) :=
  e <- ask ;;
  l <- fread 2 ;;
  if zlength l =? 2 then
    let v := wrap_s 16 (native_load e l) in
    ret (Some (if big_endian e then v else wrap_s 16 (swap16 v)))
  else IFF_readError chunkId attributeName ;;; ret None.

(** io.c 114-129 IFF_writeWord *)
Definition IFF_writeWord (value chunkId : Z) (attributeName : string) : M bool :=
  e <- ask ;;
  let v := if big_endian e then value else wrap_s 16 (swap16 value) in
  ok <- fwrite (native_store e 2 v) ;;
  if ok then ret true
  else IFF_writeError chunkId attributeName ;;; ret false.

(** io.c 131-150 IFF_readULong *)
Definition IFF_readULong (chunkId : Z) (attributeName : string) : M (option Z) :=
  e <- ask ;;
  l <- fread 4 ;;
  if zlength l =? 4 then
    let v := native_load e l in
    ret (Some (if big_endian e then v else wrap_u 32 (swap32 v)))
  else IFF_readError chunkId attributeName ;;; ret None.

(** io.c 152-168 IFF_writeULong *)
Definition IFF_writeULong (value chunkId : Z) (attributeName : string) : M bool :=
  e <- ask ;;
  let v := if big_endian e then value else wrap_u 32 (swap32 value) in
  ok <- fwrite (native_store e 4 v) ;;
  if ok then ret true
  else IFF_writeError chunkId attributeName ;;; ret false.

(** Byte swap of a signed Long (io.c 180, 197).  (v & 0xff) is an int, so
    shifting it left by 24 is a signed shift into the sign bit when it is at
    least 0x80: undefined in ISO C, two's complement wrapping on mainstream
    compilers.  The other operands stay in range; the last one is unsigned, so
    the disjunction is computed in unsigned int and converted back. *)
Definition swap_long (e : env) (v : Z) : M Z :=
  if strict_c e && (128 <=? Z.land v 0xff)
  then undefined UB_signed_shift
  else ret (wrap_s 32 (swap32 v)).

(** io.c 170-189 IFF_readLong *)
Definition IFF_readLong (chunkId : Z) (attributeName : string) : M (option Z) :=
  e <- ask ;;
  l <- fread 4 ;;
  if zlength l =? 4 then
    let v := wrap_s 32 (native_load e l) in
    if big_endian e then ret (Some v)
    else v' <- swap_long e v ;; ret (Some v')
  else IFF_readError chunkId attributeName ;;; ret None.

(** io.c 191-207 IFF_writeLong *)
Definition IFF_writeLong (value chunkId : Z) (attributeName : string) : M bool :=
  e <- ask ;;
  v <- (if big_endian e then ret value else swap_long e value) ;;
  ok <- fwrite (native_store e 4 v) ;;
  if ok then ret true
  else IFF_writeError chunkId attributeName ;;; ret false.

(** id.c 27-30 IFF_readId *)
Definition IFF_readId (chunkId : Z) (attributeName : string) : M (option Z) :=
  IFF_readULong chunkId attributeName.

(** id.c 32-35 IFF_writeId *)
Definition IFF_writeId (id chunkId : Z) (attributeName : string) : M bool :=
  IFF_writeULong id chunkId attributeName.

(** C's x % 2 != 0, also right for negative x *)
Definition c_odd (x : Z) : bool := negb (Z.rem x 2 =? 0).

(** io.c 209-227 IFF_skipUnknownBytes.  [long bytesToSkip] is printed with %d:
    an ISO C mismatch; in practice the value is shown. *)
Definition IFF_skipUnknownBytes (chunkId chunkSize bytesProcessed : Z) : M bool :=
  if bytesProcessed <? chunkSize then
    let n := chunkSize - bytesProcessed in
    if INT_MAX <? n then undefined UB_signed_overflow else
    ok <- fseek_cur n ;;
    if ok then
      e <- ask ;;
      if strict_c e then undefined UB_printf_type else
      IFF_error ("Cannot skip: " ++ dec n ++ " bytes in data chunk: '")%string ;;;
      IFF_errorId chunkId ;;;
      IFF_error ("'" ++ nl)%string ;;;
      ret true
    else ret false
  else ret true.

(** io.c 229-249 IFF_writeZeroFillerBytes.  The result of calloc is not
    checked: when it is NULL, fwrite reads through it.  [size_t bytesToSkip]
    is printed with %u: an ISO C mismatch where size_t is not unsigned int. *)
Definition IFF_writeZeroFillerBytes (chunkId chunkSize bytesProcessed : Z) : M bool :=
  if bytesProcessed <? chunkSize then
    let n := chunkSize - bytesProcessed in
    if INT_MAX <? n then undefined UB_signed_overflow else
    a <- malloc n ;;
    if negb a then undefined UB_null_deref else
    ok <- fwrite (repeat x00 (Z.to_nat n)) ;;
    if ok then ret true
    else
      e <- ask ;;
      if strict_c e && lp64 e then undefined UB_printf_type else
      IFF_error ("Cannot write: " ++ dec n ++ " zero bytes in data chunk: '")%string ;;;
      IFF_errorId chunkId ;;;
      IFF_error ("'" ++ nl)%string ;;;
      ret false
  else ret true.

(** io.c 251-269 IFF_readPaddingByte *)
Definition IFF_readPaddingByte (chunkSize chunkId : Z) : M bool :=
  if c_odd chunkSize then
    ob <- fgetc ;;
    match ob with
    | None =>
        IFF_error "Unexpected end of file, while reading padding byte of '" ;;;
        IFF_errorId chunkId ;;;
        IFF_error ("'" ++ nl)%string ;;;
        ret false
    | Some b =>
        if b2z b =? 0 then ret true
        else IFF_error ("WARNING: Padding byte is non-zero!" ++ nl)%string ;;; ret true
    end
  else ret true.

(** io.c 271-287 IFF_writePaddingByte *)
Definition IFF_writePaddingByte (chunkSize chunkId : Z) : M bool :=
  if c_odd chunkSize then
    ok <- fputc x00 ;;
    if ok then ret true
    else
      IFF_error "Cannot write padding byte of '" ;;;
      IFF_errorId chunkId ;;;
      IFF_error ("'" ++ nl)%string ;;;
      ret false
  else ret true.

(** ** id.c *)

(** id.h 28 IFF_MAKEID, on character codes *)
Definition IFF_MAKEID (a b c d : Z) : Z :=
  Z.lor (Z.lor (Z.lor (Z.shiftl a 24) (Z.shiftl b 16)) (Z.shiftl c 8)) d.

Local Notation "'ID!' s" :=
  (match list_ascii_of_string s with
   | [a; b; c; d] => IFF_MAKEID (b2z (Ascii.byte_of_ascii a)) (b2z (Ascii.byte_of_ascii b))
                                (b2z (Ascii.byte_of_ascii c)) (b2z (Ascii.byte_of_ascii d))
   | _ => 0
   end) (at level 0, s at level 0).

(** form.h 26, cat.h 26, list.h 26, prop.h 26, rawchunk.h 26, chunk.c 30 *)
Definition IFF_ID_FORM : Z := Eval vm_compute in ID! "FORM".
Definition IFF_ID_CAT : Z := Eval vm_compute in ID! "CAT ".
Definition IFF_ID_LIST : Z := Eval vm_compute in ID! "LIST".
Definition IFF_ID_PROP : Z := Eval vm_compute in ID! "PROP".
Definition IFF_ID_JJJJ : Z := Eval vm_compute in ID! "JJJJ".
Definition IFF_ID_TEXT : Z := Eval vm_compute in ID! "TEXT".
Definition ID_EMPTY : Z := Eval vm_compute in ID! "    ".

(** form.c 33-61 ID_FOR1..ID_LIS9 *)
Definition reserved_versions : list Z := Eval vm_compute in
  [ ID! "LIS1"; ID! "LIS2"; ID! "LIS3"; ID! "LIS4"; ID! "LIS5"; ID! "LIS6"; ID! "LIS7"; ID! "LIS8"; ID! "LIS9";
    ID! "FOR1"; ID! "FOR2"; ID! "FOR3"; ID! "FOR4"; ID! "FOR5"; ID! "FOR6"; ID! "FOR7"; ID! "FOR8"; ID! "FOR9";
    ID! "CAT1"; ID! "CAT2"; ID! "CAT3"; ID! "CAT4"; ID! "CAT5"; ID! "CAT6"; ID! "CAT7"; ID! "CAT8"; ID! "CAT9" ].

(** id.c 54-61: the character loop of IFF_checkId *)
Fixpoint checkIdChars (l : list Z) : M bool :=
  match l with
  | [] => ret true
  | c :: r =>
      if (c <? 0x20) || (0x7e <? c) then
        IFF_error ("Illegal character: '" ++ chr c ++ "' in ID!" ++ nl)%string ;;; ret false
      else checkIdChars r
  end.

(** id.c 45-72 IFF_checkId *)
Definition IFF_checkId (id : Z) : M bool :=
  e <- ask ;;
  let id2 := IFF_idToString e id in
  ok <- checkIdChars id2 ;;
  if negb ok then ret false
  else if hd 0 id2 =? 0x20 then
    IFF_error ("Spaces may not precede an ID!" ++ nl)%string ;;; ret false
  else ret true.

(** form.c 104-112: the character loop of IFF_checkFormType *)
Fixpoint checkFormTypeChars (l : list Z) : M bool :=
  match l with
  | [] => ret true
  | c :: r =>
      if ((0x61 <=? c) && (c <=? 0x7a)) || (c =? 0x2e) then
        IFF_error ("No lowercase characters or punctuation marks allowed in a form type ID!" ++ nl)%string ;;;
        ret false
      else checkFormTypeChars r
  end.

(** form.c 116-148: comparison with the reserved IDs *)
Definition is_reserved_form_type (formType : Z) : bool :=
  existsb (Z.eqb formType)
    ([IFF_ID_LIST; IFF_ID_FORM; IFF_ID_PROP; IFF_ID_CAT; IFF_ID_JJJJ] ++ reserved_versions).

(** form.c 93-158 IFF_checkFormType *)
Definition IFF_checkFormType (formType : Z) : M bool :=
  ok <- IFF_checkId formType ;;
  if negb ok then ret false else
  e <- ask ;;
  ok2 <- checkFormTypeChars (IFF_idToString e formType) ;;
  if negb ok2 then ret false else
  if is_reserved_form_type formType then
    IFF_error "Form type: '" ;;; IFF_errorId formType ;;;
    IFF_error ("' not allowed!" ++ nl)%string ;;; ret false
  else ret true.
