(** * Pretty printing (definitions only): what is sent to standard output. *)

From Coq Require Import ZArith List Bool String Ascii.
From Coq Require Import Strings.Byte.
From Verif Require Import Machine Io Types Build Write.
Import ListNotations.
Open Scope Z_scope.

(** util.c 25-37 IFF_printIndent *)
Fixpoint indent (level : nat) : string :=
  match level with
  | O => EmptyString
  | S n => ("  " ++ indent n)%string
  end.
Definition IFF_printIndent (level : nat) (s : string) : string := (indent level ++ s)%string.

(** id.c 74-83 IFF_printId.  %c of a char prints its low 8 bits, whether char
    is signed or not. *)
Definition IFF_printId (id : Z) : string :=
  (chr (Z.shiftr id 24) ++ chr (Z.shiftr (Z.land id 0xff0000) 16)
   ++ chr (Z.shiftr (Z.land id 0xff00) 8) ++ chr (Z.land id 0xff))%string.

Definition byte_string (b : byte) : string := String (ascii_of_byte b) EmptyString.

Fixpoint text_of (l : list byte) : string :=
  match l with
  | [] => EmptyString
  | b :: r => (byte_string b ++ text_of r)%string
  end.

(** %x of a value below 16 *)
Definition hex_digit (d : Z) : string :=
  if d <? 10 then chr (48 + d) else chr (87 + d).

(** %x of a byte *)
Definition hex_byte (b : byte) : string :=
  let v := b2z b in
  if v <=? 0xf then hex_digit v else (hex_digit (v / 16) ++ hex_digit (v mod 16))%string.

(** rawchunk.c 115-129 IFF_printText.  A negative chunkSize prints nothing. *)
Definition IFF_printText (size : Z) (d : option (list byte)) (level : nat) : outcome string :=
  l <-o block_bytes d size ;;
  Done (IFF_printIndent level ("text = '" ++ nl) ++ IFF_printIndent (S level) ""
        ++ text_of l ++ nl ++ IFF_printIndent level ("';" ++ nl))%string.

(** the loop of rawchunk.c 139-154 *)
Fixpoint print_bytes (l : list byte) (i : Z) (level : nat) : string :=
  match l with
  | [] => EmptyString
  | b :: r =>
      ((if ((0 <? i) && (i mod 10 =? 0))%Z then nl ++ IFF_printIndent (S level) "" else "")
       ++ (if (b2z b <=? 0xf)%Z then "0" else "")
       ++ hex_byte b ++ " " ++ print_bytes r (i + 1) level)%string
  end.

(** rawchunk.c 131-158 IFF_printRaw *)
Definition IFF_printRaw (size : Z) (d : option (list byte)) (level : nat) : outcome string :=
  l <-o block_bytes d size ;;
  Done (IFF_printIndent level ("bytes = " ++ nl) ++ IFF_printIndent (S level) ""
        ++ print_bytes l 0 level ++ nl ++ IFF_printIndent level (";" ++ nl))%string.

(** rawchunk.c 160-168 IFF_printRawChunk *)
Definition IFF_printRawChunk (c : chunk) (level : nat) : outcome string :=
  match c with
  | CRaw cid size d =>
      if cid =? IFF_ID_TEXT then IFF_printText size d level else IFF_printRaw size d level
  | _ => Undefined UB_type_confusion
  end.

(** tests/hello.c 99-106 TEST_printHello *)
Fixpoint print_fields (ds : list fdesc) (vals : list (fkind * Z)) (level : nat) : string :=
  match ds, vals with
  | d :: ds', (_, v) :: vals' =>
      (IFF_printIndent level (fd_name d ++ " = " ++ fd_print d v ++ ";" ++ nl)
       ++ print_fields ds' vals' level)%string
  | _, _ => EmptyString
  end.

Definition print_fields_chunk (s : fspec) (c : chunk) (level : nat) : outcome string :=
  match c with
  | CFields _ _ vals =>
      if fkinds_eqb (map fst vals) (map fd_kind (fs_fields s))
      then Done (print_fields (fs_fields s) vals level)
      else Undefined UB_type_confusion
  | _ => Undefined UB_type_confusion
  end.

(** group.c 209-214 IFF_printGroupType *)
Definition IFF_printGroupType (groupTypeName : string) (groupType : Z) (level : nat) : string :=
  (IFF_printIndent level (groupTypeName ++ " = '") ++ IFF_printId groupType ++ "';" ++ nl)%string.

Section Print.
  Variable print_chunk : chunk -> nat -> Z -> outcome string.

  (** the loops of group.c 222-223 and list.c 236-237 *)
  Fixpoint print_all (l : list chunk) (level : nat) (formType : Z) : outcome string :=
    match l with
    | [] => Done EmptyString
    | c :: r =>
        s <-o print_chunk c level formType ;;
        t <-o print_all r level formType ;;
        Done (s ++ t)%string
    end.

  (** group.c 216-226 IFF_printGroupSubChunks; list.c 230-240
      printListPropChunks is the same with [opening] "prop = [" *)
  Definition print_array (opening : string) (l : list chunk) (formType : Z) (level : nat)
    : outcome string :=
    s <-o print_all l (S level) formType ;;
    Done (IFF_printIndent level (opening ++ nl) ++ s ++ IFF_printIndent level ("];" ++ nl))%string.

  (** group.c 228-232 IFF_printGroup (form.c 184-187 IFF_printForm, cat.c
      132-135 IFF_printCAT, prop.c 91-94 IFF_printProp forward) *)
  Definition IFF_printGroup (c : chunk) (level : nat) (groupTypeName : string) : outcome string :=
    match c with
    | CGroup _ _ g l | CList _ _ g _ l =>
        s <-o print_array "[" l g level ;;
        Done (IFF_printGroupType groupTypeName g level ++ s)%string
    | _ => Undefined UB_type_confusion
    end.

  (** list.c 242-249 IFF_printList *)
  Definition IFF_printList (c : chunk) (level : nat) : outcome string :=
    match c with
    | CList _ _ g p l =>
        s1 <-o print_array "prop = [" p g level ;;
        s2 <-o print_array "[" l g level ;;
        Done (IFF_printGroupType "contentsType" g level ++ s1 ++ s2)%string
    | _ => Undefined UB_type_confusion
    end.

  (** chunkType->printExtensionChunk *)
  Definition printExtensionChunk (h : handler) (c : chunk) (level : nat) : outcome string :=
    match h with
    | HForm | HProp => IFF_printGroup c level "formType"
    | HCAT => IFF_printGroup c level "contentsType"
    | HList => IFF_printList c level
    | HRaw => IFF_printRawChunk c level
    | HFields s => print_fields_chunk s c level
    end.
End Print.

(** chunk.c 115-125 IFF_printChunk *)
Fixpoint IFF_printChunk (rg : option registry) (c : chunk) (level : nat) (formType : Z) {struct c}
  : outcome string :=
  h <-o find_handler rg formType (chunkId c) ;;
  s <-o printExtensionChunk (IFF_printChunk rg) h c level ;;
  Done (IFF_printIndent level "'" ++ IFF_printId (chunkId c) ++ "' = {" ++ nl
        ++ IFF_printIndent (S level) ("chunkSize = " ++ dec (chunkSize c) ++ ";" ++ nl)
        ++ s ++ IFF_printIndent level ("}" ++ nl ++ nl))%string.
