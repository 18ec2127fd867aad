(** * Specification for C87: the text of a tree, line by line *)

From Coq Require Import ZArith List Bool String Ascii.
From Coq Require Import Strings.Byte.
From Verif Require Import Machine Types Spec.
Import ListNotations.
Open Scope Z_scope.

(** A line: how deep it is indented, and what it says. *)
Definition line : Type := (nat * string)%type.

Fixpoint spaces (n : nat) : string := match n with O => EmptyString | S n => String " " (spaces n) end.
(** Two spaces for each level; every line is ended. *)
Fixpoint text_of_lines (ls : list line) : string :=
  match ls with
  | [] => EmptyString
  | (d, s) :: r => (spaces (2 * d) ++ s ++ String "010" (text_of_lines r))%string
  end.

(** Bytes as they are *)
Fixpoint verbatim (l : list byte) : string :=
  match l with [] => EmptyString | b :: r => String (ascii_of_byte b) (verbatim r) end.
(** The four characters of an ID *)
Definition id_name (id : Z) : string := verbatim (be32 id).

(** Bytes as two digits each, a space after each *)
Definition digit (n : Z) : string := match String.get (Z.to_nat n) "0123456789abcdef" with Some a => String a EmptyString | None => EmptyString end.
Fixpoint dump (l : list byte) : string :=
  match l with [] => EmptyString | b :: r => (digit (b2z b / 16) ++ digit (b2z b mod 16) ++ " " ++ dump r)%string end.
(** Ten in a line, the last line excepted *)
Inductive Rows : list byte -> list (list byte) -> Prop :=
| R_last : forall l, (List.length l <= 10)%nat -> Rows l [l]
| R_more : forall r l rs, List.length r = 10%nat -> l <> [] -> Rows l rs -> Rows (r ++ l) (r :: rs).

(** The bytes that belong to a data chunk: as many as its size says *)
Definition Declared (size : Z) (d : option (list byte)) (l : list byte) : Prop :=
  (size <= 0 /\ l = []) \/ exists more, d = Some (l ++ more) /\ zlength l = size.

(** Numbers, in decimal *)
Definition value_of_digit (a : ascii) : option Z :=
  let n := Z.of_nat (nat_of_ascii a) in if (48 <=? n) && (n <=? 57) then Some (n - 48) else None.
Fixpoint read_digits (acc : Z) (s : string) : option Z :=
  match s with
  | EmptyString => Some acc
  | String a r => match value_of_digit a with Some v => read_digits (10 * acc + v) r | None => None end
  end.
(** [Decimal s n]: [s] is the usual way to write [n]. *)
Definition Decimal (s : string) (n : Z) : Prop :=
  (exists t, s = String "-" t /\ n < 0 /\ read_digits 0 t = Some (- n) /\ (forall r, t <> String "0" r)) \/
  (0 <= n /\ read_digits 0 s = Some n /\ s <> EmptyString /\ (forall r, s = String "0" r -> r = EmptyString)).

Definition type_label (i : Z) : string := if i =? CAT_ID then "contentsType" else "formType".

(** One line for each field of an application's chunk *)
Definition field_lines (d : nat) (spec : fspec) (vals : list (fkind * Z)) : list line :=
  map (fun x : fdesc * (fkind * Z) => (d, (fd_name (fst x) ++ " = " ++ fd_print (fst x) (snd (snd x)) ++ ";")%string)) (combine (fs_fields spec) vals).

(** Every chunk is a paragraph in braces, its ID and size first and an empty
    line behind; the members of groups are paragraphs one level deeper, in
    brackets. *)
Inductive Doc (app : apps) : Z -> nat -> chunk -> list line -> Prop :=
| D_chunk : forall ft d c size body, Decimal size (chunkSize c) -> Body app ft d c body ->
    Doc app ft d c ((d, "'" ++ id_name (chunkId c) ++ "' = {") :: (S d, "chunkSize = " ++ size ++ ";") :: body ++ [(d, "}"); (O, "")])%string
with Body (app : apps) : Z -> nat -> chunk -> list line -> Prop :=
| B_text : forall ft d s data l, Declared s data l ->
    Body app ft d (CRaw TEXT_ID s data) [(d, "text = '"); (S d, verbatim l); (d, "';")]%string
| B_bytes : forall ft d i s data l rows, i <> TEXT_ID -> Declared s data l -> Rows l rows ->
    Body app ft d (CRaw i s data) ((d, "bytes = ") :: map (fun r => (S d, dump r)) rows ++ [(d, ";")])%string
| B_fields : forall ft d i s vals spec, app ft i = Some spec -> Body app ft d (CFields i s vals) (field_lines d spec vals)
| B_group : forall ft d i s g l docs, Docs app g (S d) l docs ->
    Body app ft d (CGroup i s g l) ((d, type_label i ++ " = '" ++ id_name g ++ "';") :: (d, "[") :: docs ++ [(d, "];")])%string
| B_list : forall ft d i s g p l pdocs docs, Docs app g (S d) p pdocs -> Docs app g (S d) l docs ->
    Body app ft d (CList i s g p l)
      ((d, "contentsType = '" ++ id_name g ++ "';") :: (d, "prop = [") :: pdocs ++ (d, "];") :: (d, "[") :: docs ++ [(d, "];")])%string
with Docs (app : apps) : Z -> nat -> list chunk -> list line -> Prop :=
| Ds_nil : forall ft d, Docs app ft d [] []
| Ds_cons : forall ft d c l doc docs, Doc app ft d c doc -> Docs app ft d l docs -> Docs app ft d (c :: l) (doc ++ docs).

(** Every data chunk of the tree has the data its size announces. *)
Definition HasData (c : chunk) : Prop := forall i s d, InTree (CRaw i s d) c -> exists l, Declared s d l.
