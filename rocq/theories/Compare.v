(** * Comparing chunks (definitions only). *)

From Coq Require Import ZArith List Bool String.
From Coq Require Import Strings.Byte.
From Verif Require Import Machine Io Types Build Write.
Import ListNotations.
Open Scope Z_scope.

Fixpoint bytes_eqb (l1 l2 : list byte) : bool :=
  match l1, l2 with
  | [], [] => true
  | a :: r1, b :: r2 => Byte.eqb a b && bytes_eqb r1 r2
  | _, _ => false
  end.

(** rawchunk.c 170-176 IFF_compareRawChunk: memcmp over the first chunk's size *)
Definition IFF_compareRawChunk (e : env) (c1 c2 : chunk) : outcome bool :=
  match c1, c2 with
  | CRaw _ s1 d1, CRaw _ _ d2 =>
      let n := wrap_u (size_t_bits e) s1 in
      l1 <-o block_bytes d1 n ;;
      l2 <-o block_bytes d2 n ;;
      Done (bytes_eqb l1 l2)
  | _, _ => Undefined UB_type_confusion
  end.

(** tests/hello.c 108-123 TEST_compareHello, tests/bye.c 92-104 TEST_compareBye *)
Fixpoint vals_eqb (v1 v2 : list (fkind * Z)) : bool :=
  match v1, v2 with
  | (_, a) :: r1, (_, b) :: r2 => (a =? b) && vals_eqb r1 r2
  | _, _ => true
  end.

Definition compare_fields_chunk (s : fspec) (c1 c2 : chunk) : outcome bool :=
  match c1, c2 with
  | CFields _ _ v1, CFields _ _ v2 =>
      if fkinds_eqb (map fst v1) (map fd_kind (fs_fields s))
         && fkinds_eqb (map fst v2) (map fd_kind (fs_fields s))
      then Done (vals_eqb v1 v2)
      else Undefined UB_type_confusion
  | _, _ => Undefined UB_type_confusion
  end.

Section Compare.
  Variable compare_chunk : chunk -> chunk -> Z -> outcome bool.

  (** the loop of group.c 240-244 (the lengths are equal) *)
  Fixpoint compare_all (l1 l2 : list chunk) (formType : Z) : outcome bool :=
    match l1, l2 with
    | c1 :: r1, c2 :: r2 =>
        b <-o compare_chunk c1 c2 formType ;;
        if b then compare_all r1 r2 formType else Done false
    | _, _ => Done true
    end.

  (** group.c 234-250 IFF_compareGroup (form.c 189-192 IFF_compareForm,
      cat.c 137-140 IFF_compareCAT, prop.c 96-99 IFF_compareProp forward) *)
  Definition IFF_compareGroup (c1 c2 : chunk) : outcome bool :=
    match c1 with
    | CGroup _ _ g1 l1 | CList _ _ g1 _ l1 =>
        match as_group c2 with
        | Some (g2, l2) =>
            if (g1 =? g2) && (zlength l1 =? zlength l2)
            then compare_all l1 l2 g1
            else Done false
        | None => Undefined UB_type_confusion
        end
    | _ => Undefined UB_type_confusion
    end.

  (** the loop of list.c 257-261: IFF_compareProp is called directly *)
  Fixpoint compare_props (p1 p2 : list chunk) : outcome bool :=
    match p1, p2 with
    | c1 :: r1, c2 :: r2 =>
        b <-o IFF_compareGroup c1 c2 ;;
        if b then compare_props r1 r2 else Done false
    | _, _ => Done true
    end.

  (** list.c 251-278 compareListPropChunks, IFF_compareList *)
  Definition IFF_compareList (c1 c2 : chunk) : outcome bool :=
    match c1 with
    | CList _ _ g1 p1 l1 =>
        match c2 with
        | CList _ _ g2 p2 l2 =>
            b <-o (if zlength p1 =? zlength p2 then compare_props p1 p2 else Done false) ;;
            if b then
              if (g1 =? g2) && (zlength l1 =? zlength l2)
              then compare_all l1 l2 g1
              else Done false
            else Done false
        | _ => Undefined UB_type_confusion
        end
    | _ => Undefined UB_type_confusion
    end.

  (** chunkType->compareExtensionChunk *)
  Definition compareExtensionChunk (e : env) (h : handler) (c1 c2 : chunk) : outcome bool :=
    match h with
    | HForm | HCAT | HProp => IFF_compareGroup c1 c2
    | HList => IFF_compareList c1 c2
    | HRaw => IFF_compareRawChunk e c1 c2
    | HFields s => compare_fields_chunk s c1 c2
    end.
End Compare.

(** chunk.c 127-136 IFF_compareChunk *)
Fixpoint IFF_compareChunk (e : env) (rg : option registry) (c1 c2 : chunk) (formType : Z) {struct c1}
  : outcome bool :=
  if (chunkId c1 =? chunkId c2) && (chunkSize c1 =? chunkSize c2) then
    h <-o find_handler rg formType (chunkId c1) ;;
    compareExtensionChunk (IFF_compareChunk e rg) e h c1 c2
  else Done false.
