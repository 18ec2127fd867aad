(** * Chunks, fields, handlers and registries (definitions only).

    field.c, chunkregistry.c, defaultregistry.c and the struct types. *)

From Coq Require Import ZArith List Bool String.
From Coq Require Import Strings.Byte.
From Verif Require Import Machine Io.
Import ListNotations.
Open Scope Z_scope.

(** ** field.c *)

(** The field types: field.c 41-219, one read and one write function each *)
Inductive fkind := FUByte | FUWord | FWord | FULong | FLong | FId.

Definition fkind_eqb (a b : fkind) : bool :=
  match a, b with
  | FUByte, FUByte | FUWord, FUWord | FWord, FWord
  | FULong, FULong | FLong, FLong | FId, FId => true
  | _, _ => false
  end.

Fixpoint fkinds_eqb (l1 l2 : list fkind) : bool :=
  match l1, l2 with
  | [], [] => true
  | a :: r1, b :: r2 => fkind_eqb a b && fkinds_eqb r1 r2
  | _, _ => false
  end.

(** sizeof of the field types: ifftypes.h.in 27-47 *)
Definition fieldSize (k : fkind) : Z :=
  match k with
  | FUByte => 1
  | FUWord | FWord => 2
  | FULong | FLong | FId => 4
  end.

(** field.h 28-33 IFF_FieldStatus *)
Inductive fstatus := FIELD_MORE | FIELD_FAILURE | FIELD_LAST.

(** field.c 26-29 IFF_deriveSuccess *)
Definition IFF_deriveSuccess (s : fstatus) : bool :=
  match s with FIELD_FAILURE => false | _ => true end.

(** field.c 31-34 fieldDoesNotFitInChunk: both operands of [>] are size_t *)
Definition fieldDoesNotFitInChunk (e : env) (fsize chunkSize bytesProcessed : Z) : bool :=
  let k := size_t_bits e in
  wrap_u k (wrap_u k chunkSize - fsize) <? wrap_u k bytesProcessed.

(** field.c 36-39 increaseBytesProcessed *)
Definition increaseBytesProcessed (bytesProcessed fsize : Z) : Z :=
  wrap_s 32 (bytesProcessed + fsize).

Definition read_prim (k : fkind) : Z -> string -> M (option Z) :=
  match k with
  | FUByte => IFF_readUByte
  | FUWord => IFF_readUWord
  | FWord => IFF_readWord
  | FULong => IFF_readULong
  | FLong => IFF_readLong
  | FId => IFF_readId
  end.

Definition write_prim (k : fkind) : Z -> Z -> string -> M bool :=
  match k with
  | FUByte => IFF_writeUByte
  | FUWord => IFF_writeUWord
  | FWord => IFF_writeWord
  | FULong => IFF_writeULong
  | FLong => IFF_writeLong
  | FId => IFF_writeId
  end.

(** field.c 41-54 IFF_readUByteField, 71-84 IFF_readUWordField, 101-114
    IFF_readWordField, 131-144 IFF_readULongField, 161-174 IFF_readLongField,
    191-204 IFF_readIdField (the same code for each type).  Returns the
    status, the value when one was read, and the new bytesProcessed. *)
Definition IFF_readField (k : fkind) (chunkId chunkSize : Z) (attributeName : string)
    (bytesProcessed : Z) : M (fstatus * option Z * Z) :=
  e <- ask ;;
  if fieldDoesNotFitInChunk e (fieldSize k) chunkSize bytesProcessed
  then ret (FIELD_LAST, None, bytesProcessed)
  else
    ov <- read_prim k chunkId attributeName ;;
    match ov with
    | Some v => ret (FIELD_MORE, Some v, increaseBytesProcessed bytesProcessed (fieldSize k))
    | None => ret (FIELD_FAILURE, None, bytesProcessed)
    end.

(** field.c 56-69 IFF_writeUByteField, 86-99 IFF_writeUWordField, 116-129
    IFF_writeWordField, 146-159 IFF_writeULongField, 176-189
    IFF_writeLongField, 206-219 IFF_writeIdField *)
Definition IFF_writeField (k : fkind) (value chunkId chunkSize : Z) (attributeName : string)
    (bytesProcessed : Z) : M (fstatus * Z) :=
  e <- ask ;;
  if fieldDoesNotFitInChunk e (fieldSize k) chunkSize bytesProcessed
  then ret (FIELD_LAST, bytesProcessed)
  else
    ok <- write_prim k value chunkId attributeName ;;
    if ok then ret (FIELD_MORE, increaseBytesProcessed bytesProcessed (fieldSize k))
    else ret (FIELD_FAILURE, bytesProcessed).

(** ** Chunks

    The tree a program sees through IFF_Chunk pointers, as values.  [CRaw] is
    an IFF_RawChunk (rawchunk.h 29-52); its data is [None] while the block is
    uninitialised.  [CGroup] is an IFF_Form, IFF_CAT or IFF_Prop (group.h,
    form.h, cat.h, prop.h: the same struct layout).  [CList] is an IFF_List
    (list.h): an IFF_Group followed by the PROP array.  [CFields] is an
    application chunk made of fields, as tests/hello.h and tests/bye.h.
    Parent pointers are implied by the tree (the heap model has them). *)
Inductive chunk :=
| CRaw (chunkId chunkSize : Z) (chunkData : option (list byte))
| CGroup (chunkId chunkSize groupType : Z) (subs : list chunk)
| CList (chunkId chunkSize contentsType : Z) (props subs : list chunk)
| CFields (chunkId chunkSize : Z) (vals : list (fkind * Z)).

(** chunk.h 28-48: the members every chunk struct starts with *)
Definition chunkId (c : chunk) : Z :=
  match c with CRaw i _ _ | CGroup i _ _ _ | CList i _ _ _ _ | CFields i _ _ => i end.
Definition chunkSize (c : chunk) : Z :=
  match c with CRaw _ s _ | CGroup _ s _ _ | CList _ s _ _ _ | CFields _ s _ => s end.

Definition set_chunkSize (c : chunk) (s : Z) : chunk :=
  match c with
  | CRaw i _ d => CRaw i s d
  | CGroup i _ g l => CGroup i s g l
  | CList i _ g p l => CList i s g p l
  | CFields i _ v => CFields i s v
  end.

(** Accessing a chunk as an IFF_Group: its groupType and sub chunks.  Allowed
    for groups and lists; other structs have no such members. *)
Definition as_group (c : chunk) : option (Z * list chunk) :=
  match c with
  | CGroup _ _ g l => Some (g, l)
  | CList _ _ g _ l => Some (g, l)
  | _ => None
  end.

Definition set_groupType (c : chunk) (g : Z) : chunk :=
  match c with
  | CGroup i s _ l => CGroup i s g l
  | CList i s _ p l => CList i s g p l
  | _ => c
  end.

Definition set_subs (c : chunk) (l : list chunk) : chunk :=
  match c with
  | CGroup i s g _ => CGroup i s g l
  | CList i s g p _ => CList i s g p l
  | _ => c
  end.

Definition set_props (c : chunk) (p : list chunk) : chunk :=
  match c with
  | CList i s g _ l => CList i s g p l
  | _ => c
  end.

(** ** Handlers and registries *)

(** A field-list application chunk: what tests/hello.c and tests/bye.c define
    by hand.  [fd_print] renders the value (the printf conversion used);
    [fs_check] returns the message of a failed check. *)
Record fdesc := mkFdesc { fd_name : string; fd_kind : fkind; fd_print : Z -> string }.
Record fspec := mkFspec { fs_fields : list fdesc; fs_check : list Z -> option string }.

(** The function pointers of an IFF_ChunkType (chunkregistry.h 37-62), named by
    the family they come from. *)
Inductive handler := HForm | HCAT | HList | HProp | HRaw | HFields (s : fspec).

Record chunktype := mkChunkType { ct_id : Z; ct_handler : handler }.

(** chunkregistry.h 64-75 IFF_ChunkTypesNode: a node and its chain of parents,
    innermost first; NULL is the empty chain *)
Definition chain := list (list chunktype).

(** chunkregistry.h 77-104 *)
Record registry := mkRegistry {
  rg_forms : list (Z * chain);
  rg_global : chain;
  rg_default : option chunktype
}.

(** bsearch of glibc on an array sorted by [key] (the comparison functions of
    chunkregistry.c 27-38 compareFormChunkTypes and 53-64 compareChunkTypes
    order by the ID) *)
Fixpoint bsearch_loop {A} (key : A -> Z) (k : Z) (arr : list A) (fuel l u : nat) : option A :=
  match fuel with
  | O => None
  | S f =>
      if Nat.ltb l u then
        let idx := Nat.div2 (l + u) in
        match nth_error arr idx with
        | None => None
        | Some x =>
            if k <? key x then bsearch_loop key k arr f l idx
            else if key x <? k then bsearch_loop key k arr f (S idx) u
            else Some x
        end
      else None
  end.

Definition bsearch {A} (key : A -> Z) (k : Z) (arr : list A) : option A :=
  bsearch_loop key k arr (S (List.length arr)) 0 (List.length arr).

(** chunkregistry.c 40-51 getFormChunkTypes *)
Definition getFormChunkTypes (formType : Z) (rg : registry) : option (Z * chain) :=
  bsearch fst formType (rg_forms rg).

(** chunkregistry.c 66-83 getChunkType *)
Fixpoint getChunkType (cid : Z) (node : chain) : option chunktype :=
  match node with
  | [] => None
  | tbl :: parent =>
      match bsearch ct_id cid tbl with
      | None => getChunkType cid parent
      | Some ct => Some ct
      end
  end.

(** chunkregistry.c 85-105 IFF_findChunkType *)
Definition IFF_findChunkType (rg : option registry) (formType cid : Z) : option chunktype :=
  match rg with
  | None => None
  | Some r =>
      let result :=
        match getFormChunkTypes formType r with
        | None => getChunkType cid (rg_global r)
        | Some (_, node) => getChunkType cid node
        end in
      match result with
      | None => rg_default r
      | Some ct => Some ct
      end
  end.

(** chunkType->handler: dereferences the result of IFF_findChunkType *)
Definition find_handler (rg : option registry) (formType cid : Z) : outcome handler :=
  match IFF_findChunkType rg formType cid with
  | None => Undefined UB_null_deref
  | Some ct => Done (ct_handler ct)
  end.

(** defaultregistry.c 31-36 IFF_globalChunkTypes *)
Definition IFF_globalChunkTypes : list chunktype :=
  [ mkChunkType IFF_ID_CAT HCAT; mkChunkType IFF_ID_FORM HForm;
    mkChunkType IFF_ID_LIST HList; mkChunkType IFF_ID_PROP HProp ].

(** defaultregistry.c 38-40 *)
Definition IFF_globalChunkTypesNode : chain := [IFF_globalChunkTypes].

(** defaultregistry.c 42 *)
Definition IFF_defaultChunkType : chunktype := mkChunkType 0 HRaw.

(** defaultregistry.c 44-46 *)
Definition IFF_defaultChunkRegistry : registry :=
  mkRegistry [] IFF_globalChunkTypesNode (Some IFF_defaultChunkType).

(** defaultregistry.h 26-27 IFF_EXTEND_DEFAULT_REGISTRY_WITH_FORM_CHUNK_TYPES *)
Definition IFF_EXTEND_DEFAULT_REGISTRY_WITH_FORM_CHUNK_TYPES
    (formChunkTypes : list (Z * chain)) : registry :=
  mkRegistry formChunkTypes IFF_globalChunkTypesNode (Some IFF_defaultChunkType).

(** iff.c 32-38 selectChunkRegistry *)
Definition selectChunkRegistry (rg : option registry) : option registry :=
  match rg with
  | None => Some IFF_defaultChunkRegistry
  | Some r => Some r
  end.

(** ** Positions *)

(** A position in a tree: which PROP / which sub chunk to descend into. *)
Inductive step := InProp (n : nat) | InSub (n : nat).
Definition path := list step.

Fixpoint replace_nth {A} (n : nat) (x : A) (l : list A) : list A :=
  match n, l with
  | _, [] => []
  | O, _ :: r => x :: r
  | S n', y :: r => y :: replace_nth n' x r
  end.

Definition get_child (c : chunk) (s : step) : option chunk :=
  match s, c with
  | InSub n, CGroup _ _ _ l => nth_error l n
  | InSub n, CList _ _ _ _ l => nth_error l n
  | InProp n, CList _ _ _ p _ => nth_error p n
  | _, _ => None
  end.

Definition set_child (c : chunk) (s : step) (x : chunk) : chunk :=
  match s, c with
  | InSub n, CGroup i z g l => CGroup i z g (replace_nth n x l)
  | InSub n, CList i z g p l => CList i z g p (replace_nth n x l)
  | InProp n, CList i z g p l => CList i z g (replace_nth n x p) l
  | _, _ => c
  end.
