(** * Creating and growing chunks: chunk.c, group.c, form.c, cat.c, list.c,
    prop.c, rawchunk.c (definitions only). *)

From Coq Require Import ZArith List Bool String.
From Coq Require Import Strings.Byte.
From Verif Require Import Machine Io Types.
Import ListNotations.
Open Scope Z_scope.

(** ifftypes.h.in 25 *)
Definition IFF_ID_SIZE : Z := 4.

(** Struct sizes passed to malloc (LP64 layout).  Only the allocation oracle
    sees them. *)
Definition sizeof_Group : Z := 32.
Definition sizeof_List : Z := 48.
Definition sizeof_RawChunk : Z := 24.
Definition sizeof_Fields (s : fspec) : Z := 64.
Definition sizeof_pointer : Z := 8.

(** group.c 270-279 IFF_incrementChunkSize.  chunkSize + IFF_ID_SIZE is an int
    addition; adding sizeof makes the rest size_t, converted back to int. *)
Definition IFF_incrementChunkSize (size : Z) (c : chunk) : outcome Z :=
  if INT_MAX <? size + IFF_ID_SIZE then Undefined UB_signed_overflow else
  let returnValue := wrap_s 32 (size + IFF_ID_SIZE + 4 + chunkSize c) in
  if c_odd (chunkSize c) then
    if returnValue =? INT_MAX then Undefined UB_signed_overflow
    else Done (returnValue + 1)
  else Done returnValue.

(** chunk.c 32-44 IFF_createChunk; group.c 33-48 IFF_initGroup, IFF_createGroup.
    [None] is NULL. *)
Definition IFF_createGroup (cid size groupType : Z) : M (option chunk) :=
  ok <- malloc sizeof_Group ;;
  ret (if ok then Some (CGroup cid size groupType []) else None).

(** group.c 50-53 IFF_createEmptyGroup *)
Definition IFF_createEmptyGroup (cid groupType : Z) : M (option chunk) :=
  IFF_createGroup cid IFF_ID_SIZE groupType.

(** group.c 55-58 IFF_createUnparsedGroup *)
Definition IFF_createUnparsedGroup (cid size : Z) : M (option chunk) :=
  IFF_createGroup cid size 0.

(** form.c 63-76 IFF_createForm, IFF_createUnparsedForm *)
Definition IFF_createForm (size formType : Z) := IFF_createGroup IFF_ID_FORM size formType.
Definition IFF_createEmptyForm (formType : Z) := IFF_createEmptyGroup IFF_ID_FORM formType.

(** cat.c 30-48 IFF_createCAT .. IFF_createUnparsedCAT *)
Definition IFF_createCAT (size contentsType : Z) := IFF_createGroup IFF_ID_CAT size contentsType.
Definition IFF_createEmptyCATWithContentsType (contentsType : Z) :=
  IFF_createEmptyGroup IFF_ID_CAT contentsType.
Definition IFF_createEmptyCAT := IFF_createEmptyCATWithContentsType IFF_ID_JJJJ.

(** prop.c 34-47 IFF_createProp .. IFF_createUnparsedProp *)
Definition IFF_createProp (size formType : Z) := IFF_createGroup IFF_ID_PROP size formType.
Definition IFF_createEmptyProp (formType : Z) := IFF_createEmptyGroup IFF_ID_PROP formType.

(** list.c 30-43 IFF_createList *)
Definition IFF_createList (size contentsType : Z) : M (option chunk) :=
  ok <- malloc sizeof_List ;;
  ret (if ok then Some (CList IFF_ID_LIST size contentsType [] []) else None).

(** list.c 45-53 *)
Definition IFF_createEmptyListWithContentsType (contentsType : Z) :=
  IFF_createList IFF_ID_SIZE contentsType.
Definition IFF_createEmptyList := IFF_createEmptyListWithContentsType IFF_ID_JJJJ.

(** list.c 55-58 IFF_createUnparsedList: ignores its chunkId argument *)
Definition IFF_createUnparsedList (cid size : Z) : M (option chunk) :=
  IFF_createList size 0.

(** rawchunk.c 30-46 IFF_createRawChunk *)
Definition IFF_createRawChunk (cid size : Z) : M (option chunk) :=
  e <- ask ;;
  ok <- malloc sizeof_RawChunk ;;
  if ok then
    ok2 <- malloc (wrap_u (size_t_bits e) size) ;;
    ret (if ok2 then Some (CRaw cid size None) else None)
  else ret None.

(** tests/hello.c 29-46 TEST_createHelloChunk, TEST_createHello and tests/bye.c
    29-45 TEST_createByeChunk, TEST_createBye: create with zero fields *)
Definition create_fields (s : fspec) (cid size : Z) : M (option chunk) :=
  ok <- malloc (sizeof_Fields s) ;;
  ret (if ok then Some (CFields cid size (map (fun d => (fd_kind d, 0)) (fs_fields s))) else None).

(** chunkType->createExtensionChunk (chunkregistry.h 43): defaultregistry.c 31-42 *)
Definition createExtensionChunk (h : handler) (cid size : Z) : M (option chunk) :=
  match h with
  | HForm | HCAT | HProp => IFF_createUnparsedGroup cid size
  | HList => IFF_createUnparsedList cid size
  | HRaw => IFF_createRawChunk cid size
  | HFields s => create_fields s cid size
  end.

(** group.c 60-66 IFF_attachToGroup: the result of realloc is not checked *)
Definition IFF_attachToGroup (group c : chunk) : M chunk :=
  match as_group group with
  | None => undefined UB_type_confusion
  | Some (_, subs) =>
      ok <- malloc ((zlength subs + 1) * sizeof_pointer) ;;
      if ok then ret (set_subs group (subs ++ [c]))
      else undefined UB_null_deref
  end.

(** group.c 68-72 IFF_addToGroup; form.c 78-81, cat.c 68-71, list.c 74-77,
    prop.c 49-52 only forward to it *)
Definition IFF_addToGroup (group c : chunk) : M chunk :=
  g <- IFF_attachToGroup group c ;;
  s <- lift (IFF_incrementChunkSize (chunkSize g) c) ;;
  ret (set_chunkSize g s).

(** list.c 60-66 addPropToList: the result of realloc is not checked *)
Definition addPropToList (l prop : chunk) : M chunk :=
  match l with
  | CList i s g props subs =>
      ok <- malloc ((zlength props + 1) * sizeof_pointer) ;;
      if ok then ret (CList i s g (props ++ [prop]) subs)
      else undefined UB_null_deref
  | _ => undefined UB_type_confusion
  end.

(** list.c 68-72 IFF_addPropToList *)
Definition IFF_addPropToList (l prop : chunk) : M chunk :=
  l1 <- addPropToList l prop ;;
  s <- lift (IFF_incrementChunkSize (chunkSize l1) prop) ;;
  ret (set_chunkSize l1 s).

(** cat.c 50-53 checkValidCATSubChunkId *)
Definition checkValidCATSubChunkId (cid : Z) : bool :=
  (cid =? IFF_ID_FORM) || (cid =? IFF_ID_CAT) || (cid =? IFF_ID_LIST).

(** cat.c 55-66 updateContentsType *)
Definition updateContentsType (cat c : chunk) : outcome chunk :=
  if checkValidCATSubChunkId (chunkId c) then
    match as_group cat, as_group c with
    | Some (contentsType, subs), Some (groupType, _) =>
        if zlength subs =? 0 then Done (set_groupType cat groupType)
        else if negb (contentsType =? IFF_ID_JJJJ) && negb (contentsType =? groupType)
        then Done (set_groupType cat IFF_ID_JJJJ)
        else Done cat
    | _, _ => Undefined UB_type_confusion
    end
  else Done cat.

(** cat.c 73-77 IFF_addToCATAndUpdateContentsType (list.c 79-82
    IFF_addToListAndUpdateContentsType forwards) *)
Definition IFF_addToCATAndUpdateContentsType (cat c : chunk) : M chunk :=
  cat1 <- lift (updateContentsType cat c) ;;
  IFF_addToGroup cat1 c.

(** rawchunk.c 48-51 IFF_copyDataToRawChunkData: copies chunkSize bytes of
    [data] into the block of a chunk made by IFF_createRawChunk *)
Definition IFF_copyDataToRawChunkData (e : env) (c : chunk) (data : list byte) : outcome chunk :=
  match c with
  | CRaw i s _ =>
      let n := wrap_u (size_t_bits e) s in
      if zlength data <? n then Undefined UB_out_of_bounds
      else Done (CRaw i s (Some (ztake n data)))
  | _ => Undefined UB_type_confusion
  end.

(** rawchunk.c 53-57 IFF_setRawChunkData *)
Definition IFF_setRawChunkData (c : chunk) (data : list byte) (size : Z) : outcome chunk :=
  match c with
  | CRaw i _ _ => Done (CRaw i size (Some data))
  | _ => Undefined UB_type_confusion
  end.

(** rawchunk.c 59-66 IFF_setTextData; [text] is the string without its
    terminator; malloc is assumed to succeed *)
Definition IFF_setTextData (c : chunk) (text : list byte) : outcome chunk :=
  IFF_setRawChunkData c text (wrap_s 32 (zlength text)).

(** ** Updating sizes *)

(** the loops of group.c 287-288 and list.c 291-292 *)
Fixpoint sum_sizes (acc : Z) (l : list chunk) : outcome Z :=
  match l with
  | [] => Done acc
  | c :: r => s <-o IFF_incrementChunkSize acc c ;; sum_sizes s r
  end.

(** group.c 281-289 IFF_updateGroupChunkSizes (form.c 231-234
    IFF_updateFormChunkSizes, cat.c 147-150 IFF_updateCATChunkSizes, prop.c
    101-104 IFF_updatePropChunkSizes forward) *)
Definition IFF_updateGroupChunkSizes (group : chunk) : outcome chunk :=
  match as_group group with
  | None => Undefined UB_type_confusion
  | Some (_, subs) => s <-o sum_sizes IFF_ID_SIZE subs ;; Done (set_chunkSize group s)
  end.

(** list.c 285-293 IFF_updateListChunkSizes *)
Definition IFF_updateListChunkSizes (l : chunk) : outcome chunk :=
  l1 <-o IFF_updateGroupChunkSizes l ;;
  match l1 with
  | CList i s g props subs => s' <-o sum_sizes s props ;; Done (CList i s' g props subs)
  | _ => Undefined UB_type_confusion
  end.

(** group.c 316-331: the switch of IFF_updateChunkSizes *)
Definition update_own_size (c : chunk) : outcome chunk :=
  if (chunkId c =? IFF_ID_FORM) || (chunkId c =? IFF_ID_PROP) || (chunkId c =? IFF_ID_CAT)
  then IFF_updateGroupChunkSizes c
  else if chunkId c =? IFF_ID_LIST then IFF_updateListChunkSizes c
  else Done c.

(** group.c 314-336 IFF_updateChunkSizes, applied to the chunk at [p] below
    [root]: the chunk's own size is updated first, then those of its ancestors
    up to the root.  [None]: there is no chunk at [p]. *)
Fixpoint IFF_updateChunkSizes (root : chunk) (p : path) : outcome (option chunk) :=
  match p with
  | [] => c <-o update_own_size root ;; Done (Some c)
  | s :: q =>
      match get_child root s with
      | None => Done None
      | Some child =>
          oc <-o IFF_updateChunkSizes child q ;;
          match oc with
          | None => Done None
          | Some child' => c <-o update_own_size (set_child root s child') ;; Done (Some c)
          end
      end
  end.
