(** * Freeing and reading chunks (definitions only). *)

From Coq Require Import ZArith List Bool String.
From Coq Require Import Strings.Byte.
From Verif Require Import Machine Io Types Build.
Import ListNotations.
Open Scope Z_scope.

(** ** Freeing.  On the tree level only the struct accesses matter; what is
    released is the subject of the heap model. *)

Section Free.
  Variable free_chunk : chunk -> Z -> outcome unit.

  (** the loops of group.c 203-204 and list.c 217-218 *)
  Fixpoint free_all (l : list chunk) (formType : Z) : outcome unit :=
    match l with
    | [] => Done tt
    | c :: r => u <-o free_chunk c formType ;; free_all r formType
    end.

  (** group.c 199-207 IFF_freeGroup (form.c 179-182 IFF_freeForm, cat.c
      127-130 IFF_freeCAT, prop.c 86-89 IFF_freeProp forward) *)
  Definition IFF_freeGroup (group : chunk) : outcome unit :=
    match group with
    | CGroup _ _ g l | CList _ _ g _ l => free_all l g
    | _ => Undefined UB_type_confusion
    end.

  (** list.c 213-228 freeListPropChunks, IFF_freeList *)
  Definition IFF_freeList (c : chunk) : outcome unit :=
    match c with
    | CList _ _ g p l => u <-o free_all l g ;; free_all p g
    | _ => Undefined UB_type_confusion
    end.

  (** chunkType->freeExtensionChunk; rawchunk.c 109-113 IFF_freeRawChunk;
      tests/hello.c 95-97 (empty) *)
  Definition freeExtensionChunk (h : handler) (c : chunk) : outcome unit :=
    match h with
    | HForm | HCAT | HProp => IFF_freeGroup c
    | HList => IFF_freeList c
    | HRaw => match c with CRaw _ _ _ => Done tt | _ => Undefined UB_type_confusion end
    | HFields _ => Done tt
    end.
End Free.

(** chunk.c 108-113 IFF_freeChunk *)
Fixpoint IFF_freeChunk (rg : option registry) (c : chunk) (formType : Z) {struct c} : outcome unit :=
  h <-o find_handler rg formType (chunkId c) ;;
  freeExtensionChunk (IFF_freeChunk rg) h c.

(** ** Reading *)

(** rawchunk.c 68-84 IFF_readRawChunk, on a chunk made by IFF_createRawChunk.
    The comparison converts chunkSize to size_t. *)
Definition IFF_readRawChunk (c : chunk) (bytesProcessed : Z) : M (bool * chunk * Z) :=
  match c with
  | CRaw cid size _ =>
      e <- ask ;;
      let n := wrap_u (size_t_bits e) size in
      l <- fread n ;;
      if zlength l <? n then
        IFF_error "Error reading raw chunk body of chunk: '" ;;;
        IFF_errorId cid ;;;
        IFF_error ("'" ++ nl)%string ;;;
        ret (false, c, bytesProcessed)
      else if INT_MAX <? bytesProcessed + size then undefined UB_signed_overflow
      else ret (true, CRaw cid size (Some l), bytesProcessed + size)
  | _ => undefined UB_type_confusion
  end.

(** tests/hello.c 48-63 TEST_readHello, tests/bye.c TEST_readBye: read the
    fields in order, stop at the first that is not FIELD_MORE; the remaining
    ones keep their initial value. *)
Fixpoint read_fields (ds : list fdesc) (vals : list (fkind * Z)) (cid size bytesProcessed : Z)
  : M (bool * list (fkind * Z) * Z) :=
  match ds, vals with
  | d :: ds', v :: vals' =>
      r <- IFF_readField (fd_kind d) cid size (fd_name d) bytesProcessed ;;
      match r with
      | (FIELD_MORE, Some x, bp) =>
          r2 <- read_fields ds' vals' cid size bp ;;
          match r2 with (ok, vs, bp2) => ret (ok, (fd_kind d, x) :: vs, bp2) end
      | (st, _, bp) => ret (IFF_deriveSuccess st, vals, bp)
      end
  | _, _ => ret (true, vals, bytesProcessed)
  end.

Definition read_fields_chunk (s : fspec) (c : chunk) (bytesProcessed : Z) : M (bool * chunk * Z) :=
  match c with
  | CFields cid size vals =>
      if fkinds_eqb (map fst vals) (map fd_kind (fs_fields s)) then
        r <- read_fields (fs_fields s) vals cid size bytesProcessed ;;
        match r with (ok, vs, bp) => ret (ok, CFields cid size vs, bp) end
      else undefined UB_type_confusion
  | _ => undefined UB_type_confusion
  end.

Section Read.
  Variable read_chunk : Z -> M (option chunk).   (* IFF_readChunk at a formType *)

  (** The printf of group.c 92 and list.c 105 passes a pointer for %d *)
  Definition truncated_warning (what : string) (size : Z) : M unit :=
    e <- ask ;;
    if strict_c e then undefined UB_printf_type
    else IFF_error ("WARNING: truncated " ++ what ++ " chunk! The size specifies: " ++ dec size
                    ++ " but the total amount of its sub chunks is: " ++ dec (garbage e)
                    ++ " bytes. The parser may get confused!" ++ nl)%string.

  (** group.c 74-95 readGroupSubChunks; [fuel] bounds the iterations *)
  Fixpoint readGroupSubChunks (fuel : nat) (group : chunk) (groupType bytesProcessed : Z)
    : M (bool * chunk * Z) :=
    if bytesProcessed <? chunkSize group then
      match fuel with
      | O => nofuel
      | S f =>
          oc <- read_chunk groupType ;;
          match oc with
          | None => ret (false, group, bytesProcessed)
          | Some c =>
              group' <- IFF_attachToGroup group c ;;
              bp <- lift (IFF_incrementChunkSize bytesProcessed c) ;;
              readGroupSubChunks f group' groupType bp
          end
      end
    else
      (if chunkSize group <? bytesProcessed
       then truncated_warning "group" (chunkSize group) else ret tt) ;;;
      ret (true, group, bytesProcessed).

  (** group.c 97-111 IFF_readGroup (form.c 83-86 IFF_readForm, cat.c
      79-82 IFF_readCAT, prop.c 54-57 IFF_readProp forward) *)
  Definition IFF_readGroup (fuel : nat) (group : chunk) (groupTypeName : string) (bytesProcessed : Z)
    : M (bool * chunk * Z) :=
    match as_group group with
    | None => undefined UB_type_confusion
    | Some _ =>
        r <- IFF_readField FId (chunkId group) (chunkSize group) groupTypeName bytesProcessed ;;
        match r with
        | (FIELD_MORE, Some g, bp) => readGroupSubChunks fuel (set_groupType group g) g bp
        | (st, _, bp) => ret (IFF_deriveSuccess st, group, bp)
        end
    end.

  (** list.c 84-108 readListSubChunks *)
  Fixpoint readListSubChunks (fuel : nat) (l : chunk) (contentsType bytesProcessed : Z)
    : M (bool * chunk * Z) :=
    if bytesProcessed <? chunkSize l then
      match fuel with
      | O => nofuel
      | S f =>
          oc <- read_chunk contentsType ;;
          match oc with
          | None => ret (false, l, bytesProcessed)
          | Some c =>
              l' <- (if chunkId c =? IFF_ID_PROP then addPropToList l c
                     else IFF_attachToGroup l c) ;;
              bp <- lift (IFF_incrementChunkSize bytesProcessed c) ;;
              readListSubChunks f l' contentsType bp
          end
      end
    else
      (if chunkSize l <? bytesProcessed
       then truncated_warning "LIST" (chunkSize l) else ret tt) ;;;
      ret (true, l, bytesProcessed).

  (** list.c 110-128 IFF_readList *)
  Definition IFF_readList (fuel : nat) (l : chunk) (bytesProcessed : Z) : M (bool * chunk * Z) :=
    match l with
    | CList _ _ _ _ _ =>
        r <- IFF_readField FId (chunkId l) (chunkSize l) "contentsType" bytesProcessed ;;
        match r with
        | (FIELD_MORE, Some g, bp) =>
            r2 <- readListSubChunks fuel (set_groupType l g) g bp ;;
            match r2 with
            | (true, l', bp2) => ret (true, l', bp2)
            | (false, l', bp2) =>
                IFF_error ("Error reading chunk in list!" ++ nl)%string ;;; ret (false, l', bp2)
            end
        | (st, _, bp) => ret (IFF_deriveSuccess st, l, bp)
        end
    | _ => undefined UB_type_confusion
    end.

  (** chunkType->readExtensionChunkFields *)
  Definition readExtensionChunkFields (fuel : nat) (h : handler) (c : chunk) (bytesProcessed : Z)
    : M (bool * chunk * Z) :=
    match h with
    | HForm | HProp => IFF_readGroup fuel c "formType" bytesProcessed
    | HCAT => IFF_readGroup fuel c "contentsType" bytesProcessed
    | HList => IFF_readList fuel c bytesProcessed
    | HRaw => IFF_readRawChunk c bytesProcessed
    | HFields s => read_fields_chunk s c bytesProcessed
    end.

  (** chunk.c 46-66 readChunkBody *)
  Definition readChunkBody (rg : option registry) (fuel : nat) (cid size formType : Z)
    : M (option chunk) :=
    h <- lift (find_handler rg formType cid) ;;
    oc <- createExtensionChunk h cid size ;;
    match oc with
    | None => ret None
    | Some c =>
        r <- readExtensionChunkFields fuel h c 0 ;;
        match r with
        | (ok, c1, bp) =>
            ok3 <- andM (ret ok)
                     (andM (IFF_skipUnknownBytes (chunkId c1) size bp)
                           (IFF_readPaddingByte size (chunkId c1))) ;;
            if ok3 then ret (Some c1)
            else lift (IFF_freeChunk rg c1 formType) ;;; ret None
        end
    end.
End Read.

(** chunk.c 68-78 IFF_readChunk; [fuel] bounds the nesting *)
Fixpoint IFF_readChunk (rg : option registry) (fuel : nat) (formType : Z) {struct fuel}
  : M (option chunk) :=
  match fuel with
  | O => nofuel
  | S f =>
      oid <- IFF_readId ID_EMPTY "" ;;
      match oid with
      | None => ret None
      | Some cid =>
          osize <- IFF_readLong cid "chunkSize" ;;
          match osize with
          | None => ret None
          | Some size => readChunkBody (IFF_readChunk rg f) rg f cid size formType
          end
      end
  end.
