(** * Memory: the library on the level of heap blocks and pointers
    (definitions only).

    The tree model treats chunks as values.  Here they are structs in
    allocated blocks that refer to each other by address, with the parent
    pointers and arrays of the C code, so that allocation, release, sharing
    and leaks become visible.  The theorems show that this program computes
    what the tree model computes. *)

From Coq Require Import ZArith List Bool String.
From Coq Require Import Strings.Byte.
From Verif Require Import Machine Io Types Build Read Iff.
Import ListNotations.
Open Scope Z_scope.

(** ** Blocks *)

(** Addresses of allocated blocks *)
Definition addr := nat.

(** A pointer: [None] is NULL. *)
Definition ptr := option addr.

(** chunk.h 28-48: the members every chunk struct starts with *)
Record header := mkHeader { o_parent : ptr; o_id : Z; o_size : Z }.

(** The members after the header.  rawchunk.h 29-52, group.h 29-62 (form.h,
    cat.h and prop.h have the same layout), list.h 30-69, and application
    structs made of fields as tests/hello.h *)
Inductive body :=
| BRaw (chunkData : ptr)
| BGroup (groupType : Z) (chunkLength : nat) (chunks : ptr)
| BList (contentsType : Z) (chunkLength : nat) (chunks : ptr) (propLength : nat) (prop : ptr)
| BFields (vals : list (fkind * Z)).

(** What a block holds: a chunk struct, bytes (so many; [None]: not written
    yet), or an array of pointers *)
Inductive object :=
| OChunk (hd : header) (b : body)
| OData (size : Z) (contents : option (list byte))
| OArray (elements : list addr).

Definition heap := list (option object).

Definition lookup (h : heap) (a : addr) : option object :=
  match nth_error h a with Some o => o | None => None end.
Definition store (h : heap) (a : addr) (o : object) : heap := replace_nth a (Some o) h.
Definition release (h : heap) (a : addr) : heap := replace_nth a None h.

(** The allocator: it may hand out an address again once its block has been
    released ([place], for the next allocation, says which it would like), or
    take a new one. *)
Definition address {A} (e : env) (w : world) (h : list (option A)) : addr :=
  match nth_error h (place e (w_allocs w)) with
  | Some None => place e (w_allocs w)
  | _ => List.length h
  end.
Definition fill {A} (h : list (option A)) (a : addr) (o : A) : list (option A) :=
  if Nat.ltb a (List.length h) then replace_nth a (Some o) h else h ++ [Some o].

(** ** Computations with a heap *)

Definition H (A : Type) : Type := env -> world -> heap -> outcome (A * world * heap).

Definition hret {A} (a : A) : H A := fun _ w h => Done (a, w, h).
Definition hbind {A B} (m : H A) (k : A -> H B) : H B :=
  fun e w h => match m e w h with
               | Done (a, w', h') => k a e w' h'
               | Undefined u => Undefined u
               | OutOfFuel => OutOfFuel
               end.
Definition hundefined {A} (u : ub) : H A := fun _ _ _ => Undefined u.
Definition hnofuel {A} : H A := fun _ _ _ => OutOfFuel.

(** An operation that does not touch chunks *)
Definition io {A} (m : M A) : H A :=
  fun e w h => match m e w with
               | Done (a, w') => Done (a, w', h)
               | Undefined u => Undefined u
               | OutOfFuel => OutOfFuel
               end.

Notation "x <-h m ;; k" := (hbind m (fun x => k))
  (at level 61, m at next level, right associativity).
Notation "' p <-h m ;; k" := (hbind m (fun p => k))
  (at level 61, p pattern, m at next level, right associativity).
Notation "m ;;h k" := (hbind m (fun _ => k))
  (at level 61, right associativity).

(** malloc of [sz] bytes, for an object *)
Definition hmalloc (sz : Z) (o : object) : H ptr :=
  ok <-h io (malloc sz) ;;
  if ok then fun e w h => Done (Some (address e w h), w, fill h (address e w h) o)
  else hret None.

(** free: of NULL does nothing *)
Definition hfree (p : ptr) : H unit :=
  match p with
  | None => hret tt
  | Some a => fun _ w h =>
      match lookup h a with
      | None => Undefined UB_invalid_free
      | Some _ => Done (tt, w, release h a)
      end
  end.

Definition hload (a : addr) : H object :=
  fun _ w h => match lookup h a with
               | None => Undefined UB_dangling
               | Some o => Done (o, w, h)
               end.

Definition hstore (a : addr) (o : object) : H unit :=
  fun _ w h => match lookup h a with
               | None => Undefined UB_dangling
               | Some _ => Done (tt, w, store h a o)
               end.

(** The elements of an array of pointers; NULL has none *)
Definition harray (p : ptr) : H (list addr) :=
  match p with
  | None => hret []
  | Some a =>
      o <-h hload a ;;
      match o with OArray l => hret l | _ => hundefined UB_type_confusion end
  end.

(** chunk->...: a block accessed as a chunk struct *)
Definition hchunk (a : addr) : H (header * body) :=
  o <-h hload a ;;
  match o with OChunk hd b => hret (hd, b) | _ => hundefined UB_type_confusion end.

Definition set_parent (hd : header) (p : ptr) : header := mkHeader p (o_id hd) (o_size hd).
Definition set_size (hd : header) (s : Z) : header := mkHeader (o_parent hd) (o_id hd) s.

(** The members of an array read by a loop over 0 .. n-1.  (The loops read
    them one by one, between operations on the members; those do not change
    the array.) *)
Definition helements (p : ptr) (n : nat) : H (list addr) :=
  match n with
  | O => hret []
  | _ =>
      match p with
      | None => hundefined UB_null_deref
      | Some _ =>
          l <-h harray p ;;
          if Nat.leb n (List.length l) then hret (firstn n l) else hundefined UB_out_of_bounds
      end
  end.

(** array = realloc(array, (n + 1) * sizeof(pointer)); array[n] = x; as in
    group.c 62-63 and list.c 62-63.  realloc releases the old block and gives
    one at any free place, which may be the old one; its result is not checked. *)
Definition hpush (p : ptr) (n : nat) (x : addr) : H ptr :=
  l <-h harray p ;;
  ok <-h io (malloc ((Z.of_nat n + 1) * sizeof_pointer)) ;;
  if ok then
    hfree p ;;h
    fun e w h => Done (Some (address e w h), w, fill h (address e w h) (OArray (firstn n l ++ [x])))
  else hundefined UB_null_deref.

(** ** Creating chunks *)

(** chunk.c 32-44 IFF_createChunk, followed by the initialisation of the rest
    of the struct *)
Definition hcreateChunk (cid size structSize : Z) (b : body) : H ptr :=
  hmalloc structSize (OChunk (mkHeader None cid size) b).

(** group.c 33-58 IFF_initGroup, IFF_createGroup *)
Definition hcreateGroup (cid size groupType : Z) : H ptr :=
  hcreateChunk cid size sizeof_Group (BGroup groupType 0 None).

(** group.c 50-53 IFF_createEmptyGroup *)
Definition hcreateEmptyGroup (cid groupType : Z) : H ptr := hcreateGroup cid IFF_ID_SIZE groupType.

(** list.c 30-43 IFF_createList *)
Definition hcreateList (size contentsType : Z) : H ptr :=
  hcreateChunk IFF_ID_LIST size sizeof_List (BList contentsType 0 None 0 None).

(** rawchunk.c 30-46 IFF_createRawChunk *)
Definition hcreateRawChunk (cid size : Z) : H ptr :=
  e <-h io ask ;;
  p <-h hcreateChunk cid size sizeof_RawChunk (BRaw None) ;;
  match p with
  | None => hret None
  | Some a =>
      d <-h hmalloc (wrap_u (size_t_bits e) size) (OData (wrap_u (size_t_bits e) size) None) ;;
      match d with
      | None => hfree (Some a) ;;h hret None
      | Some _ =>
          hstore a (OChunk (mkHeader None cid size) (BRaw d)) ;;h
          hret (Some a)
      end
  end.

(** tests/hello.c 29-46: an application struct with zero fields *)
Definition hcreate_fields (s : fspec) (cid size : Z) : H ptr :=
  hcreateChunk cid size (sizeof_Fields s) (BFields (map (fun d => (fd_kind d, 0)) (fs_fields s))).

(** chunkType->createExtensionChunk: defaultregistry.c 31-42 *)
Definition hcreateExtensionChunk (h : handler) (cid size : Z) : H ptr :=
  match h with
  | HForm | HCAT | HProp => hcreateGroup cid size 0
  | HList => hcreateList size 0
  | HRaw => hcreateRawChunk cid size
  | HFields s => hcreate_fields s cid size
  end.

(** ** Attaching and adding *)

(** chunk->parent = p *)
Definition hset_parent (c : addr) (p : ptr) : H unit :=
  '(hd, b) <-h hchunk c ;;
  hstore c (OChunk (set_parent hd p) b).

(** group->chunkSize = s *)
Definition hset_size (c : addr) (s : Z) : H unit :=
  '(hd, b) <-h hchunk c ;;
  hstore c (OChunk (set_size hd s) b).

(** group.c 60-66 IFF_attachToGroup *)
Definition hattachToGroup (group c : addr) : H unit :=
  '(hd, b) <-h hchunk group ;;
  match b with
  | BGroup g n arr =>
      arr' <-h hpush arr n c ;;
      hstore group (OChunk hd (BGroup g (S n) arr')) ;;h
      hset_parent c (Some group)
  | BList g n arr pn parr =>
      arr' <-h hpush arr n c ;;
      hstore group (OChunk hd (BList g (S n) arr' pn parr)) ;;h
      hset_parent c (Some group)
  | _ => hundefined UB_type_confusion
  end.

(** group.c 270-279 IFF_incrementChunkSize *)
Definition hincrementChunkSize (size : Z) (c : addr) : H Z :=
  '(hd, _) <-h hchunk c ;;
  if INT_MAX <? size + IFF_ID_SIZE then hundefined UB_signed_overflow else
  let returnValue := wrap_s 32 (size + IFF_ID_SIZE + 4 + o_size hd) in
  if c_odd (o_size hd) then
    if returnValue =? INT_MAX then hundefined UB_signed_overflow
    else hret (returnValue + 1)
  else hret returnValue.

(** group.c 68-72 IFF_addToGroup *)
Definition haddToGroup (group c : addr) : H unit :=
  hattachToGroup group c ;;h
  '(hd, _) <-h hchunk group ;;
  s <-h hincrementChunkSize (o_size hd) c ;;
  hset_size group s.

(** list.c 60-66 addPropToList *)
Definition hattachProp (l prop : addr) : H unit :=
  '(hd, b) <-h hchunk l ;;
  match b with
  | BList g n arr pn parr =>
      parr' <-h hpush parr pn prop ;;
      hstore l (OChunk hd (BList g n arr (S pn) parr')) ;;h
      hset_parent prop (Some l)
  | _ => hundefined UB_type_confusion
  end.

(** list.c 68-72 IFF_addPropToList *)
Definition haddPropToList (l prop : addr) : H unit :=
  hattachProp l prop ;;h
  '(hd, _) <-h hchunk l ;;
  s <-h hincrementChunkSize (o_size hd) prop ;;
  hset_size l s.

(** cat.c 55-66 updateContentsType *)
Definition hupdateContentsType (cat c : addr) : H unit :=
  '(hc, bc) <-h hchunk c ;;
  if checkValidCATSubChunkId (o_id hc) then
    match bc with
    | BGroup groupType _ _ | BList groupType _ _ _ _ =>
        '(hd, b) <-h hchunk cat ;;
        match b with
        | BGroup contentsType n arr =>
            if Nat.eqb n 0 then hstore cat (OChunk hd (BGroup groupType n arr))
            else if negb (contentsType =? IFF_ID_JJJJ) && negb (contentsType =? groupType)
            then hstore cat (OChunk hd (BGroup IFF_ID_JJJJ n arr))
            else hret tt
        | BList contentsType n arr pn parr =>
            if Nat.eqb n 0 then hstore cat (OChunk hd (BList groupType n arr pn parr))
            else if negb (contentsType =? IFF_ID_JJJJ) && negb (contentsType =? groupType)
            then hstore cat (OChunk hd (BList IFF_ID_JJJJ n arr pn parr))
            else hret tt
        | _ => hundefined UB_type_confusion
        end
    | _ => hundefined UB_type_confusion
    end
  else hret tt.

(** cat.c 73-77 IFF_addToCATAndUpdateContentsType *)
Definition haddToCATAndUpdateContentsType (cat c : addr) : H unit :=
  hupdateContentsType cat c ;;h
  haddToGroup cat c.

(** ** Raw chunk data *)

(** rawchunk.c 48-51 IFF_copyDataToRawChunkData; [data] is what the caller's
    pointer designates *)
Definition hcopyData (c : addr) (data : list byte) : H unit :=
  e <-h io ask ;;
  '(hd, b) <-h hchunk c ;;
  match b with
  | BRaw (Some d) =>
      let n := wrap_u (size_t_bits e) (o_size hd) in
      o <-h hload d ;;
      match o with
      | OData size old =>
          if (zlength data <? n) || (size <? n) then hundefined UB_out_of_bounds
          else hstore d (OData size (Some (ztake n data ++ zdrop n (match old with Some l => l | None => [] end))))
      | _ => hundefined UB_type_confusion
      end
  | BRaw None => if o_size hd =? 0 then hret tt else hundefined UB_null_deref
  | _ => hundefined UB_type_confusion
  end.

(** rawchunk.c 53-57 IFF_setRawChunkData: the chunk takes over the pointer; the
    old block is not released *)
Definition hsetRawChunkData (c : addr) (chunkData : ptr) (size : Z) : H unit :=
  '(hd, b) <-h hchunk c ;;
  match b with
  | BRaw _ => hstore c (OChunk (set_size hd size) (BRaw chunkData))
  | _ => hundefined UB_type_confusion
  end.

(** rawchunk.c 59-66 IFF_setTextData *)
Definition hsetTextData (c : addr) (text : list byte) : H unit :=
  d <-h hmalloc (zlength text) (OData (zlength text) (Some text)) ;;
  match d with
  | None => if zlength text =? 0 then hsetRawChunkData c d 0 else hundefined UB_null_deref
  | Some _ => hsetRawChunkData c d (wrap_s 32 (zlength text))
  end.

(** ** Freeing *)

Section Free.
  Variable free_chunk : addr -> Z -> H unit.

  (** the loops of group.c 203-204 and list.c 217-218 *)
  Fixpoint hfree_all (l : list addr) (formType : Z) : H unit :=
    match l with
    | [] => hret tt
    | c :: r => free_chunk c formType ;;h hfree_all r formType
    end.

  (** group.c 199-207 IFF_freeGroup *)
  Definition hfreeGroup (group : addr) : H unit :=
    '(_, b) <-h hchunk group ;;
    match b with
    | BGroup g n arr | BList g n arr _ _ =>
        l <-h helements arr n ;;
        hfree_all l g ;;h
        hfree arr
    | _ => hundefined UB_type_confusion
    end.

  (** list.c 213-228 freeListPropChunks, IFF_freeList *)
  Definition hfreeList (c : addr) : H unit :=
    hfreeGroup c ;;h
    '(_, b) <-h hchunk c ;;
    match b with
    | BList g _ _ pn parr =>
        l <-h helements parr pn ;;
        hfree_all l g ;;h
        hfree parr
    | _ => hundefined UB_type_confusion
    end.

  (** rawchunk.c 109-113 IFF_freeRawChunk *)
  Definition hfreeRawChunk (c : addr) : H unit :=
    '(_, b) <-h hchunk c ;;
    match b with
    | BRaw d => hfree d
    | _ => hundefined UB_type_confusion
    end.

  (** chunkType->freeExtensionChunk; tests/hello.c 95-97 TEST_freeHello
      and tests/bye.c 80-82 TEST_freeBye are empty *)
  Definition hfreeExtensionChunk (h : handler) (c : addr) : H unit :=
    match h with
    | HForm | HCAT | HProp => hfreeGroup c
    | HList => hfreeList c
    | HRaw => hfreeRawChunk c
    | HFields _ => hret tt
    end.
End Free.

(** An outcome that does not depend on the state *)
Definition hlift {A} (o : outcome A) : H A := io (lift o).

(** chunk.c 108-113 IFF_freeChunk; [fuel] bounds the nesting *)
Fixpoint hfreeChunk (rg : option registry) (fuel : nat) (c : addr) (formType : Z) : H unit :=
  match fuel with
  | O => hnofuel
  | S f =>
      '(hd, _) <-h hchunk c ;;
      k <-h hlift (find_handler rg formType (o_id hd)) ;;
      hfreeExtensionChunk (hfreeChunk rg f) k c ;;h
      hfree (Some c)
  end.

(** A tree is never nested deeper than there are blocks. *)
Definition hfreeTree (rg : option registry) (c : addr) (formType : Z) : H unit :=
  fun e w h => hfreeChunk rg (S (List.length h)) c formType e w h.

(** iff.c 122-125 IFF_free *)
Definition hIFF_free (c : addr) (rg : option registry) : H unit :=
  hfreeTree (selectChunkRegistry rg) c 0.

(** ** Reading *)

(** rawchunk.c 68-84 IFF_readRawChunk.  After a short read the block counts as
    not written: it is released without being looked at. *)
Definition hreadRawChunk (c : addr) (bytesProcessed : Z) : H (bool * Z) :=
  e <-h io ask ;;
  '(hd, b) <-h hchunk c ;;
  match b with
  | BRaw (Some d) =>
      let n := wrap_u (size_t_bits e) (o_size hd) in
      o <-h hload d ;;
      match o with
      | OData size _ =>
          if size <? n then hundefined UB_out_of_bounds else
          l <-h io (fread n) ;;
          if zlength l <? n then
            io (IFF_error "Error reading raw chunk body of chunk: '" ;;;
                IFF_errorId (o_id hd) ;;;
                IFF_error ("'" ++ nl)%string) ;;h
            hret (false, bytesProcessed)
          else
            hstore d (OData size (Some l)) ;;h
            if INT_MAX <? bytesProcessed + o_size hd then hundefined UB_signed_overflow
            else hret (true, bytesProcessed + o_size hd)
      | _ => hundefined UB_type_confusion
      end
  | BRaw None => hundefined UB_null_deref
  | _ => hundefined UB_type_confusion
  end.

(** tests/hello.c 48-63 TEST_readHello *)
Definition hread_fields_chunk (s : fspec) (c : addr) (bytesProcessed : Z) : H (bool * Z) :=
  '(hd, b) <-h hchunk c ;;
  match b with
  | BFields vals =>
      if fkinds_eqb (map fst vals) (map fd_kind (fs_fields s)) then
        '(ok, vs, bp) <-h io (read_fields (fs_fields s) vals (o_id hd) (o_size hd) bytesProcessed) ;;
        hstore c (OChunk hd (BFields vs)) ;;h
        hret (ok, bp)
      else hundefined UB_type_confusion
  | _ => hundefined UB_type_confusion
  end.

(** group->groupType = g *)
Definition set_type (b : body) (g : Z) : body :=
  match b with
  | BGroup _ n arr => BGroup g n arr
  | BList _ n arr pn parr => BList g n arr pn parr
  | _ => b
  end.

(** group->groupType *)
Definition type_of (b : body) : option Z :=
  match b with
  | BGroup g _ _ | BList g _ _ _ _ => Some g
  | _ => None
  end.

Section Read.
  Variable read_chunk : Z -> H ptr.   (* IFF_readChunk at a formType *)

  (** group.c 74-95 readGroupSubChunks *)
  Fixpoint hreadGroupSubChunks (fuel : nat) (group : addr) (bytesProcessed : Z) : H (bool * Z) :=
    '(hd, b) <-h hchunk group ;;
    if bytesProcessed <? o_size hd then
      match fuel with
      | O => hnofuel
      | S f =>
          match type_of b with
          | None => hundefined UB_type_confusion
          | Some g =>
              p <-h read_chunk g ;;
              match p with
              | None => hret (false, bytesProcessed)
              | Some c =>
                  hattachToGroup group c ;;h
                  bp <-h hincrementChunkSize bytesProcessed c ;;
                  hreadGroupSubChunks f group bp
              end
          end
      end
    else
      (if o_size hd <? bytesProcessed
       then io (truncated_warning "group" (o_size hd)) else hret tt) ;;h
      hret (true, bytesProcessed).

  (** group.c 97-111 IFF_readGroup *)
  Definition hreadGroup (fuel : nat) (group : addr) (groupTypeName : string) (bytesProcessed : Z)
    : H (bool * Z) :=
    '(hd, b) <-h hchunk group ;;
    match type_of b with
    | None => hundefined UB_type_confusion
    | Some _ =>
        r <-h io (IFF_readField FId (o_id hd) (o_size hd) groupTypeName bytesProcessed) ;;
        match r with
        | (FIELD_MORE, Some g, bp) =>
            hstore group (OChunk hd (set_type b g)) ;;h
            hreadGroupSubChunks fuel group bp
        | (st, _, bp) => hret (IFF_deriveSuccess st, bp)
        end
    end.

  (** list.c 84-108 readListSubChunks *)
  Fixpoint hreadListSubChunks (fuel : nat) (l : addr) (bytesProcessed : Z) : H (bool * Z) :=
    '(hd, b) <-h hchunk l ;;
    if bytesProcessed <? o_size hd then
      match fuel with
      | O => hnofuel
      | S f =>
          match type_of b with
          | None => hundefined UB_type_confusion
          | Some g =>
              p <-h read_chunk g ;;
              match p with
              | None => hret (false, bytesProcessed)
              | Some c =>
                  '(hc, _) <-h hchunk c ;;
                  (if o_id hc =? IFF_ID_PROP then hattachProp l c else hattachToGroup l c) ;;h
                  bp <-h hincrementChunkSize bytesProcessed c ;;
                  hreadListSubChunks f l bp
              end
          end
      end
    else
      (if o_size hd <? bytesProcessed
       then io (truncated_warning "LIST" (o_size hd)) else hret tt) ;;h
      hret (true, bytesProcessed).

  (** list.c 110-128 IFF_readList *)
  Definition hreadList (fuel : nat) (l : addr) (bytesProcessed : Z) : H (bool * Z) :=
    '(hd, b) <-h hchunk l ;;
    match b with
    | BList _ _ _ _ _ =>
        r <-h io (IFF_readField FId (o_id hd) (o_size hd) "contentsType" bytesProcessed) ;;
        match r with
        | (FIELD_MORE, Some g, bp) =>
            hstore l (OChunk hd (set_type b g)) ;;h
            '(ok, bp2) <-h hreadListSubChunks fuel l bp ;;
            if ok : bool then hret (true, bp2)
            else io (IFF_error ("Error reading chunk in list!" ++ nl)%string) ;;h hret (false, bp2)
        | (st, _, bp) => hret (IFF_deriveSuccess st, bp)
        end
    | _ => hundefined UB_type_confusion
    end.

  (** chunkType->readExtensionChunkFields *)
  Definition hreadExtensionChunkFields (fuel : nat) (k : handler) (c : addr) (bytesProcessed : Z)
    : H (bool * Z) :=
    match k with
    | HForm | HProp => hreadGroup fuel c "formType" bytesProcessed
    | HCAT => hreadGroup fuel c "contentsType" bytesProcessed
    | HList => hreadList fuel c bytesProcessed
    | HRaw => hreadRawChunk c bytesProcessed
    | HFields s => hread_fields_chunk s c bytesProcessed
    end.

  (** chunk.c 46-66 readChunkBody *)
  Definition hreadChunkBody (rg : option registry) (fuel : nat) (cid size formType : Z) : H ptr :=
    k <-h hlift (find_handler rg formType cid) ;;
    p <-h hcreateExtensionChunk k cid size ;;
    match p with
    | None => hret None
    | Some c =>
        '(ok, bp) <-h hreadExtensionChunkFields fuel k c 0 ;;
        '(hd, _) <-h hchunk c ;;
        ok3 <-h io (andM (ret ok)
                     (andM (Io.IFF_skipUnknownBytes (o_id hd) size bp)
                           (Io.IFF_readPaddingByte size (o_id hd)))) ;;
        if ok3 : bool then hret (Some c)
        else hfreeTree rg c formType ;;h hret None
    end.
End Read.

(** chunk.c 68-78 IFF_readChunk; [fuel] bounds the nesting *)
Fixpoint hreadChunk (rg : option registry) (fuel : nat) (formType : Z) {struct fuel} : H ptr :=
  match fuel with
  | O => hnofuel
  | S f =>
      oid <-h io (IFF_readId ID_EMPTY "") ;;
      match oid with
      | None => hret None
      | Some cid =>
          osize <-h io (IFF_readLong cid "chunkSize") ;;
          match osize with
          | None => hret None
          | Some size => hreadChunkBody (hreadChunk rg f) rg f cid size formType
          end
      end
  end.

(** iff.c 40-61 IFF_readFd *)
Definition hIFF_readFd (rg : option registry) : H ptr :=
  fun e w h =>
    (p <-h hreadChunk (selectChunkRegistry rg) (S (List.length (r_rest (w_in w)))) 0 ;;
     match p with
     | None => io (IFF_error ("ERROR: cannot open main chunk!" ++ nl)%string) ;;h hret None
     | Some c =>
         ob <-h io fgetc ;;
         match ob with
         | None => hret (Some c)
         | Some b =>
             io (IFF_error ("WARNING: Trailing IFF contents found: " ++ dec (b2z b) ++ "!" ++ nl)%string) ;;h
             hret (Some c)
         end
     end) e w h.
