(** * Memory with application chunk types that own memory (definitions only).

    Heap.v knows the structs of the library and application structs that are
    lists of fields.  Here the application supplies the functions of
    chunkregistry.h 37-62 that create, read and free its chunks.  They work on
    the same heap: they may allocate blocks, keep pointers to them in their
    struct, grow them and release them.  The code that calls them is that of
    chunk.c, group.c, list.c and rawchunk.c again.

    Simplified: a registry is a function from a form type and a chunk ID to the
    chunk type.  How IFF_findChunkType searches is modelled in Types.v and
    Ext.v. *)

From Coq Require Import ZArith List Bool String.
From Coq Require Import Strings.Byte.
From Verif Require Import Machine Io Types Build Read Heap.
Import ListNotations.
Open Scope Z_scope.

(** ** Blocks.  [V]: what the blocks of the application hold *)

(** The members after the header: as in Heap.v; [YUser]: those of a struct of
    the application, behind the members of IFF_Chunk (chunk.h 33-48) *)
Inductive ybody (V : Type) :=
| YRaw (chunkData : ptr)
| YGroup (groupType : Z) (chunkLength : nat) (chunks : ptr)
| YList (contentsType : Z) (chunkLength : nat) (chunks : ptr) (propLength : nat) (prop : ptr)
| YUser (v : V).
Arguments YRaw {V}. Arguments YGroup {V}. Arguments YList {V}. Arguments YUser {V}.

(** What a block holds: as in Heap.v; [YApp]: a block of the application that is
    not a chunk *)
Inductive yobject (V : Type) :=
| YChunk (hd : header) (b : ybody V)
| YData (size : Z) (contents : option (list byte))
| YArray (elements : list addr)
| YApp (v : V).
Arguments YChunk {V}. Arguments YData {V}. Arguments YArray {V}. Arguments YApp {V}.

Definition yheap (V : Type) := list (option (yobject V)).

Definition ylookup {V} (h : yheap V) (a : addr) : option (yobject V) :=
  match nth_error h a with Some o => o | None => None end.
Definition ystore {V} (h : yheap V) (a : addr) (o : yobject V) : yheap V := replace_nth a (Some o) h.
Definition yrelease {V} (h : yheap V) (a : addr) : yheap V := replace_nth a None h.

(** ** Computations *)

Definition Y (V A : Type) : Type := env -> world -> yheap V -> outcome (A * world * yheap V).

Definition yret {V A} (a : A) : Y V A := fun _ w h => Done (a, w, h).
Definition ybind {V A B} (m : Y V A) (k : A -> Y V B) : Y V B :=
  fun e w h => match m e w h with
               | Done (a, w', h') => k a e w' h'
               | Undefined u => Undefined u
               | OutOfFuel => OutOfFuel
               end.
Definition yundefined {V A} (u : ub) : Y V A := fun _ _ _ => Undefined u.
Definition ynofuel {V A} : Y V A := fun _ _ _ => OutOfFuel.

(** An operation that does not touch the heap *)
Definition yio {V A} (m : M A) : Y V A :=
  fun e w h => match m e w with
               | Done (a, w') => Done (a, w', h)
               | Undefined u => Undefined u
               | OutOfFuel => OutOfFuel
               end.

Notation "x <-y m ;; k" := (ybind m (fun x => k))
  (at level 61, m at next level, right associativity).
Notation "' p <-y m ;; k" := (ybind m (fun p => k))
  (at level 61, p pattern, m at next level, right associativity).
Notation "m ;;y k" := (ybind m (fun _ => k))
  (at level 61, right associativity).

(** ** chunkregistry.h 43-61: the function pointers of a chunk type.  A chunk
    argument is the address of its struct.  What is printed is returned as a
    string. *)
Record ycallbacks (V : Type) := mkYCallbacks {
  yc_create : Z -> Z -> Y V ptr;               (* createExtensionChunk: chunkId, chunkSize *)
  yc_read : addr -> Z -> Y V (bool * Z);       (* readExtensionChunkFields: chunk, bytesProcessed *)
  yc_free : addr -> Y V unit;                  (* freeExtensionChunk *)
  yc_write : addr -> Z -> Y V (bool * Z);      (* writeExtensionChunkFields: chunk, bytesProcessed *)
  yc_check : addr -> Y V bool;                 (* checkExtensionChunk *)
  yc_print : addr -> nat -> Y V string;        (* printExtensionChunk: chunk, indentLevel *)
  yc_compare : addr -> addr -> Y V bool }.     (* compareExtensionChunk *)
Arguments mkYCallbacks {V}. Arguments yc_create {V}. Arguments yc_read {V}. Arguments yc_free {V}.
Arguments yc_write {V}. Arguments yc_check {V}. Arguments yc_print {V}. Arguments yc_compare {V}.

Inductive yhandler (V : Type) := YFORM | YCAT | YLIST | YPROP | YRAW | YCALL (cb : ycallbacks V).
Arguments YFORM {V}. Arguments YCAT {V}. Arguments YLIST {V}. Arguments YPROP {V}. Arguments YRAW {V}.
Arguments YCALL {V}.

(** IFF_findChunkType, and the access to its result *)
Definition yfind (V : Type) := Z -> Z -> outcome (yhandler V).

Section HeapExt.
  Context {V : Type}.
  Notation YY := (Y V).

  (** malloc of [sz] bytes, for an object *)
  Definition ymalloc (sz : Z) (o : yobject V) : YY ptr :=
    ok <-y yio (malloc sz) ;;
    if ok then fun e w h => Done (Some (address e w h), w, fill h (address e w h) o)
    else yret None.

  (** free: of NULL does nothing *)
  Definition yfree (p : ptr) : YY unit :=
    match p with
    | None => yret tt
    | Some a => fun _ w h =>
        match ylookup h a with
        | None => Undefined UB_invalid_free
        | Some _ => Done (tt, w, yrelease h a)
        end
    end.

  Definition yload (a : addr) : YY (yobject V) :=
    fun _ w h => match ylookup h a with
                 | None => Undefined UB_dangling
                 | Some o => Done (o, w, h)
                 end.

  Definition yput (a : addr) (o : yobject V) : YY unit :=
    fun _ w h => match ylookup h a with
                 | None => Undefined UB_dangling
                 | Some _ => Done (tt, w, ystore h a o)
                 end.

  (** The elements of an array of pointers; NULL has none *)
  Definition yarray (p : ptr) : YY (list addr) :=
    match p with
    | None => yret []
    | Some a =>
        o <-y yload a ;;
        match o with YArray l => yret l | _ => yundefined UB_type_confusion end
    end.

  (** chunk->...: a block accessed as a chunk struct *)
  Definition ychunk (a : addr) : YY (header * ybody V) :=
    o <-y yload a ;;
    match o with YChunk hd b => yret (hd, b) | _ => yundefined UB_type_confusion end.

  (** The members of an array read by a loop over 0 .. n-1, as in Heap.v *)
  Definition yelements (p : ptr) (n : nat) : YY (list addr) :=
    match n with
    | O => yret []
    | _ =>
        match p with
        | None => yundefined UB_null_deref
        | Some _ =>
            l <-y yarray p ;;
            if Nat.leb n (List.length l) then yret (firstn n l) else yundefined UB_out_of_bounds
        end
    end.

  (** array = realloc(array, (n + 1) * sizeof(pointer)); array[n] = x; as in
      group.c 62-63 and list.c 62-63 *)
  Definition ypush (p : ptr) (n : nat) (x : addr) : YY ptr :=
    l <-y yarray p ;;
    ok <-y yio (malloc ((Z.of_nat n + 1) * sizeof_pointer)) ;;
    if ok then
      yfree p ;;y
      fun e w h => Done (Some (address e w h), w, fill h (address e w h) (YArray (firstn n l ++ [x])))
    else yundefined UB_null_deref.

  (** ** Creating chunks *)

  (** chunk.c 32-44 IFF_createChunk, followed by the initialisation of the rest
      of the struct *)
  Definition ycreateChunk (cid size structSize : Z) (b : ybody V) : YY ptr :=
    ymalloc structSize (YChunk (mkHeader None cid size) b).

  (** group.c 33-58 IFF_initGroup, IFF_createGroup *)
  Definition ycreateGroup (cid size groupType : Z) : YY ptr :=
    ycreateChunk cid size sizeof_Group (YGroup groupType 0 None).

  (** list.c 30-43 IFF_createList *)
  Definition ycreateList (size contentsType : Z) : YY ptr :=
    ycreateChunk IFF_ID_LIST size sizeof_List (YList contentsType 0 None 0 None).

  (** rawchunk.c 30-46 IFF_createRawChunk *)
  Definition ycreateRawChunk (cid size : Z) : YY ptr :=
    e <-y yio ask ;;
    p <-y ycreateChunk cid size sizeof_RawChunk (YRaw None) ;;
    match p with
    | None => yret None
    | Some a =>
        d <-y ymalloc (wrap_u (size_t_bits e) size) (YData (wrap_u (size_t_bits e) size) None) ;;
        match d with
        | None => yfree (Some a) ;;y yret None
        | Some _ =>
            yput a (YChunk (mkHeader None cid size) (YRaw d)) ;;y
            yret (Some a)
        end
    end.

  (** chunkType->createExtensionChunk: defaultregistry.c 31-42 *)
  Definition ycreateExtensionChunk (k : yhandler V) (cid size : Z) : YY ptr :=
    match k with
    | YFORM | YCAT | YPROP => ycreateGroup cid size 0
    | YLIST => ycreateList size 0
    | YRAW => ycreateRawChunk cid size
    | YCALL cb => yc_create cb cid size
    end.

  (** ** Attaching *)

  (** chunk->parent = p *)
  Definition yset_parent (c : addr) (p : ptr) : YY unit :=
    '(hd, b) <-y ychunk c ;;
    yput c (YChunk (set_parent hd p) b).

  (** group.c 60-66 IFF_attachToGroup *)
  Definition yattachToGroup (group c : addr) : YY unit :=
    '(hd, b) <-y ychunk group ;;
    match b with
    | YGroup g n arr =>
        arr' <-y ypush arr n c ;;
        yput group (YChunk hd (YGroup g (S n) arr')) ;;y
        yset_parent c (Some group)
    | YList g n arr pn parr =>
        arr' <-y ypush arr n c ;;
        yput group (YChunk hd (YList g (S n) arr' pn parr)) ;;y
        yset_parent c (Some group)
    | _ => yundefined UB_type_confusion
    end.

  (** list.c 60-66 addPropToList *)
  Definition yattachProp (l prop : addr) : YY unit :=
    '(hd, b) <-y ychunk l ;;
    match b with
    | YList g n arr pn parr =>
        parr' <-y ypush parr pn prop ;;
        yput l (YChunk hd (YList g n arr (S pn) parr')) ;;y
        yset_parent prop (Some l)
    | _ => yundefined UB_type_confusion
    end.

  (** group.c 270-279 IFF_incrementChunkSize *)
  Definition yincrementChunkSize (size : Z) (c : addr) : YY Z :=
    '(hd, _) <-y ychunk c ;;
    if INT_MAX <? size + IFF_ID_SIZE then yundefined UB_signed_overflow else
    let returnValue := wrap_s 32 (size + IFF_ID_SIZE + 4 + o_size hd) in
    if c_odd (o_size hd) then
      if returnValue =? INT_MAX then yundefined UB_signed_overflow
      else yret (returnValue + 1)
    else yret returnValue.

  (** ** Freeing *)

  Section Free.
    Variable free_chunk : addr -> Z -> YY unit.

    (** the loops of group.c 203-204 and list.c 217-218 *)
    Fixpoint yfree_all (l : list addr) (formType : Z) : YY unit :=
      match l with
      | [] => yret tt
      | c :: r => free_chunk c formType ;;y yfree_all r formType
      end.

    (** group.c 199-207 IFF_freeGroup *)
    Definition yfreeGroup (group : addr) : YY unit :=
      '(_, b) <-y ychunk group ;;
      match b with
      | YGroup g n arr | YList g n arr _ _ =>
          l <-y yelements arr n ;;
          yfree_all l g ;;y
          yfree arr
      | _ => yundefined UB_type_confusion
      end.

    (** list.c 213-228 freeListPropChunks, IFF_freeList *)
    Definition yfreeList (c : addr) : YY unit :=
      yfreeGroup c ;;y
      '(_, b) <-y ychunk c ;;
      match b with
      | YList g _ _ pn parr =>
          l <-y yelements parr pn ;;
          yfree_all l g ;;y
          yfree parr
      | _ => yundefined UB_type_confusion
      end.

    (** rawchunk.c 109-113 IFF_freeRawChunk *)
    Definition yfreeRawChunk (c : addr) : YY unit :=
      '(_, b) <-y ychunk c ;;
      match b with
      | YRaw d => yfree d
      | _ => yundefined UB_type_confusion
      end.

    (** chunkType->freeExtensionChunk *)
    Definition yfreeExtensionChunk (k : yhandler V) (c : addr) : YY unit :=
      match k with
      | YFORM | YCAT | YPROP => yfreeGroup c
      | YLIST => yfreeList c
      | YRAW => yfreeRawChunk c
      | YCALL cb => yc_free cb c
      end.
  End Free.

  Definition ylift {A} (o : outcome A) : YY A := yio (lift o).

  (** chunk.c 108-113 IFF_freeChunk; [fuel] bounds the nesting *)
  Fixpoint yfreeChunk (find : yfind V) (fuel : nat) (c : addr) (formType : Z) : YY unit :=
    match fuel with
    | O => ynofuel
    | S f =>
        '(hd, _) <-y ychunk c ;;
        k <-y ylift (find formType (o_id hd)) ;;
        yfreeExtensionChunk (yfreeChunk find f) k c ;;y
        yfree (Some c)
    end.

  (** A tree is never nested deeper than there are blocks. *)
  Definition yfreeTree (find : yfind V) (c : addr) (formType : Z) : YY unit :=
    fun e w h => yfreeChunk find (S (List.length h)) c formType e w h.

  (** iff.c 122-125 IFF_free *)
  Definition yIFF_free (c : addr) (find : yfind V) : YY unit := yfreeTree find c 0.

  (** ** Reading *)

  (** rawchunk.c 68-84 IFF_readRawChunk, as in Heap.v *)
  Definition yreadRawChunk (c : addr) (bytesProcessed : Z) : YY (bool * Z) :=
    e <-y yio ask ;;
    '(hd, b) <-y ychunk c ;;
    match b with
    | YRaw (Some d) =>
        let n := wrap_u (size_t_bits e) (o_size hd) in
        o <-y yload d ;;
        match o with
        | YData size _ =>
            if size <? n then yundefined UB_out_of_bounds else
            l <-y yio (fread n) ;;
            if zlength l <? n then
              yio (IFF_error "Error reading raw chunk body of chunk: '" ;;;
                   IFF_errorId (o_id hd) ;;;
                   IFF_error ("'" ++ nl)%string) ;;y
              yret (false, bytesProcessed)
            else
              yput d (YData size (Some l)) ;;y
              if INT_MAX <? bytesProcessed + o_size hd then yundefined UB_signed_overflow
              else yret (true, bytesProcessed + o_size hd)
        | _ => yundefined UB_type_confusion
        end
    | YRaw None => yundefined UB_null_deref
    | _ => yundefined UB_type_confusion
    end.

  (** group->groupType = g *)
  Definition yset_type (b : ybody V) (g : Z) : ybody V :=
    match b with
    | YGroup _ n arr => YGroup g n arr
    | YList _ n arr pn parr => YList g n arr pn parr
    | _ => b
    end.

  (** group->groupType *)
  Definition ytype_of (b : ybody V) : option Z :=
    match b with
    | YGroup g _ _ | YList g _ _ _ _ => Some g
    | _ => None
    end.

  Section Read.
    Variable read_chunk : Z -> YY ptr.

    (** group.c 74-95 readGroupSubChunks *)
    Fixpoint yreadGroupSubChunks (fuel : nat) (group : addr) (bytesProcessed : Z) : YY (bool * Z) :=
      '(hd, b) <-y ychunk group ;;
      if bytesProcessed <? o_size hd then
        match fuel with
        | O => ynofuel
        | S f =>
            match ytype_of b with
            | None => yundefined UB_type_confusion
            | Some g =>
                p <-y read_chunk g ;;
                match p with
                | None => yret (false, bytesProcessed)
                | Some c =>
                    yattachToGroup group c ;;y
                    bp <-y yincrementChunkSize bytesProcessed c ;;
                    yreadGroupSubChunks f group bp
                end
            end
        end
      else
        (if o_size hd <? bytesProcessed
         then yio (truncated_warning "group" (o_size hd)) else yret tt) ;;y
        yret (true, bytesProcessed).

    (** group.c 97-111 IFF_readGroup *)
    Definition yreadGroup (fuel : nat) (group : addr) (groupTypeName : string) (bytesProcessed : Z)
      : YY (bool * Z) :=
      '(hd, b) <-y ychunk group ;;
      match ytype_of b with
      | None => yundefined UB_type_confusion
      | Some _ =>
          r <-y yio (IFF_readField FId (o_id hd) (o_size hd) groupTypeName bytesProcessed) ;;
          match r with
          | (FIELD_MORE, Some g, bp) =>
              yput group (YChunk hd (yset_type b g)) ;;y
              yreadGroupSubChunks fuel group bp
          | (st, _, bp) => yret (IFF_deriveSuccess st, bp)
          end
      end.

    (** list.c 84-108 readListSubChunks *)
    Fixpoint yreadListSubChunks (fuel : nat) (l : addr) (bytesProcessed : Z) : YY (bool * Z) :=
      '(hd, b) <-y ychunk l ;;
      if bytesProcessed <? o_size hd then
        match fuel with
        | O => ynofuel
        | S f =>
            match ytype_of b with
            | None => yundefined UB_type_confusion
            | Some g =>
                p <-y read_chunk g ;;
                match p with
                | None => yret (false, bytesProcessed)
                | Some c =>
                    '(hc, _) <-y ychunk c ;;
                    (if o_id hc =? IFF_ID_PROP then yattachProp l c else yattachToGroup l c) ;;y
                    bp <-y yincrementChunkSize bytesProcessed c ;;
                    yreadListSubChunks f l bp
                end
            end
        end
      else
        (if o_size hd <? bytesProcessed
         then yio (truncated_warning "LIST" (o_size hd)) else yret tt) ;;y
        yret (true, bytesProcessed).

    (** list.c 110-128 IFF_readList *)
    Definition yreadList (fuel : nat) (l : addr) (bytesProcessed : Z) : YY (bool * Z) :=
      '(hd, b) <-y ychunk l ;;
      match b with
      | YList _ _ _ _ _ =>
          r <-y yio (IFF_readField FId (o_id hd) (o_size hd) "contentsType" bytesProcessed) ;;
          match r with
          | (FIELD_MORE, Some g, bp) =>
              yput l (YChunk hd (yset_type b g)) ;;y
              '(ok, bp2) <-y yreadListSubChunks fuel l bp ;;
              if ok : bool then yret (true, bp2)
              else yio (IFF_error ("Error reading chunk in list!" ++ nl)%string) ;;y yret (false, bp2)
          | (st, _, bp) => yret (IFF_deriveSuccess st, bp)
          end
      | _ => yundefined UB_type_confusion
      end.

    (** chunkType->readExtensionChunkFields *)
    Definition yreadExtensionChunkFields (fuel : nat) (k : yhandler V) (c : addr) (bytesProcessed : Z)
      : YY (bool * Z) :=
      match k with
      | YFORM | YPROP => yreadGroup fuel c "formType" bytesProcessed
      | YCAT => yreadGroup fuel c "contentsType" bytesProcessed
      | YLIST => yreadList fuel c bytesProcessed
      | YRAW => yreadRawChunk c bytesProcessed
      | YCALL cb => yc_read cb c bytesProcessed
      end.

    (** chunk.c 46-66 readChunkBody *)
    Definition yreadChunkBody (find : yfind V) (fuel : nat) (cid size formType : Z) : YY ptr :=
      k <-y ylift (find formType cid) ;;
      p <-y ycreateExtensionChunk k cid size ;;
      match p with
      | None => yret None
      | Some c =>
          '(ok, bp) <-y yreadExtensionChunkFields fuel k c 0 ;;
          '(hd, _) <-y ychunk c ;;
          ok3 <-y yio (andM (ret ok)
                        (andM (Io.IFF_skipUnknownBytes (o_id hd) size bp)
                              (Io.IFF_readPaddingByte size (o_id hd)))) ;;
          if ok3 : bool then yret (Some c)
          else yfreeTree find c formType ;;y yret None
      end.
  End Read.

  (** chunk.c 68-78 IFF_readChunk; [fuel] bounds the nesting *)
  Fixpoint yreadChunk (find : yfind V) (fuel : nat) (formType : Z) {struct fuel} : YY ptr :=
    match fuel with
    | O => ynofuel
    | S f =>
        oid <-y yio (IFF_readId ID_EMPTY "") ;;
        match oid with
        | None => yret None
        | Some cid =>
            osize <-y yio (IFF_readLong cid "chunkSize") ;;
            match osize with
            | None => yret None
            | Some size => yreadChunkBody (yreadChunk find f) find f cid size formType
            end
        end
    end.

  (** iff.c 40-61 IFF_readFd *)
  Definition yIFF_readFd (find : yfind V) : YY ptr :=
    fun e w h =>
      (p <-y yreadChunk find (S (List.length (r_rest (w_in w)))) 0 ;;
       match p with
       | None => yio (IFF_error ("ERROR: cannot open main chunk!" ++ nl)%string) ;;y yret None
       | Some c =>
           ob <-y yio fgetc ;;
           match ob with
           | None => yret (Some c)
           | Some b =>
               yio (IFF_error ("WARNING: Trailing IFF contents found: " ++ dec (b2z b) ++ "!" ++ nl)%string) ;;y
               yret (Some c)
           end
       end) e w h.
End HeapExt.
