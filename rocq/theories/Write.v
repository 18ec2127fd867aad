(** * Writing chunks (definitions only). *)

From Coq Require Import ZArith List Bool String.
From Coq Require Import Strings.Byte.
From Verif Require Import Machine Io Types Build.
Import ListNotations.
Open Scope Z_scope.

(** Reading [n] bytes of a data block, as fwrite and memcmp do. *)
Definition block_bytes (d : option (list byte)) (n : Z) : outcome (list byte) :=
  if n <=? 0 then Done []
  else match d with
       | None => Undefined UB_uninitialised
       | Some l => if zlength l <? n then Undefined UB_out_of_bounds else Done (ztake n l)
       end.

(** rawchunk.c 86-102 IFF_writeRawChunk *)
Definition IFF_writeRawChunk (c : chunk) (bytesProcessed : Z) : M (bool * Z) :=
  match c with
  | CRaw cid size d =>
      e <- ask ;;
      l <- lift (block_bytes d (wrap_u (size_t_bits e) size)) ;;
      ok <- fwrite l ;;
      if ok then
        if INT_MAX <? bytesProcessed + size then undefined UB_signed_overflow
        else ret (true, bytesProcessed + size)
      else
        IFF_error "Error writing raw chunk body of chunk '" ;;;
        IFF_errorId cid ;;;
        IFF_error ("'" ++ nl)%string ;;;
        ret (false, bytesProcessed)
  | _ => undefined UB_type_confusion
  end.

(** tests/hello.c 65-80 TEST_writeHello, tests/bye.c TEST_writeBye *)
Fixpoint write_fields (ds : list fdesc) (vals : list (fkind * Z)) (cid size bytesProcessed : Z)
  : M (bool * Z) :=
  match ds, vals with
  | d :: ds', (_, v) :: vals' =>
      r <- IFF_writeField (fd_kind d) v cid size (fd_name d) bytesProcessed ;;
      match r with
      | (FIELD_MORE, bp) => write_fields ds' vals' cid size bp
      | (st, bp) => ret (IFF_deriveSuccess st, bp)
      end
  | _, _ => ret (true, bytesProcessed)
  end.

Definition write_fields_chunk (s : fspec) (c : chunk) (bytesProcessed : Z) : M (bool * Z) :=
  match c with
  | CFields cid size vals =>
      if fkinds_eqb (map fst vals) (map fd_kind (fs_fields s))
      then write_fields (fs_fields s) vals cid size bytesProcessed
      else undefined UB_type_confusion
  | _ => undefined UB_type_confusion
  end.

Section Write.
  Variable write_chunk : chunk -> Z -> M bool.

  (** the loops of group.c 117-127 and list.c 134-144; [msg] is the error
      reported *)
  Fixpoint write_all (msg : string) (l : list chunk) (formType bytesProcessed : Z) : M (bool * Z) :=
    match l with
    | [] => ret (true, bytesProcessed)
    | c :: r =>
        ok <- write_chunk c formType ;;
        if ok then
          bp <- lift (IFF_incrementChunkSize bytesProcessed c) ;;
          write_all msg r formType bp
        else IFF_error (msg ++ nl)%string ;;; ret (false, bytesProcessed)
    end.

  (** group.c 113-130 IFF_writeGroupSubChunks *)
  Definition IFF_writeGroupSubChunks (subs : list chunk) (groupType bytesProcessed : Z) : M (bool * Z) :=
    write_all "Error writing chunk!" subs groupType bytesProcessed.

  (** group.c 132-144 IFF_writeGroup (form.c 88-91 IFF_writeForm, cat.c
      84-87 IFF_writeCAT, prop.c 59-62 IFF_writeProp forward) *)
  Definition IFF_writeGroup (c : chunk) (groupTypeName : string) (bytesProcessed : Z) : M (bool * Z) :=
    match c with
    | CGroup cid size g subs | CList cid size g _ subs =>
        r <- IFF_writeField FId g cid size groupTypeName bytesProcessed ;;
        match r with
        | (FIELD_MORE, bp) => IFF_writeGroupSubChunks subs g bp
        | (st, bp) => ret (IFF_deriveSuccess st, bp)
        end
    | _ => undefined UB_type_confusion
    end.

  (** list.c 130-147 writeListPropChunks: passes 0 as the form type *)
  Definition writeListPropChunks (props : list chunk) (bytesProcessed : Z) : M (bool * Z) :=
    write_all "Error writing PROP!" props 0 bytesProcessed.

  (** list.c 149-164 IFF_writeList *)
  Definition IFF_writeList (c : chunk) (bytesProcessed : Z) : M (bool * Z) :=
    match c with
    | CList cid size g props subs =>
        r <- IFF_writeField FId g cid size "contentsType" bytesProcessed ;;
        match r with
        | (FIELD_MORE, bp) =>
            r2 <- writeListPropChunks props bp ;;
            match r2 with
            | (true, bp2) => IFF_writeGroupSubChunks subs g bp2
            | (false, bp2) => ret (false, bp2)
            end
        | (st, bp) => ret (IFF_deriveSuccess st, bp)
        end
    | _ => undefined UB_type_confusion
    end.

  (** chunkType->writeExtensionChunkFields *)
  Definition writeExtensionChunkFields (h : handler) (c : chunk) (bytesProcessed : Z) : M (bool * Z) :=
    match h with
    | HForm | HProp => IFF_writeGroup c "formType" bytesProcessed
    | HCAT => IFF_writeGroup c "contentsType" bytesProcessed
    | HList => IFF_writeList c bytesProcessed
    | HRaw => IFF_writeRawChunk c bytesProcessed
    | HFields s => write_fields_chunk s c bytesProcessed
    end.

  (** chunk.c 80-88 writeChunkBody *)
  Definition writeChunkBody (rg : option registry) (c : chunk) (formType : Z) : M bool :=
    h <- lift (find_handler rg formType (chunkId c)) ;;
    r <- writeExtensionChunkFields h c 0 ;;
    match r with
    | (ok, bp) =>
        andM (ret ok)
          (andM (IFF_writeZeroFillerBytes (chunkId c) (chunkSize c) bp)
                (IFF_writePaddingByte (chunkSize c) (chunkId c)))
    end.
End Write.

(** chunk.c 90-95 IFF_writeChunk *)
Fixpoint IFF_writeChunk (rg : option registry) (c : chunk) (formType : Z) {struct c} : M bool :=
  andM (IFF_writeId (chunkId c) (chunkId c) "chunkId")
    (andM (IFF_writeLong (chunkSize c) (chunkId c) "chunkSize")
       (writeChunkBody (IFF_writeChunk rg) rg c formType)).
