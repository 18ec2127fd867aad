(** * Application chunk types with callbacks of their own (definitions only).

    chunkregistry.h 37-62: an IFF_ChunkType is a set of function pointers.  The
    other model files know those of the library and of chunks that are lists of
    fields; here an application supplies the functions.  The code that calls
    them is that of chunk.c, group.c and list.c again, on trees that may also
    hold structs of the application.

    Functions of the library that look at the members of IFF_Chunk or IFF_Group
    only are reused on [bare] chunks. *)

From Coq Require Import ZArith List Bool String.
From Coq Require Import Strings.Byte.
From Verif Require Import Machine Io Types Build Read Write Check Print Compare.
Import ListNotations.
Open Scope Z_scope.

(** ** Trees.  [XUser]: a struct of the application; [u] is what it holds
    behind the members of IFF_Chunk (chunk.h 33-48). *)
Inductive xchunk (U : Type) :=
| XRaw (chunkId chunkSize : Z) (chunkData : option (list byte))
| XGroup (chunkId chunkSize groupType : Z) (subs : list (xchunk U))
| XList (chunkId chunkSize contentsType : Z) (props subs : list (xchunk U))
| XUser (chunkId chunkSize : Z) (u : U).
Arguments XRaw {U}. Arguments XGroup {U}. Arguments XList {U}. Arguments XUser {U}.

(** chunkregistry.h 43-61: the function pointers, for a struct holding a [U].
    The chunk argument is given as its ID, its size and what it holds. *)
Record callbacks (U : Type) := mkCallbacks {
  cb_create : Z -> Z -> M (option U);                    (* chunkId, chunkSize; None is NULL *)
  cb_read : Z -> Z -> U -> Z -> M (bool * U * Z);        (* ..., bytesProcessed *)
  cb_write : Z -> Z -> U -> Z -> M (bool * Z);
  cb_check : Z -> Z -> U -> M bool;
  cb_free : Z -> Z -> U -> outcome unit;
  cb_print : Z -> Z -> U -> nat -> outcome string;
  cb_compare : Z -> Z -> U -> U -> outcome bool }.
Arguments mkCallbacks {U}. Arguments cb_create {U}. Arguments cb_read {U}. Arguments cb_write {U}.
Arguments cb_check {U}. Arguments cb_free {U}. Arguments cb_print {U}. Arguments cb_compare {U}.

Inductive xhandler (U : Type) := XForm | XCAT | XLIST | XProp | XRAW | XCall (cb : callbacks U).
Arguments XForm {U}. Arguments XCAT {U}. Arguments XLIST {U}. Arguments XProp {U}. Arguments XRAW {U}.
Arguments XCall {U}.

(** ** Registries: as in Types.v *)

Definition xchunktype (U : Type) : Type := (Z * xhandler U)%type.
Definition xchain (U : Type) : Type := list (list (xchunktype U)).

(** chunkregistry.h 77-104 *)
Record xregistry (U : Type) := mkXRegistry {
  xr_forms : list (Z * xchain U);
  xr_global : xchain U;
  xr_default : option (xchunktype U) }.
Arguments mkXRegistry {U}. Arguments xr_forms {U}. Arguments xr_global {U}. Arguments xr_default {U}.

(** chunkregistry.c 66-83 getChunkType *)
Fixpoint xgetChunkType {U} (cid : Z) (node : xchain U) : option (xchunktype U) :=
  match node with
  | [] => None
  | tbl :: parent =>
      match bsearch fst cid tbl with
      | None => xgetChunkType cid parent
      | Some ct => Some ct
      end
  end.

(** chunkregistry.c 85-105 IFF_findChunkType, and the access to its result *)
Definition xfind_handler {U} (r : xregistry U) (formType cid : Z) : outcome (xhandler U) :=
  let result :=
    match bsearch fst formType (xr_forms r) with
    | None => xgetChunkType cid (xr_global r)
    | Some (_, node) => xgetChunkType cid node
    end in
  match result with
  | Some ct => Done (snd ct)
  | None => match xr_default r with Some ct => Done (snd ct) | None => Undefined UB_null_deref end
  end.

(** defaultregistry.c 31-42 *)
Definition xglobalChunkTypes {U} : list (xchunktype U) :=
  [(IFF_ID_CAT, XCAT); (IFF_ID_FORM, XForm); (IFF_ID_LIST, XLIST); (IFF_ID_PROP, XProp)].

(** defaultregistry.h 26-27 *)
Definition xextend {U} (forms : list (Z * xchain U)) : xregistry U :=
  mkXRegistry forms [xglobalChunkTypes] (Some (0, XRAW)).

Section Ext.
  Context {U : Type}.
  Notation xc := (xchunk U).

  Definition xid (c : xc) : Z :=
    match c with XRaw i _ _ | XGroup i _ _ _ | XList i _ _ _ _ | XUser i _ _ => i end.
  Definition xsize (c : xc) : Z :=
    match c with XRaw _ s _ | XGroup _ s _ _ | XList _ s _ _ _ | XUser _ s _ => s end.

  (** The members of IFF_Chunk and, for groups, of IFF_Group. *)
  Definition bare (c : xc) : chunk :=
    match c with
    | XRaw i s d => CRaw i s d
    | XGroup i s g _ => CGroup i s g []
    | XList i s g _ _ => CList i s g [] []
    | XUser i s _ => CRaw i s None
    end.

  (** ** Freeing *)

  Section Free.
    Variable free_chunk : xc -> Z -> outcome unit.

    Fixpoint xfree_all (l : list xc) (formType : Z) : outcome unit :=
      match l with
      | [] => Done tt
      | c :: r => u <-o free_chunk c formType ;; xfree_all r formType
      end.

    (** chunkType->freeExtensionChunk: group.c 199-207, list.c 213-228,
        rawchunk.c 109-113 *)
    Definition xfreeExtensionChunk (h : xhandler U) (c : xc) : outcome unit :=
      match h with
      | XForm | XCAT | XProp =>
          match c with
          | XGroup _ _ g l | XList _ _ g _ l => xfree_all l g
          | _ => Undefined UB_type_confusion
          end
      | XLIST =>
          match c with
          | XList _ _ g p l => u <-o xfree_all l g ;; xfree_all p g
          | _ => Undefined UB_type_confusion
          end
      | XRAW => match c with XRaw _ _ _ => Done tt | _ => Undefined UB_type_confusion end
      | XCall cb => match c with XUser i s u => cb_free cb i s u | _ => Undefined UB_type_confusion end
      end.
  End Free.

  (** chunk.c 108-113 IFF_freeChunk *)
  Fixpoint xfreeChunk (rg : xregistry U) (c : xc) (formType : Z) {struct c} : outcome unit :=
    h <-o xfind_handler rg formType (xid c) ;;
    xfreeExtensionChunk (xfreeChunk rg) h c.

  (** ** Reading *)

  (** chunkType->createExtensionChunk *)
  Definition xcreateExtensionChunk (h : xhandler U) (cid size : Z) : M (option xc) :=
    match h with
    | XForm | XCAT | XProp =>
        ok <- malloc sizeof_Group ;;
        ret (if ok then Some (XGroup cid size 0 []) else None)
    | XLIST =>
        ok <- malloc sizeof_List ;;
        ret (if ok then Some (XList IFF_ID_LIST size 0 [] []) else None)
    | XRAW =>
        e <- ask ;;
        ok <- malloc sizeof_RawChunk ;;
        if ok then
          ok2 <- malloc (wrap_u (size_t_bits e) size) ;;
          ret (if ok2 then Some (XRaw cid size None) else None)
        else ret None
    | XCall cb =>
        ou <- cb_create cb cid size ;;
        ret (match ou with Some u => Some (XUser cid size u) | None => None end)
    end.

  (** group.c 60-66 IFF_attachToGroup *)
  Definition xattachToGroup (group c : xc) : M xc :=
    match group with
    | XGroup i s g subs =>
        ok <- malloc ((zlength subs + 1) * sizeof_pointer) ;;
        if ok then ret (XGroup i s g (subs ++ [c])) else undefined UB_null_deref
    | XList i s g props subs =>
        ok <- malloc ((zlength subs + 1) * sizeof_pointer) ;;
        if ok then ret (XList i s g props (subs ++ [c])) else undefined UB_null_deref
    | _ => undefined UB_type_confusion
    end.

  (** list.c 60-66 addPropToList *)
  Definition xaddPropToList (l prop : xc) : M xc :=
    match l with
    | XList i s g props subs =>
        ok <- malloc ((zlength props + 1) * sizeof_pointer) ;;
        if ok then ret (XList i s g (props ++ [prop]) subs) else undefined UB_null_deref
    | _ => undefined UB_type_confusion
    end.

  Section Read.
    Variable read_chunk : Z -> M (option xc).

    (** group.c 74-95 readGroupSubChunks *)
    Fixpoint xreadGroupSubChunks (fuel : nat) (group : xc) (groupType bytesProcessed : Z)
      : M (bool * xc * Z) :=
      if bytesProcessed <? xsize group then
        match fuel with
        | O => nofuel
        | S f =>
            oc <- read_chunk groupType ;;
            match oc with
            | None => ret (false, group, bytesProcessed)
            | Some c =>
                group' <- xattachToGroup group c ;;
                bp <- lift (IFF_incrementChunkSize bytesProcessed (bare c)) ;;
                xreadGroupSubChunks f group' groupType bp
            end
        end
      else
        (if xsize group <? bytesProcessed
         then truncated_warning "group" (xsize group) else ret tt) ;;;
        ret (true, group, bytesProcessed).

    (** list.c 84-108 readListSubChunks *)
    Fixpoint xreadListSubChunks (fuel : nat) (l : xc) (contentsType bytesProcessed : Z)
      : M (bool * xc * Z) :=
      if bytesProcessed <? xsize l then
        match fuel with
        | O => nofuel
        | S f =>
            oc <- read_chunk contentsType ;;
            match oc with
            | None => ret (false, l, bytesProcessed)
            | Some c =>
                l' <- (if xid c =? IFF_ID_PROP then xaddPropToList l c else xattachToGroup l c) ;;
                bp <- lift (IFF_incrementChunkSize bytesProcessed (bare c)) ;;
                xreadListSubChunks f l' contentsType bp
            end
        end
      else
        (if xsize l <? bytesProcessed
         then truncated_warning "LIST" (xsize l) else ret tt) ;;;
        ret (true, l, bytesProcessed).

    (** group.c 97-111 IFF_readGroup *)
    Definition xreadGroup (fuel : nat) (c : xc) (groupTypeName : string) (bytesProcessed : Z)
      : M (bool * xc * Z) :=
      match c with
      | XGroup i s _ l =>
          r <- IFF_readField FId i s groupTypeName bytesProcessed ;;
          match r with
          | (FIELD_MORE, Some g, bp) => xreadGroupSubChunks fuel (XGroup i s g l) g bp
          | (st, _, bp) => ret (IFF_deriveSuccess st, c, bp)
          end
      | XList i s _ p l =>
          r <- IFF_readField FId i s groupTypeName bytesProcessed ;;
          match r with
          | (FIELD_MORE, Some g, bp) => xreadGroupSubChunks fuel (XList i s g p l) g bp
          | (st, _, bp) => ret (IFF_deriveSuccess st, c, bp)
          end
      | _ => undefined UB_type_confusion
      end.

    (** list.c 110-128 IFF_readList *)
    Definition xreadList (fuel : nat) (c : xc) (bytesProcessed : Z) : M (bool * xc * Z) :=
      match c with
      | XList i s _ p l =>
          r <- IFF_readField FId i s "contentsType" bytesProcessed ;;
          match r with
          | (FIELD_MORE, Some g, bp) =>
              r2 <- xreadListSubChunks fuel (XList i s g p l) g bp ;;
              match r2 with
              | (true, l', bp2) => ret (true, l', bp2)
              | (false, l', bp2) =>
                  IFF_error ("Error reading chunk in list!" ++ nl)%string ;;; ret (false, l', bp2)
              end
          | (st, _, bp) => ret (IFF_deriveSuccess st, c, bp)
          end
      | _ => undefined UB_type_confusion
      end.

    (** rawchunk.c 68-84 IFF_readRawChunk *)
    Definition xreadRawChunk (c : xc) (bytesProcessed : Z) : M (bool * xc * Z) :=
      match c with
      | XRaw i s d =>
          r <- IFF_readRawChunk (CRaw i s d) bytesProcessed ;;
          match r with
          | (ok, CRaw i' s' d', bp) => ret (ok, XRaw i' s' d', bp)
          | _ => undefined UB_type_confusion
          end
      | _ => undefined UB_type_confusion
      end.

    (** chunkType->readExtensionChunkFields *)
    Definition xreadExtensionChunkFields (fuel : nat) (h : xhandler U) (c : xc) (bytesProcessed : Z)
      : M (bool * xc * Z) :=
      match h with
      | XForm | XProp => xreadGroup fuel c "formType" bytesProcessed
      | XCAT => xreadGroup fuel c "contentsType" bytesProcessed
      | XLIST => xreadList fuel c bytesProcessed
      | XRAW => xreadRawChunk c bytesProcessed
      | XCall cb =>
          match c with
          | XUser i s u =>
              r <- cb_read cb i s u bytesProcessed ;;
              match r with (ok, u', bp) => ret (ok, XUser i s u', bp) end
          | _ => undefined UB_type_confusion
          end
      end.

    (** chunk.c 46-66 readChunkBody *)
    Definition xreadChunkBody (rg : xregistry U) (fuel : nat) (cid size formType : Z)
      : M (option xc) :=
      h <- lift (xfind_handler rg formType cid) ;;
      oc <- xcreateExtensionChunk h cid size ;;
      match oc with
      | None => ret None
      | Some c =>
          r <- xreadExtensionChunkFields fuel h c 0 ;;
          match r with
          | (ok, c1, bp) =>
              ok3 <- andM (ret ok)
                       (andM (IFF_skipUnknownBytes (xid c1) size bp)
                             (IFF_readPaddingByte size (xid c1))) ;;
              if ok3 then ret (Some c1)
              else lift (xfreeChunk rg c1 formType) ;;; ret None
          end
      end.
  End Read.

  (** chunk.c 68-78 IFF_readChunk *)
  Fixpoint xreadChunk (rg : xregistry U) (fuel : nat) (formType : Z) {struct fuel} : M (option xc) :=
    match fuel with
    | O => nofuel
    | S f =>
        oid <- IFF_readId ID_EMPTY "" ;;
        match oid with
        | None => ret None
        | Some cid =>
            osize <- IFF_readLong cid "chunkSize" ;;
            match osize with
            | None => ret None
            | Some size => xreadChunkBody (xreadChunk rg f) rg f cid size formType
            end
        end
    end.

  (** iff.c 40-61 IFF_readFd *)
  Definition xreadFd (rg : xregistry U) : M (option xc) :=
    fun e w =>
      (oc <- xreadChunk rg (S (List.length (r_rest (w_in w)))) 0 ;;
       match oc with
       | None => IFF_error ("ERROR: cannot open main chunk!" ++ nl)%string ;;; ret None
       | Some c =>
           ob <- fgetc ;;
           match ob with
           | None => ret (Some c)
           | Some b =>
               IFF_error ("WARNING: Trailing IFF contents found: " ++ dec (b2z b) ++ "!" ++ nl)%string ;;;
               ret (Some c)
           end
       end) e w.

  (** ** Writing *)

  Section Write.
    Variable write_chunk : xc -> Z -> M bool.

    (** the loops of group.c 117-127 and list.c 134-144 *)
    Fixpoint xwrite_all (msg : string) (l : list xc) (formType bytesProcessed : Z) : M (bool * Z) :=
      match l with
      | [] => ret (true, bytesProcessed)
      | c :: r =>
          ok <- write_chunk c formType ;;
          if ok then
            bp <- lift (IFF_incrementChunkSize bytesProcessed (bare c)) ;;
            xwrite_all msg r formType bp
          else IFF_error (msg ++ nl)%string ;;; ret (false, bytesProcessed)
      end.

    (** group.c 132-144 IFF_writeGroup *)
    Definition xwriteGroup (c : xc) (groupTypeName : string) (bytesProcessed : Z) : M (bool * Z) :=
      match c with
      | XGroup cid size g subs | XList cid size g _ subs =>
          r <- IFF_writeField FId g cid size groupTypeName bytesProcessed ;;
          match r with
          | (FIELD_MORE, bp) => xwrite_all "Error writing chunk!" subs g bp
          | (st, bp) => ret (IFF_deriveSuccess st, bp)
          end
      | _ => undefined UB_type_confusion
      end.

    (** list.c 149-164 IFF_writeList *)
    Definition xwriteList (c : xc) (bytesProcessed : Z) : M (bool * Z) :=
      match c with
      | XList cid size g props subs =>
          r <- IFF_writeField FId g cid size "contentsType" bytesProcessed ;;
          match r with
          | (FIELD_MORE, bp) =>
              r2 <- xwrite_all "Error writing PROP!" props 0 bp ;;
              match r2 with
              | (true, bp2) => xwrite_all "Error writing chunk!" subs g bp2
              | (false, bp2) => ret (false, bp2)
              end
          | (st, bp) => ret (IFF_deriveSuccess st, bp)
          end
      | _ => undefined UB_type_confusion
      end.

    (** chunkType->writeExtensionChunkFields *)
    Definition xwriteExtensionChunkFields (h : xhandler U) (c : xc) (bytesProcessed : Z) : M (bool * Z) :=
      match h with
      | XForm | XProp => xwriteGroup c "formType" bytesProcessed
      | XCAT => xwriteGroup c "contentsType" bytesProcessed
      | XLIST => xwriteList c bytesProcessed
      | XRAW =>
          match c with
          | XRaw i s d => IFF_writeRawChunk (CRaw i s d) bytesProcessed
          | _ => undefined UB_type_confusion
          end
      | XCall cb =>
          match c with
          | XUser i s u => cb_write cb i s u bytesProcessed
          | _ => undefined UB_type_confusion
          end
      end.

    (** chunk.c 80-88 writeChunkBody *)
    Definition xwriteChunkBody (rg : xregistry U) (c : xc) (formType : Z) : M bool :=
      h <- lift (xfind_handler rg formType (xid c)) ;;
      r <- xwriteExtensionChunkFields h c 0 ;;
      match r with
      | (ok, bp) =>
          andM (ret ok)
            (andM (IFF_writeZeroFillerBytes (xid c) (xsize c) bp)
                  (IFF_writePaddingByte (xsize c) (xid c)))
      end.
  End Write.

  (** chunk.c 90-95 IFF_writeChunk; iff.c 93-96 IFF_writeFd is this with form
      type 0 *)
  Fixpoint xwriteChunk (rg : xregistry U) (c : xc) (formType : Z) {struct c} : M bool :=
    andM (IFF_writeId (xid c) (xid c) "chunkId")
      (andM (IFF_writeLong (xsize c) (xid c) "chunkSize")
         (xwriteChunkBody (xwriteChunk rg) rg c formType)).

  (** ** Checking *)

  Section Check.
    Variable check_chunk : xc -> Z -> M bool.

    (** the loop of group.c 164-176 *)
    Fixpoint xcheck_subs (subChunkCheck : chunk -> M bool) (l : list xc) (formType acc : Z) : M Z :=
      match l with
      | [] => ret acc
      | c :: r =>
          ok <- subChunkCheck (bare c) ;;
          if negb ok then ret (-1) else
          ok2 <- check_chunk c formType ;;
          if negb ok2 then ret (-1) else
          acc' <- lift (IFF_incrementChunkSize acc (bare c)) ;;
          xcheck_subs subChunkCheck r formType acc'
      end.

    (** group.c 181-197 IFF_checkGroup *)
    Definition xcheckGroup (groupTypeCheck : Z -> M bool) (subChunkCheck : chunk -> chunk -> M bool)
        (c : xc) : M bool :=
      match c with
      | XGroup _ _ g subs | XList _ _ g _ subs =>
          ok <- groupTypeCheck g ;;
          if negb ok then ret false else
          size <- xcheck_subs (subChunkCheck (bare c)) subs g 0 ;;
          if size =? -1 then ret false else
          size' <- lift (add_int size IFF_ID_SIZE) ;;
          IFF_checkGroupChunkSize (bare c) size'
      | _ => undefined UB_type_confusion
      end.

    (** list.c 184-211 IFF_checkList *)
    Definition xcheckList (c : xc) : M bool :=
      match c with
      | XList _ _ g props subs =>
          ok <- IFF_checkId g ;;
          if negb ok then ret false else
          s1 <- xcheck_subs (fun _ => ret true) props g 0 ;;
          if s1 =? -1 then ret false else
          size1 <- lift (add_int IFF_ID_SIZE s1) ;;
          s2 <- xcheck_subs (IFF_checkCATSubChunk (bare c)) subs g 0 ;;
          if s2 =? -1 then ret false else
          size2 <- lift (add_int size1 s2) ;;
          IFF_checkGroupChunkSize (bare c) size2
      | _ => undefined UB_type_confusion
      end.

    (** chunkType->checkExtensionChunk *)
    Definition xcheckExtensionChunk (h : xhandler U) (c : xc) : M bool :=
      match h with
      | XForm => xcheckGroup IFF_checkFormType form_subChunkCheck c
      | XCAT => xcheckGroup IFF_checkId IFF_checkCATSubChunk c
      | XProp => xcheckGroup IFF_checkFormType prop_subChunkCheck c
      | XLIST => xcheckList c
      | XRAW => ret true
      | XCall cb =>
          match c with
          | XUser i s u => cb_check cb i s u
          | _ => undefined UB_type_confusion
          end
      end.
  End Check.

  (** chunk.c 97-106 IFF_checkChunk *)
  Fixpoint xcheckChunk (rg : xregistry U) (c : xc) (formType : Z) {struct c} : M bool :=
    ok <- IFF_checkId (xid c) ;;
    if negb ok then ret false
    else
      h <- lift (xfind_handler rg formType (xid c)) ;;
      xcheckExtensionChunk (xcheckChunk rg) h c.

  (** iff.c 127-140 IFF_check *)
  Definition xcheck (rg : xregistry U) (c : xc) : M bool :=
    if negb (xid c =? IFF_ID_FORM) && negb (xid c =? IFF_ID_CAT) && negb (xid c =? IFF_ID_LIST)
    then
      IFF_error ("Not a valid IFF-85 file: First bytes should start with either: 'FORM', 'CAT ' or 'LIST'"
                 ++ nl)%string ;;;
      ret false
    else xcheckChunk rg c 0.

  (** ** Comparing *)

  Section Compare.
    Variable compare_chunk : xc -> xc -> Z -> outcome bool.

    (** the loop of group.c 240-244 *)
    Fixpoint xcompare_all (l1 l2 : list xc) (formType : Z) : outcome bool :=
      match l1, l2 with
      | c1 :: r1, c2 :: r2 =>
          b <-o compare_chunk c1 c2 formType ;;
          if b then xcompare_all r1 r2 formType else Done false
      | _, _ => Done true
      end.

    (** group.c 234-250 IFF_compareGroup *)
    Definition xcompareGroup (c1 c2 : xc) : outcome bool :=
      match c1 with
      | XGroup _ _ g1 l1 | XList _ _ g1 _ l1 =>
          match c2 with
          | XGroup _ _ g2 l2 | XList _ _ g2 _ l2 =>
              if (g1 =? g2) && (zlength l1 =? zlength l2)
              then xcompare_all l1 l2 g1
              else Done false
          | _ => Undefined UB_type_confusion
          end
      | _ => Undefined UB_type_confusion
      end.

    (** the loop of list.c 257-261: IFF_compareProp is called directly *)
    Fixpoint xcompare_props (p1 p2 : list xc) : outcome bool :=
      match p1, p2 with
      | c1 :: r1, c2 :: r2 =>
          b <-o xcompareGroup c1 c2 ;;
          if b then xcompare_props r1 r2 else Done false
      | _, _ => Done true
      end.

    (** list.c 251-278 IFF_compareList *)
    Definition xcompareList (c1 c2 : xc) : outcome bool :=
      match c1 with
      | XList _ _ g1 p1 l1 =>
          match c2 with
          | XList _ _ g2 p2 l2 =>
              b <-o (if zlength p1 =? zlength p2 then xcompare_props p1 p2 else Done false) ;;
              if b then
                if (g1 =? g2) && (zlength l1 =? zlength l2)
                then xcompare_all l1 l2 g1
                else Done false
              else Done false
          | _ => Undefined UB_type_confusion
          end
      | _ => Undefined UB_type_confusion
      end.

    (** chunkType->compareExtensionChunk *)
    Definition xcompareExtensionChunk (e : env) (h : xhandler U) (c1 c2 : xc) : outcome bool :=
      match h with
      | XForm | XCAT | XProp => xcompareGroup c1 c2
      | XLIST => xcompareList c1 c2
      | XRAW =>
          match c1, c2 with
          | XRaw i1 s1 d1, XRaw i2 s2 d2 => IFF_compareRawChunk e (CRaw i1 s1 d1) (CRaw i2 s2 d2)
          | _, _ => Undefined UB_type_confusion
          end
      | XCall cb =>
          match c1, c2 with
          | XUser i s u1, XUser _ _ u2 => cb_compare cb i s u1 u2
          | _, _ => Undefined UB_type_confusion
          end
      end.
  End Compare.

  (** chunk.c 127-136 IFF_compareChunk; iff.c 147-150 IFF_compare is this with
      form type 0 *)
  Fixpoint xcompareChunk (e : env) (rg : xregistry U) (c1 c2 : xc) (formType : Z) {struct c1}
    : outcome bool :=
    if (xid c1 =? xid c2) && (xsize c1 =? xsize c2) then
      h <-o xfind_handler rg formType (xid c1) ;;
      xcompareExtensionChunk (xcompareChunk e rg) e h c1 c2
    else Done false.

  (** ** Printing *)

  Section Print.
    Variable print_chunk : xc -> nat -> Z -> outcome string.

    (** the loops of group.c 222-223 and list.c 236-237 *)
    Fixpoint xprint_all (l : list xc) (level : nat) (formType : Z) : outcome string :=
      match l with
      | [] => Done EmptyString
      | c :: r =>
          s <-o print_chunk c level formType ;;
          t <-o xprint_all r level formType ;;
          Done (s ++ t)%string
      end.

    (** group.c 216-226, list.c 230-240 *)
    Definition xprint_array (opening : string) (l : list xc) (formType : Z) (level : nat)
      : outcome string :=
      s <-o xprint_all l (S level) formType ;;
      Done (IFF_printIndent level (opening ++ nl) ++ s ++ IFF_printIndent level ("];" ++ nl))%string.

    (** group.c 228-232 IFF_printGroup *)
    Definition xprintGroup (c : xc) (level : nat) (groupTypeName : string) : outcome string :=
      match c with
      | XGroup _ _ g l | XList _ _ g _ l =>
          s <-o xprint_array "[" l g level ;;
          Done (IFF_printGroupType groupTypeName g level ++ s)%string
      | _ => Undefined UB_type_confusion
      end.

    (** list.c 242-249 IFF_printList *)
    Definition xprintList (c : xc) (level : nat) : outcome string :=
      match c with
      | XList _ _ g p l =>
          s1 <-o xprint_array "prop = [" p g level ;;
          s2 <-o xprint_array "[" l g level ;;
          Done (IFF_printGroupType "contentsType" g level ++ s1 ++ s2)%string
      | _ => Undefined UB_type_confusion
      end.

    (** chunkType->printExtensionChunk *)
    Definition xprintExtensionChunk (h : xhandler U) (c : xc) (level : nat) : outcome string :=
      match h with
      | XForm | XProp => xprintGroup c level "formType"
      | XCAT => xprintGroup c level "contentsType"
      | XLIST => xprintList c level
      | XRAW =>
          match c with
          | XRaw i s d => IFF_printRawChunk (CRaw i s d) level
          | _ => Undefined UB_type_confusion
          end
      | XCall cb =>
          match c with
          | XUser i s u => cb_print cb i s u level
          | _ => Undefined UB_type_confusion
          end
      end.
  End Print.

  (** chunk.c 115-125 IFF_printChunk; iff.c 142-145 IFF_print is this with form
      type 0 *)
  Fixpoint xprintChunk (rg : xregistry U) (c : xc) (level : nat) (formType : Z) {struct c}
    : outcome string :=
    h <-o xfind_handler rg formType (xid c) ;;
    s <-o xprintExtensionChunk (xprintChunk rg) h c level ;;
    Done (IFF_printIndent level "'" ++ IFF_printId (xid c) ++ "' = {" ++ nl
          ++ IFF_printIndent (S level) ("chunkSize = " ++ dec (xsize c) ++ ";" ++ nl)
          ++ s ++ IFF_printIndent level ("}" ++ nl ++ nl))%string.
End Ext.
