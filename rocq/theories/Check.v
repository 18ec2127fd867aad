(** * Checking chunks (definitions only). *)

From Coq Require Import ZArith List Bool String.
From Coq Require Import Strings.Byte.
From Verif Require Import Machine Io Types Build.
Import ListNotations.
Open Scope Z_scope.

(** The common message of the sub chunk checks *)
Definition not_allowed (cid : Z) (where_ : string) : M bool :=
  IFF_error "ERROR: Element with chunk Id: '" ;;;
  IFF_errorId cid ;;;
  IFF_error ("' not allowed in " ++ where_ ++ " chunk!" ++ nl)%string ;;;
  ret false.

(** form.c 160-172 subChunkCheck *)
Definition form_subChunkCheck (group sub : chunk) : M bool :=
  if chunkId sub =? IFF_ID_PROP then not_allowed (chunkId sub) "FORM" else ret true.

(** prop.c 64-79 subChunkCheck *)
Definition prop_subChunkCheck (group sub : chunk) : M bool :=
  if (chunkId sub =? IFF_ID_FORM) || (chunkId sub =? IFF_ID_LIST)
     || (chunkId sub =? IFF_ID_CAT) || (chunkId sub =? IFF_ID_PROP)
  then not_allowed (chunkId sub) "PROP" else ret true.

(** cat.c 89-120 IFF_checkCATSubChunk *)
Definition IFF_checkCATSubChunk (group sub : chunk) : M bool :=
  if negb (checkValidCATSubChunkId (chunkId sub)) then not_allowed (chunkId sub) "CAT"
  else
    match as_group group with
    | None => undefined UB_type_confusion
    | Some (contentsType, _) =>
        if negb (contentsType =? IFF_ID_JJJJ) then
          if checkValidCATSubChunkId (chunkId sub) then
            match as_group sub with
            | None => undefined UB_type_confusion
            | Some (groupType, _) =>
                if negb (groupType =? contentsType) then
                  IFF_error ("Sub form does not match contentsType of the CAT!" ++ nl)%string ;;;
                  ret false
                else ret true
            end
          else ret true
        else ret true
    end.

(** group.c 146-157 IFF_checkGroupChunkSize *)
Definition IFF_checkGroupChunkSize (group : chunk) (size : Z) : M bool :=
  if size =? chunkSize group then ret true
  else
    IFF_error "Chunk size mismatch! " ;;;
    IFF_errorId (chunkId group) ;;;
    IFF_error (" size: " ++ dec (chunkSize group) ++ ", while body has: " ++ dec size ++ nl)%string ;;;
    ret false.

(** int addition with overflow *)
Definition add_int (a b : Z) : outcome Z :=
  if (INT_MAX <? a + b) || (a + b <? INT_MIN) then Undefined UB_signed_overflow else Done (a + b).

Section Check.
  Variable check_chunk : chunk -> Z -> M bool.

  (** the loop of group.c 164-176; [acc] is chunkSize, the result -1 on failure *)
  Fixpoint check_subs (subChunkCheck : chunk -> M bool) (l : list chunk) (formType acc : Z) : M Z :=
    match l with
    | [] => ret acc
    | c :: r =>
        ok <- subChunkCheck c ;;
        if negb ok then ret (-1) else
        ok2 <- check_chunk c formType ;;
        if negb ok2 then ret (-1) else
        acc' <- lift (IFF_incrementChunkSize acc c) ;;
        check_subs subChunkCheck r formType acc'
    end.

  (** group.c 181-197 IFF_checkGroup with 159-179 IFF_checkGroupSubChunks *)
  Definition IFF_checkGroup (groupTypeCheck : Z -> M bool) (subChunkCheck : chunk -> chunk -> M bool)
      (group : chunk) : M bool :=
    match group with
    | CGroup _ _ g subs | CList _ _ g _ subs =>
        ok <- groupTypeCheck g ;;
        if negb ok then ret false else
        size <- check_subs (subChunkCheck group) subs g 0 ;;
        if size =? -1 then ret false else
        size' <- lift (add_int size IFF_ID_SIZE) ;;
        IFF_checkGroupChunkSize group size'
    | _ => undefined UB_type_confusion
    end.

  (** form.c 174-177 IFF_checkForm, cat.c 122-125 IFF_checkCAT, prop.c 81-84 IFF_checkProp *)
  Definition IFF_checkForm := IFF_checkGroup IFF_checkFormType form_subChunkCheck.
  Definition IFF_checkCAT := IFF_checkGroup IFF_checkId IFF_checkCATSubChunk.
  Definition IFF_checkProp := IFF_checkGroup IFF_checkFormType prop_subChunkCheck.

  (** list.c 166-182 checkListPropChunks *)
  Definition checkListPropChunks (props : list chunk) (contentsType : Z) : M Z :=
    check_subs (fun _ => ret true) props contentsType 0.

  (** list.c 184-211 IFF_checkList *)
  Definition IFF_checkList (l : chunk) : M bool :=
    match l with
    | CList _ _ g props subs =>
        ok <- IFF_checkId g ;;
        if negb ok then ret false else
        s1 <- checkListPropChunks props g ;;
        if s1 =? -1 then ret false else
        size1 <- lift (add_int IFF_ID_SIZE s1) ;;
        s2 <- check_subs (IFF_checkCATSubChunk l) subs g 0 ;;
        if s2 =? -1 then ret false else
        size2 <- lift (add_int size1 s2) ;;
        IFF_checkGroupChunkSize l size2
    | _ => undefined UB_type_confusion
    end.

  (** tests/hello.c 82-93 TEST_checkHello *)
  Definition check_fields_chunk (s : fspec) (c : chunk) : M bool :=
    match c with
    | CFields _ _ vals =>
        if fkinds_eqb (map fst vals) (map fd_kind (fs_fields s)) then
          match fs_check s (map snd vals) with
          | None => ret true
          | Some msg => IFF_error msg ;;; ret false
          end
        else undefined UB_type_confusion
    | _ => undefined UB_type_confusion
    end.

  (** chunkType->checkExtensionChunk; rawchunk.c 104-107 IFF_checkRawChunk *)
  Definition checkExtensionChunk (h : handler) (c : chunk) : M bool :=
    match h with
    | HForm => IFF_checkForm c
    | HCAT => IFF_checkCAT c
    | HProp => IFF_checkProp c
    | HList => IFF_checkList c
    | HRaw => ret true
    | HFields s => check_fields_chunk s c
    end.
End Check.

(** chunk.c 97-106 IFF_checkChunk *)
Fixpoint IFF_checkChunk (rg : option registry) (c : chunk) (formType : Z) {struct c} : M bool :=
  ok <- IFF_checkId (chunkId c) ;;
  if negb ok then ret false
  else
    h <- lift (find_handler rg formType (chunkId c)) ;;
    checkExtensionChunk (IFF_checkChunk rg) h c.
