(** * The call stack: the recursive functions with a bounded number of nested
    calls (definitions only).

    The library handles nested chunks by recursion: IFF_readChunk calls the
    handler's read function, which calls IFF_readChunk for every sub chunk, and
    likewise for the other operations.  Here [frames] is how many activations
    of these functions the stack has room for at once; the next one is the
    outcome [Undefined UB_stack_overflow].  How many bytes an activation takes
    is up to the compiler.  The bodies are those of the other files; only the
    recursive call is replaced. *)

From Coq Require Import ZArith List Bool String.
From Coq Require Import Strings.Byte.
From Verif Require Import Machine Io Types Build Read Write Check Compare Print Search Iff.
Import ListNotations.
Open Scope Z_scope.

(** chunk.c 108-113 IFF_freeChunk *)
Fixpoint stack_freeChunk (rg : option registry) (frames : nat) (c : chunk) (formType : Z) : outcome unit :=
  match frames with
  | O => Undefined UB_stack_overflow
  | S f =>
      h <-o find_handler rg formType (chunkId c) ;;
      freeExtensionChunk (stack_freeChunk rg f) h c
  end.

(** chunk.c 46-66 readChunkBody: as in Read.v, but a failed read frees on the
    same stack *)
Definition stack_readChunkBody (frames : nat) (read_chunk : Z -> M (option chunk)) (rg : option registry) (fuel : nat)
    (cid size formType : Z) : M (option chunk) :=
  h <- lift (find_handler rg formType cid) ;;
  oc <- createExtensionChunk h cid size ;;
  match oc with
  | None => ret None
  | Some c =>
      r <- readExtensionChunkFields read_chunk fuel h c 0 ;;
      match r with
      | (ok, c1, bp) =>
          ok3 <- andM (ret ok)
                   (andM (IFF_skipUnknownBytes (chunkId c1) size bp)
                         (IFF_readPaddingByte size (chunkId c1))) ;;
          if ok3 then ret (Some c1)
          else lift (stack_freeChunk rg frames c1 formType) ;;; ret None
      end
  end.

(** chunk.c 68-78 IFF_readChunk *)
Fixpoint stack_readChunk (rg : option registry) (frames fuel : nat) (formType : Z) {struct fuel}
  : M (option chunk) :=
  match fuel with
  | O => nofuel
  | S n =>
      match frames with
      | O => undefined UB_stack_overflow
      | S f =>
          oid <- IFF_readId ID_EMPTY "" ;;
          match oid with
          | None => ret None
          | Some cid =>
              osize <- IFF_readLong cid "chunkSize" ;;
              match osize with
              | None => ret None
              | Some size => stack_readChunkBody f (stack_readChunk rg f n) rg n cid size formType
              end
          end
      end
  end.

(** chunk.c 90-95 IFF_writeChunk *)
Fixpoint stack_writeChunk (rg : option registry) (frames : nat) (c : chunk) (formType : Z) : M bool :=
  match frames with
  | O => undefined UB_stack_overflow
  | S f =>
      andM (IFF_writeId (chunkId c) (chunkId c) "chunkId")
        (andM (IFF_writeLong (chunkSize c) (chunkId c) "chunkSize")
           (writeChunkBody (stack_writeChunk rg f) rg c formType))
  end.

(** chunk.c 97-106 IFF_checkChunk *)
Fixpoint stack_checkChunk (rg : option registry) (frames : nat) (c : chunk) (formType : Z) : M bool :=
  match frames with
  | O => undefined UB_stack_overflow
  | S f =>
      ok <- IFF_checkId (chunkId c) ;;
      if negb ok then ret false
      else
        h <- lift (find_handler rg formType (chunkId c)) ;;
        checkExtensionChunk (stack_checkChunk rg f) h c
  end.

(** chunk.c 115-125 IFF_printChunk *)
Fixpoint stack_printChunk (rg : option registry) (frames : nat) (c : chunk) (level : nat) (formType : Z)
  : outcome string :=
  match frames with
  | O => Undefined UB_stack_overflow
  | S f =>
      h <-o find_handler rg formType (chunkId c) ;;
      s <-o printExtensionChunk (stack_printChunk rg f) h c level ;;
      Done (IFF_printIndent level "'" ++ IFF_printId (chunkId c) ++ "' = {" ++ nl
            ++ IFF_printIndent (S level) ("chunkSize = " ++ dec (chunkSize c) ++ ";" ++ nl)
            ++ s ++ IFF_printIndent level ("}" ++ nl ++ nl))%string
  end.

(** chunk.c 127-136 IFF_compareChunk *)
Fixpoint stack_compareChunk (e : env) (rg : option registry) (frames : nat) (c1 c2 : chunk) (formType : Z)
  : outcome bool :=
  match frames with
  | O => Undefined UB_stack_overflow
  | S f =>
      if (chunkId c1 =? chunkId c2) && (chunkSize c1 =? chunkSize c2) then
        h <-o find_handler rg formType (chunkId c1) ;;
        compareExtensionChunk (stack_compareChunk e rg f) e h c1 c2
      else Done false
  end.

(** group.c 291-305 IFF_searchFormsFromArray *)
Fixpoint stack_searchForms (frames : nat) (formTypes : list Z) (c : chunk) : outcome (list chunk) :=
  match frames with
  | O => Undefined UB_stack_overflow
  | S f =>
      if chunkId c =? IFF_ID_FORM then
        IFF_searchFormsInForm (stack_searchForms f formTypes) formTypes c
      else if chunkId c =? IFF_ID_CAT then
        IFF_searchFormsInGroup (stack_searchForms f formTypes) c
      else if chunkId c =? IFF_ID_LIST then
        IFF_searchFormsInGroup (stack_searchForms f formTypes) c
      else Done []
  end.

(** ** The public operations *)

(** iff.c 40-61 IFF_readFd *)
Definition stack_IFF_readFd (frames : nat) (rg : option registry) : M (option chunk) :=
  fun e w =>
    (oc <- stack_readChunk (selectChunkRegistry rg) frames (S (List.length (r_rest (w_in w)))) 0 ;;
     match oc with
     | None => IFF_error ("ERROR: cannot open main chunk!" ++ nl)%string ;;; ret None
     | Some c =>
         ob <- fgetc ;;
         match ob with
         | None => ret (Some c)
         | Some b =>
             IFF_error ("WARNING: Trailing IFF contents found: " ++ dec (b2z b) ++ "!" ++ nl)%string ;;;
             ret (Some c)
         end
     end) e w.

(** iff.c 93-96, 122-125, 142-145, 147-150 *)
Definition stack_IFF_writeFd (frames : nat) (c : chunk) (rg : option registry) : M bool :=
  stack_writeChunk (selectChunkRegistry rg) frames c 0.
Definition stack_IFF_free (frames : nat) (c : chunk) (rg : option registry) : outcome unit :=
  stack_freeChunk (selectChunkRegistry rg) frames c 0.
Definition stack_IFF_print (frames : nat) (c : chunk) (level : nat) (rg : option registry) : outcome string :=
  stack_printChunk (selectChunkRegistry rg) frames c level 0.
Definition stack_IFF_compare (frames : nat) (e : env) (c1 c2 : chunk) (rg : option registry) : outcome bool :=
  stack_compareChunk e (selectChunkRegistry rg) frames c1 c2 0.

(** iff.c 127-140 IFF_check *)
Definition stack_IFF_check (frames : nat) (c : chunk) (rg : option registry) : M bool :=
  if negb (chunkId c =? IFF_ID_FORM) && negb (chunkId c =? IFF_ID_CAT)
     && negb (chunkId c =? IFF_ID_LIST)
  then
    IFF_error ("Not a valid IFF-85 file: First bytes should start with either: 'FORM', 'CAT ' or 'LIST'"
               ++ nl)%string ;;;
    ret false
  else stack_checkChunk (selectChunkRegistry rg) frames c 0.
