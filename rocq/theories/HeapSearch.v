(** * Sizes and searches on the level of heap blocks and pointers
    (definitions only) *)

From Coq Require Import ZArith List Bool String.
From Coq Require Import Strings.Byte.
From Verif Require Import Machine Io Types Build Heap.
Import ListNotations.
Open Scope Z_scope.

(** ** Updating sizes *)

(** The loops of group.c 287-288 and list.c 291-292:
    group->chunkSize = IFF_incrementChunkSize(group->chunkSize, member) *)
Fixpoint hsum_sizes (group : addr) (l : list addr) : H unit :=
  match l with
  | [] => hret tt
  | c :: r =>
      '(hd, _) <-h hchunk group ;;
      s <-h hincrementChunkSize (o_size hd) c ;;
      hset_size group s ;;h
      hsum_sizes group r
  end.

(** group.c 281-289 IFF_updateGroupChunkSizes (form.c 231-234, prop.c 101-104 and
    cat.c 147-150 forward to it) *)
Definition hupdateGroupChunkSizes (group : addr) : H unit :=
  '(_, b) <-h hchunk group ;;
  match b with
  | BGroup _ n arr | BList _ n arr _ _ =>
      hset_size group IFF_ID_SIZE ;;h
      l <-h helements arr n ;;
      hsum_sizes group l
  | _ => hundefined UB_type_confusion
  end.

(** list.c 285-293 IFF_updateListChunkSizes *)
Definition hupdateListChunkSizes (l : addr) : H unit :=
  hupdateGroupChunkSizes l ;;h
  '(_, b) <-h hchunk l ;;
  match b with
  | BList _ _ _ pn parr =>
      ps <-h helements parr pn ;;
      hsum_sizes l ps
  | _ => hundefined UB_type_confusion
  end.

(** group.c 316-331: the switch of IFF_updateChunkSizes *)
Definition hupdate_own_size (c : addr) : H unit :=
  '(hd, _) <-h hchunk c ;;
  if (o_id hd =? IFF_ID_FORM) || (o_id hd =? IFF_ID_PROP) || (o_id hd =? IFF_ID_CAT)
  then hupdateGroupChunkSizes c
  else if o_id hd =? IFF_ID_LIST then hupdateListChunkSizes c
  else hret tt.

(** group.c 314-336 IFF_updateChunkSizes: the chunk itself, then whatever its
    parent pointer designates; [fuel] bounds the way up. *)
Fixpoint hupdateChunkSizes (fuel : nat) (c : addr) : H unit :=
  match fuel with
  | O => hnofuel
  | S f =>
      hupdate_own_size c ;;h
      '(hd, _) <-h hchunk c ;;
      match o_parent hd with
      | None => hret tt
      | Some p => hupdateChunkSizes f p
      end
  end.

(** A chunk of a tree has no more ancestors than there are blocks. *)
Definition hIFF_updateChunkSizes (c : addr) : H unit :=
  fun e w h => hupdateChunkSizes (S (List.length h)) c e w h.

(** ** Looking up chunks *)

(** form.c 291-302 IFF_getDataChunkFromForm *)
Fixpoint hfirst_with_id (cid : Z) (l : list addr) : H ptr :=
  match l with
  | [] => hret None
  | c :: r =>
      '(hd, _) <-h hchunk c ;;
      if o_id hd =? cid then hret (Some c) else hfirst_with_id cid r
  end.

Definition hgetDataChunkFromForm (form : addr) (cid : Z) : H ptr :=
  '(_, b) <-h hchunk form ;;
  match b with
  | BGroup _ n arr | BList _ n arr _ _ =>
      l <-h helements arr n ;;
      hfirst_with_id cid l
  | _ => hundefined UB_type_confusion
  end.

(** list.c 295-306 IFF_getPropFromList *)
Fixpoint hfirst_with_type (formType : Z) (l : list addr) : H ptr :=
  match l with
  | [] => hret None
  | p :: r =>
      '(_, b) <-h hchunk p ;;
      match type_of b with
      | None => hundefined UB_type_confusion
      | Some g => if g =? formType then hret (Some p) else hfirst_with_type formType r
      end
  end.

Definition hgetPropFromList (l : addr) (formType : Z) : H ptr :=
  '(_, b) <-h hchunk l ;;
  match b with
  | BList _ _ _ pn parr =>
      ps <-h helements parr pn ;;
      hfirst_with_type formType ps
  | _ => hundefined UB_type_confusion
  end.

(** form.c 242-255 searchList: the nearest enclosing list *)
Fixpoint hsearchList (fuel : nat) (c : addr) : H ptr :=
  match fuel with
  | O => hnofuel
  | S f =>
      '(hd, _) <-h hchunk c ;;
      match o_parent hd with
      | None => hret None
      | Some p =>
          '(hp, _) <-h hchunk p ;;
          if o_id hp =? IFF_ID_LIST then hret (Some p) else hsearchList f p
      end
  end.

(** form.c 265-289 searchProperty *)
Fixpoint hsearchProperty (fuel : nat) (c : addr) (formType cid : Z) : H ptr :=
  match fuel with
  | O => hnofuel
  | S f =>
      ol <-h hsearchList (S f) c ;;
      match ol with
      | None => hret None
      | Some l =>
          op <-h hgetPropFromList l formType ;;
          match op with
          | None => hsearchProperty f l formType cid
          | Some prop =>
              oc <-h hgetDataChunkFromForm prop cid ;;
              match oc with
              | None => hsearchProperty f l formType cid
              | Some x => hret (Some x)
              end
          end
      end
  end.

(** form.c 304-314 IFF_getChunkFromForm *)
Definition hIFF_getChunkFromForm (form : addr) (cid : Z) : H ptr :=
  oc <-h hgetDataChunkFromForm form cid ;;
  match oc with
  | Some c => hret (Some c)
  | None =>
      '(_, b) <-h hchunk form ;;
      match type_of b with
      | None => hundefined UB_type_confusion
      | Some formType => fun e w h => hsearchProperty (S (List.length h)) form formType cid e w h
      end
  end.

(** form.c 316-334 IFF_getChunksFromForm: the array grows by one element for
    every chunk found. *)
Fixpoint hall_with_id (cid : Z) (l : list addr) (result : ptr) (n : nat) : H (ptr * nat) :=
  match l with
  | [] => hret (result, n)
  | c :: r =>
      '(hd, _) <-h hchunk c ;;
      if o_id hd =? cid then
        result' <-h hpush result n c ;;
        hall_with_id cid r result' (S n)
      else hall_with_id cid r result n
  end.

Definition hIFF_getChunksFromForm (form : addr) (cid : Z) : H (ptr * nat) :=
  '(_, b) <-h hchunk form ;;
  match b with
  | BGroup _ n arr | BList _ n arr _ _ =>
      l <-h helements arr n ;;
      hall_with_id cid l None 0
  | _ => hundefined UB_type_confusion
  end.

(** ** Searching forms *)

(** form.c 194-207 IFF_mergeFormArray: realloc of the target to the joint
    length, then the elements of the source are appended; the source is not
    released.  A realloc to length 0 releases the old block, as in the GNU C
    library, and yields NULL or a block of length 0.  The result of realloc is
    not checked: without memory a longer array is written through NULL.
    (When memory runs out and the source is empty nothing is written, but the
    target is lost; that counts as the same error here.) *)
Definition hmergeFormArray (target : ptr) (targetLength : nat) (source : ptr) (sourceLength : nat)
  : H (ptr * nat) :=
  t <-h helements target targetLength ;;
  ok <-h io (malloc (Z.of_nat (targetLength + sourceLength) * sizeof_pointer)) ;;
  if ok then
    hfree target ;;h
    s <-h helements source sourceLength ;;
    fun e w h => Done ((Some (address e w h), (targetLength + sourceLength)%nat), w, fill h (address e w h) (OArray (t ++ s)))
  else
    match (targetLength + sourceLength)%nat with
    | O => hfree target ;;h hret (None, O)
    | _ => hundefined UB_null_deref
    end.

Section Search.
  Variable search_chunk : addr -> H (ptr * nat).

  (** group.c 252-268 IFF_searchFormsInGroup (cat.c 142-145
      IFF_searchFormsInCAT and list.c 280-283 IFF_searchFormsInList forward) *)
  Fixpoint hsearch_all (l : list addr) (forms : ptr) (n : nat) : H (ptr * nat) :=
    match l with
    | [] => hret (forms, n)
    | c :: r =>
        '(result, k) <-h search_chunk c ;;
        '(forms', n') <-h hmergeFormArray forms n result k ;;
        hsearch_all r forms' n'
    end.

  Definition hsearchFormsInGroup (group : addr) : H (ptr * nat) :=
    '(_, b) <-h hchunk group ;;
    match b with
    | BGroup _ n arr | BList _ n arr _ _ =>
        l <-h helements arr n ;;
        hsearch_all l None 0
    | _ => hundefined UB_type_confusion
    end.

  (** form.c 209-229 IFF_searchFormsInForm *)
  Definition hsearchFormsInForm (formTypes : list Z) (form : addr) : H (ptr * nat) :=
    '(_, b) <-h hchunk form ;;
    match type_of b with
    | None => hundefined UB_type_confusion
    | Some g =>
        if existsb (fun formType => g =? formType) formTypes then
          p <-h hmalloc sizeof_pointer (OArray [form]) ;;
          match p with
          | None => hundefined UB_null_deref
          | Some _ => hret (p, 1%nat)
          end
        else hsearchFormsInGroup form
    end.
End Search.

(** group.c 291-305 IFF_searchFormsFromArray; [fuel] bounds the nesting *)
Fixpoint hsearchFormsFromArray (fuel : nat) (formTypes : list Z) (c : addr) : H (ptr * nat) :=
  match fuel with
  | O => hnofuel
  | S f =>
      '(hd, _) <-h hchunk c ;;
      if o_id hd =? IFF_ID_FORM then hsearchFormsInForm (hsearchFormsFromArray f formTypes) formTypes c
      else if o_id hd =? IFF_ID_CAT then hsearchFormsInGroup (hsearchFormsFromArray f formTypes) c
      else if o_id hd =? IFF_ID_LIST then hsearchFormsInGroup (hsearchFormsFromArray f formTypes) c
      else hret (None, O)
  end.

(** A tree is not deeper than it has blocks. *)
Definition hIFF_searchFormsFromArray (c : addr) (formTypes : list Z) : H (ptr * nat) :=
  fun e w h => hsearchFormsFromArray (S (List.length h)) formTypes c e w h.

(** group.c 307-312 IFF_searchForms *)
Definition hIFF_searchForms (c : addr) (formType : Z) : H (ptr * nat) :=
  fun e w h => hsearchFormsFromArray (S (List.length h)) [formType] c e w h.
