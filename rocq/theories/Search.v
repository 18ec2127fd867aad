(** * Searching forms, chunks and shared properties (definitions only).
    Allocation of the result arrays is assumed to succeed. *)

From Coq Require Import ZArith List Bool String.
From Coq Require Import Strings.Byte.
From Verif Require Import Machine Io Types Build.
Import ListNotations.
Open Scope Z_scope.

Section Search.
  Variable search_chunk : chunk -> outcome (list chunk).

  (** group.c 252-268 IFF_searchFormsInGroup with form.c 194-207
      IFF_mergeFormArray (appends) *)
  Fixpoint search_all (l : list chunk) (forms : list chunk) : outcome (list chunk) :=
    match l with
    | [] => Done forms
    | c :: r =>
        result <-o search_chunk c ;;
        search_all r (forms ++ result)
    end.

  Definition IFF_searchFormsInGroup (c : chunk) : outcome (list chunk) :=
    match c with
    | CGroup _ _ _ l | CList _ _ _ _ l => search_all l []
    | _ => Undefined UB_type_confusion
    end.

  (** form.c 209-229 IFF_searchFormsInForm *)
  Definition IFF_searchFormsInForm (formTypes : list Z) (c : chunk) : outcome (list chunk) :=
    match c with
    | CGroup _ _ g l | CList _ _ g _ l =>
        if existsb (fun formType => g =? formType) formTypes
        then Done [c]
        else search_all l []
    | _ => Undefined UB_type_confusion
    end.
End Search.

(** group.c 291-305 IFF_searchFormsFromArray; cat.c 142-145 and list.c 280-283
    forward to IFF_searchFormsInGroup *)
Fixpoint IFF_searchFormsFromArray (formTypes : list Z) (c : chunk) {struct c} : outcome (list chunk) :=
  if chunkId c =? IFF_ID_FORM then
    IFF_searchFormsInForm (IFF_searchFormsFromArray formTypes) formTypes c
  else if chunkId c =? IFF_ID_CAT then
    IFF_searchFormsInGroup (IFF_searchFormsFromArray formTypes) c
  else if chunkId c =? IFF_ID_LIST then
    IFF_searchFormsInGroup (IFF_searchFormsFromArray formTypes) c
  else Done [].

(** group.c 307-312 IFF_searchForms *)
Definition IFF_searchForms (c : chunk) (formType : Z) : outcome (list chunk) :=
  IFF_searchFormsFromArray [formType] c.

(** form.c 291-302 IFF_getDataChunkFromForm; prop.c 106-109
    IFF_getChunkFromProp forwards.  [None] is NULL. *)
Fixpoint first_with_id (cid : Z) (l : list chunk) : option chunk :=
  match l with
  | [] => None
  | c :: r => if chunkId c =? cid then Some c else first_with_id cid r
  end.

Definition IFF_getDataChunkFromForm (form : chunk) (cid : Z) : outcome (option chunk) :=
  match as_group form with
  | None => Undefined UB_type_confusion
  | Some (_, l) => Done (first_with_id cid l)
  end.

(** form.c 316-334 IFF_getChunksFromForm *)
Fixpoint all_with_id (cid : Z) (l result : list chunk) : list chunk :=
  match l with
  | [] => result
  | c :: r => all_with_id cid r (if chunkId c =? cid then result ++ [c] else result)
  end.

Definition IFF_getChunksFromForm (form : chunk) (cid : Z) : outcome (list chunk) :=
  match as_group form with
  | None => Undefined UB_type_confusion
  | Some (_, l) => Done (all_with_id cid l [])
  end.

(** list.c 295-306 IFF_getPropFromList *)
Fixpoint getPropFromList (props : list chunk) (formType : Z) : outcome (option chunk) :=
  match props with
  | [] => Done None
  | p :: r =>
      match as_group p with
      | None => Undefined UB_type_confusion
      | Some (g, _) => if g =? formType then Done (Some p) else getPropFromList r formType
      end
  end.

(** form.c 242-289 searchList, searchProperty.  [ancestors] is the chain of
    parent pointers, nearest first. *)
Fixpoint searchProperty (ancestors : list chunk) (formType cid : Z) : outcome (option chunk) :=
  match ancestors with
  | [] => Done None
  | parent :: up =>
      if chunkId parent =? IFF_ID_LIST then
        match parent with
        | CList _ _ _ props _ =>
            op <-o getPropFromList props formType ;;
            match op with
            | None => searchProperty up formType cid
            | Some prop =>
                oc <-o IFF_getDataChunkFromForm prop cid ;;
                match oc with
                | None => searchProperty up formType cid
                | Some c => Done (Some c)
                end
            end
        | _ => Undefined UB_type_confusion
        end
      else searchProperty up formType cid
  end.

(** form.c 304-314 IFF_getChunkFromForm *)
Definition IFF_getChunkFromForm (form : chunk) (ancestors : list chunk) (cid : Z)
  : outcome (option chunk) :=
  oc <-o IFF_getDataChunkFromForm form cid ;;
  match oc with
  | Some c => Done (Some c)
  | None =>
      match as_group form with
      | Some (formType, _) => searchProperty ancestors formType cid
      | None => Undefined UB_type_confusion
      end
  end.
