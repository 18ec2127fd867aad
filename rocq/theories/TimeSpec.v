(** * How much a call does (definitions only) *)

From Coq Require Import ZArith List Bool String.
From Coq Require Import Strings.Byte.
From Verif Require Import Machine Io Types Heap HeapSpec SessionSpec ThreadSpec.
Import ListNotations.
Open Scope Z_scope.

(** The bytes of the input that have not been read, and the messages so far *)
Definition unread (w : world) : nat := List.length (r_rest (w_in w)).
Definition messages (w : world) : nat := List.length (w_log w).

(** What a task does, alone, until it ends.  Every access to a block counts: that
    it is read, written, released or obtained.  Every piece of input or output
    counts, and with it every byte it reads and every message it gives.  How
    many bytes an access to one block moves does not count. *)
Fixpoint effort {A} (t : task A) (e : env) (w : world) (h : heap) : nat :=
  match t with
  | TRet _ | TUndefined _ | TNoFuel => 0
  | TIo m k =>
      match m e w with
      | Done (x, w') => 1 + (messages w' - messages w) + (unread w - unread w') + effort (k x) e w' h
      | _ => 1
      end
  | TLoad a k => match lookup h a with Some o => 1 + effort (k o) e w h | None => 1 end
  | TStore a o k => match lookup h a with Some _ => 1 + effort k e w (store h a o) | None => 1 end
  | TFree a k => match lookup h a with Some _ => 1 + effort k e w (release h a) | None => 1 end
  | TPlace o k => 1 + effort (k (address e w h)) e w (fill h (address e w h) o)
  | TSize k => effort (k (List.length h)) e w h
  end%nat.

(** The number of blocks in memory *)
Fixpoint blocks (h : heap) : nat :=
  match h with
  | [] => 0
  | Some _ :: r => S (blocks r)
  | None :: r => blocks r
  end.

(** The pointers that are copied because an array is enlarged, if realloc moves
    the array: the elements of all arrays that are obtained. *)
Fixpoint copied {A} (t : task A) (e : env) (w : world) (h : heap) : nat :=
  match t with
  | TRet _ | TUndefined _ | TNoFuel => 0
  | TIo m k => match m e w with Done (x, w') => copied (k x) e w' h | _ => 0 end
  | TLoad a k => match lookup h a with Some o => copied (k o) e w h | None => 0 end
  | TStore a o k => match lookup h a with Some _ => copied k e w (store h a o) | None => 0 end
  | TFree a k => match lookup h a with Some _ => copied k e w (release h a) | None => 0 end
  | TPlace o k => (match o with OArray l => List.length l | _ => 0 end) + copied (k (address e w h)) e w (fill h (address e w h) o)
  | TSize k => copied (k (List.length h)) e w h
  end%nat.

(** The number of chunks of a tree *)
Fixpoint chunks (c : chunk) : nat :=
  match c with
  | CRaw _ _ _ | CFields _ _ _ => 1
  | CGroup _ _ _ subs => S (list_sum (map chunks subs))
  | CList _ _ _ props subs => S (list_sum (map chunks props) + list_sum (map chunks subs))
  end.
