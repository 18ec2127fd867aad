(** * Specification for C100: editing a chunk in place *)

From Coq Require Import ZArith List.
From Coq Require Import Strings.Byte.
From Verif Require Import Machine Types Spec SessionSpec.
Import ListNotations.
Open Scope Z_scope.

(** [Edited old new q c c']: the tree [c] has the chunk [old] at [q]; the tree [c']
    is the same, but for [new] in its place, and the sizes of the groups around
    it, which are what their members need. *)
Inductive Edited (old new : chunk) : path -> chunk -> chunk -> Prop :=
| Ed_here : Edited old new [] old new
| Ed_inside : forall s q c x x' z, get_child c s = Some x -> Edited old new q x x' ->
    declares (set_chunkSize (set_child c s x') z) ->
    Edited old new (s :: q) c (set_chunkSize (set_child c s x') z).

(** ** Where things are in a file *)

(** The members of the group [c] that are stored before the one at [s] *)
Definition before (c : chunk) (s : step) : list chunk :=
  match s, c with
  | InSub n, CGroup _ _ _ l => firstn n l
  | InSub n, CList _ _ _ p l => p ++ firstn n l
  | InProp n, CList _ _ _ p _ => firstn n p
  | _, _ => []
  end.

(** Where the member begins: behind the ID, the size, the type and those members *)
Definition member_offset (c : chunk) (s : step) : nat := 12 + List.length (flat_map encode (before c s)).

(** Where the chunk at [q] begins *)
Fixpoint position (c : chunk) (q : path) : nat :=
  match q with
  | [] => 0
  | s :: r => member_offset c s + match get_child c s with Some x => position x r | None => 0 end
  end.

(** Where the bytes are that tell the sizes of the groups around the chunk at [q] *)
Fixpoint size_bytes (c : chunk) (q : path) : list nat :=
  match q with
  | [] => []
  | s :: r => [4; 5; 6; 7]%nat ++ map (Nat.add (member_offset c s)) (match get_child c s with Some x => size_bytes x r | None => [] end)
  end.

(** ** A program that edits: it opens a file, reads it, gives the data chunk at [q]
    other contents, updates the sizes, checks, writes and releases what it has. *)
Definition edit_program (file : list byte) (seekable : bool) (q : path) (contents : list byte) : list stmt :=
  [ SOpen file seekable; SRead 0; SData 0 q contents; SUpdate 0 q; SCheck 0; SWrite 0; SFree 0 ].

(** The same, but for the update *)
Definition edit_without_update (file : list byte) (seekable : bool) (q : path) (contents : list byte) : list stmt :=
  [ SOpen file seekable; SRead 0; SData 0 q contents; SCheck 0; SWrite 0; SFree 0 ].

(** ** A program that adds: it opens a file, reads it, makes a data chunk, adds it to
    the FORM at [q], updates the sizes, checks, writes and releases what it has. *)
Definition add_program (file : list byte) (seekable : bool) (q : path) (cid : Z) (contents : list byte) : list stmt :=
  [ SOpen file seekable; SRead 0; SRaw 1 cid 0; SData 1 [] contents; SAdd 0 q 1; SUpdate 0 q; SCheck 0; SWrite 0; SFree 0 ].

(** ** Part of a file: so many bytes from a place on *)
Definition slice (file : list byte) (from len : nat) : list byte := firstn len (skipn from file).
