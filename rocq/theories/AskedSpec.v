(** * Which chunk types a tree makes the library ask the registry for
    (definitions only) *)

From Coq Require Import ZArith List Bool String.
From Verif Require Import Machine Io Types.
Import ListNotations.
Open Scope Z_scope.

(** [Asked ft c ft' i]: if [c] stands in a group of type [ft], there is a chunk [i]
    in a group of type [ft'] in it, or [c] is that chunk itself.  When a LIST is
    written, the types of its PROPs are asked for with form type 0
    (list.c 130-147). *)
Inductive Asked : Z -> chunk -> Z -> Z -> Prop :=
| Asked_here : forall ft c, Asked ft c ft (chunkId c)
| Asked_group : forall ft i s g l x ft' i', In x l -> Asked g x ft' i' -> Asked ft (CGroup i s g l) ft' i'
| Asked_member : forall ft i s g ps l x ft' i', In x l -> Asked g x ft' i' -> Asked ft (CList i s g ps l) ft' i'
| Asked_prop : forall ft i s g ps l x ft' i', In x ps -> Asked g x ft' i' -> Asked ft (CList i s g ps l) ft' i'
| Asked_written : forall ft i s g ps l x, In x ps -> Asked ft (CList i s g ps l) 0 (chunkId x).

(** Two registries have the same callbacks for every chunk of the tree. *)
Definition same_types (r1 r2 : option registry) (ft : Z) (c : chunk) : Prop :=
  forall ft' i, Asked ft c ft' i -> find_handler r1 ft' i = find_handler r2 ft' i.
