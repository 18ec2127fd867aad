(** * Specification for C99: files some bytes of which have been damaged *)

From Coq Require Import ZArith List.
From Coq Require Import Strings.Byte.
From Verif Require Import Machine Types Spec.
Import ListNotations.
Open Scope Z_scope.

(** For each byte of the encoding of a tree: does it belong to the data of a data
    chunk?  The others are IDs, sizes, types and padding. *)
Fixpoint data_bytes (c : chunk) : list bool :=
  match c with
  | CRaw _ _ d => repeat false 8 ++ repeat true (List.length (data_of d)) ++ repeat false (List.length (pad (data_of d)))
  | CGroup _ _ _ l => repeat false 12 ++ flat_map data_bytes l
  | CList _ _ _ p l => repeat false 12 ++ flat_map data_bytes p ++ flat_map data_bytes l
  | CFields i s v => repeat false (List.length (encode c))
  end.

(** The two files are of the same length and have the same bytes wherever the
    mark is false. *)
Fixpoint agree (marks : list bool) (f f' : list byte) : Prop :=
  match marks, f, f' with
  | [], [], [] => True
  | m :: ms, x :: f, y :: f' => (m = false -> x = y) /\ agree ms f f'
  | _, _, _ => False
  end.

(** The same tree, but for the values of data bytes *)
Inductive Alike : chunk -> chunk -> Prop :=
| A_raw : forall i s l l', List.length l = List.length l' -> Alike (CRaw i s (Some l)) (CRaw i s (Some l'))
| A_group : forall i s g l l', Forall2 Alike l l' -> Alike (CGroup i s g l) (CGroup i s g l')
| A_list : forall i s g p p' l l', Forall2 Alike p p' -> Forall2 Alike l l' -> Alike (CList i s g p l) (CList i s g p' l').
