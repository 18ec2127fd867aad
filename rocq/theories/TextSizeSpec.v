(** * Specification for C97: what the text of a tree is measured by *)

From Coq Require Import ZArith List.
From Verif Require Import Machine Types Spec.
Import ListNotations.
Open Scope Z_scope.

(** The bytes that belong to each chunk itself, added up: header, type and data *)
Fixpoint bulk (c : chunk) : Z :=
  match c with
  | CRaw _ _ d => 8 + zlength (data_of d)
  | CFields _ _ _ => 8
  | CGroup _ _ _ l => 12 + sum (map bulk l)
  | CList _ _ _ p l => 12 + sum (map bulk p) + sum (map bulk l)
  end.

(** All declared sizes are 32 bit numbers. *)
Definition SizesFit (c : chunk) : Prop := forall x, InTree x c -> in_range FLong (chunkSize x).

