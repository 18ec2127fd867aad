(** * What a program sees that does not know an application's chunk types
    (definitions only) *)

From Coq Require Import ZArith List Bool String.
From Coq Require Import Strings.Byte.
From Verif Require Import Machine Io Types Spec.
Import ListNotations.
Open Scope Z_scope.

(** The same tree, with data in the place of the application's structs: the bytes
    of the fields that fit, and zero bytes up to the declared size. *)
Fixpoint as_data (c : chunk) : chunk :=
  match c with
  | CRaw i s d => CRaw i s d
  | CFields i s vals => CRaw i s (Some (fields_body s vals))
  | CGroup i s g subs => CGroup i s g (map as_data subs)
  | CList i s g props subs => CList i s g (map as_data props) (map as_data subs)
  end.
