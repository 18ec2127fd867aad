(** * Hosts on which malloc(0) returns NULL (definitions only)

    C leaves it to the host whether a request for no bytes returns NULL. *)

From Coq Require Import ZArith List Bool.
From Verif Require Import Machine Types.
Import ListNotations.
Open Scope Z_scope.

(** The host [e], with requests for no bytes answered by NULL *)
Definition no_zero (e : env) : env :=
  mkEnv (big_endian e) (char_signed e) (lp64 e) (strict_c e) (fun k n => malloc_ok e k n && negb (n =? 0)) (garbage e) (place e).

(** There is a chunk of raw data without data somewhere in the tree *)
Inductive HasEmpty : chunk -> Prop :=
  | Empty_raw : forall i d, HasEmpty (CRaw i 0 d)
  | Empty_group : forall i s g cs c, In c cs -> HasEmpty c -> HasEmpty (CGroup i s g cs)
  | Empty_prop : forall i s g ps cs c, In c ps -> HasEmpty c -> HasEmpty (CList i s g ps cs)
  | Empty_list : forall i s g ps cs c, In c cs -> HasEmpty c -> HasEmpty (CList i s g ps cs).
