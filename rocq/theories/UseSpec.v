(** * Trees that an operation may fail on (definitions only) *)

From Coq Require Import ZArith List Bool.
From Coq Require Import Strings.Byte.
From Verif Require Import Machine Io Types Spec.
Import ListNotations.
Open Scope Z_scope.

(** [c] contains a raw chunk whose data does not cover its declared size. *)
Definition short_raw (s : Z) (d : option (list byte)) : Prop := s < 0 \/ zlength (data_of d) < s.
Definition Short (c : chunk) : Prop := exists i s d, InTree (CRaw i s d) c /\ short_raw s d.
(** Reading uninitialised memory, or beyond the end of a block *)
Definition data_ub (u : ub) : Prop := u = UB_uninitialised \/ u = UB_out_of_bounds.
(** The host may refuse an allocation whose size is an int *)
Definition small_failure (e : env) : Prop := exists k sz, 0 < sz <= INT_MAX /\ malloc_ok e k sz = false.

(** The length of the contents of a chunk: sub chunks, or fields *)
Definition fields_size (vals : list (fkind * Z)) : Z := sum (map (fun kv => fieldSize (fst kv)) vals).
Definition body_of (x : chunk) : Z :=
  match x with CGroup _ _ _ l => 4 + body_size l | CList _ _ _ p l => 4 + body_size p + body_size l
  | CFields _ _ vals => fields_size vals | CRaw _ _ _ => 0 end.
Definition int_size (x : chunk) : Prop := 0 <= chunkSize x <= INT_MAX.
(** [c] contains a chunk whose size is negative, or whose contents
    (sub chunks or fields) are longer than the largest int. *)
Definition Large (c : chunk) : Prop := exists x, InTree x c /\ (~ int_size x \/ INT_MAX < body_of x).

