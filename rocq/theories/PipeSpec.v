(** * Specification for C85: reading a pipe and reading a file *)

From Coq Require Import ZArith List Bool String.
From Verif Require Import Machine Io Types.
Import ListNotations.
Open Scope Z_scope.

(** The same bytes, messages and memory, but the input is a pipe, a terminal or
    a socket: fseek fails on it. *)
Definition from_pipe (w : world) : world :=
  mkWorld (mkRfile (r_rest (w_in w)) false) (w_out w) (w_log w) (w_allocs w).

(** ... or a file that can be sought. *)
Definition from_file (w : world) : world :=
  mkWorld (mkRfile (r_rest (w_in w)) true) (w_out w) (w_log w) (w_allocs w).

(** Between the two states it was reported that bytes of a chunk were skipped. *)
Definition skip_reported (w w' : world) : Prop :=
  exists lg n, w_log w' = lg ++ w_log w /\ In ("Cannot skip: " ++ dec n ++ " bytes in data chunk: '")%string lg.

(** No chunk is handled by callbacks of the application. *)
Definition groups_and_data_only (rg : option registry) : Prop :=
  forall ft i h, find_handler rg ft i = Done h -> forall s, h <> HFields s.
