(** * Memory (definitions only): how much of it a heap takes, and hosts that do
    not grant large requests *)

From Coq Require Import ZArith List Bool.
From Coq Require Import Strings.Byte.
From Verif Require Import Machine Io Types Build Spec Heap.
Import ListNotations.
Open Scope Z_scope.

(** The bytes of a block, as requested from malloc *)
Definition obj_size (o : object) : Z :=
  match o with
  | OChunk _ (BRaw _) => sizeof_RawChunk
  | OChunk _ (BGroup _ _ _) => sizeof_Group
  | OChunk _ (BList _ _ _ _ _) => sizeof_List
  | OChunk _ (BFields _) => 64
  | OData size _ => size
  | OArray l => sizeof_pointer * zlength l
  end.

(** All bytes allocated in a heap *)
Definition live_bytes (h : heap) : Z :=
  sum (map (fun x => match x with Some o => obj_size o | None => 0 end) h).

(** The host [e], with requests for more than [B] bytes refused *)
Definition capped (B : Z) (e : env) : env :=
  mkEnv (big_endian e) (char_signed e) (lp64 e) (strict_c e) (fun k n => malloc_ok e k n && (n <=? B)) (garbage e) (place e).
