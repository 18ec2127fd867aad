(** * The example application of /repo/tests: hello.c, bye.c, test.c (and the
    same code in README.md 380-600).  Definitions only. *)

From Coq Require Import ZArith List Bool String.
From Verif Require Import Machine Io Types.
Import ListNotations.
Open Scope Z_scope.

(** tests/hello.h 30, tests/bye.h 30, tests/test.h 26 *)
Definition TEST_ID_HELO : Z := Eval vm_compute in IFF_MAKEID 72 69 76 79.
Definition TEST_ID_BYE : Z := Eval vm_compute in IFF_MAKEID 66 89 69 32.
Definition TEST_ID_TEST : Z := Eval vm_compute in IFF_MAKEID 84 69 83 84.

(** tests/hello.c: two UBytes and a UWord; 82-93 TEST_checkHello;
    99-106 TEST_printHello *)
Definition TEST_Hello : fspec :=
  mkFspec [mkFdesc "a" FUByte chr; mkFdesc "b" FUByte chr; mkFdesc "c" FUWord dec]
    (fun vals =>
       match vals with
       | [_; _; c] => if (c <? 0) || (1024 <? c)
                      then Some ("'HELO'.c must be between 0 and 1024" ++ nl)%string else None
       | _ => None
       end).

(** tests/bye.c: two Longs; 75-78 TEST_checkBye; 84-90 TEST_printBye *)
Definition TEST_Bye : fspec :=
  mkFspec [mkFdesc "one" FLong dec; mkFdesc "two" FLong dec] (fun _ => None).

(** tests/test.c 31-34 applicationChunkTypes *)
Definition applicationChunkTypes : list chunktype :=
  [mkChunkType TEST_ID_BYE (HFields TEST_Bye); mkChunkType TEST_ID_HELO (HFields TEST_Hello)].

(** tests/test.c 36-38 applicationChunkTypesNode: the parent is NULL *)
Definition applicationChunkTypesNode : chain := [applicationChunkTypes].

(** tests/test.c 40-44 chunkRegistry; 46-74 TEST_read, TEST_write, TEST_free,
    TEST_check, TEST_print and TEST_compare are the operations of the library
    with this registry *)
Definition TEST_chunkRegistry : registry :=
  IFF_EXTEND_DEFAULT_REGISTRY_WITH_FORM_CHUNK_TYPES [(TEST_ID_TEST, applicationChunkTypesNode)].

(** The same with the global chunk types as parent (not in the repository). *)
Definition TEST_scopedRegistry : registry :=
  IFF_EXTEND_DEFAULT_REGISTRY_WITH_FORM_CHUNK_TYPES
    [(TEST_ID_TEST, applicationChunkTypes :: IFF_globalChunkTypesNode)].
