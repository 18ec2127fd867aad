(** * Property C72: memory used by reading *)

From Coq Require Import ZArith List Bool String Lia.
From Coq Require Import Strings.Byte.
From Verif Require Import Machine Io Types Build Read Iff Spec Grammar Lemmas ApiProofs TermProofs Examples PropRead
  Heap HeapSpec HeapReadProofs AllocSpec AllocProofs HeapAllocProofs PropHeap.
Import ListNotations.
Open Scope Z_scope.

(** ** C72.  Reading takes at most three allocations for every eight bytes
    consumed, whatever the input, the registry and the host, and whether or not
    it succeeds. *)
Theorem C72_allocations : forall rg e w r w', IFF_readFd rg e w = Done (r, w') ->
  8 * (Z.of_nat (w_allocs w') - Z.of_nat (w_allocs w)) <= 3 * (zlength (r_rest (w_in w)) - zlength (r_rest (w_in w'))).
Proof. intros rg e w r w' E. exact (readFd_allocs rg e w r w' E). Qed.
Print Assumptions C72_allocations.

(** The tree that was read takes at most five bytes of memory per byte
    consumed: structs, pointer arrays and data together. *)
Theorem C72_memory : forall e w h a w' h', strict_c e = false ->
  hIFF_readFd None e w h = Done (Some a, w', h') ->
  live_bytes h' <= live_bytes h + 5 * (zlength (r_rest (w_in w)) - zlength (r_rest (w_in w'))).
Proof.
  intros e w h a w' h' NS E. apply (readFd_memory None no_apps 5 e w h a w' h' default_registry NS no_apps_sane); try assumption; [right; exact no_apps_none|lia|right; exact no_apps_none].
Qed.
Print Assumptions C72_memory.

(** With application chunks (structs of up to 64 bytes), nine. *)
Theorem C72_memory_extensions : forall rg app e w h a w' h', Realises (selectChunkRegistry rg) app -> strict_c e = false -> SaneApps app -> ExactInput app w ->
  hIFF_readFd rg e w h = Done (Some a, w', h') ->
  live_bytes h' <= live_bytes h + 9 * (zlength (r_rest (w_in w)) - zlength (r_rest (w_in w'))).
Proof. intros rg app e w h a w' h' RG NS SA EX E. apply (readFd_memory rg app 9 e w h a w' h' RG NS SA EX); [lia|left; lia|exact E]. Qed.
Print Assumptions C72_memory_extensions.

(** A file that can be read can also be read when the host refuses every
    single request that is larger than the file (and than 64 bytes): reading it
    makes no larger one. *)
Theorem C72_requests : forall rg e w c w' B, 64 <= B -> zlength (r_rest (w_in w)) <= B ->
  IFF_readFd rg e w = Done (Some c, w') -> IFF_readFd rg (capped B e) w = Done (Some c, w').
Proof. intros rg e w c w' B B64 L E. exact (readFd_capped rg e w c w' B B64 L E). Qed.
Print Assumptions C72_requests.

(** For files that are rejected this fails: eight bytes make the reader ask for
    two gigabytes (and give different diagnostics when it does not get them). *)
Theorem C72_requests_refuted : exists l e, zlength l = 8 /\
  (exists w1 w2, IFF_readFd None e (start l) = Done (None, w1) /\ IFF_readFd None (capped (INT_MAX - 1) e) (start l) = Done (None, w2) /\
     w_log w1 <> w_log w2).
Proof.
  exists (bytes "NAME" ++ be32 INT_MAX), (host false). split; [reflexivity|].
  eexists. eexists. split; [vm_compute; reflexivity|]. split; [vm_compute; reflexivity|]. vm_compute. discriminate.
Qed.
Print Assumptions C72_requests_refuted.

(** A FORM with [n] empty chunks *)
Definition empties (n : nat) : chunk := CGroup FORM_ID (4 + 8 * Z.of_nat n) TEXT_ID (repeat (CRaw TEXT_ID 0 (Some [])) n).
(** Allocations and memory close to the bounds; the last request, for the array
    of 20 pointers, is the largest *)
Example C72_example :
  match hIFF_readFd None (host false) (start (encode (empties 20))) some_heap with
  | Done (Some a, w, h) => zlength (encode (empties 20)) = 172 /\ w_allocs w = 61%nat /\ live_bytes h - live_bytes some_heap = 672
  | _ => False
  end /\
  match IFF_readFd None (capped 172 (host false)) (start (encode (empties 20))) with Done (Some c, _) => c = empties 20 | _ => False end /\
  match IFF_readFd None (capped 159 (host false)) (start (encode (empties 20))) with Undefined u => u = UB_null_deref | _ => False end.
Proof. vm_compute. repeat split. Qed.
