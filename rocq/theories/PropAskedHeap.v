(** * C102, continued: trees in memory *)

From Coq Require Import ZArith List Bool String Lia.
From Coq Require Import Strings.Byte.
From Verif Require Import Machine Io Types Build Read Write Check Compare Print Iff Spec Lemmas RegProofs Heap HeapSpec HeapProofs HeapPass HeapReachProofs AskedSpec AskedProofs AskedHeapProofs TestExt Examples PropRegistry PropHeap PropHeapTools PropFields PropAsked.
Import ListNotations.
Open Scope Z_scope.

(** ** C102.  A tree in memory that was made with the chunk types of [r1] can be
    used with any other that has the same ones for the chunks of the tree: it is
    written, checked, printed and compared in the same way, and freeing it
    releases all that it owns, and nothing else. *)
Theorem C102_in_memory : forall r1 r2 app e w h c p a F, Realises (selectChunkRegistry r1) app -> Typed app 0 c ->
  same_types (selectChunkRegistry r1) (selectChunkRegistry r2) 0 c -> tree_at h c p a F -> NoDup F ->
  hIFF_writeFd a r2 e w h = hIFF_writeFd a r1 e w h /\
  hIFF_check a r2 e w h = hIFF_check a r1 e w h /\
  (forall level, hIFF_print a level r2 e w h = hIFF_print a level r1 e w h) /\
  (forall c2 p2 a2 F2, tree_at h c2 p2 a2 F2 -> hIFF_compare a a2 r2 e w h = hIFF_compare a a2 r1 e w h) /\
  exists h', hIFF_free a r2 e w h = Done (tt, w, h') /\
    (forall x, Owns h a x -> lookup h x <> None /\ lookup h' x = None) /\
    (forall x, ~ Owns h a x -> lookup h' x = lookup h x).
Proof.
  intros r1 r2 app e w h c p a F RG TY S T ND. destruct (C102_using r1 r2 c S) as (WR & CH & PR & CO & _).
  split; [rewrite !(C61_write_refines _ e w c p a F h T ND), WR; reflexivity|].
  split; [rewrite !(C61_check_refines _ e w c p a F h T ND), CH; reflexivity|].
  split; [intro level; rewrite !(C61_print_refines _ e w c p a F h level T ND), PR; reflexivity|].
  split; [intros c2 p2 a2 F2 T2; rewrite !(C61_compare_refines _ e w c p a F c2 p2 a2 F2 h T ND T2), CO; reflexivity|].
  destruct (AskedHeapProofs.freeTree_at _ _ app RG c 0 p a F h e w TY S T ND) as (h' & E & (_ & K & D & _)).
  pose proof (tree_blocks _ _ _ _ _ T) as TB. exists h'. split; [exact E|]. split.
  - intros x O. apply TB in O. split; [exact (tree_live _ _ _ _ _ _ T O)|]. apply D; [exact O|intros []].
  - intros x O. apply K; [|intros []]. intro I. apply O. apply TB. exact I.
Qed.
Print Assumptions C102_in_memory.

(** ** C102.  The registry of the README on the documents it is meant for: what it
    cannot do with groups in a FORM of type TEST does not matter to a tree that
    has none.  Freeing it leaks nothing. *)
Theorem C102_readme_in_memory : forall e w h c p a F, no_groups_in_TEST c -> Typed (app_of TEST_scopedRegistry) 0 c ->
  tree_at h c p a F -> NoDup F ->
  hIFF_writeFd a (Some TEST_chunkRegistry) e w h = hIFF_writeFd a (Some TEST_scopedRegistry) e w h /\
  hIFF_check a (Some TEST_chunkRegistry) e w h = hIFF_check a (Some TEST_scopedRegistry) e w h /\
  exists h', hIFF_free a (Some TEST_chunkRegistry) e w h = Done (tt, w, h') /\
    (forall x, Owns h a x -> lookup h' x = None) /\ (forall x, ~ Owns h a x -> lookup h' x = lookup h x).
Proof.
  intros e w h c p a F N TY T ND.
  destruct (C102_in_memory (Some TEST_scopedRegistry) (Some TEST_chunkRegistry) _ e w h c p a F scoped_realises TY (readme_types c N) T ND) as (WR & CH & _ & _ & h' & FR & O & K).
  split; [exact WR|]. split; [exact CH|]. exists h'. split; [exact FR|]. split; [intros x X; exact (proj2 (O x X))|exact K].
Qed.
Print Assumptions C102_readme_in_memory.

(** The CAT of [C102_example], read into memory with one registry and released with the other *)
Example C102_memory_example :
  match hIFF_readFd (Some TEST_scopedRegistry) (host false) (start (encode mixed)) [] with
  | Done (Some a, w, h) =>
      (exists F, tree_at h mixed None a F /\ NoDup F) /\
      match hIFF_free a (Some TEST_chunkRegistry) (host false) w h with
      | Done (tt, _, h') => forallb (fun o => match o with Some _ => false | None => true end) h' = true
      | _ => False
      end
  | _ => False
  end.
Proof.
  pose proof (HeapReadProofs.readFd_at (Some TEST_scopedRegistry) _ scoped_realises (host false) (start (encode mixed)) []) as R.
  destruct (hIFF_readFd (Some TEST_scopedRegistry) (host false) (start (encode mixed)) []) as [[[[a|] w] h]|u|] eqn:E; [|vm_compute in E; discriminate E..].
  split.
  - destruct (IFF_readFd (Some TEST_scopedRegistry) (host false) (start (encode mixed))) as [[[c|] w']|u|] eqn:V; [|vm_compute in V; discriminate V..].
    destruct R as (a' & h' & F & X & T & ND & _). injection X as <- <- <-. exists F. split; [|exact ND].
    assert (c = mixed) as -> by (vm_compute in V; injection V as <- _; reflexivity). exact T.
  - vm_compute in E. injection E as <- <- <-. vm_compute. reflexivity.
Qed.
