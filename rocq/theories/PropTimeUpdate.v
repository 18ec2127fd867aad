(** * C94, continued: how much work changing and asking is

    Bringing the sizes up to date after a change, and looking for a chunk in a FORM
    and in the PROPs that apply to it, both go up the tree.  Neither takes more
    than in proportion to the chunks of the whole tree, however deep it is, however
    the LISTs are nested and whatever the PROPs hold. *)

From Coq Require Import ZArith List Bool String Lia.
From Coq Require Import Strings.Byte.
From Verif Require Import Machine Io Types Build Read Iff Spec Heap HeapSpec HeapProofs HeapPathProofs HeapLookupProofs HeapSearch HeapUpdateProofs SessionSpec ThreadSpec TimeSpec TimeProofs TimeSearchProofs TimeUpdateProofs TimeLookupProofs Examples PropTime PropTimeSearch.
Import ListNotations.
Open Scope Z_scope.

(** ** C94.  Updating the sizes from any chunk [b] of a tree upwards: at most 12
    accesses for every chunk of the tree. *)
Theorem C94_updating : forall b, exists D : task unit, takes_apart D (hIFF_updateChunkSizes b) /\
  forall root a F h q e w, tree_at h root None a F -> NoDup F -> Leads h a q b ->
    (effort D e w h <= 12 * chunks root)%nat.
Proof.
  intro b. exists (TSize (fun k => tupdate (S k) b)). split.
  - intros e w h. cbn [perform]. unfold hIFF_updateChunkSizes. apply ap_update.
  - intros root a F h q e w T ND L. cbn [effort]. destruct (Leads_path _ _ _ _ _ _ _ T L) as (y & AP).
    pose proof (path_height _ _ _ AP). pose proof (tree_depth _ _ _ _ _ T ND).
    pose proof (most_update (S (List.length h)) b e w h h (resized_refl _ _)) as M.
    pose proof (way_in_tree q root None a F h (List.length h - List.length q)%nat b T L) as W.
    replace (List.length q + (List.length h - List.length q))%nat with (List.length h) in W by lia. cbv beta iota in W. lia.
Qed.
Print Assumptions C94_updating.

(** ** C94.  Looking for a chunk of any group [b] of a tree: at most 9 accesses
    for every chunk of the tree. *)
Theorem C94_looking_up : forall b cid, exists D : task ptr, takes_apart D (hIFF_getChunkFromForm b cid) /\
  forall root a F h q e w, tree_at h root None a F -> Leads h a q b ->
    (effort D e w h <= 9 * chunks root)%nat.
Proof.
  intros b cid. exists (tgetChunk b cid). split; [apply ap_getChunk|]. intros root a F h q e w T L. exact (getChunk_cost q root a F h b cid e w T L).
Qed.
Print Assumptions C94_looking_up.

(** A LIST with two PROPs and a FORM without chunks of its own, read from a file *)
Definition shared : chunk :=
  CList LIST_ID 48 (ID_of "TEST")
    [CGroup PROP_ID 4 (ID_of "AAAA") []; CGroup PROP_ID 12 (ID_of "TEST") [CRaw (ID_of "HELO") 0 (Some [])]]
    [CGroup FORM_ID 4 (ID_of "TEST") []].
Example C94_example_shared :
  match hIFF_readFd None (host false) (start (encode shared)) [] with
  | Done (Some a, w, h) =>
      match hIFF_searchForms a (ID_of "TEST") (host false) w h with
      | Done ((Some arr, 1%nat), w1, h1) =>
          match lookup h1 arr with
          | Some (OArray [f]) =>
              (exists x, hIFF_getChunkFromForm f (ID_of "HELO") (host false) w1 h1 = Done (Some x, w1, h1)) /\
              chunks shared = 5%nat /\
              effort (tgetChunk f (ID_of "HELO")) (host false) w1 h1 = 11%nat /\
              effort (TSize (fun k => tupdate (S k) f)) (host false) w1 h1 = 25%nat
          | _ => False
          end
      | _ => False
      end
  | _ => False
  end.
Proof. vm_compute. split; [eexists; reflexivity|repeat split]. Qed.
