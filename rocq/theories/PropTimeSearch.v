(** * C94, continued: how much work searching is

    Finding the FORMs of a tree takes accesses in proportion to the chunks of the
    tree.  The pointers that are copied on the way are another matter: every group
    appends what its members found to an array of its own. *)

From Coq Require Import ZArith List Bool String Lia.
From Coq Require Import Strings.Byte.
From Verif Require Import Machine Io Types Read Iff Spec SoundProofs Heap HeapSpec HeapProofs HeapSearch HeapLookupProofs HeapFormsProofs SessionSpec ThreadSpec TimeSpec TimeProofs TimeSearchProofs Examples PropTime.
Import ListNotations.
Open Scope Z_scope.

(** ** C94.  Searching a tree, whatever it is and wherever it is: at most 9
    accesses and calls for every chunk of the tree, and if [n] FORMs are found, at
    most [2 n] pointers copied for every chunk. *)
Theorem C94_searching : forall types a, exists D : task (ptr * nat), takes_apart D (hIFF_searchFormsFromArray a types) /\
  forall app ft c p F e w h r n w' h', Typed app ft c -> tree_at h c p a F -> NoDup F ->
    hIFF_searchFormsFromArray a types e w h = Done ((r, n), w', h') ->
    (effort D e w h <= 9 * chunks c /\ copied D e w h <= 2 * chunks c * n)%nat.
Proof.
  intros types a. exists (TSize (fun k => tsearch (S k) types a)). split.
  - intros e w h. cbn [perform]. unfold hIFF_searchFormsFromArray. apply ap_search.
  - intros app ft c p F e w h r n w' h' TY T ND R. cbn [effort copied]. pose proof (tree_depth _ _ _ _ _ T ND) as DP.
    unfold hIFF_searchFormsFromArray in R. rewrite <- (ap_search _ _ _ e w h) in R.
    destruct (search_cost app types c ft p a F h e w (S (List.length h)) TY T ND ltac:(lia) r n w' h' R) as (X & Y & ->).
    pose proof (pointers_most types c). rewrite Y. lia.
Qed.
Print Assumptions C94_searching.

(** ** C94.  So the pointers are not proportional to the tree: the search of a CAT
    of [k] FORMs, all wanted, copies at least [k (k + 1) / 2] of them. *)
Definition forms (k : nat) : chunk := CGroup CAT_ID (4 + 12 * Z.of_nat k) (ID_of "TEST") (repeat (CGroup FORM_ID 4 (ID_of "TEST") []) k).

Lemma forms_typed : forall app k, Typed app 0 (forms k).
Proof.
  intros app k. unfold forms. apply Ty_group; [right; left; reflexivity|]. intros c C. apply repeat_spec in C. subst c.
  apply Ty_group; [left; reflexivity|]. intros c [].
Qed.
Lemma forms_chunks : forall k, chunks (forms k) = S k.
Proof. intro k. unfold forms. cbn [chunks]. f_equal. induction k as [|k IH]; [reflexivity|]. cbn [repeat map]. change (list_sum (chunks _ :: ?l)) with (1 + list_sum l)%nat. rewrite IH. reflexivity. Qed.

Theorem C94_merging_refuted : forall a, exists D : task (ptr * nat), takes_apart D (hIFF_searchForms a (ID_of "TEST")) /\
  forall k p F e w h r n w' h', tree_at h (forms k) p a F -> NoDup F ->
    hIFF_searchForms a (ID_of "TEST") e w h = Done ((r, n), w', h') ->
    chunks (forms k) = (k + 1)%nat /\ n = k /\ (effort D e w h <= 9 * (k + 1))%nat /\ (2 * copied D e w h >= k * (k + 1))%nat.
Proof.
  intro a. exists (TSize (fun k => tsearch (S k) [ID_of "TEST"] a)). split.
  - intros e w h. cbn [perform]. unfold hIFF_searchForms. apply ap_search.
  - intros k p F e w h r n w' h' T ND R. cbn [effort copied]. pose proof (tree_depth _ _ _ _ _ T ND) as DP.
    unfold hIFF_searchForms in R. rewrite <- (ap_search _ _ _ e w h) in R.
    destruct (search_cost no_apps [ID_of "TEST"] (forms k) 0 p a F h e w (S (List.length h)) (forms_typed _ k) T ND ltac:(lia) r n w' h' R) as (X & Y & ->).
    rewrite forms_chunks in *. split; [lia|].
    assert (ONE : forall x, In x (repeat (CGroup FORM_ID 4 (ID_of "TEST") []) k) -> found [ID_of "TEST"] x = 1%nat) by (intros x I; apply repeat_spec in I; subst x; reflexivity).
    split; [|split; [lia|]].
    + unfold found, forms. cbn [positions]. change (CAT_ID =? IFF_ID_FORM) with false. change (CAT_ID =? IFF_ID_PROP) with false. cbn [andb]. rewrite found_below.
      clear. induction k as [|k IH]; [reflexivity|]. cbn [repeat map]. change (list_sum (found _ _ :: ?l)) with (1 + list_sum l)%nat. rewrite IH. reflexivity.
    + rewrite Y. unfold forms. cbn [pointers is_wanted]. change (CAT_ID =? IFF_ID_FORM) with false. change (CAT_ID =? IFF_ID_PROP) with false. cbn [andb].
      pose proof (merged_least [ID_of "TEST"] (repeat (CGroup FORM_ID 4 (ID_of "TEST") []) k) 0 ONE) as M. rewrite repeat_length in M. lia.
Qed.
Print Assumptions C94_merging_refuted.

(** ** C94.  Looking for all the chunks of a FORM with an ID: at most 5 accesses for
    every chunk of the FORM, and if there are [m], at most [m (m + 1) / 2] pointers. *)
Theorem C94_collecting : forall a cid, exists D : task (ptr * nat), takes_apart D (hIFF_getChunksFromForm a cid) /\
  forall c p F e w h r m w' h', tree_at h c p a F ->
    hIFF_getChunksFromForm a cid e w h = Done ((r, m), w', h') ->
    (effort D e w h <= 5 * chunks c /\ 2 * copied D e w h <= m * (m + 1))%nat.
Proof.
  intros a cid. exists (tgetChunks a cid). split; [apply ap_getChunks|]. intros c p F e w h r m w' h' T R. rewrite <- (ap_getChunks _ _ e w h) in R.
  destruct (cost_getChunks c p a F cid e w h r m w' h' T R) as (X & Y & Z). split; [lia|exact Z].
Qed.
Print Assumptions C94_collecting.

(** A CAT of ten FORMs that has been read: the search takes 91 steps, and copies 65 pointers *)
Example C94_example_searching :
  match hIFF_readFd None (host false) (start (encode (forms 10))) [] with
  | Done (Some a, w, h) =>
      match hIFF_searchForms a (ID_of "TEST") (host false) w h with
      | Done ((Some _, n), _, _) => n = 10%nat
      | _ => False
      end /\
      effort (TSize (fun k => tsearch (S k) [ID_of "TEST"] a)) (host false) w h = 91%nat /\
      copied (TSize (fun k => tsearch (S k) [ID_of "TEST"] a)) (host false) w h = 65%nat
  | _ => False
  end.
Proof. vm_compute. repeat split. Qed.
