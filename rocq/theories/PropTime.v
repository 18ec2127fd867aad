(** * C94: how much work the library does

    Reading takes work in proportion to the bytes that are read, whatever they
    are: no file makes the reader loop, and no small file keeps it busy for
    long.  Releasing takes work in proportion to the blocks that are released, and
    writing, checking, printing and comparing in proportion to the chunks. *)

From Coq Require Import ZArith List Bool String Lia.
From Coq Require Import Strings.Byte.
From Verif Require Import Machine Io Types Build Read Write Iff Spec EncodeProofs RegProofs RoundProofs ApiProofs Heap HeapSpec HeapProofs HeapReadProofs SessionSpec ThreadSpec TimeSpec TimeProofs HeapPass TimePassProofs Examples CanonProofs PropRegistry PropRead PropWrite PropHeap.
Import ListNotations.
Open Scope Z_scope.

(** ** C94.  Any input at all, well-formed or not, and whether the call succeeds
    or not: at most 11 accesses, messages and calls for every byte that is read,
    and 10 more.

    What realloc has to copy is another matter: if the group that was read has k
    chunks, its array has been enlarged k times, for k (k + 1) / 2 pointers. *)
Theorem C94_reading : forall rg app, Realises (selectChunkRegistry rg) app ->
  exists D : task ptr, takes_apart D (hIFF_readFd rg) /\
  forall e w h p w' h', hIFF_readFd rg e w h = Done (p, w', h') ->
    (effort D e w h <= 11 * (unread w - unread w') + 10)%nat /\
    (forall i s g l, IFF_readFd rg e w = Done (Some (CGroup i s g l), w') ->
       2 * copied D e w h >= List.length l * (List.length l + 1))%nat.
Proof.
  intros rg app RG. destruct (co_readFd rg) as [D [T C]]. exists D. split; [exact T|]. intros e w h p w' h' E.
  pose proof (C50_read_keeps rg app e w h p w' h' RG E) as KP. pose proof (held_kept _ _ KP) as HK.
  pose proof E as E'. rewrite <- (T e w h) in E'. destruct (C e w h p w' h' E') as ((R & S) & X). split.
  - unfold rest, K, B in *. fold (unread w) in *. fold (unread w') in *. lia.
  - intros i s g l RM. pose proof (readFd_at rg app RG e w h) as RF. rewrite RM in RF.
    destruct RF as (a' & h1 & F & EE & TA & ND & BC & TY). rewrite E in EE. injection EE as -> <-.
    cbn [tree_at] in TA. destruct TA as (arr & la & Fa & Fl & LA & AR & TR & ->).
    assert (LN : List.length la = List.length l).
    { clear - TR. revert la Fl TR. induction l as [|c l IH]; intros [|b la] Fl TR; cbn in TR; try contradiction; [reflexivity|].
      destruct TR as (F1 & F2 & _ & TR & _). cbn. f_equal. exact (IH _ _ TR). }
    destruct AR as [(_ & -> & _)|(d & -> & LD & ->)]; [cbn in LN; rewrite <- LN; cbn; lia|].
    destruct BC as (_ & _ & _ & NEW). destruct (NEW d) as [[]|ND']; [right; left; reflexivity|].
    pose proof (squares_new _ _ _ _ KP ND' LD) as SN. cbn [sq] in SN. unfold zlength in SN. rewrite LN in SN. lia.
Qed.
Print Assumptions C94_reading.

(** A group of k empty chunks is a file of 12 + 8 k bytes. *)
Definition flat (k : nat) : chunk := CGroup FORM_ID (4 + 8 * Z.of_nat k) (ID_of "TEST") (repeat (CRaw (ID_of "ABCD") 0 (Some [])) k).

Lemma flat_bytes : forall k, zlength (flat_map encode (repeat (CRaw (ID_of "ABCD") 0 (Some [])) k)) = 8 * Z.of_nat k.
Proof.
  induction k as [|k IH]; [reflexivity|]. cbn [repeat flat_map]. rewrite Lemmas.zlength_app, IH.
  replace (zlength (encode _)) with 8 by reflexivity. lia.
Qed.
Lemma flat_length : forall k, zlength (encode (flat k)) = 12 + 8 * Z.of_nat k.
Proof.
  intro k. unfold flat. cbn [encode]. pose proof (flat_bytes k) as F. unfold frame. 
  assert (P : zlength (be32 (ID_of "TEST") ++ flat_map encode (repeat (CRaw (ID_of "ABCD") 0 (Some [])) k)) = 4 + 8 * Z.of_nat k) by (rewrite Lemmas.zlength_app, EncodeProofs.be32_length, F; reflexivity).
  rewrite !Lemmas.zlength_app, !EncodeProofs.be32_length in *. unfold pad, pad_for. rewrite Lemmas.zlength_app, EncodeProofs.be32_length, F.
  replace (Z.odd (4 + 8 * Z.of_nat k)) with false by (replace (4 + 8 * Z.of_nat k) with (2 * (2 + 4 * Z.of_nat k)) by lia; rewrite Z.odd_mul; reflexivity). cbn [zlength List.length]. change (zlength []) with 0. lia.
Qed.
Lemma flat_WF : forall k, 4 + 8 * Z.of_nat k <= INT_MAX -> WF no_apps 0 (flat k).
Proof.
  intros k L. unfold flat. apply WF_group.
  - left. reflexivity.
  - vm_compute. split; congruence.
  - intros c C. apply repeat_spec in C. subst c. apply (WF_raw no_apps _ (ID_of "ABCD") []); [vm_compute; split; congruence| |reflexivity|vm_compute; congruence].
    vm_compute. intros [X|[X|[X|[X|[]]]]]; discriminate.
  - rewrite flat_bytes. reflexivity.
  - exact L.
Qed.

(** So the pointers that realloc copies are not proportional to the file: a file of
    12 + 8 k bytes, which every host reads, costs k (k + 1) / 2 of them. *)
Theorem C94_copying_refuted : exists D : task ptr, takes_apart D (hIFF_readFd None) /\
  (forall e w h p w' h', hIFF_readFd None e w h = Done (p, w', h') -> (effort D e w h <= 11 * unread w + 10)%nat) /\
  forall k e w h, usual e -> 4 + 8 * Z.of_nat k <= INT_MAX -> 12 + 8 * Z.of_nat k < 2 ^ (size_t_bits e - 1) ->
    r_rest (w_in w) = encode (flat k) ->
    unread w = (12 + 8 * k)%nat /\
    (exists a w' h', hIFF_readFd None e w h = Done (Some a, w', h')) /\
    (2 * copied D e w h >= k * (k + 1))%nat.
Proof.
  destruct (C94_reading None no_apps default_registry) as (D & T & C). exists D. split; [exact T|]. split.
  - intros e w h p w' h' E. destruct (C e w h p w' h' E) as (X & _). lia.
  - intros k e w h U L1 L2 R. pose proof (flat_length k) as FL. split; [unfold unread; rewrite R; unfold zlength in FL; lia|].
    pose proof (flat_WF k L1) as W. destruct (WF_parsed e no_apps 0 (flat k) W) as (lg & P & CV).
    destruct (readFd_complete None no_apps e w (encode (flat k)) [] (flat k) lg default_registry U no_apps_sane P) as [n E].
    + rewrite app_nil_r. exact R.
    + rewrite FL. exact L2.
    + right. left. exact (CV (no_apps_covered _ _ W)).
    + pose proof (readFd_at None no_apps default_registry e w h) as RF. rewrite E in RF. destruct RF as (a & h1 & F & EE & _).
      split; [eexists; eexists; eexists; exact EE|]. destruct (C e w h _ _ _ EE) as (_ & X). unfold flat in E at 1. specialize (X _ _ _ _ E). rewrite repeat_length in X. exact X.
Qed.
Print Assumptions C94_copying_refuted.

(** ** C94.  Releasing a tree, whatever is in memory: at most 7 accesses for every
    block that is released. *)
Theorem C94_releasing : forall rg a, exists D : task unit, takes_apart D (hIFF_free a rg) /\
  forall e w h w' h', hIFF_free a rg e w h = Done (tt, w', h') -> (effort D e w h <= 7 * (blocks h - blocks h'))%nat.
Proof.
  intros rg a. destruct (co_IFF_free rg a) as [D [T C]]. exists D. split; [exact T|]. intros e w h w' h' E. rewrite <- (T e w h) in E.
  destruct (C e w h tt w' h' E) as ((R & _) & X). rewrite (T e w h) in E. pose proof (st_IFF_free rg a _ _ _ _ _ _ E) as ->.
  unfold held, B, K in *. lia.
Qed.
Print Assumptions C94_releasing.

(** ** C94.  Writing, checking, printing or comparing a tree, whatever the tree is
    and wherever it is, and whether the call succeeds or not: at most 52 accesses,
    messages and calls for every chunk of the (first) tree. *)
Theorem C94_looking : forall rg a,
  (exists D : task bool, takes_apart D (hIFF_writeFd a rg) /\ forall e w h c p F r w' h', tree_at h c p a F -> NoDup F ->
     hIFF_writeFd a rg e w h = Done (r, w', h') -> (effort D e w h <= 52 * chunks c)%nat) /\
  (exists D : task bool, takes_apart D (hIFF_check a rg) /\ forall e w h c p F r w' h', tree_at h c p a F -> NoDup F ->
     hIFF_check a rg e w h = Done (r, w', h') -> (effort D e w h <= 52 * chunks c)%nat) /\
  (forall lv, exists D : task string, takes_apart D (hIFF_print a lv rg) /\ forall e w h c p F r w' h', tree_at h c p a F -> NoDup F ->
     hIFF_print a lv rg e w h = Done (r, w', h') -> (effort D e w h <= 52 * chunks c)%nat) /\
  (forall b, exists D : task bool, takes_apart D (hIFF_compare a b rg) /\ forall e w h c p F r w' h', tree_at h c p a F -> NoDup F ->
     hIFF_compare a b rg e w h = Done (r, w', h') -> (effort D e w h <= 52 * chunks c)%nat).
Proof.
  intros rg a. split; [exact (sees_tree _ _ a (se_writeFd a rg))|]. split; [exact (sees_tree _ _ a (se_check a rg))|].
  split; [intro lv; exact (sees_tree _ _ a (se_print a lv rg))|intro b; exact (sees_tree _ _ a (se_compare a b rg))].
Qed.
Print Assumptions C94_looking.

(** A file of 812 bytes; 11 * 812 + 10 bounds the work, and 5050 pointers may be copied. *)
Example C94_example :
  usual (host false) /\ 4 + 8 * Z.of_nat 100 <= INT_MAX /\ unread (start (encode (flat 100))) = 812%nat /\
  match hIFF_readFd None (host false) (start (encode (flat 100))) [] with
  | Done (Some a, w, h) => unread w = 0%nat /\ blocks h = 202%nat /\
      match hIFF_free a None (host false) w h with Done (_, _, h2) => blocks h2 = 0%nat | _ => False end
  | _ => False
  end.
Proof. split; [apply usual_host|]. split; [vm_compute; discriminate|]. split; [reflexivity|]. vm_compute. repeat split. Qed.

(** The bounds are not far off: the work for this file, and for releasing it *)
Example C94_example_work :
  effort (proj1_sig (co_readFd None)) (host false) (start (encode (flat 10))) [] = 363%nat /\
  copied (proj1_sig (co_readFd None)) (host false) (start (encode (flat 10))) [] = 55%nat.
Proof. split; vm_compute; reflexivity. Qed.

Example C94_example_looking :
  match hIFF_readFd None (host false) (start (encode (flat 10))) [] with
  | Done (Some a, w, h) =>
      chunks (flat 10) = 11%nat /\
      effort (proj1_sig (se_writeFd a None)) (host false) w h = 120%nat /\
      effort (proj1_sig (se_check a None)) (host false) w h = 59%nat /\
      effort (proj1_sig (se_compare a a None)) (host false) w h = 67%nat
  | _ => False
  end.
Proof. vm_compute. repeat split. Qed.
