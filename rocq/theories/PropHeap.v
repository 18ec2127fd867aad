(** * Properties C50 - C54: allocation, release and pointers *)

From Coq Require Import ZArith List Bool String Lia.
From Coq Require Import Strings.Byte.
From Verif Require Import Machine Io Types Build Read Write Iff Spec Lemmas IoProofs RegProofs WriteProofs SoundProofs Examples TestExt
  Heap HeapSpec HeapProofs HeapBuildProofs HeapReadProofs HeapAddProofs HeapReachProofs.
Import ListNotations.
Open Scope Z_scope.

(** The heap program computes what the tree model computes: same result, same
    effects on files and messages, same undefined behaviour. *)
Theorem C50_read_refines : forall rg app e w h, Realises (selectChunkRegistry rg) app ->
  match hIFF_readFd rg e w h with
  | Done (p, w', h') => exists oc, IFF_readFd rg e w = Done (oc, w') /\
      match p, oc with
      | None, None => True
      | Some a, Some c => exists F, tree_at h' c None a F
      | _, _ => False
      end
  | Undefined u => IFF_readFd rg e w = Undefined u
  | OutOfFuel => IFF_readFd rg e w = OutOfFuel
  end.
Proof.
  intros rg app e w h RG. pose proof (readFd_at rg app RG e w h) as R.
  destruct (IFF_readFd rg e w) as [[[c|] w1]|u|].
  - destruct R as (a & h1 & F & -> & T & _). exists (Some c). split; [reflexivity|]. exists F. exact T.
  - destruct R as (h1 & -> & _). exists None. split; [reflexivity|exact I].
  - rewrite R. reflexivity.
  - rewrite R. reflexivity.
Qed.
Print Assumptions C50_read_refines.

(** ** C50.  Reading a file and freeing the result leaves memory exactly as it
    was: every block allocated on the way has been released, none twice
    (that would be undefined), and no other block was touched. *)
Theorem C50_read_free : forall rg app e w h a w1 h1 e2 w2, Realises (selectChunkRegistry rg) app ->
  hIFF_readFd rg e w h = Done (Some a, w1, h1) ->
  exists h2, hIFF_free a rg e2 w2 h1 = Done (tt, w2, h2) /\ same_heap h h2.
Proof.
  intros rg app e w h a w1 h1 e2 w2 RG E. pose proof (readFd_at rg app RG e w h) as R.
  destruct (IFF_readFd rg e w) as [[[c|] w']|u|]; [|destruct R as (h' & X & _); congruence|congruence|congruence].
  destruct R as (a' & h' & F & X & T & ND & B & TY). rewrite E in X. injection X as <- <- <-.
  destruct (freeTree_at _ app RG c 0 None a F h1 e2 w2 TY T ND) as (h2 & E2 & B2). exists h2. split; [exact E2|].
  destruct (becomes_trans _ _ _ _ _ _ B B2) as (_ & K & _). intro x. apply K; intros [].
Qed.
Print Assumptions C50_read_free.

(** Freeing a tree, however it was built and whatever else is in memory,
    releases exactly the blocks found by following the pointers from its
    root. *)
Theorem C50_free_exact : forall rg app e w h c p a F, Realises (selectChunkRegistry rg) app ->
  Typed app 0 c -> tree_at h c p a F -> NoDup F ->
  exists h', hIFF_free a rg e w h = Done (tt, w, h') /\
    (forall x, Owns h a x -> lookup h x <> None /\ lookup h' x = None) /\
    (forall x, ~ Owns h a x -> lookup h' x = lookup h x).
Proof.
  intros rg app e w h c p a F RG TY T ND. destruct (freeTree_at _ app RG c 0 p a F h e w TY T ND) as (h' & E & (_ & K & D & _)).
  pose proof (tree_blocks _ _ _ _ _ T) as TB. exists h'. split; [exact E|]. split.
  - intros x O. apply TB in O. split; [exact (tree_live _ _ _ _ _ _ T O)|]. apply D; [exact O|intros []].
  - intros x O. apply K; [|intros []]. intro I. apply O. apply TB. exact I.
Qed.
Print Assumptions C50_free_exact.

(** While the tree is in use, nothing that was in memory before has changed. *)
Theorem C50_read_keeps : forall rg app e w h p w1 h1, Realises (selectChunkRegistry rg) app ->
  hIFF_readFd rg e w h = Done (p, w1, h1) ->
  forall x, lookup h x <> None -> lookup h1 x = lookup h x.
Proof.
  intros rg app e w h p w1 h1 RG E x L. pose proof (readFd_at rg app RG e w h) as R.
  destruct (IFF_readFd rg e w) as [[[c|] w']|u|]; [| |congruence|congruence].
  - destruct R as (a' & h' & F & X & T & ND & B & TY). rewrite E in X. injection X as -> <- <-. apply (becomes_kept _ _ _ _ _ B L). intros [].
  - destruct R as (h' & X & B). rewrite E in X. injection X as -> <- <-. apply (becomes_kept _ _ _ _ _ B L). intros [].
Qed.
Print Assumptions C50_read_keeps.

(** A heap in use: a data block at 0, a released block at 1 *)
Definition some_heap : heap := [Some (OData 3 (Some (bytes "abc"))); None].

Example C50_example :
  match hIFF_readFd None (host false) (start (encode ex_cat)) some_heap with
  | Done (Some a, w, h) =>
      (List.length h =? List.length some_heap)%nat = false /\
      match hIFF_free a None (host false) w h with
      | Done (_, _, h2) => forallb (fun o => match o with None => true | _ => false end) (skipn 1 h2) = true /\ lookup h2 0%nat = lookup some_heap 0%nat
      | _ => False
      end
  | _ => False
  end.
Proof. vm_compute. repeat split. Qed.

(** ** C51.  A read that fails leaves memory exactly as it was, wherever and
    for whatever reason it failed (end of file, failed allocation, ...). *)
Theorem C51_failed_read : forall rg app e w h w1 h1, Realises (selectChunkRegistry rg) app ->
  hIFF_readFd rg e w h = Done (None, w1, h1) -> same_heap h h1.
Proof.
  intros rg app e w h w1 h1 RG E. pose proof (readFd_at rg app RG e w h) as R.
  destruct (IFF_readFd rg e w) as [[[c|] w']|u|]; [destruct R as (a' & h' & F & X & _); congruence| |congruence|congruence].
  destruct R as (h' & X & (_ & K & _)). rewrite E in X. injection X as <- <-. intro x. apply K; intros [].
Qed.
Print Assumptions C51_failed_read.

(** Every proper prefix of a file is such a failure, after up to 13 allocations *)
Example C51_example :
  forallb (fun n => match hIFF_readFd None (host false) (start (firstn n (encode ex_cat))) some_heap with
                    | Done (None, w, h) => forallb (fun o => match o with None => true | _ => false end) (skipn 1 h)
                    | _ => false
                    end) (seq 0 (List.length (encode ex_cat))) = true /\
  match hIFF_readFd None (host false) (start (firstn (List.length (encode ex_cat) - 1) (encode ex_cat))) some_heap with
  | Done (_, w, h) => (10 <? w_allocs w)%nat = true
  | _ => False
  end.
Proof. vm_compute. split; reflexivity. Qed.

(** ** C52.  Parent pointers: NULL in the root; in every member of a reachable
    group, that group. *)
Theorem C52_parents : forall rg app e w h a w1 h1, Realises (selectChunkRegistry rg) app ->
  hIFF_readFd rg e w h = Done (Some a, w1, h1) ->
  parent_is h1 a None /\
  forall g c, Reaches h1 a g -> has_member h1 g c -> parent_is h1 c (Some g).
Proof.
  intros rg app e w h a w1 h1 RG E. pose proof (readFd_at rg app RG e w h) as R.
  destruct (IFF_readFd rg e w) as [[[c|] w']|u|]; [|destruct R as (h' & X & _); congruence|congruence|congruence].
  destruct R as (a' & h' & F & X & T & _). rewrite E in X. injection X as <- <- <-. exact (tree_parents _ _ _ _ _ T).
Qed.
Print Assumptions C52_parents.

(** So no chunk is in two groups, and the root is in none. *)
Theorem C52_one_parent : forall rg app e w h a w1 h1, Realises (selectChunkRegistry rg) app ->
  hIFF_readFd rg e w h = Done (Some a, w1, h1) ->
  (forall g1 g2 c, Reaches h1 a g1 -> Reaches h1 a g2 -> has_member h1 g1 c -> has_member h1 g2 c -> g1 = g2) /\
  (forall g, Reaches h1 a g -> ~ has_member h1 g a).
Proof.
  intros rg app e w h a w1 h1 RG E. destruct (C52_parents rg app e w h a w1 h1 RG E) as [(hd0 & b0 & L0 & P0) PA]. split.
  - intros g1 g2 c R1 R2 M1 M2. destruct (PA g1 c R1 M1) as (hd & b & L & P). destruct (PA g2 c R2 M2) as (hd' & b' & L' & P'). congruence.
  - intros g R M. destruct (PA g a R M) as (hd & b & L & P). congruence.
Qed.
Print Assumptions C52_one_parent.

Example C52_example :
  match hIFF_readFd None (host false) (start (encode ex_cat)) some_heap with
  | Done (Some a, w, h) => exists g c d, has_member h a g /\ has_member h g c /\ has_member h c d
  | _ => False
  end.
Proof.
  vm_compute. exists 3%nat, 9%nat, 10%nat. repeat split; do 2 eexists; (split; [reflexivity|]).
  - do 2 eexists. exists O. split; [reflexivity|]. split; [reflexivity|]. split; [repeat constructor|reflexivity].
  - left. do 2 eexists. exists O. split; [reflexivity|]. split; [reflexivity|]. split; [repeat constructor|reflexivity].
  - do 2 eexists. exists O. split; [reflexivity|]. split; [reflexivity|]. split; [repeat constructor|reflexivity].
Qed.

(** ** C53.  A chunk that is a member of two groups cannot be freed with both:
    whichever group is freed first, freeing the other one is never defined. *)
Theorem C53_shared_member : forall rg app a1 a2 c e w h w1 h1, Realises (selectChunkRegistry rg) app ->
  is_group h a1 -> is_group h a2 -> has_member h a1 c -> has_member h a2 c ->
  hIFF_free a1 rg e w h = Done (tt, w1, h1) ->
  forall e2 w2 out, hIFF_free a2 rg e2 w2 h1 <> Done out.
Proof.
  intros rg app a1 a2 c e w h w1 h1 RG G1 G2 M1 M2 E e2 w2. exact (shared_free _ app a1 a2 c _ _ _ _ _ _ _ _ _ _ _ _ RG G2 G1 M1 M2 E).
Qed.
Print Assumptions C53_shared_member.

(** That is the state after adding one chunk to two groups. *)
Theorem C53_add_twice : forall t1 t2 tc p1 p2 pc a1 a2 c F1 F2 Fc e w h w1 h1 e2 w2 h2,
  is_group h a1 -> is_group h a2 ->
  tree_at h t1 p1 a1 F1 -> tree_at h t2 p2 a2 F2 -> tree_at h tc pc c Fc -> NoDup (F2 ++ F1 ++ Fc) ->
  haddToGroup a1 c e w h = Done (tt, w1, h1) ->
  haddToGroup a2 c e2 w1 h1 = Done (tt, w2, h2) ->
  is_group h2 a1 /\ is_group h2 a2 /\ has_member h2 a1 c /\ has_member h2 a2 c.
Proof.
  intros t1 t2 tc p1 p2 pc a1 a2 c F1 F2 Fc e w h w1 h1 e2 w2 h2 G1 G2 T1 T2 TC ND E1 E2.
  pose proof (tree_root_in _ _ _ _ _ T1) as I1. pose proof (tree_root_in _ _ _ _ _ T2) as I2. pose proof (tree_root_in _ _ _ _ _ TC) as IC.
  pose proof (NoDup_app_r _ _ _ ND) as NDA.
  assert (NC1 : c <> a1) by (intros ->; exact (NoDup_app_disjoint _ _ _ _ NDA I1 IC)).
  assert (NC2 : c <> a2) by (intros ->; apply (NoDup_app_disjoint _ _ _ _ ND I2); apply in_or_app; right; exact IC).
  assert (N12 : a1 <> a2) by (intros ->; apply (NoDup_app_disjoint _ _ _ _ ND I2); apply in_or_app; left; exact I1).
  destruct (add_members _ _ _ _ _ _ _ _ E1 NC1) as (M1 & K1 & KG & _). specialize (K1 G1).
  assert (G2' : is_group h1 a2).
  { apply KG; [auto| |exact G2]. intro B. apply (NoDup_app_disjoint _ _ _ _ ND I2). apply in_or_app. left. exact (block_tree _ _ _ _ _ _ T1 B). }
  pose proof (add_at t1 tc p1 pc a1 c F1 Fc h T1 TC NDA e w) as A.
  destruct (IFF_addToGroup t1 tc e w) as [[t1' w']|u|]; [|congruence|congruence].
  destruct A as (h' & F1' & X & T1' & ND1' & B1 & _). rewrite E1 in X. injection X as <- <-.
  assert (T2' : tree_at h1 t2 p2 a2 F2).
  { apply (tree_frame h); [exact T2|]. intros x I. apply (becomes_kept _ _ _ _ _ B1 (tree_live _ _ _ _ _ _ T2 I)). intro J. exact (NoDup_app_disjoint _ _ _ _ ND I J). }
  assert (DIS : forall x, In x F1' -> In x F2 -> False).
  { intros x X1 X2. destruct B1 as (_ & _ & _ & B1). destruct (B1 x X1) as [Y|Y]; [exact (NoDup_app_disjoint _ _ _ _ ND X2 Y)|].
    exact (tree_live _ _ _ _ _ _ T2 X2 Y). }
  destruct (add_members _ _ _ _ _ _ _ _ E2 NC2) as (M2 & K2 & KG2 & KM2).
  assert (NB : ~ has_block h1 a2 a1) by (intro B; exact (DIS a1 (tree_root_in _ _ _ _ _ T1') (block_tree _ _ _ _ _ _ T2' B))).
  split; [apply KG2; auto|]. split; [apply K2; exact G2'|]. split; [|exact M2].
  apply KM2; auto. intros d D1 D2. exact (DIS d (block_tree _ _ _ _ _ _ T1' D1) (block_tree _ _ _ _ _ _ T2' D2)).
Qed.
Print Assumptions C53_add_twice.

(** Adding a chunk twice to the same group has the same effect: the group can
    no longer be freed. *)
Theorem C53_twice_in_one_group : forall rg app a c e w h n arr d l i j, Realises (selectChunkRegistry rg) app ->
  is_group h a -> (exists hd g, lookup h a = Some (OChunk hd (BGroup g n arr))) ->
  arr = Some d -> lookup h d = Some (OArray l) -> (i < j < n)%nat ->
  nth_error l i = Some c -> nth_error l j = Some c ->
  forall out, hIFF_free a rg e w h <> Done out.
Proof.
  intros rg app a c e w h n arr d l i j RG (hd' & b' & L' & K) (hd & g & L) -> LD LT NI NJ [[r w'] h'] E. rewrite L in L'. injection L' as <- <-.
  assert (GA : group_array h a n (Some d)).
  { exists hd, (BGroup g n (Some d)). split; [exact L|]. split; [|auto]. destruct K as [-> | [-> | ->]]; cbn; auto. }
  destruct (free_needs _ app _ _ _ _ _ _ _ _ _ _ _ RG E GA) as [->|(d' & l' & X & LD' & LE & ND & _)]; [lia|]. injection X as <-.
  rewrite LD in LD'. injection LD' as <-. assert (Y : i = j); [|lia].
  apply (NoDup_nth _ _ _ _ c ND); rewrite nth_error_firstn by lia; assumption.
Qed.
Print Assumptions C53_twice_in_one_group.

(** A client that shares a chunk between two groups, and then frees the groups
    in the order given *)
Definition share_client (first_then_second : bool) : H unit :=
  of1 <-h hcreateEmptyGroup IFF_ID_FORM (ID_of "ILBM") ;;
  of2 <-h hcreateEmptyGroup IFF_ID_FORM (ID_of "ILBM") ;;
  oc <-h hcreateRawChunk (ID_of "BODY") 2 ;;
  match of1, of2, oc with
  | Some f1, Some f2, Some c =>
      hcopyData c (bytes "xy") ;;h
      haddToGroup f1 c ;;h
      haddToGroup f2 c ;;h
      if first_then_second then hIFF_free f1 None ;;h hIFF_free f2 None
      else hIFF_free f2 None ;;h hIFF_free f1 None
  | _, _, _ => hret tt
  end.

Theorem C53_share_refuted :
  share_client true (host false) (start []) some_heap = Undefined UB_dangling /\
  share_client false (host false) (start []) some_heap = Undefined UB_dangling.
Proof. split; vm_compute; reflexivity. Qed.
Print Assumptions C53_share_refuted.

(** ** C54.  Replacing the data of a raw chunk loses the old block: it stays
    allocated when the chunk is freed, and nothing refers to it any more. *)
Theorem C54_old_data_leaks : forall rg a d size b hd e w h w1 h1 e2 w2 w3 h2,
  lookup h a = Some (OChunk hd (BRaw (Some b))) -> a <> b -> d <> Some b ->
  hsetRawChunkData a d size e w h = Done (tt, w1, h1) ->
  hIFF_free a rg e2 w2 h1 = Done (tt, w3, h2) ->
  lookup h2 b = lookup h b /\ ~ Owns h1 a b.
Proof.
  intros rg a d size b hd e w h w1 h1 e2 w2 w3 h2 L NE ND E EF. unfold hsetRawChunkData in E.
  rewrite (hbind_done _ _ _ _ _ _ _ _ _ _ (hchunk_at _ _ _ _ _ _ L)) in E. rewrite hstore_at in E by congruence. injection E as <- <-.
  set (h1 := store h a (OChunk (set_size hd size) (BRaw d))) in *.
  assert (LA : lookup h1 a = Some (OChunk (set_size hd size) (BRaw d))) by (unfold h1; rewrite lookup_store by congruence; rewrite Nat.eqb_refl; reflexivity).
  assert (LB : lookup h1 b = lookup h b) by (unfold h1; rewrite lookup_store by congruence; rewrite (proj2 (Nat.eqb_neq _ _)) by auto; reflexivity).
  assert (RA : forall x, Reaches h1 a x -> x = a).
  { intros x R. induction R as [|g c R IH M]; [reflexivity|]. subst g. destruct M as (hd' & b' & L' & M). rewrite LA in L'. injection L' as <- <-. destruct M. }
  split.
  - rewrite <- LB. unfold hIFF_free, hfreeTree in EF. cbn [hfreeChunk] in EF. rewrite (hbind_done _ _ _ _ _ _ _ _ _ _ (hchunk_at _ _ _ _ _ _ LA)) in EF.
    unfold hlift in EF. rewrite hbind_io in EF. unfold lift in EF. destruct (find_handler _ _ _) as [k|u|]; try discriminate. rewrite hbind_eq in EF.
    assert (FR : forall w0 hh w0' hh', hfree (Some a) e2 w0 hh = Done (tt, w0', hh') -> lookup hh' b = lookup hh b).
    { intros w0 hh w0' hh' X. unfold hfree in X. destruct (lookup hh a); [|discriminate]. injection X as <- <-. rewrite lookup_release, (proj2 (Nat.eqb_neq _ _)) by auto. reflexivity. }
    destruct k as [| | | | |s]; cbn [hfreeExtensionChunk] in EF.
    1-4: (unfold hfreeList, hfreeGroup, hbind in EF; rewrite (hchunk_at _ _ _ _ _ _ LA) in EF; discriminate).
    + unfold hfreeRawChunk in EF. rewrite (hbind_done _ _ _ _ _ _ _ _ _ _ (hchunk_at _ _ _ _ _ _ LA)) in EF.
      destruct d as [d|]; [|apply FR in EF; exact EF]. unfold hfree at 1 in EF. destruct (lookup h1 d); [|discriminate]. apply FR in EF. rewrite EF, lookup_release.
      rewrite (proj2 (Nat.eqb_neq _ _)) by congruence. reflexivity.
    + apply FR in EF. exact EF.
  - intros (s & R & [->|B]); [apply NE; symmetry; exact (RA _ R)|]. rewrite (RA _ R) in B. destruct B as (hd' & b' & L' & B). rewrite LA in L'. injection L' as <- <-. congruence.
Qed.
Print Assumptions C54_old_data_leaks.

(** So the ordinary way to make a text chunk, IFF_createRawChunk followed by
    IFF_setTextData, leaks the first data block, in every heap. *)
Definition text_client (cid size : Z) (text : list byte) (rg : option registry) : H ptr :=
  p <-h hcreateRawChunk cid size ;;
  match p with
  | None => hret None
  | Some a => hsetTextData a text ;;h hIFF_free a rg ;;h hret (Some a)
  end.

Theorem C54_text_leaks : forall cid size text rg e w h a w1 h1,
  text_client cid size text rg e w h = Done (Some a, w1, h1) ->
  exists b z, lookup h b = None /\ lookup h1 b = Some (OData z None).
Proof.
  intros cid size text rg e w h a w1 h1 E. unfold text_client in E. rewrite hbind_eq in E.
  destruct (hcreateRawChunk cid size e w h) as [[[[a0|] w2] h2]|u|] eqn:E1; try discriminate.
  assert (C : exists b z, lookup h2 a0 = Some (OChunk (mkHeader None cid size) (BRaw (Some b))) /\
              lookup h2 b = Some (OData z None) /\ lookup h b = None /\ a0 <> b).
  { unfold hcreateRawChunk in E1. rewrite hbind_io in E1. unfold ask in E1. unfold hcreateChunk in E1. rewrite hbind_eq in E1.
    destruct (hmalloc_run sizeof_RawChunk (OChunk (mkHeader None cid size) (BRaw None)) e w h) as ([] & w3 & _ & _ & X); rewrite X in E1; [|discriminate].
    rewrite hbind_eq in E1. set (p := address e w3 h) in *. set (h3 := fill h p (OChunk (mkHeader None cid size) (BRaw None))) in *.
    assert (L3 : forall x, lookup h3 x = if Nat.eqb x p then Some (OChunk (mkHeader None cid size) (BRaw None)) else lookup h x) by (intro x; apply lookup_new).
    destruct (hmalloc_run (wrap_u (size_t_bits e) size) (OData (wrap_u (size_t_bits e) size) None) e w3 h3) as ([] & w4 & _ & _ & Y); rewrite Y in E1.
    - rewrite hbind_eq in E1. set (q := address e w4 h3) in *. pose proof (address_free e w4 h3) as AF. fold q in AF. rewrite L3 in AF.
      destruct (Nat.eqb_spec q p) as [QP|QP]; [discriminate|].
      assert (L4 : forall x, lookup (fill h3 q (OData (wrap_u (size_t_bits e) size) None)) x = if Nat.eqb x q then Some (OData (wrap_u (size_t_bits e) size) None) else lookup h3 x) by (intro x; apply lookup_new).
      assert (LA : lookup (fill h3 q (OData (wrap_u (size_t_bits e) size) None)) p = Some (OChunk (mkHeader None cid size) (BRaw None))).
      { rewrite L4, (proj2 (Nat.eqb_neq _ _)) by auto. rewrite L3, Nat.eqb_refl. reflexivity. }
      rewrite hstore_at in E1 by congruence. unfold hret in E1. injection E1 as <- <- <-. exists q, (wrap_u (size_t_bits e) size).
      split; [rewrite lookup_store by congruence; rewrite Nat.eqb_refl; reflexivity|]. split; [|split; [exact AF|auto]].
      rewrite lookup_store by congruence. rewrite (proj2 (Nat.eqb_neq _ _)) by auto. rewrite L4, Nat.eqb_refl. reflexivity.
    - rewrite hbind_eq in E1. destruct (hfree _ e w4 h3) as [[[? ?] ?]|?|]; discriminate. }
  destruct C as (b & z & LA & LB & FB & NAB). rewrite hbind_eq in E. destruct (hsetTextData a0 text e w2 h2) as [[[[] w3] h3]|u|] eqn:E2; try discriminate.
  rewrite hbind_eq in E. destruct (hIFF_free a0 rg e w3 h3) as [[[[] w4] h4]|u|] eqn:E3; try discriminate. unfold hret in E. injection E as <- <- <-.
  exists b, z. split; [exact FB|].
  unfold hsetTextData in E2. rewrite hbind_eq in E2.
  destruct (hmalloc_run (zlength text) (OData (zlength text) (Some text)) e w2 h2) as ([] & w5 & _ & _ & X); rewrite X in E2.
  - pose proof (address_free e w5 h2) as AF. set (q := address e w5 h2) in *. set (h5 := fill h2 q (OData (zlength text) (Some text))) in *.
    assert (L5 : forall x, lookup h2 x <> None -> lookup h5 x = lookup h2 x).
    { intros x L. unfold h5, q. rewrite lookup_new. fold q. rewrite (proj2 (Nat.eqb_neq _ _)) by congruence. reflexivity. }
    rewrite <- LB, <- (L5 b) by congruence. rewrite <- (L5 a0) in LA by congruence.
    apply (C54_old_data_leaks rg a0 (Some q) (wrap_s 32 (zlength text)) b _ e w5 h5 w3 h3 e w3 w4 h4 LA); [congruence| |exact E2|exact E3].
    intro Y. congruence.
  - destruct (zlength text =? 0); [|discriminate]. rewrite <- LB.
    apply (C54_old_data_leaks rg a0 None 0 b _ e w5 h2 w3 h3 e w3 w4 h4 LA); [congruence|discriminate|exact E2|exact E3].
Qed.
Print Assumptions C54_text_leaks.

Example C54_example :
  match text_client (ID_of "NAME") 5 (bytes "hello") None (host false) (start []) some_heap with
  | Done (Some _, _, h) => h = some_heap ++ [None; Some (OData 5 None); None]
  | _ => False
  end.
Proof. vm_compute. reflexivity. Qed.
