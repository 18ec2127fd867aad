(** * Creating chunks and attaching them, in memory *)

From Coq Require Import ZArith List Bool String Lia.
From Coq Require Import Strings.Byte.
From Verif Require Import Machine Io Types Build Read Iff Heap HeapSpec Spec Lemmas HeapProofs.
Import ListNotations.
Open Scope Z_scope.

(** ** Counting blocks *)

Definition cnt (F : list addr) (x : addr) : nat := count_occ Nat.eq_dec F x.

Lemma cnt_nil : forall x, cnt [] x = O.
Proof. reflexivity. Qed.
Lemma cnt_app : forall F G x, cnt (F ++ G) x = (cnt F x + cnt G x)%nat.
Proof. intros. apply count_occ_app. Qed.
Lemma cnt_cons : forall a F x, cnt (a :: F) x = ((if Nat.eqb a x then 1 else 0) + cnt F x)%nat.
Proof. intros a F x. unfold cnt. cbn [count_occ]. destruct (Nat.eq_dec a x) as [E|E]; destruct (Nat.eqb_spec a x); congruence || reflexivity. Qed.
Lemma nodup_cnt : forall F, NoDup F <-> forall x, (cnt F x <= 1)%nat.
Proof. intro F. apply NoDup_count_occ. Qed.
Lemma in_cnt : forall F x, In x F <-> (0 < cnt F x)%nat.
Proof. intros F x. unfold cnt. rewrite (count_occ_In Nat.eq_dec). lia. Qed.
Lemma notin_cnt : forall F x, ~ In x F <-> cnt F x = O.
Proof. intros F x. rewrite in_cnt. lia. Qed.

Ltac counts := repeat first [rewrite cnt_app in * | rewrite cnt_cons in * | rewrite cnt_nil in *].

(** ** malloc *)

Lemma malloc_run : forall sz e w, exists b w', malloc sz e w = Done (b, w') /\
  (b = true -> sz < 2 ^ (size_t_bits e - 1)).
Proof.
  intros sz e w. unfold malloc. eexists _, _. split; [reflexivity|]. intro B. apply andb_true_iff in B. apply Z.ltb_lt. apply B.
Qed.

Lemma hmalloc_run : forall sz o e w h, exists b w', malloc sz e w = Done (b, w') /\
  (b = true -> sz < 2 ^ (size_t_bits e - 1)) /\
  hmalloc sz o e w h = if b then Done (Some (address e w' h), w', fill h (address e w' h) o) else Done (None, w', h).
Proof.
  intros sz o e w h. destruct (malloc_run sz e w) as (b & w' & E & L). exists b, w'. split; [exact E|]. split; [exact L|].
  unfold hmalloc, hbind, io. rewrite E. destruct b; reflexivity.
Qed.

Lemma becomes_alloc : forall e w h o, becomes h (fill h (address e w h) o) [] [address e w h].
Proof.
  intros e w h o. split; [apply length_fill|]. split; [|split].
  - intros x _ N. rewrite lookup_new. destruct (Nat.eqb_spec x (address e w h)) as [->|D]; [exfalso; apply N; left; reflexivity|reflexivity].
  - intros x [].
  - intros x [<-|[]]. right. apply address_free.
Qed.

Lemma becomes_store : forall h a o F, lookup h a <> None -> In a F -> becomes h (store h a o) F F.
Proof.
  intros h a o F L I. split; [rewrite length_store; lia|]. split; [|split].
  - intros x N _. rewrite lookup_store by exact L. destruct (Nat.eqb_spec x a) as [->|D]; [contradiction|reflexivity].
  - intros x A B. contradiction.
  - intros x A. left. exact A.
Qed.

(** ** Creating *)

(** How a heap computation that makes a chunk relates to the tree model: the
    same outcome; on success the chunk is in new blocks, on failure nothing is
    left. *)
Definition makes (m : M (option chunk)) (hm : H ptr) : Prop := forall e w h,
  match m e w with
  | Done (Some c, w') => exists a h' F, hm e w h = Done (Some a, w', h') /\
      tree_at h' c None a F /\ NoDup F /\ becomes h h' [] F
  | Done (None, w') => exists h', hm e w h = Done (None, w', h') /\ becomes h h' [] []
  | Undefined u => hm e w h = Undefined u
  | OutOfFuel => hm e w h = OutOfFuel
  end.

Lemma nodup_one : forall a : addr, NoDup [a].
Proof. intro a. constructor; [intros []|constructor]. Qed.

Lemma makes_group : forall i s g, makes (IFF_createGroup i s g) (hcreateGroup i s g).
Proof.
  intros i s g e w h. unfold IFF_createGroup, hcreateGroup, hcreateChunk, bind.
  destruct (hmalloc_run sizeof_Group (OChunk (mkHeader None i s) (BGroup g 0 None)) e w h) as (b & w' & -> & _ & ->).
  destruct b; cbn.
  - eexists _, _, _. split; [reflexivity|]. split; [|split; [|apply becomes_alloc]]; [|apply nodup_one].
    exists None, [], [], []. split; [rewrite lookup_new, Nat.eqb_refl; reflexivity|]. split; [left; auto|]. split; reflexivity.
  - eexists. split; [reflexivity|apply becomes_refl].
Qed.

Lemma makes_list : forall s g, makes (IFF_createList s g) (hcreateList s g).
Proof.
  intros s g e w h. unfold IFF_createList, hcreateList, hcreateChunk, bind.
  destruct (hmalloc_run sizeof_List (OChunk (mkHeader None IFF_ID_LIST s) (BList g 0 None 0 None)) e w h) as (b & w' & -> & _ & ->).
  destruct b; cbn.
  - eexists _, _, _. split; [reflexivity|]. split; [|split; [|apply becomes_alloc]]; [|apply nodup_one].
    exists None, [], [], [], None, [], [], []. split; [rewrite lookup_new, Nat.eqb_refl; reflexivity|]. split; [left; auto|]. split; [reflexivity|].
    split; [left; auto|]. split; reflexivity.
  - eexists. split; [reflexivity|apply becomes_refl].
Qed.

Lemma makes_fields : forall s i z, makes (create_fields s i z) (hcreate_fields s i z).
Proof.
  intros s i z e w h. unfold create_fields, hcreate_fields, hcreateChunk, bind.
  destruct (hmalloc_run (sizeof_Fields s) (OChunk (mkHeader None i z) (BFields (map (fun d => (fd_kind d, 0)) (fs_fields s)))) e w h) as (b & w' & -> & _ & ->).
  destruct b; cbn -[map].
  - eexists _, _, _. split; [reflexivity|]. split; [|split; [|apply becomes_alloc]]; [|apply nodup_one].
    split; [rewrite lookup_new, Nat.eqb_refl; reflexivity|reflexivity].
  - eexists. split; [reflexivity|apply becomes_refl].
Qed.

(** A size whose conversion to size_t can be allocated is not negative. *)
Lemma alloc_nonneg : forall e s, in_range FLong s -> wrap_u (size_t_bits e) s < 2 ^ (size_t_bits e - 1) ->
  0 <= s /\ wrap_u (size_t_bits e) s = s.
Proof.
  intros e s R L. unfold in_range in R. unfold wrap_u, size_t_bits in *. destruct (lp64 e).
  - change (2 ^ (64 - 1)) with 9223372036854775808 in L. change (2 ^ 64) with 18446744073709551616 in *.
    destruct (Z.neg_nonneg_cases s) as [N|N].
    + replace (s mod 18446744073709551616) with (s + 18446744073709551616) in L; [lia|].
      rewrite <- (Z.mod_add s 1) by lia. rewrite Z.mod_small; lia.
    + split; [exact N|]. apply Z.mod_small. lia.
  - change (2 ^ (32 - 1)) with 2147483648 in L. change (2 ^ 32) with 4294967296 in *.
    destruct (Z.neg_nonneg_cases s) as [N|N].
    + replace (s mod 4294967296) with (s + 4294967296) in L; [lia|].
      rewrite <- (Z.mod_add s 1) by lia. rewrite Z.mod_small; lia.
    + split; [exact N|]. apply Z.mod_small. lia.
Qed.

Lemma makes_raw : forall i s, in_range FLong s -> makes (IFF_createRawChunk i s) (hcreateRawChunk i s).
Proof.
  intros i s R e w h. unfold IFF_createRawChunk, hcreateRawChunk, hcreateChunk.
  rewrite (hbind_done _ _ _ _ e w h e w h) by reflexivity. unfold bind, ask. set (n := wrap_u (size_t_bits e) s).
  destruct (hmalloc_run sizeof_RawChunk (OChunk (mkHeader None i s) (BRaw None)) e w h) as (b & w' & E & _ & E1). rewrite E.
  destruct b; rewrite (hbind_done _ _ _ _ _ _ _ _ _ _ E1); [|eexists; split; [reflexivity|apply becomes_refl]]. clear E E1.
  set (a := address e w' h). set (h1 := fill h a (OChunk (mkHeader None i s) (BRaw None))).
  assert (LA1 : lookup h1 a = Some (OChunk (mkHeader None i s) (BRaw None))) by (unfold h1, a; rewrite lookup_new, Nat.eqb_refl; reflexivity).
  destruct (hmalloc_run n (OData n None) e w' h1) as (b2 & w2 & E & LN & E2). rewrite E. destruct b2; rewrite (hbind_done _ _ _ _ _ _ _ _ _ _ E2); clear E E2.
  - destruct (alloc_nonneg e s R (LN eq_refl)) as [N NE]. fold n in NE. rewrite NE. clear LN.
    set (d := address e w2 h1). set (h2 := fill h1 d (OData s None)).
    assert (AD : a <> d) by (intro X; pose proof (address_free e w2 h1) as Y; fold d in Y; rewrite <- X in Y; congruence).
    assert (LA : lookup h2 a = Some (OChunk (mkHeader None i s) (BRaw None))).
    { unfold h2, d. rewrite lookup_new. fold d. rewrite (proj2 (Nat.eqb_neq _ _)) by exact AD. exact LA1. }
    unfold ret. cbn match. rewrite (hbind_done _ _ _ _ _ _ _ _ _ _ (hstore_at h2 a _ e w2 ltac:(congruence))).
    eexists _, _, [a; d]. split; [reflexivity|]. split; [|split].
    + cbn [tree_at]. exists d, s. split; [rewrite lookup_store by congruence; rewrite Nat.eqb_refl; reflexivity|].
      split; [|split; [split; [reflexivity|exact N]|reflexivity]].
      rewrite lookup_store by congruence. rewrite (proj2 (Nat.eqb_neq _ _)) by congruence.
      unfold h2, d. rewrite lookup_new, Nat.eqb_refl. reflexivity.
    + constructor; [|apply nodup_one]. intros [E|[]]. congruence.
    + apply (becomes_trans h h1 _ [] [a]); [apply becomes_alloc|]. apply (becomes_trans h1 h2 _ _ [a; d]).
      * apply (becomes_equiv h1 h2 ([a] ++ []) ([a] ++ [d])); [apply becomes_frame; apply becomes_alloc| |]; intro; cbn; tauto.
      * apply becomes_store; [congruence|left; reflexivity].
  - unfold ret. cbn match.
    assert (LA : lookup h1 a <> None) by congruence.
    rewrite (hbind_done _ _ _ _ _ _ _ _ _ _ (hfree_at h1 a e w2 LA)). eexists. split; [reflexivity|]. apply (becomes_trans h h1 _ [] [a]); [apply becomes_alloc|].
    split; [rewrite length_release; lia|]. split; [|split].
    + intros x A _. rewrite lookup_release. destruct (Nat.eqb_spec x a) as [->|D]; [exfalso; apply A; left; reflexivity|reflexivity].
    + intros x [<-|[]] _. rewrite lookup_release, Nat.eqb_refl. reflexivity.
    + intros x [].
Qed.

Lemma makes_extension : forall k i s, in_range FLong s -> makes (createExtensionChunk k i s) (hcreateExtensionChunk k i s).
Proof.
  intros k i s R. destruct k as [| | | | |sp]; cbn [createExtensionChunk hcreateExtensionChunk].
  - apply makes_group.
  - apply makes_group.
  - apply makes_list.
  - apply makes_group.
  - apply makes_raw. exact R.
  - apply makes_fields.
Qed.

(** ** Attaching *)

(** the heap after releasing the block [p] *)
Definition without (h : heap) (p : ptr) : heap := match p with Some d => release h d | None => h end.

Lemma length_without : forall h p, List.length (without h p) = List.length h.
Proof. intros h [d|]; [apply length_release|reflexivity]. Qed.

Lemma hpush_at : forall h arr la Fa x e w, array_at h arr la Fa ->
  hpush arr (List.length la) x e w h =
  match malloc ((Z.of_nat (List.length la) + 1) * sizeof_pointer) e w with
  | Done (true, w') => Done (Some (address e w' (without h arr)), w', fill (without h arr) (address e w' (without h arr)) (OArray (la ++ [x])))
  | Done (false, _) => Undefined UB_null_deref
  | Undefined u => Undefined u
  | OutOfFuel => OutOfFuel
  end.
Proof.
  intros h arr la Fa x e w A. unfold hpush. unfold hbind at 1.
  assert (E : harray arr e w h = Done (la, w, h)).
  { destruct A as [(-> & -> & ->)|(d & -> & L & ->)]; [reflexivity|]. cbn [harray]. unfold hbind, hload. rewrite L. reflexivity. }
  rewrite E. unfold hbind at 1. unfold io at 1. destruct (malloc_run ((Z.of_nat (List.length la) + 1) * sizeof_pointer) e w) as (b & w' & -> & _).
  destruct b; [|reflexivity]. unfold hbind. rewrite firstn_all.
  destruct A as [(-> & -> & ->)|(d & -> & L & ->)]; [reflexivity|]. rewrite hfree_at by congruence. reflexivity.
Qed.

(** A tree whose root gets another parent pointer *)
Lemma tree_reparent : forall h h' c p p' a F, tree_at h c p a F -> NoDup F ->
  (forall hd b, lookup h a = Some (OChunk hd b) -> lookup h' a = Some (OChunk (set_parent hd p') b)) ->
  (forall x, In x F -> x <> a -> lookup h' x = lookup h x) -> tree_at h' c p' a F.
Proof.
  intros h h' c p p' a F T ND RA K. destruct c as [i s d|i s g l|i s g ps l|i s v]; cbn [tree_at] in *.
  - destruct T as (b & size & L1 & L2 & D & ->). inversion ND as [|? ? NI _]; subst. exists b, size.
    rewrite (RA _ _ L1), K; [auto|right; left; reflexivity|]. intros ->. apply NI. left. reflexivity.
  - destruct T as (arr & la & Fa & Fl & L & A & T & ->). inversion ND as [|? ? NI _]; subst. exists arr, la, Fa, Fl.
    assert (K2 : forall x, In x (Fa ++ Fl) -> lookup h' x = lookup h x) by (intros x I; apply K; [right; exact I|intros ->; contradiction]).
    split; [rewrite (RA _ _ L); reflexivity|]. split; [apply (array_frame h); [exact A|]; intros; apply K2; rewrite in_app_iff; tauto|].
    split; [apply (trees_frame h); [exact T|]; intros; apply K2; rewrite in_app_iff; tauto|reflexivity].
  - destruct T as (arr & la & Fa & Fl & parr & pa & Fb & Fp & L & A & T & B & Q & ->). inversion ND as [|? ? NI _]; subst.
    exists arr, la, Fa, Fl, parr, pa, Fb, Fp.
    assert (K2 : forall x, In x ((Fa ++ Fl) ++ Fb ++ Fp) -> lookup h' x = lookup h x) by (intros x I; apply K; [right; exact I|intros ->; contradiction]).
    split; [rewrite (RA _ _ L); reflexivity|]. split; [apply (array_frame h); [exact A|]; intros; apply K2; rewrite !in_app_iff; tauto|].
    split; [apply (trees_frame h); [exact T|]; intros; apply K2; rewrite !in_app_iff; tauto|].
    split; [apply (array_frame h); [exact B|]; intros; apply K2; rewrite !in_app_iff; tauto|].
    split; [apply (trees_frame h); [exact Q|]; intros; apply K2; rewrite !in_app_iff; tauto|reflexivity].
  - destruct T as [L ->]. split; [rewrite (RA _ _ L); reflexivity|reflexivity].
Qed.

(** The common steps of attaching: a longer array, the group pointing to it,
    the parent pointer of the member *)
Lemma attach_steps : forall h a hd b arr la Fa c pc ac Fc (f : ptr -> body) e w,
  lookup h a = Some (OChunk hd b) -> array_at h arr la Fa -> tree_at h c pc ac Fc ->
  a <> ac -> ~ In a Fa -> ~ In ac Fa ->
  match malloc ((Z.of_nat (List.length la) + 1) * sizeof_pointer) e w with
  | Done (true, w') => exists h' n,
      (arr' <-h hpush arr (List.length la) ac ;; hstore a (OChunk hd (f arr')) ;;h hset_parent ac (Some a)) e w h = Done (tt, w', h') /\
      (List.length h <= List.length h')%nat /\
      (lookup h n = None \/ In n Fa) /\
      lookup h' a = Some (OChunk hd (f (Some n))) /\
      lookup h' n = Some (OArray (la ++ [ac])) /\
      (forall hc bc, lookup h ac = Some (OChunk hc bc) -> lookup h' ac = Some (OChunk (set_parent hc (Some a)) bc)) /\
      (forall x, In x Fa -> x <> n -> lookup h' x = None) /\
      (forall x, x <> a -> x <> ac -> x <> n -> ~ In x Fa -> lookup h' x = lookup h x)
  | Done (false, _) =>
      (arr' <-h hpush arr (List.length la) ac ;; hstore a (OChunk hd (f arr')) ;;h hset_parent ac (Some a)) e w h = Undefined UB_null_deref
  | _ => False
  end.
Proof.
  intros h a hd b arr la Fa c pc ac Fc f e w L A T NE NA NC. unfold hbind at 1 3.
  rewrite (hpush_at h arr la Fa) by exact A.
  destruct (malloc_run ((Z.of_nat (List.length la) + 1) * sizeof_pointer) e w) as (ok & w' & -> & _). destruct ok; [|reflexivity].
  destruct (tree_header h c pc ac Fc T) as (bc & LC). set (hc := mkHeader pc (chunkId c) (chunkSize c)) in *.
  pose proof (address_free e w' (without h arr)) as FRE. set (n := address e w' (without h arr)) in *. set (h1 := fill (without h arr) n (OArray (la ++ [ac]))).
  assert (K1 : forall x, lookup h1 x = if Nat.eqb x n then Some (OArray (la ++ [ac])) else lookup (without h arr) x).
  { intro x. unfold h1, n. apply lookup_new. }
  assert (KW : forall x, ~ In x Fa -> lookup (without h arr) x = lookup h x).
  { intros x NI. destruct A as [(-> & -> & ->)|(d & -> & LD & ->)]; [reflexivity|]. cbn [without]. rewrite lookup_release.
    destruct (Nat.eqb_spec x d) as [->|D]; [exfalso; apply NI; left; reflexivity|reflexivity]. }
  assert (KF : forall x, In x Fa -> lookup (without h arr) x = None).
  { intros x I. destruct A as [(-> & -> & ->)|(d & -> & LD & ->)]; [contradiction|]. destruct I as [<-|[]]. cbn [without]. rewrite lookup_release, Nat.eqb_refl. reflexivity. }
  assert (LN : (n <> a /\ a <> n) /\ n <> ac /\ ac <> n).
  { assert (X1 : n <> a) by (intros ->; rewrite KW in FRE by exact NA; congruence). assert (X2 : n <> ac) by (intros ->; rewrite KW in FRE by exact NC; congruence). auto. }
  assert (LA : lookup h1 a = Some (OChunk hd b)) by (rewrite K1, (proj2 (Nat.eqb_neq _ _)) by tauto; rewrite KW by exact NA; exact L).
  assert (LC1 : lookup h1 ac = Some (OChunk hc bc)) by (rewrite K1, (proj2 (Nat.eqb_neq _ _)) by tauto; rewrite KW by exact NC; exact LC).
  unfold hbind at 1. rewrite hstore_at by congruence. set (h2 := store h1 a (OChunk hd (f (Some n)))).
  assert (K2 : forall x, lookup h2 x = if Nat.eqb x a then Some (OChunk hd (f (Some n))) else lookup h1 x) by (intro x; unfold h2; apply lookup_store; congruence).
  assert (LC2 : lookup h2 ac = Some (OChunk hc bc)) by (rewrite K2, (proj2 (Nat.eqb_neq _ _)) by auto; exact LC1).
  unfold hset_parent, hbind. rewrite (hchunk_at _ _ _ _ _ _ LC2). rewrite hstore_at by congruence.
  set (h3 := store h2 ac (OChunk (set_parent hc (Some a)) bc)).
  assert (K3 : forall x, lookup h3 x = if Nat.eqb x ac then Some (OChunk (set_parent hc (Some a)) bc) else lookup h2 x) by (intro x; unfold h3; apply lookup_store; congruence).
  exists h3, n. split; [reflexivity|]. split; [|split; [|split; [|split; [|split; [|split]]]]].
  - unfold h3, h2, h1. rewrite !length_store. rewrite <- (length_without h arr). apply length_fill.
  - destruct (in_dec Nat.eq_dec n Fa) as [I|I]; [right; exact I|left]. rewrite <- (KW n I). exact FRE.
  - rewrite K3, (proj2 (Nat.eqb_neq _ _)) by exact NE. rewrite K2, Nat.eqb_refl. reflexivity.
  - rewrite K3, (proj2 (Nat.eqb_neq _ _)) by tauto. rewrite K2, (proj2 (Nat.eqb_neq _ _)) by tauto. rewrite K1, Nat.eqb_refl. reflexivity.
  - intros hc' bc' E. rewrite LC in E. injection E as <- <-. rewrite K3, Nat.eqb_refl. reflexivity.
  - intros x I XN. rewrite K3, (proj2 (Nat.eqb_neq _ _)) by (intros ->; contradiction). rewrite K2, (proj2 (Nat.eqb_neq _ _)) by (intros ->; contradiction).
    rewrite K1. rewrite (proj2 (Nat.eqb_neq _ _)) by exact XN. apply KF. exact I.
  - intros x X1 X2 X3 X4. rewrite K3, (proj2 (Nat.eqb_neq _ _)) by exact X2. rewrite K2, (proj2 (Nat.eqb_neq _ _)) by exact X1.
    rewrite K1, (proj2 (Nat.eqb_neq _ _)) by exact X3. apply KW. exact X4.
Qed.

(** How growing a tree in place by another one relates to the tree model. *)
Definition grows (m : M chunk) (hm : H unit) (h : heap) (p : ptr) (a : addr) (F : list addr) (c : chunk) (ac : addr) (Fc : list addr) : Prop :=
  forall e w,
  match m e w with
  | Done (group', w') => exists h' F', hm e w h = Done (tt, w', h') /\ tree_at h' group' p a F' /\ NoDup F' /\
      becomes h h' (F ++ Fc) F' /\ tree_at h' c (Some a) ac Fc
  | Undefined u => hm e w h = Undefined u
  | OutOfFuel => hm e w h = OutOfFuel
  end.

Lemma attach_at : forall group c p pc a ac F Fc h, as_group group <> None ->
  tree_at h group p a F -> tree_at h c pc ac Fc -> NoDup (F ++ Fc) ->
  grows (IFF_attachToGroup group c) (hattachToGroup a ac) h p a F c ac Fc.
Proof.
  intros group c p pc a ac F Fc h AG TG TC ND e w.
  destruct (tree_root _ _ _ _ _ TC) as (Fc' & EFc).
  assert (NDC : NoDup Fc) by exact (NoDup_app_r _ _ _ ND).
  destruct group as [i s d|i s g l|i s g ps l|i s v]; cbn [as_group] in AG; try congruence; clear AG.
  - pose proof TG as TG0. cbn [tree_at] in TG. destruct TG as (arr & la & Fa & Fl & L & A & T & EF).
    assert (ZL : zlength l = Z.of_nat (List.length la)) by (unfold zlength; rewrite (trees_length _ _ _ _ _ T); reflexivity).
    rewrite nodup_cnt in ND.
    assert (X : a <> ac /\ ~ In a Fa /\ ~ In ac Fa).
    { pose proof (ND a) as ND1. pose proof (ND ac) as ND2. rewrite EF, EFc in ND1, ND2. counts. rewrite (Nat.eqb_refl a) in ND1. rewrite (Nat.eqb_refl ac) in ND2.
      split; [|split; apply notin_cnt; lia]. intros ->. rewrite (Nat.eqb_refl ac) in ND1. lia. }
    destruct X as (NE & NA & NC).
    pose proof (attach_steps h a _ _ arr la Fa c pc ac Fc (fun arr' => BGroup g (S (List.length la)) arr') e w L A TC NE NA NC) as ST.
    assert (RE : hattachToGroup a ac e w h = (arr' <-h hpush arr (List.length la) ac ;; hstore a (OChunk (mkHeader p i s) ((fun arr' => BGroup g (S (List.length la)) arr') arr')) ;;h hset_parent ac (Some a)) e w h)
      by (unfold hattachToGroup; rewrite (hbind_done _ _ _ _ _ _ _ _ _ _ (hchunk_at _ _ _ _ _ _ L)); reflexivity).
    rewrite RE. clear RE. unfold IFF_attachToGroup. cbn [as_group set_subs]. rewrite ZL. unfold bind.
    destruct (malloc_run ((Z.of_nat (List.length la) + 1) * sizeof_pointer) e w) as (ok & w' & E & _). rewrite E in *. destruct ok; [|exact ST].
    destruct ST as (h' & n & RUN & LEN & FR & LA & LN & LC & LD & LK). cbn [ret]. unfold ret.
    assert (FRE : forall x, In x (F ++ Fc) -> ~ In x Fa -> x <> n).
    { intros x I NF ->. destruct FR as [Z|J]; [|contradiction]. apply in_app_or in I. destruct I as [I|I]; [exact (tree_live _ _ _ _ _ _ TG0 I Z)|exact (tree_live _ _ _ _ _ _ TC I Z)]. }
    assert (TC' : tree_at h' c (Some a) ac Fc).
    { apply (tree_reparent h h' c pc (Some a) ac Fc TC NDC); [exact LC|]. intros x I N.
      specialize (ND x). apply LK; [|exact N|apply FRE; [apply in_or_app; right; exact I|intro J; apply in_cnt in I, J; subst F; counts; lia]|].
      - intros ->. apply in_cnt in I. subst F. counts. rewrite Nat.eqb_refl in ND. lia.
      - intro J. apply in_cnt in I, J. subst F. counts. lia. }
    assert (KL : forall x, In x Fl -> lookup h' x = lookup h x).
    { intros x I. specialize (ND x). apply LK.
      - intros ->. apply in_cnt in I. subst F. counts. rewrite Nat.eqb_refl in ND. lia.
      - intros ->. apply in_cnt in I. subst F. rewrite EFc in ND. counts. rewrite Nat.eqb_refl in ND. lia.
      - apply FRE; [apply in_or_app; left; subst F; right; apply in_or_app; right; exact I|intro J; apply in_cnt in I, J; subst F; counts; lia].
      - intro J. apply in_cnt in I, J. subst F. counts. lia. }
    exists h', (a :: [n] ++ (Fl ++ Fc)). split; [exact RUN|]. split; [|split; [|split; [|exact TC']]].
    + cbn [tree_at]. exists (Some n), (la ++ [ac]), [n], (Fl ++ Fc). split; [rewrite LA, app_length, Nat.add_1_r; reflexivity|].
      split; [right; exists n; auto|]. split; [|reflexivity]. apply trees_app; [apply (trees_frame h); assumption|exact TC'].
    + apply nodup_cnt. intro x. specialize (ND x). destruct (Nat.eq_dec x n) as [->|N].
      * destruct (in_dec Nat.eq_dec n Fa) as [J|J].
        { apply in_cnt in J. subst F. counts. rewrite Nat.eqb_refl. lia. }
        assert (Z0 : cnt (F ++ Fc) n = O) by (apply notin_cnt; intro I; exact (FRE n I J eq_refl)). subst F. counts. rewrite Nat.eqb_refl. lia.
      * subst F. counts. rewrite (proj2 (Nat.eqb_neq n x)) by auto. lia.
    + split; [lia|]. split; [|split].
      * intros x X1 X2. apply notin_cnt in X1, X2. assert (cnt Fc ac > 0)%nat by (rewrite EFc; counts; rewrite Nat.eqb_refl; lia). subst F. counts. apply LK.
        -- intros ->. rewrite Nat.eqb_refl in X1. lia.
        -- intros ->. lia.
        -- intros ->. rewrite Nat.eqb_refl in X2. lia.
        -- apply notin_cnt. lia.
      * intros x X1 X2. apply LD; [|intros ->; apply X2; rewrite in_cnt; counts; rewrite Nat.eqb_refl; lia]. apply in_cnt in X1. apply notin_cnt in X2. apply in_cnt. subst F. counts. lia.
      * intros x X. destruct (Nat.eq_dec x n) as [->|N]; [destruct FR as [Z|J]; [right; exact Z|left; apply in_cnt in J; apply in_cnt; subst F; counts; lia]|left]. apply in_cnt in X. apply in_cnt. subst F. counts. rewrite (proj2 (Nat.eqb_neq n x)) in X by auto. lia.
  - pose proof TG as TG0. cbn [tree_at] in TG. destruct TG as (arr & la & Fa & Fl & parr & pa & Fb & Fp & L & A & T & B & Q & EF).
    assert (ZL : zlength l = Z.of_nat (List.length la)) by (unfold zlength; rewrite (trees_length _ _ _ _ _ T); reflexivity).
    rewrite nodup_cnt in ND.
    assert (X : a <> ac /\ ~ In a Fa /\ ~ In ac Fa).
    { pose proof (ND a) as ND1. pose proof (ND ac) as ND2. rewrite EF, EFc in ND1, ND2. counts. rewrite (Nat.eqb_refl a) in ND1. rewrite (Nat.eqb_refl ac) in ND2.
      split; [|split; apply notin_cnt; lia]. intros ->. rewrite (Nat.eqb_refl ac) in ND1. lia. }
    destruct X as (NE & NA & NC).
    pose proof (attach_steps h a _ _ arr la Fa c pc ac Fc (fun arr' => BList g (S (List.length la)) arr' (List.length pa) parr) e w L A TC NE NA NC) as ST.
    assert (RE : hattachToGroup a ac e w h = (arr' <-h hpush arr (List.length la) ac ;; hstore a (OChunk (mkHeader p i s) ((fun arr' => BList g (S (List.length la)) arr' (List.length pa) parr) arr')) ;;h hset_parent ac (Some a)) e w h)
      by (unfold hattachToGroup; rewrite (hbind_done _ _ _ _ _ _ _ _ _ _ (hchunk_at _ _ _ _ _ _ L)); reflexivity).
    rewrite RE. clear RE. unfold IFF_attachToGroup. cbn [as_group set_subs]. rewrite ZL. unfold bind.
    destruct (malloc_run ((Z.of_nat (List.length la) + 1) * sizeof_pointer) e w) as (ok & w' & E & _). rewrite E in *. destruct ok; [|exact ST].
    destruct ST as (h' & n & RUN & LEN & FR & LA & LN & LC & LD & LK). unfold ret.
    assert (FRE : forall x, In x (F ++ Fc) -> ~ In x Fa -> x <> n).
    { intros x I NF ->. destruct FR as [Z|J]; [|contradiction]. apply in_app_or in I. destruct I as [I|I]; [exact (tree_live _ _ _ _ _ _ TG0 I Z)|exact (tree_live _ _ _ _ _ _ TC I Z)]. }
    assert (TC' : tree_at h' c (Some a) ac Fc).
    { apply (tree_reparent h h' c pc (Some a) ac Fc TC NDC); [exact LC|]. intros x I N.
      specialize (ND x). apply LK; [|exact N|apply FRE; [apply in_or_app; right; exact I|intro J; apply in_cnt in I, J; subst F; counts; lia]|].
      - intros ->. apply in_cnt in I. subst F. counts. rewrite Nat.eqb_refl in ND. lia.
      - intro J. apply in_cnt in I, J. subst F. counts. lia. }
    assert (KL : forall x, In x (Fl ++ Fb ++ Fp) -> lookup h' x = lookup h x).
    { intros x I. specialize (ND x). apply LK.
      - intros ->. apply in_cnt in I. subst F. counts. rewrite Nat.eqb_refl in ND. lia.
      - intros ->. apply in_cnt in I. subst F. rewrite EFc in ND. counts. rewrite Nat.eqb_refl in ND. lia.
      - apply FRE; [apply in_or_app; left; subst F; right; rewrite !in_app_iff in *; tauto|intro J; apply in_cnt in I, J; subst F; counts; lia].
      - intro J. apply in_cnt in I, J. subst F. counts. lia. }
    exists h', (a :: ([n] ++ (Fl ++ Fc)) ++ (Fb ++ Fp)). split; [exact RUN|]. split; [|split; [|split; [|exact TC']]].
    + cbn [tree_at]. exists (Some n), (la ++ [ac]), [n], (Fl ++ Fc), parr, pa, Fb, Fp. split; [rewrite LA, app_length, Nat.add_1_r; reflexivity|].
      split; [right; exists n; auto|]. split; [apply trees_app; [apply (trees_frame h); [exact T|]; intros; apply KL; rewrite !in_app_iff; tauto|exact TC']|].
      split; [apply (array_frame h); [exact B|]; intros; apply KL; rewrite !in_app_iff; tauto|].
      split; [apply (trees_frame h); [exact Q|]; intros; apply KL; rewrite !in_app_iff; tauto|]. reflexivity.
    + apply nodup_cnt. intro x. specialize (ND x). destruct (Nat.eq_dec x n) as [->|N].
      * destruct (in_dec Nat.eq_dec n Fa) as [J|J].
        { apply in_cnt in J. subst F. counts. rewrite Nat.eqb_refl. lia. }
        assert (Z0 : cnt (F ++ Fc) n = O) by (apply notin_cnt; intro I; exact (FRE n I J eq_refl)). subst F. counts. rewrite Nat.eqb_refl. lia.
      * subst F. counts. rewrite (proj2 (Nat.eqb_neq n x)) by auto. lia.
    + split; [lia|]. split; [|split].
      * intros x X1 X2. apply notin_cnt in X1, X2. assert (cnt Fc ac > 0)%nat by (rewrite EFc; counts; rewrite Nat.eqb_refl; lia). subst F. counts. apply LK.
        -- intros ->. rewrite Nat.eqb_refl in X1. lia.
        -- intros ->. lia.
        -- intros ->. rewrite Nat.eqb_refl in X2. lia.
        -- apply notin_cnt. lia.
      * intros x X1 X2. apply LD; [|intros ->; apply X2; rewrite in_cnt; counts; rewrite Nat.eqb_refl; lia]. apply in_cnt in X1. apply notin_cnt in X2. apply in_cnt. subst F. counts. lia.
      * intros x X. destruct (Nat.eq_dec x n) as [->|N]; [destruct FR as [Z|J]; [right; exact Z|left; apply in_cnt in J; apply in_cnt; subst F; counts; lia]|left]. apply in_cnt in X. apply in_cnt. subst F. counts. rewrite (proj2 (Nat.eqb_neq n x)) in X by auto. lia.
Qed.

Lemma attachProp_at : forall l c p pc a ac F Fc h, (exists i s g ps subs, l = CList i s g ps subs) ->
  tree_at h l p a F -> tree_at h c pc ac Fc -> NoDup (F ++ Fc) ->
  grows (addPropToList l c) (hattachProp a ac) h p a F c ac Fc.
Proof.
  intros l0 c p pc a ac F Fc h (i & s & g & ps & l & ->) TG TC ND e w.
  destruct (tree_root _ _ _ _ _ TC) as (Fc' & EFc).
  assert (NDC : NoDup Fc) by exact (NoDup_app_r _ _ _ ND).
  pose proof TG as TG0. cbn [tree_at] in TG. destruct TG as (arr & la & Fa & Fl & parr & pa & Fb & Fp & L & A & T & B & Q & EF).
  assert (ZL : zlength ps = Z.of_nat (List.length pa)) by (unfold zlength; rewrite (trees_length _ _ _ _ _ Q); reflexivity).
  rewrite nodup_cnt in ND.
  assert (X : a <> ac /\ ~ In a Fb /\ ~ In ac Fb).
  { pose proof (ND a) as ND1. pose proof (ND ac) as ND2. rewrite EF, EFc in ND1, ND2. counts. rewrite (Nat.eqb_refl a) in ND1. rewrite (Nat.eqb_refl ac) in ND2.
    split; [|split; apply notin_cnt; lia]. intros ->. rewrite (Nat.eqb_refl ac) in ND1. lia. }
  destruct X as (NE & NA & NC).
  pose proof (attach_steps h a _ _ parr pa Fb c pc ac Fc (fun arr' => BList g (List.length la) arr (S (List.length pa)) arr') e w L B TC NE NA NC) as ST.
  assert (RE : hattachProp a ac e w h = (arr' <-h hpush parr (List.length pa) ac ;; hstore a (OChunk (mkHeader p i s) (BList g (List.length la) arr (S (List.length pa)) arr')) ;;h hset_parent ac (Some a)) e w h)
    by (unfold hattachProp; rewrite (hbind_done _ _ _ _ _ _ _ _ _ _ (hchunk_at _ _ _ _ _ _ L)); reflexivity).
  rewrite RE. clear RE. unfold addPropToList. rewrite ZL. unfold bind.
  destruct (malloc_run ((Z.of_nat (List.length pa) + 1) * sizeof_pointer) e w) as (ok & w' & E & _). rewrite E in *. destruct ok; [|exact ST].
  destruct ST as (h' & n & RUN & LEN & FR & LA & LN & LC & LD & LK). unfold ret.
  assert (FRE : forall x, In x (F ++ Fc) -> ~ In x Fb -> x <> n).
    { intros x I NF ->. destruct FR as [Z|J]; [|contradiction]. apply in_app_or in I. destruct I as [I|I]; [exact (tree_live _ _ _ _ _ _ TG0 I Z)|exact (tree_live _ _ _ _ _ _ TC I Z)]. }
  assert (TC' : tree_at h' c (Some a) ac Fc).
  { apply (tree_reparent h h' c pc (Some a) ac Fc TC NDC); [exact LC|]. intros x I N.
    specialize (ND x). apply LK; [|exact N|apply FRE; [apply in_or_app; right; exact I|intro J; apply in_cnt in I, J; subst F; counts; lia]|].
    - intros ->. apply in_cnt in I. subst F. counts. rewrite Nat.eqb_refl in ND. lia.
    - intro J. apply in_cnt in I, J. subst F. counts. lia. }
  assert (KL : forall x, In x (Fa ++ Fl ++ Fp) -> lookup h' x = lookup h x).
  { intros x I. specialize (ND x). apply LK.
    - intros ->. apply in_cnt in I. subst F. counts. rewrite Nat.eqb_refl in ND. lia.
    - intros ->. apply in_cnt in I. subst F. rewrite EFc in ND. counts. rewrite Nat.eqb_refl in ND. lia.
    - apply FRE; [apply in_or_app; left; subst F; right; rewrite !in_app_iff in *; tauto|intro J; apply in_cnt in I, J; subst F; counts; lia].
    - intro J. apply in_cnt in I, J. subst F. counts. lia. }
  exists h', (a :: (Fa ++ Fl) ++ ([n] ++ (Fp ++ Fc))). split; [exact RUN|]. split; [|split; [|split; [|exact TC']]].
  + cbn [tree_at]. exists arr, la, Fa, Fl, (Some n), (pa ++ [ac]), [n], (Fp ++ Fc). split; [rewrite LA, app_length, Nat.add_1_r; reflexivity|].
    split; [apply (array_frame h); [exact A|]; intros; apply KL; rewrite !in_app_iff; tauto|].
    split; [apply (trees_frame h); [exact T|]; intros; apply KL; rewrite !in_app_iff; tauto|].
    split; [right; exists n; auto|]. split; [apply trees_app; [apply (trees_frame h); [exact Q|]; intros; apply KL; rewrite !in_app_iff; tauto|exact TC']|]. reflexivity.
  + apply nodup_cnt. intro x. specialize (ND x). destruct (Nat.eq_dec x n) as [->|N].
    * destruct (in_dec Nat.eq_dec n Fb) as [J|J].
        { apply in_cnt in J. subst F. counts. rewrite Nat.eqb_refl. lia. }
        assert (Z0 : cnt (F ++ Fc) n = O) by (apply notin_cnt; intro I; exact (FRE n I J eq_refl)). subst F. counts. rewrite Nat.eqb_refl. lia.
    * subst F. counts. rewrite (proj2 (Nat.eqb_neq n x)) by auto. lia.
  + split; [lia|]. split; [|split].
    * intros x X1 X2. apply notin_cnt in X1, X2. assert (cnt Fc ac > 0)%nat by (rewrite EFc; counts; rewrite Nat.eqb_refl; lia). subst F. counts. apply LK.
      -- intros ->. rewrite Nat.eqb_refl in X1. lia.
      -- intros ->. lia.
      -- intros ->. rewrite Nat.eqb_refl in X2. lia.
      -- apply notin_cnt. lia.
    * intros x X1 X2. apply LD; [|intros ->; apply X2; rewrite in_cnt; counts; rewrite Nat.eqb_refl; lia]. apply in_cnt in X1. apply notin_cnt in X2. apply in_cnt. subst F. counts. lia.
    * intros x X. destruct (Nat.eq_dec x n) as [->|N]; [destruct FR as [Z|J]; [right; exact Z|left; apply in_cnt in J; apply in_cnt; subst F; counts; lia]|left]. apply in_cnt in X. apply in_cnt. subst F. counts. rewrite (proj2 (Nat.eqb_neq n x)) in X by auto. lia.
Qed.

(** ** Sizes and types *)

Definition of_outcome {A} (o : outcome A) (w : world) (h : heap) : outcome (A * world * heap) :=
  match o with Done a => Done (a, w, h) | Undefined u => Undefined u | OutOfFuel => OutOfFuel end.

Lemma increment_at : forall h c p a F s e w, tree_at h c p a F ->
  hincrementChunkSize s a e w h = of_outcome (IFF_incrementChunkSize s c) w h.
Proof.
  intros h c p a F s e w T. destruct (tree_header h c p a F T) as (b & L). unfold hincrementChunkSize.
  rewrite (hbind_done _ _ _ _ _ _ _ _ _ _ (hchunk_at _ _ _ _ _ _ L)). cbn [o_size]. unfold IFF_incrementChunkSize.
  destruct (INT_MAX <? s + IFF_ID_SIZE); [reflexivity|]. cbv zeta. destruct (c_odd (chunkSize c)); [|reflexivity].
  destruct (wrap_s 32 (s + IFF_ID_SIZE + 4 + chunkSize c) =? INT_MAX); reflexivity.
Qed.

(** Changing the size or type stored in the struct of a group *)
Lemma regroup_at : forall h c p a F s g hd b, as_group c <> None -> tree_at h c p a F -> NoDup F ->
  lookup h a = Some (OChunk hd b) ->
  tree_at (store h a (OChunk (set_size hd s) (set_type b g))) (set_groupType (set_chunkSize c s) g) p a F /\
  becomes h (store h a (OChunk (set_size hd s) (set_type b g))) F F.
Proof.
  intros h c p a F s g hd b AG T ND L. destruct (tree_root _ _ _ _ _ T) as (F' & EF).
  split; [|apply becomes_store; [congruence|rewrite EF; left; reflexivity]].
  set (h' := store h a (OChunk (set_size hd s) (set_type b g))).
  assert (LA : lookup h' a = Some (OChunk (set_size hd s) (set_type b g))) by (unfold h'; rewrite lookup_store by congruence; rewrite Nat.eqb_refl; reflexivity).
  assert (K : forall x, In x F' -> lookup h' x = lookup h x).
  { intros x I. unfold h'. rewrite lookup_store by congruence. rewrite EF in ND. inversion ND; subst.
    destruct (Nat.eqb_spec x a) as [->|N]; [contradiction|reflexivity]. }
  destruct c as [i z d|i z g0 l|i z g0 ps l|i z v]; cbn [as_group] in AG; try congruence; cbn [tree_at set_chunkSize set_groupType] in *.
  - destruct T as (arr & la & Fa & Fl & L1 & A & T & ->). injection EF as <-. rewrite L in L1. injection L1 as -> ->.
    exists arr, la, Fa, Fl. split; [exact LA|]. split; [apply (array_frame h); [exact A|]; intros; apply K; rewrite in_app_iff; tauto|].
    split; [apply (trees_frame h); [exact T|]; intros; apply K; rewrite in_app_iff; tauto|reflexivity].
  - destruct T as (arr & la & Fa & Fl & parr & pa & Fb & Fp & L1 & A & T & B & Q & ->). injection EF as <-. rewrite L in L1. injection L1 as -> ->.
    exists arr, la, Fa, Fl, parr, pa, Fb, Fp. split; [exact LA|].
    split; [apply (array_frame h); [exact A|]; intros; apply K; rewrite !in_app_iff; tauto|].
    split; [apply (trees_frame h); [exact T|]; intros; apply K; rewrite !in_app_iff; tauto|].
    split; [apply (array_frame h); [exact B|]; intros; apply K; rewrite !in_app_iff; tauto|].
    split; [apply (trees_frame h); [exact Q|]; intros; apply K; rewrite !in_app_iff; tauto|]. reflexivity.
Qed.

Lemma retype_at : forall h c p a F g hd b, as_group c <> None -> tree_at h c p a F -> NoDup F ->
  lookup h a = Some (OChunk hd b) ->
  tree_at (store h a (OChunk hd (set_type b g))) (set_groupType c g) p a F /\
  becomes h (store h a (OChunk hd (set_type b g))) F F.
Proof.
  intros h c p a F g hd b AG T ND L. destruct (tree_header _ _ _ _ _ T) as (b' & L'). rewrite L in L'. injection L' as EH _.
  assert (X : set_size hd (chunkSize c) = hd) by (rewrite EH; reflexivity).
  pose proof (regroup_at h c p a F (chunkSize c) g hd b AG T ND L) as R. rewrite X in R.
  replace (set_chunkSize c (chunkSize c)) with c in R by (destruct c; reflexivity). exact R.
Qed.

Definition gtype (c : chunk) : Z := match as_group c with Some (g, _) => g | None => 0 end.

Lemma tree_type : forall h c p a F hd b, as_group c <> None -> tree_at h c p a F -> lookup h a = Some (OChunk hd b) ->
  type_of b = Some (gtype c) /\ set_type b (gtype c) = b /\ set_groupType c (gtype c) = c.
Proof.
  intros h c p a F hd b AG T L. destruct c as [i z d|i z g0 l|i z g0 ps l|i z v]; cbn [as_group] in AG; try congruence; cbn [tree_at] in T.
  - destruct T as (arr & la & Fa & Fl & L1 & _). rewrite L in L1. injection L1 as _ ->. repeat split.
  - destruct T as (arr & la & Fa & Fl & parr & pa & Fb & Fp & L1 & _). rewrite L in L1. injection L1 as _ ->. repeat split.
Qed.

Lemma resize_at : forall h c p a F s e w, as_group c <> None -> tree_at h c p a F -> NoDup F ->
  exists h', hset_size a s e w h = Done (tt, w, h') /\ tree_at h' (set_chunkSize c s) p a F /\ becomes h h' F F /\
    (forall x, x <> a -> lookup h' x = lookup h x).
Proof.
  intros h c p a F s e w AG T ND. destruct (tree_header _ _ _ _ _ T) as (b & L). unfold hset_size.
  rewrite (hbind_done _ _ _ _ _ _ _ _ _ _ (hchunk_at _ _ _ _ _ _ L)). rewrite hstore_at by congruence. eexists. split; [reflexivity|].
  destruct (tree_type h c p a F _ b AG T L) as (_ & E2 & _).
  pose proof (regroup_at h c p a F s (gtype c) _ b AG T ND L) as R. rewrite E2 in R.
  replace (set_groupType (set_chunkSize c s) (gtype c)) with (set_chunkSize c s) in R; [destruct R as [R1 R2]; split; [exact R1|split; [exact R2|]]|].
  - intros x N. rewrite lookup_store by congruence. rewrite (proj2 (Nat.eqb_neq _ _)) by exact N. reflexivity.
  - destruct c as [i z d|i z g0 l|i z g0 ps l|i z v]; reflexivity.
Qed.
