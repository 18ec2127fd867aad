(** * Freeing a tree in memory with other chunk types than it was made with *)

From Coq Require Import ZArith List Bool String Lia.
From Coq Require Import Strings.Byte.
From Verif Require Import Machine Io Types Build Read Iff Spec Lemmas WriteProofs Heap HeapSpec HeapProofs AskedSpec AskedProofs.
Import ListNotations.
Open Scope Z_scope.

Section Freeing.
  Variables r1 r2 : option registry.
  Variable app : apps.
  Hypothesis RG : Realises r1 app.

  Definition frees (c : chunk) : Prop := forall ft p a F h fuel e w,
    Typed app ft c -> same_types r1 r2 ft c -> tree_at h c p a F -> NoDup F -> (height c <= fuel)%nat ->
    exists h', hfreeChunk r2 fuel a ft e w h = Done (tt, w, h') /\ becomes h h' F [].

  Lemma free_all_at : forall l ft p la F h fuel e w,
    (forall c, In c l -> frees c) -> (forall c, In c l -> Typed app ft c) -> (forall c, In c l -> same_types r1 r2 ft c) ->
    trees_at (tree_at h) l p la F -> NoDup F ->
    (fold_right (fun x m => Nat.max (height x) m) 0 l <= fuel)%nat ->
    exists h', hfree_all (hfreeChunk r2 fuel) la ft e w h = Done (tt, w, h') /\ becomes h h' F [].
  Proof.
    induction l as [|c l IH]; intros ft p la F h fuel e w FR TY ST T ND HT; destruct la as [|a la]; cbn in T; try contradiction.
    - subst F. exists h. split; [reflexivity|apply becomes_refl].
    - destruct T as (F1 & F2 & T1 & T2 & ->). cbn [hfree_all]. unfold hbind at 1. cbn [fold_right] in HT.
      destruct (FR c (or_introl eq_refl) ft p a F1 h fuel e w) as (h1 & E1 & B1);
        [apply TY; left; reflexivity|apply ST; left; reflexivity|exact T1|exact (NoDup_app_l _ _ _ ND)|lia|].
      rewrite E1.
      destruct (IH ft p la F2 h1 fuel e w) as (h2 & E2 & B2).
      + intros c' I. apply FR. right. exact I.
      + intros c' I. apply TY. right. exact I.
      + intros c' I. apply ST. right. exact I.
      + apply (trees_frame h); [exact T2|]. intros x I. apply (becomes_kept _ _ _ _ _ B1); [exact (trees_live _ _ _ _ _ _ T2 I)|].
        intro J. exact (NoDup_app_disjoint _ _ _ x ND J I).
      + exact (NoDup_app_r _ _ _ ND).
      + lia.
      + exists h2. split; [exact E2|]. apply (becomes_trans h h1 h2 _ F2); [|exact B2].
        apply (becomes_equiv h h1 (F2 ++ F1) (F2 ++ [])); [apply becomes_frame; exact B1|intro; rewrite !in_app_iff; tauto|intro; rewrite in_app_iff; cbn; tauto].
  Qed.

  (** The body of IFF_freeGroup after the struct was read *)
  Lemma free_members : forall l g p arr la Fa Fl h fuel e w,
    (forall c, In c l -> frees c) -> (forall c, In c l -> Typed app g c) -> (forall c, In c l -> same_types r1 r2 g c) ->
    array_at h arr la Fa -> trees_at (tree_at h) l p la Fl -> NoDup (Fa ++ Fl) ->
    (fold_right (fun x m => Nat.max (height x) m) 0 l <= fuel)%nat ->
    exists h', (l <-h helements arr (List.length la) ;; hfree_all (hfreeChunk r2 fuel) l g ;;h hfree arr) e w h
      = Done (tt, w, h') /\ becomes h h' (Fa ++ Fl) [].
  Proof.
    intros l g p arr la Fa Fl h fuel e w FR TY ST A T ND HT. unfold hbind at 1. rewrite (helements_at h arr la Fa) by exact A.
    unfold hbind. destruct (free_all_at l g p la Fl h fuel e w FR TY ST T (NoDup_app_r _ _ _ ND) HT) as (h1 & E1 & B1). rewrite E1.
    assert (A1 : array_at h1 arr la Fa).
    { apply (array_frame h); [exact A|]. intros x I. apply (becomes_kept _ _ _ _ _ B1); [exact (array_live _ _ _ _ _ A I)|].
      intro J. exact (NoDup_app_disjoint _ _ _ x ND I J). }
    destruct (hfree_array h1 arr la Fa e w A1) as (h2 & E2 & B2). exists h2. split; [exact E2|].
    apply (becomes_trans h h1 h2 _ Fa); [|exact B2].
    apply (becomes_equiv h h1 (Fa ++ Fl) (Fa ++ [])); [apply becomes_frame; exact B1|tauto|intro; rewrite in_app_iff; cbn; tauto].
  Qed.

  Lemma free_tree : forall c, frees c.
  Proof.
    induction c as [i s d|i s g subs IH|i s g props subs IHp IHs|i s v] using chunk_tree_ind; intros ft p a F h fuel e w TY ST T ND HT;
      (destruct fuel as [|fuel]; [cbn in HT; lia|]); cbn [hfreeChunk]; pose proof (ST _ _ (Asked_here ft _)) as HERE; cbn [chunkId] in HERE; inversion TY; subst; cbn [tree_at] in T.
    - destruct T as (b & size & L1 & L2 & D & ->). unfold hbind at 1. rewrite (hchunk_at _ _ _ _ _ _ L1).
      unfold hbind at 1. unfold hlift, io at 1, lift. cbn [o_id]. rewrite <- HERE, RG, handler_data by assumption.
      match goal with A : app ft _ = None |- _ => rewrite A end.
      cbn [hfreeExtensionChunk]. unfold hfreeRawChunk. unfold hbind at 1. unfold hbind at 1. rewrite (hchunk_at _ _ _ _ _ _ L1).
      inversion ND as [|? ? NI ND1]; subst.
      assert (B1 : becomes h (release h b) [b] []).
      { split; [rewrite length_release; lia|]. split; [|split].
        - intros x A _. rewrite lookup_release. destruct (Nat.eqb_spec x b) as [->|N]; [exfalso; apply A; left; reflexivity|reflexivity].
        - intros x [<-|[]] _. rewrite lookup_release, Nat.eqb_refl. reflexivity.
        - intros x []. }
      rewrite hfree_at by congruence.
      destruct (release_root h _ a [b] B1 NI) as (h' & E & B); [congruence|]. exists h'. rewrite E. split; [reflexivity|exact B].
    - destruct T as (arr & la & Fa & Fl & L & A & T & ->). inversion ND as [|? ? NI ND1]; subst.
      unfold hbind at 1. rewrite (hchunk_at _ _ _ _ _ _ L). unfold hbind at 1. unfold hlift, io at 1, lift. cbn [o_id]. rewrite <- HERE, RG.
      destruct (WriteProofs.group_handler app ft i) as (k & E & HI); [assumption|]. rewrite E.
      assert (X : hfreeExtensionChunk (hfreeChunk r2 fuel) k a = hfreeGroup (hfreeChunk r2 fuel) a) by (destruct HI as [<-|[<-|[<-|[]]]]; reflexivity).
      rewrite X. unfold hfreeGroup. unfold hbind at 1. unfold hbind at 1. rewrite (hchunk_at _ _ _ _ _ _ L). cbn [height] in HT.
      destruct (free_members subs g (Some a) arr la Fa Fl h fuel e w) as (h1 & E1 & B1); [intros; apply IH; assumption|assumption|intros x I; exact (st_group _ _ _ _ _ _ _ _ ST I)|exact A|exact T|exact ND1|lia|].
      rewrite E1. destruct (release_root h h1 a (Fa ++ Fl) B1 NI) as (h' & E2 & B); [congruence|]. exists h'. rewrite E2. split; [reflexivity|exact B].
    - destruct T as (arr & la & Fa & Fl & parr & pa & Fb & Fp & L & A & T & B & Q & ->). inversion ND as [|? ? NI ND1]; subst.
      unfold hbind at 1. rewrite (hchunk_at _ _ _ _ _ _ L). unfold hbind at 1. unfold hlift, io at 1, lift. cbn [o_id]. rewrite <- HERE, RG, handler_LIST.
      cbn [hfreeExtensionChunk]. unfold hfreeList, hfreeGroup. do 3 (unfold hbind at 1). rewrite (hchunk_at _ _ _ _ _ _ L). cbn [height] in HT.
      destruct (free_members subs g (Some a) arr la Fa Fl h fuel e w) as (h1 & E1 & B1); [intros; apply IHs; assumption|assumption|intros x I; exact (st_member _ _ _ _ _ _ _ _ _ ST I)|exact A|exact T|exact (NoDup_app_l _ _ _ ND1)|lia|].
      rewrite E1.
      assert (K : forall x, lookup h x <> None -> ~ In x (Fa ++ Fl) -> lookup h1 x = lookup h x) by (intros; apply (becomes_kept _ _ _ _ _ B1); assumption).
      assert (DJ : forall x, In x (Fb ++ Fp) -> ~ In x (Fa ++ Fl)) by (intros x I J; exact (NoDup_app_disjoint _ _ _ x ND1 J I)).
      assert (L1 : lookup h1 a = lookup h a) by (apply K; [congruence|intro I; apply NI; apply in_or_app; left; exact I]).
      unfold hbind at 1. rewrite (hchunk_at h1 a _ _ _ _ (eq_trans L1 L)).
      destruct (free_members props g (Some a) parr pa Fb Fp h1 fuel e w) as (h2 & E2 & B2).
      + intros; apply IHp; assumption.
      + intros c I. match goal with X : forall c, In c props -> _ |- _ => apply (X c I) end.
      + intros x I. exact (st_prop _ _ _ _ _ _ _ _ _ ST I).
      + apply (array_frame h); [exact B|]. intros x I. apply K; [exact (array_live _ _ _ _ _ B I)|apply DJ; apply in_or_app; left; exact I].
      + apply (trees_frame h); [exact Q|]. intros x I. apply K; [exact (trees_live _ _ _ _ _ _ Q I)|apply DJ; apply in_or_app; right; exact I].
      + exact (NoDup_app_r _ _ _ ND1).
      + lia.
      + rewrite E2.
        assert (B12 : becomes h h2 ((Fa ++ Fl) ++ Fb ++ Fp) []).
        { apply (becomes_trans h h1 h2 _ (Fb ++ Fp)); [|exact B2].
          apply (becomes_equiv h h1 ((Fb ++ Fp) ++ (Fa ++ Fl)) ((Fb ++ Fp) ++ [])); [apply becomes_frame; exact B1| |]; intro; rewrite !in_app_iff; cbn; tauto. }
        destruct (release_root h h2 a _ B12 NI) as (h' & E3 & B3); [congruence|]. exists h'. rewrite E3. split; [reflexivity|exact B3].
    - destruct T as [L ->]. unfold hbind at 1. rewrite (hchunk_at _ _ _ _ _ _ L).
      unfold hbind at 1. unfold hlift, io at 1, lift. cbn [o_id]. rewrite <- HERE, RG, handler_data by assumption.
      match goal with A : app ft _ = Some _ |- _ => rewrite A end. cbn [hfreeExtensionChunk]. unfold hbind at 1. unfold hret.
      destruct (release_root h h a [] (becomes_refl h [])) as (h' & E & B); [intros []|congruence|]. exists h'. rewrite E. split; [reflexivity|exact B].
  Qed.

  Lemma freeTree_at : forall c ft p a F h e w, Typed app ft c -> same_types r1 r2 ft c -> tree_at h c p a F -> NoDup F ->
    exists h', hfreeTree r2 a ft e w h = Done (tt, w, h') /\ becomes h h' F [].
  Proof.
    intros c ft p a F h e w TY ST T ND. unfold hfreeTree. apply (free_tree c ft p a F h); try assumption.
    pose proof (tree_depth h c p a F T ND). lia.
  Qed.
End Freeing.
