(** * Adding chunks to groups and filling raw chunks: pointers against trees *)

From Coq Require Import ZArith List Bool String Lia.
From Coq Require Import Strings.Byte.
From Verif Require Import Machine Io Types Build Read Iff Spec Lemmas IoProofs SoundProofs
  Heap HeapSpec HeapProofs HeapBuildProofs HeapReadProofs.
Import ListNotations.
Open Scope Z_scope.

(** Attaching to something that is not a group is type confusion in both
    models. *)
Lemma attach_total : forall group c p pc a ac F Fc h,
  tree_at h group p a F -> tree_at h c pc ac Fc -> NoDup (F ++ Fc) ->
  grows (IFF_attachToGroup group c) (hattachToGroup a ac) h p a F c ac Fc.
Proof.
  intros group c p pc a ac F Fc h TG TC ND.
  destruct (as_group group) as [x|] eqn:AG; [apply (attach_at _ _ _ pc); try assumption; congruence|].
  intros e w. unfold IFF_attachToGroup. rewrite AG. destruct group as [i s d|i s g l|i s g ps l|i s v]; try discriminate AG; cbn [tree_at] in TG.
  - destruct TG as (b & size & L & _). unfold undefined, hattachToGroup. rewrite (hbind_done _ _ _ _ _ _ _ _ _ _ (hchunk_at _ _ _ _ _ _ L)). reflexivity.
  - destruct TG as (L & _). unfold undefined, hattachToGroup. rewrite (hbind_done _ _ _ _ _ _ _ _ _ _ (hchunk_at _ _ _ _ _ _ L)). reflexivity.
Qed.

Lemma attachProp_total : forall l c p pc a ac F Fc h,
  tree_at h l p a F -> tree_at h c pc ac Fc -> NoDup (F ++ Fc) ->
  grows (addPropToList l c) (hattachProp a ac) h p a F c ac Fc.
Proof.
  intros group c p pc a ac F Fc h TG TC ND. destruct group as [i s d|i s g l|i s g ps l|i s v].
  3:{ apply (attachProp_at _ _ _ pc); try assumption. eauto 10. }
  all: intros e w; unfold addPropToList, undefined, hattachProp; cbn [tree_at] in TG.
  - destruct TG as (b & size & L & _). rewrite (hbind_done _ _ _ _ _ _ _ _ _ _ (hchunk_at _ _ _ _ _ _ L)). reflexivity.
  - destruct TG as (arr & la & Fa & Fl & L & _). rewrite (hbind_done _ _ _ _ _ _ _ _ _ _ (hchunk_at _ _ _ _ _ _ L)). reflexivity.
  - destruct TG as (L & _). rewrite (hbind_done _ _ _ _ _ _ _ _ _ _ (hchunk_at _ _ _ _ _ _ L)). reflexivity.
Qed.

(** The size update that follows *)
Lemma grow_resize : forall (m : M chunk) (hm : H unit) h p a F c ac Fc,
  (forall e w g w', m e w = Done (g, w') -> as_group g <> None) -> In a F -> NoDup (F ++ Fc) ->
  grows m hm h p a F c ac Fc ->
  grows (g <- m ;; s <- lift (IFF_incrementChunkSize (chunkSize g) c) ;; ret (set_chunkSize g s))
        (hm ;;h '(hd, _) <-h hchunk a ;; s <-h hincrementChunkSize (o_size hd) ac ;; hset_size a s) h p a F c ac Fc.
Proof.
  intros m hm h p a F c ac Fc AG IA ND G e w. specialize (G e w). rewrite bind_eq, hbind_eq.
  specialize (AG e w). destruct (m e w) as [[g w1]|u|]; [|rewrite G; reflexivity|rewrite G; reflexivity].
  destruct G as (h1 & F1 & -> & T1 & ND1 & B1 & TC1). specialize (AG g w1 eq_refl).
  destruct (tree_header _ _ _ _ _ T1) as (b & L1). rewrite (hbind_done _ _ _ _ _ _ _ _ _ _ (hchunk_at _ _ _ _ _ _ L1)). cbn [o_size].
  rewrite bind_eq, hbind_eq, (increment_at h1 c (Some a) ac Fc) by exact TC1. unfold lift.
  destruct (IFF_incrementChunkSize (chunkSize g) c) as [s|u|]; cbn [of_outcome]; [|reflexivity|reflexivity]. unfold ret.
  destruct (resize_at h1 g p a F1 s e w1 AG T1 ND1) as (h2 & -> & T2 & B2 & K2). exists h2, F1. split; [reflexivity|].
  split; [exact T2|]. split; [exact ND1|]. split; [exact (becomes_trans _ _ _ _ _ _ B1 B2)|].
  apply (tree_frame h1); [exact TC1|]. intros x I. apply K2. intros ->. exact (NoDup_app_disjoint _ _ _ _ ND IA I).
Qed.

Lemma tree_root_in : forall h c p a F, tree_at h c p a F -> In a F.
Proof. intros h c p a F T. destruct (tree_root _ _ _ _ _ T) as (F' & ->). left. reflexivity. Qed.

Lemma attach_group : forall group c e w g w', IFF_attachToGroup group c e w = Done (g, w') -> as_group g <> None.
Proof.
  intros group c e w g w' E. unfold IFF_attachToGroup in E. destruct (as_group group) as [[t subs]|] eqn:AG; [|discriminate].
  rewrite bind_eq in E. destruct (malloc _ e w) as [[[] w1]|u|]; try discriminate. injection E as <- <-.
  destruct group; cbn in *; congruence.
Qed.

Lemma attachProp_group : forall group c e w g w', addPropToList group c e w = Done (g, w') -> as_group g <> None.
Proof.
  intros group c e w g w' E. unfold addPropToList in E. destruct group as [i s d|i s t l|i s t ps l|i s v]; try discriminate.
  rewrite bind_eq in E. destruct (malloc _ e w) as [[[] w1]|u|]; try discriminate. injection E as <- <-. cbn. discriminate.
Qed.

Theorem add_at : forall group c p pc a ac F Fc h,
  tree_at h group p a F -> tree_at h c pc ac Fc -> NoDup (F ++ Fc) ->
  grows (IFF_addToGroup group c) (haddToGroup a ac) h p a F c ac Fc.
Proof.
  intros group c p pc a ac F Fc h TG TC ND. apply grow_resize; [apply attach_group|exact (tree_root_in _ _ _ _ _ TG)|exact ND|].
  exact (attach_total _ _ _ pc _ _ _ _ _ TG TC ND).
Qed.

Theorem addProp_at : forall group c p pc a ac F Fc h,
  tree_at h group p a F -> tree_at h c pc ac Fc -> NoDup (F ++ Fc) ->
  grows (IFF_addPropToList group c) (haddPropToList a ac) h p a F c ac Fc.
Proof.
  intros group c p pc a ac F Fc h TG TC ND. apply grow_resize; [apply attachProp_group|exact (tree_root_in _ _ _ _ _ TG)|exact ND|].
  exact (attachProp_total _ _ _ pc _ _ _ _ _ TG TC ND).
Qed.

(** Deriving the contents type *)
Lemma contents_at : forall cat c p pc a ac F Fc h e w,
  tree_at h cat p a F -> tree_at h c pc ac Fc -> NoDup (F ++ Fc) ->
  match updateContentsType cat c with
  | Done cat' => exists h', hupdateContentsType a ac e w h = Done (tt, w, h') /\ tree_at h' cat' p a F /\
      tree_at h' c pc ac Fc /\ becomes h h' F F
  | Undefined u => hupdateContentsType a ac e w h = Undefined u
  | OutOfFuel => hupdateContentsType a ac e w h = OutOfFuel
  end.
Proof.
  intros cat c p pc a ac F Fc h e w TG TC ND. pose proof (NoDup_app_l _ _ _ ND) as NDF.
  destruct (tree_header _ _ _ _ _ TC) as (bc & LC). destruct (tree_header _ _ _ _ _ TG) as (b & L).
  unfold hupdateContentsType. rewrite (hbind_done _ _ _ _ _ _ _ _ _ _ (hchunk_at _ _ _ _ _ _ LC)). cbn [o_id].
  unfold updateContentsType. destruct (checkValidCATSubChunkId (chunkId c)); [|exists h; split; [reflexivity|]; split; [exact TG|]; split; [exact TC|apply becomes_refl]].
  assert (KC : forall g, tree_at (store h a (OChunk (mkHeader p (chunkId cat) (chunkSize cat)) (set_type b g))) c pc ac Fc).
  { intro g. apply (tree_frame h); [exact TC|]. intros x I. rewrite lookup_store by congruence. destruct (Nat.eqb_spec x a) as [->|]; [|reflexivity].
    exfalso. exact (NoDup_app_disjoint _ _ _ _ ND (tree_root_in _ _ _ _ _ TG) I). }
  assert (RT : forall g, as_group cat <> None -> exists h', hstore a (OChunk (mkHeader p (chunkId cat) (chunkSize cat)) (set_type b g)) e w h = Done (tt, w, h') /\ tree_at h' (set_groupType cat g) p a F /\ tree_at h' c pc ac Fc /\ becomes h h' F F).
  { intros g AG. destruct (retype_at h cat p a F g _ b AG TG NDF L) as [R1 R2]. eexists. split; [apply hstore_at; congruence|]. split; [exact R1|]. split; [apply KC|exact R2]. }
  destruct (as_group c) as [[gt subs]|] eqn:GC.
  2:{ destruct c as [i s d|i s g l|i s g ps l|i s v]; try discriminate GC; cbn [tree_at] in TC.
      - destruct TC as (x & size & L' & _). rewrite LC in L'. injection L' as ->. destruct (as_group cat) as [[? ?]|]; reflexivity.
      - destruct TC as (L' & _). rewrite LC in L'. injection L' as ->. destruct (as_group cat) as [[? ?]|]; reflexivity. }
  assert (TB : type_of bc = Some gt).
  { edestruct (tree_type h c pc ac Fc) as (X & _); [congruence|exact TC|exact LC|]. rewrite X. unfold gtype. rewrite GC. reflexivity. }
  assert (RE : forall (k : Z -> H unit), match bc with BGroup groupType _ _ | BList groupType _ _ _ _ => k groupType | _ => hundefined UB_type_confusion end = k gt).
  { intro k. destruct bc; cbn [type_of] in TB; try discriminate; injection TB as <-; reflexivity. }
  rewrite RE. rewrite (hbind_done _ _ _ _ _ _ _ _ _ _ (hchunk_at _ _ _ _ _ _ L)).
  destruct cat as [i s d|i s g l|i s g ps l|i s v]; cbn [as_group].
  - cbn [tree_at] in TG. destruct TG as (x & size & L' & _). rewrite L in L'. injection L' as ->. reflexivity.
  - specialize (fun g' => RT g' ltac:(discriminate)). cbn [tree_at] in TG. pose proof TG as (arr & la & Fa & Fl & L' & _ & TT & _). rewrite L in L'. injection L' as ->.
    cbn [set_type] in RT. replace (zlength l =? 0) with (Nat.eqb (List.length la) 0)
      by (unfold zlength; rewrite <- (trees_length _ _ _ _ _ TT); destruct la; reflexivity).
    destruct (Nat.eqb (List.length la) 0); [apply RT|]. destruct (negb (g =? IFF_ID_JJJJ) && negb (g =? gt)); [apply RT|].
    exists h. split; [reflexivity|]. split; [exact TG|]. split; [exact TC|apply becomes_refl].
  - specialize (fun g' => RT g' ltac:(discriminate)). cbn [tree_at] in TG. pose proof TG as (arr & la & Fa & Fl & parr & pa & Fb & Fp & L' & _ & TT & _). rewrite L in L'. injection L' as ->.
    cbn [set_type] in RT. replace (zlength l =? 0) with (Nat.eqb (List.length la) 0)
      by (unfold zlength; rewrite <- (trees_length _ _ _ _ _ TT); destruct la; reflexivity).
    destruct (Nat.eqb (List.length la) 0); [apply RT|]. destruct (negb (g =? IFF_ID_JJJJ) && negb (g =? gt)); [apply RT|].
    exists h. split; [reflexivity|]. split; [exact TG|]. split; [exact TC|apply becomes_refl].
  - cbn [tree_at] in TG. destruct TG as (L' & _). rewrite L in L'. injection L' as ->. reflexivity.
Qed.

Theorem addToCAT_at : forall cat c p pc a ac F Fc h,
  tree_at h cat p a F -> tree_at h c pc ac Fc -> NoDup (F ++ Fc) ->
  grows (IFF_addToCATAndUpdateContentsType cat c) (haddToCATAndUpdateContentsType a ac) h p a F c ac Fc.
Proof.
  intros cat c p pc a ac F Fc h TG TC ND e w. unfold IFF_addToCATAndUpdateContentsType, haddToCATAndUpdateContentsType.
  pose proof (contents_at cat c p pc a ac F Fc h e w TG TC ND) as U. rewrite bind_eq, hbind_eq. unfold lift.
  destruct (updateContentsType cat c) as [cat'|u|]; [|rewrite U; reflexivity|rewrite U; reflexivity].
  destruct U as (h1 & -> & T1 & TC1 & B1). pose proof (add_at cat' c p pc a ac F Fc h1 T1 TC1 ND e w) as A.
  destruct (IFF_addToGroup cat' c e w) as [[g w1]|u|]; [|exact A|exact A].
  destruct A as (h2 & F2 & E & T2 & ND2 & B2 & TC2). exists h2, F2. split; [exact E|]. split; [exact T2|]. split; [exact ND2|]. split; [|exact TC2].
  apply (becomes_trans _ h1 _ _ (F ++ Fc)); [|exact B2].
  apply (becomes_equiv _ _ (Fc ++ F) (Fc ++ F)); [apply becomes_frame; exact B1| |]; intro x; rewrite !in_app_iff; tauto.
Qed.
