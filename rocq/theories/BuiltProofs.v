(** * Trees built through the API *)

From Coq Require Import ZArith List Bool String Lia.
From Coq Require Import Strings.Byte.
From Verif Require Import Machine Io Types Build Check Iff Spec Lemmas IoProofs RegProofs WriteProofs EncodeProofs IdProofs
  CheckProofs CompareProofs ConfProofs.
Import ListNotations.
Open Scope Z_scope.

(** [Built app ft c]: [c] is the result of a sequence of API calls, each on any
    host and in any state, that creates chunks with valid IDs and adds
    permitted, finished chunks to groups.  [ft] is the type of the group it is
    meant for. *)
Inductive Built (app : apps) : Z -> chunk -> Prop :=
(* a raw chunk, with the data set or copied *)
| Built_raw : forall ft i n e w w' c0 data c,
    ValidId i -> ~ In i group_ids -> app ft i = None ->
    IFF_createRawChunk i n e w = Done (Some c0, w') -> IFF_setRawChunkData c0 data (zlength data) = Done c ->
    Built app ft c
| Built_copy : forall ft i n e w w' c0 data c,
    ValidId i -> ~ In i group_ids -> app ft i = None -> 0 <= n ->
    IFF_createRawChunk i n e w = Done (Some c0, w') -> IFF_copyDataToRawChunkData e c0 data = Done c ->
    Built app ft c
(* a chunk made by the application *)
| Built_fields : forall ft i s spec vals,
    ValidId i -> ~ In i group_ids -> app ft i = Some spec -> kinds_match spec vals ->
    fs_check spec (map snd vals) = None -> 0 <= s ->
    Built app ft (CFields i s vals)
(* empty groups *)
| Built_form : forall ft g e w c w', ValidFormType g ->
    IFF_createEmptyForm g e w = Done (Some c, w') -> Built app ft c
| Built_cat : forall ft g e w c w', ValidId g ->
    IFF_createEmptyCATWithContentsType g e w = Done (Some c, w') -> Built app ft c
| Built_list : forall ft g e w c w', ValidId g ->
    IFF_createEmptyListWithContentsType g e w = Done (Some c, w') -> Built app ft c
| Built_prop : forall ft g e w c w', ValidFormType g ->
    IFF_createEmptyProp g e w = Done (Some c, w') -> Built app ft c
(* additions *)
| Built_add_form : forall ft f g c e w f' w', Built app ft f -> chunkId f = FORM_ID -> group_type_of f = Some g ->
    Built app g c -> chunkId c <> PROP_ID ->
    IFF_addToGroup f c e w = Done (f', w') -> Built app ft f'
| Built_add_prop : forall ft f g c e w f' w', Built app ft f -> chunkId f = PROP_ID -> group_type_of f = Some g ->
    Built app g c -> ~ In (chunkId c) group_ids ->
    IFF_addToGroup f c e w = Done (f', w') -> Built app ft f'
| Built_add_cat : forall ft f g c e w f' w', Built app ft f -> In (chunkId f) [CAT_ID; LIST_ID] -> group_type_of f = Some g ->
    Built app g c -> cat_member g c ->
    IFF_addToGroup f c e w = Done (f', w') -> Built app ft f'
| Built_add_update : forall ft f ft' c e w f' w', Built app ft f -> In (chunkId f) [CAT_ID; LIST_ID] ->
    Built app ft' c -> In (chunkId c) [FORM_ID; CAT_ID; LIST_ID] ->
    IFF_addToCATAndUpdateContentsType f c e w = Done (f', w') -> Built app ft f'
| Built_add_list_prop : forall ft f g c e w f' w', Built app ft f -> chunkId f = LIST_ID -> group_type_of f = Some g ->
    Built app g c -> chunkId c = PROP_ID ->
    IFF_addPropToList f c e w = Done (f', w') -> Built app ft f'.

(** ** The calls, seen from outside *)

Lemma createGroup_inv : forall i s g e w c w', IFF_createGroup i s g e w = Done (Some c, w') -> c = CGroup i s g [].
Proof.
  intros i s g e w c w' H. unfold IFF_createGroup, bind, malloc, ret in H.
  match type of H with context [if ?b then Some _ else _] => destruct b end; [injection H as <- _; reflexivity|discriminate].
Qed.
Lemma createList_inv : forall s g e w c w', IFF_createList s g e w = Done (Some c, w') -> c = CList LIST_ID s g [] [].
Proof.
  intros s g e w c w' H. unfold IFF_createList, bind, malloc, ret in H.
  match type of H with context [if ?b then Some _ else _] => destruct b end; [injection H as <- _; reflexivity|discriminate].
Qed.
Lemma createRaw_inv : forall i n e w c w', IFF_createRawChunk i n e w = Done (Some c, w') -> c = CRaw i n None.
Proof.
  intros i n e w c w' H. unfold IFF_createRawChunk, bind, ask, malloc, ret in H.
  match type of H with match (if ?b then _ else _) _ _ with _ => _ end = _ => destruct b | (if ?b then _ else _) _ _ = _ => destruct b end; [|discriminate].
  match type of H with context [if ?b then Some _ else _] => destruct b end; [injection H as <- _; reflexivity|discriminate].
Qed.

Lemma addToGroup_inv : forall f c e w f' w', IFF_addToGroup f c e w = Done (f', w') ->
  exists g subs s, as_group f = Some (g, subs) /\ IFF_incrementChunkSize (chunkSize f) c = Done s /\
    f' = set_chunkSize (set_subs f (subs ++ [c])) s.
Proof.
  intros f c e w f' w' H. unfold IFF_addToGroup, IFF_attachToGroup, bind in H.
  destruct (as_group f) as [[g subs]|] eqn:A; [|discriminate]. unfold malloc in H.
  match type of H with context [if ?b then ret _ else _] => destruct b end; [|discriminate].
  cbn [ret] in H. unfold ret, lift in H.
  assert (E : chunkSize (set_subs f (subs ++ [c])) = chunkSize f) by (destruct f; reflexivity).
  rewrite E in H. destruct (IFF_incrementChunkSize (chunkSize f) c) as [s| |] eqn:I; [|discriminate|discriminate].
  injection H as <- _. exists g, subs, s. auto.
Qed.

Lemma addPropToList_inv : forall f c e w f' w', IFF_addPropToList f c e w = Done (f', w') ->
  exists i z g props subs s, f = CList i z g props subs /\ IFF_incrementChunkSize z c = Done s /\
    f' = CList i s g (props ++ [c]) subs.
Proof.
  intros f c e w f' w' H. unfold IFF_addPropToList, addPropToList, bind in H.
  destruct f as [i z d|i z g l|i z g pp l|i z v]; try discriminate. unfold malloc in H.
  match type of H with context [if ?b then ret _ else _] => destruct b end; [|discriminate].
  unfold ret, lift in H. cbn [chunkSize] in H.
  destruct (IFF_incrementChunkSize z c) as [s| |] eqn:I; [|discriminate|discriminate].
  injection H as <- _. exists i, z, g, pp, l, s. auto.
Qed.

(** Both additions to a CAT or LIST, with the new contents type. *)
Lemma addUpdate_inv : forall f c e w f' w', In (chunkId c) [FORM_ID; CAT_ID; LIST_ID] ->
  IFF_addToCATAndUpdateContentsType f c e w = Done (f', w') ->
  exists g subs gc lc g' s, as_group f = Some (g, subs) /\ as_group c = Some (gc, lc) /\
    (g' = gc /\ subs = [] \/ g' = JJJJ_ID \/ g' = g /\ g = gc) /\
    IFF_incrementChunkSize (chunkSize f) c = Done s /\
    f' = set_chunkSize (set_subs (set_groupType f g') (subs ++ [c])) s.
Proof.
  intros f c e w f' w' V H. unfold IFF_addToCATAndUpdateContentsType, bind, lift, updateContentsType in H.
  rewrite (proj2 (valid_cat_id _) V) in H.
  destruct (as_group f) as [[g subs]|] eqn:A; [|discriminate]. destruct (as_group c) as [[gc lc]|] eqn:C; [|discriminate].
  assert (SG : forall x, as_group (set_groupType f x) = Some (x, subs) /\ chunkSize (set_groupType f x) = chunkSize f)
    by (intro x; destruct f; cbn in *; try discriminate; injection A as <- <-; split; reflexivity).
  assert (SAME : set_groupType f g = f) by (destruct f; cbn in *; try discriminate; injection A as <- <-; reflexivity).
  change IFF_ID_JJJJ with JJJJ_ID in H.
  assert (X : forall g' w2, IFF_addToGroup (set_groupType f g') c e w2 = Done (f', w') ->
     (g' = gc /\ subs = [] \/ g' = JJJJ_ID \/ g' = g /\ g = gc) ->
     exists g subs gc lc g' s, Some (g, subs) = Some (g, subs) /\ as_group f = Some (g, subs) /\ as_group c = Some (gc, lc) /\
       (g' = gc /\ subs = [] \/ g' = JJJJ_ID \/ g' = g /\ g = gc) /\
       IFF_incrementChunkSize (chunkSize f) c = Done s /\
       f' = set_chunkSize (set_subs (set_groupType f g') (subs ++ [c])) s).
  { intros g' w2 HA HG. destruct (addToGroup_inv _ _ _ _ _ _ HA) as (g2 & s2 & s & E1 & E2 & E3).
    rewrite (proj1 (SG g')) in E1. injection E1 as <- <-. rewrite (proj2 (SG g')) in E2.
    exists g, subs, gc, lc, g', s. rewrite A, C. auto 10. }
  assert (Y : exists g' w2, IFF_addToGroup (set_groupType f g') c e w2 = Done (f', w') /\
     (g' = gc /\ subs = [] \/ g' = JJJJ_ID \/ g' = g /\ g = gc)).
  { destruct (Z.eqb_spec (zlength subs) 0) as [Z0|NZ].
    - exists gc, w. split; [exact H|]. left. split; [reflexivity|]. destruct subs; [reflexivity|]. unfold zlength in Z0. cbn in Z0. lia.
    - destruct (Z.eqb_spec g JJJJ_ID) as [J|J]; cbn [negb andb] in H.
      + exists g, w. rewrite SAME. split; [exact H|]. auto.
      + destruct (Z.eqb_spec g gc) as [G|G]; cbn [negb] in H.
        * exists g, w. rewrite SAME. split; [exact H|]. auto.
        * exists JJJJ_ID, w. split; [exact H|]. auto. }
  destruct Y as (g' & w2 & Y1 & Y2). destruct (X g' w2 Y1 Y2) as (a & b & c1 & d & g1 & s & _ & Q).
  destruct Q as (Q1 & Q2 & Q3 & Q4 & Q5). exists a, b, c1, d, g1, s. rewrite <- A, <- C. auto 10.
Qed.

(** ** Shapes *)

Lemma encoded_app : forall l c, sum (map encoded_size (l ++ [c])) = sum (map encoded_size l) + encoded_size c.
Proof.
  induction l as [|x l IH]; intro c; cbn [map sum fold_right Datatypes.app]; change (fold_right Z.add 0) with sum; [lia|].
  rewrite IH. lia.
Qed.
Lemma body_snoc : forall l c, body_size (l ++ [c]) = body_size l + physical (chunkSize c).
Proof. intros. rewrite body_size_app, body_size_cons. change (body_size []) with 0. lia. Qed.

Lemma in_snoc : forall A (P : A -> Prop) l c, (forall x, In x l -> P x) -> P c -> forall x, In x (l ++ [c]) -> P x.
Proof. intros A P l c H C x I. apply in_app_or in I. destruct I as [I|[<-|[]]]; auto. Qed.

(** The type of the surrounding group does not matter to a group. *)
Lemma Typed_any : forall app ft ft' c, In (chunkId c) group_ids -> Typed app ft c -> Typed app ft' c.
Proof. intros app ft ft' c I T. inversion T; subst; cbn [chunkId] in I; try contradiction; constructor; assumption. Qed.
Lemma Conforms_any : forall app ft ft' c, In (chunkId c) group_ids -> Conforms app ft c -> Conforms app ft' c.
Proof.
  intros app ft ft' c I T. inversion T; subst; cbn [chunkId] in I; try contradiction;
    solve [apply Conf_form; auto | apply Conf_cat; auto | apply Conf_prop; auto | apply Conf_list; auto].
Qed.

Lemma cat_ids_group : forall i, In i [FORM_ID; CAT_ID; LIST_ID] -> In i group_ids.
Proof. intros i H. unfold group_ids. simpl in *. tauto. Qed.

Lemma InTree_group_inv : forall x i s g l, InTree x (CGroup i s g l) -> x = CGroup i s g l \/ exists c, In c l /\ InTree x c.
Proof. intros x i s g l H. inversion H; subst; eauto. Qed.
Lemma InTree_list_inv : forall x i s g p l, InTree x (CList i s g p l) ->
  x = CList i s g p l \/ exists c, (In c p \/ In c l) /\ InTree x c.
Proof. intros x i s g p l H. inversion H; subst; eauto. Qed.

Lemma LeafSizes_group : forall i s g l, (forall c, In c l -> LeafSizes c) -> LeafSizes (CGroup i s g l).
Proof. intros i s g l H x I Q. apply InTree_group_inv in I. destruct I as [->|(c & HI & I)]; [contradiction|]. exact (H c HI x I Q). Qed.
Lemma LeafSizes_list : forall i s g p l, (forall c, In c p \/ In c l -> LeafSizes c) -> LeafSizes (CList i s g p l).
Proof. intros i s g p l H x I Q. apply InTree_list_inv in I. destruct I as [->|(c & HI & I)]; [contradiction|]. exact (H c HI x I Q). Qed.
Lemma LeafSizes_members : forall f g subs, as_group f = Some (g, subs) -> LeafSizes f -> forall c, In c subs -> LeafSizes c.
Proof.
  intros f g subs A L c HI. destruct f as [i z d|i z g0 l|i z g0 pp l|i z v]; cbn in A; try discriminate; injection A as <- <-;
    (eapply LeafSizes_sub; [exact L|]); intros; [eapply In_group|eapply In_list_sub]; eassumption.
Qed.

(** Adding a finished chunk to a group or LIST keeps the declared sizes exact. *)
Lemma grow_leaves : forall f g subs c s g', as_group f = Some (g, subs) -> LeafSizes f -> LeafSizes c ->
  LeafSizes (set_chunkSize (set_subs (set_groupType f g') (subs ++ [c])) s) /\
  encoded_size (set_chunkSize (set_subs (set_groupType f g') (subs ++ [c])) s) = encoded_size f + encoded_size c.
Proof.
  intros f g subs c s g' A L C. destruct f as [i z d|i z g0 l|i z g0 pp l|i z v]; cbn in A; try discriminate; injection A as <- <-;
    cbn [set_groupType set_subs set_chunkSize encoded_size]; rewrite encoded_app; (split; [|lia]).
  - apply LeafSizes_group. apply in_snoc; [|exact C]. intros x HI. eapply LeafSizes_sub; [exact L|]. intros; eapply In_group; eassumption.
  - apply LeafSizes_list. intros x [HI|HI].
    + eapply LeafSizes_sub; [exact L|]. intros; eapply In_list_prop; eassumption.
    + revert x HI. apply in_snoc; [|exact C]. intros x HI. eapply LeafSizes_sub; [exact L|]. intros; eapply In_list_sub; eassumption.
Qed.

Lemma grow_props : forall i z g props subs c s, LeafSizes (CList i z g props subs) -> LeafSizes c ->
  LeafSizes (CList i s g (props ++ [c]) subs) /\
  encoded_size (CList i s g (props ++ [c]) subs) = encoded_size (CList i z g props subs) + encoded_size c.
Proof.
  intros i z g props subs c s L C. cbn [encoded_size]. rewrite encoded_app. split; [|lia].
  apply LeafSizes_list. intros x [HI|HI].
  - revert x HI. apply in_snoc; [|exact C]. intros x HI. eapply LeafSizes_sub; [exact L|]. intros; eapply In_list_prop; eassumption.
  - eapply LeafSizes_sub; [exact L|]. intros; eapply In_list_sub; eassumption.
Qed.

Lemma same_type : forall f g subs, as_group f = Some (g, subs) -> set_groupType f g = f.
Proof. intros f g subs A. destruct f; cbn in *; try discriminate; injection A as <- <-; reflexivity. Qed.
Lemma group_type_as : forall f g, group_type_of f = Some g -> exists subs, as_group f = Some (g, subs).
Proof. intros f g H. destruct f; cbn in *; try discriminate; injection H as <-; eauto. Qed.

Lemma Built_leaves : forall app ft c, Built app ft c -> LeafSizes c.
Proof.
  assert (LF : forall x, is_leaf x -> 0 <= chunkSize x -> LeafSizes x).
  { intros x Q N y I. inversion I; subst; try contradiction; auto. }
  assert (EG : forall i s g, LeafSizes (CGroup i s g [])) by (intros; apply LeafSizes_group; intros ? []).
  assert (EL : forall i s g, LeafSizes (CList i s g [] [])) by (intros; apply LeafSizes_list; intros ? [[]|[]]).
  intros app ft c B. induction B.
  - apply createRaw_inv in H2. subst. cbn in H3. injection H3 as <-. apply LF; [exact I|]. cbn. unfold zlength. lia.
  - apply createRaw_inv in H3. subst. unfold IFF_copyDataToRawChunkData in H4.
    match type of H4 with (if ?b then _ else _) = _ => destruct b end; [discriminate|]. injection H4 as <-. apply LF; [exact I|]. exact H2.
  - apply LF; [exact I|]. assumption.
  - apply createGroup_inv in H0. subst. apply EG.
  - apply createGroup_inv in H0. subst. apply EG.
  - apply createList_inv in H0. subst. apply EL.
  - apply createGroup_inv in H0. subst. apply EG.
  - apply addToGroup_inv in H2. destruct H2 as (g2 & subs & s & A & _ & ->). rewrite <- (same_type _ _ _ A) at 1.
    apply (grow_leaves f g2 subs c s g2 A IHB1 IHB2).
  - apply addToGroup_inv in H2. destruct H2 as (g2 & subs & s & A & _ & ->). rewrite <- (same_type _ _ _ A) at 1.
    apply (grow_leaves f g2 subs c s g2 A IHB1 IHB2).
  - apply addToGroup_inv in H2. destruct H2 as (g2 & subs & s & A & _ & ->). rewrite <- (same_type _ _ _ A) at 1.
    apply (grow_leaves f g2 subs c s g2 A IHB1 IHB2).
  - apply addUpdate_inv in H1; [|assumption]. destruct H1 as (g & subs & gc & lc & g' & s & A & _ & _ & _ & ->).
    apply (grow_leaves f g subs c s g' A IHB1 IHB2).
  - apply addPropToList_inv in H2. destruct H2 as (i & z & g2 & props & subs & s & -> & _ & ->).
    apply (grow_props i z g2 props subs c s IHB1 IHB2).
Qed.

(** Sizes: what IFF_addTo* computes. *)
Lemma grown_size : forall app ft ft' f c s, Conforms app ft f -> Conforms app ft' c -> LeafSizes f -> LeafSizes c ->
  encoded_size f + encoded_size c <= INT_MAX -> In (chunkId f) group_ids ->
  IFF_incrementChunkSize (chunkSize f) c = Done s -> s = chunkSize f + physical (chunkSize c).
Proof.
  intros app ft ft' f c s CF CC LF LC SZ IG H.
  pose proof (Conforms_nonneg _ _ _ CF LF). pose proof (Conforms_nonneg _ _ _ CC LC).
  pose proof (Conforms_size _ _ _ CF LF). pose proof (Conforms_size _ _ _ CC LC).
  pose proof (physical_range (chunkSize f)). pose proof (physical_range (chunkSize c)).
  rewrite increment_ok in H; [injection H as <-; reflexivity| | |]; unfold INT_MIN, INT_MAX in *; lia.
Qed.

Lemma member_type_valid : forall app ft c g l, Conforms app ft c -> In (chunkId c) [FORM_ID; CAT_ID; LIST_ID] ->
  as_group c = Some (g, l) -> ValidId g.
Proof.
  intros app ft c g l C I A. inversion C; subst; cbn in A; try discriminate; injection A as <- <-; try assumption;
    match goal with H : ValidFormType _ |- _ => apply H end.
Qed.

Lemma JJJJ_valid : ValidId JJJJ_ID.
Proof.
  exists 74, 74, 74, 74. split; [reflexivity|]. split; [|lia]. intros x H. simpl in H. lia.
Qed.

Lemma Built_members : forall app ft f, Built app ft f -> In (chunkId f) [CAT_ID; LIST_ID] ->
  forall g subs, as_group f = Some (g, subs) -> forall x, In x subs -> In (chunkId x) [FORM_ID; CAT_ID; LIST_ID].
Proof.
  assert (GROW : forall f subs g' c s, chunkId (set_chunkSize (set_subs (set_groupType f g') (subs ++ [c])) s) = chunkId f)
    by (intros [a b d|a b g l|a b g pp l|a b v]; reflexivity).
  assert (NIL : forall f, (forall g subs, as_group f = Some (g, subs) -> subs = []) ->
    forall g subs, as_group f = Some (g, subs) -> forall x, In x subs -> In (chunkId x) [FORM_ID; CAT_ID; LIST_ID]).
  { intros f H g subs A x I. rewrite (H _ _ A) in I. contradiction. }
  assert (NOT : forall f, In (chunkId f) [CAT_ID; LIST_ID] -> chunkId f <> FORM_ID /\ chunkId f <> PROP_ID).
  { intros f H. destruct H as [<-|[<-|[]]]; split; discriminate. }
  assert (STEP : forall f g subs g' c s, as_group f = Some (g, subs) ->
    (forall g subs, as_group f = Some (g, subs) -> forall x, In x subs -> In (chunkId x) [FORM_ID; CAT_ID; LIST_ID]) ->
    In (chunkId c) [FORM_ID; CAT_ID; LIST_ID] ->
    forall h l, as_group (set_chunkSize (set_subs (set_groupType f g') (subs ++ [c])) s) = Some (h, l) ->
    forall x, In x l -> In (chunkId x) [FORM_ID; CAT_ID; LIST_ID]).
  { intros f g subs g' c s A H C h l E.
    assert (l = subs ++ [c]) as -> by (destruct f; cbn in *; try discriminate; injection E as _ <-; reflexivity).
    apply in_snoc; [exact (H _ _ A)|exact C]. }
  intros app ft f B. induction B; intro K.
  - apply createRaw_inv in H2. subst. cbn in H3. injection H3 as <-. intros ? ? [=].
  - apply createRaw_inv in H3. subst. unfold IFF_copyDataToRawChunkData in H4.
    match type of H4 with (if ?b then _ else _) = _ => destruct b end; [discriminate|]. injection H4 as <-. intros ? ? [=].
  - intros ? ? [=].
  - apply createGroup_inv in H0. subst. apply NIL. intros ? ? [= _ <-]. reflexivity.
  - apply createGroup_inv in H0. subst. apply NIL. intros ? ? [= _ <-]. reflexivity.
  - apply createList_inv in H0. subst. apply NIL. intros ? ? [= _ <-]. reflexivity.
  - apply createGroup_inv in H0. subst. apply NIL. intros ? ? [= _ <-]. reflexivity.
  - apply addToGroup_inv in H2. destruct H2 as (g2 & subs & s & A & _ & ->). exfalso.
    pose proof (GROW f subs g2 c s) as X. rewrite (same_type _ _ _ A) in X. rewrite X in K. apply NOT in K. tauto.
  - apply addToGroup_inv in H2. destruct H2 as (g2 & subs & s & A & _ & ->). exfalso.
    pose proof (GROW f subs g2 c s) as X. rewrite (same_type _ _ _ A) in X. rewrite X in K. apply NOT in K. tauto.
  - match goal with X : IFF_addToGroup _ _ _ _ = _ |- _ => apply addToGroup_inv in X; destruct X as (g2 & subs & s & A & _ & ->) end.
    pose proof (STEP f g2 subs g2 c s A (IHB1 H) (proj1 H1)) as X. rewrite (same_type _ _ _ A) in X. exact X.
  - apply addUpdate_inv in H1; [|assumption]. destruct H1 as (g & subs & gc & lc & g' & s & A & _ & _ & _ & ->).
    apply (STEP f g subs g' c s A (IHB1 H)). assumption.
  - apply addPropToList_inv in H2. destruct H2 as (i & z & g2 & props & subs & s & -> & _ & ->).
    intros h l [= <- <-]. apply (IHB1 ltac:(cbn in *; subst; simpl; tauto) g2 subs eq_refl).
Qed.

Theorem Built_ok : forall app ft c, Built app ft c -> Typed app ft c /\ (encoded_size c <= INT_MAX -> Conforms app ft c).
Proof.
  assert (PG : In PROP_ID group_ids) by (unfold group_ids; simpl; tauto).
  assert (FG : In FORM_ID group_ids) by (unfold group_ids; simpl; tauto).
  assert (CG : forall i, In i [CAT_ID; LIST_ID] -> In i group_ids) by (intros i H; unfold group_ids; simpl in *; tauto).
  intros app ft c B. induction B.
  - apply createRaw_inv in H2. subst. cbn in H3. injection H3 as <-. split; [|intros _]; constructor; assumption.
  - apply createRaw_inv in H3. subst. unfold IFF_copyDataToRawChunkData in H4.
    match type of H4 with (if ?b then _ else _) = _ => destruct b end; [discriminate|]. injection H4 as <-.
    split; [|intros _]; constructor; assumption.
  - split; [|intros _]; econstructor; eassumption.
  - apply createGroup_inv in H0. subst. split; [constructor; [simpl; tauto|intros ? []]|].
    intros _. apply Conf_form; [assumption|intros ? []|reflexivity].
  - apply createGroup_inv in H0. subst. split; [constructor; [simpl; tauto|intros ? []]|].
    intros _. apply Conf_cat; [assumption|intros ? []|reflexivity].
  - apply createList_inv in H0. subst. split; [constructor; intros ? []|].
    intros _. apply Conf_list; [assumption|intros ? []|intros ? []|reflexivity].
  - apply createGroup_inv in H0. subst. split; [constructor; [simpl; tauto|intros ? []]|].
    intros _. apply Conf_prop; [assumption|intros ? []|reflexivity].
  - (* FORM *)
    destruct IHB1 as [T1 C1], IHB2 as [T2 C2]. pose proof (Built_leaves _ _ _ B1) as L1. pose proof (Built_leaves _ _ _ B2) as L2.
    apply addToGroup_inv in H2. destruct H2 as (g2 & subs & s & A & I & ->).
    pose proof (grow_leaves f g2 subs c s g2 A L1 L2) as [L3 ES]. rewrite (same_type _ _ _ A) in *.
    pose proof (encoded_size_pos _ L1). pose proof (encoded_size_pos _ L2).
    inversion T1; subst; cbn [chunkId as_group group_type_of] in *; subst; try discriminate; try contradiction.
    injection A as <- <-. injection H0 as <-. split.
    + cbn. constructor; [simpl; tauto|]. apply in_snoc; assumption.
    + intro SZ. rewrite ES in SZ. specialize (C1 ltac:(lia)). specialize (C2 ltac:(lia)).
      pose proof (grown_size _ _ _ _ _ _ C1 C2 L1 L2 SZ FG I) as ->. cbn [set_subs set_chunkSize chunkSize].
      inversion C1; subst; try discriminate. apply Conf_form; [assumption| |rewrite body_snoc; lia]. apply in_snoc; auto.
  - (* PROP *)
    destruct IHB1 as [T1 C1], IHB2 as [T2 C2]. pose proof (Built_leaves _ _ _ B1) as L1. pose proof (Built_leaves _ _ _ B2) as L2.
    apply addToGroup_inv in H2. destruct H2 as (g2 & subs & s & A & I & ->).
    pose proof (grow_leaves f g2 subs c s g2 A L1 L2) as [L3 ES]. rewrite (same_type _ _ _ A) in *.
    pose proof (encoded_size_pos _ L1). pose proof (encoded_size_pos _ L2).
    inversion T1; subst; cbn [chunkId as_group group_type_of] in *; subst; try discriminate; try contradiction.
    injection A as <- <-. injection H0 as <-. split.
    + cbn. constructor; [simpl; tauto|]. apply in_snoc; assumption.
    + intro SZ. rewrite ES in SZ. specialize (C1 ltac:(lia)). specialize (C2 ltac:(lia)).
      pose proof (grown_size _ _ _ _ _ _ C1 C2 L1 L2 SZ PG I) as ->. cbn [set_subs set_chunkSize chunkSize].
      inversion C1; subst; try discriminate. apply Conf_prop; [assumption| |rewrite body_snoc; lia]. apply in_snoc; auto.
  - (* CAT, LIST *)
    destruct IHB1 as [T1 C1], IHB2 as [T2 C2]. pose proof (Built_leaves _ _ _ B1) as L1. pose proof (Built_leaves _ _ _ B2) as L2.
    match goal with X : IFF_addToGroup _ _ _ _ = _ |- _ => apply addToGroup_inv in X; destruct X as (g2 & subs & s & A & I & ->) end.
    pose proof (grow_leaves f g2 subs c s g2 A L1 L2) as [L3 ES]. rewrite (same_type _ _ _ A) in *.
    pose proof (encoded_size_pos _ L1). pose proof (encoded_size_pos _ L2).
    pose proof (CG _ H) as IG.
    inversion T1; subst; cbn [chunkId as_group group_type_of] in *; subst; try discriminate; try contradiction.
    + injection A as <- <-. injection H0 as <-. split.
      * cbn. constructor; [assumption|]. apply in_snoc; assumption.
      * intro SZ. rewrite ES in SZ. specialize (C1 ltac:(lia)). specialize (C2 ltac:(lia)).
        pose proof (grown_size _ _ _ _ _ _ C1 C2 L1 L2 SZ IG I) as ->. cbn [set_subs set_chunkSize chunkSize].
        inversion C1; subst; try (exfalso; vm_compute in H; intuition discriminate).
        apply Conf_cat; [assumption| |rewrite body_snoc; lia]. apply in_snoc; auto.
    + injection A as <- <-. injection H0 as <-. split.
      * cbn. constructor; [assumption|]. apply in_snoc; assumption.
      * intro SZ. rewrite ES in SZ. specialize (C1 ltac:(lia)). specialize (C2 ltac:(lia)).
        pose proof (grown_size _ _ _ _ _ _ C1 C2 L1 L2 SZ IG I) as ->. cbn [set_subs set_chunkSize chunkSize].
        inversion C1; subst. apply Conf_list; [assumption|assumption| |rewrite body_snoc; lia]. apply in_snoc; auto.
  - (* CAT, LIST, updating the contents type *)
    destruct IHB1 as [T1 C1], IHB2 as [T2 C2]. pose proof (Built_leaves _ _ _ B1) as L1. pose proof (Built_leaves _ _ _ B2) as L2.
    apply addUpdate_inv in H1; [|assumption]. destruct H1 as (g & subs & gc & lc & g' & s & A & AC & G & I & ->).
    pose proof (grow_leaves f g subs c s g' A L1 L2) as [L3 ES].
    pose proof (encoded_size_pos _ L1). pose proof (encoded_size_pos _ L2).
    pose proof (CG _ H) as IG. pose proof (cat_ids_group _ H0) as IC.
    assert (TA : forall x, Typed app x c) by (intro x; eapply Typed_any; eassumption).
    assert (GC : group_type_of c = Some gc) by (destruct c; cbn in *; try discriminate; injection AC as <- <-; reflexivity).
    assert (MEM : cat_member g' c).
    { split; [exact H0|]. destruct G as [[-> _]|[->|[-> ->]]]; auto. }
    assert (VG : Conforms app ft f -> Conforms app ft' c -> ValidId g').
    { intros CF CC. destruct G as [[-> _]|[->|[-> ->]]]; [|apply JJJJ_valid|]; eapply member_type_valid; eassumption. }
    pose proof (Built_members _ _ _ B1 H _ _ A) as MB.
    assert (OLD : forall x, In x subs -> cat_member g x -> cat_member g' x).
    { intros x HI [M1 M2]. split; [exact M1|]. destruct G as [[_ ->]|[->|[-> _]]]; [contradiction|left; reflexivity|exact M2]. }
    destruct f as [i z d|i z g0 l|i z g0 pp l|i z v]; cbn in A; try discriminate; injection A as <- <-;
      cbn [set_groupType set_subs set_chunkSize chunkId chunkSize] in *.
    + assert (TS : forall x, In x l -> Typed app g0 x) by (inversion T1; subst; assumption). split.
      * constructor; [inversion T1; subst; assumption|]. apply in_snoc; [|apply TA].
        intros x HI. eapply Typed_any; [apply cat_ids_group, MB, HI|apply TS, HI].
      * intro SZ. rewrite ES in SZ. specialize (C1 ltac:(lia)). specialize (C2 ltac:(lia)).
        pose proof (grown_size _ _ _ _ _ _ C1 C2 L1 L2 SZ IG I) as ->. cbn [chunkSize].
        pose proof (VG C1 C2) as V.
        inversion C1; subst; try (exfalso; vm_compute in H; intuition discriminate).
        apply Conf_cat; [exact V| |rewrite body_snoc; lia]. apply in_snoc.
        -- intros x HI. match goal with K : forall c, In c l -> cat_member _ c /\ _ |- _ => destruct (K x HI) as [M1 M2] end.
           split; [exact (OLD x HI M1)|]. eapply Conforms_any; [apply cat_ids_group, M1|exact M2].
        -- split; [exact MEM|]. eapply Conforms_any; [exact IC|exact C2].
    + apply Typed_list_inv in T1. destruct T1 as (-> & TP & TS). split.
      * constructor.
        -- intros x HI. destruct (TP x HI) as [X1 X2]. split; [|exact X2]. eapply Typed_any; [rewrite X2; exact PG|exact X1].
        -- apply in_snoc; [|apply TA]. intros x HI. eapply Typed_any; [apply cat_ids_group, MB, HI|apply TS, HI].
      * intro SZ. rewrite ES in SZ. specialize (C1 ltac:(lia)). specialize (C2 ltac:(lia)).
        pose proof (grown_size _ _ _ _ _ _ C1 C2 L1 L2 SZ IG I) as ->. cbn [chunkSize].
        pose proof (VG C1 C2) as V.
        inversion C1; subst.
        apply Conf_list; [exact V| | |rewrite body_snoc; lia].
        -- intros x HI. eapply Conforms_any; [rewrite (proj2 (TP x HI)); exact PG|].
           match goal with K : forall c, In c pp -> Conforms _ _ c |- _ => exact (K x HI) end.
        -- apply in_snoc.
           ++ intros x HI. match goal with K : forall c, In c l -> cat_member _ c /\ _ |- _ => destruct (K x HI) as [M1 M2] end.
              split; [exact (OLD x HI M1)|]. eapply Conforms_any; [apply cat_ids_group, M1|exact M2].
           ++ split; [exact MEM|]. eapply Conforms_any; [exact IC|exact C2].
  - (* a PROP into a LIST *)
    destruct IHB1 as [T1 C1], IHB2 as [T2 C2]. pose proof (Built_leaves _ _ _ B1) as L1. pose proof (Built_leaves _ _ _ B2) as L2.
    apply addPropToList_inv in H2. destruct H2 as (i & z & g2 & props & subs & s & -> & I & ->).
    pose proof (grow_props i z g2 props subs c s L1 L2) as [L3 ES].
    pose proof (encoded_size_pos _ L1). pose proof (encoded_size_pos _ L2).
    cbn [chunkId group_type_of] in *. subst i. injection H0 as <-.
    apply Typed_list_inv in T1. destruct T1 as (_ & TP & TS). split.
    + constructor; [|exact TS]. apply in_snoc; auto.
    + intro SZ. rewrite ES in SZ. specialize (C1 ltac:(lia)). specialize (C2 ltac:(lia)).
      pose proof (grown_size _ _ _ _ _ _ C1 C2 L1 L2 SZ ltac:(unfold group_ids; simpl; tauto) I) as ->. cbn [chunkSize].
      inversion C1; subst. apply Conf_list; [assumption| |assumption|rewrite body_snoc; lia]. apply in_snoc; auto.
Qed.

Lemma Conforms_Represented : forall app c ft, Conforms app ft c -> Represented c.
Proof.
  intro app. induction c as [i s d|i s g subs IH|i s g props subs IHp IHs|i s vals] using chunk_tree_ind; intros ft C x I.
  - inversion I; subst. inversion C; subst. split; [apply ValidId_range; assumption|intros g E; discriminate].
  - apply InTree_group_inv in I. destruct I as [->|(c & HI & I)].
    + cbn [chunkId group_type_of]. inversion C; subst; (split; [vm_compute; split; congruence|]); intros h [= <-]; apply ValidId_range;
        match goal with H : ValidFormType _ |- _ => apply H | _ => assumption end.
    + apply (IH c HI g); [|exact I]. inversion C; subst; match goal with H : forall c, In c subs -> _ |- _ => apply (H c HI) end.
  - apply InTree_list_inv in I. destruct I as [->|(c & HI & I)].
    + cbn [chunkId group_type_of]. inversion C; subst. split; [vm_compute; split; congruence|]. intros h [= <-]; apply ValidId_range; assumption.
    + inversion C; subst. destruct HI as [HI|HI].
      * apply (IHp c HI g); [|exact I]. match goal with H : forall c, In c props -> _ |- _ => apply (H c HI) end.
      * apply (IHs c HI g); [|exact I]. match goal with H : forall c, In c subs -> _ |- _ => apply (H c HI) end.
  - inversion I; subst. inversion C; subst. split; [apply ValidId_range; assumption|intros g E; discriminate].
Qed.

Lemma count_encoded : forall l, (forall c, In c l -> LeafSizes c) -> 8 * zlength l <= sum (map encoded_size l).
Proof.
  induction l as [|c l IH]; intro H; [reflexivity|]. rewrite zlength_cons. cbn [map sum fold_right]. change (fold_right Z.add 0) with sum.
  pose proof (encoded_size_pos c (H c (or_introl eq_refl))). pose proof (IH ltac:(intros; apply H; right; assumption)). lia.
Qed.

(** Adding does not fail as long as the whole stays below 2 GiB. *)
Lemma addToGroup_succeeds : forall app ft ft' f g subs c e w, usual e -> Conforms app ft f -> Conforms app ft' c ->
  LeafSizes f -> LeafSizes c -> as_group f = Some (g, subs) -> encoded_size f + encoded_size c <= INT_MAX ->
  exists w', IFF_addToGroup f c e w = Done (set_chunkSize (set_subs f (subs ++ [c])) (chunkSize f + physical (chunkSize c)), w') /\
    w_log w' = w_log w /\ w_in w' = w_in w /\ w_out w' = w_out w.
Proof.
  intros app ft ft' f g subs c e w U CF CC LF LC A SZ. unfold IFF_addToGroup, IFF_attachToGroup. rewrite A.
  pose proof (Conforms_nonneg _ _ _ CF LF). pose proof (Conforms_nonneg _ _ _ CC LC).
  pose proof (Conforms_size _ _ _ CF LF). pose proof (Conforms_size _ _ _ CC LC).
  pose proof (physical_range (chunkSize f)). pose proof (physical_range (chunkSize c)).
  pose proof (count_encoded subs (LeafSizes_members _ _ _ A LF)) as N.
  assert (N2 : sum (map encoded_size subs) <= encoded_size f).
  { destruct f as [i z d|i z g0 l|i z g0 pp l|i z v]; cbn in A; try discriminate; injection A as <- <-; cbn [encoded_size]; [lia|].
    pose proof (sum_encoded_pos pp ltac:(intros; eapply LeafSizes_sub; [exact LF|]; intros; eapply In_list_prop; eassumption)). lia. }
  unfold bind, malloc. rewrite (memory _ U).
  replace ((zlength subs + 1) * sizeof_pointer <? 2 ^ (size_t_bits e - 1)) with true.
  2:{ symmetry. apply Z.ltb_lt. unfold sizeof_pointer, size_t_bits, INT_MAX in *. pose proof (encoded_size_pos _ LC).
      destruct (lp64 e); [|]; change (2 ^ (64 - 1)) with 9223372036854775808; change (2 ^ (32 - 1)) with 2147483648; lia. }
  cbn [andb]. unfold ret, lift.
  assert (E : chunkSize (set_subs f (subs ++ [c])) = chunkSize f) by (destruct f; reflexivity). rewrite E.
  rewrite increment_ok; unfold INT_MIN, INT_MAX in *; try lia.
  eexists. split; [reflexivity|]. auto.
Qed.
