(** * Size bookkeeping: IFF_addTo*, IFF_updateChunkSizes *)

From Coq Require Import ZArith List Bool String Lia.
From Coq Require Import Strings.Byte.
From Verif Require Import Machine Io Types Build Spec Lemmas WriteProofs CheckProofs ConfProofs BuiltProofs.
Import ListNotations.
Open Scope Z_scope.

Definition children (c : chunk) : list chunk :=
  match c with CGroup _ _ _ l => l | CList _ _ _ p l => p ++ l | _ => [] end.

Definition kinded (c : chunk) : Prop :=
  match c with
  | CGroup i _ _ _ => In i [FORM_ID; CAT_ID; PROP_ID]
  | CList i _ _ _ _ => i = LIST_ID
  | CRaw i _ _ | CFields i _ _ => ~ In i group_ids
  end.

Lemma Typed_kinded : forall app ft c, Typed app ft c -> kinded c.
Proof. intros app ft c T. inversion T; subst; cbn [kinded]; auto. Qed.
Lemma Typed_child : forall app ft c x, Typed app ft c -> In x (children c) -> exists ft', Typed app ft' x.
Proof.
  intros app ft c x T H. inversion T; subst; cbn [children] in H; try contradiction; [eauto|].
  apply in_app_or in H. destruct H as [H|H]; eauto.
  match goal with K : forall c, In c props -> _ |- _ => exists g; apply K; exact H end.
Qed.
Lemma child_InTree : forall c y x, In y (children c) -> InTree x y -> InTree x c.
Proof.
  intros c y x H I. destruct c as [i z d|i z g l|i z g pp l|i z v]; cbn [children] in H; try contradiction.
  - eapply In_group; eassumption.
  - apply in_app_or in H. destruct H; [eapply In_list_prop|eapply In_list_sub]; eassumption.
Qed.
Lemma InTree_child : forall c x, InTree x c -> x = c \/ exists y, In y (children c) /\ InTree x y.
Proof.
  intros c x I. destruct I; [left; reflexivity| | |]; right; exists c; cbn [children]; (split; [|assumption]); auto using in_or_app.
Qed.
Lemma Sized_child : forall c y, Sized c -> In y (children c) -> Sized y.
Proof. intros c y S H x I. apply S. eapply child_InTree; eassumption. Qed.
Lemma Sized_intro : forall c, declares c -> (forall y, In y (children c) -> Sized y) -> Sized c.
Proof. intros c D H x I. apply InTree_child in I. destruct I as [->|(y & J & I)]; [exact D|]. exact (H y J x I). Qed.
Lemma Leaf_child : forall c y, LeafSizes c -> In y (children c) -> LeafSizes y.
Proof. intros c y S H. eapply LeafSizes_sub; [exact S|]. intros. eapply child_InTree; eassumption. Qed.

Lemma round_even_even : forall n, Z.even n = true -> round_even n = n.
Proof. intros n H. unfold round_even. rewrite mod2_odd, <- Z.negb_even, H. cbn. lia. Qed.
Lemma body_even : forall l, Z.even (body_size l) = true.
Proof.
  induction l as [|c l IH]; [reflexivity|]. rewrite body_size_cons, Z.even_add, physical_even, IH. reflexivity.
Qed.

Lemma Sized_encoded : forall c, Sized c -> physical (chunkSize c) = encoded_size c.
Proof.
  assert (ALL : forall l, (forall c, In c l -> physical (chunkSize c) = encoded_size c) -> body_size l = sum (map encoded_size l)).
  { induction l as [|c l IH]; intro H; [reflexivity|]. rewrite body_size_cons. cbn [map sum fold_right]. change (fold_right Z.add 0) with sum.
    rewrite (H c (or_introl eq_refl)), IH by (intros; apply H; right; assumption). reflexivity. }
  induction c as [i s d|i s g subs IH|i s g props subs IHp IHs|i s vals] using chunk_tree_ind; intro SZ; try reflexivity.
  - pose proof (SZ _ (In_here _)) as D. cbn [declares] in D. cbn [chunkSize encoded_size]. rewrite D. unfold physical.
    rewrite round_even_even by (rewrite Z.even_add, body_even; reflexivity).
    rewrite (ALL subs); [lia|]. intros c H. apply IH; [exact H|]. apply (Sized_child _ c SZ H).
  - pose proof (SZ _ (In_here _)) as D. cbn [declares] in D. cbn [chunkSize encoded_size]. rewrite D. unfold physical.
    rewrite round_even_even by (rewrite !Z.even_add, !body_even; reflexivity).
    rewrite (ALL subs), (ALL props); [lia| |].
    + intros c H. apply IHp; [exact H|]. apply (Sized_child _ c SZ). apply in_or_app. auto.
    + intros c H. apply IHs; [exact H|]. apply (Sized_child _ c SZ). apply in_or_app. auto.
Qed.

Lemma body_encoded : forall l, (forall c, In c l -> Sized c) -> body_size l = sum (map encoded_size l).
Proof.
  induction l as [|c l IH]; intro H; [reflexivity|]. rewrite body_size_cons. cbn [map sum fold_right]. change (fold_right Z.add 0) with sum.
  rewrite (Sized_encoded c) by (apply H; left; reflexivity). rewrite IH by (intros; apply H; right; assumption). reflexivity.
Qed.

Lemma Sized_nonneg : forall c, Sized c -> LeafSizes c -> 0 <= chunkSize c.
Proof.
  induction c as [i s d|i s g subs IH|i s g props subs IHp IHs|i s vals] using chunk_tree_ind; intros SZ LS.
  - apply (LS _ (In_here _)). exact I.
  - rewrite (SZ _ (In_here _)). cbn [chunkSize]. pose proof (body_size_nonneg subs) as X.
    assert (0 <= body_size subs); [|lia]. apply X. intros c H. apply IH; [exact H|apply (Sized_child _ c SZ H)|apply (Leaf_child _ c LS H)].
  - rewrite (SZ _ (In_here _)). cbn [chunkSize].
    assert (NS : 0 <= body_size subs).
    { apply body_size_nonneg. intros c H. apply IHs; [exact H|apply (Sized_child _ c SZ)|apply (Leaf_child _ c LS)]; apply in_or_app; auto. }
    assert (0 <= body_size props); [|lia].
    apply body_size_nonneg. intros c H. apply IHp; [exact H|apply (Sized_child _ c SZ)|apply (Leaf_child _ c LS)]; apply in_or_app; auto.
  - apply (LS _ (In_here _)). exact I.
Qed.

Lemma sum_sizes_ok : forall l acc, (forall c, In c l -> 0 <= chunkSize c) -> 0 <= acc -> acc + body_size l <= INT_MAX ->
  sum_sizes acc l = Done (acc + body_size l).
Proof.
  induction l as [|c l IH]; intros acc H A B; cbn [sum_sizes].
  - change (body_size []) with 0. f_equal. lia.
  - rewrite body_size_cons in *. pose proof (H c (or_introl eq_refl)). pose proof (physical_range (chunkSize c)).
    assert (0 <= body_size l) by (apply body_size_nonneg; intros; apply H; right; assumption).
    rewrite increment_ok by (unfold INT_MIN; lia). cbn [obind]. rewrite IH; [f_equal; lia| |lia|lia].
    intros. apply H. right. assumption.
Qed.

Definition right_size (c : chunk) : chunk :=
  match c with
  | CGroup i _ g subs => CGroup i (4 + body_size subs) g subs
  | CList i _ g props subs => CList i (4 + body_size props + body_size subs) g props subs
  | _ => c
  end.

Lemma update_own_ok : forall c, kinded c -> (forall y, In y (children c) -> Sized y) -> LeafSizes c -> encoded_size c <= INT_MAX ->
  update_own_size c = Done (right_size c).
Proof.
  assert (LEAF : forall i, ~ In i group_ids -> i <> FORM_ID /\ i <> PROP_ID /\ i <> CAT_ID /\ i <> LIST_ID).
  { intros i N. unfold group_ids in N. simpl in N. repeat split; intro; apply N; subst; auto. }
  intros c K SZ LS B. unfold update_own_size. change IFF_ID_FORM with FORM_ID. change IFF_ID_PROP with PROP_ID.
  change IFF_ID_CAT with CAT_ID. change IFF_ID_LIST with LIST_ID.
  assert (NN : forall y, In y (children c) -> 0 <= chunkSize y) by (intros; apply Sized_nonneg; [auto|eapply Leaf_child; eassumption]).
  destruct c as [i z d|i z g l|i z g pp l|i z v]; cbn [kinded chunkId children encoded_size right_size] in *.
  - destruct (LEAF i K) as (A1 & A2 & A3 & A4). rewrite !(proj2 (Z.eqb_neq _ _)) by assumption. reflexivity.
  - assert (U : IFF_updateGroupChunkSizes (CGroup i z g l) = Done (CGroup i (4 + body_size l) g l)).
    { unfold IFF_updateGroupChunkSizes. cbn [as_group]. rewrite sum_sizes_ok; [reflexivity|exact NN|unfold IFF_ID_SIZE; lia|].
      rewrite (body_encoded l SZ). unfold IFF_ID_SIZE. lia. }
    destruct K as [<-|[<-|[<-|[]]]]; exact U.
  - subst i. change (LIST_ID =? FORM_ID) with false. change (LIST_ID =? PROP_ID) with false. change (LIST_ID =? CAT_ID) with false.
    rewrite Z.eqb_refl. cbn [orb]. unfold IFF_updateListChunkSizes, IFF_updateGroupChunkSizes. cbn [as_group].
    assert (S1 : forall y, In y pp -> Sized y) by (intros; apply SZ, in_or_app; auto).
    assert (S2 : forall y, In y l -> Sized y) by (intros; apply SZ, in_or_app; auto).
    assert (P1 : 0 <= body_size pp) by (apply body_size_nonneg; intros; apply NN, in_or_app; auto).
    assert (P2 : 0 <= body_size l) by (apply body_size_nonneg; intros; apply NN, in_or_app; auto).
    pose proof (body_encoded pp S1). pose proof (body_encoded l S2).
    rewrite sum_sizes_ok; [|intros; apply NN, in_or_app; auto|unfold IFF_ID_SIZE; lia|unfold IFF_ID_SIZE; lia].
    cbn [obind set_chunkSize]. rewrite sum_sizes_ok; [|intros; apply NN, in_or_app; auto|unfold IFF_ID_SIZE; lia|unfold IFF_ID_SIZE; lia].
    cbn [obind]. unfold IFF_ID_SIZE. do 2 f_equal. lia.
  - destruct (LEAF i K) as (A1 & A2 & A3 & A4). rewrite !(proj2 (Z.eqb_neq _ _)) by assumption. reflexivity.
Qed.

Lemma right_size_children : forall c, children (right_size c) = children c.
Proof. destruct c; reflexivity. Qed.
Lemma right_size_declares : forall c, declares (right_size c).
Proof. destruct c; cbn; auto. Qed.
Lemma right_size_unsized : forall c, unsized (right_size c) = unsized c.
Proof. destruct c; reflexivity. Qed.
Lemma right_size_same : forall c, declares c -> right_size c = c.
Proof. destruct c; cbn [declares right_size]; intros; subst; reflexivity. Qed.
Lemma right_size_encoded : forall c, encoded_size (right_size c) = encoded_size c.
Proof. destruct c; reflexivity. Qed.

(** ** Paths *)
Lemma get_child_In : forall c s x, get_child c s = Some x -> In x (children c).
Proof.
  intros c s x H. destruct s as [n|n], c as [i z d|i z g l|i z g pp l|i z v]; cbn in *; try discriminate;
    apply nth_error_In in H; auto using in_or_app.
Qed.
Lemma In_get_child : forall c x, In x (children c) -> exists s, get_child c s = Some x.
Proof.
  intros c x H. destruct c as [i z d|i z g l|i z g pp l|i z v]; cbn [children] in H; try contradiction.
  - apply In_nth_error in H. destruct H as [n H]. exists (InSub n). exact H.
  - apply in_app_or in H. destruct H as [H|H]; apply In_nth_error in H; destruct H as [n H]; [exists (InProp n)|exists (InSub n)]; exact H.
Qed.
Lemma InTree_at_path : forall c x, InTree x c <-> exists q, at_path c q = Some x.
Proof.
  intros c x. split.
  - intro I. induction I as [|i s g subs c H I IH|i s g props subs c H I IH|i s g props subs c H I IH].
    + exists []. reflexivity.
    + destruct IH as [q E]. apply In_nth_error in H. destruct H as [n H]. exists (InSub n :: q). cbn. rewrite H. exact E.
    + destruct IH as [q E]. apply In_nth_error in H. destruct H as [n H]. exists (InProp n :: q). cbn. rewrite H. exact E.
    + destruct IH as [q E]. apply In_nth_error in H. destruct H as [n H]. exists (InSub n :: q). cbn. rewrite H. exact E.
  - intros [q E]. revert c E. induction q as [|s q IH]; intros c E; cbn in E; [injection E as <-; constructor|].
    destruct (get_child c s) as [y|] eqn:G; [|discriminate]. eapply child_InTree; [eapply get_child_In; exact G|]. auto.
Qed.

Lemma replace_nth_In : forall A n (x y : A) l, In y (replace_nth n x l) -> y = x \/ exists m, m <> n /\ nth_error l m = Some y.
Proof.
  induction n as [|n IH]; intros x y [|a l] H; cbn in H; try contradiction.
  - destruct H as [<-|H]; [auto|]. right. apply In_nth_error in H. destruct H as [m H]. exists (S m). split; [lia|exact H].
  - destruct H as [<-|H]; [right; exists 0%nat; split; [lia|reflexivity]|].
    apply IH in H. destruct H as [->|(m & N & H)]; [auto|]. right. exists (S m). split; [lia|exact H].
Qed.
Lemma nth_replace : forall A n (x y : A) l, nth_error l n = Some y -> nth_error (replace_nth n x l) n = Some x.
Proof. induction n as [|n IH]; intros x y [|a l] H; cbn in *; try discriminate; [reflexivity|eauto]. Qed.
Lemma nth_replace_other : forall A n m (x : A) l, m <> n -> nth_error (replace_nth n x l) m = nth_error l m.
Proof. induction n as [|n IH]; intros [|m] x [|a l] H; cbn; try reflexivity; try lia. apply IH. lia. Qed.
Lemma map_replace : forall A B (f : A -> B) n x y l, nth_error l n = Some y -> f x = f y -> map f (replace_nth n x l) = map f l.
Proof.
  induction n as [|n IH]; intros x y [|a l] H E; cbn in *; try discriminate; [injection H as ->; rewrite E; reflexivity|].
  f_equal. eapply IH; eassumption.
Qed.

Lemma set_child_In : forall c s x y, In y (children (set_child c s x)) -> y = x \/ exists s', s' <> s /\ get_child c s' = Some y.
Proof.
  assert (OLD : forall c s y, (forall n, get_child c s <> Some n) -> In y (children c) -> exists s', s' <> s /\ get_child c s' = Some y).
  { intros c s y N H. apply In_get_child in H. destruct H as [s' H]. exists s'. split; [|exact H]. intros ->. exact (N y H). }
  intros c s x y H. destruct s as [n|n], c as [i z d|i z g l|i z g pp l|i z v]; cbn [set_child children] in H; try contradiction.
  - right. apply OLD; [intros m E; discriminate E|exact H].
  - apply in_app_or in H. destruct H as [H|H].
    + apply replace_nth_In in H. destruct H as [->|(m & N & H)]; [auto|]. right. exists (InProp m). split; [congruence|exact H].
    + right. apply In_nth_error in H. destruct H as [m H]. exists (InSub m). split; [discriminate|exact H].
  - apply replace_nth_In in H. destruct H as [->|(m & N & H)]; [auto|]. right. exists (InSub m). split; [congruence|exact H].
  - apply in_app_or in H. destruct H as [H|H].
    + right. apply In_nth_error in H. destruct H as [m H]. exists (InProp m). split; [discriminate|exact H].
    + apply replace_nth_In in H. destruct H as [->|(m & N & H)]; [auto|]. right. exists (InSub m). split; [congruence|exact H].
Qed.

Lemma set_child_kinded : forall c s x, kinded c -> kinded (set_child c s x).
Proof. destruct c, s; intros; assumption. Qed.
Lemma set_child_unsized : forall c s x y, get_child c s = Some y -> unsized x = unsized y -> unsized (set_child c s x) = unsized c.
Proof.
  intros c s x y G E. destruct s, c; cbn in *; try discriminate; f_equal; eapply map_replace; eassumption.
Qed.
Lemma get_set_child : forall c s x y, get_child c s = Some y -> get_child (set_child c s x) s = Some x.
Proof. intros c s x y G. destruct s, c; cbn in *; try discriminate; eapply nth_replace; eassumption. Qed.
Lemma get_set_other : forall c s s' x, s' <> s -> get_child (set_child c s x) s' = get_child c s'.
Proof.
  intros c s s' x N. destruct s, s', c; cbn; try reflexivity; apply nth_replace_other; congruence.
Qed.
Lemma set_same_child : forall c s x, get_child c s = Some x -> set_child c s x = c.
Proof.
  assert (R : forall n (x : chunk) l, nth_error l n = Some x -> replace_nth n x l = l).
  { induction n as [|n IH]; intros x [|a l] H; cbn in *; try discriminate; [injection H as ->; reflexivity|]. f_equal. auto. }
  intros c s x G. destruct s, c; cbn in *; try discriminate; f_equal; auto.
Qed.
Lemma set_set_child : forall c s x y, set_child (set_child c s x) s y = set_child c s y.
Proof.
  assert (R : forall n (x y : chunk) l, replace_nth n y (replace_nth n x l) = replace_nth n y l).
  { induction n as [|n IH]; intros x y [|a l]; cbn; try reflexivity. f_equal. auto. }
  intros c s x y. destruct s, c; cbn; f_equal; auto.
Qed.

Lemma encoded_unsized : forall c, encoded_size (unsized c) = encoded_size c.
Proof.
  induction c as [i s d|i s g subs IH|i s g props subs IHp IHs|i s vals] using chunk_tree_ind; cbn [unsized encoded_size]; try reflexivity;
    rewrite !map_map.
  - rewrite (map_ext_in _ encoded_size subs IH). reflexivity.
  - rewrite (map_ext_in _ encoded_size subs IHs), (map_ext_in _ encoded_size props IHp). reflexivity.
Qed.
Lemma encoded_child : forall c y, LeafSizes c -> In y (children c) -> encoded_size y <= encoded_size c.
Proof.
  assert (X : forall l y, (forall c, In c l -> LeafSizes c) -> In y l -> encoded_size y <= sum (map encoded_size l)).
  { induction l as [|a l IH]; intros y H I; [contradiction|]. cbn [map sum fold_right]. change (fold_right Z.add 0) with sum.
    pose proof (encoded_size_pos a (H a (or_introl eq_refl))).
    pose proof (sum_encoded_pos l ltac:(intros; apply H; right; assumption)).
    destruct I as [->|I]; [lia|]. specialize (IH y ltac:(intros; apply H; right; assumption) I). lia. }
  intros c y L H. assert (LC : forall x, In x (children c) -> LeafSizes x) by (intros; eapply Leaf_child; eassumption).
  destruct c as [i z d|i z g l|i z g pp l|i z v]; cbn [children encoded_size] in *; try contradiction.
  - specialize (X l y LC H). lia.
  - assert (L1 : forall x, In x pp -> LeafSizes x) by (intros; apply LC, in_or_app; auto).
    assert (L2 : forall x, In x l -> LeafSizes x) by (intros; apply LC, in_or_app; auto).
    pose proof (sum_encoded_pos pp L1). pose proof (sum_encoded_pos l L2).
    apply in_app_or in H. destruct H as [H|H]; [specialize (X pp y L1 H)|specialize (X l y L2 H)]; lia.
Qed.
Lemma Leaf_intro : forall c, match c with CRaw _ s _ | CFields _ s _ => 0 <= s | _ => True end ->
  (forall y, In y (children c) -> LeafSizes y) -> LeafSizes c.
Proof.
  intros c D H x I Q. apply InTree_child in I. destruct I as [->|(y & J & I)]; [|exact (H y J x I Q)].
  destruct c; cbn in *; try contradiction; exact D.
Qed.

Theorem update_repairs : forall app p c ft x, Typed app ft c -> LeafSizes c -> encoded_size c <= INT_MAX -> at_path c p = Some x ->
  (forall q y, at_path c q = Some y -> declares y \/ exists r, p = q ++ r) ->
  exists c', IFF_updateChunkSizes c p = Done (Some c') /\ Sized c' /\ unsized c' = unsized c /\ LeafSizes c'.
Proof.
  intros app p. induction p as [|s p IH]; intros c ft x T L B AT OFF.
  - cbn [IFF_updateChunkSizes].
    assert (SZ : forall y, In y (children c) -> Sized y).
    { intros y H z I. apply In_get_child in H. destruct H as [t H]. apply InTree_at_path in I. destruct I as [q E].
      destruct (OFF (t :: q) z) as [D|[r D]]; [cbn; rewrite H; exact E|exact D|discriminate]. }
    rewrite update_own_ok; [|eapply Typed_kinded; eassumption|exact SZ|exact L|exact B]. cbn [obind].
    eexists. split; [reflexivity|]. split; [|split].
    + apply Sized_intro; [apply right_size_declares|]. intros y H. rewrite right_size_children in H. auto.
    + apply right_size_unsized.
    + apply Leaf_intro; [destruct c; cbn; auto; apply (L _ (In_here _)); exact I|].
      intros y H. rewrite right_size_children in H. eapply Leaf_child; eassumption.
  - cbn [at_path] in AT. destruct (get_child c s) as [y|] eqn:G; [|discriminate].
    pose proof (get_child_In _ _ _ G) as IY. destruct (Typed_child _ _ _ _ T IY) as [ft' TY].
    destruct (IH y ft' x TY (Leaf_child _ _ L IY)) as (y' & E & SY & UY & LY).
    + pose proof (encoded_child c y L IY). lia.
    + exact AT.
    + intros q z Q. destruct (OFF (s :: q) z) as [D|[r D]]; [cbn; rewrite G; exact Q|auto|]. right. exists r. injection D as ->. reflexivity.
    + cbn [IFF_updateChunkSizes]. rewrite G, E. cbn [obind].
      assert (SZ : forall z, In z (children (set_child c s y')) -> Sized z).
      { intros z H. apply set_child_In in H. destruct H as [->|(t & N & H)]; [exact SY|]. intros u I.
        apply InTree_at_path in I. destruct I as [q Q]. destruct (OFF (t :: q) u) as [D|[r D]]; [cbn; rewrite H; exact Q|exact D|].
        injection D as D _. congruence. }
      assert (LZ : forall z, In z (children (set_child c s y')) -> LeafSizes z).
      { intros z H. apply set_child_In in H. destruct H as [->|(t & N & H)]; [exact LY|]. eapply Leaf_child; [exact L|]. eapply get_child_In; exact H. }
      assert (L' : LeafSizes (set_child c s y')).
      { apply Leaf_intro; [|exact LZ]. destruct c, s; cbn in *; auto; discriminate. }
      assert (U' : unsized (set_child c s y') = unsized c) by (eapply set_child_unsized; eassumption).
      rewrite update_own_ok; [|apply set_child_kinded; eapply Typed_kinded; eassumption|exact SZ|exact L'|].
      * cbn [obind]. eexists. split; [reflexivity|]. split; [|split].
        -- apply Sized_intro; [apply right_size_declares|]. intros z H. rewrite right_size_children in H. auto.
        -- rewrite right_size_unsized. exact U'.
        -- apply Leaf_intro; [destruct c, s; cbn in *; auto; discriminate|]. intros z H. rewrite right_size_children in H. auto.
      * rewrite <- encoded_unsized, U', encoded_unsized. exact B.
Qed.

(** Sizes and the rest determine a tree. *)
Lemma Sized_unique : forall a b, Sized a -> Sized b -> unsized a = unsized b -> a = b.
Proof.
  assert (ALL : forall l1 l2, (forall c, In c l1 -> forall b, Sized c -> Sized b -> unsized c = unsized b -> c = b) ->
    (forall c, In c l1 -> Sized c) -> (forall c, In c l2 -> Sized c) -> map unsized l1 = map unsized l2 -> l1 = l2).
  { induction l1 as [|c l1 IH]; intros [|d l2] H S1 S2 E; try discriminate; [reflexivity|]. cbn in E. injection E as E1 E2.
    f_equal; [apply H; auto using in_eq|]. apply IH; auto using in_cons. }
  induction a as [i s d|i s g subs IH|i s g props subs IHp IHs|i s vals] using chunk_tree_ind; intros b SA SB E;
    destruct b as [i2 z2 d2|i2 z2 g2 l2|i2 z2 g2 pp2 l2|i2 z2 v2]; cbn [unsized] in E; try discriminate; try exact E.
  - injection E as -> -> E. assert (subs = l2).
    { apply ALL; [exact IH| | |exact E]; intros c H; [apply (Sized_child _ c SA H)|apply (Sized_child _ c SB H)]. }
    subst l2. pose proof (SA _ (In_here _)) as D1. pose proof (SB _ (In_here _)) as D2. cbn in D1, D2. congruence.
  - injection E as -> -> E1 E2. assert (props = pp2).
    { apply ALL; [exact IHp| | |exact E1]; intros c H; [apply (Sized_child _ c SA)|apply (Sized_child _ c SB)]; apply in_or_app; auto. }
    assert (subs = l2).
    { apply ALL; [exact IHs| | |exact E2]; intros c H1; [apply (Sized_child _ c SA)|apply (Sized_child _ c SB)]; apply in_or_app; auto. }
    subst l2 pp2. pose proof (SA _ (In_here _)) as D1. pose proof (SB _ (In_here _)) as D2. cbn in D1, D2. congruence.
Qed.

Lemma Conforms_Sized : forall app c ft, Conforms app ft c -> Sized c.
Proof.
  intros app. induction c as [i s d|i s g subs IH|i s g props subs IHp IHs|i s vals] using chunk_tree_ind; intros ft C;
    apply Sized_intro; try exact I; try (intros ? []).
  - inversion C; subst; reflexivity.
  - intros y H. apply (IH y H g). inversion C; subst; match goal with K : forall c, In c subs -> _ |- _ => apply K; exact H end.
  - inversion C; subst; reflexivity.
  - intros y H. cbn [children] in H. apply in_app_or in H. inversion C; subst. destruct H as [H|H]; [apply (IHp y H g); auto|apply (IHs y H g)].
    match goal with K : forall c, In c subs -> _ |- _ => apply K; exact H end.
Qed.
