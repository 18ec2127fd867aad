(** * Properties C32 and C33: IFF_compare *)

From Coq Require Import ZArith List Bool String Lia.
From Coq Require Import Strings.Byte.
From Verif Require Import Machine Io Types Build Write Check Compare Iff TestExt Spec Lemmas IoProofs RegProofs WriteProofs EncodeProofs
  DetProofs RoundProofs FileProofs Examples CheckProofs CompareProofs ConfProofs BuiltProofs PropRegistry PropRead.
Import ListNotations.
Open Scope Z_scope.

(** ** C32.  On well-typed trees IFF_compare always answers, on any host, and is
    an equivalence relation. *)
Definition Comparable (app : apps) (c : chunk) : Prop := Typed app 0 c /\ LeafBlocks c.

Lemma compare_visible : forall rg app e c1 c2, Realises (selectChunkRegistry rg) app -> Comparable app c1 -> Comparable app c2 ->
  Answers (IFF_compare e c1 c2 rg) (visible c1 = visible c2).
Proof. intros rg app e c1 c2 RG [T1 L1] [T2 L2]. exact (proj1 (compare_ok e _ app RG c1) 0 c2 T1 T2 L1 L2). Qed.

Theorem C32_always_answers : forall rg app e c1 c2, Realises (selectChunkRegistry rg) app -> Comparable app c1 -> Comparable app c2 ->
  exists b, IFF_compare e c1 c2 rg = Done b.
Proof. intros rg app e c1 c2 RG H1 H2. destruct (compare_visible rg app e c1 c2 RG H1 H2) as (b & E & _). eauto. Qed.
Print Assumptions C32_always_answers.

Theorem C32_reflexive : forall rg app e c, Realises (selectChunkRegistry rg) app -> Comparable app c ->
  IFF_compare e c c rg = Done true.
Proof. intros rg app e c RG H. destruct (compare_visible rg app e c c RG H H) as (b & E & B). rewrite E, (proj2 B eq_refl). reflexivity. Qed.
Print Assumptions C32_reflexive.

Theorem C32_symmetric : forall rg app e1 e2 c1 c2, Realises (selectChunkRegistry rg) app -> Comparable app c1 -> Comparable app c2 ->
  IFF_compare e1 c1 c2 rg = IFF_compare e2 c2 c1 rg.
Proof.
  intros rg app e1 e2 c1 c2 RG H1 H2. destruct (compare_visible rg app e1 c1 c2 RG H1 H2) as (b & E & B).
  destruct (compare_visible rg app e2 c2 c1 RG H2 H1) as (b2 & E2 & B2). rewrite E, E2. f_equal.
  destruct b, b2; try reflexivity.
  - symmetry. apply B2. symmetry. apply B. reflexivity.
  - apply B. symmetry. apply B2. reflexivity.
Qed.
Print Assumptions C32_symmetric.

Theorem C32_transitive : forall rg app e c1 c2 c3, Realises (selectChunkRegistry rg) app ->
  Comparable app c1 -> Comparable app c2 -> Comparable app c3 ->
  IFF_compare e c1 c2 rg = Done true -> IFF_compare e c2 c3 rg = Done true -> IFF_compare e c1 c3 rg = Done true.
Proof.
  intros rg app e c1 c2 c3 RG H1 H2 H3 A B. destruct (compare_visible rg app e c1 c2 RG H1 H2) as (b & E & BB).
  destruct (compare_visible rg app e c2 c3 RG H2 H3) as (b2 & E2 & B2). destruct (compare_visible rg app e c1 c3 RG H1 H3) as (b3 & E3 & B3).
  rewrite E in A. rewrite E2 in B. injection A as ->. injection B as ->. rewrite E3. f_equal. apply B3.
  rewrite (proj1 BB eq_refl). apply B2. reflexivity.
Qed.
Print Assumptions C32_transitive.

Lemma WF_sub : forall app y c, InTree y c -> forall ft, WF app ft c -> exists ft, WF app ft y.
Proof.
  intros app y c I. induction I; intros ft W; eauto; inversion W; subst; eauto.
  - match goal with H : forall c, In c props -> _ |- _ => destruct (H c) as [? _]; [assumption|] end. eauto.
  - match goal with H : forall c, In c subs -> _ |- _ => destruct (H c) as [? _]; [assumption|] end. eauto.
Qed.
Lemma WF_Comparable : forall app c, WF app 0 c -> Comparable app c.
Proof.
  intros app c W. destruct (WF_properties _ _ _ W) as (T & _ & L). split; [exact T|].
  intros i s d I. destruct (L _ I) as (l & -> & E). destruct (WF_sub _ _ _ I _ W) as [ft X]. inversion X; subst.
  cbn [data_of]. pose proof (zlength_nonneg _ l). lia.
Qed.

Example C32_example : Comparable no_apps ex_cat /\ Comparable no_apps ex_list /\
  IFF_compare (host false) ex_cat ex_list None = Done false /\ IFF_compare (host true) ex_cat ex_cat None = Done true.
Proof.
  split; [apply WF_Comparable, ex_cat_wf|]. split; [apply WF_Comparable, ex_list_wf|]. split; vm_compute; reflexivity.
Qed.

(** ** C33.  On trees whose sizes and data agree (in particular on those that
    pass IFF_check, C27), TRUE means identical, and so does having the same
    encoding. *)
Lemma visible_inj : forall app c1 ft c2, WF app ft c1 -> WF app ft c2 -> visible c1 = visible c2 -> c1 = c2.
Proof.
  intro app.
  assert (ALL : forall g l1, (forall c, In c l1 -> forall ft c2, WF app ft c -> WF app ft c2 -> visible c = visible c2 -> c = c2) ->
    forall l2, (forall c, In c l1 -> WF app g c) -> (forall c, In c l2 -> WF app g c) -> map visible l1 = map visible l2 -> l1 = l2).
  { intros g l1. induction l1 as [|c1 l1 IH]; intros H [|c2 l2] W1 W2 E; try discriminate; [reflexivity|].
    cbn [map] in E. injection E as E1 E2. f_equal.
    - eapply (H c1 (or_introl eq_refl)); [apply W1; left; reflexivity|apply W2; left; reflexivity|exact E1].
    - apply IH; auto; intros; [eapply H; eauto; right; assumption|apply W1; right; assumption|apply W2; right; assumption]. }
  assert (PROPS : forall g l1, (forall c, In c l1 -> forall ft c2, WF app ft c -> WF app ft c2 -> visible c = visible c2 -> c = c2) ->
    forall l2, (forall c, In c l1 -> WF app g c /\ chunkId c = PROP_ID) -> (forall c, In c l2 -> WF app g c /\ chunkId c = PROP_ID) ->
    map (fun p => set_chunkSize (visible p) 0) l1 = map (fun p => set_chunkSize (visible p) 0) l2 -> l1 = l2).
  { intros g l1. induction l1 as [|c1 l1 IH]; intros H [|c2 l2] W1 W2 E; try discriminate; [reflexivity|].
    cbn [map] in E. injection E as E1 E2. f_equal.
    - destruct (W1 c1 (or_introl eq_refl)) as [X1 P1], (W2 c2 (or_introl eq_refl)) as [X2 P2].
      eapply (H c1 (or_introl eq_refl)); [exact X1|exact X2|].
      inversion X1; subst; cbn [chunkId] in *; subst; try (exfalso; unfold group_ids in *; simpl in *; tauto); try discriminate.
      inversion X2; subst; cbn [chunkId] in *; subst; try (exfalso; unfold group_ids in *; simpl in *; tauto); try discriminate.
      cbn [visible set_chunkSize] in *. injection E1 as -> E1. rewrite E1.
      f_equal. rewrite !(encode_body app g1) by assumption. f_equal. revert E1. clear.
      unfold body_size. revert subs0. induction subs as [|a l IH]; intros [|b m] E; try discriminate; [reflexivity|].
      cbn [map] in *. injection E as E1 E2. cbn [sum fold_right]. change (fold_right Z.add 0) with sum. rewrite (IH m E2).
      destruct (visible_head a) as [_ A], (visible_head b) as [_ B]. rewrite <- A, <- B, E1. reflexivity.
    - apply IH; auto; intros; [eapply H; eauto; right; assumption|apply W1; right; assumption|apply W2; right; assumption]. }
  induction c1 as [i s d|i s g subs IH|i s g props subs IHp IHs|i s vals] using chunk_tree_ind; intros ft c2 W1 W2 E;
    destruct c2 as [i2 s2 d2|i2 s2 g2 subs2|i2 s2 g2 props2 subs2|i2 s2 v2]; try discriminate; cbn [visible] in E.
  - injection E as -> E1 E2. inversion W1; inversion W2; subst. cbn [data_of] in E2.
    rewrite ztake_all in E2 by lia. rewrite ztake_all in E2 by lia. subst. reflexivity.
  - injection E as -> -> -> E. inversion W1; inversion W2; subst. f_equal. eapply ALL; eauto.
  - injection E as -> -> -> E1 E2. inversion W1; inversion W2; subst. f_equal.
    + eapply (PROPS g2); eauto.
    + eapply (ALL g2); eauto; intros c HI; match goal with K : forall c, In c ?l -> _ /\ chunkId c <> _, HI : In c ?l |- _ => exact (proj1 (K c HI)) end.
  - injection E as -> -> ->. reflexivity.
Qed.

Theorem C33_true_means_identical : forall rg app e c1 c2, Realises (selectChunkRegistry rg) app -> WF app 0 c1 -> WF app 0 c2 ->
  exists b, IFF_compare e c1 c2 rg = Done b /\ (b = true <-> c1 = c2) /\ (b = true <-> encode c1 = encode c2).
Proof.
  intros rg app e c1 c2 RG W1 W2.
  destruct (compare_visible rg app e c1 c2 RG (WF_Comparable _ _ W1) (WF_Comparable _ _ W2)) as (b & E & B).
  exists b. split; [exact E|].
  assert (X : b = true <-> c1 = c2).
  { rewrite B. split; [apply (visible_inj app c1 0 c2 W1 W2)|intros ->; reflexivity]. }
  split; [exact X|]. rewrite X. split; [intros ->; reflexivity|]. intro EN.
  apply (encode_unambiguous app 0 c1 c2 [] [] W1 W2). rewrite EN. reflexivity.
Qed.
Print Assumptions C33_true_means_identical.

(** The same, with the hypothesis that both passed IFF_check. *)
Theorem C33_checked_trees : forall rg app e c1 c2, Realises (selectChunkRegistry rg) app ->
  (forall c, In c [c1; c2] -> Typed app 0 c /\ Represented c /\ LeafData c /\ encoded_size c <= INT_MAX /\
     exists w w', IFF_check c rg e w = Done (true, w')) ->
  exists b, IFF_compare e c1 c2 rg = Done b /\ (b = true <-> c1 = c2) /\ (b = true <-> encode c1 = encode c2).
Proof.
  intros rg app e c1 c2 RG H.
  assert (W : forall c, In c [c1; c2] -> WF app 0 c).
  { intros c HI. destruct (H c HI) as (T & R & L & S & w & w' & E). pose proof (LeafData_sizes _ L) as LS.
    assert (C : Conforms app 0 c).
    { unfold IFF_check in E. match type of E with (if ?b then _ else _) _ _ = _ => destruct b end; [discriminate|].
      destruct (check_decides _ _ RG c 0 T R LS S e w) as [[C _]|[_ (w2 & X & _)]]; [exact C|]. rewrite E in X. discriminate. }
    apply Conforms_WF; auto. pose proof (Conforms_size _ _ _ C LS). pose proof (physical_range (chunkSize c)). lia. }
  apply (C33_true_means_identical rg app e c1 c2 RG); apply W; simpl; tauto.
Qed.
Print Assumptions C33_checked_trees.

Example C33_example : WF no_apps 0 ex_cat /\ WF no_apps 0 ex_list /\ ex_cat <> ex_list /\
  IFF_compare (host false) ex_list ex_list None = Done true /\ IFF_compare (host false) ex_list ex_cat None = Done false.
Proof.
  split; [apply ex_cat_wf|]. split; [apply ex_list_wf|]. split; [discriminate|]. split; vm_compute; reflexivity.
Qed.

(** For trees whose sizes were not checked: two LISTs that differ in the size
    field of a PROP compare equal but are written differently, on every host. *)
Definition prop_sized (n : Z) : chunk := CList LIST_ID 16 (ID_of "TEST") [CGroup PROP_ID n (ID_of "TEST") []] [].
Theorem C33_prop_header_refuted : forall e,
  IFF_compare e (prop_sized 4) (prop_sized 6) None = Done true /\ prop_sized 4 <> prop_sized 6 /\
  emitted (prop_sized 4) <> emitted (prop_sized 6) /\
  Comparable no_apps (prop_sized 4) /\ Comparable no_apps (prop_sized 6).
Proof.
  intro e. split; [destruct e as [[] [] [] st mo ga]; vm_compute; reflexivity|]. split; [discriminate|].
  split; [vm_compute; discriminate|].
  assert (C : forall n, Comparable no_apps (prop_sized n)); [|split; apply C].
  intro n. split.
  - constructor; [|intros ? []]. intros c [<-|[]]. split; [|reflexivity]. constructor; [simpl; tauto|intros ? []].
  - intros i s d I. exfalso. apply InTree_list_inv in I. destruct I as [I|(c & [[<-|[]]|[]] & I)]; [discriminate|].
    apply InTree_group_inv in I. destruct I as [I|(c & [] & _)]. discriminate.
Qed.
Print Assumptions C33_prop_header_refuted.
