(** * C102: only the chunk types of the chunks that are there matter

    An application's registry may hold chunk types for more than a file uses, and
    two applications with different registries may use the same file.  What the
    library does with a tree depends on a registry only through the types it has
    for the chunks of that tree. *)

From Coq Require Import ZArith List Bool String Lia.
From Coq Require Import Strings.Byte.
From Verif Require Import Machine Io Types Build Read Write Check Compare Print Iff Spec Lemmas Grammar RegProofs ApiProofs Examples TestExt ExtFields ExtAgree AskedSpec AskedProofs PropRegistry PropWrite PropFields.
Import ListNotations.
Open Scope Z_scope.

(** ** C102.  A file that is read with one registry is read with another one to the
    same tree, with the same messages, if both have the same callbacks for the
    chunks of the tree.  (The callback that creates a LIST makes a chunk with the ID
    LIST whatever it is asked for, so it must be registered for that ID only.) *)
Theorem C102_reading : forall r1 r2 e w c w', ListsAreLists (selectChunkRegistry r1) ->
  IFF_readFd r1 e w = Done (Some c, w') ->
  same_types (selectChunkRegistry r1) (selectChunkRegistry r2) 0 c ->
  IFF_readFd r2 e w = Done (Some c, w').
Proof.
  intros r1 r2 e w c w' LL R S. unfold IFF_readFd in *. apply bind_ok in R. destruct R as ([c1|] & w1 & R & X); [|apply bind_ok in X; destruct X as (u & w2 & _ & X); discriminate X].
  assert (E : c1 = c).
  { pose proof X as Y. apply bind_ok in Y. destruct Y as ([b|] & w2 & _ & Y); [apply bind_ok in Y; destruct Y as (u & w3 & _ & Y)|]; injection Y as <- _; reflexivity. }
  subst c1. unfold bind at 1. rewrite (same_read _ _ LL _ _ _ _ _ _ R S). exact X.
Qed.
Print Assumptions C102_reading.

(** ** C102.  And it does not matter with which of them the tree is used. *)
Theorem C102_using : forall r1 r2 c, same_types (selectChunkRegistry r1) (selectChunkRegistry r2) 0 c ->
  (forall e w, IFF_writeFd c r1 e w = IFF_writeFd c r2 e w) /\
  (forall e w, IFF_check c r1 e w = IFF_check c r2 e w) /\
  (forall level, IFF_print c level r1 = IFF_print c level r2) /\
  (forall e c2, IFF_compare e c c2 r1 = IFF_compare e c c2 r2) /\
  IFF_free c r1 = IFF_free c r2.
Proof.
  intros r1 r2 c S. split; [intros e w; apply same_written; exact S|]. split.
  - intros e w. unfold IFF_check. destruct (_ && _); [reflexivity|]. apply same_checked. exact S.
  - split; [intro level; apply same_printed; exact S|]. split; [intros e c2; apply same_compared; exact S|apply same_freed; exact S].
Qed.
Print Assumptions C102_using.

(** ** C102.  In particular for registries that differ only in the form types that
    do not occur. *)
Theorem C102_other_form_types : forall r1 r2 c, SortedRegistry r1 -> SortedRegistry r2 ->
  rg_global r1 = rg_global r2 -> rg_default r1 = rg_default r2 ->
  (forall ft i, Asked 0 c ft i -> forall node, In (ft, node) (rg_forms r1) <-> In (ft, node) (rg_forms r2)) ->
  same_types (Some r1) (Some r2) 0 c.
Proof.
  intros r1 r2 c S1 S2 G D F ft i A. specialize (F ft i A). unfold find_handler.
  destruct (C09_scoping_total r1 ft i S1) as (node & res & SC & RS & _).
  rewrite (findChunkType_spec r1 ft i node res S1 SC RS).
  assert (SC2 : ScopeOf r2 ft node).
  { inversion SC as [n I E|N E]; subst; [apply Scope_form; apply F; exact I|]. rewrite G. apply Scope_global. intros n I. apply (N n). apply F. exact I. }
  rewrite (findChunkType_spec r2 ft i node res S2 SC2 RS), D. reflexivity.
Qed.
Print Assumptions C102_other_form_types.

(** ** C102.  The registry of the tests and of README.md, in which the application's
    types have no parent (C11: groups in a FORM TEST are mistaken for data): as
    long as no group stands in a group of type TEST, documents survive being
    written and read with it. *)
Definition no_groups_in_TEST (c : chunk) : Prop := forall i, Asked 0 c (ID_of "TEST") i -> ~ In i group_ids.

Lemma readme_types : forall c, no_groups_in_TEST c ->
  same_types (selectChunkRegistry (Some TEST_scopedRegistry)) (selectChunkRegistry (Some TEST_chunkRegistry)) 0 c.
Proof.
  intros c N ft i A. destruct (Z.eq_dec ft (ID_of "TEST")) as [->|D].
  - specialize (N i A). unfold group_ids in N. unfold find_handler, IFF_findChunkType, getFormChunkTypes.
    assert (F : bsearch fst (ID_of "TEST") (rg_forms TEST_scopedRegistry) = Some (ID_of "TEST", applicationChunkTypes :: IFF_globalChunkTypesNode)) by reflexivity.
    assert (F2 : bsearch fst (ID_of "TEST") (rg_forms TEST_chunkRegistry) = Some (ID_of "TEST", applicationChunkTypesNode)) by reflexivity.
    cbn [selectChunkRegistry]. rewrite F, F2. unfold applicationChunkTypesNode, IFF_globalChunkTypesNode. cbn [getChunkType].
    destruct (bsearch ct_id i applicationChunkTypes); [reflexivity|].
    destruct (bsearch ct_id i IFF_globalChunkTypes) as [ct|] eqn:B; [|reflexivity]. exfalso. apply N.
    unfold bsearch, IFF_globalChunkTypes in B. cbn -[Z.ltb IFF_ID_CAT IFF_ID_FORM IFF_ID_LIST IFF_ID_PROP] in B.
    repeat (match type of B with context [?x <? ?y] => destruct (Z.ltb_spec x y) end; cbn -[Z.ltb IFF_ID_CAT IFF_ID_FORM IFF_ID_LIST IFF_ID_PROP] in B); try discriminate B;
      cbn [In]; change FORM_ID with IFF_ID_FORM; change CAT_ID with IFF_ID_CAT; change LIST_ID with IFF_ID_LIST; change PROP_ID with IFF_ID_PROP; lia.
  - unfold find_handler, IFF_findChunkType, getFormChunkTypes. cbn [selectChunkRegistry].
    assert (F : forall n, bsearch fst ft [(ID_of "TEST", n : chain)] = None).
    { intro n. unfold bsearch. cbn -[Z.ltb ID_of]. destruct (Z.ltb_spec ft (ID_of "TEST")); [reflexivity|]. destruct (Z.ltb_spec (ID_of "TEST") ft); [reflexivity|lia]. }
    change (rg_forms TEST_scopedRegistry) with [(ID_of "TEST", applicationChunkTypes :: IFF_globalChunkTypesNode)].
    change (rg_forms TEST_chunkRegistry) with [(ID_of "TEST", applicationChunkTypesNode)]. rewrite !F. reflexivity.
Qed.

Lemma readme_sane : SaneApps (app_of TEST_scopedRegistry).
Proof.
  intros ft i spec E. assert (X : spec = TEST_Hello \/ spec = TEST_Bye); [|destruct X as [->| ->]; vm_compute; discriminate].
  unfold app_of, IFF_findChunkType, getFormChunkTypes, bsearch in E.
  cbn -[Z.ltb TEST_ID_TEST TEST_ID_HELO TEST_ID_BYE IFF_ID_FORM IFF_ID_CAT IFF_ID_LIST IFF_ID_PROP TEST_Hello TEST_Bye] in E.
  repeat (match type of E with context [?a <? ?b] => destruct (Z.ltb_spec a b) end;
          cbn -[Z.ltb TEST_ID_TEST TEST_ID_HELO TEST_ID_BYE IFF_ID_FORM IFF_ID_CAT IFF_ID_LIST IFF_ID_PROP TEST_Hello TEST_Bye] in E);
    try discriminate E; injection E as <-; auto.
Qed.

Theorem C102_readme_round_trip : forall c e1 e2 w1 w2, no_groups_in_TEST c ->
  usual e1 -> usual e2 -> WF (app_of TEST_scopedRegistry) 0 c -> zlength (encode c) < 2 ^ (size_t_bits e2 - 1) ->
  new_output w1 -> IFF_writeFd c (Some TEST_chunkRegistry) e1 w1 = Done (true, w2) ->
  forall w3 t, r_rest (w_in w3) = handed (w_out w2) ++ t -> r_seekable (w_in w3) = true \/ Covered c ->
  exists w4, IFF_readFd (Some TEST_chunkRegistry) e2 w3 = Done (Some c, w4) /\ r_rest (w_in w4) = tl t /\ w_out w4 = w_out w3 /\
    (Covered c -> t = [] -> w_log w4 = w_log w3).
Proof.
  intros c e1 e2 w1 w2 N U1 U2 W L NO E w3 t R SK. pose proof (readme_types c N) as S.
  destruct (C102_using _ _ c S) as (WR & _). rewrite <- WR in E.
  destruct (C16_write_then_read (Some TEST_scopedRegistry) _ c e1 e2 w1 w2 scoped_realises readme_sane U1 U2 W L NO E w3 t R SK) as (w4 & RD & X).
  exists w4. split; [|exact X]. apply (C102_reading (Some TEST_scopedRegistry) _ _ _ _ _ (Realises_lists _ _ scoped_realises) RD S).
Qed.
Print Assumptions C102_readme_round_trip.

(** A CAT of a document of that application and a FORM with a FORM in it *)
Definition mixed : chunk :=
  CGroup CAT_ID 68 (ID_of "JJJJ")
    [CGroup FORM_ID 32 (ID_of "TEST") [CFields (ID_of "HELO") 4 [(FUByte, 97); (FUByte, 98); (FUWord, 7)]; CFields (ID_of "BYE ") 8 [(FLong, 1); (FLong, -2)]];
     CGroup FORM_ID 16 (ID_of "ABCD") [CGroup FORM_ID 4 (ID_of "ABCD") []]].
Lemma mixed_WF : WF (app_of TEST_scopedRegistry) 0 mixed.
Proof.
  apply WF_group; [right; left; reflexivity|vm_compute; split; congruence| |reflexivity|vm_compute; congruence]. intros c [<-|[<-|[]]].
  - apply WF_group; [left; reflexivity|vm_compute; split; congruence| |reflexivity|vm_compute; congruence]. intros c [<-|[<-|[]]].
    + apply (WF_fields _ _ _ _ TEST_Hello); [vm_compute; split; congruence|vm_compute; intuition discriminate|reflexivity|reflexivity|repeat constructor; vm_compute; congruence|repeat constructor; vm_compute; congruence| |vm_compute; split; congruence].
      intros n kv E L. vm_compute in L. destruct n as [|[|[|[|n]]]]; try (exfalso; lia); discriminate E.
    + apply (WF_fields _ _ _ _ TEST_Bye); [vm_compute; split; congruence|vm_compute; intuition discriminate|reflexivity|reflexivity|repeat constructor; vm_compute; congruence|repeat constructor; vm_compute; congruence| |vm_compute; split; congruence].
      intros n kv E L. vm_compute in L. destruct n as [|[|[|n]]]; try (exfalso; lia); discriminate E.
  - apply WF_group; [left; reflexivity|vm_compute; split; congruence| |reflexivity|vm_compute; congruence]. intros c [<-|[]].
    apply WF_group; [left; reflexivity|vm_compute; split; congruence| |reflexivity|vm_compute; congruence]. intros c [].
Qed.
Example C102_example :
  WF (app_of TEST_scopedRegistry) 0 mixed /\ no_groups_in_TEST mixed /\
  (exists w, IFF_readFd (Some TEST_chunkRegistry) (host false) (start (encode mixed)) = Done (Some mixed, w) /\ w_log w = []) /\
  ~ same_types (selectChunkRegistry (Some TEST_chunkRegistry)) (selectChunkRegistry None) 0 mixed /\
  ~ no_groups_in_TEST nested_form.
Proof.
  split; [exact mixed_WF|]. split; [|split; [|split]].
  - intros i A. remember (ID_of "TEST") as t. remember 0 as z. inversion A as [|? ? ? ? ? x ? ? I A1| | |]; subst; [discriminate|].
    destruct I as [<-|[<-|[]]].
    + inversion A1 as [|? ? ? ? ? y ? ? J A2| | |]; subst. destruct J as [<-|[<-|[]]]; inversion A2; subst; vm_compute; intuition discriminate.
    + inversion A1 as [|? ? ? ? ? y ? ? J A2| | |]; subst. destruct J as [<-|[]]. inversion A2 as [|? ? ? ? ? y ? ? J A3| | |]; subst. destruct J.
  - eexists. split; vm_compute; reflexivity.
  - intro S. assert (A : Asked 0 mixed (ID_of "TEST") (ID_of "HELO")) by (eapply Asked_group; [left; reflexivity|]; eapply Asked_group; [left; reflexivity|]; apply (Asked_here _ (CFields _ _ _))).
    specialize (S _ _ A). vm_compute in S. discriminate S.
  - intro N. apply (N FORM_ID); [|left; reflexivity]. eapply Asked_group; [left; reflexivity|]. apply (Asked_here _ (CGroup _ _ _ _)).
Qed.

