(** * Properties C26-C31 and C59: IFF_check *)

From Coq Require Import ZArith List Bool String Lia.
From Coq Require Import Strings.Byte.
From Verif Require Import Machine Io Types Build Read Write Check Compare Iff TestExt Spec Lemmas IoProofs RegProofs WriteProofs EncodeProofs
  Grammar ReadProofs SoundProofs RoundProofs ApiProofs IdProofs Examples CheckProofs CompareProofs ConfProofs BuiltProofs
  PropRegistry PropRead PropWrite.
Import ListNotations.
Open Scope Z_scope.

(** The tree may stand at the top of a file. *)
Definition top_level (c : chunk) : Prop := In (chunkId c) [FORM_ID; CAT_ID; LIST_ID].

Lemma check_root : forall c rg e w, top_level c -> IFF_check c rg e w = IFF_checkChunk (selectChunkRegistry rg) c 0 e w.
Proof.
  intros c rg e w H. unfold IFF_check. change IFF_ID_FORM with FORM_ID. change IFF_ID_CAT with CAT_ID. change IFF_ID_LIST with LIST_ID.
  destruct H as [<-|[<-|[<-|[]]]]; reflexivity.
Qed.
Lemma check_not_root : forall c rg, ~ top_level c ->
  IFF_check c rg = (IFF_error ("Not a valid IFF-85 file: First bytes should start with either: 'FORM', 'CAT ' or 'LIST'" ++ nl)%string ;;; ret false).
Proof.
  intros c rg H. unfold IFF_check. change IFF_ID_FORM with FORM_ID. change IFF_ID_CAT with CAT_ID. change IFF_ID_LIST with LIST_ID.
  unfold top_level in H. simpl in H.
  rewrite !(proj2 (Z.eqb_neq _ _)) by (intro; apply H; auto). reflexivity.
Qed.
Lemma top_dec : forall c, top_level c \/ ~ top_level c.
Proof. intro c. apply In_dec_Z. Qed.

(** ** C26.  IFF_check answers, on every host and in every state, and says TRUE
    exactly for the conforming trees of [Conforms] (Spec.v). *)
Theorem C26_check_decides_conformance : forall rg app c e w,
  Realises (selectChunkRegistry rg) app -> Typed app 0 c -> Represented c -> LeafSizes c -> encoded_size c <= INT_MAX ->
  exists b w', IFF_check c rg e w = Done (b, w') /\ (b = true <-> top_level c /\ Conforms app 0 c).
Proof.
  intros rg app c e w RG T R L S. destruct (top_dec c) as [K|K].
  - rewrite check_root by exact K. destruct (check_decides _ _ RG c 0 T R L S e w) as [[C E]|[C (w' & E & _)]]; rewrite E;
      eexists _, _; (split; [reflexivity|]); split; try discriminate; tauto.
  - rewrite check_not_root by exact K. eexists _, _. split; [reflexivity|]. split; [discriminate|tauto].
Qed.
Print Assumptions C26_check_decides_conformance.

(** Both answers occur on trees that meet the hypotheses. *)
Definition bad_cat : chunk := group "CAT " "TEST" [group "FORM" "ABCD" []].
Example C26_example :
  (Typed no_apps 0 ex_cat /\ Represented ex_cat /\ LeafSizes ex_cat /\ encoded_size ex_cat <= INT_MAX /\
   IFF_check ex_cat None (host false) (start []) = Done (true, start [])) /\
  (Typed no_apps 0 bad_cat /\ Represented bad_cat /\ LeafSizes bad_cat /\ encoded_size bad_cat <= INT_MAX /\
   exists w, IFF_check bad_cat None (host false) (start []) = Done (false, w)).
Proof.
  destruct (WF_properties no_apps ex_cat 0 ex_cat_wf) as (T & R & L).
  assert (W : WF no_apps 0 bad_cat) by prove_wf.
  destruct (WF_properties no_apps bad_cat 0 W) as (T2 & R2 & L2).
  split; (split; [assumption|split; [assumption|split; [apply LeafData_sizes; assumption|split; [vm_compute; discriminate|]]]]).
  - vm_compute. reflexivity.
  - eexists. vm_compute. reflexivity.
Qed.

(** Above 2 GiB the sums wrap: a FORM of declared size 4 with two data chunks of
    2147483640 bytes each passes, whatever their data, and does not conform. *)
Definition wrapped (d : option (list byte)) : chunk :=
  CGroup FORM_ID 4 (ID_of "TEST") [CRaw (ID_of "DATA") 2147483640 d; CRaw (ID_of "DATA") 2147483640 d].
Theorem C26_wrapped_sizes_refuted : forall d e w,
  IFF_check (wrapped d) None e w = Done (true, w) /\ ~ Conforms no_apps 0 (wrapped d).
Proof.
  intros d e w. split.
  - destruct w, e as [[] [] ll st mo ga]; vm_compute; reflexivity.
  - intro C. inversion C. match goal with H : 4 = 4 + body_size _ |- _ => vm_compute in H; discriminate H end.
Qed.
Print Assumptions C26_wrapped_sizes_refuted.

(** ** C27.  A tree that passes IFF_check and whose data chunks are as long as
    declared is written, read back as the same tree on any host, and compares
    equal to the original. *)
Theorem C27_checked_trees_survive : forall rg app c e0 e1 e2 w0 w0' w1,
  Realises (selectChunkRegistry rg) app -> SaneApps app -> usual e1 -> usual e2 ->
  Typed app 0 c -> Represented c -> LeafData c -> encoded_size c <= INT_MAX ->
  IFF_check c rg e0 w0 = Done (true, w0') ->
  new_output w1 -> o_room (w_out w1) = None ->
  exists w2, IFF_writeFd c rg e1 w1 = Done (true, w2) /\
  forall w3 t, r_rest (w_in w3) = handed (w_out w2) ++ t -> r_seekable (w_in w3) = true \/ Covered c ->
  exists c' w4, IFF_readFd rg e2 w3 = Done (Some c', w4) /\ c' = c /\
    IFF_check c' rg e2 w4 = Done (true, w4) /\ IFF_compare e2 c c' rg = Done true.
Proof.
  intros rg app c e0 e1 e2 w0 w0' w1 RG SA U1 U2 T R L SZ H NO NR.
  pose proof (LeafData_sizes _ L) as LS.
  destruct (C26_check_decides_conformance rg app c e0 w0 RG T R LS SZ) as (b & wb & E & B). rewrite E in H. injection H as -> _.
  destruct (proj1 B eq_refl) as [TL C].
  pose proof (Conforms_size _ _ _ C LS) as CS. pose proof (physical_range (chunkSize c)).
  assert (W : WF app 0 c) by (apply Conforms_WF; auto; lia).
  destruct (C21_writing_succeeds rg app e1 c w1 RG U1 W NR) as [w2 E2]. exists w2. split; [exact E2|].
  intros w3 t R3 SK.
  assert (LE : zlength (encode c) < 2 ^ (size_t_bits e2 - 1)).
  { rewrite (WF_encode_length _ _ _ W), CS. unfold INT_MAX, size_t_bits in *. destruct (lp64 e2); [|];
      change (2 ^ (64 - 1)) with 9223372036854775808; change (2 ^ (32 - 1)) with 2147483648; lia. }
  destruct (C16_write_then_read rg app c e1 e2 w1 w2 RG SA U1 U2 W LE NO E2 w3 t R3 SK) as (w4 & E4 & _).
  exists c, w4. split; [exact E4|]. split; [reflexivity|]. split.
  - rewrite check_root by exact TL. destruct (check_decides _ _ RG c 0 T R LS SZ e2 w4) as [[_ X]|[X _]]; [exact X|contradiction].
  - assert (LB : LeafBlocks c).
    { intros i s d I. pose proof (L _ I) as (l & -> & <-). cbn [data_of]. split; [|lia].
      assert (X : forall y c, InTree y c -> forall ft, WF app ft c -> exists ft, WF app ft y).
      { clear. intros y c I. induction I; intros ft W; eauto; inversion W; subst; eauto.
        - match goal with H : forall c, In c props -> _ |- _ => destruct (H c) as [? _]; [assumption|] end. eauto.
        - match goal with H : forall c, In c subs -> _ |- _ => destruct (H c) as [? _]; [assumption|] end. eauto. }
      destruct (X _ _ I 0 W) as [ft X2]. inversion X2; subst. unfold zlength in *. lia. }
    destruct (proj1 (compare_ok e2 _ app RG c) 0 c T T LB LB) as (b & EC & BC).
    unfold IFF_compare. rewrite EC. rewrite (proj2 BC eq_refl). reflexivity.
Qed.
Print Assumptions C27_checked_trees_survive.

Example C27_example : Typed no_apps 0 ex_cat /\ Represented ex_cat /\ LeafData ex_cat /\ encoded_size ex_cat <= INT_MAX /\
  IFF_check ex_cat None (host false) (start []) = Done (true, start []) /\
  new_output (start []) /\ o_room (w_out (start [])) = None.
Proof.
  destruct (WF_properties no_apps ex_cat 0 ex_cat_wf) as (T & R & L).
  split; [exact T|]. split; [exact R|]. split; [exact L|]. split; [vm_compute; discriminate|].
  split; [vm_compute; reflexivity|]. split; [split; reflexivity|reflexivity].
Qed.

(** ** C28.  For every tree, registry, host and state: whenever IFF_check
    answers, FALSE comes with a diagnostic, and TRUE changes nothing. *)
Theorem C28_false_iff_reported : forall c rg e w b w', IFF_check c rg e w = Done (b, w') ->
  (b = false <-> reported w w') /\ (b = true -> w' = w).
Proof.
  assert (V : forall m, Verdict m -> forall e w b w', m e w = Done (b, w') -> (b = false <-> reported w w') /\ (b = true -> w' = w)).
  { intros m H e w b w' E. specialize (H e w). rewrite E in H. destruct H as (lg & -> & L). split.
    - unfold reported. split.
      + intros ->. exists lg. split; [intro X; pose proof (proj2 L X); discriminate|]. destruct w; reflexivity.
      + intros (lg2 & N & E2). destruct b; [|reflexivity]. rewrite (proj1 L eq_refl) in E2. exfalso. apply N.
        apply (f_equal (@List.length _)) in E2. destruct w. cbn in E2. rewrite app_length in E2.
        destruct lg2; [reflexivity|]. cbn in E2. lia.
    - intros ->. rewrite (proj1 L eq_refl). apply add_log_nil. }
  intros c rg e w b w'. destruct (top_dec c) as [K|K].
  - rewrite check_root by exact K. apply V. apply checkChunk_verdict.
  - rewrite check_not_root by exact K. apply (V (IFF_error _ ;;; ret false)). apply Verdict_error_false.
Qed.
Print Assumptions C28_false_iff_reported.

Example C28_example : exists w, IFF_check bad_cat None (host false) (start []) = Done (false, w) /\
  w_log w = [("Sub form does not match contentsType of the CAT!" ++ nl)%string].
Proof. eexists. vm_compute. split; reflexivity. Qed.

(** ** C29.  Only FORM, CAT and LIST may be at the top. *)
Theorem C29_other_roots_rejected : forall c rg e w, ~ In (chunkId c) [ID_of "FORM"; ID_of "CAT "; ID_of "LIST"] ->
  exists w', IFF_check c rg e w = Done (false, w') /\ reported w w'.
Proof.
  intros c rg e w H. rewrite check_not_root by exact H. eexists. split; [reflexivity|].
  eexists [_]. split; [discriminate|]. destruct w; reflexivity.
Qed.
Print Assumptions C29_other_roots_rejected.

Example C29_example : exists w, IFF_check (group "PROP" "TEST" []) None (host true) (start []) = Done (false, w).
Proof. eexists. vm_compute. reflexivity. Qed.

(** ** C30.  Whatever is built through the API (see [Built]) passes IFF_check
    as long as its encoding stays below 2 GiB, and such additions succeed. *)
Theorem C30_built_trees_pass : forall rg app c e w,
  Realises (selectChunkRegistry rg) app -> Built app 0 c -> top_level c -> encoded_size c <= INT_MAX ->
  IFF_check c rg e w = Done (true, w).
Proof.
  intros rg app c e w RG B K SZ. destruct (Built_ok _ _ _ B) as [T C]. specialize (C SZ).
  rewrite check_root by exact K.
  destruct (check_decides _ _ RG c 0 T (Conforms_Represented _ _ _ C) (Built_leaves _ _ _ B) SZ e w) as [[_ E]|[X _]]; [exact E|contradiction].
Qed.
Print Assumptions C30_built_trees_pass.

Theorem C30_additions_succeed : forall app ft ft' f g subs c e w, usual e ->
  Built app ft f -> Built app ft' c -> as_group f = Some (g, subs) -> encoded_size f + encoded_size c <= INT_MAX ->
  exists f' w', IFF_addToGroup f c e w = Done (f', w') /\ as_group f' = Some (g, subs ++ [c]) /\ w_log w' = w_log w.
Proof.
  intros app ft ft' f g subs c e w U BF BC A SZ.
  pose proof (Built_leaves _ _ _ BF) as LF. pose proof (Built_leaves _ _ _ BC) as LC.
  pose proof (encoded_size_pos _ LF). pose proof (encoded_size_pos _ LC).
  destruct (addToGroup_succeeds app ft ft' f g subs c e w U) as (w' & E & LG & _); auto.
  - apply (Built_ok _ _ _ BF). lia.
  - apply (Built_ok _ _ _ BC). lia.
  - eexists _, w'. split; [exact E|]. split; [|exact LG]. destruct f; cbn in *; try discriminate; injection A as <- <-; reflexivity.
Qed.
Print Assumptions C30_additions_succeed.

(** A LIST with a PROP and a FORM of a data chunk, built step by step. *)
Definition runs {A} (m : M A) : outcome A := match m (host false) (start []) with Done (a, _) => Done a | Undefined u => Undefined u | OutOfFuel => OutOfFuel end.
Definition built_list : M (option chunk) :=
  r <- IFF_createRawChunk (ID_of "BODY") 3 ;;
  f <- IFF_createEmptyForm (ID_of "TEST") ;;
  p <- IFF_createEmptyProp (ID_of "TEST") ;;
  l <- IFF_createEmptyList ;;
  match r, f, p, l with
  | Some r, Some f, Some p, Some l =>
      r <- lift (IFF_setRawChunkData r (bytes "xyz") 3) ;;
      f <- IFF_addToGroup f r ;;
      p <- IFF_addToGroup p r ;;
      l <- IFF_addPropToList l p ;;
      l <- IFF_addToCATAndUpdateContentsType l f ;;
      ret (Some l)
  | _, _, _, _ => ret None
  end.
Example C30_example : exists c, runs built_list = Done (Some c) /\ Built no_apps 0 c /\
  c = listc "TEST" [group "PROP" "TEST" [raw "BODY" "xyz"]] [group "FORM" "TEST" [raw "BODY" "xyz"]] /\
  IFF_check c None (host false) (start []) = Done (true, start []).
Proof.
  assert (VT : ValidFormType (ID_of "TEST")).
  { destruct (checkFormType_decides (ID_of "TEST") ltac:(vm_compute; split; congruence) (host false) (start [])) as [[V _]|[_ (w' & E & _)]];
      [exact V|]. vm_compute in E. discriminate. }
  assert (VI : forall i, in_range FId i -> IFF_checkId i (host false) (start []) = Done (true, start []) -> ValidId i).
  { intros i R E. destruct (checkId_decides i R (host false) (start [])) as [[V _]|[_ (w' & E2 & _)]]; [exact V|]. rewrite E in E2. discriminate. }
  assert (B : Built no_apps (ID_of "TEST") (raw "BODY" "xyz")).
  { eapply (Built_raw _ _ (ID_of "BODY") 3 (host false) (start []) _ _ (bytes "xyz")).
    - apply VI; [vm_compute; split; congruence|vm_compute; reflexivity].
    - wf_id.
    - reflexivity.
    - vm_compute. reflexivity.
    - vm_compute. reflexivity. }
  eexists. split; [vm_compute; reflexivity|]. split; [|split; [reflexivity|vm_compute; reflexivity]].
  eapply (Built_add_update no_apps 0 (listc "JJJJ" [group "PROP" "TEST" [raw "BODY" "xyz"]] []) 0 (group "FORM" "TEST" [raw "BODY" "xyz"]) (host false) (start [])).
  - eapply (Built_add_list_prop no_apps 0 (listc "JJJJ" [] []) JJJJ_ID (group "PROP" "TEST" [raw "BODY" "xyz"]) (host false) (start []));
      [|reflexivity|reflexivity| |reflexivity|vm_compute; reflexivity].
    + eapply (Built_list no_apps 0 JJJJ_ID (host false) (start [])); [apply JJJJ_valid|vm_compute; reflexivity].
    + eapply (Built_add_prop no_apps JJJJ_ID (group "PROP" "TEST" []) (ID_of "TEST") (raw "BODY" "xyz") (host false) (start []));
        [|reflexivity|reflexivity|exact B|wf_id|vm_compute; reflexivity].
      eapply (Built_prop no_apps JJJJ_ID (ID_of "TEST") (host false) (start [])); [exact VT|vm_compute; reflexivity].
  - simpl. tauto.
  - eapply (Built_add_form no_apps 0 (group "FORM" "TEST" []) (ID_of "TEST") (raw "BODY" "xyz") (host false) (start []));
      [|reflexivity|reflexivity|exact B|vm_compute; discriminate|vm_compute; reflexivity].
    eapply (Built_form no_apps 0 (ID_of "TEST") (host false) (start [])); [exact VT|vm_compute; reflexivity].
  - simpl. tauto.
  - vm_compute. reflexivity.
Qed.

(** ** C31.  Rules of the standard that IFF_check does not enforce, on every
    host. *)

(** The number of PROPs of a LIST for a FORM type. *)
Definition props_for (ft : Z) (props : list chunk) : nat :=
  List.length (filter (fun p => match group_type_of p with Some g => g =? ft | None => false end) props).

Ltac on_every_host := match goal with |- IFF_check _ _ ?e ?w = _ => destruct w, e as [[] [] ll st mo ga]; vm_compute; reflexivity end.

(** "A LIST may have at most one PROP of a FORM type." *)
Definition two_props : chunk :=
  listc "TEST" [group "PROP" "TEST" [raw "COLR" "r"]; group "PROP" "TEST" [raw "COLR" "g"]] [].
Theorem C31_duplicate_props_refuted : forall e w,
  IFF_check two_props None e w = Done (true, w) /\
  match two_props with CList _ _ _ props _ => props_for (ID_of "TEST") props = 2%nat | _ => False end.
Proof. intros e w. split; [on_every_host|reflexivity]. Qed.
Print Assumptions C31_duplicate_props_refuted.

(** "FOR1 thru FOR9, CAT1 thru CAT9 and LIS1 thru LIS9 are reserved": accepted
    as chunk IDs inside a FORM. *)
Theorem C31_reserved_ids_refuted : forall e w,
  In (ID_of "FOR1") reserved_ids /\
  IFF_check (group "FORM" "TEST" [raw "FOR1" "ab"]) None e w = Done (true, w).
Proof. intros e w. split; [vm_compute; tauto|on_every_host]. Qed.
Print Assumptions C31_reserved_ids_refuted.

(** "Type IDs may not contain lower case letters or punctuation marks": only
    the full stop is rejected. *)
Theorem C31_punctuation_refuted : forall e w,
  IFF_check (group "FORM" "A,B!" []) None e w = Done (true, w).
Proof. intros e w. on_every_host. Qed.
Print Assumptions C31_punctuation_refuted.

(** "The ID '    ' (four spaces) is filler": such a chunk is rejected. *)
Theorem C31_filler_refuted : forall e w,
  exists w', IFF_check (group "FORM" "TEST" [raw "    " "ab"]) None e w = Done (false, w').
Proof. intros e w. destruct w, e as [[] [] ll st mo ga]; eexists; vm_compute; reflexivity. Qed.
Print Assumptions C31_filler_refuted.

(** ** C59.  Whatever was read and passes IFF_check is stable from then on:
    writing it and reading it again gives the same tree. *)
Theorem C59_read_trees_are_stable : forall e0 e1 e2 e3 w0 w0' w1 w1' c w2,
  usual e0 -> zlength (r_rest (w_in w0)) <= INT_MAX -> IFF_readFd None e0 w0 = Done (Some c, w0') ->
  IFF_check c None e1 w1 = Done (true, w1') ->
  usual e2 -> usual e3 -> new_output w2 -> o_room (w_out w2) = None ->
  exists w3, IFF_writeFd c None e2 w2 = Done (true, w3) /\
  forall w4, r_rest (w_in w4) = handed (w_out w3) ->
  exists w5, IFF_readFd None e3 w4 = Done (Some c, w5) /\ w_log w5 = w_log w4.
Proof.
  intros e0 e1 e2 e3 w0 w0' w1 w1' c w2 U0 LM H CK U2 U3 NO NR.
  destruct (readFd_sound None no_apps e0 w0 c w0' default_registry (not_strict _ U0) no_apps_sane (or_intror no_apps_none) H)
    as (l & t & lg & n & P & R & _).
  destruct (proj1 (Parsed_properties e0 no_apps no_apps_none) _ _ _ _ P) as (RP & LD & SZ).
  pose proof (proj1 (Parsed_Typed e0 no_apps) _ _ _ _ P) as T.
  assert (SZ2 : encoded_size c <= INT_MAX).
  { rewrite R, zlength_app in LM. pose proof (zlength_nonneg _ t). lia. }
  assert (W : WF no_apps 0 c).
  { destruct (C26_check_decides_conformance None no_apps c e1 w1 default_registry T RP (LeafData_sizes _ LD) SZ2) as (b & wb & E & B).
    rewrite E in CK. injection CK as -> _. destruct (proj1 B eq_refl) as [_ C]. apply Conforms_WF; auto.
    pose proof (Conforms_size _ _ _ C (LeafData_sizes _ LD)). pose proof (physical_range (chunkSize c)). lia. }
  destruct (C27_checked_trees_survive None no_apps c e1 e2 e3 w1 w1' w2 default_registry no_apps_sane U2 U3 T RP LD SZ2 CK NO NR)
    as (w3 & E3 & _).
  exists w3. split; [exact E3|]. intros w4 R4.
  pose proof (no_apps_covered _ _ W) as CV.
  assert (LE : zlength (encode c) < 2 ^ (size_t_bits e3 - 1)).
  { rewrite (WF_encode_length _ _ _ W). unfold INT_MAX, size_t_bits in *.
    destruct (C26_check_decides_conformance None no_apps c e1 w1 default_registry T RP (LeafData_sizes _ LD) SZ2) as (b & wb & E & B).
    rewrite E in CK. injection CK as -> _. destruct (proj1 B eq_refl) as [_ C].
    rewrite (Conforms_size _ _ _ C (LeafData_sizes _ LD)).
    destruct (lp64 e3); change (2 ^ (64 - 1)) with 9223372036854775808; change (2 ^ (32 - 1)) with 2147483648; lia. }
  destruct (C16_write_then_read None no_apps c e2 e3 w2 w3 default_registry no_apps_sane U2 U3 W LE NO E3 w4 [])
    as (w5 & E5 & _ & _ & LG); [rewrite app_nil_r; exact R4|right; exact CV|].
  exists w5. split; [exact E5|]. exact (LG CV eq_refl).
Qed.
Print Assumptions C59_read_trees_are_stable.

(** A LIST stored with its PROP behind a FORM, and with nonzero pad bytes, is
    read, passes IFF_check, and is rewritten with the PROP in front. *)
Definition disordered : list byte :=
  be32 LIST_ID ++ be32 38 ++ bytes "TEST"
  ++ (be32 FORM_ID ++ be32 4 ++ bytes "TEST")
  ++ (be32 PROP_ID ++ be32 14 ++ bytes "TEST" ++ bytes "COLR" ++ be32 1 ++ [x72; xff]).
Definition reordered : chunk := listc "TEST" [group "PROP" "TEST" [raw "COLR" "r"]] [group "FORM" "TEST" []].
Example C59_example :
  (exists w, IFF_readFd None (host false) (start disordered) = Done (Some reordered, w)) /\
  IFF_check reordered None (host true) (start []) = Done (true, start []) /\ encode reordered <> disordered.
Proof.
  split; [eexists; vm_compute; reflexivity|]. split; [vm_compute; reflexivity|]. vm_compute. discriminate.
Qed.

(** "PROP chunks for the fake FORM type LIST hold the properties for LIST":
    such a PROP is rejected. *)
Theorem C31_prop_for_list_refuted : forall e w,
  exists w', IFF_check (listc "TEST" [group "PROP" "LIST" [raw "OPGM" "ab"]] []) None e w = Done (false, w').
Proof. intros e w. destruct w, e as [[] [] ll st mo ga]; eexists; vm_compute; reflexivity. Qed.
Print Assumptions C31_prop_for_list_refuted.
