(** * Property C87: the text that is printed, line by line *)

From Coq Require Import ZArith List Bool String Ascii Lia.
From Coq Require Import Strings.Byte.
From Verif Require Import Machine Io Types Build Read Write Check Print Iff Main Process TestExt LineSpec Spec Lemmas IoProofs RegProofs WriteProofs EncodeProofs
  Grammar SoundProofs RoundProofs ApiProofs FileProofs CheckProofs ConfProofs BuiltProofs PrintProofs LayoutSpec LayoutProofs Examples PropRegistry PropRead PropFields PropPrint PropTools PropMain PropProcess.
Import ListNotations.
Open Scope Z_scope.

Lemma has_data : forall c, HasData c -> BlocksOk c.
Proof.
  intros c H i s d I. destruct (H i s d I) as [l [[L _]|(more & -> & <-)]]; [left; exact L|]. right. exists (l ++ more). split; [reflexivity|]. unfold zlength. rewrite List.app_length. lia.
Qed.

(** IFF_print prints the lines of the document that LayoutSpec.v describes,
    and there is exactly one. *)
Theorem C87_layout : forall rg app c level, Realises (selectChunkRegistry rg) app -> Typed app 0 c -> HasData c ->
  exists lines, Doc app 0 level c lines /\ (forall other, Doc app 0 level c other -> other = lines) /\
    IFF_print c level rg = Done (text_of_lines lines).
Proof.
  intros rg app c level RG T D. destruct (doc_exists app c 0 level T (has_data c D)) as [ls X]. exists ls. split; [exact X|]. split; [intros o O; exact (doc_one _ _ _ _ _ O _ X)|].
  exact (doc_printed _ app RG 0 level c ls X T).
Qed.
Print Assumptions C87_layout.

(** Whatever was read can be printed like that ... *)
Theorem C87_read : forall rg app e w c w' level, Realises (selectChunkRegistry rg) app -> strict_c e = false -> SaneApps app -> ExactInput app w ->
  IFF_readFd rg e w = Done (Some c, w') -> exists lines, Doc app 0 level c lines /\ IFF_print c level rg = Done (text_of_lines lines).
Proof.
  intros rg app e w c w' level RG NS SA K H. destruct (readFd_sound rg app e w c w' RG NS SA K H) as (l & t & g & n & P & _).
  destruct (C87_layout rg app c level RG) as (ls & D & _ & E); [eapply (proj1 (Parsed_Typed _ _)); eassumption| |eauto].
  intros i s d I. destruct (proj1 (Parsed_raw_data e app) _ _ _ _ P i s d I) as (data & a & b & -> & L & _). exists data. right. exists []. rewrite List.app_nil_r. split; [reflexivity|lia].
Qed.
Print Assumptions C87_read.

(** ... and iffpp does. *)
Theorem C87_iffpp : forall version command long reorder args check ops e s x, PpLine long reorder args check ops -> starting s -> strict_c e = false ->
  iffpp version command (Getopt long reorder) args e s = Done x -> en_status x = 0 ->
  exists tree s1 lines, IFF_read (hd_error ops) None e s = Done (Some tree, s1) /\ Doc no_apps 0 0 tree lines /\
    en_stdout x = room_for (o_room (sy_stdout s)) (text_bytes (text_of_lines lines)).
Proof.
  intros version command long reorder args ck ops e s x L ST NS H Z. destruct (C86_iffpp version command long reorder args ck ops e s x L ST H) as [_ [[_ (c & t & s1 & R & _ & P & O)]|(Z1 & _)]]; [|rewrite Z in Z1; discriminate Z1].
  assert (X : exists w w', IFF_readFd None e w = Done (Some c, w')).
  { destruct ops as [|f ops]; cbn [hd_error IFF_read] in R.
    - unfold with_streams in R. destruct (IFF_readFd None e _) as [[oc w]|u|] eqn:E; try discriminate. injection R as -> _. eauto.
    - unfold IFF_readFile in R. destruct (sy_files s f) as [data|]; [|discriminate R]. unfold bindS, with_streams in R. destruct (IFF_readFd None e _) as [[oc w]|u|] eqn:E; try discriminate. injection R as -> _. eauto. }
  destruct X as (w & w' & X). destruct (C87_read None no_apps e w c w' 0%nat default_registry NS no_apps_sane (or_intror no_apps_none) X) as (ls & D & E). rewrite P in E. injection E as ->. exists c, s1, ls. auto.
Qed.
Print Assumptions C87_iffpp.

(** ** An example *)
Example C87_example : HasData ex_list /\ Typed no_apps 0 ex_list /\ exists lines, Doc no_apps 0 0 ex_list lines /\ lines =
  [(0, "'LIST' = {"); (1, "chunkSize = 82;"); (0, "contentsType = 'TEST';"); (0, "prop = [");
   (1, "'PROP' = {"); (2, "chunkSize = 14;"); (1, "formType = 'TEST';"); (1, "[");
   (2, "'COLR' = {"); (3, "chunkSize = 1;"); (2, "bytes = "); (3, "72 "); (2, ";"); (2, "}"); (0, "");
   (1, "];"); (1, "}"); (0, "");
   (0, "];"); (0, "[");
   (1, "'FORM' = {"); (2, "chunkSize = 28;"); (1, "formType = 'TEST';"); (1, "[");
   (2, "'HELO' = {"); (3, "chunkSize = 3;"); (2, "bytes = "); (3, "61 62 63 "); (2, ";"); (2, "}"); (0, "");
   (2, "'BYE ' = {"); (3, "chunkSize = 4;"); (2, "bytes = "); (3, "77 78 79 7a "); (2, ";"); (2, "}"); (0, "");
   (1, "];"); (1, "}"); (0, "");
   (1, "'FORM' = {"); (2, "chunkSize = 12;"); (1, "formType = 'TEST';"); (1, "[");
   (2, "'TEXT' = {"); (3, "chunkSize = 0;"); (2, "text = '"); (3, ""); (2, "';"); (2, "}"); (0, "");
   (1, "];"); (1, "}"); (0, "");
   (0, "];"); (0, "}"); (0, "")]%nat%string.
Proof.
  destruct (WF_properties _ _ _ ex_list_wf) as (T & _ & L). split; [|split; [exact T|]].
  - intros i s d I. destruct (L _ I) as (l & -> & <-). exists l. right. exists []. rewrite List.app_nil_r. auto.
  - eexists. split.
    { repeat match goal with
    | |- Doc _ _ _ _ _ => eapply D_chunk; [apply dec_decimal|]
    | |- Body _ _ _ (CGroup _ _ _ _) _ => eapply B_group
    | |- Body _ _ _ (listc _ _ _) _ => eapply B_list
    | |- Body _ _ _ (group _ _ _) _ => eapply B_group
    | |- Body _ _ _ ex_list _ => unfold ex_list
    | |- Body _ _ _ ex_form _ => unfold ex_form
    | |- Body _ _ _ (raw "TEXT" _) _ => eapply (B_text _ _ _ _ _ []); left; split; [vm_compute; discriminate|reflexivity]
    | |- Body _ _ _ (raw _ ?x) _ => eapply (B_bytes _ _ _ _ _ _ (bytes x) [bytes x]); [vm_compute; discriminate|right; exists []; split; reflexivity|constructor; vm_compute; lia]
    | |- Docs _ _ _ [] _ => constructor
    | |- Docs _ _ _ (_ :: _) _ => eapply Ds_cons
    end. }
    vm_compute. reflexivity.
Qed.

(** With an application's chunk, and more bytes than fit in a line *)
Example C87_example_fields : let c := CGroup FORM_ID 42 TEST_ID_TEST [CFields TEST_ID_BYE 8 [(FLong, 1); (FLong, -20)]; CRaw (ID_of "BODY") 12 (Some (bytes "0123456789ab"))] in
  Realises (selectChunkRegistry (Some TEST_scopedRegistry)) (RegProofs.app_of TEST_scopedRegistry) /\ Typed (RegProofs.app_of TEST_scopedRegistry) 0 c /\
  exists lines, Doc (RegProofs.app_of TEST_scopedRegistry) 0 0 c lines /\ lines =
  [(0, "'FORM' = {"); (1, "chunkSize = 42;"); (0, "formType = 'TEST';"); (0, "[");
   (1, "'BYE ' = {"); (2, "chunkSize = 8;"); (1, "one = 1;"); (1, "two = -20;"); (1, "}"); (0, "");
   (1, "'BODY' = {"); (2, "chunkSize = 12;"); (1, "bytes = "); (2, "30 31 32 33 34 35 36 37 38 39 "); (2, "61 62 "); (1, ";"); (1, "}"); (0, "");
   (0, "];"); (0, "}"); (0, "")]%nat%string.
Proof.
  intro c. split; [exact scoped_realises|]. split; [|eexists; split].
  - constructor; [left; reflexivity|]. intros x [<-|[<-|[]]].
    + econstructor; [vm_compute; intuition discriminate|reflexivity|reflexivity].
    + constructor; [vm_compute; intuition discriminate|reflexivity].
  - eapply D_chunk; [apply dec_decimal|]. eapply B_group. eapply Ds_cons; [|eapply Ds_cons; [|constructor]]; (eapply D_chunk; [apply dec_decimal|]).
    + eapply B_fields. reflexivity.
    + eapply (B_bytes _ _ _ _ _ _ (bytes "0123456789ab") [bytes "0123456789"; bytes "ab"]); [vm_compute; discriminate|right; exists []; split; reflexivity|].
      apply (R_more (bytes "0123456789") (bytes "ab")); [reflexivity|discriminate|constructor; vm_compute; lia].
  - vm_compute. reflexivity.
Qed.
