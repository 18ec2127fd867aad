(** * Properties C09, C10, C11: chunk registries *)

From Coq Require Import ZArith List Bool String Lia.
From Coq Require Import Strings.Byte.
From Verif Require Import Machine Io Types Build Read Search TestExt Iff Spec RegProofs Examples.
Import ListNotations.
Open Scope Z_scope.

(** ** C09.  [ScopeOf r ft node]: the chain of tables for members of a [ft]
    group.  [Resolves cid node res]: the innermost table registering [cid]. *)

Theorem C09_lookup_follows_scoping : forall r ft cid node res,
  SortedRegistry r -> ScopeOf r ft node -> Resolves cid node res ->
  IFF_findChunkType (Some r) ft cid = match res with Some ct => Some ct | None => rg_default r end.
Proof. exact findChunkType_spec. Qed.
Print Assumptions C09_lookup_follows_scoping.

(** The scope and the resolution always exist and are unique. *)
Theorem C09_scoping_total : forall r ft cid, SortedRegistry r ->
  exists node res, ScopeOf r ft node /\ Resolves cid node res /\
    (forall node', ScopeOf r ft node' -> node' = node) /\
    (forall res', Resolves cid node res' -> res' = res).
Proof.
  intros r ft cid S.
  assert (SC : exists node, ScopeOf r ft node).
  { destruct (find_scope r ft S) as (n & H & _). exists n. exact H. }
  destruct SC as [node SC]. 
  assert (NODE : node = rg_global r \/ exists ft, In (ft, node) (rg_forms r)).
  { inversion SC; subst; [right; exists ft; assumption|left; reflexivity]. }
  pose proof (getChunkType_resolves cid node) as G.
  exists node, (getChunkType cid node). split; [assumption|]. split.
  - apply G. intros tbl I. apply (proj2 S node NODE tbl I).
  - split; [intros; eapply ScopeOf_fun; eassumption|]. intros res' R'.
    eapply Resolves_fun; [|exact R'|apply G]; intros tbl I; apply (proj2 S node NODE tbl I).
Qed.
Print Assumptions C09_scoping_total.

(** A registry with a form type whose own table shadows nothing, and one that
    falls through to the global table. *)
Lemma increasing_of : forall l, Sorted.StronglySorted Z.lt l -> strictly_increasing l.
Proof.
  intros l S i j x y L X Y. revert i j x y L X Y. induction S as [|a l S IH F]; intros i j x y L X Y.
  - destruct i; discriminate.
  - destruct j as [|j]; [lia|]. destruct i as [|i].
    + injection X as <-. rewrite Forall_forall in F. apply F. eapply nth_error_In; exact Y.
    + apply (IH i j); [lia|assumption|assumption].
Qed.

Example C09_test_registry_sorted : SortedRegistry TEST_scopedRegistry.
Proof.
  split.
  - apply increasing_of. repeat constructor.
  - intros node [->|[ft [E|[]]]] tbl I.
    + destruct I as [<-|[]]. apply increasing_of. repeat constructor.
    + injection E as <- <-. destruct I as [<-|[<-|[]]]; apply increasing_of; repeat constructor.
Qed.
Example C09_example :
  ScopeOf TEST_scopedRegistry TEST_ID_TEST (applicationChunkTypes :: IFF_globalChunkTypesNode) /\
  Resolves TEST_ID_HELO (applicationChunkTypes :: IFF_globalChunkTypesNode)
    (Some (mkChunkType TEST_ID_HELO (HFields TEST_Hello))) /\
  IFF_findChunkType (Some TEST_scopedRegistry) TEST_ID_TEST TEST_ID_HELO
    = Some (mkChunkType TEST_ID_HELO (HFields TEST_Hello)) /\
  IFF_findChunkType (Some TEST_scopedRegistry) (ID_of "ABCD") TEST_ID_HELO = Some IFF_defaultChunkType.
Proof.
  split; [apply Scope_form; left; reflexivity|]. split.
  - apply Res_here. split; [right; left; reflexivity|reflexivity].
  - split; reflexivity.
Qed.

(** ** C10.  The default registry: FORM, CAT, LIST and PROP have their own
    handlers in every scope; everything else is a raw chunk. *)

Theorem C10_default_registry : forall formType cid,
  find_handler (selectChunkRegistry None) formType cid =
  Done (if cid =? ID_of "FORM" then HForm else if cid =? ID_of "CAT " then HCAT
        else if cid =? ID_of "LIST" then HList else if cid =? ID_of "PROP" then HProp else HRaw).
Proof. intros ft cid. exact (default_realises _ eq_refl ft cid). Qed.
Print Assumptions C10_default_registry.

Example C10_example : find_handler (selectChunkRegistry None) (ID_of "ILBM") (ID_of "BMHD") = Done HRaw
  /\ find_handler (selectChunkRegistry None) (ID_of "ILBM") (ID_of "CAT ") = Done HCAT.
Proof. split; reflexivity. Qed.

(** ** C11.  An extension registry whose per-form tables end in the global
    table dispatches every group chunk to its group handler, in every scope,
    and every other chunk to the application's handler or the raw one. *)

Theorem C11_extension_registry : forall forms,
  let r := IFF_EXTEND_DEFAULT_REGISTRY_WITH_FORM_CHUNK_TYPES forms in
  SortedRegistry r -> ExtendsGlobal forms ->
  (* group chunks have their own handlers everywhere *)
  (forall ft cid, In cid group_ids ->
     find_handler (Some r) ft cid =
     Done (if cid =? FORM_ID then HForm else if cid =? CAT_ID then HCAT
           else if cid =? LIST_ID then HList else HProp)) /\
  (* an ID the application registered for this form type *)
  (forall ft tbls cid ct, In (ft, tbls ++ [IFF_globalChunkTypes]) forms ->
     Resolves cid tbls (Some ct) -> find_handler (Some r) ft cid = Done (ct_handler ct)) /\
  (* any other ID in such a form *)
  (forall ft tbls cid, In (ft, tbls ++ [IFF_globalChunkTypes]) forms -> ~ In cid group_ids ->
     Resolves cid tbls None -> find_handler (Some r) ft cid = Done HRaw) /\
  (* any other form type *)
  (forall ft cid, (forall node, ~ In (ft, node) forms) -> ~ In cid group_ids ->
     find_handler (Some r) ft cid = Done HRaw).
Proof. exact extension_dispatch. Qed.
Print Assumptions C11_extension_registry.

Example C11_example : ExtendsGlobal [(TEST_ID_TEST, applicationChunkTypes :: IFF_globalChunkTypesNode)]
  /\ app_of TEST_scopedRegistry TEST_ID_TEST TEST_ID_HELO = Some TEST_Hello
  /\ find_handler (Some TEST_scopedRegistry) TEST_ID_TEST (ID_of "FORM") = Done HForm.
Proof.
  split; [|split; reflexivity]. intros ft node [E|[]]. injection E as <- <-.
  exists [applicationChunkTypes]. split; [reflexivity|].
  intros tbl ct [<-|[]] [<-|[<-|[]]]; (split; [intro H; simpl in H; repeat destruct H as [H|H]; discriminate || contradiction|right; eexists; reflexivity]).
Qed.

(** The repository's own example (README.md 424-433, tests/test.c 36-44) gives
    the per-form table no parent.  Then a FORM nested in a TEST form is read as
    raw data, and searching the tree that was read is undefined behaviour. *)
Definition nested_form : chunk := group "FORM" "TEST" [group "FORM" "ABCD" []].

Theorem C11_null_parent_refuted :
  find_handler (selectChunkRegistry (Some TEST_chunkRegistry)) TEST_ID_TEST (ID_of "FORM") = Done HRaw /\
  exists c w,
    IFF_readFd (Some TEST_chunkRegistry) (host false) (start (encode nested_form)) = Done (Some c, w) /\
    w_log w = [] /\
    IFF_searchForms c (ID_of "ABCD") = Undefined UB_type_confusion.
Proof.
  split; [reflexivity|].
  destruct (IFF_readFd (Some TEST_chunkRegistry) (host false) (start (encode nested_form))) as [[[c|] w]| |] eqn:E;
    vm_compute in E; try discriminate.
  exists c, w. split; [reflexivity|]. injection E as <- <-. split; reflexivity.
Qed.
Print Assumptions C11_null_parent_refuted.

(** With the global table as parent the same file is read and searched. *)
Example C11_scoped_is_fine :
  match IFF_readFd (Some TEST_scopedRegistry) (host false) (start (encode nested_form)) with
  | Done (Some c, w) => c = nested_form /\ IFF_searchForms c (ID_of "ABCD") = Done [group "FORM" "ABCD" []]
  | _ => False
  end.
Proof. vm_compute. split; reflexivity. Qed.
