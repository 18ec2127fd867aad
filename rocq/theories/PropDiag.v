(** * Property C79: the diagnostics are true *)

From Coq Require Import ZArith List Bool String Lia.
From Coq Require Import Strings.Byte.
From Verif Require Import Machine Io Types Build Read Check Iff TestExt Spec Lemmas IoProofs RegProofs WriteProofs IdProofs Examples
  CheckProofs DiagSpec DiagProofs PropRegistry PropRead PropCheck.
Import ListNotations.
Open Scope Z_scope.

(** ** C79.  What IFF_check writes to the error callback when it rejects a tree
    is one complaint, about something that is wrong with the tree. *)
Theorem C79_complaints_are_true : forall rg app c e w w',
  Realises (selectChunkRegistry rg) app -> Typed app 0 c -> Represented c -> IntSizes c ->
  IFF_check c rg e w = Done (false, w') ->
  exists t, wrote w w' t /\ FileFault app c t.
Proof.
  intros rg app c e w w' RG T R S E. destruct (top_dec c) as [K|K].
  - rewrite check_root in E by exact K. pose proof (check_says _ _ RG c 0 T R S e w) as X. rewrite E in X.
    destruct X as (lg & -> & F). exists (text lg). split; [|apply FF_tree; exact F].
    split; [reflexivity|]. split; [reflexivity|]. split; [reflexivity|]. exists lg. split; reflexivity.
  - rewrite check_not_root in E by exact K. injection E as <-. eexists. split; [|apply FF_top; exact K].
    split; [reflexivity|]. split; [reflexivity|]. split; [reflexivity|]. eexists [_]. split; reflexivity.
Qed.
Print Assumptions C79_complaints_are_true.

(** Such complaints are about broken trees only. *)
Theorem C79_no_complaint_about_conforming_trees : forall app c t,
  FileFault app c t -> ~ (top_level c /\ Conforms app 0 c).
Proof.
  intros app c t F [K C]. destruct F as [N|t F]; [exact (N K)|]. exact (Fault_broken _ _ _ _ F C).
Qed.
Print Assumptions C79_no_complaint_about_conforming_trees.

(** So a tree with a fault, and only such a tree, is rejected, with a text that
    says what is wrong: with C26. *)
Theorem C79_faulty_iff_complaint : forall rg app c e w,
  Realises (selectChunkRegistry rg) app -> Typed app 0 c -> Represented c -> IntSizes c -> LeafSizes c -> encoded_size c <= INT_MAX ->
  (exists t, FileFault app c t) <-> (exists t w', IFF_check c rg e w = Done (false, w') /\ wrote w w' t /\ FileFault app c t).
Proof.
  intros rg app c e w RG T R IS LS SZ. split; [|intros (t & w' & _ & _ & F); exists t; exact F].
  intros (t & F). destruct (C26_check_decides_conformance rg app c e w RG T R LS SZ) as (b & w' & E & B). destruct b.
  - exfalso. exact (C79_no_complaint_about_conforming_trees _ _ _ F (proj1 B eq_refl)).
  - destruct (C79_complaints_are_true _ _ _ _ _ _ RG T R IS E) as (t2 & W & F2). exists t2, w'. auto.
Qed.
Print Assumptions C79_faulty_iff_complaint.

(** The texts on a few broken trees *)
Definition no_contents (i : string) : chunk := CRaw (ID_of i) 0 (Some []).
Definition deep (x : chunk) : chunk := group "CAT " "JJJJ" [ex_list; group "FORM" "ABCD" [no_contents "BODY"; x]].
Definition broken_trees : list (chunk * string) :=
  [ (deep (group "PROP" "ABCD" []), "ERROR: Element with chunk Id: 'PROP' not allowed in FORM chunk!" ++ nl);
    (deep (group "CAT " "TEST" [no_contents "BODY"]), "ERROR: Element with chunk Id: 'BODY' not allowed in CAT chunk!" ++ nl);
    (deep (group "CAT " "TEST" [group "FORM" "ABCD" []]), "Sub form does not match contentsType of the CAT!" ++ nl);
    (deep (no_contents " ODY"), "Spaces may not precede an ID!" ++ nl);
    (deep (group "FORM" "ABcD" []), "No lowercase characters or punctuation marks allowed in a form type ID!" ++ nl);
    (deep (group "FORM" "CAT3" []), "Form type: 'CAT3' not allowed!" ++ nl);
    (deep (CGroup FORM_ID 8 (ID_of "ABCD") []), "Chunk size mismatch! FORM size: 8, while body has: 4" ++ nl);
    (group "PROP" "ABCD" [], "Not a valid IFF-85 file: First bytes should start with either: 'FORM', 'CAT ' or 'LIST'" ++ nl) ]%string.

Ltac typed :=
  lazymatch goal with
  | |- Typed _ _ (CRaw _ _ _) => apply Ty_raw; [vm_compute; intuition discriminate|reflexivity]
  | |- Typed _ _ (CGroup _ _ _ _) => apply Ty_group; [vm_compute; tauto|let c := fresh in let I := fresh in intros c I; repeat destruct I as [<-|I]; try contradiction; typed]
  | |- Typed _ _ (CList _ _ _ _ _) =>
      apply Ty_list; let c := fresh in let I := fresh in intros c I; repeat destruct I as [<-|I]; try contradiction; try (split; [|reflexivity]); typed
  | |- Typed ?a ?f ?c => let c' := eval hnf in c in change (Typed a f c'); typed
  end.

Fixpoint nodes (c : chunk) : list chunk :=
  c :: match c with
       | CGroup _ _ _ subs => flat_map nodes subs
       | CList _ _ _ props subs => flat_map nodes props ++ flat_map nodes subs
       | _ => []
       end.
Lemma nodes_all : forall x c, InTree x c -> In x (nodes c).
Proof.
  intros x c I. induction I as [|i s g subs c HC I IH|i s g props subs c HC I IH|i s g props subs c HC I IH].
  - destruct x; left; reflexivity.
  - right. apply in_flat_map. exists c. auto.
  - right. apply in_or_app. left. apply in_flat_map. exists c. auto.
  - right. apply in_or_app. right. apply in_flat_map. exists c. auto.
Qed.
Definition node_ok (x : chunk) : bool :=
  (0 <=? chunkId x) && (chunkId x <? 2 ^ 32) && (INT_MIN <=? chunkSize x) && (chunkSize x <=? INT_MAX) &&
  match group_type_of x with Some g => (0 <=? g) && (g <? 2 ^ 32) | None => true end.
Lemma nodes_ok : forall c, forallb node_ok (nodes c) = true -> Represented c /\ IntSizes c.
Proof.
  intros c H. rewrite forallb_forall in H. split; intros x I; specialize (H x (nodes_all _ _ I)); unfold node_ok in H;
    rewrite !andb_true_iff, !Z.leb_le, Z.ltb_lt in H; destruct H as ((((A & B) & C) & D) & E).
  - split; [cbn; lia|]. intros g G. rewrite G, andb_true_iff, Z.leb_le, Z.ltb_lt in E. cbn. lia.
  - cbn. unfold INT_MIN, INT_MAX in *. lia.
Qed.

Example C79_example : Forall (fun x =>
  Typed no_apps 0 (fst x) /\ Represented (fst x) /\ IntSizes (fst x) /\
  exists w, IFF_check (fst x) None (host false) (start []) = Done (false, w) /\
            String.concat "" (rev (w_log w)) = snd x) broken_trees.
Proof.
  unfold broken_trees. repeat (apply Forall_cons; [cbn [fst snd]; (split; [typed|]);
    (match goal with |- Represented ?c /\ _ => destruct (nodes_ok c) as [R I]; [vm_compute; reflexivity|] end);
    (split; [exact R|]); (split; [exact I|]);
    eexists; vm_compute; split; reflexivity|]). apply Forall_nil.
Qed.
