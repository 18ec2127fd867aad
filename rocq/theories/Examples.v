(** * Concrete hosts, trees and files used to show that the hypotheses of the
    property theorems are met *)

From Coq Require Import ZArith List Bool String Lia.
From Coq Require Import Strings.Byte.
From Verif Require Import Machine Io Types Build Spec Grammar.
Import ListNotations.
Open Scope Z_scope.

(** A host of the given byte order, with enough memory. *)
Definition host (be : bool) : env := mkEnv be true true false (fun _ _ => true) 0 (fun _ => 0%nat).

Lemma usual_host : forall be, usual (host be).
Proof. intros. constructor; reflexivity. Qed.

(** A state with input [l], nothing written yet, unlimited output. *)
Definition start (l : list byte) : world := mkWorld (mkRfile l true) (mkWfile [] [] 16 None) [] 0.
Definition start_pipe (l : list byte) : world := mkWorld (mkRfile l false) (mkWfile [] [] 16 None) [] 0.
Definition start_full (l : list byte) (room : nat) : world := mkWorld (mkRfile l true) (mkWfile [] [] 16 (Some room)) [] 0.

Definition bytes (s : string) : list byte := list_byte_of_string s.

Definition raw (i : string) (d : string) : chunk := CRaw (ID_of i) (zlength (bytes d)) (Some (bytes d)).
Definition group (i g : string) (subs : list chunk) : chunk :=
  CGroup (ID_of i) (4 + body_size subs) (ID_of g) subs.
Definition listc (g : string) (props subs : list chunk) : chunk :=
  CList LIST_ID (4 + body_size props + body_size subs) (ID_of g) props subs.

(** FORM TEST { HELO "abc" ; BYE  "wxyz" } : an odd-sized and an even-sized chunk *)
Definition ex_form : chunk := group "FORM" "TEST" [raw "HELO" "abc"; raw "BYE " "wxyz"].

(** LIST TEST { PROP TEST { COLR "r" } ; FORM TEST { ... } ; FORM TEST { TEXT "" } } *)
Definition ex_list : chunk :=
  listc "TEST" [group "PROP" "TEST" [raw "COLR" "r"]]
               [ex_form; group "FORM" "TEST" [raw "TEXT" ""]].

(** CAT JJJJ { LIST ... ; FORM ABCD {} } *)
Definition ex_cat : chunk := group "CAT " "JJJJ" [ex_list; group "FORM" "ABCD" []].

Ltac wf_in := let c := fresh "c" in let H := fresh "H" in
  intros c H; simpl in H;
  repeat match goal with A : _ \/ _ |- _ => destruct A as [A|A] end; subst; try contradiction.
Ltac wf_id := let H := fresh "H" in
  simpl; intro H; repeat destruct H as [H|H]; try discriminate H; try exact H.
Ltac wf_num := first [reflexivity | vm_compute; repeat split; congruence].

Ltac prove_wf :=
  lazymatch goal with
  | |- WF _ _ (CRaw ?i _ (Some ?l)) =>
      apply (WF_raw _ _ i l); [wf_num | wf_id | reflexivity | vm_compute; congruence]
  | |- WF _ _ (CGroup _ _ _ _) =>
      apply WF_group; [simpl; tauto | wf_num | wf_in; prove_wf | vm_compute; reflexivity | vm_compute; congruence]
  | |- WF _ _ (CList _ _ _ _ _) =>
      apply WF_list; [wf_num | wf_in; (split; [prove_wf | reflexivity])
        | wf_in; (split; [prove_wf | vm_compute; congruence]) | vm_compute; reflexivity | vm_compute; congruence]
  | |- WF ?a ?f ?c => let c' := eval hnf in c in change (WF a f c'); prove_wf
  end.

Lemma ex_form_wf : WF no_apps 0 ex_form.
Proof. prove_wf. Qed.
Lemma ex_list_wf : WF no_apps 0 ex_list.
Proof. prove_wf. Qed.
Lemma ex_cat_wf : WF no_apps 0 ex_cat.
Proof. prove_wf. Qed.
