(** * Properties C06, C07, C08: identifiers *)

From Coq Require Import ZArith List Bool String Lia.
From Coq Require Import Strings.Byte.
From Verif Require Import Machine Io Types Spec IdProofs Examples.
Import ListNotations.
Open Scope Z_scope.

(** ** C06.  Accepted exactly when valid; an error is reported exactly when
    rejected; nothing else changes.  On every host. *)

Theorem C06_checkId_exact : forall i e w, in_range FId i ->
  (ValidId i /\ IFF_checkId i e w = Done (true, w)) \/
  (~ ValidId i /\ exists w', IFF_checkId i e w = Done (false, w') /\ reported w w' /\
     w_in w' = w_in w /\ w_out w' = w_out w /\ w_allocs w' = w_allocs w).
Proof. intros i e w R. exact (checkId_decides i R e w). Qed.
Print Assumptions C06_checkId_exact.

Example C06_valid : ValidId (ID_of "ab ~") /\ IFF_checkId (ID_of "ab ~") (host false) (start []) = Done (true, start []).
Proof.
  split; [|vm_compute; reflexivity]. exists 97, 98, 32, 126. split; [reflexivity|]. split; [|lia].
  intros x [<-|[<-|[<-|[<-|[]]]]]; lia.
Qed.
Example C06_invalid : ~ ValidId (ID_of " abc") /\ in_range FId (ID_of " abc").
Proof.
  split; [|vm_compute; split; congruence].
  destruct (C06_checkId_exact (ID_of " abc") (host false) (start [])) as [[_ H]|[H _]];
    [vm_compute; split; congruence|vm_compute in H; discriminate|exact H].
Qed.

(** ** C07 *)

Theorem C07_checkFormType_exact : forall i e w, in_range FId i ->
  (ValidFormType i /\ IFF_checkFormType i e w = Done (true, w)) \/
  (~ ValidFormType i /\ exists w', IFF_checkFormType i e w = Done (false, w') /\ reported w w' /\
     w_in w' = w_in w /\ w_out w' = w_out w /\ w_allocs w' = w_allocs w).
Proof. intros i e w R. exact (checkFormType_decides i R e w). Qed.
Print Assumptions C07_checkFormType_exact.

Example C07_examples :
  let ok i := match IFF_checkFormType (ID_of i) (host false) (start []) with Done (b, _) => b | _ => false end in
  map ok ["TEST"; "8SVX"; "a123"; "AB.C"; "LIST"; "JJJJ"; "CAT5"; "CAT0"; "    "]%string
  = [true; true; false; false; false; false; false; true; false].
Proof. vm_compute. reflexivity. Qed.

(** ** C08.  The text of an ID consists of the four characters it was made of
    (as chars of the host: equal modulo 256), and determines the ID. *)

Theorem C08_idToString_faithful : forall e a b c d,
  (forall x, In x [a; b; c; d] -> 0 <= x < 256) ->
  IFF_MAKEID a b c d = id4 a b c d /\
  map (fun x => x mod 256) (IFF_idToString e (IFF_MAKEID a b c d)) = [a; b; c; d].
Proof.
  intros e a b c d H.
  assert (A : byte_val a) by (apply H; simpl; tauto). assert (B : byte_val b) by (apply H; simpl; tauto).
  assert (C : byte_val c) by (apply H; simpl; tauto). assert (D : byte_val d) by (apply H; simpl; tauto).
  rewrite MAKEID_id4 by assumption. split; [reflexivity|].
  rewrite idToString_bytes by assumption. cbn [map]. rewrite !IoProofs.to_char_mod.
  unfold byte_val in *. rewrite !Z.mod_small by assumption. reflexivity.
Qed.
Print Assumptions C08_idToString_faithful.

Theorem C08_text_determines_id : forall e i j, in_range FId i -> in_range FId j ->
  (IFF_idToString e i = IFF_idToString e j <-> i = j).
Proof.
  intros e i j RI RJ. split; [|intros ->; reflexivity]. intro E.
  destruct (id4_surj i RI) as (a & b & c & d & A & B & C & D & ->).
  destruct (id4_surj j RJ) as (a' & b' & c' & d' & A' & B' & C' & D' & ->).
  rewrite <- !MAKEID_id4 in E by assumption.
  apply (f_equal (map (fun x => x mod 256))) in E.
  assert (H : forall p q r s, byte_val p -> byte_val q -> byte_val r -> byte_val s ->
            forall x, In x [p; q; r; s] -> 0 <= x < 256).
  { intros p q r s P Q R S x I. simpl in I. repeat destruct I as [<-|I]; assumption || contradiction. }
  rewrite (proj2 (C08_idToString_faithful e a b c d (H _ _ _ _ A B C D))) in E.
  rewrite (proj2 (C08_idToString_faithful e a' b' c' d' (H _ _ _ _ A' B' C' D'))) in E.
  injection E as -> -> -> ->. reflexivity.
Qed.
Print Assumptions C08_text_determines_id.

(** Every ID is made of four characters. *)
Theorem C08_every_id_has_text : forall i, in_range FId i ->
  exists a b c d, (forall x, In x [a; b; c; d] -> 0 <= x < 256) /\ i = IFF_MAKEID a b c d.
Proof.
  intros i R. destruct (id4_surj i R) as (a & b & c & d & A & B & C & D & ->). exists a, b, c, d. split.
  - intros x I. simpl in I. repeat destruct I as [<-|I]; assumption || contradiction.
  - symmetry. apply MAKEID_id4; assumption.
Qed.
Print Assumptions C08_every_id_has_text.

Example C08_example : IFF_idToString (host false) (ID_of "FORM") = [70; 79; 82; 77].
Proof. reflexivity. Qed.
