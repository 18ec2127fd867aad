(** * C94, continued: how much work building is

    Adding a chunk to a group, or a PROP to a LIST, takes a fixed number of
    accesses, whatever is in memory and however large the group is.  The array of
    pointers, however, grows by one with every call, so that [k] calls may copy in
    the order of [k] squared pointers. *)

From Coq Require Import ZArith List Bool String Lia.
From Coq Require Import Strings.Byte.
From Verif Require Import Machine Io Types Build Read Iff Spec Heap HeapSpec HeapProofs HeapPathProofs HeapSearch SessionSpec ThreadSpec ThreadStepProofs TimeSpec TimeProofs TimeSearchProofs TimeUpdateProofs TimeAddProofs Examples PropTime.
Import ListNotations.
Open Scope Z_scope.

(** The chunks that are directly in a group, and the PROPs of a LIST *)
Definition in_group (c : chunk) : list chunk := match c with CGroup _ _ _ l | CList _ _ _ _ l => l | _ => [] end.
Definition in_props (c : chunk) : list chunk := match c with CList _ _ _ ps _ => ps | _ => [] end.

Lemma held_by_at : forall h c p a F, tree_at h c p a F -> held_by h a = List.length (in_group c) /\ props_of h a = List.length (in_props c).
Proof.
  intros h [i s d|i s g l|i s g ps l|i s v] p a F T; cbn [tree_at] in T; unfold held_by, props_of.
  - destruct T as (b & size & L & _). rewrite L. split; reflexivity.
  - destruct T as (arr & la & Fa & Fl & L & A & TT & _). rewrite L. cbn [subs in_group in_props]. split; [exact (eq_sym (trees_len _ _ _ _ _ TT))|reflexivity].
  - destruct T as (arr & la & Fa & Fl & parr & pa & Fb & Fp & L & A & TT & PA & TP & _). rewrite L. cbn [subs in_group in_props].
    split; [exact (eq_sym (trees_len _ _ _ _ _ TT))|exact (eq_sym (trees_len _ _ _ _ _ TP))].
  - destruct T as (L & _). rewrite L. split; reflexivity.
Qed.

(** ** C94.  Adding a chunk [x] to the group at [a]: at most 12 accesses and calls,
    or 15 if the contents type of a CAT is kept up to date, and the pointers that
    the group has, with the new one. *)
Theorem C94_adding : forall a x,
  (exists D : task unit, takes_apart D (haddToGroup a x) /\ forall e w h,
    (effort D e w h <= 12)%nat /\ forall c p F, tree_at h c p a F -> (copied D e w h <= List.length (in_group c) + 1)%nat) /\
  (exists D : task unit, takes_apart D (haddToCATAndUpdateContentsType a x) /\ forall e w h,
    (effort D e w h <= 15)%nat /\ forall c p F, tree_at h c p a F -> (copied D e w h <= List.length (in_group c) + 1)%nat) /\
  (exists D : task unit, takes_apart D (haddPropToList a x) /\ forall e w h,
    (effort D e w h <= 12)%nat /\ forall c p F, tree_at h c p a F -> (copied D e w h <= List.length (in_props c) + 1)%nat).
Proof.
  intros a x. split; [|split].
  - exists (taddToGroup a x). split; [apply ap_add|]. intros e w h. destruct (within_add a x e w h) as [E C]. split; [exact E|]. intros c p F T. destruct (held_by_at _ _ _ _ _ T) as (<- & _). exact C.
  - exists (taddToCAT a x). split; [apply ap_addToCAT|]. intros e w h. destruct (within_addToCAT a x e w h) as [E C]. split; [exact E|]. intros c p F T. destruct (held_by_at _ _ _ _ _ T) as (<- & _). exact C.
  - exists (taddProp a x). split; [apply ap_addProp|]. intros e w h. destruct (within_addProp a x e w h) as [E C]. split; [exact E|]. intros c p F T. destruct (held_by_at _ _ _ _ _ T) as (_ & <-). exact C.
Qed.
Print Assumptions C94_adding.

(** ** C94.  Adding [k] chunks one after the other to a group that has [n]: at most
    [12 k] accesses and calls, and [k (2 n + k + 1) / 2] pointers copied. *)
Fixpoint add_each (group : addr) (l : list addr) : H unit :=
  match l with [] => hret tt | x :: r => haddToGroup group x ;;h add_each group r end.

Theorem C94_building : forall a l, exists D : task unit, takes_apart D (add_each a l) /\ forall e w h,
  (effort D e w h <= 12 * List.length l)%nat /\
  forall c p F, tree_at h c p a F ->
    (2 * copied D e w h <= List.length l * (2 * List.length (in_group c) + List.length l + 1))%nat.
Proof.
  intros a l. exists (tadd_each a l). split.
  - induction l as [|x l IH]; [apply ap_ret|]. cbn [tadd_each add_each]. apply ap_bind; [apply ap_add|]. intro u. exact IH.
  - intros e w h. destruct (within_each a l e w h) as (m & [E C] & M). split; [exact E|]. intros c p F T. destruct (held_by_at _ _ _ _ _ T) as (<- & _). lia.
Qed.
Print Assumptions C94_building.

(** ** C94.  No fewer, if it succeeds: so building a group of [k] chunks from nothing
    copies [k (k + 1) / 2] pointers, which is not in proportion to what is built. *)
Theorem C94_building_exact : forall a l, exists D : task unit, takes_apart D (add_each a l) /\ forall c p F e w h w' h',
  tree_at h c p a F -> add_each a l e w h = Done (tt, w', h') ->
  (2 * copied D e w h = List.length l * (2 * List.length (in_group c) + List.length l + 1))%nat.
Proof.
  intros a l. exists (tadd_each a l). split.
  - induction l as [|x l IH]; [apply ap_ret|]. cbn [tadd_each add_each]. apply ap_bind; [apply ap_add|]. intro u. exact IH.
  - intros c p F e w h w' h' T R. destruct l as [|x0 l0]; [reflexivity|]. set (l := x0 :: l0) in *.
    assert (RM : roomy h a (List.length (in_group c))).
    { destruct c as [i s d|i s g m|i s g ps m|i s v]; cbn [tree_at] in T; cbn [in_group].
      - destruct T as (b & size & L & _). exfalso. unfold l in R. cbn [add_each] in R. unfold haddToGroup, hattachToGroup, hbind, hchunk, hload in R. unfold hbind in R. rewrite L in R. discriminate R.
      - destruct T as (arr & la & Fa & Fl & L & A & TT & _). rewrite (trees_len _ _ _ _ _ TT). do 2 eexists. split; [exact L|]. cbn beta iota. split; [reflexivity|].
        destruct A as [(-> & -> & _)|(d & -> & LD & _)]; [reflexivity|]. exists la. split; [exact LD|lia].
      - destruct T as (arr & la & Fa & Fl & parr & pa & Fb & Fp & L & A & TT & PA & TP & _). rewrite (trees_len _ _ _ _ _ TT). do 2 eexists. split; [exact L|]. cbn beta iota. split; [reflexivity|].
        destruct A as [(-> & -> & _)|(d & -> & LD & _)]; [reflexivity|]. exists la. split; [exact LD|lia].
      - destruct T as (L & _). exfalso. unfold l in R. cbn [add_each] in R. unfold haddToGroup, hattachToGroup, hbind, hchunk, hload in R. unfold hbind in R. rewrite L in R. discriminate R. }
    clear T. clearbody l. clear x0 l0. revert e w h R RM. generalize (List.length (in_group c)) as n. clear c. induction l as [|x l IH]; intros n e w h R RM; [reflexivity|].
    cbn [add_each tadd_each List.length] in *. unfold hbind in R. destruct (haddToGroup a x e w h) as [[[u w1] h1]|u|] eqn:A; [|discriminate|discriminate].
    destruct (add_exact _ _ _ _ _ _ _ _ _ RM A) as (C & RM1). rewrite copied_bind, C, (ap_add a x e w h), A.
    specialize (IH _ _ _ _ R RM1). nia.
Qed.
Print Assumptions C94_building_exact.

(** A FORM of three chunks, built in an empty memory: 34 accesses and calls, and 6
    pointers. *)
Example C94_example_building :
  match (f <-h hcreateEmptyGroup IFF_ID_FORM (ID_of "TEST") ;; a <-h hcreateRawChunk (ID_of "AAAA") 0 ;;
         b <-h hcreateRawChunk (ID_of "BBBB") 0 ;; c <-h hcreateRawChunk (ID_of "CCCC") 0 ;; hret (f, a, b, c)) (host false) (start []) [] with
  | Done ((Some f, Some a, Some b, Some c), w, h) =>
      (exists w' h', add_each f [a; b; c] (host false) w h = Done (tt, w', h')) /\
      (exists F, tree_at h (CGroup FORM_ID 4 (ID_of "TEST") []) None f F) /\
      effort (tadd_each f [a; b; c]) (host false) w h = 34%nat /\
      copied (tadd_each f [a; b; c]) (host false) w h = 6%nat
  | _ => False
  end.
Proof.
  vm_compute. split; [do 2 eexists; reflexivity|]. split; [|split; reflexivity].
  eexists. exists None, [], [], []. split; [reflexivity|]. split; [left; repeat split|]. split; [|reflexivity]. reflexivity.
Qed.
