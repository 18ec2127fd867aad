(** * Property C78: memory, when chunks of the application own memory *)

From Coq Require Import ZArith List Bool String Lia.
From Coq Require Import Strings.Byte.
From Verif Require Import Machine Io Types Build Read Iff Spec Examples Ext ExtSpec ExtFields PropExt
  Heap HeapExt HeapExtSpec HeapExtApps HeapExtProofs HeapExtReadProofs HeapExtAppsProofs.
Import ListNotations.
Open Scope Z_scope.

(** ** C78.  The application's functions may allocate, grow and release blocks of
    their own.  If they keep to their own blocks ([Owner]), the library leaks
    nothing, releases nothing twice and touches nobody else's memory. *)

(** Whatever the bytes and whichever allocations fail: the only undefined things
    are an int overflow and the NULL of an array that could not be grown. *)
Theorem C78_safe : forall V own (find : yfind V) e w h u, Owners own find -> strict_c e = false ->
  yIFF_readFd find e w h <> OutOfFuel /\ (yIFF_readFd find e w h = Undefined u -> Excused e (zlength (r_rest (w_in w))) u).
Proof.
  intros V own find e w h u OW NS. pose proof (yreadFd_memory own find OW e NS _ w h eq_refl) as H.
  split; [intro E; rewrite E in H; exact H|]. intro E. rewrite E in H. exact H.
Qed.
Print Assumptions C78_safe.

(** With memory for everything, only an int may overflow. *)
Theorem C78_only_overflow : forall V own (find : yfind V) e w h u, Owners own find -> usual e ->
  zlength (r_rest (w_in w)) < 2 ^ (size_t_bits e - 1) -> yIFF_readFd find e w h = Undefined u -> u = UB_signed_overflow.
Proof.
  intros V own find e w h u OW US LM E. destruct (proj2 (C78_safe V own find e w h u OW (not_strict _ US)) E) as [->|(_ & n & sz & B & [M|M])];
    [reflexivity| |lia]. rewrite (memory _ US) in M. discriminate.
Qed.
Print Assumptions C78_only_overflow.

(** When reading fails, memory is as it was: every block of the half-read tree
    is released, the application's too. *)
Theorem C78_failed_read : forall V own (find : yfind V) e w h w' h', Owners own find -> strict_c e = false ->
  yIFF_readFd find e w h = Done (None, w', h') -> Same h h'.
Proof.
  intros V own find e w h w' h' OW NS E. pose proof (yreadFd_memory own find OW e NS _ w h eq_refl) as H. rewrite E in H.
  apply Turns_same. exact (proj2 H).
Qed.
Print Assumptions C78_failed_read.

(** When it succeeds, exactly the blocks of the tree are new. *)
Theorem C78_read : forall V own (find : yfind V) e w h a w' h', Owners own find -> strict_c e = false ->
  yIFF_readFd find e w h = Done (Some a, w', h') ->
  exists F, NoDup F /\ Turns h [] h' F /\ Tree own find True h' 0 None a F.
Proof.
  intros V own find e w h a w' h' OW NS E. pose proof (yreadFd_memory own find OW e NS _ w h eq_refl) as H. rewrite E in H.
  destruct H as (_ & F & T & ND & TR). exists F. auto.
Qed.
Print Assumptions C78_read.

(** Freeing such a tree works, releases exactly its blocks, and leaves all other
    memory alone, whatever else there is. *)
Theorem C78_free : forall V own (find : yfind V) whole e w h p a F, Owners own find -> strict_c e = false ->
  Tree own find whole h 0 p a F -> NoDup F ->
  exists w' h', yIFF_free a find e w h = Done (tt, w', h') /\ Turns h F h' [].
Proof.
  intros V own find whole e w h p a F OW NS T ND. destruct (freeTree_ends own find whole OW e NS 0 p a F h T ND w) as ([] & w' & h' & E & _ & TU).
  exists w', h'. auto.
Qed.
Print Assumptions C78_free.

(** So reading and freeing leaves nothing behind. *)
Theorem C78_read_then_free : forall V own (find : yfind V) e w h a w1 h1 e2 w2, Owners own find ->
  strict_c e = false -> strict_c e2 = false -> yIFF_readFd find e w h = Done (Some a, w1, h1) ->
  exists w3 h3, yIFF_free a find e2 w2 h1 = Done (tt, w3, h3) /\ Same h h3.
Proof.
  intros V own find e w h a w1 h1 e2 w2 OW NS NS2 E. destruct (C78_read _ _ _ _ _ _ _ _ _ OW NS E) as (F & ND & T & TR).
  destruct (C78_free _ _ _ _ e2 w2 h1 None a F OW NS2 TR ND) as (w3 & h3 & E3 & T3). exists w3, h3. split; [exact E3|].
  apply Turns_same. exact (Turns_trans _ _ _ _ _ _ T T3).
Qed.
Print Assumptions C78_read_then_free.

(** Two trees do not share memory: they can be freed in either order. *)
Theorem C78_two_trees : forall V own (find : yfind V) e w h a w1 h1 b w2 h2, Owners own find -> strict_c e = false ->
  yIFF_readFd find e w h = Done (Some a, w1, h1) -> yIFF_readFd find e w1 h1 = Done (Some b, w2, h2) ->
  (forall w, exists w3 h3 w4 h4, yIFF_free a find e w h2 = Done (tt, w3, h3) /\ yIFF_free b find e w3 h3 = Done (tt, w4, h4) /\ Same h h4) /\
  (forall w, exists w3 h3 w4 h4, yIFF_free b find e w h2 = Done (tt, w3, h3) /\ yIFF_free a find e w3 h3 = Done (tt, w4, h4) /\ Same h h4).
Proof.
  intros V own find e w h a w1 h1 b w2 h2 OW NS EA EB.
  destruct (C78_read _ _ _ _ _ _ _ _ _ OW NS EA) as (FA & NA & TA & RA).
  destruct (C78_read _ _ _ _ _ _ _ _ _ OW NS EB) as (FB & NB & TB & RB).
  destruct (proj1 (Tree_live own find True OW h1) _ _ _ _ RA) as [LA _].
  destruct (proj1 (Tree_live own find True OW h2) _ _ _ _ RB) as [LB _].
  destruct (got_beside h1 FA h2 FB LA TB) as (KA & AP & TAB).
  assert (RA2 : Tree own find True h2 0 None a FA) by (apply (proj1 (Tree_same own find True OW h1 h2)); assumption).
  assert (LA2 : live h2 FA) by (intros x I; rewrite (KA x I); exact (LA x I)).
  assert (AP' : apart FB FA) by (intros x I J; exact (AP x J I)).
  assert (TH : Turns h [] h2 (FA ++ FB)) by exact (Turns_trans _ _ _ _ _ _ TA TAB).
  split; intro w0.
  - destruct (C78_free _ _ _ _ e w0 h2 None a FA OW NS RA2 NA) as (w3 & h3 & E3 & T3).
    assert (RB3 : Tree own find True h3 0 None b FB).
    { apply (proj1 (Tree_same own find True OW h2 h3)); [exact RB|]. intros x I. exact (Turns_keeps _ _ _ _ _ x T3 LB AP' I). }
    destruct (C78_free _ _ _ _ e w3 h3 None b FB OW NS RB3 NB) as (w4 & h4 & E4 & T4).
    exists w3, h3, w4, h4. split; [exact E3|]. split; [exact E4|]. apply Turns_same.
    exact (Turns_trans _ _ _ _ _ _ TH (Turns_gone _ _ _ _ _ T3 T4 LB AP')).
  - destruct (C78_free _ _ _ _ e w0 h2 None b FB OW NS RB NB) as (w3 & h3 & E3 & T3).
    assert (RA3 : Tree own find True h3 0 None a FA).
    { apply (proj1 (Tree_same own find True OW h2 h3)); [exact RA2|]. intros x I. exact (Turns_keeps _ _ _ _ _ x T3 LA2 AP I). }
    destruct (C78_free _ _ _ _ e w3 h3 None a FA OW NS RA3 NA) as (w4 & h4 & E4 & T4).
    exists w3, h3, w4, h4. split; [exact E3|]. split; [exact E4|]. apply Turns_same.
    eapply Turns_trans; [|exact (Turns_gone _ _ _ _ _ T3 T4 LA2 AP)].
    apply (Turns_equiv _ _ _ _ _ _ TH); intro x; rewrite ?in_app_iff; tauto.
Qed.
Print Assumptions C78_two_trees.

(** Who keeps to their blocks: lists of fields, and colour maps with an array
    that grows *)
Theorem C78_field_lists : forall s, Owner (fields_own s) (yfields_callbacks s).
Proof. exact fields_owner. Qed.
Print Assumptions C78_field_lists.

Theorem C78_arrays : Owner cmap_own ycmap_callbacks.
Proof. exact cmap_owner. Qed.
Print Assumptions C78_arrays.

(** For lists of fields this model is the one of Heap.v, outcome for outcome and
    block for block. *)
Theorem C78_agrees : forall rg e w h a,
  yIFF_readFd (yconv_find rg) e w (yconv h) = yconv_outcome (hIFF_readFd rg e w h) /\
  yIFF_free a (yconv_find rg) e w (yconv h) = yconv_outcome (hIFF_free a rg e w h).
Proof. intros rg e w h a. split; [apply M_readFd|apply M_IFF_free]. Qed.
Print Assumptions C78_agrees.

(** *** A picture with two colours, in memory that is not empty *)

Definition cmap_owns (ft cid : Z) : yheap cell -> addr -> list addr -> Prop := cmap_own.

Lemma cmap_owners : Owners cmap_owns (ycmap_find ILBM_ID CMAP_ID ycmap_callbacks).
Proof.
  intros ft cid. unfold ycmap_find. eexists. split; [reflexivity|].
  destruct (cid =? IFF_ID_FORM); [exact I|]. destruct (cid =? IFF_ID_CAT); [exact I|].
  destruct (Z.eqb_spec cid IFF_ID_LIST) as [E|]; [exact E|]. destruct (cid =? IFF_ID_PROP); [exact I|].
  destruct (_ && _); [exact cmap_owner|exact I].
Qed.

Definition before : yheap cell := [None; Some (YApp (Colours [(1, 2, 3)]))].
Definition two_colour_file : list byte := encode (raw_picture [xff; x00; x01; x02; x03; x04]).
(** the [k]-th allocation fails *)
Definition fails_at (k : nat) : env := mkEnv false true true false (fun n _ => negb (Nat.eqb n k)) 0 (fun _ => 0%nat).

Example C78_example :
  (* the tree: the FORM where a block had been released, its array of two members, the CMAP and its colours, the BODY and its byte *)
  (match yIFF_readFd (ycmap_find ILBM_ID CMAP_ID ycmap_callbacks) (host false) (start two_colour_file) before with
   | Done (Some a, w, h) =>
       ylookup h 1%nat = ylookup before 1%nat /\
       ylookup h a = Some (YChunk (mkHeader None FORM_ID 28) (YGroup ILBM_ID 2 (Some 8%nat))) /\
       a = 0%nat /\ ylookup h 8%nat = Some (YArray [2; 6]%nat) /\
       ylookup h 2%nat = Some (YChunk (mkHeader (Some a) CMAP_ID 6) (YUser (CMap 2 (Some 4%nat)))) /\
       ylookup h 4%nat = Some (YApp (Colours [(255, 0, 1); (2, 3, 4)])) /\
       match yIFF_free a (ycmap_find ILBM_ID CMAP_ID ycmap_callbacks) (host false) w h with
       | Done (tt, _, h') => h' = before ++ repeat None 7
       | _ => False
       end
   | _ => False
   end) /\
  (* no memory for the second colour: all is released *)
  (match yIFF_readFd (ycmap_find ILBM_ID CMAP_ID ycmap_callbacks) (fails_at 3) (start two_colour_file) before with
   | Done (None, w, h) => h = before ++ repeat None 2
   | _ => False
   end) /\
  (* cut short within the second colour: the same *)
  (match yIFF_readFd (ycmap_find ILBM_ID CMAP_ID ycmap_callbacks) (host false) (start (firstn 24 two_colour_file)) before with
   | Done (None, w, h) => h = before ++ repeat None 2
   | _ => False
   end).
Proof. vm_compute. repeat split. Qed.

(** The contract is needed: a freeExtensionChunk that forgets its colours leaks
    them, one that releases the struct makes the library release it again. *)
Example C78_contract_needed :
  (match yIFF_readFd (ycmap_find ILBM_ID CMAP_ID ycmap_forgets) (host false) (start (firstn 24 two_colour_file)) before with
   | Done (None, w, h) => exists x l, ylookup before x = None /\ ylookup h x = Some (YApp (Colours l))
   | _ => False
   end) /\
  yIFF_readFd (ycmap_find ILBM_ID CMAP_ID ycmap_frees_twice) (host false) (start (firstn 24 two_colour_file)) before
    = Undefined UB_invalid_free.
Proof. split; [vm_compute; exists 3%nat, [(255, 0, 1)]; auto|vm_compute; reflexivity]. Qed.
