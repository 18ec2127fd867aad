(** * Property C71: every operation on every tree of the right C types *)

From Coq Require Import ZArith List Bool String Lia Permutation.
From Coq Require Import Strings.Byte.
From Verif Require Import Machine Io Types Build Write Check Compare Print Iff Spec UseSpec Lemmas IoProofs RegProofs SoundProofs PropRead Examples UseProofs
  Heap HeapSpec HeapSearch HeapPass HeapProofs HeapReachProofs HeapClient HeapClientProofs PropHeapTools PropHeapClient.
Import ListNotations.
Open Scope Z_scope.

(** ** C71.  A tree whose structs have the types their IDs require ([Typed]),
    with any sizes and any data.

    Checking returns a verdict, or an addition of sizes overflows, and then
    the tree has a negative size or contents longer than the largest int. *)
Theorem C71_check : forall rg app c e w, Realises (selectChunkRegistry rg) app -> Typed app 0 c ->
  (exists b w', IFF_check c rg e w = Done (b, w')) \/ (IFF_check c rg e w = Undefined UB_signed_overflow /\ Large c).
Proof.
  intros rg app c e w RG T. unfold IFF_check. destruct (_ && _); [left; do 2 eexists; reflexivity|].
  pose proof (check_only _ app RG e (fun u => u = UB_signed_overflow /\ Large c) c 0 T (fun L => conj eq_refl L) w) as K.
  destruct (IFF_checkChunk (selectChunkRegistry rg) c 0 e w) as [[b w']|u|]; [left; eauto|destruct K as (-> & L); right; auto|destruct K].
Qed.
Print Assumptions C71_check.

(** Writing reports success or failure; or a sum of sizes overflows in such a
    tree; or the buffer of zero bytes for a chunk that is longer than its
    contents cannot be allocated; or the data of a raw chunk does not cover
    its declared size. *)
Theorem C71_write : forall rg app c e w, Realises (selectChunkRegistry rg) app -> Typed app 0 c -> strict_c e = false ->
  (exists b w', IFF_writeFd c rg e w = Done (b, w')) \/
  (IFF_writeFd c rg e w = Undefined UB_signed_overflow /\ Large c) \/
  (IFF_writeFd c rg e w = Undefined UB_null_deref /\ small_failure e) \/
  (exists u, IFF_writeFd c rg e w = Undefined u /\ data_ub u /\ Short c).
Proof.
  intros rg app c e w RG T NS. unfold IFF_writeFd.
  pose proof (write_only _ app RG e (fun u => (u = UB_signed_overflow /\ Large c) \/ (u = UB_null_deref /\ small_failure e) \/ (data_ub u /\ Short c)) NS) as K.
  specialize (K (fun S => or_intror (or_introl (conj eq_refl S))) c 0 T).
  assert (A : Allows (fun u => (u = UB_signed_overflow /\ Large c) \/ (u = UB_null_deref /\ small_failure e) \/ (data_ub u /\ Short c)) c) by (split; [auto|intros; auto]).
  specialize (K A w). destruct (IFF_writeChunk (selectChunkRegistry rg) c 0 e w) as [[b w']|u|]; [left; eauto|right|destruct K].
  destruct K as [(-> & L)|[(-> & L)|(D & L)]]; [auto|auto|]. right. right. eauto.
Qed.
Print Assumptions C71_write.

(** Printing succeeds exactly when the data of each raw chunk covers the
    declared size; otherwise it reads memory that holds no data. *)
Theorem C71_print : forall rg app c level, Realises (selectChunkRegistry rg) app -> Typed app 0 c ->
  ((exists t, IFF_print c level rg = Done t) <-> forall i s d, InTree (CRaw i s d) c -> s <= zlength (data_of d)) /\
  ((exists t, IFF_print c level rg = Done t) \/ exists u, IFF_print c level rg = Undefined u /\ data_ub u).
Proof.
  intros rg app c level RG T. unfold IFF_print. split; [split|].
  - intros (t & E). exact (print_needs _ app RG c 0 level t T E).
  - intro K. destruct (PrintProofs.print_total _ app RG c 0 level T) as (t & E); [|eauto]. intros i s d J. specialize (K i s d J).
    destruct (Z_le_dec s 0); [left; assumption|right]. destruct d as [l|]; [exists l; auto|]. cbn [data_of] in K. change (zlength (@nil byte)) with 0 in K. lia.
  - pose proof (print_only _ app RG data_ub c 0 level T (fun _ u U => U)) as K.
    destruct (IFF_printChunk (selectChunkRegistry rg) c level 0) as [t|u|]; [left; eauto|right; eauto|destruct K].
Qed.
Print Assumptions C71_print.

(** Comparing two such trees, however different, answers, or reads data that
    one of them does not have.  It never takes a chunk for one of another type. *)
Theorem C71_compare : forall rg app c1 c2 e, Realises (selectChunkRegistry rg) app -> Typed app 0 c1 -> Typed app 0 c2 ->
  (exists b, IFF_compare e c1 c2 rg = Done b) \/ exists u, IFF_compare e c1 c2 rg = Undefined u /\ data_ub u /\ (Short c1 \/ Short c2).
Proof.
  intros rg app c1 c2 e RG T1 T2. unfold IFF_compare.
  pose proof (compare_only _ app RG e (fun u => data_ub u /\ (Short c1 \/ Short c2)) c1 c2 0 T1 T2 (fun S u U => conj U S)) as K.
  destruct (IFF_compareChunk e (selectChunkRegistry rg) c1 c2 0) as [b|u|]; [left; eauto|right; eauto|destruct K].
Qed.
Print Assumptions C71_compare.

(** Freeing needs nothing but the types. *)
Theorem C71_free : forall rg app c, Realises (selectChunkRegistry rg) app -> Typed app 0 c -> IFF_free c rg = Done tt.
Proof. intros rg app c RG T. exact (free_typed _ app RG c 0 T). Qed.
Print Assumptions C71_free.

(** ** Programs that use the library *)

(** At any moment of any program that follows the ownership rules, for any
    chunk of one of its trees: memory holds a tree of the right types there,
    checking, writing and printing it do only what is said above, and leave
    memory alone: the program is in the same state afterwards. *)
Theorem C71_client : forall h0 h s a e w, strict_c e = false -> Run h0 h s -> in_use h s a ->
  exists c p F, tree_at h c p a F /\ NoDup F /\ Typed no_apps 0 c /\
  ((exists b w', hIFF_check a None e w h = Done (b, w', h)) \/ (hIFF_check a None e w h = Undefined UB_signed_overflow /\ Large c)) /\
  ((exists b w', hIFF_writeFd a None e w h = Done (b, w', h)) \/ (hIFF_writeFd a None e w h = Undefined UB_signed_overflow /\ Large c) \/
   (hIFF_writeFd a None e w h = Undefined UB_null_deref /\ small_failure e) \/
   (exists u, hIFF_writeFd a None e w h = Undefined u /\ data_ub u /\ Short c)) /\
  (forall level, (exists t, hIFF_print a level None e w h = Done (t, w, h)) \/ exists u, hIFF_print a level None e w h = Undefined u /\ data_ub u /\ Short c).
Proof.
  intros h0 h s a e w NS R U. destruct (use_located _ _ _ _ (run_ok _ _ _ R) U) as (o & rest & q & c & p & F & G & _ & _ & LO).
  destruct LO as (_ & _ & T & TR & ND & _ & _). assert (NF : NoDup F) by (exact (NoDup_app_l _ _ _ ND)).
  exists c, p, F. split; [exact TR|]. split; [exact NF|]. split; [exact T|]. split; [|split].
  - rewrite (C61_check_refines None e w c p a F h TR NF). destruct (C71_check None no_apps c e w default_registry T) as [(b & w' & E)|(E & L)]; rewrite E; [left|right]; eauto.
  - rewrite (C61_write_refines None e w c p a F h TR NF). destruct (C71_write None no_apps c e w default_registry T NS) as [(b & w' & E)|[(E & L)|[(E & L)|(u & E & D & L)]]]; rewrite E; eauto 8.
  - intro level. rewrite (C61_print_refines None e w c p a F h level TR NF).
    pose proof (print_only _ no_apps default_registry (fun u => data_ub u /\ Short c) c 0 level T (fun S u U => conj U S)) as K. unfold IFF_print.
    destruct (IFF_printChunk (selectChunkRegistry None) c level 0) as [t|u|]; [left; eauto|right; eauto|destruct K].
Qed.
Print Assumptions C71_client.

(** Two chunks, of the same tree or of different ones *)
Theorem C71_client_compare : forall h0 h s a1 a2 e w, Run h0 h s -> in_use h s a1 -> in_use h s a2 ->
  exists c1 p1 F1 c2 p2 F2, tree_at h c1 p1 a1 F1 /\ tree_at h c2 p2 a2 F2 /\
  ((exists b, hIFF_compare a1 a2 None e w h = Done (b, w, h)) \/
   exists u, hIFF_compare a1 a2 None e w h = Undefined u /\ data_ub u /\ (Short c1 \/ Short c2)).
Proof.
  intros h0 h s a1 a2 e w R U1 U2.
  destruct (use_located _ _ _ _ (run_ok _ _ _ R) U1) as (o1 & rest1 & q1 & c1 & p1 & F1 & G1 & _ & _ & _ & _ & T1 & TR1 & ND1 & _ & _).
  destruct (use_located _ _ _ _ (run_ok _ _ _ R) U2) as (o2 & rest2 & q2 & c2 & p2 & F2 & G2 & _ & _ & _ & _ & T2 & TR2 & ND2 & _ & _).
  exists c1, p1, F1, c2, p2, F2. split; [exact TR1|]. split; [exact TR2|]. rewrite (C61_compare_refines None e w c1 p1 a1 F1 c2 p2 a2 F2 h TR1 (NoDup_app_l _ _ _ ND1) TR2).
  destruct (C71_compare None no_apps c1 c2 e default_registry T1 T2) as [(b & E)|(u & E & D & S)]; rewrite E; eauto 6.
Qed.
Print Assumptions C71_client_compare.

(** ** Each of these can happen *)

(** A chunk that was created and not filled in: printing, writing and comparing
    read uninitialised memory. *)
Definition unfilled : chunk := CGroup FORM_ID 16 (ID_of "TEST") [CRaw (ID_of "NAME") 4 None].
Theorem C71_unfilled_refuted : Typed no_apps 0 unfilled /\
  IFF_print unfilled 0 None = Undefined UB_uninitialised /\
  IFF_writeFd unfilled None (host false) (start []) = Undefined UB_uninitialised /\
  IFF_compare (host false) unfilled unfilled None = Undefined UB_uninitialised /\
  exists b w', IFF_check unfilled None (host false) (start []) = Done (b, w').
Proof.
  split; [|vm_compute; eauto 6]. constructor; [left; reflexivity|]. intros c [<-|[]]. constructor; [|reflexivity]. intros [X|[X|[X|[X|[]]]]]; discriminate X.
Qed.
Print Assumptions C71_unfilled_refuted.

(** A chunk as long as an int allows, in a FORM: checking overflows. *)
Definition enormous : chunk := CGroup FORM_ID 16 (ID_of "TEST") [CRaw (ID_of "NAME") 2147483636 None].
Theorem C71_enormous_refuted : Typed no_apps 0 enormous /\ IFF_check enormous None (host false) (start []) = Undefined UB_signed_overflow.
Proof.
  split; [|vm_compute; reflexivity]. constructor; [left; reflexivity|]. intros c [<-|[]]. constructor; [|reflexivity]. intros [X|[X|[X|[X|[]]]]]; discriminate X.
Qed.
Print Assumptions C71_enormous_refuted.

(** A FORM that says it is longer than its contents: without memory for the
    zero bytes, writing uses NULL. *)
Definition no_memory : env := mkEnv false true true false (fun _ _ => false) 0 (fun _ => 0%nat).
Definition hollow : chunk := CGroup FORM_ID 16 (ID_of "TEST") [].
Theorem C71_hollow_refuted : Typed no_apps 0 hollow /\ IFF_writeFd hollow None no_memory (start []) = Undefined UB_null_deref /\
  exists w', IFF_writeFd hollow None (host false) (start []) = Done (true, w').
Proof. split; [|vm_compute; eauto]. constructor; [left; reflexivity|intros c []]. Qed.
Print Assumptions C71_hollow_refuted.

(** A program that reaches such a state: it creates a FORM and a chunk of 4
    bytes, and adds the chunk without filling it in.  Checking is fine; then it
    sets a text, and all operations are. *)
Definition create_and_add : list call :=
  [CreateGroup FORM_ID (ID_of "TEST"); CreateRaw (ID_of "NAME") 4; Add 1%nat 2%nat].
Definition and_fill : list call := create_and_add ++ [SetText 2%nat (list_byte_of_string "libiff"); Update 2%nat].

Example C71_example :
  (exists h s, Run example_start h s /\ in_use h s 1%nat /\
    hIFF_print 1%nat 0 None (host false) (start []) h = Undefined UB_uninitialised /\
    exists w', hIFF_check 1%nat None (host false) (start []) h = Done (true, w', h)) /\
  (exists h s, Run example_start h s /\ in_use h s 1%nat /\
    (exists t, hIFF_print 1%nat 0 None (host false) (start []) h = Done (t, start [], h)) /\
    (exists w', hIFF_check 1%nat None (host false) (start []) h = Done (true, w', h)) /\
    (exists w', hIFF_writeFd 1%nat None (host false) (start []) h = Done (true, w', h)) /\
    hIFF_compare 1%nat 1%nat None (host false) (start []) h = Done (true, start [], h)).
Proof.
  assert (A : forall l h' s', go l example_start (mkClient [] []) = Some (h', s') -> all_allowed l example_start (mkClient [] []) -> Run example_start h' s').
  { intros l h' s' G AA. exact (all_allowed_run _ _ _ _ _ _ (Run_start _) AA G). }
  assert (B : all_allowed create_and_add example_start (mkClient [] []) /\ all_allowed and_fill example_start (mkClient [] [])).
  { split; unfold and_fill, create_and_add; cbn [List.app].
    all: call_step; [left; reflexivity|].
    all: call_step; [split; [intros [X|[X|[X|[X|[]]]]]; discriminate X|vm_compute; split; [discriminate|reflexivity]]|].
    all: call_step; [split; [split; [left; reflexivity|exists 1%nat; split; [right; left; reflexivity|split; [discriminate|apply Reaches_root]]]|do 2 eexists; split; [reflexivity|left; reflexivity]]|].
    - constructor.
    - call_step; [split; [exists 1%nat; split; [left; reflexivity|eapply Reaches_member; [apply Reaches_root|member]]|split; [do 2 eexists; reflexivity|discriminate]]|].
      call_step; [exists 1%nat; split; [left; reflexivity|eapply Reaches_member; [apply Reaches_root|member]]|]. constructor. }
  destruct B as (B1 & B2). split; eexists; eexists.
  - split; [exact (A create_and_add _ _ ltac:(vm_compute; reflexivity) B1)|]. split; [exists 1%nat; split; [left; reflexivity|apply Reaches_root]|]. split; [vm_compute; reflexivity|]. eexists. vm_compute. reflexivity.
  - split; [exact (A and_fill _ _ ltac:(vm_compute; reflexivity) B2)|]. split; [exists 1%nat; split; [left; reflexivity|apply Reaches_root]|].
    split; [eexists; vm_compute; reflexivity|]. split; [eexists; vm_compute; reflexivity|]. split; [eexists; vm_compute; reflexivity|]. vm_compute. reflexivity.
Qed.
