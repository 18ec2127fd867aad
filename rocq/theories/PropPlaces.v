(** * Property C91: it does not matter where the allocator puts blocks *)

From Coq Require Import ZArith List Bool String Lia.
From Coq Require Import Strings.Byte.
From Verif Require Import Machine Io Types Build Read Write Check Compare Print Search Iff Spec Lemmas IoProofs HostProofs Examples
  Heap HeapSpec HeapProofs HeapBuildProofs HeapSearch HeapPass SessionSpec SessionProofs PropHost PropSession.
Import ListNotations.
Open Scope Z_scope.

(** ** Statements on values do not look at the host *)

Lemma same_list_with_type : forall e1 e2, alike e1 e2 -> forall ty, same e1 e2 true (IFF_createEmptyListWithContentsType ty) (IFF_createEmptyListWithContentsType ty).
Proof. intros e1 e2 A ty. unfold IFF_createEmptyListWithContentsType, IFF_createList. same_all A. Qed.
Lemma same_empty_group : forall e1 e2, alike e1 e2 -> forall cid ty, same e1 e2 true (IFF_createEmptyGroup cid ty) (IFF_createEmptyGroup cid ty).
Proof. intros e1 e2 A cid ty. unfold IFF_createEmptyGroup, IFF_createGroup. same_all A. Qed.
Lemma same_raw : forall e1 e2, alike e1 e2 -> forall cid s, same e1 e2 true (IFF_createRawChunk cid s) (IFF_createRawChunk cid s).
Proof. intros e1 e2 A cid s. unfold IFF_createRawChunk. same_all A. Qed.
Lemma same_addToGroup : forall e1 e2, alike e1 e2 -> forall g c, same e1 e2 true (IFF_addToGroup g c) (IFF_addToGroup g c).
Proof. intros e1 e2 A g c. unfold IFF_addToGroup. apply same_bind; [apply same_attach; exact A|]. intro. same_all A. Qed.
Lemma same_addPropToList : forall e1 e2, alike e1 e2 -> forall g c, same e1 e2 true (IFF_addPropToList g c) (IFF_addPropToList g c).
Proof. intros e1 e2 A g c. unfold IFF_addPropToList. apply same_bind; [apply same_addProp; exact A|]. intro. same_all A. Qed.
Lemma same_addToCAT : forall e1 e2, alike e1 e2 -> forall g c, same e1 e2 true (IFF_addToCATAndUpdateContentsType g c) (IFF_addToCATAndUpdateContentsType g c).
Proof.
  intros e1 e2 A g c. unfold IFF_addToCATAndUpdateContentsType. apply same_bind; [apply same_lift|]. intro. apply same_addToGroup. exact A.
Qed.
Lemma copy_alike : forall e1 e2 y t, alike e1 e2 -> IFF_copyDataToRawChunkData e1 y t = IFF_copyDataToRawChunkData e2 y t.
Proof. intros e1 e2 y t A. unfold IFF_copyDataToRawChunkData. rewrite (long_eq _ _ A). reflexivity. Qed.

Lemma same_vmerge : forall e1 e2, alike e1 e2 -> forall a b, same e1 e2 true (vmerge a b) (vmerge a b).
Proof.
  intros e1 e2 A a b. unfold vmerge. apply same_bind; [apply (same_malloc _ _ _ A)|]. intros []; [apply same_ret|]. destruct (List.length a + List.length b)%nat; [apply same_ret|apply same_undefined].
Qed.
Lemma same_vsearch_all : forall e1 e2, alike e1 e2 -> forall vs l, (forall x, In x l -> same e1 e2 true (vs x) (vs x)) -> forall lt, same e1 e2 true (vsearch_all vs l lt) (vsearch_all vs l lt).
Proof.
  intros e1 e2 A vs. induction l as [|y l IH]; intros SC lt; cbn [vsearch_all]; [apply same_ret|]. apply same_bind; [apply SC; left; reflexivity|]. intro r.
  apply same_bind; [apply same_vmerge; exact A|]. intro f. apply IH. intros x I. apply SC. right. exact I.
Qed.
Lemma same_vsearch : forall e1 e2, alike e1 e2 -> forall types c, same e1 e2 true (vsearchFormsFromArray types c) (vsearchFormsFromArray types c).
Proof.
  intros e1 e2 A types c. induction c as [i s d|i s g subs IH|i s g props subs IHp IHs|i s vals] using chunk_tree_ind; cbn [vsearchFormsFromArray];
    (destruct (_ =? IFF_ID_FORM); [cbn [vsearchFormsInForm]|destruct (_ =? IFF_ID_CAT); [|destruct (_ =? IFF_ID_LIST); [|apply same_ret]]; cbn [vsearchFormsInGroup]]);
    try apply same_undefined; try (apply same_vsearch_all; assumption);
    (destruct (existsb _ types); [same_all A|apply same_vsearch_all; assumption]).
Qed.
Lemma same_vgets : forall e1 e2, alike e1 e2 -> forall c cid, same e1 e2 true (vgetChunksFromForm c cid) (vgetChunksFromForm c cid).
Proof.
  intros e1 e2 A c cid. unfold vgetChunksFromForm. destruct (as_group c) as [[g l]|]; [|apply same_undefined]. generalize (@nil chunk). induction l as [|y l IH]; intro lt; cbn [vall_with_id]; [apply same_ret|].
  destruct (chunkId y =? cid); [|apply IH]. apply same_bind; [apply (same_malloc _ _ _ A)|]. intros []; [apply IH|apply same_undefined].
Qed.

Lemma same_at_place : forall e1 e2 v x q k, (forall c y, same e1 e2 true (k c y) (k c y)) -> same e1 e2 true (at_place v x q k) (at_place v x q k).
Proof. intros e1 e2 v x q k K. unfold at_place. destruct (v x) as [c|]; [|apply same_ret]. destruct (at_path c q); [apply K|apply same_ret]. Qed.

Lemma same_vexec : forall rg e1 e2, alike e1 e2 -> forall s v, same e1 e2 true (vexec rg s v) (vexec rg s v).
Proof.
  intros rg e1 e2 A s v. destruct s; cbn [vexec]; try (apply same_at_place; intros c z).
  - intros w1 w2 (I1 & O1 & N1). split; [reflexivity|]. split; [|exists []; split; reflexivity]. split; [reflexivity|]. split; [exact O1|exact N1].
  - apply same_bind; [apply same_readFd; exact A|]. intro. apply same_ret.
  - apply same_bind; [apply same_empty_group; exact A|]. intro. apply same_ret.
  - apply same_bind; [apply same_list_with_type; exact A|]. intro. apply same_ret.
  - apply same_bind; [apply same_raw; exact A|]. intro. apply same_ret.
  - unfold create_fields. same_all A.
  - destruct z; try apply same_undefined. destruct (assign n v0 vals); apply same_ret.
  - destruct (v y); [|apply same_ret]. apply same_bind; [apply same_addToGroup; exact A|]. intro. apply same_ret.
  - destruct (v y) as [d|]; [|apply same_ret]. apply same_bind; [apply same_addPropToList; exact A|]. intro. apply same_ret.
  - destruct (v y); [|apply same_ret]. apply same_bind; [apply same_addToCAT; exact A|]. intro. apply same_ret.
  - same_all A.
  - same_all A.
  - apply same_ask. rewrite (copy_alike e1 e2 _ _ A). same_all A.
  - same_all A.
  - same_all A.
  - apply same_bind; [apply same_vsearch; exact A|]. intro. apply same_ret.
  - apply same_bind; [apply same_vgets; exact A|]. intro. apply same_ret.
  - same_all A.
  - destruct (v x); [|apply same_ret]. apply same_bind; [apply same_writeChunk; exact A|]. intro. apply same_ret.
  - destruct (v x); [|apply same_ret]. apply same_bind; [apply same_check|]. intro. apply same_ret.
  - destruct (v x); same_all A.
  - destruct (v x); [|apply same_ret]. destruct (v y); [|apply same_ret]. apply same_ask. rewrite (C04_comparing e1 e2 rg _ _ A). same_all A.
  - destruct (v x); same_all A.
Qed.

Lemma same_vrun : forall rg e1 e2, alike e1 e2 -> forall p v, same e1 e2 true (vrun rg p v) (vrun rg p v).
Proof.
  intros rg e1 e2 A. induction p as [|s p IH]; intro v; cbn [vrun]; [apply same_ret|]. apply same_bind; [apply same_vexec; exact A|]. intros [a v1].
  apply same_bind; [apply IH|]. intros [l v2]. apply same_ret.
Qed.
Lemma vrun_alike : forall rg e1 e2, alike e1 e2 -> forall p v w, vrun rg p v e1 w = vrun rg p v e2 w.
Proof. intros rg e1 e2 A p v. apply same_equal. apply same_vrun. exact A. Qed.

(** ** The theorems *)

(** An allocation that succeeds gives a block at which there was nothing: it may
    have been there before, and released, or it lies behind everything that was
    ever allocated.  What is allocated already stays as it is. *)
Theorem C91_allocation : forall e w h size o a w' h', hmalloc size o e w h = Done (Some a, w', h') ->
  lookup h a = None /\ lookup h' a = Some o /\ forall u, u <> a -> lookup h' u = lookup h u.
Proof.
  intros e w h size o a w' h' E. destruct (hmalloc_run size o e w h) as (ok & w1 & _ & _ & R). destruct ok; rewrite R in E; [|discriminate]. injection E as <- <- <-.
  split; [apply address_free|]. split; [rewrite lookup_new, Nat.eqb_refl; reflexivity|]. intros u N. rewrite lookup_new. destruct (Nat.eqb_spec u (address e w1 h)); [contradiction|reflexivity].
Qed.
Print Assumptions C91_allocation.

(** A program run twice, in two memories, with two allocators that put blocks
    where they like and may or may not use released space again (and on hosts
    with any byte orders, and char signed or not): the same answers, the same
    output, the same diagnostics, and variables that point at the same trees; or
    the same undefined behaviour. *)
Theorem C91_programs : forall rg app e1 e2 p w h1 h2, Realises (selectChunkRegistry rg) app -> alike e1 e2 -> Forall legal p ->
  match hrun rg p nothing e1 w h1, hrun rg p nothing e2 w h2 with
  | Done ((l1, P1), w1, m1), Done ((l2, P2), w2, m2) =>
      l1 = l2 /\ w1 = w2 /\ forall x, exists o, holds m1 (P1 x) o /\ holds m2 (P2 x) o
  | Undefined u1, Undefined u2 => u1 = u2
  | OutOfFuel, OutOfFuel => True
  | _, _ => False
  end.
Proof.
  intros rg app e1 e2 p w h1 h2 RG A LG. pose proof (C90_program rg app p e1 w h1 RG LG) as R1. pose proof (C90_program rg app p e2 w h2 RG LG) as R2.
  rewrite <- (vrun_alike rg e1 e2 A p nothing w) in R2. destruct (vrun rg p nothing e1 w) as [[[l V] w']|u|].
  - destruct R1 as (P1 & m1 & E1 & H1 & _), R2 as (P2 & m2 & E2 & H2 & _). rewrite E1, E2. split; [reflexivity|]. split; [reflexivity|]. intro x. exists (V x). auto.
  - rewrite R1, R2. reflexivity.
  - rewrite R1, R2. exact I.
Qed.
Print Assumptions C91_programs.

(** Several programs in any order, each with an allocator of its own liking:
    another order, another memory and other allocators make no difference to
    what any of them sees. *)
Theorem C91_schedules : forall R A E1 E2 W sch sch' h h' l m, (forall t, Realises (selectChunkRegistry (R t)) (A t)) -> (forall t, alike (E1 t) (E2 t)) ->
  Forall (fun x => legal (snd x)) sch -> Forall (fun x => legal (snd x)) sch' ->
  (forall t, mine t sch' = mine t sch) ->
  take_turns R E1 sch (mkMachine h W (fun _ => nothing)) = Done (l, m) ->
  exists l' m', take_turns R E2 sch' (mkMachine h' W (fun _ => nothing)) = Done (l', m') /\
    forall t, mine t l' = mine t l /\ m_world m' t = m_world m t /\
      forall x, exists o, holds (m_heap m) (m_vars m t x) o /\ holds (m_heap m') (m_vars m' t x) o.
Proof.
  intros R A E1 E2 W sch sch' h h' l m RG AL LG LG' SAME RUN.
  pose proof (C90_alone R A E1 W sch h RG LG) as X0. rewrite RUN in X0.
  pose proof (C90_alone R A E2 W sch' h' RG LG') as R'.
  assert (Q : forall t, vrun (R t) (mine t sch') nothing (E2 t) (W t) = vrun (R t) (mine t sch) nothing (E1 t) (W t)) by (intro t; rewrite SAME; symmetry; apply vrun_alike; apply AL).
  destruct (take_turns R E2 sch' _) as [[l' m']|u|].
  - exists l', m'. split; [reflexivity|]. intro t. destruct (X0 t) as (V & X & Y), (R' t) as (V' & X' & Y'). rewrite Q, X in X'. injection X' as E EV EW.
    split; [symmetry; exact E|]. split; [symmetry; exact EW|]. intro x. exists (V x). split; [apply Y|]. rewrite EV. apply Y'.
  - destruct R' as (t & X'). destruct (X0 t) as (V & X & _). rewrite Q, X in X'. discriminate.
  - destruct R' as (t & X'). destruct (X0 t) as (V & X & _). rewrite Q, X in X'. discriminate.
Qed.
Print Assumptions C91_schedules.

(** ** Two allocators that do differ *)

(** One never uses released space again, the other takes block 0 or 1 whenever it
    can. *)
Definition fresh_host : env := mkEnv false true true false (fun _ _ => true) 0 (fun n => n + 1000)%nat.
Definition reuse_host : env := mkEnv true false true false (fun _ _ => true) 0 (fun n => Nat.modulo n 2).
Definition ex_reuser : list stmt := [SRaw 0 (ID_of "HELO") 3; SFree 0; SRaw 1 (ID_of "BYE ") 4; SCopy 1 [] (bytes "wxyz"); SLook 1 []; SWrite 1].

Example C91_example :
  alike fresh_host reuse_host /\ Forall legal ex_reuser /\
  match hrun None ex_reuser nothing fresh_host (start []) [], hrun None ex_reuser nothing reuse_host (start []) [] with
  | Done ((l1, P1), w1, m1), Done ((l2, P2), w2, m2) =>
      l1 = [AOk; AOk; AOk; AOk; ASees (ID_of "BYE ") 4 (Some (Some (bytes "wxyz"))) []; ABool true] /\ l2 = l1 /\ w2 = w1 /\
      P1 1%nat = Some 2%nat /\ P2 1%nat = Some 1%nat /\ List.length m1 = 4%nat /\ List.length m2 = 2%nat
  | _, _ => False
  end.
Proof.
  split; [split; reflexivity|]. split; [|vm_compute; repeat split; reflexivity].
  unfold ex_reuser. repeat constructor; cbn [legal]; try (vm_compute; intuition congruence); try (vm_compute; discriminate).
Qed.
