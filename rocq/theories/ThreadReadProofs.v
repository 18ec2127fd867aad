(** * Calls that only look at a tree neither write nor release its blocks *)

From Coq Require Import ZArith List Bool String.
From Coq Require Import Strings.Byte.
From Verif Require Import Machine Io Types Build Read Write Check Compare Print Search Iff Spec Heap HeapSpec HeapSearch HeapPass HeapProofs SessionSpec ThreadSpec ThreadStepProofs.
Import ListNotations.
Open Scope Z_scope.

(** ** Calls that write and release nothing at all *)

Fixpoint quiet {A} (t : task A) : Prop :=
  match t with
  | TRet _ | TUndefined _ | TNoFuel => True
  | TIo _ k => forall x, quiet (k x)
  | TLoad _ k => forall o, quiet (k o)
  | TStore _ _ _ | TFree _ _ => False
  | TPlace _ k => forall a, quiet (k a)
  | TSize k => forall n, quiet (k n)
  end.

Definition quietly {A} (m : H A) : Type := { t : task A | takes_apart t m /\ quiet t }.

Lemma quiet_bind : forall A B (t : task A) (k : A -> task B), quiet t -> (forall a, quiet (k a)) -> quiet (tbind t k).
Proof. intros A B t k. induction t as [a|u| |C m j IH|a j IH|a o j IH|a j IH|o j IH|j IH]; cbn [tbind quiet]; intros Q K; auto. Qed.

Lemma qu_ret : forall A (a : A), quietly (hret a).
Proof. intros A a. exists (TRet a). split; [intros e w h; reflexivity|exact I]. Defined.
Lemma qu_undefined : forall A u, quietly (@hundefined A u).
Proof. intros A u. exists (TUndefined u). split; [intros e w h; reflexivity|exact I]. Defined.
Lemma qu_nofuel : forall A, quietly (@hnofuel A).
Proof. intros A. exists TNoFuel. split; [intros e w h; reflexivity|exact I]. Defined.
Lemma qu_io : forall A (m : M A), quietly (io m).
Proof. intros A m. exists (TIo m TRet). split; [|intro x; exact I]. intros e w h. cbn. unfold hbind, io, hret. destruct (m e w) as [[x w']|u|]; reflexivity. Defined.
Lemma qu_load : forall a, quietly (hload a).
Proof. intros a. exists (TLoad a TRet). split; [|intro x; exact I]. intros e w h. cbn. unfold hbind, hload, hret. destruct (lookup h a); reflexivity. Defined.
Lemma qu_bind : forall A B (m : H A) (k : A -> H B), quietly m -> (forall a, quietly (k a)) -> quietly (hbind m k).
Proof.
  intros A B m k [t [T Q]] K. exists (tbind t (fun a => proj1_sig (K a))). split; [|apply quiet_bind; [exact Q|intro a; apply (proj2_sig (K a))]].
  intros e w h. rewrite perform_bind. unfold hbind. rewrite T.
  destruct (m e w h) as [[[a w'] h']|u|]; [apply (proj2_sig (K a))|reflexivity|reflexivity].
Defined.
Lemma qu_size : forall A (f : nat -> H A), (forall n, quietly (f n)) -> quietly (fun e w h => f (List.length h) e w h).
Proof.
  intros A f F. exists (TSize (fun n => proj1_sig (F n))). split; [|intro n; apply (proj2_sig (F n))]. intros e w h. cbn [perform]. apply (proj2_sig (F _)).
Defined.
Lemma qu_and : forall m1 m2, quietly m1 -> quietly m2 -> quietly (handM m1 m2).
Proof. intros m1 m2 Q1 Q2. unfold handM. apply qu_bind; [exact Q1|]. intros []; [exact Q2|apply qu_ret]. Defined.

Create HintDb qu.
Ltac qu_one :=
  first
    [ apply qu_ret | apply qu_undefined | apply qu_nofuel | apply qu_io | apply qu_load
    | solve [auto with qu]
    | apply qu_bind | apply qu_and
    | match goal with |- quietly (match ?x with _ => _ end) => destruct x end
    | match goal with |- quietly (let x := _ in _) => cbv zeta end ].
Ltac qu := repeat (intros; qu_one).
#[export] Hint Resolve qu_ret : qu.

Lemma qu_lift : forall A (o : outcome A), quietly (hlift o).
Proof. unfold hlift. qu. Defined.
#[export] Hint Resolve qu_lift : qu.
Lemma qu_array : forall p, quietly (harray p).
Proof. unfold harray. qu. Defined.
#[export] Hint Resolve qu_array : qu.
Lemma qu_chunk : forall a, quietly (hchunk a).
Proof. unfold hchunk. qu. Defined.
#[export] Hint Resolve qu_chunk : qu.
Lemma qu_elements : forall p n, quietly (helements p n).
Proof. unfold helements. qu. Defined.
#[export] Hint Resolve qu_elements : qu.
Lemma qu_increment : forall s c, quietly (hincrementChunkSize s c).
Proof. unfold hincrementChunkSize. qu. Defined.
#[export] Hint Resolve qu_increment : qu.
Lemma qu_bounded : forall A (f : nat -> H A), (forall n, quietly (f n)) -> quietly (hbounded f).
Proof. intros A f F. unfold hbounded. apply (qu_size _ (fun n => f (S n))). qu. Defined.
#[export] Hint Resolve qu_bounded : qu.
Lemma qu_block_bytes : forall p n, quietly (hblock_bytes p n).
Proof. unfold hblock_bytes. qu. Defined.
#[export] Hint Resolve qu_block_bytes : qu.
Lemma qu_writeRaw : forall c bp, quietly (hwriteRawChunk c bp).
Proof. unfold hwriteRawChunk. qu. Defined.
#[export] Hint Resolve qu_writeRaw : qu.
Lemma qu_write_fields : forall s c bp, quietly (hwrite_fields_chunk s c bp).
Proof. unfold hwrite_fields_chunk. qu. Defined.
#[export] Hint Resolve qu_write_fields : qu.
Lemma qu_write_all : forall f, (forall c t, quietly (f c t)) -> forall msg l t bp, quietly (hwrite_all f msg l t bp).
Proof. intros f F msg l. induction l; cbn [hwrite_all]; qu. Defined.
#[export] Hint Resolve qu_write_all : qu.
Lemma qu_writeExtension : forall f, (forall c t, quietly (f c t)) -> forall k c bp, quietly (hwriteExtensionChunkFields f k c bp).
Proof. unfold hwriteExtensionChunkFields, hwriteGroup, hwriteList. qu. Defined.
#[export] Hint Resolve qu_writeExtension : qu.
Lemma qu_writeBody : forall f, (forall c t, quietly (f c t)) -> forall rg c t, quietly (hwriteChunkBody f rg c t).
Proof. unfold hwriteChunkBody. qu. Defined.
#[export] Hint Resolve qu_writeBody : qu.
Lemma qu_writeChunk : forall rg n c t, quietly (hwriteChunk rg n c t).
Proof. intros rg n. induction n as [|n IH]; intros c t; cbn [hwriteChunk]; qu. Defined.
#[export] Hint Resolve qu_writeChunk : qu.
Lemma qu_writeFd : forall c rg, quietly (hIFF_writeFd c rg).
Proof. unfold hIFF_writeFd. qu. Defined.
#[export] Hint Resolve qu_writeFd : qu.
Lemma qu_checkCATSub : forall g c, quietly (hcheckCATSubChunk g c).
Proof. unfold hcheckCATSubChunk. qu. Defined.
#[export] Hint Resolve qu_checkCATSub : qu.
Lemma qu_formSub : forall g c, quietly (hform_subChunkCheck g c).
Proof. unfold hform_subChunkCheck. qu. Defined.
#[export] Hint Resolve qu_formSub : qu.
Lemma qu_propSub : forall g c, quietly (hprop_subChunkCheck g c).
Proof. unfold hprop_subChunkCheck. qu. Defined.
#[export] Hint Resolve qu_propSub : qu.
Lemma qu_checkSize : forall g n, quietly (hcheckGroupChunkSize g n).
Proof. unfold hcheckGroupChunkSize. qu. Defined.
#[export] Hint Resolve qu_checkSize : qu.
Lemma qu_check_subs : forall f sc, (forall c t, quietly (f c t)) -> (forall c, quietly (sc c)) -> forall l t acc, quietly (hcheck_subs f sc l t acc).
Proof. intros f sc F S l. induction l; cbn [hcheck_subs]; qu. Defined.
#[export] Hint Resolve qu_check_subs : qu.
Lemma qu_checkGroup : forall f, (forall c t, quietly (f c t)) -> forall gc sc, (forall g c, quietly (sc g c)) -> forall c, quietly (hcheckGroup f gc sc c).
Proof. unfold hcheckGroup. qu. Defined.
#[export] Hint Resolve qu_checkGroup : qu.
Lemma qu_checkList : forall f, (forall c t, quietly (f c t)) -> forall c, quietly (hcheckList f c).
Proof. unfold hcheckList. qu. Defined.
#[export] Hint Resolve qu_checkList : qu.
Lemma qu_checkExtension : forall f, (forall c t, quietly (f c t)) -> forall k c, quietly (hcheckExtensionChunk f k c).
Proof. unfold hcheckExtensionChunk, hcheck_fields_chunk. qu. Defined.
#[export] Hint Resolve qu_checkExtension : qu.
Lemma qu_checkChunk : forall rg n c t, quietly (hcheckChunk rg n c t).
Proof. intros rg n. induction n as [|n IH]; intros c t; cbn [hcheckChunk]; qu. Defined.
#[export] Hint Resolve qu_checkChunk : qu.
Lemma qu_check : forall c rg, quietly (hIFF_check c rg).
Proof. unfold hIFF_check. qu. Defined.
#[export] Hint Resolve qu_check : qu.
Lemma qu_print_all : forall f, (forall c l t, quietly (f c l t)) -> forall l lv t, quietly (hprint_all f l lv t).
Proof. intros f F l. induction l; cbn [hprint_all]; qu. Defined.
#[export] Hint Resolve qu_print_all : qu.
Lemma qu_print_array : forall f, (forall c l t, quietly (f c l t)) -> forall o arr n t lv, quietly (hprint_array f o arr n t lv).
Proof. unfold hprint_array. qu. Defined.
#[export] Hint Resolve qu_print_array : qu.
Lemma qu_printExtension : forall f, (forall c l t, quietly (f c l t)) -> forall k c lv, quietly (hprintExtensionChunk f k c lv).
Proof. unfold hprintExtensionChunk, hprintGroup, hprintList, hprintRawChunk, hprint_fields_chunk. qu. Defined.
#[export] Hint Resolve qu_printExtension : qu.
Lemma qu_printChunk : forall rg n c lv t, quietly (hprintChunk rg n c lv t).
Proof. intros rg n. induction n as [|n IH]; intros c lv t; cbn [hprintChunk]; qu. Defined.
#[export] Hint Resolve qu_printChunk : qu.
Lemma qu_print : forall c lv rg, quietly (hIFF_print c lv rg).
Proof. unfold hIFF_print. qu. Defined.
#[export] Hint Resolve qu_print : qu.
Lemma qu_compare_all : forall f, (forall c d t, quietly (f c d t)) -> forall l1 l2 t, quietly (hcompare_all f l1 l2 t).
Proof. intros f F l1. induction l1; cbn [hcompare_all]; qu. Defined.
#[export] Hint Resolve qu_compare_all : qu.
Lemma qu_compareGroup : forall f, (forall c d t, quietly (f c d t)) -> forall c d, quietly (hcompareGroup f c d).
Proof. unfold hcompareGroup, hcompare_members. qu. Defined.
#[export] Hint Resolve qu_compareGroup : qu.
Lemma qu_compare_props : forall f, (forall c d t, quietly (f c d t)) -> forall l1 l2, quietly (hcompare_props f l1 l2).
Proof. intros f F l1. induction l1; cbn [hcompare_props]; qu. Defined.
#[export] Hint Resolve qu_compare_props : qu.
Lemma qu_compareExtension : forall f, (forall c d t, quietly (f c d t)) -> forall k c d, quietly (hcompareExtensionChunk f k c d).
Proof. unfold hcompareExtensionChunk, hcompareList, hcompare_members, hcompareRawChunk, hcompare_fields_chunk. qu. Defined.
#[export] Hint Resolve qu_compareExtension : qu.
Lemma qu_compareChunk : forall rg n c d t, quietly (hcompareChunk rg n c d t).
Proof. intros rg n. induction n as [|n IH]; intros c d t; cbn [hcompareChunk]; qu. Defined.
#[export] Hint Resolve qu_compareChunk : qu.
Lemma qu_compare : forall c d rg, quietly (hIFF_compare c d rg).
Proof. unfold hIFF_compare. qu. Defined.
#[export] Hint Resolve qu_compare : qu.
Lemma qu_first_id : forall i l, quietly (hfirst_with_id i l).
Proof. intros i l. induction l; cbn [hfirst_with_id]; qu. Defined.
#[export] Hint Resolve qu_first_id : qu.
Lemma qu_first_type : forall i l, quietly (hfirst_with_type i l).
Proof. intros i l. induction l; cbn [hfirst_with_type]; qu. Defined.
#[export] Hint Resolve qu_first_type : qu.
Lemma qu_getData : forall c i, quietly (hgetDataChunkFromForm c i).
Proof. unfold hgetDataChunkFromForm. qu. Defined.
#[export] Hint Resolve qu_getData : qu.
Lemma qu_getProp : forall c i, quietly (hgetPropFromList c i).
Proof. unfold hgetPropFromList. qu. Defined.
#[export] Hint Resolve qu_getProp : qu.
Lemma qu_searchList : forall n c, quietly (hsearchList n c).
Proof. intro n. induction n as [|n IH]; intro c; cbn [hsearchList]; qu. Defined.
#[export] Hint Resolve qu_searchList : qu.
Lemma qu_searchProperty : forall n c t i, quietly (hsearchProperty n c t i).
Proof. intro n. induction n as [|n IH]; intros c t i; [cbn [hsearchProperty]; qu|]. change (hsearchProperty (S n) c t i) with (ol <-h hsearchList (S n) c ;;
      match ol with
      | None => hret None
      | Some l =>
          op <-h hgetPropFromList l t ;;
          match op with
          | None => hsearchProperty n l t i
          | Some prop =>
              oc <-h hgetDataChunkFromForm prop i ;;
              match oc with
              | None => hsearchProperty n l t i
              | Some x => hret (Some x)
              end
          end
      end). qu. Defined.
#[export] Hint Resolve qu_searchProperty : qu.
Lemma qu_getChunk : forall c i, quietly (hIFF_getChunkFromForm c i).
Proof.
  unfold hIFF_getChunkFromForm. qu. apply (qu_size _ (fun n => hsearchProperty (S n) c z i)). qu.
Defined.
#[export] Hint Resolve qu_getChunk : qu.
Lemma qu_sees : forall a, quietly (hsees a).
Proof. unfold hsees. qu. Defined.
#[export] Hint Resolve qu_sees : qu.
Lemma qu_sees_all : forall l, quietly (hsees_all l).
Proof. intro l. induction l; cbn [hsees_all]; qu. Defined.
#[export] Hint Resolve qu_sees_all : qu.
Lemma qu_follow : forall q a, quietly (hfollow q a).
Proof. intro q. induction q as [|s q IH]; intro a; cbn [hfollow]; qu. Defined.
#[export] Hint Resolve qu_follow : qu.
Lemma qu_at_place : forall v x q k, (forall a, quietly (k a)) -> quietly (hat_place v x q k).
Proof. unfold hat_place. qu. Defined.

(** ** Calls that write and release nothing of what was there before *)

Section Sparing.
  Variable S : addr -> Prop.
  Definition live (h : heap) : Prop := forall u, S u -> lookup h u <> None.
  Definition outside (p : ptr) : Prop := forall a, p = Some a -> ~ S a.

  (** If [Pre] holds then the call spares the blocks of [S], and its result is [Post]. *)
  Definition sparing {A} (Pre : Prop) (m : H A) (Post : A -> Prop) : Type :=
    { t : task A | takes_apart t m /\ (Pre -> forall e w h, live h -> spares S t e w h /\
        forall a w' h', perform t e w h = Done (a, w', h') -> live h' /\ Post a) }.

  Lemma live_fill : forall e w h o, live h -> live (fill h (address e w h) o).
  Proof. intros e w h o L u SU. rewrite lookup_new. destruct (Nat.eqb u (address e w h)); [discriminate|exact (L u SU)]. Qed.

  Lemma sparing_bind_task : forall A B (t : task A) (k : A -> task B) e w h,
    spares S t e w h -> (forall a w' h', perform t e w h = Done (a, w', h') -> spares S (k a) e w' h') -> spares S (tbind t k) e w h.
  Proof.
    intros A B t k. induction t as [a|u| |C m j IH|a j IH|a o j IH|a j IH|o j IH|j IH]; intros e w h SP K; cbn [tbind spares perform] in *.
    - apply (K a w h). reflexivity.
    - exact I.
    - exact I.
    - unfold hbind, io in K. destruct (m e w) as [[x w']|u|]; [|exact I|exact I]. apply IH; [exact SP|exact K].
    - unfold hbind, hload in K. destruct (lookup h a) as [o|]; [|exact I]. apply IH; [exact SP|exact K].
    - split; [exact (proj1 SP)|]. unfold hbind, hstore in K. destruct (lookup h a); [|exact I]. apply IH; [exact (proj2 SP)|exact K].
    - split; [exact (proj1 SP)|]. unfold hbind, hfree in K. destruct (lookup h a); [|exact I]. apply IH; [exact (proj2 SP)|exact K].
    - apply IH; assumption.
    - apply IH; assumption.
  Qed.

  Lemma sp_bind : forall A B (m : H A) (k : A -> H B) (Pre : Prop) Mid Post,
    sparing Pre m Mid -> (forall a, sparing (Pre /\ Mid a) (k a) Post) -> sparing Pre (hbind m k) Post.
  Proof.
    intros A B m k Pre Mid Post [t [T C]] K. exists (tbind t (fun a => proj1_sig (K a))). split.
    - intros e w h. rewrite perform_bind. unfold hbind. rewrite T. destruct (m e w h) as [[[a w'] h']|u|]; [apply (proj2_sig (K a))|reflexivity|reflexivity].
    - intros P e w h L. destruct (C P e w h L) as (SP & PO). split.
      + apply sparing_bind_task; [exact SP|]. intros a w' h' R. destruct (PO a w' h' R) as (L' & Q). apply (proj2 (proj2_sig (K a)) (conj P Q) e w' h' L').
      + intros b w2 h2 R. rewrite perform_bind in R. unfold hbind in R. destruct (perform t e w h) as [[[a w'] h']|u|] eqn:RT; [|discriminate|discriminate].
        destruct (PO a w' h' eq_refl) as (L' & Q). exact (proj2 (proj2 (proj2_sig (K a)) (conj P Q) e w' h' L') b w2 h2 R).
  Defined.

  Lemma sp_weaken : forall A (m : H A) (Pre Pre' : Prop) (Post Post' : A -> Prop), sparing Pre m Post -> (Pre' -> Pre) -> (forall a, Pre' -> Post a -> Post' a) -> sparing Pre' m Post'.
  Proof.
    intros A m Pre Pre' Post Post' [t [T C]] P Q. exists t. split; [exact T|]. intros X e w h L. destruct (C (P X) e w h L) as (SP & PO). split; [exact SP|].
    intros a w' h' R. destruct (PO a w' h' R). auto.
  Defined.

  Lemma quiet_spares : forall A (t : task A), quiet t -> forall e w h, live h -> spares S t e w h /\ forall a w' h', perform t e w h = Done (a, w', h') -> live h'.
  Proof.
    intros A t. induction t as [a|u| |C m j IH|a j IH|a o j IH|a j IH|o j IH|j IH]; intros Q e w h L; cbn [quiet spares perform] in *.
    - split; [exact I|]. intros b w' h' R. injection R as _ _ <-. exact L.
    - split; [exact I|discriminate].
    - split; [exact I|discriminate].
    - unfold hbind, io. destruct (m e w) as [[x w']|u|]; [|split; [exact I|discriminate]|split; [exact I|discriminate]]. apply IH; [apply Q|exact L].
    - unfold hbind, hload. destruct (lookup h a) as [o|]; [|split; [exact I|discriminate]]. apply IH; [apply Q|exact L].
    - contradiction.
    - contradiction.
    - apply IH; [apply Q|apply live_fill; exact L].
    - apply IH; [apply Q|exact L].
  Qed.
  Lemma sp_quiet : forall A (m : H A) (Pre : Prop), quietly m -> sparing Pre m (fun _ => True).
  Proof.
    intros A m Pre [t [T Q]]. exists t. split; [exact T|]. intros _ e w h L. destruct (quiet_spares A t Q e w h L) as (X & Y). split; [exact X|].
    intros a w' h' R. split; [exact (Y a w' h' R)|exact I].
  Defined.
  Lemma sp_ret : forall A (a : A) (Pre : Prop) (Post : A -> Prop), (Pre -> Post a) -> sparing Pre (hret a) Post.
  Proof.
    intros A a Pre Post P. exists (TRet a). split; [intros e w h; reflexivity|]. intros X e w h L. split; [exact I|]. intros b w' h' R. injection R as <- _ <-. auto.
  Defined.
  Lemma sp_undefined : forall A u (Pre : Prop) (Post : A -> Prop), sparing Pre (@hundefined A u) Post.
  Proof. intros A u Pre Post. exists (TUndefined u). split; [intros e w h; reflexivity|]. intros X e w h L. split; [exact I|discriminate]. Defined.
  Lemma sp_nofuel : forall A (Pre : Prop) (Post : A -> Prop), sparing Pre (@hnofuel A) Post.
  Proof. intros A Pre Post. exists TNoFuel. split; [intros e w h; reflexivity|]. intros X e w h L. split; [exact I|discriminate]. Defined.
  Lemma sp_free : forall p (Pre : Prop), (Pre -> outside p) -> sparing Pre (hfree p) (fun _ => True).
  Proof.
    intros [a|] Pre P; [|apply sp_ret; auto]. exists (TFree a (TRet tt)). split.
    - intros e w h. cbn. unfold hbind, hret. destruct (lookup h a); reflexivity.
    - intros X e w h L. cbn [spares perform]. assert (N : ~ S a) by (exact (P X a eq_refl)). split.
      + split; [exact N|]. destruct (lookup h a); exact I.
      + intros b w' h' R. unfold hbind, hfree, hret in R. destruct (lookup h a); [|discriminate]. injection R as _ _ <-. split; [|exact I].
        intros u SU. rewrite lookup_release. destruct (Nat.eqb_spec u a) as [->|]; [contradiction|exact (L u SU)].
  Defined.
  Lemma sp_place : forall A (f : addr -> A) o (Pre : Prop) (Post : A -> Prop), (forall a, Pre -> ~ S a -> Post (f a)) ->
    sparing Pre (fun e w h => Done (f (address e w h), w, fill h (address e w h) o)) Post.
  Proof.
    intros A f o Pre Post P. exists (TPlace o (fun a => TRet (f a))). split; [intros e w h; reflexivity|]. intros X e w h L. split; [exact I|].
    intros a w' h' R. cbn in R. injection R as <- _ <-. split; [apply live_fill; exact L|]. apply P; [exact X|]. intro SU. exact (L _ SU (address_free e w h)).
  Defined.
  Lemma sp_size : forall A (f : nat -> H A) Pre Post, (forall n, sparing Pre (f n) Post) -> sparing Pre (fun e w h => f (List.length h) e w h) Post.
  Proof.
    intros A f Pre Post F. exists (TSize (fun n => proj1_sig (F n))). split; [intros e w h; cbn [perform]; apply (proj2_sig (F _))|].
    intros X e w h L. cbn [spares perform]. exact (proj2 (proj2_sig (F _)) X e w h L).
  Defined.

  (** *** Searches make arrays of their own *)

  Lemma outside_none : outside None.
  Proof. intros a E. discriminate. Qed.
  Lemma outside_some : forall a, ~ S a -> outside (Some a).
  Proof. intros a N b E. injection E as <-. exact N. Qed.

  Lemma sp_push : forall p n x (Pre : Prop), (Pre -> outside p) -> sparing Pre (hpush p n x) outside.
  Proof.
    intros p n x Pre P. unfold hpush. eapply sp_bind; [apply sp_quiet; qu|]. intro l. eapply sp_bind; [apply sp_quiet; qu|]. intros []; [|apply sp_undefined].
    eapply sp_bind; [apply sp_free; tauto|]. intros []. apply (sp_place _ Some). intros a _. apply outside_some.
  Defined.
  Lemma sp_malloc : forall n o (Pre : Prop), sparing Pre (hmalloc n o) outside.
  Proof.
    intros n o Pre. unfold hmalloc. eapply sp_bind; [apply sp_quiet; qu|]. intros []; [apply (sp_place _ Some); intros a _; apply outside_some|apply sp_ret; intros _; apply outside_none].
  Defined.
  Definition result_outside (r : ptr * nat) : Prop := outside (fst r).

  Lemma sp_all_id : forall cid l p n (Pre : Prop), (Pre -> outside p) -> sparing Pre (hall_with_id cid l p n) result_outside.
  Proof.
    intros cid l. induction l as [|c l IH]; intros p n Pre P; cbn [hall_with_id]; [apply sp_ret; exact P|].
    eapply sp_bind; [apply sp_quiet; qu|]. intros [hd b]. destruct (o_id hd =? cid); [|apply IH; tauto].
    eapply sp_bind; [apply sp_push; tauto|]. intro p'. apply IH. tauto.
  Defined.
  Lemma sp_getChunks : forall c cid (Pre : Prop), sparing Pre (hIFF_getChunksFromForm c cid) result_outside.
  Proof.
    intros c cid Pre. unfold hIFF_getChunksFromForm. eapply sp_bind; [apply sp_quiet; qu|]. intros [hd b].
    destruct b; try apply sp_undefined; (eapply sp_bind; [apply sp_quiet; qu|]; intro l; apply sp_all_id; intros _; apply outside_none).
  Defined.
  Lemma sp_merge : forall t n s k (Pre : Prop), (Pre -> outside t) -> sparing Pre (hmergeFormArray t n s k) result_outside.
  Proof.
    intros t n s k Pre P. unfold hmergeFormArray. eapply sp_bind; [apply sp_quiet; qu|]. intro l. eapply sp_bind; [apply sp_quiet; qu|]. intros [].
    - eapply sp_bind; [apply sp_free; tauto|]. intros []. eapply sp_bind; [apply sp_quiet; qu|]. intro l2.
      apply (sp_place _ (fun b => (Some b, (n + k)%nat)) (OArray (l ++ l2))). intros a _ N. apply outside_some. exact N.
    - destruct (n + k)%nat; [|apply sp_undefined]. eapply sp_bind; [apply sp_free; tauto|]. intro. apply sp_ret. intros _. apply outside_none.
  Defined.
  Lemma sp_search_all : forall f, (forall c Pre, sparing Pre (f c) result_outside) -> forall l p n (Pre : Prop), (Pre -> outside p) -> sparing Pre (hsearch_all f l p n) result_outside.
  Proof.
    intros f F l. induction l as [|c l IH]; intros p n Pre P; cbn [hsearch_all]; [apply sp_ret; exact P|].
    eapply sp_bind; [apply F|]. intros [r k]. eapply sp_bind; [apply sp_merge; tauto|]. intros [p' n']. apply IH. intros (_ & X). exact X.
  Defined.
  Lemma sp_searchGroup : forall f, (forall c Pre, sparing Pre (f c) result_outside) -> forall c (Pre : Prop), sparing Pre (hsearchFormsInGroup f c) result_outside.
  Proof.
    intros f F c Pre. unfold hsearchFormsInGroup. eapply sp_bind; [apply sp_quiet; qu|]. intros [hd b].
    destruct b; try apply sp_undefined; (eapply sp_bind; [apply sp_quiet; qu|]; intro l; apply sp_search_all; [exact F|]; intros _; apply outside_none).
  Defined.
  Lemma sp_searchForm : forall f, (forall c Pre, sparing Pre (f c) result_outside) -> forall ts c (Pre : Prop), sparing Pre (hsearchFormsInForm f ts c) result_outside.
  Proof.
    intros f F ts c Pre. unfold hsearchFormsInForm. eapply sp_bind; [apply sp_quiet; qu|]. intros [hd b]. destruct (type_of b) as [g|]; [|apply sp_undefined].
    destruct (existsb _ ts); [|apply sp_searchGroup; exact F]. eapply sp_bind; [apply sp_malloc|]. intros [p|]; [|apply sp_undefined]. apply sp_ret. intros (_ & X). exact X.
  Defined.
  Lemma sp_searches : forall n ts c (Pre : Prop), sparing Pre (hsearchFormsFromArray n ts c) result_outside.
  Proof.
    intro n. induction n as [|n IH]; intros ts c Pre; cbn [hsearchFormsFromArray]; [apply sp_nofuel|]. eapply sp_bind; [apply sp_quiet; qu|]. intros [hd b].
    destruct (o_id hd =? IFF_ID_FORM); [apply sp_searchForm; intros; apply IH|]. destruct (o_id hd =? IFF_ID_CAT); [apply sp_searchGroup; intros; apply IH|].
    destruct (o_id hd =? IFF_ID_LIST); [apply sp_searchGroup; intros; apply IH|]. apply sp_ret. intros _. apply outside_none.
  Defined.
  Lemma sp_take : forall r (Pre : Prop), (Pre -> result_outside r) -> sparing Pre (htake r) (fun _ => True).
  Proof.
    intros r Pre P. unfold htake. eapply sp_bind; [apply sp_quiet; qu|]. intro l. eapply sp_bind; [apply sp_quiet; qu|]. intro t.
    eapply sp_bind; [apply sp_free; intros ((X & _) & _); exact (P X)|]. intro. apply sp_ret. auto.
  Defined.

  (** *** Programs that look *)

  Lemma sp_at_place : forall v x q k (Pre : Prop), (forall a, sparing Pre (k a) (fun _ => True)) -> sparing Pre (hat_place v x q k) (fun _ => True).
  Proof.
    intros v x q k Pre K. unfold hat_place. destruct (v x) as [a|]; [|apply sp_ret; auto]. eapply sp_bind; [apply sp_quiet; qu|]. intros [b|]; [|apply sp_ret; auto].
    eapply sp_weaken; [apply K|tauto|auto].
  Defined.
  (** A statement that is none of those makes the precondition false. *)
  Lemma sp_exec : forall rg s v (Pre : Prop), (Pre -> looks s) -> sparing Pre (hexec rg s v) (fun _ => True).
  Proof.
    intros rg s v Pre P.
    destruct s; try solve [match goal with |- sparing _ (hexec _ ?x _) _ => destruct (sw_exec rg x v) as [task0 T0] end; exists task0; split; [exact T0|intro X; destruct (P X)]];
      clear P; cbn [hexec].
    - apply sp_at_place. intro a. apply sp_quiet. qu.
    - apply sp_at_place. intro a. eapply sp_bind; [apply (sp_size _ (fun n => hsearchFormsFromArray (Datatypes.S n) types a)); intro n; apply sp_searches|].
      intro r. eapply sp_bind; [apply sp_take; tauto|]. intro. apply sp_ret. auto.
    - apply sp_at_place. intro a. eapply sp_bind; [apply sp_getChunks|]. intro r. eapply sp_bind; [apply sp_take; tauto|]. intro. apply sp_ret. auto.
    - apply sp_at_place. intro a. apply sp_quiet. qu.
    - apply sp_quiet. qu.
    - apply sp_quiet. qu.
    - apply sp_quiet. qu.
    - apply sp_quiet. qu.
  Defined.
  Lemma sp_run : forall rg p v (Pre : Prop), (Pre -> Forall looks p) -> sparing Pre (hrun rg p v) (fun _ => True).
  Proof.
    intros rg p. induction p as [|s p IH]; intros v Pre P; cbn [hrun]; [apply sp_ret; auto|].
    eapply sp_bind; [apply sp_exec; intro X; exact (Forall_inv (P X))|]. intros [a v1]. eapply sp_bind; [apply IH; intros (X & _); exact (Forall_inv_tail (P X))|].
    intros [l v2]. apply sp_ret. auto.
  Defined.
End Sparing.
