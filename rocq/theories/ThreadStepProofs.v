(** * Every call can be taken apart into single accesses *)

From Coq Require Import ZArith List Bool String.
From Coq Require Import Strings.Byte.
From Verif Require Import Machine Io Types Build Read Write Check Compare Print Search Iff Spec Heap HeapSpec HeapSearch HeapPass SessionSpec ThreadSpec.
Import ListNotations.
Open Scope Z_scope.

(** The accesses of a call *)
Definition stepwise {A} (m : H A) : Type := { t : task A | takes_apart t m }.

Fixpoint tbind {A B} (t : task A) (k : A -> task B) : task B :=
  match t with
  | TRet a => k a
  | TUndefined u => TUndefined u
  | TNoFuel => TNoFuel
  | TIo m j => TIo m (fun x => tbind (j x) k)
  | TLoad a j => TLoad a (fun o => tbind (j o) k)
  | TStore a o j => TStore a o (tbind j k)
  | TFree a j => TFree a (tbind j k)
  | TPlace o j => TPlace o (fun a => tbind (j a) k)
  | TSize j => TSize (fun n => tbind (j n) k)
  end.

Lemma perform_bind : forall A B (t : task A) (k : A -> task B) e w h, perform (tbind t k) e w h = hbind (perform t) (fun a => perform (k a)) e w h.
Proof.
  intros A B t k. induction t as [a|u| |C m j IH|a j IH|a o j IH|a j IH|o j IH|j IH]; intros e w h; cbn [tbind perform].
  - reflexivity.
  - reflexivity.
  - reflexivity.
  - unfold hbind at 1 2 3. unfold io. destruct (m e w) as [[x w']|u|]; [apply IH|reflexivity|reflexivity].
  - unfold hbind at 1 2 3. unfold hload. destruct (lookup h a); [apply IH|reflexivity].
  - unfold hbind at 1 2 3. unfold hstore. destruct (lookup h a); [apply IH|reflexivity].
  - unfold hbind at 1 2 3. unfold hfree. destruct (lookup h a); [apply IH|reflexivity].
  - rewrite IH. reflexivity.
  - rewrite IH. reflexivity.
Qed.

Section Pieces.
  Lemma sw_ret : forall A (a : A), stepwise (hret a).
  Proof. intros A a. exists (TRet a). intros e w h. reflexivity. Defined.
  Lemma sw_undefined : forall A u, stepwise (@hundefined A u).
  Proof. intros A u. exists (TUndefined u). intros e w h. reflexivity. Defined.
  Lemma sw_nofuel : forall A, stepwise (@hnofuel A).
  Proof. intros A. exists TNoFuel. intros e w h. reflexivity. Defined.
  Lemma sw_io : forall A (m : M A), stepwise (io m).
  Proof. intros A m. exists (TIo m TRet). intros e w h. cbn. unfold hbind, io, hret. destruct (m e w) as [[x w']|u|]; reflexivity. Defined.
  Lemma sw_load : forall a, stepwise (hload a).
  Proof. intros a. exists (TLoad a TRet). intros e w h. cbn. unfold hbind, hload, hret. destruct (lookup h a); reflexivity. Defined.
  Lemma sw_store : forall a o, stepwise (hstore a o).
  Proof. intros a o. exists (TStore a o (TRet tt)). intros e w h. cbn. unfold hbind, hstore, hret. destruct (lookup h a); reflexivity. Defined.
  Lemma sw_free : forall p, stepwise (hfree p).
  Proof.
    intros [a|]; [|apply sw_ret]. exists (TFree a (TRet tt)). intros e w h. cbn. unfold hbind, hret. destruct (lookup h a); reflexivity.
  Defined.
  Lemma sw_place : forall A (f : addr -> A) o, stepwise (fun e w h => Done (f (address e w h), w, fill h (address e w h) o)).
  Proof. intros A f o. exists (TPlace o (fun a => TRet (f a))). intros e w h. reflexivity. Defined.
  Lemma sw_bind : forall A B (m : H A) (k : A -> H B), stepwise m -> (forall a, stepwise (k a)) -> stepwise (hbind m k).
  Proof.
    intros A B m k [t T] K. exists (tbind t (fun a => proj1_sig (K a))). intros e w h. rewrite perform_bind. unfold hbind. rewrite T.
    destruct (m e w h) as [[[a w'] h']|u|]; [apply (proj2_sig (K a))|reflexivity|reflexivity].
  Defined.
  Lemma sw_size : forall A (f : nat -> H A), (forall n, stepwise (f n)) -> stepwise (fun e w h => f (List.length h) e w h).
  Proof. intros A f F. exists (TSize (fun n => proj1_sig (F n))). intros e w h. cbn [perform]. apply (proj2_sig (F _)). Defined.
  Lemma sw_world : forall A B (g : world -> B) (f : B -> H A), (forall n, stepwise (f n)) -> stepwise (fun e w h => f (g w) e w h).
  Proof. intros A B g f F. exists (TIo (fun _ w => Done (g w, w)) (fun n => proj1_sig (F n))). intros e w h. cbn [perform]. unfold hbind, io. apply (proj2_sig (F _)). Defined.
  Lemma sw_keep : forall A (a : A) (g : world -> world), stepwise (fun _ w h => Done (a, g w, h)).
  Proof. intros A a g. exists (TIo (fun _ w => Done (a, g w)) TRet). intros e w h. reflexivity. Defined.
End Pieces.

Create HintDb sw.
Ltac sw_one :=
  first
    [ apply sw_ret | apply sw_undefined | apply sw_nofuel | apply sw_io | apply sw_load | apply sw_store | apply sw_free
    | solve [auto with sw]
    | apply sw_place
    | apply sw_bind
    | match goal with |- stepwise (match ?x with _ => _ end) => destruct x end
    | match goal with |- stepwise (let x := _ in _) => cbv zeta end ].
Ltac sw := repeat (intros; sw_one).

(** ** Blocks and chunks *)

Lemma sw_hmalloc : forall n o, stepwise (hmalloc n o).
Proof. unfold hmalloc. sw. Defined.
#[export] Hint Resolve sw_hmalloc : sw.
Lemma sw_lift : forall A (o : outcome A), stepwise (hlift o).
Proof. unfold hlift. sw. Defined.
Lemma sw_array : forall p, stepwise (harray p).
Proof. unfold harray. sw. Defined.
Lemma sw_chunk : forall a, stepwise (hchunk a).
Proof. unfold hchunk. sw. Defined.
#[export] Hint Resolve sw_lift sw_array sw_chunk : sw.
Lemma sw_elements : forall p n, stepwise (helements p n).
Proof. unfold helements. sw. Defined.
Lemma sw_push : forall p n x, stepwise (hpush p n x).
Proof. unfold hpush. sw. Defined.
#[export] Hint Resolve sw_elements sw_push : sw.

Lemma sw_createChunk : forall i s n b, stepwise (hcreateChunk i s n b).
Proof. unfold hcreateChunk. sw. Defined.
#[export] Hint Resolve sw_createChunk : sw.
Lemma sw_createEmptyGroup : forall i g, stepwise (hcreateEmptyGroup i g).
Proof. unfold hcreateEmptyGroup, hcreateGroup. sw. Defined.
Lemma sw_createList : forall s g, stepwise (hcreateList s g).
Proof. unfold hcreateList. sw. Defined.
Lemma sw_createRaw : forall i s, stepwise (hcreateRawChunk i s).
Proof. unfold hcreateRawChunk. sw. Defined.
Lemma sw_create_fields : forall sp i s, stepwise (hcreate_fields sp i s).
Proof. unfold hcreate_fields. sw. Defined.
#[export] Hint Resolve sw_createEmptyGroup sw_createList sw_createRaw sw_create_fields : sw.
Lemma sw_createExtension : forall k i s, stepwise (hcreateExtensionChunk k i s).
Proof. unfold hcreateExtensionChunk, hcreateGroup. sw. Defined.
#[export] Hint Resolve sw_createExtension : sw.

Lemma sw_set_parent : forall c p, stepwise (hset_parent c p).
Proof. unfold hset_parent. sw. Defined.
Lemma sw_set_size : forall c p, stepwise (hset_size c p).
Proof. unfold hset_size. sw. Defined.
Lemma sw_increment : forall s c, stepwise (hincrementChunkSize s c).
Proof. unfold hincrementChunkSize. sw. Defined.
#[export] Hint Resolve sw_set_parent sw_set_size sw_increment : sw.
Lemma sw_attach : forall g c, stepwise (hattachToGroup g c).
Proof. unfold hattachToGroup. sw. Defined.
Lemma sw_attachProp : forall g c, stepwise (hattachProp g c).
Proof. unfold hattachProp. sw. Defined.
#[export] Hint Resolve sw_attach sw_attachProp : sw.
Lemma sw_addToGroup : forall g c, stepwise (haddToGroup g c).
Proof. unfold haddToGroup. sw. Defined.
Lemma sw_addProp : forall g c, stepwise (haddPropToList g c).
Proof. unfold haddPropToList. sw. Defined.
#[export] Hint Resolve sw_addToGroup sw_addProp : sw.
Lemma sw_addToCAT : forall g c, stepwise (haddToCATAndUpdateContentsType g c).
Proof. unfold haddToCATAndUpdateContentsType, hupdateContentsType. sw. Defined.
Lemma sw_copy : forall c t, stepwise (hcopyData c t).
Proof. unfold hcopyData. sw. Defined.
Lemma sw_setRaw : forall c d n, stepwise (hsetRawChunkData c d n).
Proof. unfold hsetRawChunkData. sw. Defined.
#[export] Hint Resolve sw_addToCAT sw_copy sw_setRaw : sw.
Lemma sw_setText : forall c t, stepwise (hsetTextData c t).
Proof. unfold hsetTextData. sw. Defined.
#[export] Hint Resolve sw_setText : sw.

(** ** Releasing *)

Lemma sw_free_all : forall f, (forall c t, stepwise (f c t)) -> forall l t, stepwise (hfree_all f l t).
Proof. intros f F l t. induction l; cbn [hfree_all]; sw. Defined.
#[export] Hint Resolve sw_free_all : sw.
Lemma sw_freeGroup : forall f, (forall c t, stepwise (f c t)) -> forall c, stepwise (hfreeGroup f c).
Proof. unfold hfreeGroup. sw. Defined.
#[export] Hint Resolve sw_freeGroup : sw.
Lemma sw_freeExtension : forall f, (forall c t, stepwise (f c t)) -> forall k c, stepwise (hfreeExtensionChunk f k c).
Proof. unfold hfreeExtensionChunk, hfreeList, hfreeRawChunk. sw. Defined.
#[export] Hint Resolve sw_freeExtension : sw.
Lemma sw_freeChunk : forall rg n c t, stepwise (hfreeChunk rg n c t).
Proof. intros rg n. induction n as [|n IH]; intros c t; cbn [hfreeChunk]; sw. Defined.
#[export] Hint Resolve sw_freeChunk : sw.
Lemma sw_freeTree : forall rg c t, stepwise (hfreeTree rg c t).
Proof. intros rg c t. unfold hfreeTree. apply (sw_size _ (fun n => hfreeChunk rg (S n) c t)). sw. Defined.
#[export] Hint Resolve sw_freeTree : sw.

(** ** Reading *)

Lemma sw_readRaw : forall c bp, stepwise (hreadRawChunk c bp).
Proof. unfold hreadRawChunk. sw. Defined.
Lemma sw_read_fields : forall s c bp, stepwise (hread_fields_chunk s c bp).
Proof. unfold hread_fields_chunk. sw. Defined.
#[export] Hint Resolve sw_readRaw sw_read_fields : sw.
Lemma sw_readGroupSubs : forall f, (forall t, stepwise (f t)) -> forall n c bp, stepwise (hreadGroupSubChunks f n c bp).
Proof. intros f F n. induction n as [|n IH]; intros c bp; cbn [hreadGroupSubChunks]; sw. Defined.
Lemma sw_readListSubs : forall f, (forall t, stepwise (f t)) -> forall n c bp, stepwise (hreadListSubChunks f n c bp).
Proof. intros f F n. induction n as [|n IH]; intros c bp; cbn [hreadListSubChunks]; sw. Defined.
#[export] Hint Resolve sw_readGroupSubs sw_readListSubs : sw.
Lemma sw_readExtension : forall f, (forall t, stepwise (f t)) -> forall n k c bp, stepwise (hreadExtensionChunkFields f n k c bp).
Proof. unfold hreadExtensionChunkFields, hreadGroup, hreadList. sw. Defined.
#[export] Hint Resolve sw_readExtension : sw.
Lemma sw_readBody : forall f, (forall t, stepwise (f t)) -> forall rg n i s t, stepwise (hreadChunkBody f rg n i s t).
Proof. unfold hreadChunkBody. sw. Defined.
#[export] Hint Resolve sw_readBody : sw.
Lemma sw_readChunk : forall rg n t, stepwise (hreadChunk rg n t).
Proof. intros rg n. induction n as [|n IH]; intros t; cbn [hreadChunk]; sw. Defined.
#[export] Hint Resolve sw_readChunk : sw.
Lemma sw_readFd : forall rg, stepwise (hIFF_readFd rg).
Proof.
  intro rg. unfold hIFF_readFd.
  apply (sw_world _ _ (fun w => r_rest (w_in w)) (fun l => p <-h hreadChunk (selectChunkRegistry rg) (S (List.length l)) 0 ;; _)). sw.
Defined.
#[export] Hint Resolve sw_readFd : sw.

(** ** Writing, checking, printing, comparing *)

Lemma sw_bounded : forall A (f : nat -> H A), (forall n, stepwise (f n)) -> stepwise (hbounded f).
Proof. intros A f F. unfold hbounded. apply (sw_size _ (fun n => f (S n))). sw. Defined.
#[export] Hint Resolve sw_bounded : sw.
Lemma sw_block_bytes : forall p n, stepwise (hblock_bytes p n).
Proof. unfold hblock_bytes. sw. Defined.
#[export] Hint Resolve sw_block_bytes : sw.
Lemma sw_and : forall m1 m2, stepwise m1 -> stepwise m2 -> stepwise (handM m1 m2).
Proof. unfold handM. sw. Defined.

Ltac sw_one ::=
  first
    [ apply sw_ret | apply sw_undefined | apply sw_nofuel | apply sw_io | apply sw_load | apply sw_store | apply sw_free
    | solve [auto with sw]
    | apply sw_place
    | apply sw_bind | apply sw_and
    | match goal with |- stepwise (match ?x with _ => _ end) => destruct x end
    | match goal with |- stepwise (let x := _ in _) => cbv zeta end ].

Lemma sw_writeRaw : forall c bp, stepwise (hwriteRawChunk c bp).
Proof. unfold hwriteRawChunk. sw. Defined.
Lemma sw_write_fields : forall s c bp, stepwise (hwrite_fields_chunk s c bp).
Proof. unfold hwrite_fields_chunk. sw. Defined.
#[export] Hint Resolve sw_writeRaw sw_write_fields : sw.
Lemma sw_write_all : forall f, (forall c t, stepwise (f c t)) -> forall msg l t bp, stepwise (hwrite_all f msg l t bp).
Proof. intros f F msg l. induction l; cbn [hwrite_all]; sw. Defined.
#[export] Hint Resolve sw_write_all : sw.
Lemma sw_writeExtension : forall f, (forall c t, stepwise (f c t)) -> forall k c bp, stepwise (hwriteExtensionChunkFields f k c bp).
Proof. unfold hwriteExtensionChunkFields, hwriteGroup, hwriteList. sw. Defined.
#[export] Hint Resolve sw_writeExtension : sw.
Lemma sw_writeBody : forall f, (forall c t, stepwise (f c t)) -> forall rg c t, stepwise (hwriteChunkBody f rg c t).
Proof. unfold hwriteChunkBody. sw. Defined.
#[export] Hint Resolve sw_writeBody : sw.
Lemma sw_writeChunk : forall rg n c t, stepwise (hwriteChunk rg n c t).
Proof. intros rg n. induction n as [|n IH]; intros c t; cbn [hwriteChunk]; sw. Defined.
#[export] Hint Resolve sw_writeChunk : sw.
Lemma sw_writeFd : forall c rg, stepwise (hIFF_writeFd c rg).
Proof. unfold hIFF_writeFd. sw. Defined.

Lemma sw_checkCATSub : forall g c, stepwise (hcheckCATSubChunk g c).
Proof. unfold hcheckCATSubChunk. sw. Defined.
Lemma sw_formSub : forall g c, stepwise (hform_subChunkCheck g c).
Proof. unfold hform_subChunkCheck. sw. Defined.
Lemma sw_propSub : forall g c, stepwise (hprop_subChunkCheck g c).
Proof. unfold hprop_subChunkCheck. sw. Defined.
Lemma sw_checkSize : forall g n, stepwise (hcheckGroupChunkSize g n).
Proof. unfold hcheckGroupChunkSize. sw. Defined.
#[export] Hint Resolve sw_checkCATSub sw_formSub sw_propSub sw_checkSize : sw.
Lemma sw_check_subs : forall f sc, (forall c t, stepwise (f c t)) -> (forall c, stepwise (sc c)) -> forall l t acc, stepwise (hcheck_subs f sc l t acc).
Proof. intros f sc F S l. induction l; cbn [hcheck_subs]; sw. Defined.
#[export] Hint Resolve sw_check_subs sw_ret : sw.
Lemma sw_checkGroup : forall f, (forall c t, stepwise (f c t)) -> forall gc sc, (forall g c, stepwise (sc g c)) -> forall c, stepwise (hcheckGroup f gc sc c).
Proof. unfold hcheckGroup. sw. Defined.
#[export] Hint Resolve sw_checkGroup : sw.
Lemma sw_checkList : forall f, (forall c t, stepwise (f c t)) -> forall c, stepwise (hcheckList f c).
Proof. unfold hcheckList. sw. Defined.
#[export] Hint Resolve sw_checkList : sw.
Lemma sw_checkExtension : forall f, (forall c t, stepwise (f c t)) -> forall k c, stepwise (hcheckExtensionChunk f k c).
Proof. unfold hcheckExtensionChunk, hcheck_fields_chunk. sw. Defined.
#[export] Hint Resolve sw_checkExtension : sw.
Lemma sw_checkChunk : forall rg n c t, stepwise (hcheckChunk rg n c t).
Proof. intros rg n. induction n as [|n IH]; intros c t; cbn [hcheckChunk]; sw. Defined.
#[export] Hint Resolve sw_checkChunk : sw.
Lemma sw_check : forall c rg, stepwise (hIFF_check c rg).
Proof. unfold hIFF_check. sw. Defined.

Lemma sw_print_all : forall f, (forall c l t, stepwise (f c l t)) -> forall l lv t, stepwise (hprint_all f l lv t).
Proof. intros f F l. induction l; cbn [hprint_all]; sw. Defined.
#[export] Hint Resolve sw_print_all : sw.
Lemma sw_print_array : forall f, (forall c l t, stepwise (f c l t)) -> forall o arr n t lv, stepwise (hprint_array f o arr n t lv).
Proof. unfold hprint_array. sw. Defined.
#[export] Hint Resolve sw_print_array : sw.
Lemma sw_printExtension : forall f, (forall c l t, stepwise (f c l t)) -> forall k c lv, stepwise (hprintExtensionChunk f k c lv).
Proof. unfold hprintExtensionChunk, hprintGroup, hprintList, hprintRawChunk, hprint_fields_chunk. sw. Defined.
#[export] Hint Resolve sw_printExtension : sw.
Lemma sw_printChunk : forall rg n c lv t, stepwise (hprintChunk rg n c lv t).
Proof. intros rg n. induction n as [|n IH]; intros c lv t; cbn [hprintChunk]; sw. Defined.
#[export] Hint Resolve sw_printChunk : sw.
Lemma sw_print : forall c lv rg, stepwise (hIFF_print c lv rg).
Proof. unfold hIFF_print. sw. Defined.

Lemma sw_compare_all : forall f, (forall c d t, stepwise (f c d t)) -> forall l1 l2 t, stepwise (hcompare_all f l1 l2 t).
Proof. intros f F l1. induction l1; cbn [hcompare_all]; sw. Defined.
#[export] Hint Resolve sw_compare_all : sw.
Lemma sw_compareGroup : forall f, (forall c d t, stepwise (f c d t)) -> forall c d, stepwise (hcompareGroup f c d).
Proof. unfold hcompareGroup, hcompare_members. sw. Defined.
#[export] Hint Resolve sw_compareGroup : sw.
Lemma sw_compare_props : forall f, (forall c d t, stepwise (f c d t)) -> forall l1 l2, stepwise (hcompare_props f l1 l2).
Proof. intros f F l1. induction l1; cbn [hcompare_props]; sw. Defined.
#[export] Hint Resolve sw_compare_props : sw.
Lemma sw_compareExtension : forall f, (forall c d t, stepwise (f c d t)) -> forall k c d, stepwise (hcompareExtensionChunk f k c d).
Proof. unfold hcompareExtensionChunk, hcompareList, hcompare_members, hcompareRawChunk, hcompare_fields_chunk. sw. Defined.
#[export] Hint Resolve sw_compareExtension : sw.
Lemma sw_compareChunk : forall rg n c d t, stepwise (hcompareChunk rg n c d t).
Proof. intros rg n. induction n as [|n IH]; intros c d t; cbn [hcompareChunk]; sw. Defined.
#[export] Hint Resolve sw_compareChunk : sw.
Lemma sw_compare : forall c d rg, stepwise (hIFF_compare c d rg).
Proof. unfold hIFF_compare. sw. Defined.
#[export] Hint Resolve sw_writeFd sw_check sw_print sw_compare : sw.
Lemma sw_IFF_free : forall c rg, stepwise (hIFF_free c rg).
Proof. unfold hIFF_free. sw. Defined.
#[export] Hint Resolve sw_IFF_free : sw.

(** ** Sizes and searches *)

Lemma sw_sum : forall g l, stepwise (hsum_sizes g l).
Proof. intros g l. induction l; cbn [hsum_sizes]; sw. Defined.
#[export] Hint Resolve sw_sum : sw.
Lemma sw_updateGroup : forall c, stepwise (hupdateGroupChunkSizes c).
Proof. unfold hupdateGroupChunkSizes. sw. Defined.
#[export] Hint Resolve sw_updateGroup : sw.
Lemma sw_updateList : forall c, stepwise (hupdateListChunkSizes c).
Proof. unfold hupdateListChunkSizes. sw. Defined.
#[export] Hint Resolve sw_updateList : sw.
Lemma sw_own_size : forall c, stepwise (hupdate_own_size c).
Proof. unfold hupdate_own_size. sw. Defined.
#[export] Hint Resolve sw_own_size : sw.
Lemma sw_updates : forall n c, stepwise (hupdateChunkSizes n c).
Proof. intro n. induction n as [|n IH]; intro c; cbn [hupdateChunkSizes]; sw. Defined.
#[export] Hint Resolve sw_updates : sw.
Lemma sw_update : forall c, stepwise (hIFF_updateChunkSizes c).
Proof. intro c. unfold hIFF_updateChunkSizes. apply (sw_size _ (fun n => hupdateChunkSizes (S n) c)). sw. Defined.
#[export] Hint Resolve sw_update : sw.
Lemma sw_first_id : forall i l, stepwise (hfirst_with_id i l).
Proof. intros i l. induction l; cbn [hfirst_with_id]; sw. Defined.
Lemma sw_first_type : forall i l, stepwise (hfirst_with_type i l).
Proof. intros i l. induction l; cbn [hfirst_with_type]; sw. Defined.
#[export] Hint Resolve sw_first_id sw_first_type : sw.
Lemma sw_getData : forall c i, stepwise (hgetDataChunkFromForm c i).
Proof. unfold hgetDataChunkFromForm. sw. Defined.
Lemma sw_getProp : forall c i, stepwise (hgetPropFromList c i).
Proof. unfold hgetPropFromList. sw. Defined.
Lemma sw_searchList : forall n c, stepwise (hsearchList n c).
Proof. intro n. induction n as [|n IH]; intro c; cbn [hsearchList]; sw. Defined.
#[export] Hint Resolve sw_getData sw_getProp sw_searchList : sw.
Lemma sw_searchProperty : forall n c t i, stepwise (hsearchProperty n c t i).
Proof. intro n. induction n as [|n IH]; intros c t i; [cbn [hsearchProperty]; sw|]. change (hsearchProperty (S n) c t i) with (ol <-h hsearchList (S n) c ;;
      match ol with
      | None => hret None
      | Some l =>
          op <-h hgetPropFromList l t ;;
          match op with
          | None => hsearchProperty n l t i
          | Some prop =>
              oc <-h hgetDataChunkFromForm prop i ;;
              match oc with
              | None => hsearchProperty n l t i
              | Some x => hret (Some x)
              end
          end
      end). sw. Defined.
#[export] Hint Resolve sw_searchProperty : sw.
Lemma sw_getChunk : forall c i, stepwise (hIFF_getChunkFromForm c i).
Proof.
  unfold hIFF_getChunkFromForm. sw. apply (sw_size _ (fun n => hsearchProperty (S n) c z i)). sw.
Defined.
Lemma sw_all_id : forall i l p n, stepwise (hall_with_id i l p n).
Proof. intros i l. induction l; cbn [hall_with_id]; sw. Defined.
#[export] Hint Resolve sw_getChunk sw_all_id : sw.
Lemma sw_getChunks : forall c i, stepwise (hIFF_getChunksFromForm c i).
Proof. unfold hIFF_getChunksFromForm. sw. Defined.
Lemma sw_merge : forall t n s k, stepwise (hmergeFormArray t n s k).
Proof.
  intros t n s k. unfold hmergeFormArray. sw. intro l. apply (sw_place _ (fun b => (Some b, (n + k)%nat)) (OArray (a ++ l))).
Defined.
#[export] Hint Resolve sw_getChunks sw_merge : sw.
Lemma sw_search_all : forall f, (forall c, stepwise (f c)) -> forall l p n, stepwise (hsearch_all f l p n).
Proof. intros f F l. induction l; cbn [hsearch_all]; sw. Defined.
#[export] Hint Resolve sw_search_all : sw.
Lemma sw_searchGroup : forall f, (forall c, stepwise (f c)) -> forall c, stepwise (hsearchFormsInGroup f c).
Proof. unfold hsearchFormsInGroup. sw. Defined.
#[export] Hint Resolve sw_searchGroup : sw.
Lemma sw_searchForm : forall f, (forall c, stepwise (f c)) -> forall ts c, stepwise (hsearchFormsInForm f ts c).
Proof. unfold hsearchFormsInForm. sw. Defined.
#[export] Hint Resolve sw_searchForm : sw.
Lemma sw_searches : forall n ts c, stepwise (hsearchFormsFromArray n ts c).
Proof. intro n. induction n as [|n IH]; intros ts c; cbn [hsearchFormsFromArray]; sw. Defined.
#[export] Hint Resolve sw_searches : sw.
Lemma sw_search : forall c ts, stepwise (hIFF_searchFormsFromArray c ts).
Proof. intros c ts. unfold hIFF_searchFormsFromArray. apply (sw_size _ (fun n => hsearchFormsFromArray (S n) ts c)). sw. Defined.
#[export] Hint Resolve sw_search : sw.

(** ** Programs *)

Lemma sw_sees : forall a, stepwise (hsees a).
Proof. unfold hsees. sw. Defined.
#[export] Hint Resolve sw_sees : sw.
Lemma sw_sees_all : forall l, stepwise (hsees_all l).
Proof. intro l. induction l; cbn [hsees_all]; sw. Defined.
#[export] Hint Resolve sw_sees_all : sw.
Lemma sw_take : forall r, stepwise (htake r).
Proof. unfold htake. sw. Defined.
#[export] Hint Resolve sw_take : sw.
Lemma sw_follow : forall q a, stepwise (hfollow q a).
Proof. intro q. induction q as [|s q IH]; intro a; cbn [hfollow]; sw. Defined.
#[export] Hint Resolve sw_follow : sw.
Lemma sw_at_place : forall v x q k, (forall a, stepwise (k a)) -> stepwise (hat_place v x q k).
Proof. unfold hat_place. sw. Defined.

Lemma sw_exec : forall rg s v, stepwise (hexec rg s v).
Proof.
  intros rg s v. destruct s; cbn [hexec]; try (apply sw_at_place; intro a); sw.
  apply (sw_keep _ (AOk, v) (fun w => mkWorld (mkRfile l seekable) (w_out w) (w_log w) (w_allocs w))).
Defined.
#[export] Hint Resolve sw_exec : sw.

(** A program can be taken apart into single accesses. *)
Lemma sw_run : forall rg p v, stepwise (hrun rg p v).
Proof. intros rg p. induction p as [|s p IH]; intro v; cbn [hrun]; sw. Defined.
