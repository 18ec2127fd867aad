(** * Every call can be taken apart into accesses that print at most once *)

From Coq Require Import ZArith List Bool String.
From Coq Require Import Strings.Byte.
From Verif Require Import Machine Io Types Build Read Write Check Compare Print Search Iff Spec Heap HeapSpec HeapSearch HeapPass SessionSpec ThreadSpec ThreadStepProofs StderrSpec.
Import ListNotations.
Open Scope Z_scope.

(** The accesses of a call *)
Definition spoken {A} (m : H A) : Type := { t : task A | takes_apart t m /\ one_by_one t }.

Lemma one_bind : forall A B (t : task A) (k : A -> task B), one_by_one t -> (forall a, one_by_one (k a)) -> one_by_one (tbind t k).
Proof.
  intros A B t k O K. induction t as [a|u| |C m j IH|a j IH|a o j IH|a j IH|o j IH|j IH]; cbn [tbind one_by_one] in *; auto.
  split; [apply O|]. intro x. apply IH. apply O.
Qed.
Lemma one_quiet : forall B (m : M B), (forall e w x w', m e w = Done (x, w') -> w_log w' = w_log w) -> at_most_one m.
Proof. intros B m Q e w x w' R. left. exact (Q e w x w' R). Qed.

Section Pieces.
  Lemma vo_ret : forall A (a : A), spoken (hret a).
  Proof. intros A a. exists (TRet a). split; [intros e w h; reflexivity|exact I]. Defined.
  Lemma vo_undefined : forall A u, spoken (@hundefined A u).
  Proof. intros A u. exists (TUndefined u). split; [intros e w h; reflexivity|exact I]. Defined.
  Lemma vo_nofuel : forall A, spoken (@hnofuel A).
  Proof. intros A. exists TNoFuel. split; [intros e w h; reflexivity|exact I]. Defined.
  Lemma vo_io : forall A (m : M A), at_most_one m -> spoken (io m).
  Proof. intros A m O. exists (TIo m TRet). split; [|exact (conj O (fun _ => I))]. intros e w h. cbn. unfold hbind, io, hret. destruct (m e w) as [[x w']|u|]; reflexivity. Defined.
  Lemma vo_load : forall a, spoken (hload a).
  Proof. intros a. exists (TLoad a TRet). split; [|exact (fun _ => I)]. intros e w h. cbn. unfold hbind, hload, hret. destruct (lookup h a); reflexivity. Defined.
  Lemma vo_store : forall a o, spoken (hstore a o).
  Proof. intros a o. exists (TStore a o (TRet tt)). split; [|exact I]. intros e w h. cbn. unfold hbind, hstore, hret. destruct (lookup h a); reflexivity. Defined.
  Lemma vo_free : forall p, spoken (hfree p).
  Proof.
    intros [a|]; [|apply vo_ret]. exists (TFree a (TRet tt)). split; [|exact I]. intros e w h. cbn. unfold hbind, hret. destruct (lookup h a); reflexivity.
  Defined.
  Lemma vo_place : forall A (f : addr -> A) o, spoken (fun e w h => Done (f (address e w h), w, fill h (address e w h) o)).
  Proof. intros A f o. exists (TPlace o (fun a => TRet (f a))). split; [intros e w h; reflexivity|exact (fun _ => I)]. Defined.
  Lemma vo_bind : forall A B (m : H A) (k : A -> H B), spoken m -> (forall a, spoken (k a)) -> spoken (hbind m k).
  Proof.
    intros A B m k [t (T & O)] K. exists (tbind t (fun a => proj1_sig (K a))). split; [|apply one_bind; [exact O|intro a; apply (proj2_sig (K a))]]. intros e w h. rewrite perform_bind. unfold hbind. rewrite T.
    destruct (m e w h) as [[[a w'] h']|u|]; [apply (proj2_sig (K a))|reflexivity|reflexivity].
  Defined.
  Lemma vo_size : forall A (f : nat -> H A), (forall n, spoken (f n)) -> spoken (fun e w h => f (List.length h) e w h).
  Proof. intros A f F. exists (TSize (fun n => proj1_sig (F n))). split; [|intro n; apply (proj2_sig (F n))]. intros e w h. cbn [perform]. apply (proj2_sig (F _)). Defined.
  Lemma vo_world : forall A B (g : world -> B) (f : B -> H A), (forall n, spoken (f n)) -> spoken (fun e w h => f (g w) e w h).
  Proof.
    intros A B g f F. exists (TIo (fun _ w => Done (g w, w)) (fun n => proj1_sig (F n))). split; [|split; [|intro n; apply (proj2_sig (F n))]].
    - intros e w h. cbn [perform]. unfold hbind, io. apply (proj2_sig (F _)).
    - apply one_quiet. intros e w x w' R. injection R as _ <-. reflexivity.
  Defined.
  Lemma vo_keep : forall A (a : A) (g : world -> world), (forall w, w_log (g w) = w_log w) -> spoken (fun _ w h => Done (a, g w, h)).
  Proof.
    intros A a g G. exists (TIo (fun _ w => Done (a, g w)) TRet). split; [intros e w h; reflexivity|]. split; [|exact (fun _ => I)].
    apply one_quiet. intros e w x w' R. injection R as _ <-. apply G.
  Defined.

  (** What does not touch memory, piece by piece *)
  Lemma vo_bindM : forall A B (m : M A) (k : A -> M B), spoken (io m) -> (forall a, spoken (io (k a))) -> spoken (io (bind m k)).
  Proof.
    intros A B m k X Y. destruct (vo_bind _ _ (io m) (fun a => io (k a)) X Y) as [t (T & O)]. exists t. split; [|exact O].
    intros e w h. rewrite T. unfold hbind, io, bind. destruct (m e w) as [[a w']|u|]; reflexivity.
  Defined.
  Lemma vo_retM : forall A (a : A), spoken (io (ret a)).
  Proof. intros A a. exists (TRet a). split; [intros e w h; reflexivity|exact I]. Defined.
  Lemma vo_undefinedM : forall A u, spoken (io (@undefined A u)).
  Proof. intros A u. exists (TUndefined u). split; [intros e w h; reflexivity|exact I]. Defined.
  Lemma vo_nofuelM : forall A, spoken (io (@nofuel A)).
  Proof. intros A. exists TNoFuel. split; [intros e w h; reflexivity|exact I]. Defined.
  Lemma vo_ask : spoken (io ask).
  Proof. apply vo_io, one_quiet. intros e w x w' R. injection R as _ <-. reflexivity. Defined.
  Lemma vo_liftM : forall A (o : outcome A), spoken (io (lift o)).
  Proof. intros A [a|u|]; [apply vo_retM|apply vo_undefinedM|apply vo_nofuelM]. Defined.
  Lemma vo_mallocM : forall n, spoken (io (malloc n)).
  Proof. intro n. apply vo_io, one_quiet. intros e w x w' R. injection R as _ <-. reflexivity. Defined.
  Lemma vo_fgetc : spoken (io fgetc).
  Proof. apply vo_io, one_quiet. intros e w x w' R. unfold fgetc in R. destruct (r_rest (w_in w)); injection R as _ <-; reflexivity. Defined.
  Lemma vo_fread : forall n, spoken (io (fread n)).
  Proof. intro n. apply vo_io, one_quiet. intros e w x w' R. injection R as _ <-. reflexivity. Defined.
  Lemma vo_fseek : forall n, spoken (io (fseek_cur n)).
  Proof. intro n. apply vo_io, one_quiet. intros e w x w' R. unfold fseek_cur in R. destruct (r_seekable (w_in w)); injection R as _ <-; reflexivity. Defined.
  Lemma vo_fwrite : forall l, spoken (io (fwrite l)).
  Proof. intro l. apply vo_io, one_quiet. intros e w x w' R. unfold fwrite in R. destruct (put_bytes l (w_out w)); injection R as _ <-; reflexivity. Defined.
  Lemma vo_error : forall s, spoken (io (IFF_error s)).
  Proof. intro s. apply vo_io. intros e w x w' R. injection R as _ <-. right. exists s. reflexivity. Defined.
End Pieces.

Create HintDb vo.
#[export] Hint Resolve vo_retM vo_undefinedM vo_nofuelM vo_ask vo_liftM vo_mallocM vo_fgetc vo_fread vo_fseek vo_fwrite vo_error : vo.
Ltac vo_one :=
  first
    [ apply vo_ret | apply vo_undefined | apply vo_nofuel | apply vo_load | apply vo_store | apply vo_free
    | solve [auto with vo]
    | apply vo_place
    | apply vo_bind | apply vo_bindM
    | match goal with |- spoken (io (match ?x with _ => _ end)) => destruct x end
    | match goal with |- spoken (io (let x := _ in _)) => cbv zeta end
    | match goal with |- spoken (match ?x with _ => _ end) => destruct x end
    | match goal with |- spoken (let x := _ in _) => cbv zeta end ].
Ltac vo := repeat (intros; vo_one).

(** ** Diagnostics, streams and fields *)

Lemma vo_errorId : forall i, spoken (io (IFF_errorId i)).
Proof. intro i. unfold IFF_errorId. apply vo_bindM; [apply vo_ask|]. intro e. unfold IFF_idToString. vo. Defined.
#[export] Hint Resolve vo_errorId : vo.
Lemma vo_readError : forall i a, spoken (io (IFF_readError i a)).
Proof. unfold IFF_readError. vo. Defined.
Lemma vo_writeError : forall i a, spoken (io (IFF_writeError i a)).
Proof. unfold IFF_writeError. vo. Defined.
Lemma vo_swap : forall e v, spoken (io (swap_long e v)).
Proof. unfold swap_long. vo. Defined.
Lemma vo_fputc : forall b, spoken (io (fputc b)).
Proof. unfold fputc. vo. Defined.
Lemma vo_andM : forall m1 m2, spoken (io m1) -> spoken (io m2) -> spoken (io (andM m1 m2)).
Proof. unfold andM. vo. Defined.
#[export] Hint Resolve vo_readError vo_writeError vo_swap vo_fputc : vo.
Lemma vo_read_prim : forall k i a, spoken (io (read_prim k i a)).
Proof. intros k i a. destruct k; unfold read_prim, IFF_readId, IFF_readUByte, IFF_readUWord, IFF_readWord, IFF_readULong, IFF_readLong; vo. Defined.
Lemma vo_write_prim : forall k v i a, spoken (io (write_prim k v i a)).
Proof. intros k v i a. destruct k; unfold write_prim, IFF_writeId, IFF_writeUByte, IFF_writeUWord, IFF_writeWord, IFF_writeULong, IFF_writeLong; vo. Defined.
#[export] Hint Resolve vo_read_prim vo_write_prim : vo.
Lemma vo_readId : forall i a, spoken (io (IFF_readId i a)).
Proof. exact (vo_read_prim FId). Defined.
Lemma vo_readLong : forall i a, spoken (io (IFF_readLong i a)).
Proof. exact (vo_read_prim FLong). Defined.
Lemma vo_writeId : forall v i a, spoken (io (IFF_writeId v i a)).
Proof. exact (vo_write_prim FId). Defined.
Lemma vo_writeLong : forall v i a, spoken (io (IFF_writeLong v i a)).
Proof. exact (vo_write_prim FLong). Defined.
Lemma vo_readField : forall k i s a b, spoken (io (IFF_readField k i s a b)).
Proof. unfold IFF_readField. vo. Defined.
Lemma vo_writeField : forall k v i s a b, spoken (io (IFF_writeField k v i s a b)).
Proof. unfold IFF_writeField. vo. Defined.
#[export] Hint Resolve vo_readId vo_readLong vo_writeId vo_writeLong vo_readField vo_writeField : vo.
Lemma vo_readFields : forall ds v i s b, spoken (io (read_fields ds v i s b)).
Proof. induction ds as [|d ds IH]; intros v i s b; cbn [read_fields]; vo. Defined.
Lemma vo_writeFields : forall ds vals i s b, spoken (io (write_fields ds vals i s b)).
Proof. induction ds as [|d ds IH]; intros vals i s b; cbn [write_fields]; vo. Defined.
Lemma vo_skip : forall i s b, spoken (io (IFF_skipUnknownBytes i s b)).
Proof. unfold IFF_skipUnknownBytes. vo. Defined.
Lemma vo_filler : forall i s b, spoken (io (IFF_writeZeroFillerBytes i s b)).
Proof. unfold IFF_writeZeroFillerBytes. vo. Defined.
Lemma vo_readPadding : forall s i, spoken (io (IFF_readPaddingByte s i)).
Proof. unfold IFF_readPaddingByte. vo. Defined.
Lemma vo_writePadding : forall s i, spoken (io (IFF_writePaddingByte s i)).
Proof. unfold IFF_writePaddingByte. vo. Defined.
Lemma vo_truncated : forall i s, spoken (io (truncated_warning i s)).
Proof. unfold truncated_warning. vo. Defined.
Lemma vo_not_allowed : forall i s, spoken (io (not_allowed i s)).
Proof. unfold not_allowed. vo. Defined.
#[export] Hint Resolve vo_readFields vo_writeFields vo_skip vo_filler vo_readPadding vo_writePadding vo_truncated vo_not_allowed : vo.
Lemma vo_idChars : forall l, spoken (io (checkIdChars l)).
Proof. induction l as [|c l IH]; cbn [checkIdChars]; vo. Defined.
Lemma vo_typeChars : forall l, spoken (io (checkFormTypeChars l)).
Proof. induction l as [|c l IH]; cbn [checkFormTypeChars]; vo. Defined.
#[export] Hint Resolve vo_idChars vo_typeChars : vo.
Lemma vo_checkId : forall i, spoken (io (IFF_checkId i)).
Proof. unfold IFF_checkId. vo. Defined.
#[export] Hint Resolve vo_checkId : vo.
Lemma vo_checkFormType : forall i, spoken (io (IFF_checkFormType i)).
Proof. unfold IFF_checkFormType. vo. Defined.
#[export] Hint Resolve vo_checkFormType : vo.

(** ** Blocks and chunks *)

Lemma vo_hmalloc : forall n o, spoken (hmalloc n o).
Proof. unfold hmalloc. vo. Defined.
#[export] Hint Resolve vo_hmalloc : vo.
Lemma vo_lift : forall A (o : outcome A), spoken (hlift o).
Proof. unfold hlift. vo. Defined.
Lemma vo_array : forall p, spoken (harray p).
Proof. unfold harray. vo. Defined.
Lemma vo_chunk : forall a, spoken (hchunk a).
Proof. unfold hchunk. vo. Defined.
#[export] Hint Resolve vo_lift vo_array vo_chunk : vo.
Lemma vo_elements : forall p n, spoken (helements p n).
Proof. unfold helements. vo. Defined.
Lemma vo_push : forall p n x, spoken (hpush p n x).
Proof. unfold hpush. vo. Defined.
#[export] Hint Resolve vo_elements vo_push : vo.

Lemma vo_createChunk : forall i s n b, spoken (hcreateChunk i s n b).
Proof. unfold hcreateChunk. vo. Defined.
#[export] Hint Resolve vo_createChunk : vo.
Lemma vo_createEmptyGroup : forall i g, spoken (hcreateEmptyGroup i g).
Proof. unfold hcreateEmptyGroup, hcreateGroup. vo. Defined.
Lemma vo_createList : forall s g, spoken (hcreateList s g).
Proof. unfold hcreateList. vo. Defined.
Lemma vo_createRaw : forall i s, spoken (hcreateRawChunk i s).
Proof. unfold hcreateRawChunk. vo. Defined.
Lemma vo_create_fields : forall sp i s, spoken (hcreate_fields sp i s).
Proof. unfold hcreate_fields. vo. Defined.
#[export] Hint Resolve vo_createEmptyGroup vo_createList vo_createRaw vo_create_fields : vo.
Lemma vo_createExtension : forall k i s, spoken (hcreateExtensionChunk k i s).
Proof. unfold hcreateExtensionChunk, hcreateGroup. vo. Defined.
#[export] Hint Resolve vo_createExtension : vo.

Lemma vo_set_parent : forall c p, spoken (hset_parent c p).
Proof. unfold hset_parent. vo. Defined.
Lemma vo_set_size : forall c p, spoken (hset_size c p).
Proof. unfold hset_size. vo. Defined.
Lemma vo_increment : forall s c, spoken (hincrementChunkSize s c).
Proof. unfold hincrementChunkSize. vo. Defined.
#[export] Hint Resolve vo_set_parent vo_set_size vo_increment : vo.
Lemma vo_attach : forall g c, spoken (hattachToGroup g c).
Proof. unfold hattachToGroup. vo. Defined.
Lemma vo_attachProp : forall g c, spoken (hattachProp g c).
Proof. unfold hattachProp. vo. Defined.
#[export] Hint Resolve vo_attach vo_attachProp : vo.
Lemma vo_addToGroup : forall g c, spoken (haddToGroup g c).
Proof. unfold haddToGroup. vo. Defined.
Lemma vo_addProp : forall g c, spoken (haddPropToList g c).
Proof. unfold haddPropToList. vo. Defined.
#[export] Hint Resolve vo_addToGroup vo_addProp : vo.
Lemma vo_addToCAT : forall g c, spoken (haddToCATAndUpdateContentsType g c).
Proof. unfold haddToCATAndUpdateContentsType, hupdateContentsType. vo. Defined.
Lemma vo_copy : forall c t, spoken (hcopyData c t).
Proof. unfold hcopyData. vo. Defined.
Lemma vo_setRaw : forall c d n, spoken (hsetRawChunkData c d n).
Proof. unfold hsetRawChunkData. vo. Defined.
#[export] Hint Resolve vo_addToCAT vo_copy vo_setRaw : vo.
Lemma vo_setText : forall c t, spoken (hsetTextData c t).
Proof. unfold hsetTextData. vo. Defined.
#[export] Hint Resolve vo_setText : vo.

(** ** Releasing *)

Lemma vo_free_all : forall f, (forall c t, spoken (f c t)) -> forall l t, spoken (hfree_all f l t).
Proof. intros f F l t. induction l; cbn [hfree_all]; vo. Defined.
#[export] Hint Resolve vo_free_all : vo.
Lemma vo_freeGroup : forall f, (forall c t, spoken (f c t)) -> forall c, spoken (hfreeGroup f c).
Proof. unfold hfreeGroup. vo. Defined.
#[export] Hint Resolve vo_freeGroup : vo.
Lemma vo_freeExtension : forall f, (forall c t, spoken (f c t)) -> forall k c, spoken (hfreeExtensionChunk f k c).
Proof. unfold hfreeExtensionChunk, hfreeList, hfreeRawChunk. vo. Defined.
#[export] Hint Resolve vo_freeExtension : vo.
Lemma vo_freeChunk : forall rg n c t, spoken (hfreeChunk rg n c t).
Proof. intros rg n. induction n as [|n IH]; intros c t; cbn [hfreeChunk]; vo. Defined.
#[export] Hint Resolve vo_freeChunk : vo.
Lemma vo_freeTree : forall rg c t, spoken (hfreeTree rg c t).
Proof. intros rg c t. unfold hfreeTree. apply (vo_size _ (fun n => hfreeChunk rg (S n) c t)). vo. Defined.
#[export] Hint Resolve vo_freeTree : vo.

(** ** Reading *)

Lemma vo_readRaw : forall c bp, spoken (hreadRawChunk c bp).
Proof. unfold hreadRawChunk. vo. Defined.
Lemma vo_read_fields : forall s c bp, spoken (hread_fields_chunk s c bp).
Proof. unfold hread_fields_chunk. vo. Defined.
#[export] Hint Resolve vo_readRaw vo_read_fields : vo.
Lemma vo_readGroupSubs : forall f, (forall t, spoken (f t)) -> forall n c bp, spoken (hreadGroupSubChunks f n c bp).
Proof. intros f F n. induction n as [|n IH]; intros c bp; cbn [hreadGroupSubChunks]; vo. Defined.
Lemma vo_readListSubs : forall f, (forall t, spoken (f t)) -> forall n c bp, spoken (hreadListSubChunks f n c bp).
Proof. intros f F n. induction n as [|n IH]; intros c bp; cbn [hreadListSubChunks]; vo. Defined.
#[export] Hint Resolve vo_readGroupSubs vo_readListSubs : vo.
Lemma vo_readExtension : forall f, (forall t, spoken (f t)) -> forall n k c bp, spoken (hreadExtensionChunkFields f n k c bp).
Proof. unfold hreadExtensionChunkFields, hreadGroup, hreadList. vo. Defined.
#[export] Hint Resolve vo_readExtension : vo.
Lemma vo_readBody : forall f, (forall t, spoken (f t)) -> forall rg n i s t, spoken (hreadChunkBody f rg n i s t).
Proof. unfold hreadChunkBody. vo. Defined.
#[export] Hint Resolve vo_readBody : vo.
Lemma vo_readChunk : forall rg n t, spoken (hreadChunk rg n t).
Proof. intros rg n. induction n as [|n IH]; intros t; cbn [hreadChunk]; vo. Defined.
#[export] Hint Resolve vo_readChunk : vo.
Lemma vo_readFd : forall rg, spoken (hIFF_readFd rg).
Proof.
  intro rg. unfold hIFF_readFd.
  apply (vo_world _ _ (fun w => r_rest (w_in w)) (fun l => p <-h hreadChunk (selectChunkRegistry rg) (S (List.length l)) 0 ;; _)). vo.
Defined.
#[export] Hint Resolve vo_readFd : vo.

(** ** Writing, checking, printing, comparing *)

Lemma vo_bounded : forall A (f : nat -> H A), (forall n, spoken (f n)) -> spoken (hbounded f).
Proof. intros A f F. unfold hbounded. apply (vo_size _ (fun n => f (S n))). vo. Defined.
#[export] Hint Resolve vo_bounded : vo.
Lemma vo_block_bytes : forall p n, spoken (hblock_bytes p n).
Proof. unfold hblock_bytes. vo. Defined.
#[export] Hint Resolve vo_block_bytes : vo.
Lemma vo_and : forall m1 m2, spoken m1 -> spoken m2 -> spoken (handM m1 m2).
Proof. unfold handM. vo. Defined.

Ltac vo_one ::=
  first
    [ apply vo_ret | apply vo_undefined | apply vo_nofuel | apply vo_load | apply vo_store | apply vo_free
    | solve [auto with vo]
    | apply vo_place
    | apply vo_bind | apply vo_bindM | apply vo_and | apply vo_andM
    | match goal with |- spoken (io (match ?x with _ => _ end)) => destruct x end
    | match goal with |- spoken (io (let x := _ in _)) => cbv zeta end
    | match goal with |- spoken (match ?x with _ => _ end) => destruct x end
    | match goal with |- spoken (let x := _ in _) => cbv zeta end ].

Lemma vo_writeRaw : forall c bp, spoken (hwriteRawChunk c bp).
Proof. unfold hwriteRawChunk. vo. Defined.
Lemma vo_write_fields : forall s c bp, spoken (hwrite_fields_chunk s c bp).
Proof. unfold hwrite_fields_chunk. vo. Defined.
#[export] Hint Resolve vo_writeRaw vo_write_fields : vo.
Lemma vo_write_all : forall f, (forall c t, spoken (f c t)) -> forall msg l t bp, spoken (hwrite_all f msg l t bp).
Proof. intros f F msg l. induction l; cbn [hwrite_all]; vo. Defined.
#[export] Hint Resolve vo_write_all : vo.
Lemma vo_writeExtension : forall f, (forall c t, spoken (f c t)) -> forall k c bp, spoken (hwriteExtensionChunkFields f k c bp).
Proof. unfold hwriteExtensionChunkFields, hwriteGroup, hwriteList. vo. Defined.
#[export] Hint Resolve vo_writeExtension : vo.
Lemma vo_writeBody : forall f, (forall c t, spoken (f c t)) -> forall rg c t, spoken (hwriteChunkBody f rg c t).
Proof. unfold hwriteChunkBody. vo. Defined.
#[export] Hint Resolve vo_writeBody : vo.
Lemma vo_writeChunk : forall rg n c t, spoken (hwriteChunk rg n c t).
Proof. intros rg n. induction n as [|n IH]; intros c t; cbn [hwriteChunk]; vo. Defined.
#[export] Hint Resolve vo_writeChunk : vo.
Lemma vo_writeFd : forall c rg, spoken (hIFF_writeFd c rg).
Proof. unfold hIFF_writeFd. vo. Defined.

Lemma vo_checkCATSub : forall g c, spoken (hcheckCATSubChunk g c).
Proof. unfold hcheckCATSubChunk. vo. Defined.
Lemma vo_formSub : forall g c, spoken (hform_subChunkCheck g c).
Proof. unfold hform_subChunkCheck. vo. Defined.
Lemma vo_propSub : forall g c, spoken (hprop_subChunkCheck g c).
Proof. unfold hprop_subChunkCheck. vo. Defined.
Lemma vo_checkSize : forall g n, spoken (hcheckGroupChunkSize g n).
Proof. unfold hcheckGroupChunkSize. vo. Defined.
#[export] Hint Resolve vo_checkCATSub vo_formSub vo_propSub vo_checkSize : vo.
Lemma vo_check_subs : forall f sc, (forall c t, spoken (f c t)) -> (forall c, spoken (sc c)) -> forall l t acc, spoken (hcheck_subs f sc l t acc).
Proof. intros f sc F S l. induction l; cbn [hcheck_subs]; vo. Defined.
#[export] Hint Resolve vo_check_subs vo_ret : vo.
Lemma vo_checkGroup : forall f, (forall c t, spoken (f c t)) -> forall gc sc, (forall i, spoken (io (gc i))) -> (forall g c, spoken (sc g c)) -> forall c, spoken (hcheckGroup f gc sc c).
Proof. unfold hcheckGroup. vo. Defined.
#[export] Hint Resolve vo_checkGroup : vo.
Lemma vo_checkList : forall f, (forall c t, spoken (f c t)) -> forall c, spoken (hcheckList f c).
Proof. unfold hcheckList. vo. Defined.
#[export] Hint Resolve vo_checkList : vo.
Lemma vo_checkExtension : forall f, (forall c t, spoken (f c t)) -> forall k c, spoken (hcheckExtensionChunk f k c).
Proof. unfold hcheckExtensionChunk, hcheck_fields_chunk. vo. Defined.
#[export] Hint Resolve vo_checkExtension : vo.
Lemma vo_checkChunk : forall rg n c t, spoken (hcheckChunk rg n c t).
Proof. intros rg n. induction n as [|n IH]; intros c t; cbn [hcheckChunk]; vo. Defined.
#[export] Hint Resolve vo_checkChunk : vo.
Lemma vo_check : forall c rg, spoken (hIFF_check c rg).
Proof. unfold hIFF_check. vo. Defined.

Lemma vo_print_all : forall f, (forall c l t, spoken (f c l t)) -> forall l lv t, spoken (hprint_all f l lv t).
Proof. intros f F l. induction l; cbn [hprint_all]; vo. Defined.
#[export] Hint Resolve vo_print_all : vo.
Lemma vo_print_array : forall f, (forall c l t, spoken (f c l t)) -> forall o arr n t lv, spoken (hprint_array f o arr n t lv).
Proof. unfold hprint_array. vo. Defined.
#[export] Hint Resolve vo_print_array : vo.
Lemma vo_printExtension : forall f, (forall c l t, spoken (f c l t)) -> forall k c lv, spoken (hprintExtensionChunk f k c lv).
Proof. unfold hprintExtensionChunk, hprintGroup, hprintList, hprintRawChunk, hprint_fields_chunk. vo. Defined.
#[export] Hint Resolve vo_printExtension : vo.
Lemma vo_printChunk : forall rg n c lv t, spoken (hprintChunk rg n c lv t).
Proof. intros rg n. induction n as [|n IH]; intros c lv t; cbn [hprintChunk]; vo. Defined.
#[export] Hint Resolve vo_printChunk : vo.
Lemma vo_print : forall c lv rg, spoken (hIFF_print c lv rg).
Proof. unfold hIFF_print. vo. Defined.

Lemma vo_compare_all : forall f, (forall c d t, spoken (f c d t)) -> forall l1 l2 t, spoken (hcompare_all f l1 l2 t).
Proof. intros f F l1. induction l1; cbn [hcompare_all]; vo. Defined.
#[export] Hint Resolve vo_compare_all : vo.
Lemma vo_compareGroup : forall f, (forall c d t, spoken (f c d t)) -> forall c d, spoken (hcompareGroup f c d).
Proof. unfold hcompareGroup, hcompare_members. vo. Defined.
#[export] Hint Resolve vo_compareGroup : vo.
Lemma vo_compare_props : forall f, (forall c d t, spoken (f c d t)) -> forall l1 l2, spoken (hcompare_props f l1 l2).
Proof. intros f F l1. induction l1; cbn [hcompare_props]; vo. Defined.
#[export] Hint Resolve vo_compare_props : vo.
Lemma vo_compareExtension : forall f, (forall c d t, spoken (f c d t)) -> forall k c d, spoken (hcompareExtensionChunk f k c d).
Proof. unfold hcompareExtensionChunk, hcompareList, hcompare_members, hcompareRawChunk, hcompare_fields_chunk. vo. Defined.
#[export] Hint Resolve vo_compareExtension : vo.
Lemma vo_compareChunk : forall rg n c d t, spoken (hcompareChunk rg n c d t).
Proof. intros rg n. induction n as [|n IH]; intros c d t; cbn [hcompareChunk]; vo. Defined.
#[export] Hint Resolve vo_compareChunk : vo.
Lemma vo_compare : forall c d rg, spoken (hIFF_compare c d rg).
Proof. unfold hIFF_compare. vo. Defined.
#[export] Hint Resolve vo_writeFd vo_check vo_print vo_compare : vo.
Lemma vo_IFF_free : forall c rg, spoken (hIFF_free c rg).
Proof. unfold hIFF_free. vo. Defined.
#[export] Hint Resolve vo_IFF_free : vo.

(** ** Sizes and searches *)

Lemma vo_sum : forall g l, spoken (hsum_sizes g l).
Proof. intros g l. induction l; cbn [hsum_sizes]; vo. Defined.
#[export] Hint Resolve vo_sum : vo.
Lemma vo_updateGroup : forall c, spoken (hupdateGroupChunkSizes c).
Proof. unfold hupdateGroupChunkSizes. vo. Defined.
#[export] Hint Resolve vo_updateGroup : vo.
Lemma vo_updateList : forall c, spoken (hupdateListChunkSizes c).
Proof. unfold hupdateListChunkSizes. vo. Defined.
#[export] Hint Resolve vo_updateList : vo.
Lemma vo_own_size : forall c, spoken (hupdate_own_size c).
Proof. unfold hupdate_own_size. vo. Defined.
#[export] Hint Resolve vo_own_size : vo.
Lemma vo_updates : forall n c, spoken (hupdateChunkSizes n c).
Proof. intro n. induction n as [|n IH]; intro c; cbn [hupdateChunkSizes]; vo. Defined.
#[export] Hint Resolve vo_updates : vo.
Lemma vo_update : forall c, spoken (hIFF_updateChunkSizes c).
Proof. intro c. unfold hIFF_updateChunkSizes. apply (vo_size _ (fun n => hupdateChunkSizes (S n) c)). vo. Defined.
#[export] Hint Resolve vo_update : vo.
Lemma vo_first_id : forall i l, spoken (hfirst_with_id i l).
Proof. intros i l. induction l; cbn [hfirst_with_id]; vo. Defined.
Lemma vo_first_type : forall i l, spoken (hfirst_with_type i l).
Proof. intros i l. induction l; cbn [hfirst_with_type]; vo. Defined.
#[export] Hint Resolve vo_first_id vo_first_type : vo.
Lemma vo_getData : forall c i, spoken (hgetDataChunkFromForm c i).
Proof. unfold hgetDataChunkFromForm. vo. Defined.
Lemma vo_getProp : forall c i, spoken (hgetPropFromList c i).
Proof. unfold hgetPropFromList. vo. Defined.
Lemma vo_searchList : forall n c, spoken (hsearchList n c).
Proof. intro n. induction n as [|n IH]; intro c; cbn [hsearchList]; vo. Defined.
#[export] Hint Resolve vo_getData vo_getProp vo_searchList : vo.
Lemma vo_searchProperty : forall n c t i, spoken (hsearchProperty n c t i).
Proof. intro n. induction n as [|n IH]; intros c t i; [cbn [hsearchProperty]; vo|]. change (hsearchProperty (S n) c t i) with (ol <-h hsearchList (S n) c ;;
      match ol with
      | None => hret None
      | Some l =>
          op <-h hgetPropFromList l t ;;
          match op with
          | None => hsearchProperty n l t i
          | Some prop =>
              oc <-h hgetDataChunkFromForm prop i ;;
              match oc with
              | None => hsearchProperty n l t i
              | Some x => hret (Some x)
              end
          end
      end). vo. Defined.
#[export] Hint Resolve vo_searchProperty : vo.
Lemma vo_getChunk : forall c i, spoken (hIFF_getChunkFromForm c i).
Proof.
  unfold hIFF_getChunkFromForm. vo. apply (vo_size _ (fun n => hsearchProperty (S n) c z i)). vo.
Defined.
Lemma vo_all_id : forall i l p n, spoken (hall_with_id i l p n).
Proof. intros i l. induction l; cbn [hall_with_id]; vo. Defined.
#[export] Hint Resolve vo_getChunk vo_all_id : vo.
Lemma vo_getChunks : forall c i, spoken (hIFF_getChunksFromForm c i).
Proof. unfold hIFF_getChunksFromForm. vo. Defined.
Lemma vo_merge : forall t n s k, spoken (hmergeFormArray t n s k).
Proof.
  intros t n s k. unfold hmergeFormArray. vo. intro l. apply (vo_place _ (fun b => (Some b, (n + k)%nat)) (OArray (a ++ l))).
Defined.
#[export] Hint Resolve vo_getChunks vo_merge : vo.
Lemma vo_search_all : forall f, (forall c, spoken (f c)) -> forall l p n, spoken (hsearch_all f l p n).
Proof. intros f F l. induction l; cbn [hsearch_all]; vo. Defined.
#[export] Hint Resolve vo_search_all : vo.
Lemma vo_searchGroup : forall f, (forall c, spoken (f c)) -> forall c, spoken (hsearchFormsInGroup f c).
Proof. unfold hsearchFormsInGroup. vo. Defined.
#[export] Hint Resolve vo_searchGroup : vo.
Lemma vo_searchForm : forall f, (forall c, spoken (f c)) -> forall ts c, spoken (hsearchFormsInForm f ts c).
Proof. unfold hsearchFormsInForm. vo. Defined.
#[export] Hint Resolve vo_searchForm : vo.
Lemma vo_searches : forall n ts c, spoken (hsearchFormsFromArray n ts c).
Proof. intro n. induction n as [|n IH]; intros ts c; cbn [hsearchFormsFromArray]; vo. Defined.
#[export] Hint Resolve vo_searches : vo.
Lemma vo_search : forall c ts, spoken (hIFF_searchFormsFromArray c ts).
Proof. intros c ts. unfold hIFF_searchFormsFromArray. apply (vo_size _ (fun n => hsearchFormsFromArray (S n) ts c)). vo. Defined.
#[export] Hint Resolve vo_search : vo.

(** ** Programs *)

Lemma vo_sees : forall a, spoken (hsees a).
Proof. unfold hsees. vo. Defined.
#[export] Hint Resolve vo_sees : vo.
Lemma vo_sees_all : forall l, spoken (hsees_all l).
Proof. intro l. induction l; cbn [hsees_all]; vo. Defined.
#[export] Hint Resolve vo_sees_all : vo.
Lemma vo_take : forall r, spoken (htake r).
Proof. unfold htake. vo. Defined.
#[export] Hint Resolve vo_take : vo.
Lemma vo_follow : forall q a, spoken (hfollow q a).
Proof. intro q. induction q as [|s q IH]; intro a; cbn [hfollow]; vo. Defined.
#[export] Hint Resolve vo_follow : vo.
Lemma vo_at_place : forall v x q k, (forall a, spoken (k a)) -> spoken (hat_place v x q k).
Proof. unfold hat_place. vo. Defined.

Lemma vo_exec : forall rg s v, spoken (hexec rg s v).
Proof.
  intros rg s v. destruct s; cbn [hexec]; try (apply vo_at_place; intro a); vo.
  apply (vo_keep _ (AOk, v) (fun w => mkWorld (mkRfile l seekable) (w_out w) (w_log w) (w_allocs w))). reflexivity.
Defined.
#[export] Hint Resolve vo_exec : vo.

(** A program can be taken apart into single accesses. *)
Lemma vo_run : forall rg p v, spoken (hrun rg p v).
Proof. intros rg p. induction p as [|s p IH]; intro v; cbn [hrun]; vo. Defined.
