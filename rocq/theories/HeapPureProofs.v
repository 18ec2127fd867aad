(** * Functions that only look at memory *)

From Coq Require Import ZArith List Bool String Lia.
From Coq Require Import Strings.Byte.
From Verif Require Import Machine Io Types Build Read Write Check Compare Print Iff Heap HeapPass.
Import ListNotations.
Open Scope Z_scope.

Definition looks {A} (m : H A) : Prop := forall e w h r w' h', m e w h = Done (r, w', h') -> h' = h.

Lemma lk_ret : forall A (a : A), looks (hret a).
Proof. intros A a e w h r w' h' E. injection E as _ _ <-. reflexivity. Qed.
Lemma lk_undefined : forall A u, looks (@hundefined A u).
Proof. intros A u e w h r w' h' E. discriminate. Qed.
Lemma lk_nofuel : forall A, looks (@hnofuel A).
Proof. intros A e w h r w' h' E. discriminate. Qed.
Lemma lk_io : forall A (m : M A), looks (io m).
Proof. intros A m e w h r w' h' E. unfold io in E. destruct (m e w) as [[a v]|u|]; [|discriminate|discriminate]. injection E as _ _ <-. reflexivity. Qed.
Lemma lk_bind : forall A B (m : H A) (k : A -> H B), looks m -> (forall a, looks (k a)) -> looks (hbind m k).
Proof.
  intros A B m k Lm Lk e w h r w' h' E. unfold hbind in E. destruct (m e w h) as [[[a v] h1]|u|] eqn:E1; [|discriminate|discriminate].
  rewrite (Lk a _ _ _ _ _ _ E). exact (Lm _ _ _ _ _ _ E1).
Qed.
Lemma lk_load : forall a, looks (hload a).
Proof. intros a e w h r w' h' E. unfold hload in E. destruct (lookup h a); [|discriminate]. injection E as _ _ <-. reflexivity. Qed.
Lemma lk_bounded : forall A (f : nat -> H A), (forall n, looks (f n)) -> looks (hbounded f).
Proof. intros A f L e w h r w' h' E. exact (L _ _ _ _ _ _ _ E). Qed.

Ltac looking := repeat first
  [ assumption | apply lk_ret | apply lk_undefined | apply lk_nofuel | apply lk_io | apply lk_load
  | match goal with X : forall _, _ |- looks _ => apply X end
  | apply lk_bind; [|intro]
  | match goal with |- looks (match ?x with _ => _ end) => destruct x end ].

Lemma lk_chunk : forall a, looks (hchunk a).
Proof. intro a. unfold hchunk. looking. Qed.
Lemma lk_elements : forall p n, looks (helements p n).
Proof. intros p n. unfold helements, harray. looking. Qed.
Lemma lk_increment : forall s c, looks (hincrementChunkSize s c).
Proof. intros s c. unfold hincrementChunkSize, hchunk. looking. Qed.
Lemma lk_block : forall p n, looks (hblock_bytes p n).
Proof. intros p n. unfold hblock_bytes, hlift. looking. Qed.

Ltac looking2 := repeat first
  [ progress looking | apply lk_chunk | apply lk_elements | apply lk_increment | apply lk_block | progress unfold handM, hlift ].

Section Writing.
  Variable wc : addr -> Z -> H bool.
  Hypothesis LW : forall a ft, looks (wc a ft).
  Lemma lk_write_all : forall msg l ft bp, looks (hwrite_all wc msg l ft bp).
  Proof. intros msg l. induction l as [|a l IH]; intros ft bp; cbn [hwrite_all]; looking2. Qed.
  Lemma lk_writeExtension : forall k a bp, looks (hwriteExtensionChunkFields wc k a bp).
  Proof. intros k a bp. pose proof lk_write_all. destruct k; cbn [hwriteExtensionChunkFields]; unfold hwriteGroup, hwriteList, hwriteRawChunk, hwrite_fields_chunk; looking2. Qed.
  Lemma lk_writeBody : forall rg a ft, looks (hwriteChunkBody wc rg a ft).
  Proof. intros rg a ft. pose proof lk_writeExtension. unfold hwriteChunkBody. looking2. Qed.
End Writing.

Lemma lk_writeChunk : forall rg fuel a ft, looks (hwriteChunk rg fuel a ft).
Proof. intros rg fuel. induction fuel as [|fuel IH]; intros a ft; cbn [hwriteChunk]; [looking|]. pose proof (lk_writeBody _ IH). looking2. Qed.
Lemma lk_writeFd : forall c rg, looks (hIFF_writeFd c rg).
Proof. intros c rg. apply lk_bounded. intro n. apply lk_writeChunk. Qed.

Section Checking.
  Variable cc : addr -> Z -> H bool.
  Hypothesis LC : forall a ft, looks (cc a ft).
  Lemma lk_check_subs : forall f l ft acc, (forall a, looks (f a)) -> looks (hcheck_subs cc f l ft acc).
  Proof. intros f l. induction l as [|a l IH]; intros ft acc LF; cbn [hcheck_subs]; looking2. Qed.
  Lemma lk_checkExtension : forall k a, looks (hcheckExtensionChunk cc k a).
  Proof.
    intros k a.
    assert (K1 : forall g c, looks (hform_subChunkCheck g c)) by (intros; unfold hform_subChunkCheck; looking2).
    assert (K2 : forall g c, looks (hprop_subChunkCheck g c)) by (intros; unfold hprop_subChunkCheck; looking2).
    assert (K3 : forall g c, looks (hcheckCATSubChunk g c)) by (intros; unfold hcheckCATSubChunk; looking2).
    assert (K4 : forall g s, looks (hcheckGroupChunkSize g s)) by (intros; unfold hcheckGroupChunkSize; looking2).
    assert (K5 : forall t f b, (forall g c, looks (f g c)) -> looks (hcheckGroup cc t f b)).
    { intros t f b LF. unfold hcheckGroup. pose proof (fun g l ft acc => lk_check_subs (f g) l ft acc (LF g)). looking2. }
    destruct k; cbn [hcheckExtensionChunk]; try (apply K5; assumption); unfold hcheckList, hcheck_fields_chunk.
    all: pose proof (fun g l ft acc => lk_check_subs (hcheckCATSubChunk g) l ft acc (K3 g)).
    all: try pose proof (fun f l ft acc (LF : forall a, looks (f a)) => lk_check_subs f l ft acc LF) as K6.
    all: looking2; intro; looking2.
  Qed.
End Checking.

Lemma lk_checkChunk : forall rg fuel a ft, looks (hcheckChunk rg fuel a ft).
Proof. intros rg fuel. induction fuel as [|fuel IH]; intros a ft; cbn [hcheckChunk]; [looking|]. pose proof (lk_checkExtension _ IH). looking2. Qed.
Lemma lk_check : forall c rg, looks (hIFF_check c rg).
Proof. intros c rg. unfold hIFF_check. looking2. apply lk_bounded. intro n. apply lk_checkChunk. Qed.

Section Printing.
  Variable pc : addr -> nat -> Z -> H string.
  Hypothesis LP : forall a lv ft, looks (pc a lv ft).
  Lemma lk_print_all : forall l lv ft, looks (hprint_all pc l lv ft).
  Proof. intro l. induction l as [|a l IH]; intros lv ft; cbn [hprint_all]; looking2. Qed.
  Lemma lk_printExtension : forall k a lv, looks (hprintExtensionChunk pc k a lv).
  Proof. intros k a lv. pose proof lk_print_all. destruct k; cbn [hprintExtensionChunk]; unfold hprintList, hprintGroup, hprint_array, hprintRawChunk, hprint_fields_chunk; looking2. Qed.
End Printing.

Lemma lk_printChunk : forall rg fuel a lv ft, looks (hprintChunk rg fuel a lv ft).
Proof. intros rg fuel. induction fuel as [|fuel IH]; intros a lv ft; cbn [hprintChunk]; [looking|]. pose proof (lk_printExtension _ IH). looking2. Qed.
Lemma lk_print : forall c lv rg, looks (hIFF_print c lv rg).
Proof. intros c lv rg. apply lk_bounded. intro n. apply lk_printChunk. Qed.

Section Comparing.
  Variable cc : addr -> addr -> Z -> H bool.
  Hypothesis LC : forall a b ft, looks (cc a b ft).
  Lemma lk_compare_all : forall l1 l2 ft, looks (hcompare_all cc l1 l2 ft).
  Proof. intro l1. induction l1 as [|a l1 IH]; intros l2 ft; cbn [hcompare_all]; looking2. Qed.
  Lemma lk_compareGroup : forall a b, looks (hcompareGroup cc a b).
  Proof. intros a b. pose proof lk_compare_all. unfold hcompareGroup, hcompare_members. looking2. Qed.
  Lemma lk_compare_props : forall l1 l2, looks (hcompare_props cc l1 l2).
  Proof. intro l1. pose proof lk_compareGroup. induction l1 as [|a l1 IH]; intros l2; cbn [hcompare_props]; looking2. Qed.
  Lemma lk_compareExtension : forall k a b, looks (hcompareExtensionChunk cc k a b).
  Proof.
    intros k a b. pose proof lk_compare_all. pose proof lk_compareGroup. pose proof lk_compare_props.
    destruct k; cbn [hcompareExtensionChunk]; unfold hcompareList, hcompare_members, hcompareRawChunk, hcompare_fields_chunk; looking2.
  Qed.
End Comparing.

Lemma lk_compareChunk : forall rg fuel a b ft, looks (hcompareChunk rg fuel a b ft).
Proof. intros rg fuel. induction fuel as [|fuel IH]; intros a b ft; cbn [hcompareChunk]; [looking|]. pose proof (lk_compareExtension _ IH). looking2. Qed.
Lemma lk_compare : forall a b rg, looks (hIFF_compare a b rg).
Proof. intros a b rg. apply lk_bounded. intro n. apply lk_compareChunk. Qed.
