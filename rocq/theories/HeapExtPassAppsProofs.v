(** * Lists of fields and colour maps only look; the passes with callbacks agree
    with HeapPass.v *)

From Coq Require Import ZArith List Bool String Lia.
From Coq Require Import Strings.Byte.
From Verif Require Import Machine Io Types Build Read Write Check Compare Print Iff Spec UseSpec Lemmas IoProofs WriteProofs UseProofs
  Ext ExtSpec ExtFields ExtUseProofs Heap HeapPass HeapExt HeapExtSpec HeapExtApps HeapExtPass HeapExtProofs HeapExtAppsProofs HeapExtPassProofs.
Import ListNotations.
Open Scope Z_scope.

(** ** Agreement with HeapPass.v *)

Lemma M_lift : forall A (o : outcome A), Mirrors (hlift o) (ylift o).
Proof. intros A o. apply M_io. Qed.
Lemma M_and : forall m1 m2 m1' m2', Mirrors m1 m1' -> Mirrors m2 m2' -> Mirrors (handM m1 m2) (yandM m1' m2').
Proof. intros m1 m2 m1' m2' A B. apply M_bind; [exact A|]. intros []; [exact B|apply M_ret]. Qed.
Lemma M_block : forall p n, Mirrors (hblock_bytes p n) (yblock_bytes p n).
Proof.
  pose proof M_lift. intros p n. unfold hblock_bytes, yblock_bytes. destruct (n <=? 0); [apply M_ret|].
  destruct p as [d|]; [|apply M_undefined]. apply M_load. intros [hd b|z c|l]; cbn [yconv_object]; [apply M_undefined|apply M_lift|apply M_undefined].
Qed.
Lemma M_bounded : forall A (f : nat -> Heap.H A) f', (forall n, Mirrors (f n) (f' n)) -> Mirrors (hbounded f) (ybounded f').
Proof. intros A f f' F e w h. unfold hbounded, ybounded. unfold yconv at 1. rewrite map_length. apply F. Qed.

Section Registry.
  Variable rg : option registry.
  Notation srg := (selectChunkRegistry rg).

  Section Write.
    Variable wc : addr -> Z -> Heap.H bool.
    Variable wc' : addr -> Z -> Y fvals bool.
    Hypothesis WC : forall a ft, Mirrors (wc a ft) (wc' a ft).
    Lemma M_write_all : forall msg l ft bp, Mirrors (hwrite_all wc msg l ft bp) (ywrite_all wc' msg l ft bp).
    Proof. pose proof M_increment. intro msg. induction l as [|c l IH]; intros ft bp; cbn [hwrite_all ywrite_all]; mirrors. Qed.
    Lemma M_writeGroup : forall c nm bp, Mirrors (hwriteGroup wc c nm bp) (ywriteGroup wc' c nm bp).
    Proof. pose proof M_write_all. intros c nm bp. unfold hwriteGroup, ywriteGroup. mirrors. Qed.
    Lemma M_writeExtension : forall k c bp,
      Mirrors (hwriteExtensionChunkFields wc k c bp) (ywriteExtensionChunkFields wc' (yconv_handler k) c bp).
    Proof.
      pose proof M_write_all. pose proof M_writeGroup. pose proof M_block.
      intros k c bp. destruct k; cbn [hwriteExtensionChunkFields ywriteExtensionChunkFields yconv_handler yfields_callbacks yc_write]; mirrors.
      - unfold hwriteList, ywriteList. mirrors.
      - unfold hwriteRawChunk, ywriteRawChunk. mirrors.
      - unfold hwrite_fields_chunk, yfields_of. mirrors.
    Qed.
  End Write.

  Lemma M_writeChunk : forall fuel c ft, Mirrors (hwriteChunk srg fuel c ft) (ywriteChunk (yconv_find rg) fuel c ft).
  Proof.
    induction fuel as [|f IH]; intros c ft; cbn [hwriteChunk ywriteChunk]; [apply M_nofuel|].
    apply M_chunk. intros hd b. cbv beta iota. apply M_and; [apply M_io|]. apply M_and; [apply M_io|].
    unfold hwriteChunkBody, ywriteChunkBody. apply M_chunk. intros hd1 b1. cbv beta iota. apply M_find. intro k.
    apply M_bind; [apply M_writeExtension; exact IH|]. intros [ok bp]. apply M_and; [apply M_ret|]. apply M_and; apply M_io.
  Qed.

  Section Check.
    Variable cc : addr -> Z -> Heap.H bool.
    Variable cc' : addr -> Z -> Y fvals bool.
    Hypothesis CC : forall a ft, Mirrors (cc a ft) (cc' a ft).
    Lemma M_check_subs : forall sub sub' l ft acc, (forall a, Mirrors (sub a) (sub' a)) ->
      Mirrors (hcheck_subs cc sub l ft acc) (ycheck_subs cc' sub' l ft acc).
    Proof.
      pose proof M_increment. intros sub sub' l ft acc S. revert acc. induction l as [|c l IH]; intro acc; cbn [hcheck_subs ycheck_subs]; mirrors.
    Qed.
    Lemma M_groupSize : forall c z, Mirrors (hcheckGroupChunkSize c z) (ycheckGroupChunkSize c z).
    Proof. intros c z. unfold hcheckGroupChunkSize, ycheckGroupChunkSize. mirrors. Qed.
    Lemma M_form_sub : forall c a, Mirrors (hform_subChunkCheck c a) (yform_subChunkCheck c a).
    Proof. intros c a. unfold hform_subChunkCheck, yform_subChunkCheck. mirrors. Qed.
    Lemma M_prop_sub : forall c a, Mirrors (hprop_subChunkCheck c a) (yprop_subChunkCheck c a).
    Proof. intros c a. unfold hprop_subChunkCheck, yprop_subChunkCheck. mirrors. Qed.
    Lemma M_cat_sub : forall c a, Mirrors (hcheckCATSubChunk c a) (ycheckCATSubChunk c a).
    Proof.
      intros c a. unfold hcheckCATSubChunk, ycheckCATSubChunk. apply M_chunk. intros hd b. cbv beta iota.
      destruct (negb _); [apply M_io|]. apply M_chunk. intros hg bg. cbv beta iota.
      assert (TY : forall x, ytype_of (yconv_body x) = type_of x) by (intros [?|?|?|?]; reflexivity). rewrite !TY. mirrors.
    Qed.
    Lemma M_checkGroup : forall tc sub sub' c, (forall c a, Mirrors (sub c a) (sub' c a)) ->
      Mirrors (hcheckGroup cc tc sub c) (ycheckGroup cc' tc sub' c).
    Proof.
      pose proof M_groupSize. pose proof M_lift.
      intros tc sub sub' c S. unfold hcheckGroup, ycheckGroup. mirrors; apply M_check_subs; apply S.
    Qed.
    Lemma M_checkExtension : forall k c, Mirrors (hcheckExtensionChunk cc k c) (ycheckExtensionChunk cc' (yconv_handler k) c).
    Proof.
      pose proof M_groupSize. pose proof M_lift.
      intros k c. destruct k; cbn [hcheckExtensionChunk ycheckExtensionChunk yconv_handler yfields_callbacks yc_check];
        try (apply M_checkGroup; [apply M_form_sub || apply M_cat_sub || apply M_prop_sub]).
      - unfold hcheckList, ycheckList. mirrors; apply M_check_subs; [intro; apply M_ret|apply M_cat_sub].
      - apply M_ret.
      - unfold hcheck_fields_chunk, yfields_of. mirrors.
    Qed.
  End Check.

  Lemma M_checkChunk : forall fuel c ft, Mirrors (hcheckChunk srg fuel c ft) (ycheckChunk (yconv_find rg) fuel c ft).
  Proof.
    induction fuel as [|f IH]; intros c ft; cbn [hcheckChunk ycheckChunk]; [apply M_nofuel|].
    apply M_chunk. intros hd b. cbv beta iota. apply M_bind; [apply M_io|]. intros []; cbn [negb]; [|apply M_ret].
    apply M_find. intro k. apply M_checkExtension. exact IH.
  Qed.

  Section Print.
    Variable pc : addr -> nat -> Z -> Heap.H string.
    Variable pc' : addr -> nat -> Z -> Y fvals string.
    Hypothesis PC : forall a l ft, Mirrors (pc a l ft) (pc' a l ft).
    Lemma M_print_array : forall op arr n ft level, Mirrors (hprint_array pc op arr n ft level) (yprint_array pc' op arr n ft level).
    Proof.
      assert (A : forall l level ft, Mirrors (hprint_all pc l level ft) (yprint_all pc' l level ft)).
      { induction l as [|c l IH]; intros level ft; cbn [hprint_all yprint_all]; mirrors. }
      intros op arr n ft level. unfold hprint_array, yprint_array. mirrors.
    Qed.
    Lemma M_printExtension : forall k c level,
      Mirrors (hprintExtensionChunk pc k c level) (yprintExtensionChunk pc' (yconv_handler k) c level).
    Proof.
      pose proof M_print_array. pose proof M_block.
      assert (G : forall c level nm, Mirrors (hprintGroup pc c level nm) (yprintGroup pc' c level nm)).
      { intros c level nm. unfold hprintGroup, yprintGroup. mirrors. }
      intros k c level. destruct k; cbn [hprintExtensionChunk yprintExtensionChunk yconv_handler yfields_callbacks yc_print]; mirrors.
      - unfold hprintList, yprintList. mirrors.
      - unfold hprintRawChunk, yprintRawChunk. mirrors.
      - unfold hprint_fields_chunk, yfields_of. mirrors.
    Qed.
  End Print.

  Lemma M_printChunk : forall fuel c level ft, Mirrors (hprintChunk srg fuel c level ft) (yprintChunk (yconv_find rg) fuel c level ft).
  Proof.
    induction fuel as [|f IH]; intros c level ft; cbn [hprintChunk yprintChunk]; [apply M_nofuel|].
    apply M_chunk. intros hd b. cbv beta iota. apply M_find. intro k. apply M_bind; [apply M_printExtension; exact IH|]. intro. apply M_ret.
  Qed.

  Section Compare.
    Variable cc : addr -> addr -> Z -> Heap.H bool.
    Variable cc' : addr -> addr -> Z -> Y fvals bool.
    Hypothesis CC : forall a b ft, Mirrors (cc a b ft) (cc' a b ft).
    Lemma M_members : forall g1 n1 a1 g2 n2 a2, Mirrors (hcompare_members cc g1 n1 a1 g2 n2 a2) (ycompare_members cc' g1 n1 a1 g2 n2 a2).
    Proof.
      assert (A : forall l1 l2 ft, Mirrors (hcompare_all cc l1 l2 ft) (ycompare_all cc' l1 l2 ft)).
      { induction l1 as [|a l1 IH]; intros [|b l2] ft; cbn [hcompare_all ycompare_all]; mirrors. }
      intros. unfold hcompare_members, ycompare_members. mirrors.
    Qed.
    Lemma M_compareGroup : forall a b, Mirrors (hcompareGroup cc a b) (ycompareGroup cc' a b).
    Proof. pose proof M_members. intros a b. unfold hcompareGroup, ycompareGroup. mirrors. Qed.
    Lemma M_compareExtension : forall k a b, Mirrors (hcompareExtensionChunk cc k a b) (ycompareExtensionChunk cc' (yconv_handler k) a b).
    Proof.
      pose proof M_members. pose proof M_compareGroup. pose proof M_block.
      assert (P : forall l1 l2, Mirrors (hcompare_props cc l1 l2) (ycompare_props cc' l1 l2)).
      { induction l1 as [|x l1 IH]; intros [|y l2]; cbn [hcompare_props ycompare_props]; mirrors. }
      intros k a b. destruct k; cbn [hcompareExtensionChunk ycompareExtensionChunk yconv_handler yfields_callbacks yc_compare]; mirrors.
      - unfold hcompareList, ycompareList. mirrors.
      - unfold hcompareRawChunk, ycompareRawChunk. mirrors.
      - unfold hcompare_fields_chunk. mirrors.
    Qed.
  End Compare.

  Lemma M_compareChunk : forall fuel a b ft, Mirrors (hcompareChunk srg fuel a b ft) (ycompareChunk (yconv_find rg) fuel a b ft).
  Proof.
    induction fuel as [|f IH]; intros a b ft; cbn [hcompareChunk ycompareChunk]; [apply M_nofuel|].
    apply M_chunk. intros hd1 b1. cbv beta iota. apply M_chunk. intros hd2 b2. cbv beta iota.
    destruct (_ && _); [|apply M_ret]. apply M_find. intro k. apply M_compareExtension. exact IH.
  Qed.

  Theorem M_IFF_writeFd : forall c, Mirrors (hIFF_writeFd c rg) (yIFF_writeFd c (yconv_find rg)).
  Proof. intro c. apply M_bounded. intro n. apply M_writeChunk. Qed.
  Theorem M_IFF_check : forall c, Mirrors (hIFF_check c rg) (yIFF_check c (yconv_find rg)).
  Proof.
    intro c. unfold hIFF_check, yIFF_check. apply M_chunk. intros hd b. cbv beta iota. destruct (_ && _); [mirrors|].
    apply M_bounded. intro n. apply M_checkChunk.
  Qed.
  Theorem M_IFF_print : forall c level, Mirrors (hIFF_print c level rg) (yIFF_print c level (yconv_find rg)).
  Proof. intros c level. apply M_bounded. intro n. apply M_printChunk. Qed.
  Theorem M_IFF_compare : forall a b, Mirrors (hIFF_compare a b rg) (yIFF_compare a b (yconv_find rg)).
  Proof. intros a b. apply M_bounded. intro n. apply M_compareChunk. Qed.
End Registry.

(** ** Lists of fields and colour maps look *)

Lemma fields_looker : forall s, Looker (fields_own s) (yfields_callbacks s).
Proof.
  intro s. constructor.
  - intros e w h a F NS (-> & hd & v & L & K). cbn [yfields_callbacks yc_write]. unfold yfields_of, ybind. rewrite (run_chunk e h a _ _ L).
    cbv beta iota. rewrite (proj2 (fkinds_eqb_spec _ _) K). unfold yio.
    destruct (Only_False _ e _ (write_fields_only (fun _ => False) (fs_fields s) v (o_id hd) (o_size hd) 0 e NS) w) as (r & w' & E).
    rewrite E. eexists _, _, _. split; [reflexivity|apply Same_refl].
  - intros e w h a F (-> & hd & v & L & K). cbn [yfields_callbacks yc_check]. unfold yfields_of, ybind. rewrite (run_chunk e h a _ _ L).
    cbv beta iota. rewrite (proj2 (fkinds_eqb_spec _ _) K).
    destruct (fs_check s (map snd v)); eexists _, _, _; (split; [reflexivity|apply Same_refl]).
  - intros e w h a F level (-> & hd & v & L & K). cbn [yfields_callbacks yc_print]. unfold yfields_of, ybind. rewrite (run_chunk e h a _ _ L).
    cbv beta iota. rewrite (proj2 (fkinds_eqb_spec _ _) K). eexists _, _, _. split; [reflexivity|apply Same_refl].
  - intros e w h a F b G (-> & hd & v & L & K) (-> & hd' & v' & L' & K'). cbn [yfields_callbacks yc_compare]. unfold ybind.
    rewrite (run_chunk e h a _ _ L). cbv beta iota. rewrite (run_chunk e h b _ _ L').
    cbv beta iota. rewrite (proj2 (fkinds_eqb_spec _ _) K), (proj2 (fkinds_eqb_spec _ _) K'). cbn [andb].
    eexists _, _, _. split; [reflexivity|apply Same_refl].
Qed.

Lemma run_colours_of : forall A (k : header -> list colour -> Y cell A) e h a F, cmap_own h a F ->
  exists hd l, forall w, ycolours_of a k e w h = k hd l e w h.
Proof.
  intros A k e h a F (hd & n & p & L & D).
  destruct D as [(-> & -> & _)|(d & l & -> & LD & N & _)].
  - exists hd, []. intro w. unfold ycolours_of, ybind. rewrite (run_chunk e h a _ _ L). reflexivity.
  - exists hd, l. intro w. unfold ycolours_of, ybind. rewrite (run_chunk e h a _ _ L). cbv beta iota. unfold ycolours, ybind.
    rewrite (run_load e h d _ LD). reflexivity.
Qed.

Lemma write_colours_only : forall bad e i s, strict_c e = false -> forall l bp, Only bad e (write_colours l i s bp).
Proof.
  intros bad e i s NS. induction l as [|[[r g] b] l IH]; intro bp; cbn [write_colours]; [apply Only_ret|].
  apply Only_bind; [apply writeField_only; exact NS|]. intros [st1 b1]. destruct st1; try apply Only_ret.
  apply Only_bind; [apply writeField_only; exact NS|]. intros [st2 b2]. destruct st2; try apply Only_ret.
  apply Only_bind; [apply writeField_only; exact NS|]. intros [st3 b3]. destruct st3; try apply Only_ret. apply IH.
Qed.

(** A block that comes and goes *)
Lemma Same_temporary : forall V e w (h : yheap V) o, Same h (yrelease (fill h (address e w h) o) (address e w h)).
Proof.
  intros V e w h o x. destruct (placed e w h o) as [F K]. rewrite ylookup_release, K. destruct (Nat.eqb_spec x (address e w h)) as [->|N].
  - symmetry. exact F.
  - reflexivity.
Qed.

Lemma cmap_looker : Looker cmap_own ycmap_callbacks.
Proof.
  constructor.
  - intros e w h a F NS O. cbn [ycmap_callbacks yc_write]. unfold ycmap_write.
    destruct (run_colours_of _ (fun hd l => yio (write_colours l (o_id hd) (o_size hd) 0)) e h a F O) as (hd & l & E). rewrite E. unfold yio.
    destruct (Only_False _ e _ (write_colours_only (fun _ => False) e (o_id hd) (o_size hd) NS l 0) w) as (r & w' & ->).
    eexists _, _, _. split; [reflexivity|apply Same_refl].
  - intros e w h a F O. cbn [ycmap_callbacks yc_check]. unfold ycmap_check.
    match goal with |- context [ycolours_of a ?k] => destruct (run_colours_of _ k e h a F O) as (hd & l & E) end. rewrite E. clear E.
    unfold ymalloc, ybind, yio. destruct (run_malloc e w (3 * zlength l)) as ([] & w' & -> & _);
      [|eexists _, _, _; (split; [reflexivity|apply Same_refl])].
    cbv beta iota. unfold yret at 1. cbv beta iota. cbn [yfree]. rewrite new_at.
    destruct (zlength l <=? 256); eexists _, _, _; (split; [reflexivity|apply Same_temporary]).
  - intros e w h a F level O. cbn [ycmap_callbacks yc_print]. unfold ycmap_print.
    match goal with |- context [ycolours_of a ?k] => destruct (run_colours_of _ k e h a F O) as (hd & l & E) end. rewrite E.
    eexists _, _, _. split; [reflexivity|apply Same_refl].
  - intros e w h a F b G O O'. cbn [ycmap_callbacks yc_compare]. unfold ycmap_compare.
    match goal with |- context [ycolours_of a ?k] => destruct (run_colours_of _ k e h a F O) as (hd & l & E) end. rewrite E.
    match goal with |- context [ycolours_of b ?k] => destruct (run_colours_of _ k e h b G O') as (hd' & l' & E') end. rewrite E'.
    eexists _, _, _. split; [reflexivity|apply Same_refl].
Qed.
