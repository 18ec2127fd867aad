(** * Lists of fields and growing arrays own their memory; the model with
    callbacks agrees with Heap.v *)

From Coq Require Import ZArith List Bool String Lia.
From Coq Require Import Strings.Byte.
From Verif Require Import Machine Io Types Build Read Iff Spec Lemmas IoProofs WriteProofs HeapProofs TermProofs
  Ext ExtSpec ExtFields ExtReadProofs ExtSafeProofs Heap HeapExt HeapExtSpec HeapExtApps HeapExtProofs HeapExtReadProofs.
Import ListNotations.
Open Scope Z_scope.

(** ** Agreement with Heap.v *)

(** [m'] does to the converted heap what [m] does. *)
Definition Mirrors {A} (m : Heap.H A) (m' : Y fvals A) : Prop := forall e w h,
  m' e w (yconv h) = yconv_outcome (m e w h).

Lemma lookup_conv : forall h a, ylookup (yconv h) a = option_map yconv_object (lookup h a).
Proof.
  intros h a. unfold ylookup, lookup, yconv. rewrite nth_error_map. destruct (nth_error h a) as [[o|]|]; reflexivity.
Qed.

Lemma replace_conv : forall a (o : option object) h,
  yconv (replace_nth a o h) = replace_nth a (option_map yconv_object o) (yconv h).
Proof. induction a as [|a IH]; intros o [|x h]; cbn; [reflexivity..|]. unfold yconv in IH. rewrite IH. reflexivity. Qed.

Lemma M_ret : forall A (a : A), Mirrors (hret a) (yret a).
Proof. intros A a e w h. reflexivity. Qed.
Lemma M_undefined : forall A u, Mirrors (@hundefined A u) (yundefined u).
Proof. intros A u e w h. reflexivity. Qed.
Lemma M_nofuel : forall A, Mirrors (@hnofuel A) ynofuel.
Proof. intros A e w h. reflexivity. Qed.
Lemma M_io : forall A (m : M A), Mirrors (io m) (yio m).
Proof. intros A m e w h. unfold io, yio. destruct (m e w) as [[a w']|u|]; reflexivity. Qed.
Lemma M_bind : forall A B (m : Heap.H A) m' (f : A -> Heap.H B) f',
  Mirrors m m' -> (forall a, Mirrors (f a) (f' a)) -> Mirrors (hbind m f) (ybind m' f').
Proof.
  intros A B m m' f f' S F e w h. unfold hbind, ybind. rewrite S.
  destruct (m e w h) as [[[a w'] h']|u|]; cbn; [apply F|reflexivity|reflexivity].
Qed.
Lemma address_conv : forall e w (h : heap), address e w (yconv h) = address e w h.
Proof.
  intros e w h. unfold address, yconv. rewrite map_length, nth_error_map. destruct (nth_error h (place e (w_allocs w))) as [[o|]|]; reflexivity.
Qed.
Lemma fill_conv : forall (h : heap) a o, fill (yconv h) a (yconv_object o) = yconv (fill h a o).
Proof.
  intros h a o. unfold fill, yconv. rewrite map_length. destruct (Nat.ltb a (List.length h)); [|rewrite map_app; reflexivity].
  symmetry. exact (replace_conv a (Some o) h).
Qed.
Lemma M_new : forall (o : object) o', o' = yconv_object o -> Mirrors (fun e w h => Done (Some (address e w h), w, fill h (address e w h) o))
  (fun e w h => Done (Some (address e w h), w, fill h (address e w h) o')).
Proof. intros o o' -> e w h. cbn. rewrite address_conv, fill_conv. reflexivity. Qed.
Lemma M_malloc : forall z o o', o' = yconv_object o -> Mirrors (hmalloc z o) (ymalloc z o').
Proof.
  intros z o o' E. unfold hmalloc, ymalloc. apply M_bind; [apply M_io|]. intros [|]; [apply M_new; exact E|apply M_ret].
Qed.
Lemma M_free : forall p, Mirrors (hfree p) (yfree p).
Proof.
  intros [a|]; [|apply M_ret]. intros e w h. unfold hfree, yfree. rewrite lookup_conv.
  destruct (lookup h a); cbn; [|reflexivity]. unfold release, yrelease. rewrite replace_conv. reflexivity.
Qed.
Lemma M_put : forall a o o', o' = yconv_object o -> Mirrors (hstore a o) (yput a o').
Proof.
  intros a o o' -> e w h. unfold hstore, yput. rewrite lookup_conv. destruct (lookup h a); cbn; [|reflexivity].
  unfold store, ystore. rewrite replace_conv. reflexivity.
Qed.
Lemma M_load : forall B a (f : object -> Heap.H B) f', (forall o, Mirrors (f o) (f' (yconv_object o))) ->
  Mirrors (hbind (hload a) f) (ybind (yload a) f').
Proof.
  intros B a f f' F e w h. unfold hbind, ybind, hload, yload. rewrite lookup_conv.
  destruct (lookup h a) as [o|]; cbn; [apply F|reflexivity].
Qed.
Lemma M_chunk : forall B a (f : header * body -> Heap.H B) f',
  (forall hd b, Mirrors (f (hd, b)) (f' (hd, yconv_body b))) -> Mirrors (hbind (hchunk a) f) (ybind (ychunk a) f').
Proof.
  intros B a f f' F e w h. unfold hbind, ybind, hchunk, ychunk, hbind, ybind, hload, yload. rewrite lookup_conv.
  destruct (lookup h a) as [[hd b| |]|]; cbn; [apply F|reflexivity..].
Qed.
Lemma M_array : forall p, Mirrors (harray p) (yarray p).
Proof.
  intros [a|]; [|apply M_ret]. cbn [harray yarray]. apply M_load. intros [hd b|z c|l]; cbn; [apply M_undefined|apply M_undefined|apply M_ret].
Qed.
Lemma M_elements : forall p n, Mirrors (helements p n) (yelements p n).
Proof.
  intros p [|n]; [apply M_ret|]. unfold helements, yelements. destruct p as [a|]; [|apply M_undefined].
  apply M_bind; [apply M_array|]. intro l. destruct (Nat.leb _ _); [apply M_ret|apply M_undefined].
Qed.
Lemma M_push : forall p n x, Mirrors (hpush p n x) (ypush p n x).
Proof.
  intros p n x. unfold hpush, ypush. apply M_bind; [apply M_array|]. intro l. apply M_bind; [apply M_io|].
  intros [|]; [|apply M_undefined]. apply M_bind; [apply M_free|]. intros _. apply M_new. reflexivity.
Qed.

Ltac mirrors :=
  repeat (cbv beta iota zeta; cbn [yconv_object yconv_body o_id o_size type_of ytype_of set_type yset_type];
  match goal with
  | H : forall _, _ |- Mirrors _ _ => solve [apply H]
  | |- Mirrors (hret _) _ => apply M_ret
  | |- Mirrors (hundefined _) _ => apply M_undefined
  | |- Mirrors hnofuel _ => apply M_nofuel
  | |- Mirrors (io _) _ => apply M_io
  | |- Mirrors (hfree _) _ => apply M_free
  | |- Mirrors (hstore _ _) _ => apply M_put; reflexivity
  | |- Mirrors (hmalloc _ _) _ => apply M_malloc; reflexivity
  | |- Mirrors (hpush _ _ _) _ => apply M_push
  | |- Mirrors (helements _ _) _ => apply M_elements
  | |- Mirrors (hbind (hchunk _) _) _ => apply M_chunk; intros ? [?|?|?|?]
  | |- Mirrors (hbind (hload _) _) _ => apply M_load; intros [?|?|?]
  | |- Mirrors (hbind _ _) _ => apply M_bind; [|intro]
  | |- Mirrors (if ?b then _ else _) _ => destruct b
  | |- Mirrors (match ?x with _ => _ end) _ => destruct x
  end).

Lemma M_parent : forall c p, Mirrors (hset_parent c p) (yset_parent c p).
Proof. intros c p. unfold hset_parent, yset_parent. mirrors. Qed.
Lemma M_attach : forall g c, Mirrors (hattachToGroup g c) (yattachToGroup g c).
Proof. pose proof M_parent. intros g c. unfold hattachToGroup, yattachToGroup. mirrors. Qed.
Lemma M_prop : forall g c, Mirrors (hattachProp g c) (yattachProp g c).
Proof. pose proof M_parent. intros g c. unfold hattachProp, yattachProp. mirrors. Qed.
Lemma M_increment : forall z c, Mirrors (hincrementChunkSize z c) (yincrementChunkSize z c).
Proof. intros z c. unfold hincrementChunkSize, yincrementChunkSize. mirrors. Qed.

Section Registry.
  Variable rg : option registry.

  Lemma M_find : forall B ft i (f : handler -> Heap.H B) f', (forall k, Mirrors (f k) (f' (yconv_handler k))) ->
    Mirrors (hbind (hlift (find_handler (selectChunkRegistry rg) ft i)) f) (ybind (ylift (yconv_find rg ft i)) f').
  Proof.
    intros B ft i f f' F e w h. unfold hbind, ybind, hlift, ylift, io, yio, lift, yconv_find.
    destruct (find_handler _ ft i) as [k|u|]; cbn; [apply F|reflexivity|reflexivity].
  Qed.

  Section Free.
    Variable fc : addr -> Z -> Heap.H unit.
    Variable fc' : addr -> Z -> Y fvals unit.
    Hypothesis FC : forall a ft, Mirrors (fc a ft) (fc' a ft).
    Lemma M_free_all : forall l ft, Mirrors (hfree_all fc l ft) (yfree_all fc' l ft).
    Proof. induction l as [|c l IH]; intro ft; cbn [hfree_all yfree_all]; mirrors. Qed.
    Lemma M_freeGroup : forall a, Mirrors (hfreeGroup fc a) (yfreeGroup fc' a).
    Proof. pose proof M_free_all. intro a. unfold hfreeGroup, yfreeGroup. mirrors. Qed.
    Lemma M_freeExtension : forall k a, Mirrors (hfreeExtensionChunk fc k a) (yfreeExtensionChunk fc' (yconv_handler k) a).
    Proof.
      pose proof M_free_all. pose proof M_freeGroup.
      intros k a. destruct k; cbn [hfreeExtensionChunk yfreeExtensionChunk yconv_handler yfields_callbacks yc_free]; mirrors.
      - unfold hfreeList, yfreeList. mirrors.
      - unfold hfreeRawChunk, yfreeRawChunk. mirrors.
    Qed.
  End Free.

  Lemma M_freeChunk : forall fuel a ft,
    Mirrors (hfreeChunk (selectChunkRegistry rg) fuel a ft) (yfreeChunk (yconv_find rg) fuel a ft).
  Proof.
    induction fuel as [|f IH]; intros a ft; cbn [hfreeChunk yfreeChunk]; [apply M_nofuel|].
    apply M_chunk. intros hd b. cbv beta iota. apply M_find. intro k. apply M_bind; [apply M_freeExtension; exact IH|]. intros _. apply M_free.
  Qed.

  Lemma M_freeTree : forall a ft, Mirrors (hfreeTree (selectChunkRegistry rg) a ft) (yfreeTree (yconv_find rg) a ft).
  Proof.
    intros a ft e w h. unfold hfreeTree, yfreeTree. unfold yconv at 1. rewrite map_length. apply M_freeChunk.
  Qed.

  Lemma M_create : forall k i s, Mirrors (hcreateExtensionChunk k i s) (ycreateExtensionChunk (yconv_handler k) i s).
  Proof.
    intros k i s. destruct k; cbn [hcreateExtensionChunk ycreateExtensionChunk yconv_handler yfields_callbacks yc_create];
      try (apply M_malloc; reflexivity).
    unfold hcreateRawChunk, ycreateRawChunk, hcreateChunk, ycreateChunk. mirrors.
  Qed.

  Section Read.
    Variable rc : Z -> Heap.H ptr.
    Variable rc' : Z -> Y fvals ptr.
    Hypothesis RC : forall ft, Mirrors (rc ft) (rc' ft).

    Lemma M_groupSub : forall fuel a bp, Mirrors (hreadGroupSubChunks rc fuel a bp) (yreadGroupSubChunks rc' fuel a bp).
    Proof.
      pose proof M_attach. pose proof M_increment.
      induction fuel as [|f IH]; intros a bp; cbn [hreadGroupSubChunks yreadGroupSubChunks]; mirrors.
    Qed.
    Lemma M_listSub : forall fuel a bp, Mirrors (hreadListSubChunks rc fuel a bp) (yreadListSubChunks rc' fuel a bp).
    Proof.
      pose proof M_attach. pose proof M_increment. pose proof M_prop.
      induction fuel as [|f IH]; intros a bp; cbn [hreadListSubChunks yreadListSubChunks]; mirrors.
    Qed.
    Lemma M_fields : forall fuel k a bp,
      Mirrors (hreadExtensionChunkFields rc fuel k a bp) (yreadExtensionChunkFields rc' fuel (yconv_handler k) a bp).
    Proof.
      pose proof M_groupSub. pose proof M_listSub.
      assert (G : forall fuel a nm bp, Mirrors (hreadGroup rc fuel a nm bp) (yreadGroup rc' fuel a nm bp)).
      { intros fuel a nm bp. unfold hreadGroup, yreadGroup. mirrors. }
      intros fuel k a bp. destruct k; cbn [hreadExtensionChunkFields yreadExtensionChunkFields yconv_handler yfields_callbacks yc_read]; mirrors.
      - unfold hreadList, yreadList. mirrors.
      - unfold hreadRawChunk, yreadRawChunk. mirrors.
      - unfold hread_fields_chunk. mirrors.
    Qed.
  End Read.

  Lemma M_readChunk : forall fuel ft,
    Mirrors (hreadChunk (selectChunkRegistry rg) fuel ft) (yreadChunk (yconv_find rg) fuel ft).
  Proof.
    pose proof M_create. pose proof M_freeTree.
    induction fuel as [|f IH]; intro ft; cbn [hreadChunk yreadChunk]; [apply M_nofuel|]. mirrors.
    unfold hreadChunkBody, yreadChunkBody. apply M_find. intro k. pose proof (M_fields _ _ IH). mirrors.
  Qed.

  Theorem M_readFd : Mirrors (hIFF_readFd rg) (yIFF_readFd (yconv_find rg)).
  Proof.
    intros e w h. unfold hIFF_readFd, yIFF_readFd. revert h. revert e.
    set (n := S (List.length (r_rest (w_in w)))). clearbody n.
    pose proof M_readChunk as R.
    assert (X : Mirrors (p <-h hreadChunk (selectChunkRegistry rg) n 0 ;;
     match p with
     | None => io (IFF_error ("ERROR: cannot open main chunk!" ++ nl)%string) ;;h hret None
     | Some c =>
         ob <-h io fgetc ;;
         match ob with
         | None => hret (Some c)
         | Some b =>
             io (IFF_error ("WARNING: Trailing IFF contents found: " ++ dec (b2z b) ++ "!" ++ nl)%string) ;;h
             hret (Some c)
         end
     end) (p <-y yreadChunk (yconv_find rg) n 0 ;;
       match p with
       | None => yio (IFF_error ("ERROR: cannot open main chunk!" ++ nl)%string) ;;y yret None
       | Some c =>
           ob <-y yio fgetc ;;
           match ob with
           | None => yret (Some c)
           | Some b =>
               yio (IFF_error ("WARNING: Trailing IFF contents found: " ++ dec (b2z b) ++ "!" ++ nl)%string) ;;y
               yret (Some c)
           end
       end)) by mirrors.
    intros e h. apply X.
  Qed.

  Theorem M_IFF_free : forall a, Mirrors (hIFF_free a rg) (yIFF_free a (yconv_find rg)).
  Proof. intro a. apply M_freeTree. Qed.
End Registry.

(** ** Lists of fields own their struct *)

Definition fields_own (s : fspec) (h : yheap fvals) (a : addr) (F : list addr) : Prop :=
  F = [a] /\ exists hd v, ylookup h a = Some (YChunk hd (YUser v)) /\ map fst v = map fd_kind (fs_fields s).

Lemma run_malloc : forall e w z, exists ok w', malloc z e w = Done (ok, w') /\ Consumes w w'.
Proof. intros. unfold malloc. eexists _, _. split; [reflexivity|]. exists []. reflexivity. Qed.

Lemma store_at : forall V (h : yheap V) a o, ylookup h a <> None -> ylookup (ystore h a o) a = Some o.
Proof. intros V h a o L. rewrite ylookup_store by exact L. rewrite Nat.eqb_refl. reflexivity. Qed.

Lemma new_at : forall V e w (h : yheap V) o, ylookup (fill h (address e w h) o) (address e w h) = Some o.
Proof. intros V e w h o. exact (Placed_at _ _ _ _ (placed e w h o)). Qed.

Lemma fields_owner : forall s, Owner (fields_own s) (yfields_callbacks s).
Proof.
  intro s. constructor.
  - intros h a F (-> & hd & v & L & K). split; [constructor; [intros []|constructor]|]. split; [left; reflexivity|].
    split; [intros x [<-|[]]; congruence|]. eauto.
  - intros h h' a F (-> & hd & v & L & K) E. split; [reflexivity|]. exists hd, v. rewrite E by (left; reflexivity). auto.
  - intros h a F hd v p (-> & hd' & v' & L & K) L'. rewrite L in L'. injection L' as <- <-. split; [reflexivity|].
    exists (set_parent hd' p), v'. rewrite store_at by congruence. auto.
  - intros i z e w h NS R. cbn [yfields_callbacks yc_create]. unfold ycreateChunk, ymalloc, ybind, yio.
    destruct (run_malloc e w (sizeof_Fields s)) as (ok & w' & E & C). rewrite E. destruct ok.
    + eexists _, _, _. split; [reflexivity|]. split; [exact C|]. eexists _, _. split; [apply Turns_new with (1 := placed _ _ _ _)|].
      split; [|apply new_at]. split; [reflexivity|]. eexists _, _. split; [apply new_at|]. rewrite map_map. reflexivity.
    + eexists _, _, _. split; [reflexivity|]. split; [exact C|]. apply Turns_refl. intros x [].
  - intros e w h a F hd v NS R (-> & hd' & v' & L & K) L'. rewrite L in L'. injection L' as <- <-.
    assert (LN : ylookup h a <> None) by (rewrite L; discriminate).
    cbn [yfields_callbacks yc_read]. unfold ybind at 1. rewrite (run_chunk e h a _ _ L). cbv beta iota.
    rewrite (proj2 (fkinds_eqb_spec _ _) K).
    destruct (t_read _ _ (fields_tame s) (o_id hd') (o_size hd') v' e w NS R K) as (ok & u & k & w1 & E & C & K1).
    cbn [fields_callbacks cb_read read_fields_chunk] in E. rewrite (proj2 (fkinds_eqb_spec _ _) K) in E.
    unfold bind in E. unfold ybind, yio.
    destruct (read_fields (fs_fields s) v' (o_id hd') (o_size hd') 0 e w) as [[[[ok' vs] bp] w2]|x|]; [|discriminate..].
    cbn in E. injection E as <- <- <- <-. rewrite (run_put e h a _ LN).
    exists ok', bp, w2, (ystore h a (YChunk hd' (YUser vs))), [a], vs. split; [reflexivity|]. split; [exact C|].
    split; [apply Turns_store; exact LN|]. rewrite (store_at _ h a _ LN). split; [|reflexivity].
    split; [reflexivity|]. exists hd', vs. rewrite (store_at _ h a _ LN). auto.
  - intros e w h a F NS (-> & hd & v & L & K). exists w, h. split; [reflexivity|]. split; [exists []; reflexivity|].
    apply Turns_refl. intros x [<-|[]]. congruence.
Qed.

(** ** Colour maps own their struct and their colours *)

Definition cmap_own (h : yheap cell) (a : addr) (F : list addr) : Prop :=
  exists hd n p, ylookup h a = Some (YChunk hd (YUser (CMap n p))) /\
    ((p = None /\ n = O /\ F = [a]) \/
     (exists d l, p = Some d /\ ylookup h d = Some (YApp (Colours l)) /\ List.length l = n /\ F = [a; d])).

Lemma cmap_own_parts : forall h a F, cmap_own h a F -> NoDup F /\ In a F /\ live h F.
Proof.
  intros h a F (hd & n & p & L & [(-> & -> & ->)|(d & l & -> & LD & N & ->)]).
  - split; [constructor; [intros []|constructor]|]. split; [left; reflexivity|]. intros x [<-|[]]; congruence.
  - assert (AD : a <> d) by (intros ->; congruence).
    split; [constructor; [intros [X|[]]; congruence|constructor; [intros []|constructor]]|]. split; [left; reflexivity|].
    intros x [<-|[<-|[]]]; congruence.
Qed.

Lemma add_colour_ends : forall e h a F hd v col, cmap_own h a F -> ylookup h a = Some (YChunk hd (YUser v)) ->
  Ends e (yadd_colour a col) h (fun _ h' => exists F' v', Turns h F h' F' /\ cmap_own h' a F' /\ ylookup h' a = Some (YChunk hd (YUser v'))).
Proof.
  intros e h a F hd v col O L'. destruct (cmap_own_parts h a F O) as (ND & IA & LV).
  pose proof O as (hd' & n & p & L & D). rewrite L in L'. injection L' as -> <-. unfold yadd_colour.
  eapply Ends_step; [apply (run_chunk e h a _ _ L)|]. cbv beta iota.
  assert (YC : exists l, (forall w, ycolours p e w h = Done (l, w, h)) /\ List.length l = n).
  { destruct D as [(-> & -> & _)|(d & l & -> & LD & N & _)]; [exists []; split; [reflexivity|reflexivity]|].
    exists l. split; [|exact N]. intro w. unfold ycolours, ybind. rewrite (run_load e h d _ LD). reflexivity. }
  destruct YC as (l & YC & N). eapply Ends_step; [exact YC|].
  eapply Ends_bind with (P := fun (_ : bool) h' => h' = h).
  { intro w. destruct (run_malloc e w ((Z.of_nat n + 1) * 3)) as (ok & w' & E & C). exists ok, w', h. unfold yio. rewrite E. auto. }
  intros [|] h1 ->; [|apply Ends_ret; exists F, (CMap n p); split; [apply Turns_refl; exact LV|auto]].
  eapply Ends_bind with (P := fun _ h1 => Turns h F h1 [a] /\ ylookup h1 a = ylookup h a).
  { destruct D as [(-> & -> & ->)|(d & l' & -> & LD & N' & ->)].
    - apply Ends_ret. split; [apply Turns_refl; exact LV|auto].
    - intro w. exists tt, w, (yrelease h d). split; [apply run_free; congruence|]. split; [exists []; reflexivity|].
      assert (AD : a <> d) by (intros ->; congruence).
      split; [|rewrite ylookup_release; destruct (Nat.eqb_spec a d); [congruence|reflexivity]].
      apply (Turns_within _ _ _ _ [a] _ _ (Turns_release h d)); [intros x [<-|[]]; congruence|intros x [<-|[]] [X|[]]; congruence|..];
        intro x; cbn; tauto. }
  intros [] h1 (T1 & KA). rewrite L in KA.
  eapply Ends_bind with (P := fun q h2 => Placed h1 q (YApp (Colours (l ++ [col]))) h2).
  { intro w. eexists _, w, _. split; [reflexivity|]. split; [exists []; reflexivity|apply placed]. }
  intros q h2 P. destruct (Placed_other _ _ _ _ a P ltac:(congruence)) as [AN L2]. rewrite KA in L2. pose proof (Placed_at _ _ _ _ P) as LQ.
  eapply Ends_step; [apply run_put; congruence|]. apply Ends_ret.
  assert (T2 : Turns h F h2 [a; q]) by exact (Turns_beside _ _ _ _ _ _ _ T1 P).
  exists [a; q], (CMap (S n) (Some q)).
  split; [eapply Turns_trans; [exact T2|]; apply Turns_store_in; [left; reflexivity|exact (tu_live _ _ _ _ T2)]|].
  rewrite store_at by congruence. split; [|reflexivity].
  exists hd, (S n), (Some q). rewrite store_at by congruence. split; [reflexivity|]. right.
  exists q, (l ++ [col]). split; [reflexivity|]. split; [|split; [rewrite app_length; cbn; lia|reflexivity]].
  rewrite ylookup_store by congruence. destruct (Nat.eqb_spec q a); [congruence|]. exact LQ.
Qed.

Lemma read_colours_ends : forall e, strict_c e = false -> forall k h a F hd v i s bp, cmap_own h a F -> ylookup h a = Some (YChunk hd (YUser v)) ->
  Ends e (yread_colours k a i s bp) h (fun _ h' => exists F' v', Turns h F h' F' /\ cmap_own h' a F' /\ ylookup h' a = Some (YChunk hd (YUser v'))).
Proof.
  intros e NS. induction k as [|k IH]; intros h a F hd v i s bp O L; cbn [yread_colours].
  - apply Ends_ret. exists F, v. split; [apply Turns_refl; exact (proj2 (proj2 (cmap_own_parts h a F O)))|auto].
  - assert (STOP : forall A (x : A), Ends e (yret x) h (fun _ h' => exists F' v', Turns h F h' F' /\ cmap_own h' a F' /\ ylookup h' a = Some (YChunk hd (YUser v')))).
    { intros A x. apply Ends_ret. exists F, v. split; [apply Turns_refl; exact (proj2 (proj2 (cmap_own_parts h a F O)))|auto]. }
    assert (FIELD : forall nm b0, Ends e (yio (IFF_readField FUByte i s nm b0)) h (fun _ h' => h' = h)).
    { intros nm b0 w. destruct (readField_done e FUByte i s nm b0 w NS) as (r & w' & E & C). exists r, w', h. unfold yio. rewrite E. auto. }
    eapply Ends_bind; [apply FIELD|]. intros [[st1 [r|]] b1] h1 ->; destruct st1; try apply STOP.
    eapply Ends_bind; [apply FIELD|]. intros [[st2 [g|]] b2] h1 ->; destruct st2; try apply STOP.
    eapply Ends_bind; [apply FIELD|]. intros [[st3 [b|]] b3] h1 ->; destruct st3; try apply STOP.
    eapply Ends_bind; [apply (add_colour_ends e h a F hd v (r, g, b) O L)|].
    intros [|] h1 (F1 & v1 & T1 & O1 & L1).
    + intro w. destruct (IH h1 a F1 hd v1 i s b3 O1 L1 w) as (x & w' & h2 & E & C & F2 & v2 & T2 & O2 & L2).
      exists x, w', h2. split; [exact E|]. split; [exact C|]. exists F2, v2. split; [exact (Turns_trans _ _ _ _ _ _ T1 T2)|auto].
    + apply Ends_ret. exists F1, v1. auto.
Qed.

Lemma cmap_owner : Owner cmap_own ycmap_callbacks.
Proof.
  constructor.
  - intros h a F O. destruct (cmap_own_parts h a F O) as (ND & IA & LV). split; [exact ND|]. split; [exact IA|]. split; [exact LV|].
    destruct O as (hd & n & p & L & _). eauto.
  - intros h h' a F O K. destruct (cmap_own_parts h a F O) as (_ & IA & _). destruct O as (hd & n & p & L & D).
    exists hd, n, p. rewrite (K a IA). split; [exact L|].
    destruct D as [D|(d & l & -> & LD & N & ->)]; [left; exact D|]. right. exists d, l. rewrite K by (right; left; reflexivity). auto.
  - intros h a F hd v q O L'. destruct O as (hd' & n & p & L & D). rewrite L in L'. injection L' as <- <-.
    exists (set_parent hd' q), n, p. rewrite store_at by congruence. split; [reflexivity|].
    destruct D as [D|(d & l & -> & LD & N & ->)]; [left; exact D|]. right. exists d, l.
    rewrite ylookup_store by congruence. destruct (Nat.eqb_spec d a) as [->|_]; [congruence|auto].
  - intros i z e w h NS R. cbn [ycmap_callbacks yc_create]. unfold ycreateChunk, ymalloc, ybind, yio.
    destruct (run_malloc e w 64) as (ok & w' & E & C). rewrite E. destruct ok.
    + eexists _, _, _. split; [reflexivity|]. split; [exact C|]. eexists _, _. split; [apply Turns_new with (1 := placed _ _ _ _)|].
      split; [|apply new_at]. eexists _, _, _. split; [apply new_at|]. left. auto.
    + eexists _, _, _. split; [reflexivity|]. split; [exact C|]. apply Turns_refl. intros x [].
  - intros e w h a F hd v NS R O L. cbn [ycmap_callbacks yc_read]. unfold ycmap_read.
    destruct (Ends_step e _ _ (ychunk a) (fun x => let '(hd0, _) := x in
        if o_size hd0 mod 3 =? 0 then yread_colours (Z.to_nat (o_size hd0 / 3)) a (o_id hd0) (o_size hd0) 0 else yret (false, 0)) h (hd, YUser v) h
      (fun _ h' => exists F' v', Turns h F h' F' /\ cmap_own h' a F' /\ ylookup h' a = Some (YChunk hd (YUser v')))
      (run_chunk e h a _ _ L)) with (w := w) as ([ok k] & w' & h' & E & C & F' & v' & T & O' & L').
    { destruct (_ =? 0); [exact (read_colours_ends e NS _ h a F hd v _ _ 0 O L)|].
      apply Ends_ret. exists F, v. split; [apply Turns_refl; exact (proj2 (proj2 (cmap_own_parts h a F O)))|auto]. }
    exists ok, k, w', h', F', v'. auto.
  - intros e w h a F NS O. cbn [ycmap_callbacks yc_free]. unfold ycmap_free, ybind.
    destruct (cmap_own_parts h a F O) as (_ & _ & LV). destruct O as (hd & n & p & L & D). rewrite (run_chunk e h a _ _ L).
    destruct D as [(-> & -> & ->)|(d & l & -> & LD & N & ->)].
    + exists w, h. split; [reflexivity|]. split; [exists []; reflexivity|apply Turns_refl; exact LV].
    + exists w, (yrelease h d). split; [apply run_free; congruence|]. split; [exists []; reflexivity|].
      assert (AD : a <> d) by (intros ->; congruence).
      apply (Turns_within _ _ _ _ [a] _ _ (Turns_release h d)); [intros x [<-|[]]; congruence|intros x [<-|[]] [X|[]]; congruence|..];
        intro x; cbn; tauto.
Qed.
