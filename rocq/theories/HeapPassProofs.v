(** * The read-only operations: pointers against trees *)

From Coq Require Import ZArith List Bool String Lia.
From Coq Require Import Strings.Byte.
From Verif Require Import Machine Io Types Build Read Write Check Compare Print Iff Spec Lemmas IoProofs
  Heap HeapSpec HeapProofs HeapBuildProofs HeapReadProofs HeapPass.
Import ListNotations.
Open Scope Z_scope.

(** On heap [h] the computation [hm] does what [m] does, and leaves the heap
    alone. *)
Definition agrees {A} (e : env) (h : heap) (m : M A) (hm : H A) : Prop := forall w, hm e w h = io m e w h.

Lemma ag_io : forall A e h (m : M A), agrees e h m (io m).
Proof. intros A e h m w. reflexivity. Qed.
Lemma ag_ret : forall A e h (a : A), agrees e h (ret a) (hret a).
Proof. intros A e h a w. reflexivity. Qed.
Lemma ag_undefined : forall A e h u, agrees e h (@undefined A u) (hundefined u).
Proof. intros A e h u w. reflexivity. Qed.
Lemma ag_lift : forall A e h (o : outcome A), agrees e h (lift o) (hlift o).
Proof. intros A e h o w. reflexivity. Qed.

Lemma ag_bind : forall A B e h (m : M A) hm (k : A -> M B) hk, agrees e h m hm -> (forall a, agrees e h (k a) (hk a)) ->
  agrees e h (bind m k) (hbind hm hk).
Proof.
  intros A B e h m hm k hk E1 E2 w. rewrite hbind_eq, E1. unfold io. rewrite bind_eq. destruct (m e w) as [[a w1]|u|]; [|reflexivity|reflexivity].
  rewrite E2. reflexivity.
Qed.

(** a step without counterpart *)
Lemma ag_step : forall A B e h (m : M B) (hm : H A) a hk, (forall w, hm e w h = Done (a, w, h)) -> agrees e h m (hk a) -> agrees e h m (hbind hm hk).
Proof. intros A B e h m hm a hk E1 E2 w. rewrite hbind_eq, E1. apply E2. Qed.

Lemma ag_chunk : forall B e h (m : M B) a hd b hk, lookup h a = Some (OChunk hd b) -> agrees e h m (hk (hd, b)) -> agrees e h m (hbind (hchunk a) hk).
Proof. intros B e h m a hd b hk L E. apply (ag_step _ _ _ _ _ _ (hd, b)); [intro w; apply hchunk_at; exact L|exact E]. Qed.

Lemma ag_elements : forall B e h (m : M B) arr la Fa hk, array_at h arr la Fa -> agrees e h m (hk la) -> agrees e h m (hbind (helements arr (List.length la)) hk).
Proof. intros B e h m arr la Fa hk A E. apply (ag_step _ _ _ _ _ _ la); [intro w; exact (helements_at _ _ _ _ _ _ A)|exact E]. Qed.

Lemma ag_increment : forall e h s c p a F, tree_at h c p a F -> agrees e h (lift (IFF_incrementChunkSize s c)) (hincrementChunkSize s a).
Proof. intros e h s c p a F T w. rewrite (increment_at h c p a F) by exact T. unfold io, lift. destruct (IFF_incrementChunkSize s c); reflexivity. Qed.

(** pure computations *)
Lemma ag_bindo : forall A B e h (o : outcome A) hm (k : A -> outcome B) hk, agrees e h (lift o) hm -> (forall a, agrees e h (lift (k a)) (hk a)) ->
  agrees e h (lift (x <-o o ;; k x)) (hbind hm hk).
Proof.
  intros A B e h o hm k hk E1 E2 w. rewrite hbind_eq, E1. unfold io, lift. destruct o as [a|u|]; [|reflexivity|reflexivity].
  rewrite E2. reflexivity.
Qed.
Lemma ag_done : forall A e h (a : A), agrees e h (lift (Done a)) (hret a).
Proof. intros A e h a w. reflexivity. Qed.
Lemma ag_undef : forall A e h u, agrees e h (@lift A (Undefined u)) (hundefined u).
Proof. intros A e h u w. reflexivity. Qed.

Lemma ag_and : forall e h m1 m2 h1 h2, agrees e h m1 h1 -> agrees e h m2 h2 -> agrees e h (andM m1 m2) (handM h1 h2).
Proof. intros e h m1 m2 h1 h2 E1 E2. apply ag_bind; [exact E1|]. intros []; [exact E2|apply ag_ret]. Qed.

Lemma ag_block : forall e h b size d n, lookup h b = Some (OData size d) -> agrees e h (lift (block_bytes d n)) (hblock_bytes (Some b) n).
Proof.
  intros e h b size d n L w. unfold hblock_bytes. destruct (Z.leb_spec n 0) as [LE|GT].
  - unfold block_bytes. rewrite (proj2 (Z.leb_le _ _)) by exact LE. reflexivity.
  - rewrite hbind_eq. unfold hload. rewrite L. reflexivity.
Qed.

Lemma ag_ask : forall B e h (k : env -> M B) hk, agrees e h (k e) (hk e) -> agrees e h (bind ask k) (hbind (io ask) hk).
Proof. intros B e h k hk E w. rewrite hbind_io. unfold ask. rewrite E. reflexivity. Qed.

Lemma ag_hask : forall B e h (m : M B) hk, agrees e h m (hk e) -> agrees e h m (hbind (io ask) hk).
Proof. intros B e h m hk E w. rewrite hbind_io. unfold ask. apply E. Qed.

(** Members of a tree are shallower. *)
Lemma member_height : forall f l, (fold_right (fun x m => Nat.max (height x) m) 0%nat l <= f)%nat -> forall c, In c l -> (height c <= f)%nat.
Proof. intros f l B c I. pose proof (height_member c l I). lia. Qed.

(** ** Writing *)

Section Writing.
  Variables (e : env) (h : heap).

  Lemma ag_write_all : forall (w1 : chunk -> Z -> M bool) (w2 : addr -> Z -> H bool) msg l p la F ft,
    (forall c a F, In c l -> tree_at h c p a F -> agrees e h (w1 c ft) (w2 a ft)) ->
    trees_at (tree_at h) l p la F -> forall bp, agrees e h (write_all w1 msg l ft bp) (hwrite_all w2 msg la ft bp).
  Proof.
    intros w1 w2 msg l p la F ft W. revert la F. induction l as [|c l IH]; intros la F T bp; destruct la as [|a la]; cbn [trees_at] in T; try contradiction.
    - apply ag_ret.
    - destruct T as (F1 & F2 & T1 & T2 & _). cbn [write_all hwrite_all]. apply ag_bind; [apply (W c a F1); [left; reflexivity|exact T1]|].
      intros []; [|apply ag_bind; [apply ag_io|intros; apply ag_ret]].
      apply ag_bind; [exact (ag_increment e h bp c p a F1 T1)|]. intro bp'. apply (IH ltac:(intros c' a' F' I; apply W; right; exact I) la F2 T2).
  Qed.

  Lemma ag_writeRaw : forall c p a F bp, tree_at h c p a F -> agrees e h (IFF_writeRawChunk c bp) (hwriteRawChunk a bp).
  Proof.
    intros c p a F bp T. unfold IFF_writeRawChunk, hwriteRawChunk.
    destruct c as [i s d|i s g l|i s g ps l|i s v]; cbn [tree_at] in T.
    - destruct T as (b & size & L & LD & _). apply (ag_chunk _ _ _ _ _ _ _ _ L). cbn [o_size o_id]. apply ag_ask.
      apply ag_bind; [exact (ag_block _ _ _ _ _ _ LD)|]. intro x. apply ag_bind; [apply ag_io|]. intros [].
      + destruct (INT_MAX <? bp + s); [apply ag_undefined|apply ag_ret].
      + intro w. rewrite hbind_io. unfold io. rewrite !bind_eq. destruct (IFF_error _ e w) as [[[] w1]|u|]; [|reflexivity|reflexivity].
        rewrite !bind_eq. destruct (IFF_errorId i e w1) as [[[] w2]|u|]; [|reflexivity|reflexivity]. rewrite ?bind_eq.
        destruct (IFF_error _ e w2) as [[[] w3]|u|]; reflexivity.
    - destruct T as (arr & la & Fa & Fl & L & _). apply (ag_chunk _ _ _ _ _ _ _ _ L). apply ag_undefined.
    - destruct T as (arr & la & Fa & Fl & parr & pa & Fb & Fp & L & _). apply (ag_chunk _ _ _ _ _ _ _ _ L). apply ag_undefined.
    - destruct T as (L & _). apply (ag_chunk _ _ _ _ _ _ _ _ L). apply ag_undefined.
  Qed.

  Lemma ag_writeFields : forall s0 c p a F bp, tree_at h c p a F -> agrees e h (write_fields_chunk s0 c bp) (hwrite_fields_chunk s0 a bp).
  Proof.
    intros s0 c p a F bp T. unfold write_fields_chunk, hwrite_fields_chunk.
    destruct c as [i s d|i s g l|i s g ps l|i s v]; cbn [tree_at] in T.
    - destruct T as (b & size & L & _). apply (ag_chunk _ _ _ _ _ _ _ _ L). apply ag_undefined.
    - destruct T as (arr & la & Fa & Fl & L & _). apply (ag_chunk _ _ _ _ _ _ _ _ L). apply ag_undefined.
    - destruct T as (arr & la & Fa & Fl & parr & pa & Fb & Fp & L & _). apply (ag_chunk _ _ _ _ _ _ _ _ L). apply ag_undefined.
    - destruct T as (L & _). apply (ag_chunk _ _ _ _ _ _ _ _ L). cbn [o_id o_size]. destruct (fkinds_eqb _ _); [apply ag_io|apply ag_undefined].
  Qed.

  Lemma ag_writeGroup : forall (w1 : chunk -> Z -> M bool) (w2 : addr -> Z -> H bool) c p a F nm bp, tree_at h c p a F ->
    (forall c' a' F' ft, (height c' < height c)%nat -> tree_at h c' (Some a) a' F' -> agrees e h (w1 c' ft) (w2 a' ft)) ->
    agrees e h (IFF_writeGroup w1 c nm bp) (hwriteGroup w2 a nm bp).
  Proof.
    intros w1 w2 c p a F nm bp T W. unfold IFF_writeGroup, hwriteGroup.
    destruct c as [i s d|i s g l|i s g ps l|i s v]; cbn [tree_at height] in *.
    - destruct T as (b & size & L & _). apply (ag_chunk _ _ _ _ _ _ _ _ L). apply ag_undefined.
    - destruct T as (arr & la & Fa & Fl & L & A & T & _). apply (ag_chunk _ _ _ _ _ _ _ _ L). cbn [o_id o_size].
      apply ag_bind; [apply ag_io|]. intros [[] bp']; try apply ag_ret. apply (ag_elements _ _ _ _ _ _ _ _ A).
      apply (ag_write_all _ _ _ _ _ _ _ _ ltac:(intros c' a' F' I T'; apply (W c' a' F'); [pose proof (height_member c' l I); lia|exact T']) T).
    - destruct T as (arr & la & Fa & Fl & parr & pa & Fb & Fp & L & A & T & B & Q & _). apply (ag_chunk _ _ _ _ _ _ _ _ L). cbn [o_id o_size].
      apply ag_bind; [apply ag_io|]. intros [[] bp']; try apply ag_ret. apply (ag_elements _ _ _ _ _ _ _ _ A).
      apply (ag_write_all _ _ _ _ _ _ _ _ ltac:(intros c' a' F' I T'; apply (W c' a' F'); [pose proof (height_member c' l I); lia|exact T']) T).
    - destruct T as (L & _). apply (ag_chunk _ _ _ _ _ _ _ _ L). apply ag_undefined.
  Qed.

  Lemma ag_writeList : forall (w1 : chunk -> Z -> M bool) (w2 : addr -> Z -> H bool) c p a F bp, tree_at h c p a F ->
    (forall c' a' F' ft, (height c' < height c)%nat -> tree_at h c' (Some a) a' F' -> agrees e h (w1 c' ft) (w2 a' ft)) ->
    agrees e h (IFF_writeList w1 c bp) (hwriteList w2 a bp).
  Proof.
    intros w1 w2 c p a F bp T W. unfold IFF_writeList, hwriteList.
    destruct c as [i s d|i s g l|i s g ps l|i s v]; cbn [tree_at height] in *.
    - destruct T as (b & size & L & _). apply (ag_chunk _ _ _ _ _ _ _ _ L). apply ag_undefined.
    - destruct T as (arr & la & Fa & Fl & L & A & T & _). apply (ag_chunk _ _ _ _ _ _ _ _ L). apply ag_undefined.
    - destruct T as (arr & la & Fa & Fl & parr & pa & Fb & Fp & L & A & T & B & Q & _). apply (ag_chunk _ _ _ _ _ _ _ _ L). cbn [o_id o_size].
      apply ag_bind; [apply ag_io|]. intros [[] bp']; try apply ag_ret. apply (ag_elements _ _ _ _ _ _ _ _ B).
      apply ag_bind; [apply (ag_write_all _ _ _ _ _ _ _ _ ltac:(intros c' a' F' I T'; apply (W c' a' F'); [pose proof (height_member c' ps I); lia|exact T']) Q)|].
      intros [[] bp2]; [|apply ag_ret]. apply (ag_elements _ _ _ _ _ _ _ _ A).
      apply (ag_write_all _ _ _ _ _ _ _ _ ltac:(intros c' a' F' I T'; apply (W c' a' F'); [pose proof (height_member c' l I); lia|exact T']) T).
    - destruct T as (L & _). apply (ag_chunk _ _ _ _ _ _ _ _ L). apply ag_undefined.
  Qed.

  Theorem ag_writeChunk : forall rg fuel c p a F ft, (height c <= fuel)%nat -> tree_at h c p a F ->
    agrees e h (IFF_writeChunk rg c ft) (hwriteChunk rg fuel a ft).
  Proof.
    intro rg. induction fuel as [|fuel IH]; intros c p a F ft HT T; [destruct c; cbn in HT; lia|].
    destruct (tree_header _ _ _ _ _ T) as (b & L).
    assert (U : IFF_writeChunk rg c ft = andM (IFF_writeId (chunkId c) (chunkId c) "chunkId")
      (andM (IFF_writeLong (chunkSize c) (chunkId c) "chunkSize") (writeChunkBody (IFF_writeChunk rg) rg c ft))) by (destruct c; reflexivity).
    rewrite U. cbn [hwriteChunk]. apply (ag_chunk _ _ _ _ _ _ _ _ L). cbn [o_id o_size].
    apply ag_and; [apply ag_io|]. apply ag_and; [apply ag_io|].
    unfold writeChunkBody, hwriteChunkBody. apply (ag_chunk _ _ _ _ _ _ _ _ L). cbn [o_id o_size].
    assert (W : forall c' a' F' ft, (height c' < height c)%nat -> tree_at h c' (Some a) a' F' -> agrees e h (IFF_writeChunk rg c' ft) (hwriteChunk rg fuel a' ft))
      by (intros c' a' F' ft' LT T'; apply (IH c' (Some a) a' F'); [lia|exact T']).
    apply ag_bind; [apply ag_lift|]. intro k. apply ag_bind.
    - destruct k as [| | | | |s]; cbn [writeExtensionChunkFields hwriteExtensionChunkFields];
        first [exact (ag_writeList _ _ _ _ _ _ _ T W)|exact (ag_writeGroup _ _ _ _ _ _ _ _ T W)|exact (ag_writeRaw _ _ _ _ _ T)|exact (ag_writeFields _ _ _ _ _ _ T)].
    - intros [ok bp]. apply ag_and; [apply ag_ret|]. apply ag_and; apply ag_io.
  Qed.
End Writing.

(** ** Checking *)

Section Checking.
  Variables (e : env) (h : heap).

  Lemma ag_check_subs : forall (c1 : chunk -> Z -> M bool) (c2 : addr -> Z -> H bool) s1 s2 l p la F ft,
    (forall c a F, In c l -> tree_at h c p a F -> agrees e h (c1 c ft) (c2 a ft)) ->
    (forall c a F, In c l -> tree_at h c p a F -> agrees e h (s1 c) (s2 a)) ->
    trees_at (tree_at h) l p la F -> forall acc, agrees e h (check_subs c1 s1 l ft acc) (hcheck_subs c2 s2 la ft acc).
  Proof.
    intros c1 c2 s1 s2 l p la F ft W S. revert la F. induction l as [|c l IH]; intros la F T acc; destruct la as [|a la]; cbn [trees_at] in T; try contradiction.
    - apply ag_ret.
    - destruct T as (F1 & F2 & T1 & T2 & _). cbn [check_subs hcheck_subs]. apply ag_bind; [apply (S c a F1); [left; reflexivity|exact T1]|].
      intros []; cbn [negb]; [|apply ag_ret]. apply ag_bind; [apply (W c a F1); [left; reflexivity|exact T1]|].
      intros []; cbn [negb]; [|apply ag_ret]. apply ag_bind; [exact (ag_increment e h acc c p a F1 T1)|]. intro acc'.
      apply (IH ltac:(intros c' a' F' I; apply W; right; exact I) ltac:(intros c' a' F' I; apply S; right; exact I) la F2 T2).
  Qed.

  Lemma ag_error_false : forall (m : M unit), agrees e h (m ;;; ret false) (io m ;;h hret false).
  Proof. intro m. apply ag_bind; [apply ag_io|]. intros. apply ag_ret. Qed.

  Lemma ag_form_sub : forall g ga c p a F, tree_at h c p a F -> agrees e h (form_subChunkCheck g c) (hform_subChunkCheck ga a).
  Proof.
    intros g ga c p a F T. destruct (tree_header _ _ _ _ _ T) as (b & L). unfold form_subChunkCheck, hform_subChunkCheck. apply (ag_chunk _ _ _ _ _ _ _ _ L).
    cbn [o_id]. destruct (chunkId c =? IFF_ID_PROP); [apply ag_io|apply ag_ret].
  Qed.
  Lemma ag_prop_sub : forall g ga c p a F, tree_at h c p a F -> agrees e h (prop_subChunkCheck g c) (hprop_subChunkCheck ga a).
  Proof.
    intros g ga c p a F T. destruct (tree_header _ _ _ _ _ T) as (b & L). unfold prop_subChunkCheck, hprop_subChunkCheck. apply (ag_chunk _ _ _ _ _ _ _ _ L).
    cbn [o_id]. destruct (_ || _); [apply ag_io|apply ag_ret].
  Qed.

  Lemma type_at : forall c p a F hd b, tree_at h c p a F -> lookup h a = Some (OChunk hd b) -> type_of b = match as_group c with Some (g, _) => Some g | None => None end.
  Proof.
    intros c p a F hd b T L. destruct c as [i s d|i s g l|i s g ps l|i s v]; cbn [tree_at] in T.
    - destruct T as (x & size & L' & _). rewrite L in L'. injection L' as _ ->. reflexivity.
    - destruct T as (arr & la & Fa & Fl & L' & _). rewrite L in L'. injection L' as _ ->. reflexivity.
    - destruct T as (arr & la & Fa & Fl & parr & pa & Fb & Fp & L' & _). rewrite L in L'. injection L' as _ ->. reflexivity.
    - destruct T as (L' & _). rewrite L in L'. injection L' as _ ->. reflexivity.
  Qed.

  Lemma ag_cat_sub : forall g pg ga Fg c p a F, tree_at h g pg ga Fg -> tree_at h c p a F -> agrees e h (IFF_checkCATSubChunk g c) (hcheckCATSubChunk ga a).
  Proof.
    intros g pg ga Fg c p a F TG T. destruct (tree_header _ _ _ _ _ T) as (b & L). destruct (tree_header _ _ _ _ _ TG) as (bg & LG).
    unfold IFF_checkCATSubChunk, hcheckCATSubChunk. apply (ag_chunk _ _ _ _ _ _ _ _ L). cbn [o_id].
    destruct (negb (checkValidCATSubChunkId (chunkId c))); [apply ag_io|]. apply (ag_chunk _ _ _ _ _ _ _ _ LG).
    rewrite (type_at _ _ _ _ _ _ TG LG). destruct (as_group g) as [[ct subs]|]; [|apply ag_undefined].
    destruct (negb (ct =? IFF_ID_JJJJ)); [|apply ag_ret]. destruct (checkValidCATSubChunkId (chunkId c)); [|apply ag_ret].
    rewrite (type_at _ _ _ _ _ _ T L). destruct (as_group c) as [[gt subs']|]; [|apply ag_undefined].
    destruct (negb (gt =? ct)); [apply ag_error_false|apply ag_ret].
  Qed.

  Lemma ag_size : forall c p a F z, tree_at h c p a F -> agrees e h (IFF_checkGroupChunkSize c z) (hcheckGroupChunkSize a z).
  Proof.
    intros c p a F z T. destruct (tree_header _ _ _ _ _ T) as (b & L). unfold IFF_checkGroupChunkSize, hcheckGroupChunkSize.
    apply (ag_chunk _ _ _ _ _ _ _ _ L). cbn [o_size o_id]. destruct (z =? chunkSize c); [apply ag_ret|].
    intro w. rewrite hbind_io. unfold io. rewrite !bind_eq. destruct (IFF_error _ e w) as [[[] w1]|u|]; [|reflexivity|reflexivity].
    rewrite !bind_eq. destruct (IFF_errorId _ e w1) as [[[] w2]|u|]; [|reflexivity|reflexivity]. rewrite ?bind_eq.
    destruct (IFF_error _ e w2) as [[[] w3]|u|]; reflexivity.
  Qed.

  Lemma ag_checkGroup : forall (c1 : chunk -> Z -> M bool) (c2 : addr -> Z -> H bool) tc s1 s2 c p a F, tree_at h c p a F ->
    (forall c' a' F' ft, (height c' < height c)%nat -> tree_at h c' (Some a) a' F' -> agrees e h (c1 c' ft) (c2 a' ft)) ->
    (forall c' a' F', tree_at h c' (Some a) a' F' -> agrees e h (s1 c c') (s2 a a')) ->
    agrees e h (IFF_checkGroup c1 tc s1 c) (hcheckGroup c2 tc s2 a).
  Proof.
    intros c1 c2 tc s1 s2 c p a F T W S. pose proof T as T0. unfold IFF_checkGroup, hcheckGroup.
    destruct c as [i s d|i s g l|i s g ps l|i s v]; cbn [tree_at height] in *.
    - destruct T as (b & size & L & _). apply (ag_chunk _ _ _ _ _ _ _ _ L). apply ag_undefined.
    - destruct T as (arr & la & Fa & Fl & L & A & T & _). apply (ag_chunk _ _ _ _ _ _ _ _ L).
      apply ag_bind; [apply ag_io|]. intros []; cbn [negb]; [|apply ag_ret]. apply (ag_elements _ _ _ _ _ _ _ _ A).
      apply ag_bind.
      + apply (ag_check_subs _ _ _ _ _ _ _ _ _ ltac:(intros c' a' F' I T'; apply (W c' a' F'); [pose proof (height_member c' l I); lia|exact T']) ltac:(intros c' a' F' I T'; exact (S c' a' F' T')) T).
      + intro z. destruct (z =? -1); [apply ag_ret|]. apply ag_bind; [apply ag_lift|]. intro z'. exact (ag_size (CGroup i s g l) p a F z' T0).
    - destruct T as (arr & la & Fa & Fl & parr & pa & Fb & Fp & L & A & T & B & Q & _). apply (ag_chunk _ _ _ _ _ _ _ _ L).
      apply ag_bind; [apply ag_io|]. intros []; cbn [negb]; [|apply ag_ret]. apply (ag_elements _ _ _ _ _ _ _ _ A).
      apply ag_bind.
      + apply (ag_check_subs _ _ _ _ _ _ _ _ _ ltac:(intros c' a' F' I T'; apply (W c' a' F'); [pose proof (height_member c' l I); lia|exact T']) ltac:(intros c' a' F' I T'; exact (S c' a' F' T')) T).
      + intro z. destruct (z =? -1); [apply ag_ret|]. apply ag_bind; [apply ag_lift|]. intro z'. exact (ag_size (CList i s g ps l) p a F z' T0).
    - destruct T as (L & _). apply (ag_chunk _ _ _ _ _ _ _ _ L). apply ag_undefined.
  Qed.

  Lemma ag_checkList : forall (c1 : chunk -> Z -> M bool) (c2 : addr -> Z -> H bool) c p a F, tree_at h c p a F ->
    (forall c' a' F' ft, (height c' < height c)%nat -> tree_at h c' (Some a) a' F' -> agrees e h (c1 c' ft) (c2 a' ft)) ->
    agrees e h (IFF_checkList c1 c) (hcheckList c2 a).
  Proof.
    intros c1 c2 c p a F T W. pose proof T as T0. unfold IFF_checkList, hcheckList.
    destruct c as [i s d|i s g l|i s g ps l|i s v]; cbn [tree_at height] in *.
    - destruct T as (b & size & L & _). apply (ag_chunk _ _ _ _ _ _ _ _ L). apply ag_undefined.
    - destruct T as (arr & la & Fa & Fl & L & A & T & _). apply (ag_chunk _ _ _ _ _ _ _ _ L). apply ag_undefined.
    - destruct T as (arr & la & Fa & Fl & parr & pa & Fb & Fp & L & A & T & B & Q & _). apply (ag_chunk _ _ _ _ _ _ _ _ L).
      apply ag_bind; [apply ag_io|]. intros []; cbn [negb]; [|apply ag_ret]. apply (ag_elements _ _ _ _ _ _ _ _ B).
      apply ag_bind.
      { apply (ag_check_subs _ _ _ _ _ _ _ _ _ ltac:(intros c' a' F' I T'; apply (W c' a' F'); [pose proof (height_member c' ps I); lia|exact T']) ltac:(intros c' a' F' I T'; apply ag_ret) Q). }
      intro z. destruct (z =? -1); [apply ag_ret|]. apply ag_bind; [apply ag_lift|]. intro z1. apply (ag_elements _ _ _ _ _ _ _ _ A).
      apply ag_bind.
      { apply (ag_check_subs _ _ _ _ _ _ _ _ _ ltac:(intros c' a' F' I T'; apply (W c' a' F'); [pose proof (height_member c' l I); lia|exact T'])
          ltac:(intros c' a' F' I T'; exact (ag_cat_sub (CList i s g ps l) p a F c' (Some a) a' F' T0 T')) T). }
      intro z2. destruct (z2 =? -1); [apply ag_ret|]. apply ag_bind; [apply ag_lift|]. intro z3. exact (ag_size (CList i s g ps l) p a F z3 T0).
    - destruct T as (L & _). apply (ag_chunk _ _ _ _ _ _ _ _ L). apply ag_undefined.
  Qed.

  Lemma ag_checkFields : forall s0 c p a F, tree_at h c p a F -> agrees e h (check_fields_chunk s0 c) (hcheck_fields_chunk s0 a).
  Proof.
    intros s0 c p a F T. unfold check_fields_chunk, hcheck_fields_chunk.
    destruct c as [i s d|i s g l|i s g ps l|i s v]; cbn [tree_at] in T.
    - destruct T as (b & size & L & _). apply (ag_chunk _ _ _ _ _ _ _ _ L). apply ag_undefined.
    - destruct T as (arr & la & Fa & Fl & L & _). apply (ag_chunk _ _ _ _ _ _ _ _ L). apply ag_undefined.
    - destruct T as (arr & la & Fa & Fl & parr & pa & Fb & Fp & L & _). apply (ag_chunk _ _ _ _ _ _ _ _ L). apply ag_undefined.
    - destruct T as (L & _). apply (ag_chunk _ _ _ _ _ _ _ _ L). destruct (fkinds_eqb _ _); [|apply ag_undefined].
      destruct (fs_check s0 (map snd v)); [apply ag_error_false|apply ag_ret].
  Qed.

  Theorem ag_checkChunk : forall rg fuel c p a F ft, (height c <= fuel)%nat -> tree_at h c p a F ->
    agrees e h (IFF_checkChunk rg c ft) (hcheckChunk rg fuel a ft).
  Proof.
    intro rg. induction fuel as [|fuel IH]; intros c p a F ft HT T; [destruct c; cbn in HT; lia|].
    destruct (tree_header _ _ _ _ _ T) as (b & L).
    assert (U : IFF_checkChunk rg c ft = (ok <- IFF_checkId (chunkId c) ;; if negb ok then ret false else
      h <- lift (find_handler rg ft (chunkId c)) ;; checkExtensionChunk (IFF_checkChunk rg) h c)) by (destruct c; reflexivity).
    rewrite U. cbn [hcheckChunk]. apply (ag_chunk _ _ _ _ _ _ _ _ L). cbn [o_id].
    apply ag_bind; [apply ag_io|]. intros []; cbn [negb]; [|apply ag_ret].
    assert (W : forall c' a' F' ft, (height c' < height c)%nat -> tree_at h c' (Some a) a' F' -> agrees e h (IFF_checkChunk rg c' ft) (hcheckChunk rg fuel a' ft))
      by (intros c' a' F' ft' LT T'; apply (IH c' (Some a) a' F'); [lia|exact T']).
    apply ag_bind; [apply ag_lift|]. intro k. destruct k as [| | | | |s]; cbn [checkExtensionChunk hcheckExtensionChunk].
    - exact (ag_checkGroup _ _ _ _ _ _ _ _ _ T W (fun c' a' F' T' => ag_form_sub c a c' _ a' F' T')).
    - exact (ag_checkGroup _ _ _ _ _ _ _ _ _ T W (fun c' a' F' T' => ag_cat_sub c p a F c' _ a' F' T T')).
    - exact (ag_checkList _ _ _ _ _ _ T W).
    - exact (ag_checkGroup _ _ _ _ _ _ _ _ _ T W (fun c' a' F' T' => ag_prop_sub c a c' _ a' F' T')).
    - apply ag_ret.
    - exact (ag_checkFields _ _ _ _ _ T).
  Qed.
End Checking.

(** ** Printing *)

Section Printing.
  Variables (e : env) (h : heap).

  Lemma ag_print_all : forall (p1 : chunk -> nat -> Z -> outcome string) (p2 : addr -> nat -> Z -> H string) l p la F lv ft,
    (forall c a F, In c l -> tree_at h c p a F -> agrees e h (lift (p1 c lv ft)) (p2 a lv ft)) ->
    trees_at (tree_at h) l p la F -> agrees e h (lift (print_all p1 l lv ft)) (hprint_all p2 la lv ft).
  Proof.
    intros p1 p2 l p la F lv ft W. revert la F. induction l as [|c l IH]; intros la F T; destruct la as [|a la]; cbn [trees_at] in T; try contradiction.
    - apply ag_done.
    - destruct T as (F1 & F2 & T1 & T2 & _). cbn [print_all hprint_all]. apply ag_bindo; [apply (W c a F1); [left; reflexivity|exact T1]|].
      intro s. apply ag_bindo; [|intro t; apply ag_done]. apply (IH ltac:(intros c' a' F' I; apply W; right; exact I) la F2 T2).
  Qed.

  Lemma ag_print_array : forall (p1 : chunk -> nat -> Z -> outcome string) (p2 : addr -> nat -> Z -> H string) op l p arr la Fa F lv ft,
    (forall c a F, In c l -> tree_at h c p a F -> agrees e h (lift (p1 c (S lv) ft)) (p2 a (S lv) ft)) ->
    array_at h arr la Fa -> trees_at (tree_at h) l p la F ->
    agrees e h (lift (print_array p1 op l ft lv)) (hprint_array p2 op arr (List.length la) ft lv).
  Proof.
    intros p1 p2 op l p arr la Fa F lv ft W A T. unfold print_array, hprint_array. apply (ag_elements _ _ _ _ _ _ _ _ A).
    apply ag_bindo; [exact (ag_print_all _ _ _ _ _ _ _ _ W T)|]. intro s. apply ag_done.
  Qed.

  Lemma ag_printRaw : forall c p a F lv, tree_at h c p a F -> agrees e h (lift (IFF_printRawChunk c lv)) (hprintRawChunk a lv).
  Proof.
    intros c p a F lv T. unfold IFF_printRawChunk, hprintRawChunk.
    destruct c as [i s d|i s g l|i s g ps l|i s v]; cbn [tree_at] in T.
    - destruct T as (b & size & L & LD & _). apply (ag_chunk _ _ _ _ _ _ _ _ L). cbn [o_size o_id].
      destruct (i =? IFF_ID_TEXT); (apply ag_bindo; [exact (ag_block _ _ _ _ _ _ LD)|]); intro x; apply ag_done.
    - destruct T as (arr & la & Fa & Fl & L & _). apply (ag_chunk _ _ _ _ _ _ _ _ L). apply ag_undef.
    - destruct T as (arr & la & Fa & Fl & parr & pa & Fb & Fp & L & _). apply (ag_chunk _ _ _ _ _ _ _ _ L). apply ag_undef.
    - destruct T as (L & _). apply (ag_chunk _ _ _ _ _ _ _ _ L). apply ag_undef.
  Qed.

  Lemma ag_printFields : forall s0 c p a F lv, tree_at h c p a F -> agrees e h (lift (print_fields_chunk s0 c lv)) (hprint_fields_chunk s0 a lv).
  Proof.
    intros s0 c p a F lv T. unfold print_fields_chunk, hprint_fields_chunk.
    destruct c as [i s d|i s g l|i s g ps l|i s v]; cbn [tree_at] in T.
    - destruct T as (b & size & L & _). apply (ag_chunk _ _ _ _ _ _ _ _ L). apply ag_undef.
    - destruct T as (arr & la & Fa & Fl & L & _). apply (ag_chunk _ _ _ _ _ _ _ _ L). apply ag_undef.
    - destruct T as (arr & la & Fa & Fl & parr & pa & Fb & Fp & L & _). apply (ag_chunk _ _ _ _ _ _ _ _ L). apply ag_undef.
    - destruct T as (L & _). apply (ag_chunk _ _ _ _ _ _ _ _ L). destruct (fkinds_eqb _ _); [apply ag_done|apply ag_undef].
  Qed.

  Lemma ag_printGroup : forall (p1 : chunk -> nat -> Z -> outcome string) (p2 : addr -> nat -> Z -> H string) c p a F lv nm, tree_at h c p a F ->
    (forall c' a' F' lv ft, (height c' < height c)%nat -> tree_at h c' (Some a) a' F' -> agrees e h (lift (p1 c' lv ft)) (p2 a' lv ft)) ->
    agrees e h (lift (IFF_printGroup p1 c lv nm)) (hprintGroup p2 a lv nm).
  Proof.
    intros p1 p2 c p a F lv nm T W. unfold IFF_printGroup, hprintGroup.
    destruct c as [i s d|i s g l|i s g ps l|i s v]; cbn [tree_at height] in *.
    - destruct T as (b & size & L & _). apply (ag_chunk _ _ _ _ _ _ _ _ L). apply ag_undef.
    - destruct T as (arr & la & Fa & Fl & L & A & T & _). apply (ag_chunk _ _ _ _ _ _ _ _ L).
      apply ag_bindo; [|intro t; apply ag_done].
      apply (ag_print_array _ _ _ _ _ _ _ _ _ _ _ ltac:(intros c' a' F' I T'; apply (W c' a' F'); [pose proof (height_member c' l I); lia|exact T']) A T).
    - destruct T as (arr & la & Fa & Fl & parr & pa & Fb & Fp & L & A & T & B & Q & _). apply (ag_chunk _ _ _ _ _ _ _ _ L).
      apply ag_bindo; [|intro t; apply ag_done].
      apply (ag_print_array _ _ _ _ _ _ _ _ _ _ _ ltac:(intros c' a' F' I T'; apply (W c' a' F'); [pose proof (height_member c' l I); lia|exact T']) A T).
    - destruct T as (L & _). apply (ag_chunk _ _ _ _ _ _ _ _ L). apply ag_undef.
  Qed.

  Lemma ag_printList : forall (p1 : chunk -> nat -> Z -> outcome string) (p2 : addr -> nat -> Z -> H string) c p a F lv, tree_at h c p a F ->
    (forall c' a' F' lv ft, (height c' < height c)%nat -> tree_at h c' (Some a) a' F' -> agrees e h (lift (p1 c' lv ft)) (p2 a' lv ft)) ->
    agrees e h (lift (IFF_printList p1 c lv)) (hprintList p2 a lv).
  Proof.
    intros p1 p2 c p a F lv T W. unfold IFF_printList, hprintList.
    destruct c as [i s d|i s g l|i s g ps l|i s v]; cbn [tree_at height] in *.
    - destruct T as (b & size & L & _). apply (ag_chunk _ _ _ _ _ _ _ _ L). apply ag_undef.
    - destruct T as (arr & la & Fa & Fl & L & A & T & _). apply (ag_chunk _ _ _ _ _ _ _ _ L). apply ag_undef.
    - destruct T as (arr & la & Fa & Fl & parr & pa & Fb & Fp & L & A & T & B & Q & _). apply (ag_chunk _ _ _ _ _ _ _ _ L).
      apply ag_bindo; [|intro t; apply ag_bindo; [|intro t2; apply ag_done]].
      + apply (ag_print_array _ _ _ _ _ _ _ _ _ _ _ ltac:(intros c' a' F' I T'; apply (W c' a' F'); [pose proof (height_member c' ps I); lia|exact T']) B Q).
      + apply (ag_print_array _ _ _ _ _ _ _ _ _ _ _ ltac:(intros c' a' F' I T'; apply (W c' a' F'); [pose proof (height_member c' l I); lia|exact T']) A T).
    - destruct T as (L & _). apply (ag_chunk _ _ _ _ _ _ _ _ L). apply ag_undef.
  Qed.

  Theorem ag_printChunk : forall rg fuel c p a F lv ft, (height c <= fuel)%nat -> tree_at h c p a F ->
    agrees e h (lift (IFF_printChunk rg c lv ft)) (hprintChunk rg fuel a lv ft).
  Proof.
    intro rg. induction fuel as [|fuel IH]; intros c p a F lv ft HT T; [destruct c; cbn in HT; lia|].
    destruct (tree_header _ _ _ _ _ T) as (b & L).
    assert (U : IFF_printChunk rg c lv ft = (k <-o find_handler rg ft (chunkId c) ;; s <-o printExtensionChunk (IFF_printChunk rg) k c lv ;;
      Done (IFF_printIndent lv "'" ++ IFF_printId (chunkId c) ++ "' = {" ++ nl ++ IFF_printIndent (S lv) ("chunkSize = " ++ dec (chunkSize c) ++ ";" ++ nl)
        ++ s ++ IFF_printIndent lv ("}" ++ nl ++ nl))%string)) by (destruct c; reflexivity).
    rewrite U. cbn [hprintChunk]. apply (ag_chunk _ _ _ _ _ _ _ _ L). cbn [o_id o_size].
    assert (W : forall c' a' F' lv ft, (height c' < height c)%nat -> tree_at h c' (Some a) a' F' -> agrees e h (lift (IFF_printChunk rg c' lv ft)) (hprintChunk rg fuel a' lv ft))
      by (intros c' a' F' lv' ft' LT T'; apply (IH c' (Some a) a' F'); [lia|exact T']).
    apply ag_bindo; [apply ag_lift|]. intro k. apply ag_bindo; [|intro s; apply ag_done].
    destruct k as [| | | | |s]; cbn [printExtensionChunk hprintExtensionChunk];
      first [exact (ag_printList _ _ _ _ _ _ _ T W)|exact (ag_printGroup _ _ _ _ _ _ _ _ T W)|exact (ag_printRaw _ _ _ _ _ T)|exact (ag_printFields _ _ _ _ _ _ T)].
  Qed.
End Printing.

(** ** Comparing *)

Section Comparing.
  Variables (e : env) (h : heap).

  Definition body_at (a : addr) (c : chunk) (b : body) : Prop :=
    match c with
    | CRaw i s d => exists x size, b = BRaw (Some x) /\ lookup h x = Some (OData size d)
    | CGroup i s g l => exists arr la Fa Fl, b = BGroup g (List.length la) arr /\ array_at h arr la Fa /\ trees_at (tree_at h) l (Some a) la Fl
    | CList i s g ps l => exists arr la Fa Fl parr pa Fb Fp, b = BList g (List.length la) arr (List.length pa) parr /\
        array_at h arr la Fa /\ trees_at (tree_at h) l (Some a) la Fl /\ array_at h parr pa Fb /\ trees_at (tree_at h) ps (Some a) pa Fp
    | CFields i s v => b = BFields v
    end.

  Lemma tree_body : forall c p a F, tree_at h c p a F -> exists b, lookup h a = Some (OChunk (mkHeader p (chunkId c) (chunkSize c)) b) /\ body_at a c b.
  Proof.
    intros c p a F T. destruct c as [i s d|i s g l|i s g ps l|i s v]; cbn [tree_at body_at chunkId chunkSize] in *.
    - destruct T as (x & size & L & LD & _). eauto 10.
    - destruct T as (arr & la & Fa & Fl & L & A & T & _). eauto 10.
    - destruct T as (arr & la & Fa & Fl & parr & pa & Fb & Fp & L & A & T & B & Q & _). eexists. split; [exact L|]. exists arr, la, Fa, Fl, parr, pa, Fb, Fp. auto 10.
    - destruct T as (L & _). eauto.
  Qed.

  Lemma ag_compareRaw : forall c1 p1 a1 F1 c2 p2 a2 F2, tree_at h c1 p1 a1 F1 -> tree_at h c2 p2 a2 F2 ->
    agrees e h (lift (IFF_compareRawChunk e c1 c2)) (hcompareRawChunk a1 a2).
  Proof.
    intros c1 p1 a1 F1 c2 p2 a2 F2 T1 T2. destruct (tree_body _ _ _ _ T1) as (b1 & L1 & B1). destruct (tree_body _ _ _ _ T2) as (b2 & L2 & B2).
    unfold hcompareRawChunk. apply (ag_chunk _ _ _ _ _ _ _ _ L1). apply (ag_chunk _ _ _ _ _ _ _ _ L2).
    destruct c1 as [i1 s1 d1|i1 s1 g1 l1|i1 s1 g1 ps1 l1|i1 s1 v1]; cbn [body_at] in B1.
    2:{ destruct B1 as (arr & la & Fa & Fl & -> & _). apply ag_undef. }
    2:{ destruct B1 as (arr & la & Fa & Fl & parr & pa & Fb & Fp & -> & _). apply ag_undef. }
    2:{ rewrite B1. apply ag_undef. }
    destruct B1 as (x1 & z1 & -> & LD1).
    destruct c2 as [i2 s2 d2|i2 s2 g2 l2|i2 s2 g2 ps2 l2|i2 s2 v2]; cbn [body_at] in B2.
    2:{ destruct B2 as (arr & la & Fa & Fl & -> & _). apply ag_undef. }
    2:{ destruct B2 as (arr & la & Fa & Fl & parr & pa & Fb & Fp & -> & _). apply ag_undef. }
    2:{ rewrite B2. apply ag_undef. }
    destruct B2 as (x2 & z2 & -> & LD2). cbn [IFF_compareRawChunk]. cbn [o_size chunkSize]. apply ag_hask. cbv zeta.
    apply ag_bindo; [exact (ag_block _ _ _ _ _ _ LD1)|]. intro y1. apply ag_bindo; [exact (ag_block _ _ _ _ _ _ LD2)|]. intro y2. apply ag_done.
  Qed.

  Lemma ag_compareFields : forall s0 c1 p1 a1 F1 c2 p2 a2 F2, tree_at h c1 p1 a1 F1 -> tree_at h c2 p2 a2 F2 ->
    agrees e h (lift (compare_fields_chunk s0 c1 c2)) (hcompare_fields_chunk s0 a1 a2).
  Proof.
    intros s0 c1 p1 a1 F1 c2 p2 a2 F2 T1 T2. destruct (tree_body _ _ _ _ T1) as (b1 & L1 & B1). destruct (tree_body _ _ _ _ T2) as (b2 & L2 & B2).
    unfold hcompare_fields_chunk. apply (ag_chunk _ _ _ _ _ _ _ _ L1). apply (ag_chunk _ _ _ _ _ _ _ _ L2).
    destruct c1 as [i1 s1 d1|i1 s1 g1 l1|i1 s1 g1 ps1 l1|i1 s1 v1]; cbn [body_at] in B1.
    1:{ destruct B1 as (x & z & -> & _). apply ag_undef. }
    1:{ destruct B1 as (arr & la & Fa & Fl & -> & _). apply ag_undef. }
    1:{ destruct B1 as (arr & la & Fa & Fl & parr & pa & Fb & Fp & -> & _). apply ag_undef. }
    subst b1.
    destruct c2 as [i2 s2 d2|i2 s2 g2 l2|i2 s2 g2 ps2 l2|i2 s2 v2]; cbn [body_at] in B2.
    1:{ destruct B2 as (x & z & -> & _). apply ag_undef. }
    1:{ destruct B2 as (arr & la & Fa & Fl & -> & _). apply ag_undef. }
    1:{ destruct B2 as (arr & la & Fa & Fl & parr & pa & Fb & Fp & -> & _). apply ag_undef. }
    subst b2. cbn [compare_fields_chunk]. destruct (_ && _); [apply ag_done|apply ag_undef].
  Qed.

  Lemma ag_compare_all : forall (k1 : chunk -> chunk -> Z -> outcome bool) (k2 : addr -> addr -> Z -> H bool) l1 p1 p2 ft,
    (forall c1 a1 F1 c2 a2 F2, In c1 l1 -> tree_at h c1 p1 a1 F1 -> tree_at h c2 p2 a2 F2 -> agrees e h (lift (k1 c1 c2 ft)) (k2 a1 a2 ft)) ->
    forall la1 F1 l2 la2 F2, trees_at (tree_at h) l1 p1 la1 F1 -> trees_at (tree_at h) l2 p2 la2 F2 ->
    agrees e h (lift (compare_all k1 l1 l2 ft)) (hcompare_all k2 la1 la2 ft).
  Proof.
    intros k1 k2 l1 p1 p2 ft W. induction l1 as [|c1 l1 IH]; intros la1 F1 l2 la2 F2 T1 T2; destruct la1 as [|a1 la1]; cbn [trees_at] in T1; try contradiction.
    - apply ag_done.
    - destruct l2 as [|c2 l2]; destruct la2 as [|a2 la2]; cbn [trees_at] in T2; try contradiction; [apply ag_done|].
      destruct T1 as (G1 & G2 & T1 & T1' & _). destruct T2 as (K1 & K2 & T2 & T2' & _). cbn [compare_all hcompare_all].
      apply ag_bindo; [apply (W c1 a1 G1 c2 a2 K1); [left; reflexivity|exact T1|exact T2]|]. intros []; [|apply ag_done].
      apply (IH ltac:(intros c a F c' a' F' I; apply W; right; exact I) la1 G2 l2 la2 K2 T1' T2').
  Qed.

  Lemma same_length : forall A B C D (l1 : list A) (l2 : list B) (m1 : list C) (m2 : list D), List.length m1 = List.length l1 -> List.length m2 = List.length l2 ->
    Nat.eqb (List.length m1) (List.length m2) = (zlength l1 =? zlength l2).
  Proof.
    intros A B C D l1 l2 m1 m2 E1 E2. rewrite E1, E2. unfold zlength. destruct (Nat.eqb_spec (List.length l1) (List.length l2)) as [E|E]; symmetry;
      [apply Z.eqb_eq|apply Z.eqb_neq]; lia.
  Qed.

  Lemma ag_compare_members : forall (k1 : chunk -> chunk -> Z -> outcome bool) (k2 : addr -> addr -> Z -> H bool) g1 l1 p1 arr1 la1 Fa1 Fl1 g2 l2 p2 arr2 la2 Fa2 Fl2,
    (forall c1 a1 F1 c2 a2 F2 ft, In c1 l1 -> tree_at h c1 p1 a1 F1 -> tree_at h c2 p2 a2 F2 -> agrees e h (lift (k1 c1 c2 ft)) (k2 a1 a2 ft)) ->
    array_at h arr1 la1 Fa1 -> array_at h arr2 la2 Fa2 -> trees_at (tree_at h) l1 p1 la1 Fl1 -> trees_at (tree_at h) l2 p2 la2 Fl2 ->
    agrees e h (lift (if (g1 =? g2) && (zlength l1 =? zlength l2) then compare_all k1 l1 l2 g1 else Done false))
      (hcompare_members k2 g1 (List.length la1) arr1 g2 (List.length la2) arr2).
  Proof.
    intros k1 k2 g1 l1 p1 arr1 la1 Fa1 Fl1 g2 l2 p2 arr2 la2 Fa2 Fl2 W A1 A2 T1 T2. unfold hcompare_members.
    rewrite (same_length _ _ _ _ l1 l2 la1 la2 (trees_length _ _ _ _ _ T1) (trees_length _ _ _ _ _ T2)).
    destruct (_ && _); [|apply ag_done]. apply (ag_elements _ _ _ _ _ _ _ _ A1). apply (ag_elements _ _ _ _ _ _ _ _ A2).
    apply (ag_compare_all k1 k2 l1 p1 p2 g1 ltac:(intros; eapply W; eassumption) la1 Fl1 l2 la2 Fl2 T1 T2).
  Qed.

  Lemma ag_compareGroup : forall (k1 : chunk -> chunk -> Z -> outcome bool) (k2 : addr -> addr -> Z -> H bool) c1 p1 a1 F1 c2 p2 a2 F2,
    tree_at h c1 p1 a1 F1 -> tree_at h c2 p2 a2 F2 ->
    (forall c p a F c' p' a' F' ft, (height c < height c1)%nat -> tree_at h c p a F -> tree_at h c' p' a' F' -> agrees e h (lift (k1 c c' ft)) (k2 a a' ft)) ->
    agrees e h (lift (IFF_compareGroup k1 c1 c2)) (hcompareGroup k2 a1 a2).
  Proof.
    intros k1 k2 c1 p1 a1 F1 c2 p2 a2 F2 T1 T2 W. destruct (tree_body _ _ _ _ T1) as (b1 & L1 & B1). destruct (tree_body _ _ _ _ T2) as (b2 & L2 & B2).
    unfold hcompareGroup. apply (ag_chunk _ _ _ _ _ _ _ _ L1). apply (ag_chunk _ _ _ _ _ _ _ _ L2).
    destruct c1 as [i1 s1 d1|i1 s1 g1 l1|i1 s1 g1 ps1 l1|i1 s1 v1]; cbn [body_at height IFF_compareGroup] in *.
    1:{ destruct B1 as (x & z & -> & _). apply ag_undef. }
    3:{ subst b1. apply ag_undef. }
    - destruct B1 as (arr & la & Fa & Fl & -> & A & T).
      destruct c2 as [i2 s2 d2|i2 s2 g2 l2|i2 s2 g2 ps2 l2|i2 s2 v2]; cbn [body_at as_group] in *.
      + destruct B2 as (x & z & -> & _). apply ag_undef.
      + destruct B2 as (arr2 & la2 & Fa2 & Fl2 & -> & A2 & T2').
        apply (ag_compare_members k1 k2 g1 l1 (Some a1) arr la Fa Fl g2 l2 (Some a2) arr2 la2 Fa2 Fl2); try assumption.
        intros c a F c' a' F' ft I X Y. apply (W c (Some a1) a F c' (Some a2) a' F'); [|exact X|exact Y]. pose proof (height_member c l1 I). lia.
      + destruct B2 as (arr2 & la2 & Fa2 & Fl2 & parr2 & pa2 & Fb2 & Fp2 & -> & A2 & T2' & _).
        apply (ag_compare_members k1 k2 g1 l1 (Some a1) arr la Fa Fl g2 l2 (Some a2) arr2 la2 Fa2 Fl2); try assumption.
        intros c a F c' a' F' ft I X Y. apply (W c (Some a1) a F c' (Some a2) a' F'); [|exact X|exact Y]. pose proof (height_member c l1 I). lia.
      + subst b2. apply ag_undef.
    - destruct B1 as (arr & la & Fa & Fl & parr & pa & Fb & Fp & -> & A & T & _).
      destruct c2 as [i2 s2 d2|i2 s2 g2 l2|i2 s2 g2 ps2 l2|i2 s2 v2]; cbn [body_at as_group] in *.
      + destruct B2 as (x & z & -> & _). apply ag_undef.
      + destruct B2 as (arr2 & la2 & Fa2 & Fl2 & -> & A2 & T2').
        apply (ag_compare_members k1 k2 g1 l1 (Some a1) arr la Fa Fl g2 l2 (Some a2) arr2 la2 Fa2 Fl2); try assumption.
        intros c a F c' a' F' ft I X Y. apply (W c (Some a1) a F c' (Some a2) a' F'); [|exact X|exact Y]. pose proof (height_member c l1 I). lia.
      + destruct B2 as (arr2 & la2 & Fa2 & Fl2 & parr2 & pa2 & Fb2 & Fp2 & -> & A2 & T2' & _).
        apply (ag_compare_members k1 k2 g1 l1 (Some a1) arr la Fa Fl g2 l2 (Some a2) arr2 la2 Fa2 Fl2); try assumption.
        intros c a F c' a' F' ft I X Y. apply (W c (Some a1) a F c' (Some a2) a' F'); [|exact X|exact Y]. pose proof (height_member c l1 I). lia.
      + subst b2. apply ag_undef.
  Qed.

  Lemma ag_compare_props : forall (k1 : chunk -> chunk -> Z -> outcome bool) (k2 : addr -> addr -> Z -> H bool) n l1 p1 p2,
    (forall c, In c l1 -> (height c < n)%nat) ->
    (forall c p a F c' p' a' F' ft, (height c < n)%nat -> tree_at h c p a F -> tree_at h c' p' a' F' -> agrees e h (lift (k1 c c' ft)) (k2 a a' ft)) ->
    forall la1 F1 l2 la2 F2, trees_at (tree_at h) l1 p1 la1 F1 -> trees_at (tree_at h) l2 p2 la2 F2 ->
    agrees e h (lift (compare_props k1 l1 l2)) (hcompare_props k2 la1 la2).
  Proof.
    intros k1 k2 n l1 p1 p2 LT W. induction l1 as [|c1 l1 IH]; intros la1 F1 l2 la2 F2 T1 T2; destruct la1 as [|a1 la1]; cbn [trees_at] in T1; try contradiction.
    - apply ag_done.
    - destruct l2 as [|c2 l2]; destruct la2 as [|a2 la2]; cbn [trees_at] in T2; try contradiction; [apply ag_done|].
      destruct T1 as (G1 & G2 & T1 & T1' & _). destruct T2 as (K1 & K2 & T2 & T2' & _). cbn [compare_props hcompare_props].
      apply ag_bindo.
      + apply (ag_compareGroup k1 k2 c1 p1 a1 G1 c2 p2 a2 K1 T1 T2). intros c p a F c' p' a' F' ft X. apply W.
        pose proof (LT c1 ltac:(left; reflexivity)). lia.
      + intros []; [|apply ag_done]. apply (IH ltac:(intros c I; apply LT; right; exact I) la1 G2 l2 la2 K2 T1' T2').
  Qed.

  Lemma ag_compareList : forall (k1 : chunk -> chunk -> Z -> outcome bool) (k2 : addr -> addr -> Z -> H bool) c1 p1 a1 F1 c2 p2 a2 F2,
    tree_at h c1 p1 a1 F1 -> tree_at h c2 p2 a2 F2 ->
    (forall c p a F c' p' a' F' ft, (height c < height c1)%nat -> tree_at h c p a F -> tree_at h c' p' a' F' -> agrees e h (lift (k1 c c' ft)) (k2 a a' ft)) ->
    agrees e h (lift (IFF_compareList k1 c1 c2)) (hcompareList k2 a1 a2).
  Proof.
    intros k1 k2 c1 p1 a1 F1 c2 p2 a2 F2 T1 T2 W. destruct (tree_body _ _ _ _ T1) as (b1 & L1 & B1). destruct (tree_body _ _ _ _ T2) as (b2 & L2 & B2).
    unfold hcompareList. apply (ag_chunk _ _ _ _ _ _ _ _ L1). apply (ag_chunk _ _ _ _ _ _ _ _ L2).
    destruct c1 as [i1 s1 d1|i1 s1 g1 l1|i1 s1 g1 ps1 l1|i1 s1 v1]; cbn [body_at height IFF_compareList] in *.
    1:{ destruct B1 as (x & z & -> & _). apply ag_undef. }
    1:{ destruct B1 as (arr & la & Fa & Fl & -> & _). apply ag_undef. }
    2:{ subst b1. apply ag_undef. }
    destruct B1 as (arr & la & Fa & Fl & parr & pa & Fb & Fp & -> & A & T & B & Q).
    destruct c2 as [i2 s2 d2|i2 s2 g2 l2|i2 s2 g2 ps2 l2|i2 s2 v2]; cbn [body_at] in *.
    1:{ destruct B2 as (x & z & -> & _). apply ag_undef. }
    1:{ destruct B2 as (arr2 & la2 & Fa2 & Fl2 & -> & _). apply ag_undef. }
    2:{ subst b2. apply ag_undef. }
    destruct B2 as (arr2 & la2 & Fa2 & Fl2 & parr2 & pa2 & Fb2 & Fp2 & -> & A2 & T2' & B2 & Q2).
    apply ag_bindo.
    - rewrite (same_length _ _ _ _ ps1 ps2 pa pa2 (trees_length _ _ _ _ _ Q) (trees_length _ _ _ _ _ Q2)). destruct (_ =? _); [|apply ag_done].
      apply (ag_elements _ _ _ _ _ _ _ _ B). apply (ag_elements _ _ _ _ _ _ _ _ B2).
      apply (ag_compare_props k1 k2 _ ps1 (Some a1) (Some a2) ltac:(intros c I; pose proof (height_member c ps1 I) as HM; apply Nat.lt_succ_r; eapply Nat.le_trans; [exact HM|apply Nat.le_max_l || apply Nat.le_max_r]) W pa Fp ps2 pa2 Fp2 Q Q2).
    - intros []; [|apply ag_done].
      apply (ag_compare_members k1 k2 g1 l1 (Some a1) arr la Fa Fl g2 l2 (Some a2) arr2 la2 Fa2 Fl2); try assumption.
      intros c a F c' a' F' ft I X Y. apply (W c (Some a1) a F c' (Some a2) a' F'); [|exact X|exact Y]. pose proof (height_member c l1 I). lia.
  Qed.

  Theorem ag_compareChunk : forall rg fuel c1 p1 a1 F1 c2 p2 a2 F2 ft, (height c1 <= fuel)%nat -> tree_at h c1 p1 a1 F1 -> tree_at h c2 p2 a2 F2 ->
    agrees e h (lift (IFF_compareChunk e rg c1 c2 ft)) (hcompareChunk rg fuel a1 a2 ft).
  Proof.
    intro rg. induction fuel as [|fuel IH]; intros c1 p1 a1 F1 c2 p2 a2 F2 ft HT T1 T2; [destruct c1; cbn in HT; lia|].
    destruct (tree_header _ _ _ _ _ T1) as (b1 & L1). destruct (tree_header _ _ _ _ _ T2) as (b2 & L2).
    assert (U : IFF_compareChunk e rg c1 c2 ft = if (chunkId c1 =? chunkId c2) && (chunkSize c1 =? chunkSize c2) then
      k <-o find_handler rg ft (chunkId c1) ;; compareExtensionChunk (IFF_compareChunk e rg) e k c1 c2 else Done false) by (destruct c1; reflexivity).
    rewrite U. cbn [hcompareChunk]. apply (ag_chunk _ _ _ _ _ _ _ _ L1). apply (ag_chunk _ _ _ _ _ _ _ _ L2). cbn [o_id o_size].
    destruct (_ && _); [|apply ag_done].
    assert (W : forall c p a F c' p' a' F' ft, (height c < height c1)%nat -> tree_at h c p a F -> tree_at h c' p' a' F' -> agrees e h (lift (IFF_compareChunk e rg c c' ft)) (hcompareChunk rg fuel a a' ft))
      by (intros c p a F c' p' a' F' ft' LT X Y; apply (IH c p a F c' p' a' F'); [lia|exact X|exact Y]).
    apply ag_bindo; [apply ag_lift|]. intro k. destruct k as [| | | | |s]; cbn [compareExtensionChunk hcompareExtensionChunk];
      first [exact (ag_compareList _ _ _ _ _ _ _ _ _ _ T1 T2 W)|exact (ag_compareGroup _ _ _ _ _ _ _ _ _ _ T1 T2 W)|exact (ag_compareRaw _ _ _ _ _ _ _ _ T1 T2)|exact (ag_compareFields _ _ _ _ _ _ _ _ _ T1 T2)].
  Qed.
End Comparing.

(** ** The API *)

Lemma writeFd_at : forall rg e h c p a F, tree_at h c p a F -> NoDup F -> agrees e h (IFF_writeFd c rg) (hIFF_writeFd a rg).
Proof. intros rg e h c p a F T ND. intro w. unfold hIFF_writeFd, hbounded. apply (ag_writeChunk e h _ _ c p a F); [|exact T]. pose proof (tree_depth _ _ _ _ _ T ND). lia. Qed.

Lemma check_at : forall rg e h c p a F, tree_at h c p a F -> NoDup F -> agrees e h (IFF_check c rg) (hIFF_check a rg).
Proof.
  intros rg e h c p a F T ND. destruct (tree_header _ _ _ _ _ T) as (b & L). unfold IFF_check, hIFF_check. apply (ag_chunk _ _ _ _ _ _ _ _ L). cbn [o_id].
  destruct (_ && _); [apply ag_error_false|]. intro w. unfold hbounded. apply (ag_checkChunk e h _ _ c p a F); [|exact T]. pose proof (tree_depth _ _ _ _ _ T ND). lia.
Qed.

Lemma print_at : forall rg e h c p a F lv, tree_at h c p a F -> NoDup F -> agrees e h (lift (IFF_print c lv rg)) (hIFF_print a lv rg).
Proof. intros rg e h c p a F lv T ND w. unfold hIFF_print, hbounded. apply (ag_printChunk e h _ _ c p a F); [|exact T]. pose proof (tree_depth _ _ _ _ _ T ND). lia. Qed.

Lemma compare_at : forall rg e h c1 p1 a1 F1 c2 p2 a2 F2, tree_at h c1 p1 a1 F1 -> NoDup F1 -> tree_at h c2 p2 a2 F2 ->
  agrees e h (lift (IFF_compare e c1 c2 rg)) (hIFF_compare a1 a2 rg).
Proof.
  intros rg e h c1 p1 a1 F1 c2 p2 a2 F2 T1 ND T2 w. unfold hIFF_compare, hbounded. apply (ag_compareChunk e h _ _ c1 p1 a1 F1 c2 p2 a2 F2); [|exact T1|exact T2].
  pose proof (tree_depth _ _ _ _ _ T1 ND). lia.
Qed.
