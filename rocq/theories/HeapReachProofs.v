(** * Trees in memory, by following pointers; shared members *)

From Coq Require Import ZArith List Bool String Lia.
From Coq Require Import Strings.Byte.
From Verif Require Import Machine Io Types Build Read Iff Spec Lemmas IoProofs RegProofs WriteProofs SoundProofs Heap HeapSpec HeapProofs HeapBuildProofs HeapReadProofs.
Import ListNotations.
Open Scope Z_scope.

(** ** The blocks of a tree are those found by following pointers *)

Lemma Reaches_trans : forall h r s t, Reaches h r s -> Reaches h s t -> Reaches h r t.
Proof. intros h r s t R1 R2. induction R2 as [|g c R IH M]; [exact R1|]. exact (Reaches_member h r g c IH M). Qed.

Lemma elem_array : forall h arr la Fa c, array_at h arr la Fa -> elem h arr (List.length la) c <-> In c la.
Proof.
  intros h arr la Fa c A. split.
  - intros (d & l & k & E & L & LT & N). destruct A as [(-> & _)|(d' & -> & L' & _)]; [discriminate|]. injection E as ->. rewrite L in L'. injection L' as ->.
    exact (nth_error_In _ _ N).
  - intro I. destruct A as [(-> & -> & _)|(d & -> & L & _)]; [contradiction|]. apply In_nth_error in I. destruct I as [k N].
    exists d, la, k. split; [reflexivity|]. split; [exact L|]. split; [|exact N]. apply nth_error_Some. congruence.
Qed.

Lemma trees_in : forall one l p la F a, trees_at one l p la F -> In a la -> exists c F1, In c l /\ one c p a F1 /\ incl F1 F.
Proof.
  intros one. induction l as [|c l IH]; intros p la F a T I; destruct la as [|a' la]; cbn in T; try contradiction.
  destruct T as (F1 & F2 & T1 & T2 & ->). destruct I as [->|I].
  - exists c, F1. split; [left; reflexivity|]. split; [exact T1|]. apply incl_appl. apply incl_refl.
  - destruct (IH p la F2 a T2 I) as (c1 & G & I1 & O & IN). exists c1, G. split; [right; exact I1|]. split; [exact O|]. apply incl_appr. exact IN.
Qed.

Lemma trees_block : forall one l p la F x, trees_at one l p la F -> In x F -> exists c a F1, In c l /\ In a la /\ one c p a F1 /\ In x F1.
Proof.
  intros one. induction l as [|c l IH]; intros p la F x T I; destruct la as [|a' la]; cbn in T; try contradiction; [subst; contradiction|].
  destruct T as (F1 & F2 & T1 & T2 & ->). apply in_app_or in I. destruct I as [I|I].
  - exists c, a', F1. split; [left; reflexivity|]. split; [left; reflexivity|]. split; assumption.
  - destruct (IH p la F2 x T2 I) as (c1 & a & G & I1 & I2 & O & IN). exists c1, a, G. split; [right; exact I1|]. split; [right; exact I2|]. split; assumption.
Qed.

(** Members of the struct of a tree are the trees below it. *)
Lemma member_tree : forall h c p a F b, tree_at h c p a F -> has_member h a b ->
  exists c' F', tree_at h c' (Some a) b F' /\ incl F' F.
Proof.
  intros h c p a F b T (hd & bd & L & M). destruct c as [i s d|i s g l|i s g ps l|i s v]; cbn [tree_at] in T.
  - destruct T as (d' & size & L1 & _). rewrite L in L1. injection L1 as -> ->. contradiction.
  - destruct T as (arr & la & Fa & Fl & L1 & A & T & ->). rewrite L in L1. injection L1 as -> ->.
    apply (elem_array _ _ _ _ _ A) in M. destruct (trees_in _ _ _ _ _ _ T M) as (c' & F' & _ & T' & IN). exists c', F'. split; [exact T'|].
    intros x I. right. apply in_or_app. right. exact (IN x I).
  - destruct T as (arr & la & Fa & Fl & parr & pa & Fb & Fp & L1 & A & T & B & Q & ->). rewrite L in L1. injection L1 as -> ->.
    destruct M as [M|M].
    + apply (elem_array _ _ _ _ _ A) in M. destruct (trees_in _ _ _ _ _ _ T M) as (c' & F' & _ & T' & IN). exists c', F'. split; [exact T'|].
      intros x I. right. rewrite !in_app_iff. left. right. exact (IN x I).
    + apply (elem_array _ _ _ _ _ B) in M. destruct (trees_in _ _ _ _ _ _ Q M) as (c' & F' & _ & T' & IN). exists c', F'. split; [exact T'|].
      intros x I. right. rewrite !in_app_iff. right. right. exact (IN x I).
  - destruct T as [L1 ->]. rewrite L in L1. injection L1 as -> ->. contradiction.
Qed.

Lemma reach_tree : forall h c p a F x, tree_at h c p a F -> Reaches h a x ->
  exists c' p' F', tree_at h c' p' x F' /\ incl F' F.
Proof.
  intros h c p a F x T R. induction R as [|g b R IH M]; [exists c, p, F; split; [exact T|apply incl_refl]|].
  destruct IH as (c1 & p1 & F1 & T1 & I1). destruct (member_tree _ _ _ _ _ _ T1 M) as (c2 & F2 & T2 & I2).
  exists c2, (Some g), F2. split; [exact T2|]. exact (incl_tran I2 I1).
Qed.

Lemma block_tree : forall h c p a F x, tree_at h c p a F -> has_block h a x -> In x F.
Proof.
  intros h c p a F x T (hd & bd & L & M). destruct c as [i s d|i s g l|i s g ps l|i s v]; cbn [tree_at] in T.
  - destruct T as (d' & size & L1 & _ & _ & ->). rewrite L in L1. injection L1 as -> ->. injection M as ->. right. left. reflexivity.
  - destruct T as (arr & la & Fa & Fl & L1 & A & T & ->). rewrite L in L1. injection L1 as -> ->. subst arr.
    destruct A as [(X & _)|(d & X & _ & ->)]; [discriminate|]. injection X as ->. right. left. reflexivity.
  - destruct T as (arr & la & Fa & Fl & parr & pa & Fb & Fp & L1 & A & T & B & Q & ->). rewrite L in L1. injection L1 as -> ->.
    destruct M as [-> | ->].
    + destruct A as [(X & _)|(d & X & _ & ->)]; [discriminate|]. injection X as ->. right. rewrite !in_app_iff. left. left. left. reflexivity.
    + destruct B as [(X & _)|(d & X & _ & ->)]; [discriminate|]. injection X as ->. right. rewrite !in_app_iff. right. left. left. reflexivity.
  - destruct T as [L1 ->]. rewrite L in L1. injection L1 as -> ->. contradiction.
Qed.

Lemma Owns_member : forall h a b x, has_member h a b -> Owns h b x -> Owns h a x.
Proof.
  intros h a b x M (s & R & O). exists s. split; [|exact O]. apply (Reaches_trans h a b s); [|exact R].
  apply (Reaches_member h a a b); [constructor|exact M].
Qed.

Lemma tree_owned : forall h c p a F x, tree_at h c p a F -> In x F -> Owns h a x.
Proof.
  intro h. induction c as [i s d|i s g subs IH|i s g props subs IHp IHs|i s v] using chunk_tree_ind; intros p a F x T I; cbn [tree_at] in T.
  - destruct T as (b & size & L1 & L2 & D & ->). exists a. split; [constructor|]. destruct I as [<-|[<-|[]]]; [left; reflexivity|].
    right. eexists _, _. split; [exact L1|reflexivity].
  - destruct T as (arr & la & Fa & Fl & L & A & T & ->). destruct I as [<-|I]; [exists a; split; [constructor|left; reflexivity]|].
    apply in_app_or in I. destruct I as [I|I].
    + destruct A as [(_ & _ & ->)|(d & -> & _ & ->)]; [contradiction|]. destruct I as [<-|[]]. exists a. split; [constructor|]. right.
      eexists _, _. split; [exact L|reflexivity].
    + destruct (trees_block _ _ _ _ _ _ T I) as (c & b & F1 & I1 & I2 & T1 & I3). apply (Owns_member h a b).
      * eexists _, _. split; [exact L|]. apply (elem_array _ _ _ _ _ A). exact I2.
      * exact (IH c I1 (Some a) b F1 x T1 I3).
  - destruct T as (arr & la & Fa & Fl & parr & pa & Fb & Fp & L & A & T & B & Q & ->).
    destruct I as [<-|I]; [exists a; split; [constructor|left; reflexivity]|]. rewrite !in_app_iff in I. destruct I as [[I|I]|[I|I]].
    + destruct A as [(_ & _ & ->)|(d & -> & _ & ->)]; [contradiction|]. destruct I as [<-|[]]. exists a. split; [constructor|]. right.
      eexists _, _. split; [exact L|left; reflexivity].
    + destruct (trees_block _ _ _ _ _ _ T I) as (c & b & F1 & I1 & I2 & T1 & I3). apply (Owns_member h a b).
      * eexists _, _. split; [exact L|]. left. apply (elem_array _ _ _ _ _ A). exact I2.
      * exact (IHs c I1 (Some a) b F1 x T1 I3).
    + destruct B as [(_ & _ & ->)|(d & -> & _ & ->)]; [contradiction|]. destruct I as [<-|[]]. exists a. split; [constructor|]. right.
      eexists _, _. split; [exact L|right; reflexivity].
    + destruct (trees_block _ _ _ _ _ _ Q I) as (c & b & F1 & I1 & I2 & T1 & I3). apply (Owns_member h a b).
      * eexists _, _. split; [exact L|]. right. apply (elem_array _ _ _ _ _ B). exact I2.
      * exact (IHp c I1 (Some a) b F1 x T1 I3).
  - destruct T as [L ->]. destruct I as [<-|[]]. exists a. split; [constructor|left; reflexivity].
Qed.

Theorem tree_blocks : forall h c p a F, tree_at h c p a F -> forall x, In x F <-> Owns h a x.
Proof.
  intros h c p a F T x. split; [exact (tree_owned h c p a F x T)|]. intros (s & R & O).
  destruct (reach_tree h c p a F s T R) as (c' & p' & F' & T' & IN). apply IN. destruct O as [->|B].
  - destruct (tree_root _ _ _ _ _ T') as (F1 & ->). left. reflexivity.
  - exact (block_tree _ _ _ _ _ _ T' B).
Qed.

(** Parent pointers of a tree *)
Lemma tree_parents : forall h c p a F, tree_at h c p a F ->
  parent_is h a p /\ forall g b, Reaches h a g -> has_member h g b -> parent_is h b (Some g).
Proof.
  intros h c p a F T. assert (X : forall c p a F, tree_at h c p a F -> parent_is h a p).
  { intros c1 p1 a1 F1 T1. destruct (tree_header _ _ _ _ _ T1) as (b & L). eexists _, _. split; [exact L|reflexivity]. }
  split; [exact (X c p a F T)|]. intros g b R M. destruct (reach_tree h c p a F g T R) as (c1 & p1 & F1 & T1 & _).
  destruct (member_tree _ _ _ _ _ _ T1 M) as (c2 & F2 & T2 & _). exact (X _ _ _ _ T2).
Qed.

(** ** Freeing only releases *)

Definition only_releases {A} (m : H A) : Prop := forall e w h r w' h', m e w h = Done (r, w', h') ->
  forall x, lookup h' x = lookup h x \/ lookup h' x = None.

Lemma or_ret : forall A (a : A), only_releases (hret a).
Proof. intros A a e w h r w' h' E x. unfold hret in E. injection E as <- <- <-. left. reflexivity. Qed.
Lemma or_bind : forall A B (m : H A) (k : A -> H B), only_releases m -> (forall a, only_releases (k a)) -> only_releases (hbind m k).
Proof.
  intros A B m k M K e w h r w' h' E x. rewrite hbind_eq in E. destruct (m e w h) as [[[a w1] h1]|u|] eqn:E1; try discriminate.
  destruct (K a e w1 h1 r w' h' E x) as [X|X]; [|right; exact X]. rewrite X. exact (M e w h a w1 h1 E1 x).
Qed.
Lemma or_undefined : forall A u, only_releases (@hundefined A u).
Proof. intros A u e w h r w' h' E. discriminate. Qed.
Lemma or_nofuel : forall A, only_releases (@hnofuel A).
Proof. intros A e w h r w' h' E. discriminate. Qed.
Lemma or_io : forall A (m : M A), only_releases (io m).
Proof. intros A m e w h r w' h' E x. unfold io in E. destruct (m e w) as [[a w1]|u|]; try discriminate. injection E as <- <- <-. left. reflexivity. Qed.
Lemma or_load : forall a, only_releases (hload a).
Proof. intros a e w h r w' h' E x. unfold hload in E. destruct (lookup h a); [|discriminate]. injection E as <- <- <-. left. reflexivity. Qed.
Lemma or_chunk : forall a, only_releases (hchunk a).
Proof. intro a. apply or_bind; [apply or_load|]. intros []; [apply or_ret|apply or_undefined|apply or_undefined]. Qed.
Lemma or_array : forall p, only_releases (harray p).
Proof. intros [a|]; [|apply or_ret]. apply or_bind; [apply or_load|]. intros []; [apply or_undefined|apply or_undefined|apply or_ret]. Qed.
Lemma or_elements : forall p n, only_releases (helements p n).
Proof.
  intros p n. unfold helements. destruct n; [apply or_ret|]. destruct p; [|apply or_undefined]. apply or_bind; [apply or_array|].
  intro l. destruct (Nat.leb _ _); [apply or_ret|apply or_undefined].
Qed.
Lemma or_free : forall p, only_releases (hfree p).
Proof.
  intros [a|]; [|apply or_ret]. intros e w h r w' h' E x. unfold hfree in E. destruct (lookup h a); [|discriminate]. injection E as <- <- <-.
  rewrite lookup_release. destruct (Nat.eqb x a); auto.
Qed.

Lemma or_free_all : forall f l ft, (forall a ft, only_releases (f a ft)) -> only_releases (hfree_all f l ft).
Proof.
  intros f l ft F. induction l as [|c l IH]; cbn [hfree_all]; [apply or_ret|]. apply or_bind; [apply F|]. intros _. exact IH.
Qed.

Lemma or_group : forall f a, (forall a ft, only_releases (f a ft)) -> only_releases (hfreeGroup f a).
Proof.
  intros f a F. unfold hfreeGroup. apply or_bind; [apply or_chunk|]. intros [hd b].
  destruct b as [d|g n arr|g n arr pn parr|v]; try apply or_undefined; (apply or_bind; [apply or_elements|]; intro l; apply or_bind; [apply or_free_all; exact F|]; intros _; apply or_free).
Qed.

Lemma or_extension : forall f k a, (forall a ft, only_releases (f a ft)) -> only_releases (hfreeExtensionChunk f k a).
Proof.
  intros f k a F. destruct k as [| | | | |sp]; cbn [hfreeExtensionChunk]; try (apply or_group; exact F); try apply or_ret.
  - unfold hfreeList. apply or_bind; [apply or_group; exact F|]. intros _. apply or_bind; [apply or_chunk|]. intros [hd b].
    destruct b as [d|g n arr|g n arr pn parr|v]; try apply or_undefined. apply or_bind; [apply or_elements|]. intro l. apply or_bind; [apply or_free_all; exact F|]. intros _. apply or_free.
  - unfold hfreeRawChunk. apply or_bind; [apply or_chunk|]. intros [hd b]. destruct b as [d|g n arr|g n arr pn parr|v]; try apply or_undefined. apply or_free.
Qed.

Lemma or_chunk_free : forall rg fuel a ft, only_releases (hfreeChunk rg fuel a ft).
Proof.
  intro rg. induction fuel as [|fuel IH]; intros a ft; cbn [hfreeChunk]; [apply or_nofuel|]. apply or_bind; [apply or_chunk|]. intros [hd b].
  apply or_bind; [apply or_io|]. intro k. apply or_bind; [apply or_extension; exact IH|]. intros _. apply or_free.
Qed.

(** Once freed, a block stays free. *)
Lemma or_none : forall A (m : H A), only_releases m -> forall e w h r w' h' x, m e w h = Done (r, w', h') -> lookup h x = None -> lookup h' x = None.
Proof. intros A m M e w h r w' h' x E N. destruct (M e w h r w' h' E x) as [X|X]; congruence. Qed.
Lemma or_some : forall A (m : H A), only_releases m -> forall e w h r w' h' x o, m e w h = Done (r, w', h') -> lookup h' x = Some o -> lookup h x = Some o.
Proof. intros A m M e w h r w' h' x o E N. destruct (M e w h r w' h' E x) as [X|X]; congruence. Qed.

Lemma hchunk_inv : forall a e w h hd b w' h', hchunk a e w h = Done ((hd, b), w', h') -> lookup h a = Some (OChunk hd b) /\ w' = w /\ h' = h.
Proof.
  intros a e w h hd b w' h' E. unfold hchunk in E. rewrite hbind_eq in E. unfold hload in E. destruct (lookup h a) as [[hd' b'|z d|l]|]; try discriminate.
  unfold hret in E. injection E as -> -> -> ->. auto.
Qed.

Lemma hfree_inv : forall a e w h r w' h', hfree (Some a) e w h = Done (r, w', h') -> lookup h a <> None /\ lookup h' a = None.
Proof.
  intros a e w h r w' h' E. unfold hfree in E. destruct (lookup h a) eqn:L; [|discriminate]. injection E as <- <- <-.
  split; [discriminate|]. rewrite lookup_release, Nat.eqb_refl. reflexivity.
Qed.

Lemma free_self : forall rg fuel a ft e w h r w' h', hfreeChunk rg fuel a ft e w h = Done (r, w', h') -> lookup h a <> None /\ lookup h' a = None.
Proof.
  intros rg fuel a ft e w h r w' h' E. destruct fuel as [|fuel]; [discriminate|]. cbn [hfreeChunk] in E.
  rewrite hbind_eq in E. destruct (hchunk a e w h) as [[[[hd b] w1] h1]|u|] eqn:E1; try discriminate. apply hchunk_inv in E1. destruct E1 as (L & -> & ->).
  split; [congruence|].
  rewrite hbind_eq in E. destruct (hlift (find_handler rg ft (o_id hd)) e w h) as [[[k w1] h1]|u|]; try discriminate.
  rewrite hbind_eq in E. destruct (hfreeExtensionChunk (hfreeChunk rg fuel) k a e w1 h1) as [[[r2 w2] h2]|u|]; try discriminate.
  apply hfree_inv in E. apply E.
Qed.

Lemma free_all_gone : forall rg fuel l ft e w h r w' h', hfree_all (hfreeChunk rg fuel) l ft e w h = Done (r, w', h') ->
  NoDup l /\ forall c, In c l -> lookup h c <> None /\ lookup h' c = None.
Proof.
  intros rg fuel l ft. induction l as [|c l IH]; intros e w h r w' h' E; cbn [hfree_all] in E.
  - split; [constructor|]. intros c [].
  - rewrite hbind_eq in E. destruct (hfreeChunk rg fuel c ft e w h) as [[[r1 w1] h1]|u|] eqn:E1; try discriminate.
    destruct (free_self _ _ _ _ _ _ _ _ _ _ E1) as [L N]. destruct (IH e w1 h1 r w' h' E) as [ND G].
    assert (OR : only_releases (hfree_all (hfreeChunk rg fuel) l ft)) by (apply or_free_all; intros; apply or_chunk_free).
    split.
    + constructor; [|exact ND]. intro I. destruct (G c I) as [X _]. congruence.
    + intros x [<-|I]; [split; [exact L|]; exact (or_none _ _ OR _ _ _ _ _ _ _ E N)|]. destruct (G x I) as [X Y]. split; [|exact Y].
      intro Z. apply X. exact (or_none _ _ (or_chunk_free rg fuel c ft) _ _ _ _ _ _ _ E1 Z).
Qed.

(** The struct at [a] is of the kind its ID says, and refers to the array [arr]
    of [n] members. *)
Definition group_array (h : heap) (a : addr) (n : nat) (arr : ptr) : Prop :=
  exists hd b, lookup h a = Some (OChunk hd b) /\
    match b with
    | BGroup _ m p => In (o_id hd) [FORM_ID; CAT_ID; PROP_ID] /\ n = m /\ arr = p
    | BList _ m p pm pp => o_id hd = LIST_ID /\ ((n = m /\ arr = p) \/ (n = pm /\ arr = pp))
    | _ => False
    end.

Lemma helements_inv : forall p n e w h l w' h', helements p n e w h = Done (l, w', h') -> w' = w /\ h' = h /\
  (n = O \/ exists d l0, p = Some d /\ lookup h d = Some (OArray l0) /\ (n <= List.length l0)%nat /\ l = firstn n l0).
Proof.
  intros p n e w h l w' h' E. unfold helements in E. destruct n as [|n]; [unfold hret in E; injection E as <- <- <-; auto|].
  destruct p as [d|]; [|discriminate]. rewrite hbind_eq in E. unfold harray in E. rewrite hbind_eq in E. unfold hload in E.
  destruct (lookup h d) as [[hd b|z x|l0]|] eqn:L; try discriminate. unfold hret in E.
  destruct (Nat.leb_spec (S n) (List.length l0)) as [LE|GT]; [|discriminate]. injection E as <- <- <-.
  split; [reflexivity|]. split; [reflexivity|]. right. exists d, l0. auto.
Qed.

Lemma free_needs : forall rg app fuel a ft e w h r w' h' n arr, Realises rg app ->
  hfreeChunk rg fuel a ft e w h = Done (r, w', h') -> group_array h a n arr ->
  n = O \/ exists d l, arr = Some d /\ lookup h d = Some (OArray l) /\ (n <= List.length l)%nat /\
    NoDup (firstn n l) /\ forall c, In c (firstn n l) -> lookup h c <> None /\ lookup h' c = None.
Proof.
  intros rg app fuel a ft e w h r w' h' n arr RG E (hd & b & L & K). destruct fuel as [|fuel]; [discriminate|]. cbn [hfreeChunk] in E.
  rewrite (hbind_done _ _ _ _ _ _ _ _ _ _ (hchunk_at _ _ _ _ _ _ L)) in E. unfold hlift in E. rewrite hbind_io in E. unfold lift in E. rewrite RG in E.
  rewrite hbind_eq in E. destruct (hfreeExtensionChunk (hfreeChunk rg fuel) (expected_handler app ft (o_id hd)) a e w h) as [[[r1 w1] h1]|u|] eqn:EX; try discriminate.
  assert (ORF : only_releases (hfree (Some a))) by apply or_free.
  assert (ORA : forall l g, only_releases (hfree_all (hfreeChunk rg fuel) l g)) by (intros; apply or_free_all; intros; apply or_chunk_free).
  assert (GRP : forall g m p hh w0 hh' r0 w0', (l <-h helements p m ;; hfree_all (hfreeChunk rg fuel) l g ;;h hfree p) e w0 hh = Done (r0, w0', hh') ->
    m = O \/ exists d l, p = Some d /\ lookup hh d = Some (OArray l) /\ (m <= List.length l)%nat /\
    NoDup (firstn m l) /\ forall c, In c (firstn m l) -> lookup hh c <> None /\ lookup hh' c = None).
  { intros g m p hh w0 hh' r0 w0' Q. rewrite hbind_eq in Q. destruct (helements p m e w0 hh) as [[[l w2] h2]|u|] eqn:E1; try discriminate.
    apply helements_inv in E1. destruct E1 as (-> & -> & [->|(d & l0 & -> & L0 & LE & ->)]); [left; reflexivity|]. right. exists d, l0.
    split; [reflexivity|]. split; [exact L0|]. split; [exact LE|].
    rewrite hbind_eq in Q. destruct (hfree_all (hfreeChunk rg fuel) (firstn m l0) g e w0 hh) as [[[r2 w2] h2]|u|] eqn:E2; try discriminate.
    destruct (free_all_gone _ _ _ _ _ _ _ _ _ _ E2) as [ND G]. split; [exact ND|]. intros c I. destruct (G c I) as [X Y]. split; [exact X|].
    exact (or_none _ _ (or_free (Some d)) _ _ _ _ _ _ _ Q Y). }
  assert (LATER : forall m p (hh : heap), (m = O \/ exists d l, p = Some d /\ lookup hh d = Some (OArray l) /\ (m <= List.length l)%nat /\
    NoDup (firstn m l) /\ forall c, In c (firstn m l) -> lookup hh c <> None /\ lookup h1 c = None) ->
    (forall x o, lookup hh x = Some o -> lookup h x = Some o) ->
    m = O \/ exists d l, p = Some d /\ lookup h d = Some (OArray l) /\ (m <= List.length l)%nat /\
    NoDup (firstn m l) /\ forall c, In c (firstn m l) -> lookup h c <> None /\ lookup h' c = None).
  { intros m p hh [->|(d & l & -> & Ld & LE & ND & G)] SM; [left; reflexivity|]. right. exists d, l. split; [reflexivity|]. split; [exact (SM _ _ Ld)|].
    split; [exact LE|]. split; [exact ND|]. intros c I. destruct (G c I) as [X Y]. split.
    - destruct (lookup hh c) as [o|] eqn:Lc; [|congruence]. rewrite (SM _ _ Lc). discriminate.
    - exact (or_none _ _ ORF _ _ _ _ _ _ _ E Y). }
  destruct b as [d|g m p|g m p pm pp|v]; try contradiction.
  - destruct K as (HI & -> & ->). destruct (WriteProofs.group_handler app ft (o_id hd) HI) as (k & EK & HK). rewrite EK in EX.
    assert (X : hfreeExtensionChunk (hfreeChunk rg fuel) k a = hfreeGroup (hfreeChunk rg fuel) a) by (destruct HK as [<-|[<-|[<-|[]]]]; reflexivity).
    rewrite X in EX. unfold hfreeGroup in EX. rewrite (hbind_done _ _ _ _ _ _ _ _ _ _ (hchunk_at _ _ _ _ _ _ L)) in EX.
    apply (LATER m p h); [exact (GRP _ _ _ _ _ _ _ _ EX)|auto].
  - destruct K as (HI & K). rewrite HI, handler_LIST in EX. cbn [hfreeExtensionChunk] in EX. unfold hfreeList in EX. rewrite hbind_eq in EX.
    destruct (hfreeGroup (hfreeChunk rg fuel) a e w h) as [[[r2 w2] h2]|u|] eqn:EG; try discriminate.
    assert (ORG : only_releases (hfreeGroup (hfreeChunk rg fuel) a)) by (apply or_group; intros; apply or_chunk_free).
    assert (REST : only_releases ('(_, b) <-h hchunk a;; match b with BList g _ _ pn parr => l <-h helements parr pn ;; hfree_all (hfreeChunk rg fuel) l g ;;h hfree parr | _ => hundefined UB_type_confusion end)).
    { apply or_bind; [apply or_chunk|]. intros [hd' b']. destruct b' as [d|g' n' arr'|g' n' arr' pn' parr'|v]; try apply or_undefined.
      apply or_bind; [apply or_elements|]. intro l. apply or_bind; [apply ORA|]. intros _. apply or_free. }
    destruct K as [(-> & ->)|(-> & ->)].
    + pose proof EG as EG2. unfold hfreeGroup in EG2. rewrite (hbind_done _ _ _ _ _ _ _ _ _ _ (hchunk_at _ _ _ _ _ _ L)) in EG2. apply GRP in EG2.
      apply (LATER m p h); [|auto]. destruct EG2 as [X|(d & l & -> & Ld & LE & ND & G)]; [left; exact X|]. right. exists d, l.
      split; [reflexivity|]. split; [exact Ld|]. split; [exact LE|]. split; [exact ND|]. intros c I. destruct (G c I) as [X Y]. split; [exact X|].
      exact (or_none _ _ REST _ _ _ _ _ _ _ EX Y).
    + rewrite hbind_eq in EX. destruct (hchunk a e w2 h2) as [[[[hd2 b2] w3] h3]|u|] eqn:E3; try discriminate. apply hchunk_inv in E3. destruct E3 as (L2 & -> & ->).
      pose proof (or_some _ _ ORG _ _ _ _ _ _ _ _ EG L2) as L3. rewrite L in L3. injection L3 as <- <-.
      apply (LATER pm pp h2); [exact (GRP _ _ _ _ _ _ _ _ EX)|]. intros x o X. exact (or_some _ _ ORG _ _ _ _ _ _ _ _ EG X).
Qed.

(** ** Shared members *)

Lemma nth_error_firstn : forall A n k (l : list A), (k < n)%nat -> nth_error (firstn n l) k = nth_error l k.
Proof.
  intros A n. induction n as [|n IH]; intros k l LT; [lia|]. destruct l as [|x l]; [destruct k; reflexivity|]. destruct k as [|k]; [reflexivity|].
  cbn. apply IH. lia.
Qed.

Lemma member_array : forall h a c, is_group h a -> has_member h a c ->
  exists n arr, group_array h a n arr /\ elem h arr n c.
Proof.
  intros h a c (hd & b & L & K) (hd' & b' & L' & M). rewrite L in L'. injection L' as <- <-.
  destruct b as [d|g m p|g m p pm pp|v]; try contradiction.
  - exists m, p. split; [|exact M]. eexists _, _. split; [exact L|]. split; [|auto]. destruct K as [-> | [-> | ->]]; cbn; auto.
  - destruct M as [M|M]; [exists m, p|exists pm, pp]; (split; [|exact M]); eexists _, _; (split; [exact L|]); (split; [exact K|auto]).
Qed.

Lemma free_member : forall rg app fuel a ft e w h r w' h' n arr c, Realises rg app ->
  hfreeChunk rg fuel a ft e w h = Done (r, w', h') -> group_array h a n arr -> elem h arr n c ->
  lookup h c <> None /\ lookup h' c = None.
Proof.
  intros rg app fuel a ft e w h r w' h' n arr c RG E GA (d & l & k & -> & L & LT & N).
  destruct (free_needs _ _ _ _ _ _ _ _ _ _ _ _ _ RG E GA) as [->|(d' & l' & X & L' & LE & ND & G)]; [lia|].
  injection X as <-. rewrite L in L'. injection L' as <-. apply G. apply (nth_error_In _ k). rewrite nth_error_firstn by exact LT. exact N.
Qed.

Lemma shared_free : forall rg app a1 a2 c f1 f2 ft1 ft2 e w h r w1 h1 e2 w2, Realises rg app -> is_group h a2 ->
  is_group h a1 -> has_member h a1 c -> has_member h a2 c ->
  hfreeChunk rg f1 a1 ft1 e w h = Done (r, w1, h1) -> forall out, hfreeChunk rg f2 a2 ft2 e2 w2 h1 <> Done out.
Proof.
  intros rg app a1 a2 c f1 f2 ft1 ft2 e w h r w1 h1 e2 w2 RG G2 G1 M1 M2 E [[r2 w3] h2] E2.
  destruct (member_array _ _ _ G1 M1) as (n1 & p1 & GA1 & EL1). destruct (free_member _ _ _ _ _ _ _ _ _ _ _ _ _ _ RG E GA1 EL1) as [_ N].
  destruct (member_array _ _ _ G2 M2) as (n2 & p2 & (hd & b & L & K) & (d & l & k & -> & Ld & LT & NT)).
  destruct (free_self _ _ _ _ _ _ _ _ _ _ E2) as [LV _].
  assert (OR : only_releases (hfreeChunk rg f1 a1 ft1)) by apply or_chunk_free.
  assert (L1 : lookup h1 a2 = Some (OChunk hd b)) by (destruct (OR _ _ _ _ _ _ E a2) as [X|X]; congruence).
  assert (GA : group_array h1 a2 n2 (Some d)) by (exists hd, b; split; assumption).
  destruct (free_needs _ _ _ _ _ _ _ _ _ _ _ _ _ RG E2 GA) as [->|(d' & l' & X & L' & LE & ND & G)]; [lia|]. injection X as <-.
  pose proof (or_some _ _ OR _ _ _ _ _ _ _ _ E L') as L0. rewrite Ld in L0. injection L0 as <-.
  destruct (G c) as [X _]; [apply (nth_error_In _ k); rewrite nth_error_firstn by exact LT; exact NT|]. congruence.
Qed.

Lemma NoDup_nth : forall A (l : list A) i j x, NoDup l -> nth_error l i = Some x -> nth_error l j = Some x -> i = j.
Proof.
  intros A l i j x ND I J. apply (proj1 (NoDup_nth_error l) ND); [apply nth_error_Some; congruence|congruence].
Qed.

(** ** What attaching does in any heap *)

Lemma attach_inv : forall a c e w h r w' h', hattachToGroup a c e w h = Done (r, w', h') -> c <> a ->
  has_member h' a c /\
  (is_group h a -> is_group h' a) /\
  (exists hc bc, lookup h c = Some (OChunk hc bc) /\ lookup h' c = Some (OChunk (set_parent hc (Some a)) bc)) /\
  (forall x, x <> a -> x <> c -> lookup h x <> None -> ~ has_block h a x -> lookup h' x = lookup h x).
Proof.
  intros a c e w h r w' h' E NE. unfold hattachToGroup in E. rewrite hbind_eq in E.
  destruct (hchunk a e w h) as [[[[hd b] w1] h1]|u|] eqn:E1; try discriminate. apply hchunk_inv in E1. destruct E1 as (L & -> & ->).
  assert (STEP : forall n arr (f : ptr -> body), (arr' <-h hpush arr n c ;; hstore a (OChunk hd (f arr')) ;;h hset_parent c (Some a)) e w h = Done (r, w', h') ->
    exists l q, lookup h' a = Some (OChunk hd (f (Some q))) /\ lookup h' q = Some (OArray (firstn n l ++ [c])) /\
      (exists hc bc, lookup h c = Some (OChunk hc bc) /\ lookup h' c = Some (OChunk (set_parent hc (Some a)) bc)) /\
      (forall x, x <> a -> x <> c -> lookup h x <> None -> Some x <> arr -> lookup h' x = lookup h x)).
  { intros n arr f Q. rewrite hbind_eq in Q. destruct (hpush arr n c e w h) as [[[arr' w2] h2]|u|] eqn:EP; try discriminate.
    assert (P : exists l q, arr' = Some q /\ (lookup h q = None \/ Some q = arr /\ forall hq bq, lookup h q <> Some (OChunk hq bq)) /\ lookup h2 q = Some (OArray (firstn n l ++ [c])) /\
                  (forall x, x <> q -> lookup h2 x = if (match arr with Some d => Nat.eqb x d | None => false end) then None else lookup h x)).
    { unfold hpush in EP. rewrite hbind_eq in EP. destruct (harray arr e w h) as [[[l w3] h3]|u|] eqn:EA; try discriminate.
      assert (X : (w3 = w /\ h3 = h) /\ forall d, arr = Some d -> forall hq bq, lookup h d <> Some (OChunk hq bq)).
      { unfold harray in EA. destruct arr as [d|]; [|unfold hret in EA; injection EA as <- <- <-; split; [auto|discriminate]]. rewrite hbind_eq in EA. unfold hload in EA.
        destruct (lookup h d) as [[? ?|? ?|?]|] eqn:LDD; try discriminate. unfold hret in EA. injection EA as <- <- <-. split; [auto|]. intros d' [= <-]. congruence. }
      destruct X as [[-> ->] NCH]. rewrite hbind_io in EP. destruct (malloc _ e w) as [[[] w4]|u|]; try discriminate.
      rewrite hbind_eq in EP. destruct arr as [d|].
      - unfold hfree in EP. destruct (lookup h d) eqn:Ld; [|discriminate]. injection EP as <- <- <-. eexists l, _.
        split; [reflexivity|]. split.
        { pose proof (address_free e w4 (release h d)) as AF. rewrite lookup_release in AF. destruct (Nat.eqb_spec (address e w4 (release h d)) d) as [->|_]; [right; split; [reflexivity|exact (NCH d eq_refl)]|left; exact AF]. }
        split; [rewrite lookup_new, Nat.eqb_refl; reflexivity|].
        intros x NX. rewrite lookup_new, (proj2 (Nat.eqb_neq _ _)) by auto. rewrite lookup_release. destruct (Nat.eqb x d); reflexivity.
      - unfold hfree, hret in EP. injection EP as <- <- <-. eexists l, _. split; [reflexivity|]. split; [left; apply address_free|]. split; [rewrite lookup_new, Nat.eqb_refl; reflexivity|].
        intros x NX. rewrite lookup_new, (proj2 (Nat.eqb_neq _ _)) by auto. reflexivity. }
    destruct P as (l & q & -> & FR & LN & LK). exists l, q.
    assert (NA : a <> q) by (intros ->; destruct FR as [FR|[_ FR]]; [congruence|exact (FR _ _ L)]).
    assert (NK : forall x, lookup h x <> None -> Some x <> arr -> x <> q) by (intros x X1 X2 ->; destruct FR as [FR|[FR _]]; congruence).
    rewrite hbind_eq in Q. unfold hstore at 1 in Q. destruct (lookup h2 a) as [oa|] eqn:LA; [|discriminate].
    unfold hset_parent in Q. rewrite hbind_eq in Q.
    destruct (hchunk c e w2 (store h2 a (OChunk hd (f (Some q))))) as [[[[hc bc] w3] h3]|u|] eqn:EC; try discriminate.
    apply hchunk_inv in EC. destruct EC as (LC & -> & ->). rewrite lookup_store in LC by congruence. rewrite (proj2 (Nat.eqb_neq c a)) in LC by auto.
    assert (NC : c <> q) by (intros ->; congruence).
    set (h3 := store h2 a (OChunk hd (f (Some q)))) in *.
    assert (LC3 : lookup h3 c = Some (OChunk hc bc)) by (unfold h3; rewrite lookup_store by congruence; rewrite (proj2 (Nat.eqb_neq c a)) by auto; exact LC).
    rewrite hstore_at in Q by congruence. injection Q as <- <- <-.
    split; [rewrite lookup_store by congruence; rewrite (proj2 (Nat.eqb_neq a c)) by auto; unfold h3; rewrite lookup_store by congruence; rewrite Nat.eqb_refl; reflexivity|].
    split; [rewrite lookup_store by congruence; rewrite (proj2 (Nat.eqb_neq _ c)) by auto; unfold h3; rewrite lookup_store by congruence; rewrite (proj2 (Nat.eqb_neq _ a)) by auto; exact LN|].
    split.
    - exists hc, bc. split; [|rewrite lookup_store by congruence; rewrite Nat.eqb_refl; reflexivity].
      rewrite LK in LC by exact NC. destruct arr as [d|]; [destruct (Nat.eqb c d); [discriminate|exact LC]|exact LC].
    - intros x X1 X2 X3 X4. rewrite lookup_store by congruence. rewrite (proj2 (Nat.eqb_neq x c)) by auto. unfold h3. rewrite lookup_store by congruence. rewrite (proj2 (Nat.eqb_neq x a)) by auto.
      rewrite LK by exact (NK x X3 X4). destruct arr as [d|]; [|reflexivity]. destruct (Nat.eqb_spec x d) as [->|]; [congruence|reflexivity]. }
  assert (EL : forall l n q, lookup h' q = Some (OArray (firstn n l ++ [c])) -> elem h' (Some q) (S n) c).
  { intros l n q X. exists q, (firstn n l ++ [c]), (List.length (firstn n l)). split; [reflexivity|]. split; [exact X|].
    split; [pose proof (firstn_le_length n l); lia|]. rewrite nth_error_app2 by lia. rewrite Nat.sub_diag. reflexivity. }
  destruct b as [d|g n arr|g n arr pn parr|v]; try discriminate.
  - apply (STEP n arr (fun p => BGroup g (S n) p)) in E. destruct E as (l & q & LA & LN & LC & LK). split; [|split; [|split; [exact LC|]]].
    + eexists _, _. split; [exact LA|]. exact (EL l n q LN).
    + intros (hd' & b' & L' & K). rewrite L in L'. injection L' as <- <-. eexists _, _. split; [exact LA|exact K].
    + intros x X1 X2 X3 X4. apply LK; try assumption. intros <-. apply X4. eexists _, _. split; [exact L|reflexivity].
  - apply (STEP n arr (fun p => BList g (S n) p pn parr)) in E. destruct E as (l & q & LA & LN & LC & LK). split; [|split; [|split; [exact LC|]]].
    + eexists _, _. split; [exact LA|]. left. exact (EL l n q LN).
    + intros (hd' & b' & L' & K). rewrite L in L'. injection L' as <- <-. eexists _, _. split; [exact LA|exact K].
    + intros x X1 X2 X3 X4. apply LK; try assumption. intros <-. apply X4. eexists _, _. split; [exact L|left; reflexivity].
Qed.

(** Storing another size changes neither members nor kinds. *)
Lemma resize_inv : forall a s e w h r w' h', hset_size a s e w h = Done (r, w', h') ->
  exists hd b, lookup h a = Some (OChunk hd b) /\ h' = store h a (OChunk (set_size hd s) b).
Proof.
  intros a s e w h r w' h' E. unfold hset_size in E. rewrite hbind_eq in E. destruct (hchunk a e w h) as [[[[hd b] w1] h1]|u|] eqn:E1; try discriminate.
  apply hchunk_inv in E1. destruct E1 as (L & -> & ->). rewrite hstore_at in E by congruence. injection E as <- <- <-. exists hd, b. split; [exact L|reflexivity].
Qed.

Lemma resized : forall h a hd b s, lookup h a = Some (OChunk hd b) ->
  let h' := store h a (OChunk (set_size hd s) b) in
  (forall g c, has_member h g c -> has_member h' g c) /\ (forall g, is_group h g -> is_group h' g).
Proof.
  intros h a hd b s L h'.
  assert (LK : forall x, lookup h' x = if Nat.eqb x a then Some (OChunk (set_size hd s) b) else lookup h x) by (intro; apply lookup_store; congruence).
  assert (EL : forall arr n c, elem h arr n c -> elem h' arr n c).
  { intros arr n c (d & l & k & -> & Ld & LT & N). exists d, l, k. split; [reflexivity|]. split; [|auto]. rewrite LK. destruct (Nat.eqb_spec d a) as [->|]; congruence. }
  split.
  - intros g c (hd1 & b1 & L1 & M). destruct (Nat.eq_dec g a) as [->|N].
    + rewrite L in L1. injection L1 as <- <-. eexists _, _. split; [rewrite LK, Nat.eqb_refl; reflexivity|].
      destruct b as [d|g n arr|g n arr pn parr|v]; try contradiction; [exact (EL _ _ _ M)|]. destruct M as [M|M]; [left|right]; exact (EL _ _ _ M).
    + eexists _, _. split; [rewrite LK, (proj2 (Nat.eqb_neq _ _)) by auto; exact L1|].
      destruct b1 as [d|g' n arr|g' n arr pn parr|v]; try contradiction; [exact (EL _ _ _ M)|]. destruct M as [M|M]; [left|right]; exact (EL _ _ _ M).
  - intros g (hd1 & b1 & L1 & M). destruct (Nat.eq_dec g a) as [->|N].
    + rewrite L in L1. injection L1 as <- <-. eexists _, _. split; [rewrite LK, Nat.eqb_refl; reflexivity|exact M].
    + eexists _, _. split; [rewrite LK, (proj2 (Nat.eqb_neq _ _)) by auto; exact L1|exact M].
Qed.

Lemma hincrement_inv : forall s c e w h r w' h', hincrementChunkSize s c e w h = Done (r, w', h') -> h' = h.
Proof.
  intros s c e w h r w' h' E. unfold hincrementChunkSize in E. rewrite hbind_eq in E. destruct (hchunk c e w h) as [[[[hd b] w1] h1]|u|] eqn:E1; try discriminate.
  apply hchunk_inv in E1. destruct E1 as (L & -> & ->). destruct (INT_MAX <? s + IFF_ID_SIZE); [discriminate|]. cbv zeta in E.
  destruct (c_odd (o_size hd)); [destruct (_ =? INT_MAX); [discriminate|]|]; unfold hret in E; injection E as _ _ <-; reflexivity.
Qed.

Lemma add_split : forall a c e w h r w' h', haddToGroup a c e w h = Done (r, w', h') ->
  exists w1 h1 hd b s, hattachToGroup a c e w h = Done (tt, w1, h1) /\ lookup h1 a = Some (OChunk hd b) /\ h' = store h1 a (OChunk (set_size hd s) b).
Proof.
  intros a c e w h r w' h' E. unfold haddToGroup in E. rewrite hbind_eq in E. destruct (hattachToGroup a c e w h) as [[[[] w1] h1]|u|] eqn:EA; try discriminate.
  rewrite hbind_eq in E. destruct (hchunk a e w1 h1) as [[[[hd b] w2] h2]|u|] eqn:E1; try discriminate. apply hchunk_inv in E1. destruct E1 as (L & -> & ->).
  rewrite hbind_eq in E. destruct (hincrementChunkSize (o_size hd) c e w1 h1) as [[[s w3] h3]|u|] eqn:EI; try discriminate.
  pose proof (hincrement_inv _ _ _ _ _ _ _ _ EI) as ->. apply resize_inv in E. destruct E as (hd' & b' & L' & ->). rewrite L in L'. injection L' as <- <-.
  exists w1, h1, hd, b, s. auto.
Qed.

Lemma add_members : forall a c e w h r w' h', haddToGroup a c e w h = Done (r, w', h') -> c <> a ->
  has_member h' a c /\ (is_group h a -> is_group h' a) /\
  (forall b, b <> a -> ~ has_block h a b -> is_group h b -> is_group h' b) /\
  (forall b x, b <> a -> ~ has_block h a b -> (forall d, has_block h b d -> has_block h a d -> False) ->
     has_member h b x -> has_member h' b x).
Proof.
  intros a c e w h r w' h' E NE. destruct (add_split _ _ _ _ _ _ _ _ E) as (w1 & h1 & hd & b & s & EA & L & ->).
  destruct (attach_inv _ _ _ _ _ _ _ _ EA NE) as (HM & IG & (hc & bc & LC & LC1) & LK). destruct (resized h1 a hd b s L) as [RM RG].
  assert (LA : exists hda ba, lookup h a = Some (OChunk hda ba)).
  { unfold hattachToGroup in EA. rewrite hbind_eq in EA. destruct (hchunk a e w h) as [[[[hda ba] w2] h2]|u|] eqn:E1; try discriminate.
    apply hchunk_inv in E1. destruct E1 as (La & _). eauto. }
  destruct LA as (hda & ba & LA).
  assert (LL : forall o y, lookup h y = Some o -> lookup h y <> None) by (intros o y X; congruence).
  assert (STR : forall y hy by_, y <> a -> ~ has_block h a y -> lookup h y = Some (OChunk hy by_) -> exists hy', lookup h1 y = Some (OChunk hy' by_) /\ o_id hy' = o_id hy).
  { intros y hy by_ NY NBy Ly. destruct (Nat.eq_dec y c) as [->|N].
    - rewrite LC in Ly. injection Ly as <- <-. exists (set_parent hc (Some a)). split; [exact LC1|reflexivity].
    - exists hy. split; [|reflexivity]. rewrite LK; [exact Ly|exact NY|exact N|exact (LL _ _ Ly)|exact NBy]. }
  split; [apply RM; exact HM|]. split; [intro X; apply RG, IG; exact X|]. split.
  - intros y NY NBy (hy & by_ & Ly & K). apply RG. destruct (STR y hy by_ NY NBy Ly) as (hy' & Ly' & EI). exists hy', by_. split; [exact Ly'|]. rewrite EI. exact K.
  - intros y x NY NBy NS (hy & by_ & Ly & M). apply RM. destruct (STR y hy by_ NY NBy Ly) as (hy' & Ly' & _). exists hy', by_. split; [exact Ly'|].
    assert (EL : forall arr n, (forall d, arr = Some d -> has_block h y d) -> elem h arr n x -> elem h1 arr n x).
    { intros arr n BK (d & l & k & -> & Ld & LT & N). exists d, l, k. split; [reflexivity|]. split; [|auto].
      rewrite LK; [exact Ld|congruence|congruence|exact (LL _ _ Ld)|]. exact (NS d (BK d eq_refl)). }
    destruct by_ as [d|g n arr|g n arr pn parr|v]; try contradiction.
    + apply EL; [|exact M]. intros d ->. eexists _, _. split; [exact Ly|reflexivity].
    + destruct M as [M|M]; [left|right]; (apply EL; [|exact M]; intros d ->; eexists _, _; (split; [exact Ly|cbn; auto])).
Qed.
