(** * Writing, checking, printing and comparing what memory shows *)

From Coq Require Import ZArith List Bool String Lia.
From Coq Require Import Strings.Byte.
From Verif Require Import Machine Io Types Build Read Write Check Compare Print Spec Lemmas IoProofs
  Ext ExtSpec ExtReadProofs Heap HeapExt HeapExtSpec HeapExtPass HeapExtProofs HeapExtPassProofs HeapViewSpec HeapViewProofs HeapViewReadProofs.
Import ListNotations.
Open Scope Z_scope.

Section Look.
  Context {U V : Type}.
  Notation heap := (yheap V).
  Variable rep : Z -> Z -> heap -> addr -> list addr -> U -> Prop.
  Variable rg : xregistry U.
  Variable find : yfind V.
  Hypothesis RG : Registered rep rg find.
  Hypothesis GU : GroupsAsUsual find.
  Variable e : env.
  Variable h : heap.
  Notation Shows := (Shows rep find h).
  Notation ShowsAll := (ShowsAll rep find h).

  Definition Look {A} (m : M A) (n : Y V A) : Prop := forall h1, Same h h1 -> Sim e (Alike h) m n h1.

  Lemma Look_ret : forall A (a : A), Look (ret a) (yret a).
  Proof. intros A a h1 S. apply Sim_ret. split; [reflexivity|exact S]. Qed.
  Lemma Look_undefined : forall A u, Look (A := A) (undefined u) (yundefined u).
  Proof. intros A u h1 S. apply Sim_undefined. Qed.
  Lemma Look_bind : forall A B (m : M A) n (f : A -> M B) g, Look m n -> (forall a, Look (f a) (g a)) -> Look (bind m f) (ybind n g).
  Proof. intros A B m n f g L K h1 S. eapply Sim_bind; [apply L; exact S|]. intros a b h' [<- S']. apply K. exact S'. Qed.
  Lemma Look_io : forall A (m : M A), Look m (yio m).
  Proof. intros A m h1 S. eapply Sim_weaken; [apply Sim_io|]. intros a b h' [<- ->]. split; [reflexivity|exact S]. Qed.
  Lemma Look_step : forall A B (m : M A) (n : Y V B) g b, (forall w h1, Same h h1 -> n e w h1 = Done (b, w, h1)) ->
    Look m (g b) -> Look m (ybind n g).
  Proof. intros A B m n g b E K h1 S. eapply Sim_step; [intro w; apply E; exact S|]. apply K. exact S. Qed.
  Lemma Look_left : forall A B (m : M A) (f : A -> M B) n a, (forall w, m e w = Done (a, w)) -> Look (f a) n -> Look (bind m f) n.
  Proof. intros A B m f n a E K h1 S. eapply Sim_left; [exact E|]. apply K. exact S. Qed.
  Lemma Look_left_eq : forall A (m m' : M A) n, (forall w, m e w = m' e w) -> Look m' n -> Look m n.
  Proof. intros A m m' n E K h1 S. eapply Sim_left_eq; [exact E|]. apply K. exact S. Qed.
  Lemma Look_and : forall m1 n1 m2 n2, Look m1 n1 -> Look m2 n2 -> Look (andM m1 m2) (yandM n1 n2).
  Proof. intros m1 n1 m2 n2 L1 L2. apply Look_bind; [exact L1|]. intros []; [exact L2|apply Look_ret]. Qed.
  Lemma Look_ask : forall B (f : env -> M B) g, Look (f e) (g e) -> Look (bind ask f) (ybind (yio ask) g).
  Proof. intros B f g F. eapply Look_left; [reflexivity|]. eapply Look_step; [reflexivity|exact F]. Qed.

  Lemma Look_chunk : forall A a hd b (m : M A) (f : header * ybody V -> Y V A), ylookup h a = Some (YChunk hd b) ->
    Look m (f (hd, b)) -> Look m (ybind (ychunk a) f).
  Proof.
    intros A a hd b m f L F. apply (Look_step _ _ _ _ _ (hd, b)); [|exact F]. intros w h1 S. apply (run_chunk e).
    rewrite (S a). exact L.
  Qed.

  Lemma Look_elements : forall A arr la Fa (m : M A) (f : list addr -> Y V A), yarray_at h arr la Fa ->
    Look m (f la) -> Look m (ybind (yelements arr (List.length la)) f).
  Proof.
    intros A arr la Fa m f AR F. apply (Look_step _ _ _ _ _ la); [|exact F]. intros w h1 S.
    apply (run_elements e h1 arr la Fa). apply (array_same h); [exact AR|]. intros x _. apply S.
  Qed.

  Lemma Look_find : forall A ft i x k (m : xhandler U -> M A) (f : yhandler V -> Y V A), xfind_handler rg ft i = Done x -> find ft i = Done k ->
    Look (m x) (f k) -> Look (bind (lift (xfind_handler rg ft i)) m) (ybind (ylift (find ft i)) f).
  Proof.
    intros A ft i x k m f EX E F. rewrite EX. eapply Look_left; [intro w; reflexivity|].
    apply (Look_step _ _ _ _ _ k); [|exact F]. intros w h1 S. unfold ylift, yio, lift. rewrite E. reflexivity.
  Qed.

  Lemma Look_block : forall d s c n, ylookup h d = Some (YData s c) -> Look (lift (block_bytes c n)) (yblock_bytes (Some d) n).
  Proof.
    intros d s c n L. unfold yblock_bytes. destruct (n <=? 0) eqn:N.
    - unfold block_bytes. rewrite N. intros h1 S w. exists [], h1. split; [reflexivity|]. split; [reflexivity|exact S].
    - apply (Look_step _ _ _ _ _ (YData s c)); [intros w h1 S; apply (run_load e); rewrite (S d); exact L|]. apply Look_io.
  Qed.

  Lemma Look_increment : forall z a hd b c, ylookup h a = Some (YChunk hd b) -> o_size hd = chunkSize c ->
    Look (lift (IFF_incrementChunkSize z c)) (yincrementChunkSize z a).
  Proof.
    intros z a hd b c L E h1 S. eapply Sim_weaken; [apply (Sim_increment e z a hd b c h1); [rewrite (S a); exact L|exact E]|].
    intros x y h' [-> ->]. split; [reflexivity|exact S].
  Qed.

  (** Three messages, and then [k] *)
  Lemma Look_messages : forall A (m1 m2 m3 : M unit) (k : M A) k', Look k k' -> Look (m1 ;;; m2 ;;; m3 ;;; k) (yio (m1 ;;; m2 ;;; m3) ;;y k').
  Proof.
    intros A m1 m2 m3 k k' K. apply Look_left_eq with (m' := bind (m1 ;;; m2 ;;; m3) (fun _ => k)).
    - intro w. unfold bind. destruct (m1 e w) as [[? v1]|?|]; [|reflexivity|reflexivity].
      destruct (m2 e v1) as [[? v2]|?|]; [|reflexivity|reflexivity]. destruct (m3 e v2) as [[? v3]|?|]; reflexivity.
    - apply Look_bind; [apply Look_io|]. intros _. exact K.
  Qed.

  (** A callback *)
  Lemma Look_user : forall A (m : M A) n, (forall w h1, Same h h1 -> Mirror (Alike h1) (m e w) (n e w h1)) -> Look m n.
  Proof.
    intros A m n K h1 S w. specialize (K w h1 S). destruct (m e w) as [[a w1]|u|]; cbn [Mirror] in *; [|exact K|exact K].
    destruct K as (b & h2 & E & -> & S2). exists b, h2. split; [exact E|]. split; [reflexivity|exact (Same_trans _ _ _ S S2)].
  Qed.

  Lemma rep_later : forall ft i cb yc a F u h1, Refines (rep ft i) cb yc -> rep ft i h a F u -> Same h h1 -> rep ft i h1 a F u.
  Proof. intros ft i cb yc a F u h1 RF O S. apply (rf_local _ _ _ RF h h1 a F u O). intros x _. apply S. Qed.

  (** The header of what is shown *)
  Lemma Shows_head : forall c ft p a F, Shows c ft p a F ->
    exists b, ylookup h a = Some (YChunk (mkHeader p (xid c) (xsize c)) b) /\ ytype_of b = option_map fst (as_group (bare c)).
  Proof. intros c ft p a F T. inversion T; subst; cbn [xid xsize bare as_group option_map fst]; eexists; (split; [eassumption|reflexivity]). Qed.

  (** PROPs are PROPs everywhere. *)
  Lemma Shows_PROP : forall c ft ft' p a F, Shows c ft p a F -> xid c = PROP_ID -> Shows c ft' p a F.
  Proof.
    intros c ft ft' p a F T E. destruct (GU ft) as (_ & _ & _ & G). destruct (GU ft') as (_ & _ & _ & G').
    inversion T as [? ? ? i s d dc FE La Ld|? ? ? i s v yc u ? FE La O|? ? ? i s k g arr la l Fa Fl FE KK La AR LL|
      ? ? ? i s g arr la l Fa Fl parr pa pl Fb Fp FE La AR LL BR LP PI]; subst; cbn [xid] in E; subst i; rewrite G in FE; try discriminate.
    apply (S_group _ _ _ ft' p a PROP_ID s YPROP g arr la l Fa Fl G'); [cbn; tauto|exact La|exact AR|exact LL].
  Qed.

  Lemma ShowsAll_PROP : forall l g g' p la F, ShowsAll l g p la F -> (forall c, In c l -> xid c = PROP_ID) -> ShowsAll l g' p la F.
  Proof.
    intros l g g' p la F T. induction T as [|c l g p a la F1 F2 T1 T2 IH]; intro P; [constructor|]. constructor.
    - apply (Shows_PROP _ g); [exact T1|]. apply P. left. reflexivity.
    - apply IH. intros x I. apply P. right. exact I.
  Qed.

  Lemma PROP_is_group : forall c ft p a F, Shows c ft p a F -> xid c = PROP_ID -> exists s g arr la l Fa Fl,
    c = XGroup PROP_ID s g l /\
    ylookup h a = Some (YChunk (mkHeader p PROP_ID s) (YGroup g (List.length la) arr)) /\ yarray_at h arr la Fa /\
    ShowsAll l g (Some a) la Fl /\ F = a :: Fa ++ Fl.
  Proof.
    intros c ft p a F T E. destruct (GU ft) as (_ & _ & _ & G).
    inversion T as [? ? ? i s d dc FE La Ld|? ? ? i s v yc u ? FE La O|? ? ? i s k g arr la l Fa Fl FE KK La AR LL|
      ? ? ? i s g arr la l Fa Fl parr pa pl Fb Fp FE La AR LL BR LP PI]; subst; cbn [xid] in E; subst i; rewrite G in FE; try discriminate.
    exists s, g, arr, la, l, Fa, Fl. auto.
  Qed.

  Lemma Shows_nonempty : forall c ft p a F, Shows c ft p a F -> (0 < List.length F)%nat.
  Proof.
    intros c ft p a F T. pose proof (proj2 (proj1 (Shows_live rep rg find RG h) _ _ _ _ _ T)) as I.
    destruct F; [destruct I|cbn; lia].
  Qed.

  Ltac kinds KK := destruct KK as [KK|[KK|[KK|[]]]]; subst.

  (** ** Writing *)
  Section WriteAll.
    Variable fuel : nat.
    Hypothesis IH : forall c ft p a F, Shows c ft p a F -> (List.length F <= fuel)%nat ->
      Look (xwriteChunk rg c ft) (ywriteChunk find fuel a ft).

    Lemma look_write_all : forall l g p la F msg bp, ShowsAll l g p la F -> (List.length F <= fuel)%nat ->
      Look (xwrite_all (xwriteChunk rg) msg l g bp) (ywrite_all (ywriteChunk find fuel) msg la g bp).
    Proof.
      induction l as [|c l IHl]; intros g p la0 F msg bp T L; inversion T as [|? ? ? ? a la F1 F2 T1 T2]; subst; cbn [xwrite_all ywrite_all]; [apply Look_ret|].
      rewrite app_length in L. apply Look_bind; [apply (IH c g p a F1 T1); lia|]. intros [].
      - destruct (Shows_chunk rep find _ _ _ _ _ _ T1) as (b & Lc).
        apply Look_bind; [apply (Look_increment _ _ _ _ (bare c) Lc); rewrite size_bare; reflexivity|].
        intro bp'. apply (IHl g p la F2); [exact T2|lia].
      - apply Look_bind; [apply Look_io|]. intros _. apply Look_ret.
    Qed.
  End WriteAll.

  Theorem look_write : forall fuel c ft p a F, Shows c ft p a F -> (List.length F <= fuel)%nat ->
    Look (xwriteChunk rg c ft) (ywriteChunk find fuel a ft).
  Proof.
    induction fuel as [|fuel IH]; intros c ft p a F T L; [pose proof (Shows_nonempty _ _ _ _ _ T); lia|].
    assert (XW : xwriteChunk rg c ft = andM (IFF_writeId (xid c) (xid c) "chunkId")
      (andM (IFF_writeLong (xsize c) (xid c) "chunkSize") (xwriteChunkBody (xwriteChunk rg) rg c ft))) by (destruct c; reflexivity).
    rewrite XW. cbn [ywriteChunk]. destruct (Shows_chunk rep find _ _ _ _ _ _ T) as (bb & Lc).
    apply (Look_chunk _ _ _ _ _ _ Lc). cbn [o_id o_size]. apply Look_and; [apply Look_io|]. apply Look_and; [apply Look_io|].
    unfold xwriteChunkBody, ywriteChunkBody. apply (Look_chunk _ _ _ _ _ _ Lc). cbn [o_id o_size].
    destruct (RG ft (xid c)) as (x & k & EX & EY & MA). apply (Look_find _ _ _ x k); [exact EX|exact EY|].
    apply Look_bind; [|intros [ok bp]; apply Look_and; [apply Look_ret|apply Look_and; apply Look_io]].
    inversion T as [? ? ? i s d dc FE La Ld|? ? ? i s v yc u ? FE La O|? ? ? i s k' g arr la l Fa Fl FE KK La AR LL|
      ? ? ? i s g arr la l Fa Fl parr pa pl Fb Fp FE La AR LL BR LP PI]; subst; cbn [xid] in *; rewrite EY in FE; injection FE as ->.
    - destruct x; try contradiction. cbn [xwriteExtensionChunkFields ywriteExtensionChunkFields IFF_writeRawChunk]. unfold ywriteRawChunk.
      apply (Look_chunk _ _ _ _ _ _ La). cbv beta iota. cbn [o_id o_size]. apply Look_ask.
      apply Look_bind; [apply (Look_block _ _ _ _ Ld)|]. intro y. apply Look_bind; [apply Look_io|]. intros [].
      + destruct (INT_MAX <? _); [apply Look_undefined|apply Look_ret].
      + apply Look_messages. apply Look_ret.
    - destruct x; try contradiction. cbn [xwriteExtensionChunkFields ywriteExtensionChunkFields].
      apply Look_user. intros w h1 S. apply (rf_write _ _ _ MA e w h1 a F u p i s v).
      + exact (rep_later _ _ _ _ _ _ _ _ MA O S).
      + rewrite (S a). exact La.
    - cbn [List.length] in L. rewrite app_length in L.
      assert (W : forall nm, Look (xwriteGroup (xwriteChunk rg) (XGroup i s g l) nm 0) (ywriteGroup (ywriteChunk find fuel) a nm 0)).
      { intro nm. unfold ywriteGroup. cbn [xwriteGroup]. apply (Look_chunk _ _ _ _ _ _ La). cbv beta iota. cbn [o_id o_size].
        apply Look_bind; [apply Look_io|]. intros [[] bp]; try apply Look_ret.
        apply (Look_elements _ _ _ _ _ _ AR). apply (look_write_all fuel IH _ _ _ _ _ _ _ LL). lia. }
      kinds KK; destruct x; try contradiction; apply W.
    - destruct x; try contradiction. cbn [List.length] in L. rewrite !app_length in L.
      cbn [xwriteExtensionChunkFields ywriteExtensionChunkFields xwriteList]. unfold ywriteList.
      apply (Look_chunk _ _ _ _ _ _ La). cbv beta iota. cbn [o_id o_size].
      apply Look_bind; [apply Look_io|]. intros [[] bp]; try apply Look_ret.
      apply (Look_elements _ _ _ _ _ _ BR).
      apply Look_bind; [apply (look_write_all fuel IH pl 0 (Some a) pa Fp); [exact (ShowsAll_PROP _ _ _ _ _ _ LP PI)|lia]|].
      intros [[] b2]; [|apply Look_ret]. apply (Look_elements _ _ _ _ _ _ AR). apply (look_write_all fuel IH _ _ _ _ _ _ _ LL). lia.
  Qed.

  (** ** Checking *)

  Lemma look_groupSize : forall c a p b z, ylookup h a = Some (YChunk (mkHeader p (xid c) (xsize c)) b) ->
    Look (IFF_checkGroupChunkSize (bare (U := U) c) z) (ycheckGroupChunkSize a z).
  Proof.
    intros c a p b z L. unfold ycheckGroupChunkSize, IFF_checkGroupChunkSize. apply (Look_chunk _ _ _ _ _ _ L). cbv beta iota. cbn [o_id o_size].
    rewrite size_bare. assert (E : chunkId (bare c) = xid c) by (destruct c; reflexivity). rewrite E.
    destruct (z =? xsize c); [apply Look_ret|]. apply Look_messages. apply Look_ret.
  Qed.

  Lemma id_bare : forall c : xchunk U, chunkId (bare c) = xid c.
  Proof. intros []; reflexivity. Qed.

  (** What the group checks of its members *)
  Definition SubCheck (m : chunk -> M bool) (n : addr -> Y V bool) : Prop :=
    forall c ft p a F, Shows c ft p a F -> Look (m (bare c)) (n a).

  Lemma sub_form : forall gx g, SubCheck (form_subChunkCheck gx) (yform_subChunkCheck g).
  Proof.
    intros gx g c ft p a F T. destruct (Shows_chunk rep find _ _ _ _ _ _ T) as (b & Lc).
    unfold form_subChunkCheck, yform_subChunkCheck. apply (Look_chunk _ _ _ _ _ _ Lc). cbn [o_id]. rewrite id_bare.
    destruct (_ =? _); [apply Look_io|apply Look_ret].
  Qed.

  Lemma sub_prop : forall gx g, SubCheck (prop_subChunkCheck gx) (yprop_subChunkCheck g).
  Proof.
    intros gx g c ft p a F T. destruct (Shows_chunk rep find _ _ _ _ _ _ T) as (b & Lc).
    unfold prop_subChunkCheck, yprop_subChunkCheck. apply (Look_chunk _ _ _ _ _ _ Lc). cbn [o_id]. rewrite id_bare.
    destruct (_ || _); [apply Look_io|apply Look_ret].
  Qed.

  Lemma sub_CAT : forall gx g hd bg, ylookup h g = Some (YChunk hd bg) -> ytype_of bg = option_map fst (as_group gx) ->
    SubCheck (IFF_checkCATSubChunk gx) (ycheckCATSubChunk g).
  Proof.
    intros gx g hd bg Lg TG c ft p a F T. destruct (Shows_head _ _ _ _ _ T) as (b & Lc & TC).
    unfold IFF_checkCATSubChunk, ycheckCATSubChunk. apply (Look_chunk _ _ _ _ _ _ Lc). cbn [o_id]. rewrite id_bare.
    destruct (negb _); [apply Look_io|]. apply (Look_chunk _ _ _ _ _ _ Lg). cbv beta iota. rewrite TG.
    destruct (as_group gx) as [[ct lx]|]; cbn [option_map fst]; [|apply Look_undefined].
    destruct (negb _); [|apply Look_ret]. destruct (checkValidCATSubChunkId _); [|apply Look_ret]. rewrite TC.
    destruct (as_group (bare c)) as [[gt lc]|]; cbn [option_map fst]; [|apply Look_undefined].
    destruct (negb _); [|apply Look_ret]. apply Look_bind; [apply Look_io|]. intros _. apply Look_ret.
  Qed.

  Section CheckAll.
    Variable fuel : nat.
    Hypothesis IH : forall c ft p a F, Shows c ft p a F -> (List.length F <= fuel)%nat ->
      Look (xcheckChunk rg c ft) (ycheckChunk find fuel a ft).

    Lemma look_check_subs : forall l g p la F m n z, ShowsAll l g p la F -> (List.length F <= fuel)%nat -> SubCheck m n ->
      Look (xcheck_subs (xcheckChunk rg) m l g z) (ycheck_subs (ycheckChunk find fuel) n la g z).
    Proof.
      induction l as [|c l IHl]; intros g p la0 F m n z T L SC; inversion T as [|? ? ? ? a la F1 F2 T1 T2]; subst; cbn [xcheck_subs ycheck_subs]; [apply Look_ret|].
      rewrite app_length in L. apply Look_bind; [exact (SC _ _ _ _ _ T1)|]. intro ok. destruct (negb ok); [apply Look_ret|].
      apply Look_bind; [apply (IH c g p a F1 T1); lia|]. intro ok2. destruct (negb ok2); [apply Look_ret|].
      destruct (Shows_chunk rep find _ _ _ _ _ _ T1) as (b & Lc).
      apply Look_bind; [apply (Look_increment _ _ _ _ (bare c) Lc); rewrite size_bare; reflexivity|].
      intro z'. apply (IHl g p la F2); [exact T2|lia|exact SC].
    Qed.
  End CheckAll.

  Theorem look_check : forall fuel c ft p a F, Shows c ft p a F -> (List.length F <= fuel)%nat ->
    Look (xcheckChunk rg c ft) (ycheckChunk find fuel a ft).
  Proof.
    induction fuel as [|fuel IH]; intros c ft p a F T L; [pose proof (Shows_nonempty _ _ _ _ _ T); lia|].
    assert (XW : xcheckChunk rg c ft = (ok <- IFF_checkId (xid c) ;; if negb ok then ret false
      else h <- lift (xfind_handler rg ft (xid c)) ;; xcheckExtensionChunk (xcheckChunk rg) h c)) by (destruct c; reflexivity).
    rewrite XW. cbn [ycheckChunk]. destruct (Shows_chunk rep find _ _ _ _ _ _ T) as (bb & Lc).
    apply (Look_chunk _ _ _ _ _ _ Lc). cbn [o_id o_size]. apply Look_bind; [apply Look_io|]. intro ok.
    destruct (negb ok); [apply Look_ret|].
    destruct (RG ft (xid c)) as (x & k & EX & EY & MA). apply (Look_find _ _ _ x k); [exact EX|exact EY|].
    inversion T as [? ? ? i s d dc FE La Ld|? ? ? i s v yc u ? FE La O|? ? ? i s k' g arr la l Fa Fl FE KK La AR LL|
      ? ? ? i s g arr la l Fa Fl parr pa pl Fb Fp FE La AR LL BR LP PI]; subst; cbn [xid] in *; rewrite EY in FE; injection FE as ->.
    - destruct x; try contradiction. apply Look_ret.
    - destruct x; try contradiction. cbn [xcheckExtensionChunk ycheckExtensionChunk].
      apply Look_user. intros w h1 S. apply (rf_check _ _ _ MA e w h1 a F u p i s v).
      + exact (rep_later _ _ _ _ _ _ _ _ MA O S).
      + rewrite (S a). exact La.
    - cbn [List.length] in L. rewrite app_length in L.
      assert (W : forall tc m n, SubCheck (m (bare (XGroup i s g l))) (n a) ->
        Look (xcheckGroup (xcheckChunk rg) tc m (XGroup i s g l)) (ycheckGroup (ycheckChunk find fuel) tc n a)).
      { intros tc m n SC. unfold ycheckGroup. cbn [xcheckGroup]. apply (Look_chunk _ _ _ _ _ _ La). cbv beta iota.
        apply Look_bind; [apply Look_io|]. intro ok1. destruct (negb ok1); [apply Look_ret|].
        apply (Look_elements _ _ _ _ _ _ AR). apply Look_bind; [apply (look_check_subs fuel IH _ _ _ _ _ _ _ _ LL); [lia|exact SC]|].
        intro z. destruct (z =? -1); [apply Look_ret|]. apply Look_bind; [apply Look_io|]. intro z'.
        apply (look_groupSize (XGroup i s g l) a p _ z' La). }
      kinds KK; destruct x; try contradiction; cbn [xcheckExtensionChunk ycheckExtensionChunk]; apply W;
        [apply sub_form|apply (sub_CAT _ a _ _ La); reflexivity|apply sub_prop].
    - destruct x; try contradiction. cbn [List.length] in L. rewrite !app_length in L.
      cbn [xcheckExtensionChunk ycheckExtensionChunk xcheckList]. unfold ycheckList.
      apply (Look_chunk _ _ _ _ _ _ La). cbv beta iota.
      apply Look_bind; [apply Look_io|]. intro ok1. destruct (negb ok1); [apply Look_ret|].
      apply (Look_elements _ _ _ _ _ _ BR).
      apply Look_bind; [apply (look_check_subs fuel IH _ _ _ _ _ _ _ _ LP); [lia|intros ? ? ? ? ? ?; apply Look_ret]|].
      intro z. destruct (z =? -1); [apply Look_ret|]. apply Look_bind; [apply Look_io|]. intro z1.
      apply (Look_elements _ _ _ _ _ _ AR).
      apply Look_bind; [apply (look_check_subs fuel IH _ _ _ _ _ _ _ _ LL); [lia|apply (sub_CAT _ a _ _ La); reflexivity]|].
      intro z2. destruct (z2 =? -1); [apply Look_ret|]. apply Look_bind; [apply Look_io|]. intro z3.
      apply (look_groupSize (XList i s g pl l) a p _ z3 La).
  Qed.

  (** ** Computations that only give a value *)

  Lemma Look_obind : forall A B (m : outcome A) n (f : A -> outcome B) g, Look (lift m) n -> (forall a, Look (lift (f a)) (g a)) ->
    Look (lift (a <-o m ;; f a)) (ybind n g).
  Proof.
    intros A B m n f g L K. apply Look_left_eq with (m' := bind (lift m) (fun a => lift (f a))).
    - intro w. unfold bind, lift. destruct m; reflexivity.
    - apply Look_bind; assumption.
  Qed.

  Lemma Look_done : forall A (a : A), Look (lift (Done a)) (yret a).
  Proof. intros A a. apply Look_left_eq with (m' := ret a); [reflexivity|apply Look_ret]. Qed.
  Lemma Look_fail : forall A u, Look (A := A) (lift (Undefined u)) (yundefined u).
  Proof. intros A u. apply Look_left_eq with (m' := undefined u); [reflexivity|apply Look_undefined]. Qed.

  Lemma Look_found : forall A ft i x k (m : xhandler U -> outcome A) (f : yhandler V -> Y V A), xfind_handler rg ft i = Done x -> find ft i = Done k ->
    Look (lift (m x)) (f k) -> Look (lift (y <-o xfind_handler rg ft i ;; m y)) (ybind (ylift (find ft i)) f).
  Proof.
    intros A ft i x k m f EX E F. rewrite EX. cbn [obind].
    apply (Look_step _ _ _ _ _ k); [|exact F]. intros w h1 S. unfold ylift, yio, lift. rewrite E. reflexivity.
  Qed.

  Lemma Look_valued : forall A (o : outcome A) n, (forall w h1, Same h h1 -> Mirror0 h1 w o (n e w h1)) -> Look (lift o) n.
  Proof.
    intros A o n K. apply Look_user. intros w h1 S. specialize (K w h1 S). unfold lift. destruct o as [a|u|]; cbn [Mirror Mirror0] in *; [|exact K|exact K].
    destruct K as (h2 & E & S2). exists a, h2. split; [exact E|]. split; [reflexivity|exact S2].
  Qed.

  Lemma Look_value : forall A (o : outcome A) n w h1, Look (lift o) n -> Same h h1 -> Mirror0 h w o (n e w h1).
  Proof.
    intros A o n w h1 L S. specialize (L h1 S w). unfold lift in L. destruct o as [a|u|]; cbn [Mirror Mirror0] in *; [|exact L|exact L].
    destruct L as (b & h2 & E & -> & S2). exists h2. auto.
  Qed.

  (** ** Printing *)
  Section PrintAll.
    Variable fuel : nat.
    Hypothesis IH : forall c ft p a F level, Shows c ft p a F -> (List.length F <= fuel)%nat ->
      Look (lift (xprintChunk rg c level ft)) (yprintChunk find fuel a level ft).

    Lemma look_print_all : forall l g p la F level, ShowsAll l g p la F -> (List.length F <= fuel)%nat ->
      Look (lift (xprint_all (xprintChunk rg) l level g)) (yprint_all (yprintChunk find fuel) la level g).
    Proof.
      induction l as [|c l IHl]; intros g p la0 F level T L; inversion T as [|? ? ? ? a la F1 F2 T1 T2]; subst; cbn [xprint_all yprint_all]; [apply Look_done|].
      rewrite app_length in L. apply Look_obind; [apply (IH c g p a F1); [exact T1|lia]|]. intro s.
      apply Look_obind; [apply (IHl g p la F2); [exact T2|lia]|]. intro t. apply Look_done.
    Qed.

    Lemma look_print_array : forall l g p la F arr Fa opening level, ShowsAll l g p la F -> yarray_at h arr la Fa -> (List.length F <= fuel)%nat ->
      Look (lift (xprint_array (xprintChunk rg) opening l g level)) (yprint_array (yprintChunk find fuel) opening arr (List.length la) g level).
    Proof.
      intros l g p la F arr Fa opening level T AR L. unfold xprint_array, yprint_array. apply (Look_elements _ _ _ _ _ _ AR).
      apply Look_obind; [apply (look_print_all _ _ _ _ _ _ T L)|]. intro s. apply Look_done.
    Qed.
  End PrintAll.

  Theorem look_print : forall fuel c ft p a F level, Shows c ft p a F -> (List.length F <= fuel)%nat ->
    Look (lift (xprintChunk rg c level ft)) (yprintChunk find fuel a level ft).
  Proof.
    induction fuel as [|fuel IH]; intros c ft p a F level T L; [pose proof (Shows_nonempty _ _ _ _ _ T); lia|].
    assert (XW : xprintChunk rg c level ft = (h <-o xfind_handler rg ft (xid c) ;;
      s <-o xprintExtensionChunk (xprintChunk rg) h c level ;;
      Done (IFF_printIndent level "'" ++ IFF_printId (xid c) ++ "' = {" ++ nl
          ++ IFF_printIndent (S level) ("chunkSize = " ++ dec (xsize c) ++ ";" ++ nl)
          ++ s ++ IFF_printIndent level ("}" ++ nl ++ nl))%string)) by (destruct c; reflexivity).
    rewrite XW. cbn [yprintChunk]. destruct (Shows_chunk rep find _ _ _ _ _ _ T) as (bb & Lc).
    apply (Look_chunk _ _ _ _ _ _ Lc). cbn [o_id o_size].
    destruct (RG ft (xid c)) as (x & k & EX & EY & MA). apply (Look_found _ _ _ x k); [exact EX|exact EY|].
    apply Look_obind; [|intro t; apply Look_done].
    inversion T as [? ? ? i s d dc FE La Ld|? ? ? i s v yc u ? FE La O|? ? ? i s k' g arr la l Fa Fl FE KK La AR LL|
      ? ? ? i s g arr la l Fa Fl parr pa pl Fb Fp FE La AR LL BR LP PI]; subst; cbn [xid] in *; rewrite EY in FE; injection FE as ->.
    - destruct x; try contradiction. cbn [xprintExtensionChunk yprintExtensionChunk IFF_printRawChunk]. unfold yprintRawChunk.
      apply (Look_chunk _ _ _ _ _ _ La). cbv beta iota. cbn [o_id o_size]. unfold IFF_printText, IFF_printRaw.
      destruct (i =? IFF_ID_TEXT); (apply Look_obind; [apply (Look_block _ _ _ _ Ld)|]; intro y; apply Look_done).
    - destruct x; try contradiction. cbn [xprintExtensionChunk yprintExtensionChunk].
      apply Look_valued. intros w h1 S. apply (rf_print _ _ _ MA e w h1 a F u p i s v).
      + exact (rep_later _ _ _ _ _ _ _ _ MA O S).
      + rewrite (S a). exact La.
    - cbn [List.length] in L. rewrite app_length in L.
      assert (W : forall nm, Look (lift (xprintGroup (xprintChunk rg) (XGroup i s g l) level nm)) (yprintGroup (yprintChunk find fuel) a level nm)).
      { intro nm. unfold yprintGroup. cbn [xprintGroup]. apply (Look_chunk _ _ _ _ _ _ La). cbv beta iota.
        apply Look_obind; [apply (look_print_array fuel IH _ _ _ _ _ _ _ _ _ LL AR); lia|]. intro t. apply Look_done. }
      kinds KK; destruct x; try contradiction; apply W.
    - destruct x; try contradiction. cbn [List.length] in L. rewrite !app_length in L.
      cbn [xprintExtensionChunk yprintExtensionChunk xprintList]. unfold yprintList.
      apply (Look_chunk _ _ _ _ _ _ La). cbv beta iota.
      apply Look_obind; [apply (look_print_array fuel IH _ _ _ _ _ _ _ _ _ LP BR); lia|]. intro t1.
      apply Look_obind; [apply (look_print_array fuel IH _ _ _ _ _ _ _ _ _ LL AR); lia|]. intro t2. apply Look_done.
  Qed.

  (** ** Comparing *)
  Section CompareAll.
    Variable fuel : nat.
    Hypothesis IH : forall c c' ft p q a b F G, Shows c ft p a F -> Shows c' ft q b G -> (List.length F <= fuel)%nat ->
      Look (lift (xcompareChunk e rg c c' ft)) (ycompareChunk find fuel a b ft).

    Lemma look_members : forall g1 arr1 l1 la1 Fa1 F1 p1 g2 arr2 l2 la2 Fa2 F2 p2,
      yarray_at h arr1 la1 Fa1 -> ShowsAll l1 g1 p1 la1 F1 -> yarray_at h arr2 la2 Fa2 -> ShowsAll l2 g2 p2 la2 F2 -> (List.length F1 <= fuel)%nat ->
      Look (lift (if (g1 =? g2) && (zlength l1 =? zlength l2) then xcompare_all (xcompareChunk e rg) l1 l2 g1 else Done false))
        (ycompare_members (ycompareChunk find fuel) g1 (List.length la1) arr1 g2 (List.length la2) arr2).
    Proof.
      intros g1 arr1 l1 la1 Fa1 F1 p1 g2 arr2 l2 la2 Fa2 F2 p2 A1 T1 A2 T2 L. unfold ycompare_members.
      assert (E : (zlength l1 =? zlength l2) = Nat.eqb (List.length la1) (List.length la2)).
      { rewrite (ShowsAll_length rep find _ _ _ _ _ _ T1), (ShowsAll_length rep find _ _ _ _ _ _ T2). unfold zlength.
        destruct (Nat.eqb_spec (List.length l1) (List.length l2)) as [->|N]; [apply Z.eqb_refl|apply Z.eqb_neq; lia]. }
      rewrite E. destruct (Z.eqb_spec g1 g2) as [<-|]; cbn [andb]; [|apply Look_done]. destruct (Nat.eqb _ _); [|apply Look_done].
      apply (Look_elements _ _ _ _ _ _ A1). apply (Look_elements _ _ _ _ _ _ A2). clear A1 A2 E. revert la1 F1 T1 L l2 la2 F2 T2.
      induction l1 as [|c l1 IHl]; intros la0 F1 T1 L l2 la2 F2 T2; inversion T1 as [|? ? ? ? a la1 X1 X2 TA TL]; subst; [destruct l2, la2; apply Look_done|].
      inversion T2 as [|c' l2' ? ? b la2' Y1 Y2 TB TM]; subst; [apply Look_done|].
      rewrite app_length in L. cbn [ycompare_all xcompare_all]. apply Look_obind; [apply (IH c c' g1 p1 p2 a b X1 Y1 TA TB); lia|].
      intros []; [|apply Look_done]. apply (IHl la1 X2 TL ltac:(lia) l2' la2' Y2 TM).
    Qed.

    Lemma look_props : forall l1 g1 p1 la1 F1 l2 g2 p2 la2 F2, ShowsAll l1 g1 p1 la1 F1 -> ShowsAll l2 g2 p2 la2 F2 -> (List.length F1 <= fuel)%nat ->
      (forall x, In x l1 -> xid x = PROP_ID) -> (forall x, In x l2 -> xid x = PROP_ID) ->
      Look (lift (xcompare_props (xcompareChunk e rg) l1 l2)) (ycompare_props (ycompareChunk find fuel) la1 la2).
    Proof.
      induction l1 as [|c l1 IHl]; intros g1 p1 la0 F1 l2 g2 p2 la2 F2 T1 T2 L P1 P2; inversion T1 as [|? ? ? ? a la1 X1 X2 TA TL]; subst; [destruct l2, la2; apply Look_done|].
      inversion T2 as [|c' l2' ? ? b la2' Y1 Y2 TB TM]; subst; [apply Look_done|].
      rewrite app_length in L. cbn [ycompare_props xcompare_props].
      destruct (PROP_is_group _ _ _ _ _ TA (P1 c (or_introl eq_refl))) as (s & g & arr & m & l & Fa & Fl & -> & La & AR & TT & ->).
      destruct (PROP_is_group _ _ _ _ _ TB (P2 c' (or_introl eq_refl))) as (s' & g' & arr' & m' & l' & Fa' & Fl' & -> & Lb & AR' & TT' & ->).
      apply Look_obind.
      - unfold ycompareGroup. apply (Look_chunk _ _ _ _ _ _ La). cbv beta iota. apply (Look_chunk _ _ _ _ _ _ Lb). cbv beta iota. cbn [xcompareGroup].
        apply (look_members _ _ _ _ _ _ _ _ _ _ _ _ _ _ AR TT AR' TT'). cbn [List.length] in L. rewrite app_length in L. lia.
      - intros []; [|apply Look_done]. apply (IHl g1 p1 la1 X2 l2' g2 p2 la2' Y2 TL TM); [lia| |]; intros x I; [apply P1|apply P2]; right; exact I.
    Qed.
  End CompareAll.

  Theorem look_compare : forall fuel c c' ft p q a b F G, Shows c ft p a F -> Shows c' ft q b G -> (List.length F <= fuel)%nat ->
    Look (lift (xcompareChunk e rg c c' ft)) (ycompareChunk find fuel a b ft).
  Proof.
    induction fuel as [|fuel IH]; intros c c' ft p q a b F G T T' L; [pose proof (Shows_nonempty _ _ _ _ _ T); lia|].
    assert (XW : xcompareChunk e rg c c' ft = if (xid c =? xid c') && (xsize c =? xsize c') then
      h <-o xfind_handler rg ft (xid c) ;; xcompareExtensionChunk (xcompareChunk e rg) e h c c' else Done false) by (destruct c; reflexivity).
    rewrite XW. cbn [ycompareChunk].
    destruct (Shows_chunk rep find _ _ _ _ _ _ T) as (b1 & L1). destruct (Shows_chunk rep find _ _ _ _ _ _ T') as (b2 & L2).
    apply (Look_chunk _ _ _ _ _ _ L1). cbv beta iota. apply (Look_chunk _ _ _ _ _ _ L2). cbn [o_id o_size].
    destruct (Z.eqb_spec (xid c) (xid c')) as [EI|]; cbn [andb]; [|apply Look_done].
    destruct (Z.eqb_spec (xsize c) (xsize c')) as [ES|]; cbn [andb]; [|apply Look_done].
    destruct (RG ft (xid c)) as (x & k & EX & EY & MA). apply (Look_found _ _ _ x k); [exact EX|exact EY|].
    inversion T as [? ? ? i s d dc FE La Ld|? ? ? i s v yc u ? FE La O|? ? ? i s k1 g arr la l Fa Fl FE KK La AR LL|
      ? ? ? i s g arr la l Fa Fl parr pa pl Fb Fp FE La AR LL BR LP PI]; subst; cbn [xid xsize] in *;
      inversion T' as [? ? ? i' s' d' dc' FE' La' Ld'|? ? ? i' s' v' yc' u' ? FE' La' O'|? ? ? i' s' k2 g' arr' la' l' Fa' Fl' FE' KK' La' AR' LL'|
        ? ? ? i' s' g' arr' la' l' Fa' Fl' parr' pa' pl' Fb' Fp' FE' La' AR' LL' BR' LP' PI']; subst; cbn [xid xsize] in *; subst;
      rewrite EY in FE; injection FE as ->; rewrite EY in FE'; try discriminate FE'; try (injection FE'; intros; subst);
      try (exfalso; cbn in KK'; clear - KK'; intuition discriminate); try (exfalso; cbn in KK; clear - KK; intuition discriminate).
    - destruct x; try contradiction. cbn [xcompareExtensionChunk ycompareExtensionChunk IFF_compareRawChunk]. unfold ycompareRawChunk.
      apply (Look_chunk _ _ _ _ _ _ La); cbv beta iota; apply (Look_chunk _ _ _ _ _ _ La'); cbv beta iota zeta. cbn [o_size].
      apply (Look_step _ _ _ _ _ e); [reflexivity|].
      apply Look_obind; [apply (Look_block _ _ _ _ Ld)|]. intro y. apply Look_obind; [apply (Look_block _ _ _ _ Ld')|]. intro. apply Look_done.
    - destruct x; try contradiction. cbn [xcompareExtensionChunk ycompareExtensionChunk].
      apply Look_valued. intros w h1 S. apply (rf_compare _ _ _ MA e w h1 a F u p b G u' q i' s' v v').
      + exact (rep_later _ _ _ _ _ _ _ _ MA O S).
      + exact (rep_later _ _ _ _ _ _ _ _ MA O' S).
      + rewrite (S a). exact La.
      + rewrite (S b). exact La'.
    - cbn [List.length] in L. rewrite app_length in L.
      assert (W : Look (lift (xcompareGroup (xcompareChunk e rg) (XGroup i' s' g l) (XGroup i' s' g' l'))) (ycompareGroup (ycompareChunk find fuel) a b)).
      { unfold ycompareGroup. apply (Look_chunk _ _ _ _ _ _ La); cbv beta iota; apply (Look_chunk _ _ _ _ _ _ La'); cbv beta iota. cbn [xcompareGroup].
        apply (look_members fuel IH _ _ _ _ _ _ _ _ _ _ _ _ _ _ AR LL AR' LL'). lia. }
      kinds KK; destruct x; try contradiction; exact W.
    - destruct x; try contradiction. cbn [List.length] in L. rewrite !app_length in L.
      cbn [xcompareExtensionChunk ycompareExtensionChunk xcompareList]. unfold ycompareList.
      apply (Look_chunk _ _ _ _ _ _ La); cbv beta iota; apply (Look_chunk _ _ _ _ _ _ La'); cbv beta iota.
      apply Look_obind.
      + assert (E : (zlength pl =? zlength pl') = Nat.eqb (List.length pa) (List.length pa')).
        { rewrite (ShowsAll_length rep find _ _ _ _ _ _ LP), (ShowsAll_length rep find _ _ _ _ _ _ LP'). unfold zlength.
          destruct (Nat.eqb_spec (List.length pl) (List.length pl')) as [->|N]; [apply Z.eqb_refl|apply Z.eqb_neq; lia]. }
        rewrite E. destruct (Nat.eqb _ _); [|apply Look_done]. apply (Look_elements _ _ _ _ _ _ BR). apply (Look_elements _ _ _ _ _ _ BR').
        apply (look_props fuel IH _ _ _ _ _ _ _ _ _ _ LP LP'); [lia|exact PI|exact PI'].
      + intros []; [|apply Look_done]. apply (look_members fuel IH _ _ _ _ _ _ _ _ _ _ _ _ _ _ AR LL AR' LL'). lia.
  Qed.

  (** ** The functions of iff.h *)

  Lemma Shows_count : forall c ft p a F, Shows c ft p a F -> NoDup F -> (List.length F <= S (List.length h))%nat.
  Proof. intros c ft p a F T N. pose proof (live_count h F N (proj1 (proj1 (Shows_live rep rg find RG h) _ _ _ _ _ T))). lia. Qed.

  Theorem writeFd_sim : forall c p a F w, Shows c 0 p a F -> NoDup F ->
    Mirror (Alike h) (xwriteChunk rg c 0 e w) (yIFF_writeFd a find e w h).
  Proof. intros c p a F w T N. exact (look_write _ c 0 p a F T (Shows_count _ _ _ _ _ T N) h (Same_refl h) w). Qed.

  Theorem check_sim : forall c p a F w, Shows c 0 p a F -> NoDup F ->
    Mirror (Alike h) (xcheck rg c e w) (yIFF_check a find e w h).
  Proof.
    intros c p a F w T N. unfold yIFF_check, xcheck. destruct (Shows_chunk rep find _ _ _ _ _ _ T) as (bb & Lc).
    unfold ybind at 1. rewrite (run_chunk e _ _ _ _ Lc). cbn [o_id].
    destruct (negb _ && negb _ && negb _).
    - refine ((_ : Look _ _) h (Same_refl h) w). apply Look_bind; [apply Look_io|]. intros _. apply Look_ret.
    - exact (look_check _ c 0 p a F T (Shows_count _ _ _ _ _ T N) h (Same_refl h) w).
  Qed.

  Theorem print_sim : forall c p a F level w, Shows c 0 p a F -> NoDup F ->
    Mirror0 h w (xprintChunk rg c level 0) (yIFF_print a level find e w h).
  Proof.
    intros c p a F level w T N. apply (Look_value _ _ (yprintChunk find (S (List.length h)) a level 0)); [|apply Same_refl].
    exact (look_print _ c 0 p a F level T (Shows_count _ _ _ _ _ T N)).
  Qed.

  Theorem compare_sim : forall c p a F c' q b G w, Shows c 0 p a F -> NoDup F -> Shows c' 0 q b G ->
    Mirror0 h w (xcompareChunk e rg c c' 0) (yIFF_compare a b find e w h).
  Proof.
    intros c p a F c' q b G w T N T'. apply (Look_value _ _ (ycompareChunk find (S (List.length h)) a b 0)); [|apply Same_refl].
    exact (look_compare _ c c' 0 p q a b F G T T' (Shows_count _ _ _ _ _ T N)).
  Qed.
End Look.
