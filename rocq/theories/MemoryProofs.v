(** * What a failing malloc can change *)

From Coq Require Import ZArith List Bool String Lia.
From Coq Require Import Strings.Byte.
From Verif Require Import Machine Io Types Build Read Write Check Iff Spec Lemmas WriteProofs EncodeProofs RegProofs PropRead.
Import ListNotations.
Open Scope Z_scope.

Definition struct_ub (u : ub) : Prop := u = UB_null_deref \/ u = UB_type_confusion.

Section Scant.
  Variable e : env.

  Definition fails {A} (fail : A -> Prop) (m : M A) : Prop := forall w,
    (exists a w', m e w = Done (a, w') /\ fail a) \/ (exists u, m e w = Undefined u /\ struct_ub u).
  (** As with enough memory, or a failure *)
  Definition scant {A} (fail : A -> Prop) (m1 m2 : M A) : Prop := forall w,
    m1 e w = m2 (plenty e) w \/
    (exists a w', m1 e w = Done (a, w') /\ fail a) \/ (exists u, m1 e w = Undefined u /\ struct_ub u).

  Definition never {A} (a : A) : Prop := False.
  Definition is_none {A} (a : option A) : Prop := a = None.
  Definition not_ok {A B} (a : bool * A * B) : Prop := fst (fst a) = false.
  Definition is_false (a : bool) : Prop := a = false.

  Lemma sc_refl : forall A (fail : A -> Prop) (m : M A), (forall w, m e w = m (plenty e) w) -> scant fail m m.
  Proof. intros A fail m H w. left. apply H. Qed.
  Lemma sc_weak : forall A (f1 f2 : A -> Prop) m1 m2, (forall a, f1 a -> f2 a) -> scant f1 m1 m2 -> scant f2 m1 m2.
  Proof. intros A f1 f2 m1 m2 I H w. destruct (H w) as [L | [(a & v & R & F) | U]]; [left; exact L|right; left; exists a, v; auto|right; right; exact U]. Qed.
  Lemma sc_never : forall A (f : A -> Prop) m1 m2, scant never m1 m2 -> scant f m1 m2.
  Proof. intros A f m1 m2. apply sc_weak. intros a []. Qed.
  Lemma sc_bind : forall A B (fA : A -> Prop) (fB : B -> Prop) (m1 m2 : M A) (k1 k2 : A -> M B), scant fA m1 m2 ->
    (forall a, scant fB (k1 a) (k2 a)) -> (forall a, fA a -> fails fB (k1 a)) ->
    scant fB (x <- m1 ;; k1 x) (x <- m2 ;; k2 x).
  Proof.
    intros A B fA fB m1 m2 k1 k2 H K F w. unfold bind. destruct (H w) as [-> | [(a & w' & -> & R) | (u & -> & U)]].
    - destruct (m2 (plenty e) w) as [[a v]|u|]; [|auto|auto]. apply K.
    - right. apply F, R.
    - right. right. eauto.
  Qed.
  Lemma sc_bind_never : forall A B (fB : B -> Prop) (m1 m2 : M A) (k1 k2 : A -> M B), scant never m1 m2 ->
    (forall a, scant fB (k1 a) (k2 a)) -> scant fB (x <- m1 ;; k1 x) (x <- m2 ;; k2 x).
  Proof. intros A B fB m1 m2 k1 k2 H K. apply sc_bind with (fA := never); [exact H|exact K|intros a []]. Qed.
  Lemma sc_ask : forall A (f : A -> Prop) (k1 k2 : env -> M A), scant f (k1 e) (k2 (plenty e)) -> scant f (x <- ask ;; k1 x) (x <- ask ;; k2 x).
  Proof. intros A f k1 k2 H w. apply H. Qed.
  Lemma sc_andM : forall a1 a2 b1 b2, scant never a1 a2 -> scant never b1 b2 -> scant never (andM a1 b1) (andM a2 b2).
  Proof. intros a1 a2 b1 b2 H K. apply sc_bind_never; [exact H|]. intros []; [exact K|apply sc_refl; reflexivity]. Qed.
  Lemma sc_errorId : forall i, scant never (IFF_errorId i) (IFF_errorId i).
  Proof. intro. apply sc_refl. reflexivity. Qed.
  Lemma fails_ret : forall A (f : A -> Prop) a, f a -> fails f (ret a).
  Proof. intros A f a H w. left. exists a, w. auto. Qed.
  Lemma fails_null : forall A (f : A -> Prop), fails f (undefined UB_null_deref).
  Proof. intros A f w. right. exists UB_null_deref. split; [reflexivity|left; reflexivity]. Qed.
  Lemma fails_scant : forall A (f : A -> Prop) m1 m2, fails f m1 -> scant f m1 m2.
  Proof. intros A f m1 m2 H w. right. apply H. Qed.
  (** If it does not succeed, it does not *)
  Lemma sc_malloc : forall n, scant is_false (malloc n) (malloc n).
  Proof.
    intros n w. unfold malloc. change (size_t_bits (plenty e)) with (size_t_bits e). cbn [plenty malloc_ok andb].
    destruct (malloc_ok e (w_allocs w) n).
    - left. reflexivity.
    - right. left. do 2 eexists. split; [reflexivity|]. apply andb_false_r.
  Qed.
End Scant.

Ltac sc_step :=
  lazymatch goal with
  | |- scant ?e _ (bind ask _) (bind ask _) => apply sc_ask; cbv beta zeta;
       change (size_t_bits (plenty e)) with (size_t_bits e); change (native_load (plenty e)) with (native_load e);
       change (native_store (plenty e)) with (native_store e); change (big_endian (plenty e)) with (big_endian e);
       change (lp64 (plenty e)) with (lp64 e); change (garbage (plenty e)) with (garbage e); change (strict_c (plenty e)) with (strict_c e);
       change (fieldDoesNotFitInChunk (plenty e)) with (fieldDoesNotFitInChunk e); change (swap_long (plenty e)) with (swap_long e)
  | |- scant _ _ (bind _ _) (bind _ _) => apply sc_bind_never; [|intros]
  | |- scant _ _ (andM _ _) (andM _ _) => apply sc_andM
  | |- scant _ _ (ret _) (ret _) => apply sc_refl; reflexivity
  | |- scant _ _ (lift _) (lift _) => apply sc_refl; reflexivity
  | |- scant _ _ (undefined _) (undefined _) => apply sc_refl; reflexivity
  | |- scant _ _ nofuel nofuel => apply sc_refl; reflexivity
  | |- scant _ _ (IFF_error _) (IFF_error _) => apply sc_refl; reflexivity
  | |- scant _ _ (IFF_errorId _) (IFF_errorId _) => apply sc_errorId
  | |- scant _ _ (IFF_readError _ _) (IFF_readError _ _) => unfold IFF_readError
  | |- scant _ _ (IFF_writeError _ _) (IFF_writeError _ _) => unfold IFF_writeError
  | |- scant _ _ fgetc fgetc => apply sc_refl; reflexivity
  | |- scant _ _ (fread _) (fread _) => apply sc_refl; reflexivity
  | |- scant _ _ (fseek_cur _) (fseek_cur _) => apply sc_refl; reflexivity
  | |- scant _ _ (fwrite _) (fwrite _) => apply sc_refl; reflexivity
  | |- scant _ _ (fputc _) (fputc _) => apply sc_refl; reflexivity
  | |- scant _ _ (match ?x with _ => _ end) (match ?x with _ => _ end) => destruct x
  end.
Ltac sc_all := repeat sc_step.

Section Functions.
  Variable e : env.
  Notation scant := (scant e).

  Lemma sc_swap : forall v, scant never (swap_long e v) (swap_long e v).
  Proof. intro v. unfold swap_long. sc_all. Qed.
  Lemma sc_read_prim : forall k i n, scant never (read_prim k i n) (read_prim k i n).
  Proof.
    intros [] i n; cbn [read_prim]; unfold IFF_readUByte, IFF_readUWord, IFF_readWord, IFF_readULong, IFF_readLong, IFF_readId, IFF_readULong; sc_all.
    apply sc_swap.
  Qed.
  Lemma sc_skip : forall i s b, scant never (IFF_skipUnknownBytes i s b) (IFF_skipUnknownBytes i s b).
  Proof. intros. unfold IFF_skipUnknownBytes. sc_all. Qed.
  Lemma sc_readPad : forall s i, scant never (IFF_readPaddingByte s i) (IFF_readPaddingByte s i).
  Proof. intros. unfold IFF_readPaddingByte. sc_all. Qed.
  Lemma sc_readField : forall k i s n b, scant never (IFF_readField k i s n b) (IFF_readField k i s n b).
  Proof. intros. unfold IFF_readField. sc_all. apply sc_read_prim. Qed.
  Lemma sc_warning : forall a b, scant never (truncated_warning a b) (truncated_warning a b).
  Proof. intros. unfold truncated_warning. sc_all. Qed.
  Lemma sc_create : forall h i s, scant is_none (createExtensionChunk h i s) (createExtensionChunk h i s).
  Proof.
    assert (G : forall n (c : chunk), scant is_none (ok <- malloc n ;; ret (if ok then Some c else None)) (ok <- malloc n ;; ret (if ok then Some c else None))).
    { intros n c. apply sc_bind with (fA := is_false); [apply sc_malloc|intros; sc_all|]. intros a ->. apply fails_ret. reflexivity. }
    intros [| | | | |sp] i s; cbn [createExtensionChunk]; unfold IFF_createUnparsedGroup, IFF_createGroup, IFF_createUnparsedList, IFF_createList, create_fields; try apply G.
    unfold IFF_createRawChunk. sc_step. apply sc_bind with (fA := is_false); [apply sc_malloc| |].
    - intros []; [apply G|sc_all].
    - intros a ->. apply fails_ret. reflexivity.
  Qed.
  Lemma sc_grow : forall n (m : M chunk), (forall w, m e w = m (plenty e) w) ->
    scant never (ok <- malloc n ;; if ok then m else undefined UB_null_deref) (ok <- malloc n ;; if ok then m else undefined UB_null_deref).
  Proof.
    intros n m H. apply sc_bind with (fA := is_false); [apply sc_malloc| |].
    - intros []; [apply sc_refl, H|sc_all].
    - intros a ->. apply fails_null.
  Qed.
  Lemma sc_attach : forall g c, scant never (IFF_attachToGroup g c) (IFF_attachToGroup g c).
  Proof. intros. unfold IFF_attachToGroup. destruct (as_group g) as [[]|]; [|sc_all]. apply sc_grow. reflexivity. Qed.
  Lemma sc_addProp : forall g c, scant never (addPropToList g c) (addPropToList g c).
  Proof. intros. unfold addPropToList. destruct g; try solve [sc_all]. apply sc_grow. reflexivity. Qed.
  Lemma sc_addToGroup : forall g c, scant never (IFF_addToGroup g c) (IFF_addToGroup g c).
  Proof. intros. unfold IFF_addToGroup. apply sc_bind_never; [apply sc_attach|]. intro. sc_all. Qed.
  Lemma sc_read_fields : forall ds vs i s b, scant never (read_fields ds vs i s b) (read_fields ds vs i s b).
  Proof.
    induction ds as [|d ds IH]; intros [|v vs] i s b; cbn [read_fields]; try solve [sc_all].
    apply sc_bind_never; [apply sc_readField|]. intros [[[] [x|]] bp]; sc_all. apply IH.
  Qed.
  Lemma sc_readRaw : forall c b, scant never (IFF_readRawChunk c b) (IFF_readRawChunk c b).
  Proof. intros [i s d|i s g l|i s g p l|i s v] b; cbn [IFF_readRawChunk]; sc_all. Qed.

  (** Freeing is defined, or a pointer or a struct is not what it should be *)
  Lemma free_outcome : forall rg c ft, IFF_freeChunk rg c ft = Done tt \/ exists u, IFF_freeChunk rg c ft = Undefined u /\ struct_ub u.
  Proof.
    intro rg. assert (T : forall (o : outcome unit), o = Undefined UB_type_confusion -> o = Done tt \/ exists u, o = Undefined u /\ struct_ub u).
    { intros o ->. right. exists UB_type_confusion. split; [reflexivity|right; reflexivity]. }
    assert (B : forall o1 o2 : outcome unit, (o1 = Done tt \/ exists u, o1 = Undefined u /\ struct_ub u) -> (o2 = Done tt \/ exists u, o2 = Undefined u /\ struct_ub u) ->
      obind o1 (fun _ => o2) = Done tt \/ exists u, obind o1 (fun _ => o2) = Undefined u /\ struct_ub u).
    { intros o1 o2 [->|(u & -> & U)] R; [exact R|]. right. exists u. split; [reflexivity|exact U]. }
    assert (L : forall l, (forall c, In c l -> forall ft, IFF_freeChunk rg c ft = Done tt \/ exists u, IFF_freeChunk rg c ft = Undefined u /\ struct_ub u) ->
      forall ft, free_all (IFF_freeChunk rg) l ft = Done tt \/ exists u, free_all (IFF_freeChunk rg) l ft = Undefined u /\ struct_ub u).
    { induction l as [|c l IH]; intros H ft; cbn [free_all]; [auto|]. apply B; [apply H; left; reflexivity|]. apply IH. intros; apply H; right; assumption. }
    assert (N : forall ft i (k : handler -> outcome unit), (forall h, k h = Done tt \/ exists u, k h = Undefined u /\ struct_ub u) ->
      obind (find_handler rg ft i) k = Done tt \/ exists u, obind (find_handler rg ft i) k = Undefined u /\ struct_ub u).
    { intros ft i k H. unfold find_handler. destruct (IFF_findChunkType rg ft i); cbn [obind]; [apply H|]. right. exists UB_null_deref. split; [reflexivity|left; reflexivity]. }
    induction c as [i s d|i s g l IH|i s g p l IHp IHl|i s v] using chunk_tree_ind; intro ft; cbn [IFF_freeChunk chunkId]; apply N; intros [| | | | |sp];
      cbn [freeExtensionChunk IFF_freeGroup IFF_freeList]; auto.
  Qed.

  Section Read.
    Variable rc : Z -> M (option chunk).
    Hypothesis RC : forall g, scant is_none (rc g) (rc g).
    Lemma sc_groupSubs : forall f c g b, scant not_ok (readGroupSubChunks rc f c g b) (readGroupSubChunks rc f c g b).
    Proof.
      induction f as [|f IH]; intros c g b; cbn [readGroupSubChunks]; destruct (_ <? _); try solve [sc_all];
        try (apply sc_bind_never; [destruct (_ <? _); [apply sc_warning|]|intros]; sc_all).
      apply sc_bind with (fA := is_none); [apply RC| |intros a ->; apply fails_ret; reflexivity].
      intros [x|]; [|sc_all]. apply sc_bind_never; [apply sc_attach|]. intros. apply sc_bind_never; [sc_all|]. intros. apply IH.
    Qed.
    Lemma sc_listSubs : forall f c g b, scant not_ok (readListSubChunks rc f c g b) (readListSubChunks rc f c g b).
    Proof.
      induction f as [|f IH]; intros c g b; cbn [readListSubChunks]; destruct (_ <? _); try solve [sc_all];
        try (apply sc_bind_never; [destruct (_ <? _); [apply sc_warning|]|intros]; sc_all).
      apply sc_bind with (fA := is_none); [apply RC| |intros a ->; apply fails_ret; reflexivity].
      intros [x|]; [|sc_all]. apply sc_bind_never; [destruct (_ =? _); [apply sc_addProp|apply sc_attach]|].
      intros. apply sc_bind_never; [sc_all|]. intros. apply IH.
    Qed.
    Lemma sc_readExtension : forall f h c b, scant not_ok (readExtensionChunkFields rc f h c b) (readExtensionChunkFields rc f h c b).
    Proof.
      assert (G : forall f c n b, scant not_ok (IFF_readGroup rc f c n b) (IFF_readGroup rc f c n b)).
      { intros f c n b. unfold IFF_readGroup. destruct (as_group c); [|sc_all]. apply sc_bind_never; [apply sc_readField|].
        intros [[[] [x|]] bp]; try solve [sc_all]. apply sc_groupSubs. }
      intros f [| | | | |sp] c b; cbn [readExtensionChunkFields]; try apply G; try (apply sc_never, sc_readRaw).
      - unfold IFF_readList. destruct c; try solve [sc_all]. apply sc_bind_never; [apply sc_readField|].
        intros [[[] [x|]] bp]; try solve [sc_all]. apply sc_bind with (fA := not_ok); [apply sc_listSubs|intros [[[] y] z]; sc_all|].
        intros [[ok y] z] N. unfold not_ok in N. cbn in N. subst ok. intro w. left. do 2 eexists. split; [reflexivity|reflexivity].
      - unfold read_fields_chunk. destruct c; try solve [sc_all]. destruct (fkinds_eqb _ _); [|sc_all].
        apply sc_bind_never; [apply sc_read_fields|]. intros [[a x] y]. sc_all.
    Qed.
    Lemma sc_body : forall rg f i s g, scant is_none (readChunkBody rc rg f i s g) (readChunkBody rc rg f i s g).
    Proof.
      intros. unfold readChunkBody. apply sc_bind_never; [sc_all|]. intro h.
      apply sc_bind with (fA := is_none); [apply sc_create| |intros a ->; apply fails_ret; reflexivity]. intros [c|]; [|sc_all].
      apply sc_bind with (fA := not_ok); [apply sc_readExtension| |].
      - intros [[ok c1] bp]. apply sc_bind_never.
        + apply sc_andM; [sc_all|]. apply sc_andM; [apply sc_skip|apply sc_readPad].
        + intros []; sc_all.
      - intros [[ok c1] bp] N. unfold not_ok in N. cbn in N. subst ok. intro w. unfold andM, bind, ret, lift.
        destruct (free_outcome rg c1 g) as [-> | (u & -> & U)]; [left; exists None, w; split; reflexivity|right; exists u; auto].
    Qed.
  End Read.
  Lemma sc_readChunk : forall rg f g, scant is_none (IFF_readChunk rg f g) (IFF_readChunk rg f g).
  Proof.
    intro rg. induction f as [|f IH]; intro g; cbn [IFF_readChunk]; [sc_all|].
    apply sc_bind_never; [apply (sc_read_prim FId)|]. intros [i|]; [|sc_all]. apply sc_bind_never; [apply (sc_read_prim FLong)|].
    intros [s|]; [|sc_all]. apply sc_body. exact IH.
  Qed.
  Lemma sc_readFd : forall rg, scant is_none (IFF_readFd rg) (IFF_readFd rg).
  Proof.
    intros rg w. unfold IFF_readFd. generalize (S (List.length (r_rest (w_in w)))). intro n.
    lazymatch goal with |- ?m _ _ = _ \/ _ => enough (K : scant is_none m m) by exact (K w) end.
    apply sc_bind with (fA := is_none); [apply sc_readChunk|intros [c|]; sc_all|].
    intros a ->. intro v. left. do 2 eexists. split; reflexivity.
  Qed.
End Functions.

(** ** Functions that do not allocate *)
Section Agree.
  Variable e : env.
  Definition agree {A} (m1 m2 : M A) : Prop := forall w, m1 e w = m2 (plenty e) w.
  Lemma ag_refl : forall A (m : M A), (forall w, m e w = m (plenty e) w) -> agree m m.
  Proof. intros A m H. exact H. Qed.
  Lemma ag_bind : forall A B (m1 m2 : M A) (k1 k2 : A -> M B), agree m1 m2 -> (forall a, agree (k1 a) (k2 a)) -> agree (x <- m1 ;; k1 x) (x <- m2 ;; k2 x).
  Proof. intros A B m1 m2 k1 k2 H K w. unfold bind. rewrite H. destruct (m2 (plenty e) w) as [[a v]|u|]; [apply K|reflexivity|reflexivity]. Qed.
  Lemma ag_ask : forall A (k1 k2 : env -> M A), agree (k1 e) (k2 (plenty e)) -> agree (x <- ask ;; k1 x) (x <- ask ;; k2 x).
  Proof. intros A k1 k2 H w. apply H. Qed.
  Lemma ag_andM : forall a1 a2 b1 b2, agree a1 a2 -> agree b1 b2 -> agree (andM a1 b1) (andM a2 b2).
  Proof. intros a1 a2 b1 b2 H K. apply ag_bind; [exact H|]. intros []; [exact K|apply ag_refl; reflexivity]. Qed.
  Lemma ag_errorId : forall i, agree (IFF_errorId i) (IFF_errorId i).
  Proof. intro. apply ag_refl. reflexivity. Qed.
  Lemma ag_ret : forall A (a : A), agree (ret a) (ret a).
  Proof. intros A a w. reflexivity. Qed.
  Lemma ag_undefined : forall A u, agree (@undefined A u) (undefined u).
  Proof. intros A u w. reflexivity. Qed.
  Lemma ag_lift : forall A (o : outcome A), agree (lift o) (lift o).
  Proof. intros A o w. reflexivity. Qed.
  Lemma ag_idChars : forall l, agree (checkIdChars l) (checkIdChars l).
  Proof. induction l as [|z l IH]; cbn [checkIdChars]; [apply ag_ret|]. destruct (_ || _); [apply ag_bind; [apply ag_refl; reflexivity|intro; apply ag_ret]|exact IH]. Qed.
  Lemma ag_formChars : forall l, agree (checkFormTypeChars l) (checkFormTypeChars l).
  Proof. induction l as [|z l IH]; cbn [checkFormTypeChars]; [apply ag_ret|]. destruct (_ || _); [apply ag_bind; [apply ag_refl; reflexivity|intro; apply ag_ret]|exact IH]. Qed.
  Lemma ag_checkId : forall i, agree (IFF_checkId i) (IFF_checkId i).
  Proof.
    intro i. unfold IFF_checkId. apply ag_ask. apply ag_bind; [apply (ag_idChars (IFF_idToString e i))|]. intros []; cbn [negb]; [|apply ag_ret].
    change (IFF_idToString (plenty e) i) with (IFF_idToString e i). destruct (_ =? _); [|apply ag_ret]. apply ag_bind; [apply ag_refl; reflexivity|intro; apply ag_ret].
  Qed.
  Lemma ag_checkFormType : forall i, agree (IFF_checkFormType i) (IFF_checkFormType i).
  Proof.
    intro i. unfold IFF_checkFormType. apply ag_bind; [apply ag_checkId|]. intros []; cbn [negb]; [|apply ag_ret]. apply ag_ask.
    apply ag_bind; [apply (ag_formChars (IFF_idToString e i))|]. intros []; cbn [negb]; [|apply ag_ret]. destruct (is_reserved_form_type i); [|apply ag_ret].
    repeat (apply ag_bind; [first [apply ag_errorId|apply ag_refl; reflexivity]|intro]). apply ag_ret.
  Qed.
End Agree.

Ltac ag_step :=
  lazymatch goal with
  | |- agree ?e (bind ask _) (bind ask _) => apply ag_ask; cbv beta zeta;
       change (size_t_bits (plenty e)) with (size_t_bits e); change (native_load (plenty e)) with (native_load e);
       change (native_store (plenty e)) with (native_store e); change (big_endian (plenty e)) with (big_endian e);
       change (lp64 (plenty e)) with (lp64 e); change (garbage (plenty e)) with (garbage e); change (strict_c (plenty e)) with (strict_c e);
       change (fieldDoesNotFitInChunk (plenty e)) with (fieldDoesNotFitInChunk e); change (swap_long (plenty e)) with (swap_long e)
  | |- agree _ (bind _ _) (bind _ _) => apply ag_bind; [|intros]
  | |- agree _ (andM _ _) (andM _ _) => apply ag_andM
  | |- agree _ (ret _) (ret _) => apply ag_refl; reflexivity
  | |- agree _ (lift _) (lift _) => apply ag_refl; reflexivity
  | |- agree _ (undefined _) (undefined _) => apply ag_refl; reflexivity
  | |- agree _ nofuel nofuel => apply ag_refl; reflexivity
  | |- agree _ (IFF_error _) (IFF_error _) => apply ag_refl; reflexivity
  | |- agree _ (IFF_errorId _) (IFF_errorId _) => apply ag_errorId
  | |- agree _ (IFF_readError _ _) (IFF_readError _ _) => unfold IFF_readError
  | |- agree _ (IFF_writeError _ _) (IFF_writeError _ _) => unfold IFF_writeError
  | |- agree _ fgetc fgetc => apply ag_refl; reflexivity
  | |- agree _ (fread _) (fread _) => apply ag_refl; reflexivity
  | |- agree _ (fseek_cur _) (fseek_cur _) => apply ag_refl; reflexivity
  | |- agree _ (fwrite _) (fwrite _) => apply ag_refl; reflexivity
  | |- agree _ (fputc _) (fputc _) => apply ag_refl; reflexivity
  | |- agree _ (match ?x with _ => _ end) (match ?x with _ => _ end) => destruct x
  end.
Ltac ag_all := repeat ag_step.

Section Functions2.
  Variable e : env.
  Notation agree := (agree e).
  Lemma ag_swap : forall v, agree (swap_long e v) (swap_long e v).
  Proof. intro v. unfold swap_long. ag_all. Qed.
  Lemma ag_notAllowed : forall i s, agree (not_allowed i s) (not_allowed i s).
  Proof. intros. unfold not_allowed. ag_all. Qed.
  Lemma ag_checkSize : forall c s, agree (IFF_checkGroupChunkSize c s) (IFF_checkGroupChunkSize c s).
  Proof. intros. unfold IFF_checkGroupChunkSize. ag_all. Qed.
  Lemma ag_catSub : forall g c, agree (IFF_checkCATSubChunk g c) (IFF_checkCATSubChunk g c).
  Proof.
    intros. unfold IFF_checkCATSubChunk. destruct (negb _); [apply ag_notAllowed|]. destruct (as_group g) as [[ct q]|]; [|apply ag_undefined].
    destruct (negb _); [|apply ag_ret]. destruct (checkValidCATSubChunkId _); [|apply ag_ret]. destruct (as_group c) as [[gt qq]|]; [|apply ag_undefined]. ag_all.
  Qed.
  Lemma ag_check_subs : forall cc sc l, (forall c, In c l -> forall g, agree (cc c g) (cc c g)) -> (forall c, agree (sc c) (sc c)) ->
    forall g a, agree (check_subs cc sc l g a) (check_subs cc sc l g a).
  Proof.
    intros cc sc l. induction l as [|c l IH]; intros H SC g a; cbn [check_subs]; [apply ag_ret|].
    apply ag_bind; [apply SC|]. intros []; cbn [negb]; [|apply ag_ret]. apply ag_bind; [apply H; left; reflexivity|]. intros []; cbn [negb]; [|apply ag_ret].
    apply ag_bind; [apply ag_lift|]. intro. apply IH; [|exact SC]. intros; apply H; right; assumption.
  Qed.
  Lemma ag_checkExtension : forall cc c, (forall x, match c with CGroup _ _ _ l => In x l | CList _ _ _ p l => In x p \/ In x l | _ => False end -> forall g, agree (cc x g) (cc x g)) ->
    forall h, agree (checkExtensionChunk cc h c) (checkExtensionChunk cc h c).
  Proof.
    intros cc c H h.
    assert (G : forall tc sc, (forall g, agree (tc g) (tc g)) -> (forall g x, agree (sc g x) (sc g x)) -> agree (IFF_checkGroup cc tc sc c) (IFF_checkGroup cc tc sc c)).
    { intros tc sc T SC. unfold IFF_checkGroup. destruct c as [i s d|i s g0 l|i s g0 p l|i s v]; try apply ag_undefined;
        (apply ag_bind; [apply T|]; intros []; cbn [negb]; [|apply ag_ret]); (apply ag_bind; [apply ag_check_subs; auto|]); intro; (destruct (_ =? _); [apply ag_ret|]);
        (apply ag_bind; [apply ag_lift|]); intro; apply ag_checkSize. }
    destruct h as [| | | | |sp]; cbn [checkExtensionChunk].
    - apply G; [apply ag_checkFormType|]. intros g x. unfold form_subChunkCheck. destruct (_ =? _); [apply ag_notAllowed|apply ag_ret].
    - apply G; [apply ag_checkId|]. apply ag_catSub.
    - unfold IFF_checkList. destruct c as [i s d|i s g0 l|i s g0 p l|i s v]; try apply ag_undefined.
      apply ag_bind; [apply ag_checkId|]. intros []; cbn [negb]; [|apply ag_ret].
      apply ag_bind; [apply ag_check_subs; auto; intro; apply ag_ret|]. intro. destruct (_ =? _); [apply ag_ret|].
      apply ag_bind; [apply ag_lift|]. intro. apply ag_bind; [apply ag_check_subs; auto; intro; apply ag_catSub|]. intro. destruct (_ =? _); [apply ag_ret|].
      apply ag_bind; [apply ag_lift|]. intro. apply ag_checkSize.
    - apply G; [apply ag_checkFormType|]. intros g x. unfold prop_subChunkCheck. destruct (_ || _); [apply ag_notAllowed|apply ag_ret].
    - apply ag_ret.
    - unfold check_fields_chunk. destruct c as [i s d|i s g0 l|i s g0 p l|i s v]; try apply ag_undefined. ag_all.
  Qed.
  Lemma ag_checkChunk : forall rg c g, agree (IFF_checkChunk rg c g) (IFF_checkChunk rg c g).
  Proof.
    intro rg.
    assert (HEAD : forall c g, (forall h, agree (checkExtensionChunk (IFF_checkChunk rg) h c) (checkExtensionChunk (IFF_checkChunk rg) h c)) ->
      agree (ok <- IFF_checkId (chunkId c) ;; if negb ok then ret false else h <- lift (find_handler rg g (chunkId c)) ;; checkExtensionChunk (IFF_checkChunk rg) h c)
           (ok <- IFF_checkId (chunkId c) ;; if negb ok then ret false else h <- lift (find_handler rg g (chunkId c)) ;; checkExtensionChunk (IFF_checkChunk rg) h c)).
    { intros c g H. apply ag_bind; [apply ag_checkId|]. intros []; cbn [negb]; [|apply ag_ret]. apply ag_bind; [apply ag_lift|]. exact H. }
    induction c as [i s d|i s g0 l IH|i s g0 p l IHp IHl|i s v] using chunk_tree_ind; intro g; apply (HEAD _ g); apply ag_checkExtension; intros x H.
    - contradiction.
    - apply IH. exact H.
    - destruct H; auto.
    - contradiction.
  Qed.
  Lemma ag_check : forall c rg, agree (IFF_check c rg) (IFF_check c rg).
  Proof. intros. unfold IFF_check. destruct (_ && _); [ag_all|]. apply ag_checkChunk. Qed.
End Functions2.

(** ** Functions that do not test what they allocate: writing *)
Section Fragile.
  Variable e : env.
  Definition fragile {A} (m1 m2 : M A) : Prop := forall w, m1 e w = m2 (plenty e) w \/ m1 e w = Undefined UB_null_deref.
  Lemma fr_refl : forall A (m : M A), (forall w, m e w = m (plenty e) w) -> fragile m m.
  Proof. intros A m H w. left. apply H. Qed.
  Lemma fr_bind : forall A B (m1 m2 : M A) (k1 k2 : A -> M B), fragile m1 m2 -> (forall a, fragile (k1 a) (k2 a)) -> fragile (x <- m1 ;; k1 x) (x <- m2 ;; k2 x).
  Proof. intros A B m1 m2 k1 k2 H K w. unfold bind. destruct (H w) as [-> | ->]; [|right; reflexivity]. destruct (m2 (plenty e) w) as [[a v]|u|]; [apply K|left; reflexivity|left; reflexivity]. Qed.
  Lemma fr_ask : forall A (k1 k2 : env -> M A), fragile (k1 e) (k2 (plenty e)) -> fragile (x <- ask ;; k1 x) (x <- ask ;; k2 x).
  Proof. intros A k1 k2 H w. apply H. Qed.
  Lemma fr_andM : forall a1 a2 b1 b2, fragile a1 a2 -> fragile b1 b2 -> fragile (andM a1 b1) (andM a2 b2).
  Proof. intros a1 a2 b1 b2 H K. apply fr_bind; [exact H|]. intros []; [exact K|apply fr_refl; reflexivity]. Qed.
  Lemma fr_errorId : forall i, fragile (IFF_errorId i) (IFF_errorId i).
  Proof. intro. apply fr_refl. reflexivity. Qed.
End Fragile.

Ltac fr_step :=
  lazymatch goal with
  | |- fragile ?e (bind ask _) (bind ask _) => apply fr_ask; cbv beta zeta;
       change (size_t_bits (plenty e)) with (size_t_bits e); change (native_load (plenty e)) with (native_load e);
       change (native_store (plenty e)) with (native_store e); change (big_endian (plenty e)) with (big_endian e);
       change (lp64 (plenty e)) with (lp64 e); change (garbage (plenty e)) with (garbage e); change (strict_c (plenty e)) with (strict_c e);
       change (fieldDoesNotFitInChunk (plenty e)) with (fieldDoesNotFitInChunk e); change (swap_long (plenty e)) with (swap_long e)
  | |- fragile _ (bind _ _) (bind _ _) => apply fr_bind; [|intros]
  | |- fragile _ (andM _ _) (andM _ _) => apply fr_andM
  | |- fragile _ (ret _) (ret _) => apply fr_refl; reflexivity
  | |- fragile _ (lift _) (lift _) => apply fr_refl; reflexivity
  | |- fragile _ (undefined _) (undefined _) => apply fr_refl; reflexivity
  | |- fragile _ nofuel nofuel => apply fr_refl; reflexivity
  | |- fragile _ (IFF_error _) (IFF_error _) => apply fr_refl; reflexivity
  | |- fragile _ (IFF_errorId _) (IFF_errorId _) => apply fr_errorId
  | |- fragile _ (IFF_readError _ _) (IFF_readError _ _) => unfold IFF_readError
  | |- fragile _ (IFF_writeError _ _) (IFF_writeError _ _) => unfold IFF_writeError
  | |- fragile _ fgetc fgetc => apply fr_refl; reflexivity
  | |- fragile _ (fread _) (fread _) => apply fr_refl; reflexivity
  | |- fragile _ (fseek_cur _) (fseek_cur _) => apply fr_refl; reflexivity
  | |- fragile _ (fwrite _) (fwrite _) => apply fr_refl; reflexivity
  | |- fragile _ (fputc _) (fputc _) => apply fr_refl; reflexivity
  | |- fragile _ (match ?x with _ => _ end) (match ?x with _ => _ end) => destruct x
  end.
Ltac fr_all := repeat fr_step.

Section Functions3.
  Variable e : env.
  Notation fragile := (fragile e).
  Lemma fr_swap : forall v, fragile (swap_long e v) (swap_long e v).
  Proof. intro v. unfold swap_long. fr_all. Qed.
  Lemma fr_write_prim : forall k v i n, fragile (write_prim k v i n) (write_prim k v i n).
  Proof.
    intros [] v i n; cbn [write_prim]; unfold IFF_writeUByte, IFF_writeUWord, IFF_writeWord, IFF_writeULong, IFF_writeLong, IFF_writeId, IFF_writeULong; fr_all.
    apply fr_swap.
  Qed.
  Lemma fr_alloc : forall A n (m : M A), fragile m m ->
    fragile (a <- malloc n ;; if negb a then undefined UB_null_deref else m) (a <- malloc n ;; if negb a then undefined UB_null_deref else m).
  Proof.
    intros A n m H w. unfold bind, malloc. change (size_t_bits (plenty e)) with (size_t_bits e). cbn [plenty malloc_ok].
    destruct (malloc_ok e (w_allocs w) n); [|right; rewrite andb_false_r; reflexivity]. destruct (_ && true); cbn [negb]; [apply H|left; reflexivity].
  Qed.
  Lemma fr_zero : forall i s b, fragile (IFF_writeZeroFillerBytes i s b) (IFF_writeZeroFillerBytes i s b).
  Proof.
    intros i s b. unfold IFF_writeZeroFillerBytes. destruct (b <? s); [|fr_all]. cbv zeta. destruct (INT_MAX <? s - b); [fr_all|]. apply fr_alloc. fr_all.
  Qed.
  Lemma fr_writePad : forall s i, fragile (IFF_writePaddingByte s i) (IFF_writePaddingByte s i).
  Proof. intros. unfold IFF_writePaddingByte. fr_all. Qed.
  Lemma fr_writeField : forall k v i s n b, fragile (IFF_writeField k v i s n b) (IFF_writeField k v i s n b).
  Proof. intros. unfold IFF_writeField. fr_all. apply fr_write_prim. Qed.
  Lemma fr_write_fields : forall ds vs i s b, fragile (write_fields ds vs i s b) (write_fields ds vs i s b).
  Proof.
    induction ds as [|d ds IH]; intros [|[k v] vs] i s b; cbn [write_fields]; try solve [fr_all].
    apply fr_bind; [apply fr_writeField|]. intros [[] bp]; fr_all. apply IH.
  Qed.
  Lemma fr_writeRaw : forall c b, fragile (IFF_writeRawChunk c b) (IFF_writeRawChunk c b).
  Proof. intros [i s d|i s g l|i s g p l|i s v] b; cbn [IFF_writeRawChunk]; fr_all. Qed.
  Lemma fr_write_all : forall wc m l, (forall c, In c l -> forall g, fragile (wc c g) (wc c g)) -> forall g b, fragile (write_all wc m l g b) (write_all wc m l g b).
  Proof.
    intros wc m l. induction l as [|c l IH]; intros H g b; cbn [write_all]; [fr_all|].
    apply fr_bind; [apply H; left; reflexivity|]. intros []; [|fr_all]. apply fr_bind; [fr_all|]. intro. apply IH. intros; apply H; right; assumption.
  Qed.
  Lemma fr_writeBody : forall wc rg c, (forall x, match c with CGroup _ _ _ l => In x l | CList _ _ _ p l => In x p \/ In x l | _ => False end -> forall g, fragile (wc x g) (wc x g)) ->
    forall g, fragile (writeChunkBody wc rg c g) (writeChunkBody wc rg c g).
  Proof.
    intros wc rg c H g. unfold writeChunkBody. apply fr_bind; [fr_all|]. intro h. apply fr_bind.
    - assert (G : forall n b, fragile (IFF_writeGroup wc c n b) (IFF_writeGroup wc c n b)).
      { intros n b. unfold IFF_writeGroup. destruct c as [i s d|i s g0 l|i s g0 p l|i s v]; try solve [fr_all]; (apply fr_bind; [apply fr_writeField|]);
          intros [[] bp]; try solve [fr_all]; unfold IFF_writeGroupSubChunks; apply fr_write_all; auto. }
      destruct h; cbn [writeExtensionChunkFields]; try apply G; try apply fr_writeRaw.
      + unfold IFF_writeList. destruct c as [i s d|i s g0 l|i s g0 p l|i s v]; try solve [fr_all]. apply fr_bind; [apply fr_writeField|].
        intros [[] bp]; try solve [fr_all]. apply fr_bind; [apply fr_write_all; auto|]. intros [[] bp2]; [|fr_all]. apply fr_write_all. auto.
      + unfold write_fields_chunk. destruct c; try solve [fr_all]. destruct (fkinds_eqb _ _); [apply fr_write_fields|fr_all].
    - intros [ok bp]. apply fr_andM; [fr_all|]. apply fr_andM; [apply fr_zero|apply fr_writePad].
  Qed.
  Lemma fr_writeChunk : forall rg c g, fragile (IFF_writeChunk rg c g) (IFF_writeChunk rg c g).
  Proof.
    intro rg.
    assert (HEAD : forall c g, fragile (writeChunkBody (IFF_writeChunk rg) rg c g) (writeChunkBody (IFF_writeChunk rg) rg c g) ->
      fragile (andM (IFF_writeId (chunkId c) (chunkId c) "chunkId") (andM (IFF_writeLong (chunkSize c) (chunkId c) "chunkSize") (writeChunkBody (IFF_writeChunk rg) rg c g)))
           (andM (IFF_writeId (chunkId c) (chunkId c) "chunkId") (andM (IFF_writeLong (chunkSize c) (chunkId c) "chunkSize") (writeChunkBody (IFF_writeChunk rg) rg c g)))).
    { intros c g H. apply fr_andM; [apply (fr_write_prim FId)|]. apply fr_andM; [apply (fr_write_prim FLong)|exact H]. }
    induction c as [i s d|i s g0 l IH|i s g0 p l IHp IHl|i s v] using chunk_tree_ind; intro g; apply (HEAD _ g); apply fr_writeBody; intros x H.
    - contradiction.
    - apply IH. exact H.
    - destruct H; auto.
    - contradiction.
  Qed.
  Lemma fr_writeFd : forall c rg, fragile (IFF_writeFd c rg) (IFF_writeFd c rg).
  Proof. intros. apply fr_writeChunk. Qed.
End Functions3.

(** ** Writing a tree whose sizes are right needs no memory *)
Section Exact.
  Variable e : env.
  Notation agree := (agree e).
  Lemma ag_write_prim : forall k v i n, agree (write_prim k v i n) (write_prim k v i n).
  Proof.
    intros [] v i n; cbn [write_prim]; unfold IFF_writeUByte, IFF_writeUWord, IFF_writeWord, IFF_writeULong, IFF_writeLong, IFF_writeId, IFF_writeULong; ag_all.
    apply ag_swap.
  Qed.
  Lemma ag_writePad : forall s i, agree (IFF_writePaddingByte s i) (IFF_writePaddingByte s i).
  Proof. intros. unfold IFF_writePaddingByte. ag_all. Qed.
  Lemma ag_writeField : forall k v i s n b, agree (IFF_writeField k v i s n b) (IFF_writeField k v i s n b).
  Proof. intros. unfold IFF_writeField. ag_all. apply ag_write_prim. Qed.

  (** Alike, and the value has the property *)
  Definition agreeP {A} (P : A -> Prop) (m1 m2 : M A) : Prop := agree m1 m2 /\ forall w a w', m1 e w = Done (a, w') -> P a.
  Lemma agP_bind : forall A B (P : A -> Prop) (Q : B -> Prop) (m1 m2 : M A) (k1 k2 : A -> M B), agreeP P m1 m2 -> (forall a, P a -> agreeP Q (k1 a) (k2 a)) ->
    agreeP Q (x <- m1 ;; k1 x) (x <- m2 ;; k2 x).
  Proof.
    intros A B P Q m1 m2 k1 k2 [H HP] K. split.
    - intro w. unfold bind. specialize (HP w). rewrite <- (H w). destruct (m1 e w) as [[a v]|u|]; [|reflexivity|reflexivity]. apply (proj1 (K a (HP a v eq_refl))).
    - intros w b w'. unfold bind. specialize (HP w). destruct (m1 e w) as [[a v]|u|]; [|discriminate|discriminate]. apply (proj2 (K a (HP a v eq_refl))).
  Qed.
  Lemma agP_any : forall A (m1 m2 : M A), agree m1 m2 -> agreeP (fun _ => True) m1 m2.
  Proof. intros A m1 m2 H. split; [exact H|trivial]. Qed.
  Lemma agP_ret : forall A (P : A -> Prop) a, P a -> agreeP P (ret a) (ret a).
  Proof. intros A P a H. split; [apply ag_ret|]. intros w b w' E. injection E as <- _. exact H. Qed.
  Lemma agP_lift : forall A (P : A -> Prop) o, (forall a, o = Done a -> P a) -> agreeP P (lift o) (lift o).
  Proof. intros A P o H. split; [apply ag_lift|]. intros w b w' E. unfold lift in E. destruct o; try discriminate. injection E as <- _. auto. Qed.
  Lemma agP_undefined : forall A (P : A -> Prop) u, agreeP P (undefined u) (undefined u).
  Proof. intros A P u. split; [apply ag_undefined|]. discriminate. Qed.
  Lemma agP_then : forall A B (Q : B -> Prop) (m1 m2 : M A) (k1 k2 : A -> M B), agree m1 m2 -> (forall a, agreeP Q (k1 a) (k2 a)) -> agreeP Q (x <- m1 ;; k1 x) (x <- m2 ;; k2 x).
  Proof. intros A B Q m1 m2 k1 k2 H K. apply agP_bind with (P := fun _ => True); [apply agP_any; exact H|auto]. Qed.

  (** On success [s] bytes were written *)
  Definition filled (s : Z) (r : bool * Z) : Prop := fst r = true -> snd r = s.

  Lemma ag_noFiller : forall i s b, s <= b -> agree (IFF_writeZeroFillerBytes i s b) (IFF_writeZeroFillerBytes i s b).
  Proof. intros i s b H. unfold IFF_writeZeroFillerBytes. rewrite (proj2 (Z.ltb_ge _ _)) by lia. apply ag_ret. Qed.
  Lemma agP_write_all : forall wc m l g b, (forall c, In c l -> agree (wc c g) (wc c g)) -> (forall c, In c l -> 0 <= chunkSize c) ->
    0 <= b -> b + body_size l <= INT_MAX -> agreeP (filled (b + body_size l)) (write_all wc m l g b) (write_all wc m l g b).
  Proof.
    intros wc m l g. induction l as [|c l IH]; intros b H S B0 B1; cbn [write_all].
    - apply agP_ret. intros _. unfold body_size. cbn. lia.
    - rewrite body_size_cons in *. pose proof (S c (or_introl eq_refl)). pose proof (physical_range (chunkSize c)).
      assert (0 <= body_size l) by (apply body_size_nonneg; intros; apply S; right; assumption).
      apply agP_then; [apply H; left; reflexivity|]. intros [].
      + rewrite increment_ok by (unfold INT_MIN; lia). apply agP_bind with (P := fun b' => b' = b + physical (chunkSize c)); [apply agP_lift; intros a E; injection E as <-; reflexivity|].
        intros a ->. rewrite Z.add_assoc. apply IH; [intros; apply H; right; assumption|intros; apply S; right; assumption|lia|lia].
      + apply agP_then; [apply ag_refl; reflexivity|]. intros []. apply agP_ret. discriminate.
  Qed.
  Lemma agP_type : forall v i s n, 4 <= s <= INT_MAX ->
    agreeP (fun r => match r with (FIELD_MORE, bp) => bp = 4 | (FIELD_LAST, _) => False | _ => True end) (IFF_writeField FId v i s n 0) (IFF_writeField FId v i s n 0).
  Proof.
    intros v i s n S. split; [apply ag_writeField|]. intros w a w'. unfold IFF_writeField. unfold bind at 1, ask. cbn [fieldSize].
    assert (F : fieldDoesNotFitInChunk e 4 s 0 = false).
    { pose proof (fit_normal e FId s 0) as F. cbn [fieldSize] in F. rewrite F; [apply Z.ltb_ge; lia|lia|unfold INT_MAX; lia]. }
    rewrite F. unfold bind. destruct (write_prim FId v i n e w) as [[[] v1]|u|]; intro X; try discriminate; injection X as <- _; [reflexivity|exact I].
  Qed.
  Lemma ag_writeWF : forall c ft, WF no_apps ft c -> agree (IFF_writeChunk (selectChunkRegistry None) c ft) (IFF_writeChunk (selectChunkRegistry None) c ft).
  Proof.
    assert (HEAD : forall c g, (forall h, find_handler (selectChunkRegistry None) g (chunkId c) = Done h ->
        agreeP (filled (chunkSize c)) (writeExtensionChunkFields (IFF_writeChunk (selectChunkRegistry None)) h c 0) (writeExtensionChunkFields (IFF_writeChunk (selectChunkRegistry None)) h c 0)) ->
      agree (andM (IFF_writeId (chunkId c) (chunkId c) "chunkId") (andM (IFF_writeLong (chunkSize c) (chunkId c) "chunkSize") (writeChunkBody (IFF_writeChunk (selectChunkRegistry None)) (selectChunkRegistry None) c g)))
            (andM (IFF_writeId (chunkId c) (chunkId c) "chunkId") (andM (IFF_writeLong (chunkSize c) (chunkId c) "chunkSize") (writeChunkBody (IFF_writeChunk (selectChunkRegistry None)) (selectChunkRegistry None) c g)))).
    { intros c g H. apply ag_andM; [apply (ag_write_prim FId)|]. apply ag_andM; [apply (ag_write_prim FLong)|]. unfold writeChunkBody.
      apply (fun K => proj1 (agP_bind _ _ (fun h => find_handler (selectChunkRegistry None) g (chunkId c) = Done h) (fun _ : bool => True) _ _ _ _ (agP_lift _ _ _ (fun a E => E)) K)).
      intros h F. eapply agP_bind; [apply (H h F)|]. intros [ok bp] FL. apply agP_any. destruct ok; [|intro w; reflexivity].
      apply ag_andM; [apply ag_ret|]. apply ag_andM; [|apply ag_writePad]. apply ag_noFiller. rewrite (FL eq_refl : bp = _). lia. }
    assert (ALL : forall l g, (forall c, In c l -> WF no_apps g c) -> (forall c, In c l -> 0 <= chunkSize c)).
    { intros l g H c I. pose proof (WF_size _ _ _ (H c I)). lia. }
    assert (ANY : forall ft ft' c, WF no_apps ft c -> WF no_apps ft' c).
    { intros ft ft' c W. inversion W; subst; econstructor; eauto. }
    assert (GROUP : forall i s g l n, 4 <= s <= INT_MAX -> s = 4 + body_size l -> (forall c, In c l -> 0 <= chunkSize c) ->
      (forall c, In c l -> agree (IFF_writeChunk (selectChunkRegistry None) c g) (IFF_writeChunk (selectChunkRegistry None) c g)) ->
      agreeP (filled s) (IFF_writeGroup (IFF_writeChunk (selectChunkRegistry None)) (CGroup i s g l) n 0) (IFF_writeGroup (IFF_writeChunk (selectChunkRegistry None)) (CGroup i s g l) n 0)).
    { intros i s g l n S B P K. cbn [IFF_writeGroup]. eapply agP_bind; [apply agP_type; exact S|]. intros [[] bp]; [intros ->|intros _; apply agP_ret; discriminate|intros []].
      unfold IFF_writeGroupSubChunks. rewrite B. apply agP_write_all; [exact K|exact P|lia|lia]. }
    induction c as [i s d|i s g0 l IH|i s g0 p l IHp IHl|i s v] using chunk_tree_ind; intros g W; apply (HEAD _ g); intros h F;
      rewrite (default_registry g _) in F; injection F as <-; inversion W as [? ? d' R N A L|? ? ? ? ? ? ? ? ? ? ? ? ?|? ? ? ? ? IN R WS S L|? ? ? ? ? R WP WS S L]; subst; try discriminate.
    - cbn [chunkId]. rewrite handler_data by assumption. cbn [no_apps writeExtensionChunkFields IFF_writeRawChunk chunkSize].
      split; [ag_all|]. intros w a w'. unfold bind, ask, lift. destruct (block_bytes _ _) as [x|u|]; try discriminate. destruct (fwrite x e w) as [[[] v]|u|]; try discriminate.
      + rewrite Z.add_0_l. destruct (_ <? _); [discriminate|]. intro X. injection X as <- _. intros _. cbn. lia.
      + intro X. injection X as <- _. discriminate.
    - assert (P : forall c, In c l -> 0 <= chunkSize c) by (apply (ALL l g0); exact WS).
      assert (G : forall n, agreeP (filled (4 + zlength (flat_map encode l))) (IFF_writeGroup (IFF_writeChunk (selectChunkRegistry None)) (CGroup i (4 + zlength (flat_map encode l)) g0 l) n 0)
          (IFF_writeGroup (IFF_writeChunk (selectChunkRegistry None)) (CGroup i (4 + zlength (flat_map encode l)) g0 l) n 0)).
      { intro n. pose proof (zlength_nonneg _ (flat_map encode l)). apply GROUP; [lia| |exact P|].
        - rewrite (flat_encode_length no_apps g0 l WS). reflexivity.
        - intros c I. apply IH; [exact I|]. auto. }
      cbn [chunkId chunkSize]. destruct (WriteProofs.group_handler no_apps g i IN) as (h & -> & [<-|[<-|[<-|[]]]]); apply G.
    - change (expected_handler no_apps g (chunkId (CList LIST_ID _ g0 p l))) with HList. cbn [chunkSize writeExtensionChunkFields IFF_writeList].
      assert (Wp : forall c, In c p -> WF no_apps g0 c) by (intros c I; apply WP; exact I).
      assert (Wl : forall c, In c l -> WF no_apps g0 c) by (intros c I; apply WS; exact I).
      pose proof (zlength_nonneg _ (flat_map encode p)). pose proof (zlength_nonneg _ (flat_map encode l)).
      rewrite (flat_encode_length no_apps g0 p Wp), (flat_encode_length no_apps g0 l Wl) in *.
      eapply agP_bind; [apply agP_type; lia|]. intros [[] bp]; [intros ->|intros _; apply agP_ret; discriminate|intros []].
      unfold writeListPropChunks, IFF_writeGroupSubChunks. apply agP_bind with (P := filled (4 + body_size p)).
      { apply agP_write_all; [|apply (ALL p g0 Wp)|lia|lia]. intros c I. apply IHp; [exact I|]. apply (ANY g0), Wp, I. }
      intros [[] b2] E2; [|apply agP_ret; discriminate]. rewrite (E2 eq_refl : b2 = _). apply agP_write_all; [|apply (ALL l g0 Wl)|lia|lia].
      intros c I. apply IHl; [exact I|auto].
  Qed.
End Exact.

(** ** Building *)
Section Building.
  Variable e : env.
  Notation fragile := (fragile e).
  Lemma fr_grow : forall n (m : M chunk), (forall w, m e w = m (plenty e) w) ->
    fragile (ok <- malloc n ;; if ok then m else undefined UB_null_deref) (ok <- malloc n ;; if ok then m else undefined UB_null_deref).
  Proof.
    intros n m H w. unfold bind, malloc. change (size_t_bits (plenty e)) with (size_t_bits e). cbn [plenty malloc_ok].
    destruct (malloc_ok e (w_allocs w) n); [|right; rewrite andb_false_r; reflexivity]. destruct (_ && true); [left; apply H|left; reflexivity].
  Qed.
  Lemma fr_attach : forall g c, fragile (IFF_attachToGroup g c) (IFF_attachToGroup g c).
  Proof. intros. unfold IFF_attachToGroup. destruct (as_group g) as [[]|]; [|fr_all]. apply fr_grow. reflexivity. Qed.
  Lemma fr_addToGroup : forall g c, fragile (IFF_addToGroup g c) (IFF_addToGroup g c).
  Proof. intros. unfold IFF_addToGroup. apply fr_bind; [apply fr_attach|]. intro. fr_all. Qed.
  Lemma fr_addPropToList : forall g c, fragile (IFF_addPropToList g c) (IFF_addPropToList g c).
  Proof.
    intros. unfold IFF_addPropToList. apply fr_bind; [|intro; fr_all]. unfold addPropToList. destruct g; try solve [fr_all]. apply fr_grow. reflexivity.
  Qed.
  Lemma fr_addToCAT : forall g c, fragile (IFF_addToCATAndUpdateContentsType g c) (IFF_addToCATAndUpdateContentsType g c).
  Proof. intros. unfold IFF_addToCATAndUpdateContentsType. apply fr_bind; [fr_all|]. intro. apply fr_addToGroup. Qed.
  Lemma creates : forall h i s w, createExtensionChunk h i s e w = createExtensionChunk h i s (plenty e) w \/ exists w', createExtensionChunk h i s e w = Done (None, w').
  Proof.
    intros h i s w. destruct (sc_create e h i s w) as [E | [(a & w' & E & F) | (u & E & _)]]; [left; exact E|right; exists w'; unfold is_none in F; subst; exact E|].
    exfalso. revert E. destruct h; cbn [createExtensionChunk]; unfold IFF_createUnparsedGroup, IFF_createGroup, IFF_createUnparsedList, IFF_createList, create_fields; try discriminate.
    unfold IFF_createRawChunk, bind, ask, malloc, ret. destruct (_ && _); discriminate.
  Qed.
End Building.
