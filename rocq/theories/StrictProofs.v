(** * What treating ISO C violations as undefined adds *)

From Coq Require Import ZArith List Bool String Lia.
From Coq Require Import Strings.Byte.
From Verif Require Import Machine Io Types Build Read Write Iff Spec Lemmas IoProofs.
Import ListNotations.
Open Scope Z_scope.

(** The same host, with mainstream behaviour for signed shifts and printf. *)
Definition lenient (e : env) : env :=
  mkEnv (big_endian e) (char_signed e) (lp64 e) false (malloc_ok e) (garbage e) (place e).

Section Strict.
  Variable e : env.

  (** The run on [e] is the run on the lenient host, or one of the two ISO C
      violations. *)
  Definition strictly {A} (m1 m2 : M A) : Prop := forall w,
    m1 e w = m2 (lenient e) w \/ m1 e w = Undefined UB_signed_shift \/ m1 e w = Undefined UB_printf_type.

  Lemma st_refl : forall A (m : M A), (forall w, m e w = m (lenient e) w) -> strictly m m.
  Proof. intros A m H w. left. apply H. Qed.
  Lemma st_bind : forall A B (m1 m2 : M A) (k1 k2 : A -> M B), strictly m1 m2 -> (forall a, strictly (k1 a) (k2 a)) ->
    strictly (x <- m1 ;; k1 x) (x <- m2 ;; k2 x).
  Proof.
    intros A B m1 m2 k1 k2 H K w. unfold bind. destruct (H w) as [-> | [-> | ->]]; [|auto|auto].
    destruct (m2 (lenient e) w) as [[a v]|u|]; [|auto|auto]. apply K.
  Qed.
  Lemma st_ask : forall A (k1 k2 : env -> M A), strictly (k1 e) (k2 (lenient e)) -> strictly (x <- ask ;; k1 x) (x <- ask ;; k2 x).
  Proof. intros A k1 k2 H w. apply H. Qed.
  Lemma st_andM : forall a1 a2 b1 b2, strictly a1 a2 -> strictly b1 b2 -> strictly (andM a1 b1) (andM a2 b2).
  Proof. intros a1 a2 b1 b2 H K. apply st_bind; [exact H|]. intros []; [exact K|apply st_refl; reflexivity]. Qed.
  Lemma st_shift : forall A (m : M A), strictly (undefined UB_signed_shift) m.
  Proof. intros A m w. auto. Qed.
  Lemma st_printf : forall A (m : M A), strictly (undefined UB_printf_type) m.
  Proof. intros A m w. auto. Qed.
  Lemma st_errorId : forall i, strictly (IFF_errorId i) (IFF_errorId i).
  Proof. intro. apply st_refl. reflexivity. Qed.
End Strict.

Ltac st_step :=
  lazymatch goal with
  | |- strictly _ (undefined UB_signed_shift) _ => apply st_shift
  | |- strictly _ (undefined UB_printf_type) _ => apply st_printf
  | |- strictly ?e (bind ask _) (bind ask _) => apply st_ask; cbv beta zeta;
       change (size_t_bits (lenient e)) with (size_t_bits e); change (native_load (lenient e)) with (native_load e);
       change (native_store (lenient e)) with (native_store e); change (big_endian (lenient e)) with (big_endian e);
       change (lp64 (lenient e)) with (lp64 e); change (garbage (lenient e)) with (garbage e); change (strict_c (lenient e)) with false;
       change (fieldDoesNotFitInChunk (lenient e)) with (fieldDoesNotFitInChunk e); cbn [andb]
  | |- strictly _ (bind _ _) (bind _ _) => apply st_bind; [|intros]
  | |- strictly _ (andM _ _) (andM _ _) => apply st_andM
  | |- strictly _ (ret _) (ret _) => apply st_refl; reflexivity
  | |- strictly _ (lift _) (lift _) => apply st_refl; reflexivity
  | |- strictly _ (undefined _) (undefined _) => apply st_refl; reflexivity
  | |- strictly _ nofuel nofuel => apply st_refl; reflexivity
  | |- strictly _ (IFF_error _) (IFF_error _) => apply st_refl; reflexivity
  | |- strictly _ (IFF_errorId _) (IFF_errorId _) => apply st_errorId
  | |- strictly _ (IFF_readError _ _) (IFF_readError _ _) => unfold IFF_readError
  | |- strictly _ (IFF_writeError _ _) (IFF_writeError _ _) => unfold IFF_writeError
  | |- strictly _ (malloc _) (malloc _) => apply st_refl; reflexivity
  | |- strictly _ fgetc fgetc => apply st_refl; reflexivity
  | |- strictly _ (fread _) (fread _) => apply st_refl; reflexivity
  | |- strictly _ (fseek_cur _) (fseek_cur _) => apply st_refl; reflexivity
  | |- strictly _ (fwrite _) (fwrite _) => apply st_refl; reflexivity
  | |- strictly _ (fputc _) (fputc _) => apply st_refl; reflexivity
  | |- strictly _ (match ?x with _ => _ end) (match ?x with _ => _ end) => destruct x
  end.
Ltac st_all := repeat st_step.

Section Functions.
  Variable e : env.
  Notation strictly := (strictly e).

  Lemma st_swap : forall v, strictly (swap_long e v) (swap_long (lenient e) v).
  Proof.
    intro v. unfold swap_long. change (strict_c (lenient e)) with false. cbn [andb]. destruct (strict_c e && (128 <=? Z.land v 255)); st_all.
  Qed.
  Lemma st_read_prim : forall k i n, strictly (read_prim k i n) (read_prim k i n).
  Proof.
    intros [] i n; cbn [read_prim]; unfold IFF_readUByte, IFF_readUWord, IFF_readWord, IFF_readULong, IFF_readLong, IFF_readId, IFF_readULong; st_all.
    apply st_swap.
  Qed.
  Lemma st_write_prim : forall k v i n, strictly (write_prim k v i n) (write_prim k v i n).
  Proof.
    intros [] v i n; cbn [write_prim]; unfold IFF_writeUByte, IFF_writeUWord, IFF_writeWord, IFF_writeULong, IFF_writeLong, IFF_writeId, IFF_writeULong; st_all.
    apply st_swap.
  Qed.
  Lemma st_skip : forall i s b, strictly (IFF_skipUnknownBytes i s b) (IFF_skipUnknownBytes i s b).
  Proof. intros. unfold IFF_skipUnknownBytes. st_all. destruct (strict_c e); st_all. Qed.
  Lemma st_zero : forall i s b, strictly (IFF_writeZeroFillerBytes i s b) (IFF_writeZeroFillerBytes i s b).
  Proof. intros. unfold IFF_writeZeroFillerBytes. st_all. destruct (strict_c e && lp64 e); st_all. Qed.
  Lemma st_readPad : forall s i, strictly (IFF_readPaddingByte s i) (IFF_readPaddingByte s i).
  Proof. intros. unfold IFF_readPaddingByte. st_all. Qed.
  Lemma st_writePad : forall s i, strictly (IFF_writePaddingByte s i) (IFF_writePaddingByte s i).
  Proof. intros. unfold IFF_writePaddingByte. st_all. Qed.
  Lemma st_readField : forall k i s n b, strictly (IFF_readField k i s n b) (IFF_readField k i s n b).
  Proof. intros. unfold IFF_readField. st_all. apply st_read_prim. Qed.
  Lemma st_writeField : forall k v i s n b, strictly (IFF_writeField k v i s n b) (IFF_writeField k v i s n b).
  Proof. intros. unfold IFF_writeField. st_all. apply st_write_prim. Qed.
  Lemma st_create : forall h i s, strictly (createExtensionChunk h i s) (createExtensionChunk h i s).
  Proof.
    intros [| | | | |sp] i s; cbn [createExtensionChunk]; unfold IFF_createUnparsedGroup, IFF_createGroup, IFF_createUnparsedList, IFF_createList, IFF_createRawChunk, create_fields; st_all.
  Qed.
  Lemma st_attach : forall g c, strictly (IFF_attachToGroup g c) (IFF_attachToGroup g c).
  Proof. intros. unfold IFF_attachToGroup. st_all. Qed.
  Lemma st_addProp : forall g c, strictly (addPropToList g c) (addPropToList g c).
  Proof. intros. unfold addPropToList. st_all. Qed.
  Lemma st_warning : forall a b, strictly (truncated_warning a b) (truncated_warning a b).
  Proof. intros. unfold truncated_warning. st_all. destruct (strict_c e); st_all. Qed.
  Lemma st_read_fields : forall ds vs i s b, strictly (read_fields ds vs i s b) (read_fields ds vs i s b).
  Proof.
    induction ds as [|d ds IH]; intros [|v vs] i s b; cbn [read_fields]; try solve [st_all].
    apply st_bind; [apply st_readField|]. intros [[[] [x|]] bp]; st_all. apply IH.
  Qed.
  Lemma st_readRaw : forall c b, strictly (IFF_readRawChunk c b) (IFF_readRawChunk c b).
  Proof. intros [i s d|i s g l|i s g p l|i s v] b; cbn [IFF_readRawChunk]; st_all. Qed.

  Section Read.
    Variable rc : Z -> M (option chunk).
    Hypothesis RC : forall g, strictly (rc g) (rc g).
    Lemma st_groupSubs : forall f c g b, strictly (readGroupSubChunks rc f c g b) (readGroupSubChunks rc f c g b).
    Proof.
      induction f as [|f IH]; intros c g b; cbn [readGroupSubChunks]; destruct (_ <? _); try solve [st_all];
        try (apply st_bind; [destruct (_ <? _); [apply st_warning|]|intros]; st_all).
      apply st_bind; [apply RC|]. intros [x|]; [|st_all]. apply st_bind; [apply st_attach|]. intros. apply st_bind; [st_all|]. intros. apply IH.
    Qed.
    Lemma st_listSubs : forall f c g b, strictly (readListSubChunks rc f c g b) (readListSubChunks rc f c g b).
    Proof.
      induction f as [|f IH]; intros c g b; cbn [readListSubChunks]; destruct (_ <? _); try solve [st_all];
        try (apply st_bind; [destruct (_ <? _); [apply st_warning|]|intros]; st_all).
      apply st_bind; [apply RC|]. intros [x|]; [|st_all]. apply st_bind; [destruct (_ =? _); [apply st_addProp|apply st_attach]|].
      intros. apply st_bind; [st_all|]. intros. apply IH.
    Qed.
    Lemma st_readExtension : forall f h c b, strictly (readExtensionChunkFields rc f h c b) (readExtensionChunkFields rc f h c b).
    Proof.
      assert (G : forall f c n b, strictly (IFF_readGroup rc f c n b) (IFF_readGroup rc f c n b)).
      { intros f c n b. unfold IFF_readGroup. destruct (as_group c); [|st_all]. apply st_bind; [apply st_readField|].
        intros [[[] [x|]] bp]; try solve [st_all]. apply st_groupSubs. }
      intros f [| | | | |sp] c b; cbn [readExtensionChunkFields]; try apply G; try apply st_readRaw.
      - unfold IFF_readList. destruct c; try solve [st_all]. apply st_bind; [apply st_readField|].
        intros [[[] [x|]] bp]; try solve [st_all]. apply st_bind; [apply st_listSubs|]. intros [[[] y] z]; st_all.
      - unfold read_fields_chunk. destruct c; try solve [st_all]. destruct (fkinds_eqb _ _); [|st_all].
        apply st_bind; [apply st_read_fields|]. intros [[a x] y]. st_all.
    Qed.
    Lemma st_body : forall rg f i s g, strictly (readChunkBody rc rg f i s g) (readChunkBody rc rg f i s g).
    Proof.
      intros. unfold readChunkBody. apply st_bind; [st_all|]. intro h. apply st_bind; [apply st_create|]. intros [c|]; [|st_all].
      apply st_bind; [apply st_readExtension|]. intros [[ok c1] bp]. apply st_bind.
      - apply st_andM; [st_all|]. apply st_andM; [apply st_skip|apply st_readPad].
      - intros []; st_all.
    Qed.
  End Read.
  Lemma st_readChunk : forall rg f g, strictly (IFF_readChunk rg f g) (IFF_readChunk rg f g).
  Proof.
    intro rg. induction f as [|f IH]; intro g; cbn [IFF_readChunk]; [st_all|].
    apply st_bind; [apply (st_read_prim FId)|]. intros [i|]; [|st_all]. apply st_bind; [apply (st_read_prim FLong)|].
    intros [s|]; [|st_all]. apply st_body. exact IH.
  Qed.
  Lemma st_readFd : forall rg, strictly (IFF_readFd rg) (IFF_readFd rg).
  Proof.
    intros rg w. unfold IFF_readFd. generalize (S (List.length (r_rest (w_in w)))). intro n.
    lazymatch goal with |- ?m _ _ = _ \/ _ => enough (K : strictly m m) by exact (K w) end.
    apply st_bind; [apply st_readChunk|]. intros [c|]; st_all.
  Qed.

  Lemma st_write_fields : forall ds vs i s b, strictly (write_fields ds vs i s b) (write_fields ds vs i s b).
  Proof.
    induction ds as [|d ds IH]; intros [|[k v] vs] i s b; cbn [write_fields]; try solve [st_all].
    apply st_bind; [apply st_writeField|]. intros [[] bp]; st_all. apply IH.
  Qed.
  Lemma st_writeRaw : forall c b, strictly (IFF_writeRawChunk c b) (IFF_writeRawChunk c b).
  Proof. intros [i s d|i s g l|i s g p l|i s v] b; cbn [IFF_writeRawChunk]; st_all. Qed.
  Lemma st_write_all : forall wc m l, (forall c, In c l -> forall g, strictly (wc c g) (wc c g)) -> forall g b, strictly (write_all wc m l g b) (write_all wc m l g b).
  Proof.
    intros wc m l. induction l as [|c l IH]; intros H g b; cbn [write_all]; [st_all|].
    apply st_bind; [apply H; left; reflexivity|]. intros []; [|st_all]. apply st_bind; [st_all|]. intro. apply IH. intros; apply H; right; assumption.
  Qed.
  Lemma st_writeBody : forall wc rg c, (forall x, match c with CGroup _ _ _ l => In x l | CList _ _ _ p l => In x p \/ In x l | _ => False end -> forall g, strictly (wc x g) (wc x g)) ->
    forall g, strictly (writeChunkBody wc rg c g) (writeChunkBody wc rg c g).
  Proof.
    intros wc rg c H g. unfold writeChunkBody. apply st_bind; [st_all|]. intro h. apply st_bind.
    - assert (G : forall n b, strictly (IFF_writeGroup wc c n b) (IFF_writeGroup wc c n b)).
      { intros n b. unfold IFF_writeGroup. destruct c as [i s d|i s g0 l|i s g0 p l|i s v]; try solve [st_all]; (apply st_bind; [apply st_writeField|]);
          intros [[] bp]; try solve [st_all]; unfold IFF_writeGroupSubChunks; apply st_write_all; auto. }
      destruct h; cbn [writeExtensionChunkFields]; try apply G; try apply st_writeRaw.
      + unfold IFF_writeList. destruct c as [i s d|i s g0 l|i s g0 p l|i s v]; try solve [st_all]. apply st_bind; [apply st_writeField|].
        intros [[] bp]; try solve [st_all]. apply st_bind; [apply st_write_all; auto|]. intros [[] bp2]; [|st_all]. apply st_write_all. auto.
      + unfold write_fields_chunk. destruct c; try solve [st_all]. destruct (fkinds_eqb _ _); [apply st_write_fields|st_all].
    - intros [ok bp]. apply st_andM; [st_all|]. apply st_andM; [apply st_zero|apply st_writePad].
  Qed.
  Lemma st_writeChunk : forall rg c g, strictly (IFF_writeChunk rg c g) (IFF_writeChunk rg c g).
  Proof.
    intro rg.
    assert (HEAD : forall c g, strictly (writeChunkBody (IFF_writeChunk rg) rg c g) (writeChunkBody (IFF_writeChunk rg) rg c g) ->
      strictly (andM (IFF_writeId (chunkId c) (chunkId c) "chunkId") (andM (IFF_writeLong (chunkSize c) (chunkId c) "chunkSize") (writeChunkBody (IFF_writeChunk rg) rg c g)))
           (andM (IFF_writeId (chunkId c) (chunkId c) "chunkId") (andM (IFF_writeLong (chunkSize c) (chunkId c) "chunkSize") (writeChunkBody (IFF_writeChunk rg) rg c g)))).
    { intros c g H. apply st_andM; [apply (st_write_prim FId)|]. apply st_andM; [apply (st_write_prim FLong)|exact H]. }
    induction c as [i s d|i s g0 l IH|i s g0 p l IHp IHl|i s v] using chunk_tree_ind; intro g; apply (HEAD _ g); apply st_writeBody; intros x H.
    - contradiction.
    - apply IH. exact H.
    - destruct H; auto.
    - contradiction.
  Qed.
End Functions.
