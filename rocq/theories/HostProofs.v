(** * Runs on two hosts, or after two histories, go the same way *)

From Coq Require Import ZArith List Bool String Lia.
From Coq Require Import Strings.Byte.
From Verif Require Import Machine Io Types Build Read Write Check Compare Print Iff Spec Lemmas IoProofs.
Import ListNotations.
Open Scope Z_scope.

(** Hosts that differ in byte order and in the signedness of char only. *)
Record alike (e1 e2 : env) : Prop := mkAlike {
  alike_strict1 : strict_c e1 = false;
  alike_strict2 : strict_c e2 = false;
  alike_long : lp64 e1 = lp64 e2;
  alike_memory : forall n sz, malloc_ok e1 n sz = malloc_ok e2 n sz;
  alike_garbage : garbage e1 = garbage e2 }.

Section Same.
  Variables e1 e2 : env.
  Variable exact : bool.
  Variable A12 : alike e1 e2.

  (** The same streams; the same number of allocations so far, unless memory
      is plentiful. *)
  Definition W (w1 w2 : world) : Prop :=
    w_in w1 = w_in w2 /\ w_out w1 = w_out w2 /\
    (if exact then w_allocs w1 = w_allocs w2 else usual e1 /\ usual e2).

  Definition same {A} (m1 m2 : M A) : Prop := forall w1 w2, W w1 w2 ->
    match m1 e1 w1, m2 e2 w2 with
    | Done (a, v1), Done (b, v2) =>
        a = b /\ W v1 v2 /\ exists lg, w_log v1 = lg ++ w_log w1 /\ w_log v2 = lg ++ w_log w2
    | Undefined u1, Undefined u2 => u1 = u2
    | OutOfFuel, OutOfFuel => True
    | _, _ => False
    end.

  Lemma same_ret : forall A (a : A), same (ret a) (ret a).
  Proof. intros A a w1 w2 H. cbn. split; [reflexivity|]. split; [exact H|]. exists []. auto. Qed.
  Lemma same_undefined : forall A u, same (@undefined A u) (undefined u).
  Proof. intros A u w1 w2 H. reflexivity. Qed.
  Lemma same_nofuel : forall A, same (@nofuel A) nofuel.
  Proof. intros A w1 w2 H. exact I. Qed.
  Lemma same_lift : forall A (o : outcome A), same (lift o) (lift o).
  Proof. intros A [a|u|]; [apply (same_ret A a)|apply (same_undefined A u)|apply (same_nofuel A)]. Qed.
  Lemma same_bind : forall A B (m1 m2 : M A) (k1 k2 : A -> M B), same m1 m2 -> (forall a, same (k1 a) (k2 a)) -> same (bind m1 k1) (bind m2 k2).
  Proof.
    intros A B m1 m2 k1 k2 H K w1 w2 HW. specialize (H w1 w2 HW). unfold bind.
    destruct (m1 e1 w1) as [[a v1]|u1|]; destruct (m2 e2 w2) as [[b v2]|u2|]; try contradiction; try exact H.
    destruct H as (<- & HV & lg & L1 & L2). specialize (K a v1 v2 HV).
    destruct (k1 a e1 v1) as [[c x1]|u1|]; destruct (k2 a e2 v2) as [[d x2]|u2|]; try contradiction; try exact K.
    destruct K as (<- & HX & lg2 & M1 & M2). split; [reflexivity|]. split; [exact HX|]. exists (lg2 ++ lg).
    rewrite M1, M2, L1, L2, <- !app_assoc. auto.
  Qed.
  Lemma same_ask : forall A (k1 k2 : env -> M A), same (k1 e1) (k2 e2) -> same (x <- ask ;; k1 x) (x <- ask ;; k2 x).
  Proof. intros A k1 k2 H w1 w2 HW. exact (H w1 w2 HW). Qed.
  Lemma same_error : forall s, same (IFF_error s) (IFF_error s).
  Proof. intros s w1 w2 H. cbn. split; [reflexivity|]. split; [exact H|]. exists [s]. auto. Qed.

  Lemma long_eq : size_t_bits e1 = size_t_bits e2.
  Proof. unfold size_t_bits. rewrite (alike_long _ _ A12). reflexivity. Qed.

  Lemma same_malloc : forall n, same (malloc n) (malloc n).
  Proof.
    intros n w1 w2 (I & O & H). unfold malloc. rewrite long_eq.
    assert (E : malloc_ok e1 (w_allocs w1) n = malloc_ok e2 (w_allocs w2) n).
    { destruct exact; [rewrite H; apply (alike_memory _ _ A12)|]. destruct H as [H1 H2]. rewrite (memory _ H1), (memory _ H2). reflexivity. }
    rewrite E. split; [reflexivity|]. split; [|exists []; auto]. unfold W. cbn. split; [exact I|]. split; [exact O|]. destruct exact; [congruence|exact H].
  Qed.
  Lemma same_fgetc : same fgetc fgetc.
  Proof.
    intros w1 w2 H. pose proof H as (I & O & N). unfold fgetc. rewrite I. destruct (r_rest (w_in w2)) as [|b r].
    - split; [reflexivity|]. split; [exact H|]. exists []. auto.
    - split; [reflexivity|]. split; [|exists []; auto]. unfold W. cbn. auto.
  Qed.
  Lemma same_fread : forall n, same (fread n) (fread n).
  Proof.
    intros n w1 w2 (I & O & N). unfold fread. rewrite I. split; [reflexivity|]. split; [|exists []; auto]. unfold W. cbn. auto.
  Qed.
  Lemma same_fseek : forall n, same (fseek_cur n) (fseek_cur n).
  Proof.
    intros n w1 w2 H. pose proof H as (I & O & N). unfold fseek_cur. rewrite I. destruct (r_seekable (w_in w2)).
    - split; [reflexivity|]. split; [|exists []; auto]. unfold W. cbn. auto.
    - split; [reflexivity|]. split; [exact H|]. exists []. auto.
  Qed.
  Lemma same_fwrite : forall l, same (fwrite l) (fwrite l).
  Proof.
    intros l w1 w2 (I & O & N). unfold fwrite. rewrite O. destruct (put_bytes l (w_out w2)).
    split; [reflexivity|]. split; [|exists []; auto]. unfold W. cbn. auto.
  Qed.
  Lemma same_andM : forall a1 a2 b1 b2, same a1 a2 -> same b1 b2 -> same (andM a1 b1) (andM a2 b2).
  Proof. intros a1 a2 b1 b2 H K. apply same_bind; [exact H|]. intros []; [exact K|apply same_ret]. Qed.
  Lemma same_errorId : forall i, same (IFF_errorId i) (IFF_errorId i).
  Proof.
    intros i w1 w2 H. rewrite !run_errorId. split; [reflexivity|]. split; [exact H|]. exists (id_log i). auto.
  Qed.
  Lemma same_readError : forall i n, same (IFF_readError i n) (IFF_readError i n).
  Proof. intros. apply same_bind; [apply same_error|]. intros _. apply same_bind; [apply same_errorId|]. intros _. apply same_error. Qed.
  Lemma same_writeError : forall i n, same (IFF_writeError i n) (IFF_writeError i n).
  Proof. intros. apply same_bind; [apply same_error|]. intros _. apply same_bind; [apply same_errorId|]. intros _. apply same_error. Qed.

  (** The primitives: the byte order cancels out. *)
  Lemma same_read_prim : forall k i n, same (read_prim k i n) (read_prim k i n).
  Proof.
    intros k i n w1 w2 H. pose proof H as (I & O & N).
    assert (R : rest w1 = rest w2) by (unfold rest; rewrite I; reflexivity).
    destruct (Z_lt_le_dec (zlength (rest w2)) (fieldSize k)) as [L|L].
    - rewrite !read_prim_short by (rewrite ?R; exact L). split; [reflexivity|]. split; [|exists (readError_log i n); auto].
      unfold W. cbn. rewrite I. auto.
    - destruct (be_field_surj k (ztake (fieldSize k) (rest w2))) as (v & RV & E).
      { rewrite ztake_firstn. unfold zlength in *. rewrite firstn_length. destruct k; cbn in *; lia. }
      assert (RR : rest w2 = be_field k v ++ zdrop (fieldSize k) (rest w2)).
      { rewrite E, ztake_firstn, zdrop_skipn. symmetry. apply firstn_skipn. }
      rewrite (read_prim_ok k e1 w1 v (zdrop (fieldSize k) (rest w2))), (read_prim_ok k e2 w2 v (zdrop (fieldSize k) (rest w2))); try assumption.
      + split; [reflexivity|]. split; [|exists []; auto]. unfold W. cbn. rewrite I. auto.
      + left; apply (alike_strict2 _ _ A12).
      + left; apply (alike_strict1 _ _ A12).
      + rewrite R. exact RR.
  Qed.
  Lemma same_write_prim : forall k v i n, same (write_prim k v i n) (write_prim k v i n).
  Proof.
    intros k v i n w1 w2 (I & O & N). rewrite !write_prim_ok by (left; apply A12). unfold put. rewrite O.
    destruct (put_bytes (be_field k v) (w_out w2)) as [ok f]. destruct ok.
    - split; [reflexivity|]. split; [|exists []; auto]. unfold W. cbn. auto.
    - split; [reflexivity|]. split; [|exists (writeError_log i n); auto]. unfold W. cbn. auto.
  Qed.
  Lemma same_readId : forall i n, same (IFF_readId i n) (IFF_readId i n).
  Proof. exact (same_read_prim FId). Qed.
  Lemma same_readLong : forall i n, same (IFF_readLong i n) (IFF_readLong i n).
  Proof. exact (same_read_prim FLong). Qed.
  Lemma same_writeId : forall v i n, same (IFF_writeId v i n) (IFF_writeId v i n).
  Proof. exact (same_write_prim FId). Qed.
  Lemma same_writeLong : forall v i n, same (IFF_writeLong v i n) (IFF_writeLong v i n).
  Proof. exact (same_write_prim FLong). Qed.

  Lemma fits_eq : forall a b c, fieldDoesNotFitInChunk e1 a b c = fieldDoesNotFitInChunk e2 a b c.
  Proof. intros. unfold fieldDoesNotFitInChunk. rewrite ?long_eq. reflexivity. Qed.
End Same.

Ltac same_step A :=
  lazymatch goal with
  | |- same _ _ _ (bind ask _) (bind ask _) => apply same_ask; cbv beta
  | |- same _ _ _ (bind _ _) (bind _ _) => apply same_bind; [|intros]
  | |- same _ _ _ (ret _) (ret _) => apply same_ret
  | |- same _ _ _ (lift _) (lift _) => apply same_lift
  | |- same _ _ _ (undefined _) (undefined _) => apply same_undefined
  | |- same _ _ _ nofuel nofuel => apply same_nofuel
  | |- same _ _ _ (IFF_error _) (IFF_error _) => apply same_error
  | |- same _ _ _ (IFF_errorId _) (IFF_errorId _) => apply same_errorId
  | |- same _ _ _ (IFF_readError _ _) (IFF_readError _ _) => apply same_readError
  | |- same _ _ _ (IFF_writeError _ _) (IFF_writeError _ _) => apply same_writeError
  | |- same _ _ _ (malloc _) (malloc _) => apply (same_malloc _ _ _ A)
  | |- same _ _ _ fgetc fgetc => apply same_fgetc
  | |- same _ _ _ (fread _) (fread _) => apply same_fread
  | |- same _ _ _ (fseek_cur _) (fseek_cur _) => apply same_fseek
  | |- same _ _ _ (fwrite _) (fwrite _) => apply same_fwrite
  | |- same _ _ _ (fputc _) (fputc _) => unfold fputc; apply same_fwrite
  | |- same _ _ _ (andM _ _) (andM _ _) => apply same_andM
  | |- same _ _ _ (read_prim _ _ _) (read_prim _ _ _) => apply (same_read_prim _ _ _ A)
  | |- same _ _ _ (write_prim _ _ _ _) (write_prim _ _ _ _) => apply (same_write_prim _ _ _ A)
  | |- same _ _ _ (IFF_readId _ _) (IFF_readId _ _) => apply (same_readId _ _ _ A)
  | |- same _ _ _ (IFF_readLong _ _) (IFF_readLong _ _) => apply (same_readLong _ _ _ A)
  | |- same _ _ _ (IFF_writeId _ _ _) (IFF_writeId _ _ _) => apply (same_writeId _ _ _ A)
  | |- same _ _ _ (IFF_writeLong _ _ _) (IFF_writeLong _ _ _) => apply (same_writeLong _ _ _ A)
  | |- same _ _ _ (match ?x with _ => _ end) (match ?x with _ => _ end) => destruct x
  end.
Ltac same_all A :=
  repeat (rewrite ?(long_eq _ _ A), ?(alike_strict1 _ _ A), ?(alike_strict2 _ _ A), ?(alike_garbage _ _ A), ?(fits_eq _ _ A); cbn [andb negb]; same_step A).

Section Functions.
  Variables e1 e2 : env.
  Variable exact : bool.
  Variable A : alike e1 e2.
  Notation same := (same e1 e2 exact).

  Lemma same_skip : forall i s b, same (IFF_skipUnknownBytes i s b) (IFF_skipUnknownBytes i s b).
  Proof. intros. unfold IFF_skipUnknownBytes. same_all A. Qed.
  Lemma same_zero : forall i s b, same (IFF_writeZeroFillerBytes i s b) (IFF_writeZeroFillerBytes i s b).
  Proof. intros. unfold IFF_writeZeroFillerBytes. same_all A. Qed.
  Lemma same_readPad : forall s i, same (IFF_readPaddingByte s i) (IFF_readPaddingByte s i).
  Proof. intros. unfold IFF_readPaddingByte. same_all A. Qed.
  Lemma same_writePad : forall s i, same (IFF_writePaddingByte s i) (IFF_writePaddingByte s i).
  Proof. intros. unfold IFF_writePaddingByte. same_all A. Qed.
  Lemma same_readField : forall k i s n b, same (IFF_readField k i s n b) (IFF_readField k i s n b).
  Proof. intros. unfold IFF_readField. same_all A. Qed.
  Lemma same_writeField : forall k v i s n b, same (IFF_writeField k v i s n b) (IFF_writeField k v i s n b).
  Proof. intros. unfold IFF_writeField. same_all A. Qed.

  (** A character is printed, and classified, the same whatever its sign. *)
  Lemma char_cases : forall e z, to_char e z = z mod 256 \/ to_char e z = z mod 256 - 256 /\ 128 <= z mod 256.
  Proof.
    intros e z. pose proof (Z.mod_pos_bound z 256 ltac:(lia)) as B. pose proof (to_char_mod e z) as M. unfold to_char in *.
    destruct (char_signed e).
    - unfold wrap_s in *. change (2 ^ (8 - 1)) with 128 in *. change (2 ^ 8) with 256 in *.
      pose proof (Z.mod_pos_bound (z + 128) 256 ltac:(lia)). pose proof (Z.div_mod z 256 ltac:(lia)). pose proof (Z.div_mod (z + 128) 256 ltac:(lia)).
      assert ((z + 128) / 256 = z / 256 \/ (z + 128) / 256 = z / 256 + 1) by nia. lia.
    - left. reflexivity.
  Qed.
  Lemma char_illegal : forall z, ((to_char e1 z <? 0x20) || (0x7e <? to_char e1 z)) = ((to_char e2 z <? 0x20) || (0x7e <? to_char e2 z)).
  Proof.
    intro z. pose proof (Z.mod_pos_bound z 256 ltac:(lia)) as B. apply eq_true_iff_eq. rewrite !orb_true_iff, !Z.ltb_lt.
    destruct (char_cases e1 z) as [->|[-> K]]; destruct (char_cases e2 z) as [->|[-> K2]]; lia.
  Qed.
  Lemma char_punctuation : forall z, (((0x61 <=? to_char e1 z) && (to_char e1 z <=? 0x7a)) || (to_char e1 z =? 0x2e)) =
    (((0x61 <=? to_char e2 z) && (to_char e2 z <=? 0x7a)) || (to_char e2 z =? 0x2e)).
  Proof.
    intro z. pose proof (Z.mod_pos_bound z 256 ltac:(lia)) as B. apply eq_true_iff_eq. rewrite !orb_true_iff, !andb_true_iff, !Z.leb_le, !Z.eqb_eq.
    destruct (char_cases e1 z) as [->|[-> K]]; destruct (char_cases e2 z) as [->|[-> K2]]; lia.
  Qed.
  Lemma char_space : forall z, (to_char e1 z =? 0x20) = (to_char e2 z =? 0x20).
  Proof.
    intro z. pose proof (Z.mod_pos_bound z 256 ltac:(lia)) as B. apply eq_true_iff_eq. rewrite !Z.eqb_eq.
    destruct (char_cases e1 z) as [->|[-> K]]; destruct (char_cases e2 z) as [->|[-> K2]]; lia.
  Qed.
  Lemma same_idChars : forall l, same (checkIdChars (map (to_char e1) l)) (checkIdChars (map (to_char e2) l)).
  Proof.
    induction l as [|z l IH]; cbn [map checkIdChars]; [same_all A|]. rewrite char_illegal, !chr_to_char. destruct (_ || _); [same_all A|exact IH].
  Qed.
  Lemma same_formChars : forall l, same (checkFormTypeChars (map (to_char e1) l)) (checkFormTypeChars (map (to_char e2) l)).
  Proof.
    induction l as [|z l IH]; cbn [map checkFormTypeChars]; [same_all A|]. rewrite char_punctuation. destruct (_ || _); [same_all A|exact IH].
  Qed.
  Lemma same_checkId : forall i, same (IFF_checkId i) (IFF_checkId i).
  Proof.
    intro i. unfold IFF_checkId. apply same_ask. cbv zeta. apply same_bind.
    - exact (same_idChars [Z.shiftr i 24; Z.shiftr (Z.land i 0xff0000) 16; Z.shiftr (Z.land i 0xff00) 8; Z.land i 0xff]).
    - intros []; cbn [negb]; [|apply same_ret]. unfold IFF_idToString. cbn [hd]. rewrite char_space. same_all A.
  Qed.
  Lemma same_checkFormType : forall i, same (IFF_checkFormType i) (IFF_checkFormType i).
  Proof.
    intro i. unfold IFF_checkFormType. apply same_bind; [apply same_checkId|]. intros []; cbn [negb]; [|apply same_ret]. apply same_ask. apply same_bind.
    - exact (same_formChars [Z.shiftr i 24; Z.shiftr (Z.land i 0xff0000) 16; Z.shiftr (Z.land i 0xff00) 8; Z.land i 0xff]).
    - intros []; same_all A.
  Qed.

  (** *** Reading *)
  Lemma same_createExtension : forall h i s, same (createExtensionChunk h i s) (createExtensionChunk h i s).
  Proof.
    intros [| | | | |sp] i s; cbn [createExtensionChunk]; unfold IFF_createUnparsedGroup, IFF_createGroup, IFF_createUnparsedList, IFF_createList, IFF_createRawChunk, create_fields; same_all A.
  Qed.
  Lemma same_attach : forall g c, same (IFF_attachToGroup g c) (IFF_attachToGroup g c).
  Proof. intros. unfold IFF_attachToGroup. same_all A. Qed.
  Lemma same_addProp : forall g c, same (addPropToList g c) (addPropToList g c).
  Proof. intros. unfold addPropToList. same_all A. Qed.
  Lemma same_warning : forall a b, same (truncated_warning a b) (truncated_warning a b).
  Proof. intros. unfold truncated_warning. same_all A. Qed.
  Lemma same_read_fields : forall ds vs i s b, same (read_fields ds vs i s b) (read_fields ds vs i s b).
  Proof.
    induction ds as [|d ds IH]; intros [|v vs] i s b; cbn [read_fields]; try solve [same_all A].
    apply same_bind; [apply same_readField|]. intros [[[] [x|]] bp]; same_all A. apply IH.
  Qed.
  Lemma same_readRaw : forall c b, same (IFF_readRawChunk c b) (IFF_readRawChunk c b).
  Proof. intros [i s d|i s g l|i s g p l|i s v] b; cbn [IFF_readRawChunk]; cbv zeta; same_all A. Qed.

  Section Read.
    Variable rc : Z -> M (option chunk).
    Hypothesis RC : forall g, same (rc g) (rc g).
    Lemma same_groupSubs : forall f c g b, same (readGroupSubChunks rc f c g b) (readGroupSubChunks rc f c g b).
    Proof.
      induction f as [|f IH]; intros c g b; cbn [readGroupSubChunks]; destruct (_ <? _); try apply same_nofuel;
        try (apply same_bind; [destruct (_ <? _); [apply same_warning|apply same_ret]|]; intros; apply same_ret).
      apply same_bind; [apply RC|]. intros [x|]; [|apply same_ret]. apply same_bind; [apply same_attach|]. intros. apply same_bind; [apply same_lift|]. intros. apply IH.
    Qed.
    Lemma same_listSubs : forall f c g b, same (readListSubChunks rc f c g b) (readListSubChunks rc f c g b).
    Proof.
      induction f as [|f IH]; intros c g b; cbn [readListSubChunks]; destruct (_ <? _); try apply same_nofuel;
        try (apply same_bind; [destruct (_ <? _); [apply same_warning|apply same_ret]|]; intros; apply same_ret).
      apply same_bind; [apply RC|]. intros [x|]; [|apply same_ret]. apply same_bind; [destruct (_ =? _); [apply same_addProp|apply same_attach]|].
      intros. apply same_bind; [apply same_lift|]. intros. apply IH.
    Qed.
    Lemma same_readExtension : forall f h c b, same (readExtensionChunkFields rc f h c b) (readExtensionChunkFields rc f h c b).
    Proof.
      assert (G : forall f c n b, same (IFF_readGroup rc f c n b) (IFF_readGroup rc f c n b)).
      { intros f c n b. unfold IFF_readGroup. destruct (as_group c); [|apply same_undefined]. apply same_bind; [apply same_readField|].
        intros [[[] [x|]] bp]; try apply same_ret. apply same_groupSubs. }
      intros f [| | | | |sp] c b; cbn [readExtensionChunkFields]; try apply G; try apply same_readRaw.
      - unfold IFF_readList. destruct c; try apply same_undefined. apply same_bind; [apply same_readField|].
        intros [[[] [x|]] bp]; try apply same_ret. apply same_bind; [apply same_listSubs|]. intros [[[] y] z]; same_all A.
      - unfold read_fields_chunk. destruct c; try apply same_undefined. destruct (fkinds_eqb _ _); [|apply same_undefined].
        apply same_bind; [apply same_read_fields|]. intros [[a x] y]. apply same_ret.
    Qed.
    Lemma same_body : forall rg f i s g, same (readChunkBody rc rg f i s g) (readChunkBody rc rg f i s g).
    Proof.
      intros. unfold readChunkBody. apply same_bind; [apply same_lift|]. intro h. apply same_bind; [apply same_createExtension|]. intros [c|]; [|apply same_ret].
      apply same_bind; [apply same_readExtension|]. intros [[ok c1] bp]. apply same_bind.
      - apply same_andM; [apply same_ret|]. apply same_andM; [apply same_skip|apply same_readPad].
      - intros []; same_all A.
    Qed.
  End Read.
  Lemma same_readChunk : forall rg f g, same (IFF_readChunk rg f g) (IFF_readChunk rg f g).
  Proof.
    intro rg. induction f as [|f IH]; intro g; cbn [IFF_readChunk]; [apply same_nofuel|].
    apply same_bind; [apply (same_readId _ _ _ A)|]. intros [i|]; [|apply same_ret]. apply same_bind; [apply (same_readLong _ _ _ A)|].
    intros [s|]; [|apply same_ret]. apply same_body. exact IH.
  Qed.
  Lemma same_readFd : forall rg, same (IFF_readFd rg) (IFF_readFd rg).
  Proof.
    intros rg w1 w2 H. unfold IFF_readFd. rewrite (proj1 H). generalize (S (List.length (r_rest (w_in w2)))). intro n.
    lazymatch goal with |- match ?m _ _ with _ => _ end => enough (K : same m m) by exact (K w1 w2 H) end.
    apply same_bind; [apply same_readChunk|]. intros [c|]; same_all A.
  Qed.

  (** *** Writing *)
  Lemma same_write_fields : forall ds vs i s b, same (write_fields ds vs i s b) (write_fields ds vs i s b).
  Proof.
    induction ds as [|d ds IH]; intros [|[k v] vs] i s b; cbn [write_fields]; try solve [same_all A].
    apply same_bind; [apply same_writeField|]. intros [[] bp]; same_all A. apply IH.
  Qed.
  Lemma same_writeRaw : forall c b, same (IFF_writeRawChunk c b) (IFF_writeRawChunk c b).
  Proof. intros [i s d|i s g l|i s g p l|i s v] b; cbn [IFF_writeRawChunk]; same_all A. Qed.
  Lemma same_write_all : forall wc m l, (forall c, In c l -> forall g, same (wc c g) (wc c g)) -> forall g b, same (write_all wc m l g b) (write_all wc m l g b).
  Proof.
    intros wc m l. induction l as [|c l IH]; intros H g b; cbn [write_all]; [apply same_ret|].
    apply same_bind; [apply H; left; reflexivity|]. intros []; [|same_all A]. apply same_bind; [apply same_lift|]. intro. apply IH. intros; apply H; right; assumption.
  Qed.
  Lemma same_writeBody : forall wc rg c, (forall x, match c with CGroup _ _ _ l => In x l | CList _ _ _ p l => In x p \/ In x l | _ => False end -> forall g, same (wc x g) (wc x g)) ->
    forall g, same (writeChunkBody wc rg c g) (writeChunkBody wc rg c g).
  Proof.
    intros wc rg c H g. unfold writeChunkBody. apply same_bind; [apply same_lift|]. intro h. apply same_bind.
    - assert (G : forall n b, same (IFF_writeGroup wc c n b) (IFF_writeGroup wc c n b)).
      { intros n b. unfold IFF_writeGroup. destruct c as [i s d|i s g0 l|i s g0 p l|i s v]; try apply same_undefined; (apply same_bind; [apply same_writeField|]);
          intros [[] bp]; try apply same_ret; unfold IFF_writeGroupSubChunks; apply same_write_all; auto. }
      destruct h; cbn [writeExtensionChunkFields]; try apply G; try apply same_writeRaw.
      + unfold IFF_writeList. destruct c as [i s d|i s g0 l|i s g0 p l|i s v]; try apply same_undefined. apply same_bind; [apply same_writeField|].
        intros [[] bp]; try apply same_ret. apply same_bind; [apply same_write_all; auto|]. intros [[] bp2]; [|apply same_ret]. apply same_write_all. auto.
      + unfold write_fields_chunk. destruct c; try apply same_undefined. destruct (fkinds_eqb _ _); [apply same_write_fields|apply same_undefined].
    - intros [ok bp]. apply same_andM; [apply same_ret|]. apply same_andM; [apply same_zero|apply same_writePad].
  Qed.
  Lemma same_writeChunk : forall rg c g, same (IFF_writeChunk rg c g) (IFF_writeChunk rg c g).
  Proof.
    intro rg.
    assert (HEAD : forall c g, same (writeChunkBody (IFF_writeChunk rg) rg c g) (writeChunkBody (IFF_writeChunk rg) rg c g) ->
      same (andM (IFF_writeId (chunkId c) (chunkId c) "chunkId") (andM (IFF_writeLong (chunkSize c) (chunkId c) "chunkSize") (writeChunkBody (IFF_writeChunk rg) rg c g)))
           (andM (IFF_writeId (chunkId c) (chunkId c) "chunkId") (andM (IFF_writeLong (chunkSize c) (chunkId c) "chunkSize") (writeChunkBody (IFF_writeChunk rg) rg c g)))).
    { intros c g H. apply same_andM; [apply (same_writeId _ _ _ A)|]. apply same_andM; [apply (same_writeLong _ _ _ A)|exact H]. }
    induction c as [i s d|i s g0 l IH|i s g0 p l IHp IHl|i s v] using chunk_tree_ind; intro g; apply (HEAD _ g); apply same_writeBody; intros x H.
    - contradiction.
    - apply IH. exact H.
    - destruct H; auto.
    - contradiction.
  Qed.

  (** *** Checking *)
  Lemma same_notAllowed : forall i s, same (not_allowed i s) (not_allowed i s).
  Proof. intros. unfold not_allowed. same_all A. Qed.
  Lemma same_checkSize : forall c s, same (IFF_checkGroupChunkSize c s) (IFF_checkGroupChunkSize c s).
  Proof. intros. unfold IFF_checkGroupChunkSize. same_all A. Qed.
  Lemma same_catSub : forall g c, same (IFF_checkCATSubChunk g c) (IFF_checkCATSubChunk g c).
  Proof.
    intros. unfold IFF_checkCATSubChunk. destruct (negb _); [apply same_notAllowed|]. destruct (as_group g) as [[ct q]|]; [|apply same_undefined].
    destruct (negb _); [|apply same_ret]. destruct (checkValidCATSubChunkId _); [|apply same_ret]. destruct (as_group c) as [[gt qq]|]; [|apply same_undefined]. same_all A.
  Qed.
  Lemma same_check_subs : forall cc sc l, (forall c, In c l -> forall g, same (cc c g) (cc c g)) -> (forall c, same (sc c) (sc c)) ->
    forall g a, same (check_subs cc sc l g a) (check_subs cc sc l g a).
  Proof.
    intros cc sc l. induction l as [|c l IH]; intros H SC g a; cbn [check_subs]; [apply same_ret|].
    apply same_bind; [apply SC|]. intros []; cbn [negb]; [|apply same_ret]. apply same_bind; [apply H; left; reflexivity|]. intros []; cbn [negb]; [|apply same_ret].
    apply same_bind; [apply same_lift|]. intro. apply IH; [|exact SC]. intros; apply H; right; assumption.
  Qed.
  Lemma same_checkExtension : forall cc c, (forall x, match c with CGroup _ _ _ l => In x l | CList _ _ _ p l => In x p \/ In x l | _ => False end -> forall g, same (cc x g) (cc x g)) ->
    forall h, same (checkExtensionChunk cc h c) (checkExtensionChunk cc h c).
  Proof.
    intros cc c H h.
    assert (G : forall tc sc, (forall g, same (tc g) (tc g)) -> (forall g x, same (sc g x) (sc g x)) -> same (IFF_checkGroup cc tc sc c) (IFF_checkGroup cc tc sc c)).
    { intros tc sc T SC. unfold IFF_checkGroup. destruct c as [i s d|i s g0 l|i s g0 p l|i s v]; try apply same_undefined;
        (apply same_bind; [apply T|]; intros []; cbn [negb]; [|apply same_ret]); (apply same_bind; [apply same_check_subs; auto|]); intro; (destruct (_ =? _); [apply same_ret|]);
        (apply same_bind; [apply same_lift|]); intro; apply same_checkSize. }
    destruct h as [| | | | |sp]; cbn [checkExtensionChunk].
    - apply G; [apply same_checkFormType|]. intros g x. unfold form_subChunkCheck. destruct (_ =? _); [apply same_notAllowed|apply same_ret].
    - apply G; [apply same_checkId|]. apply same_catSub.
    - unfold IFF_checkList. destruct c as [i s d|i s g0 l|i s g0 p l|i s v]; try apply same_undefined.
      apply same_bind; [apply same_checkId|]. intros []; cbn [negb]; [|apply same_ret].
      apply same_bind; [apply same_check_subs; auto; intro; apply same_ret|]. intro. destruct (_ =? _); [apply same_ret|].
      apply same_bind; [apply same_lift|]. intro. apply same_bind; [apply same_check_subs; auto; intro; apply same_catSub|]. intro. destruct (_ =? _); [apply same_ret|].
      apply same_bind; [apply same_lift|]. intro. apply same_checkSize.
    - apply G; [apply same_checkFormType|]. intros g x. unfold prop_subChunkCheck. destruct (_ || _); [apply same_notAllowed|apply same_ret].
    - apply same_ret.
    - unfold check_fields_chunk. destruct c as [i s d|i s g0 l|i s g0 p l|i s v]; try apply same_undefined. same_all A.
  Qed.
  Lemma same_checkChunk : forall rg c g, same (IFF_checkChunk rg c g) (IFF_checkChunk rg c g).
  Proof.
    intro rg.
    assert (HEAD : forall c g, (forall h, same (checkExtensionChunk (IFF_checkChunk rg) h c) (checkExtensionChunk (IFF_checkChunk rg) h c)) ->
      same (ok <- IFF_checkId (chunkId c) ;; if negb ok then ret false else h <- lift (find_handler rg g (chunkId c)) ;; checkExtensionChunk (IFF_checkChunk rg) h c)
           (ok <- IFF_checkId (chunkId c) ;; if negb ok then ret false else h <- lift (find_handler rg g (chunkId c)) ;; checkExtensionChunk (IFF_checkChunk rg) h c)).
    { intros c g H. apply same_bind; [apply same_checkId|]. intros []; cbn [negb]; [|apply same_ret]. apply same_bind; [apply same_lift|]. exact H. }
    induction c as [i s d|i s g0 l IH|i s g0 p l IHp IHl|i s v] using chunk_tree_ind; intro g; apply (HEAD _ g); apply same_checkExtension; intros x H.
    - contradiction.
    - apply IH. exact H.
    - destruct H; auto.
    - contradiction.
  Qed.
  Lemma same_check : forall c rg, same (IFF_check c rg) (IFF_check c rg).
  Proof. intros. unfold IFF_check. destruct (_ && _); [same_all A|]. apply same_checkChunk. Qed.

  (** *** Comparing *)
  Lemma same_compare_both : forall rg c1,
    (forall c2 g, IFF_compareChunk e1 rg c1 c2 g = IFF_compareChunk e2 rg c1 c2 g) /\
    (forall c2, IFF_compareGroup (IFF_compareChunk e1 rg) c1 c2 = IFF_compareGroup (IFF_compareChunk e2 rg) c1 c2).
  Proof.
    intro rg.
    assert (ALL : forall l1, (forall c, In c l1 -> forall c2 g, IFF_compareChunk e1 rg c c2 g = IFF_compareChunk e2 rg c c2 g) ->
      forall l2 g, compare_all (IFF_compareChunk e1 rg) l1 l2 g = compare_all (IFF_compareChunk e2 rg) l1 l2 g).
    { induction l1 as [|c l1 IH]; intros H [|c2 l2] g; cbn [compare_all]; try reflexivity. rewrite H by (left; reflexivity).
      destruct (IFF_compareChunk e2 rg c c2 g) as [[]|u|]; cbn [obind]; try reflexivity. apply IH. intros; apply H; right; assumption. }
    assert (PROPS : forall l1, (forall c, In c l1 -> forall c2, IFF_compareGroup (IFF_compareChunk e1 rg) c c2 = IFF_compareGroup (IFF_compareChunk e2 rg) c c2) ->
      forall l2, compare_props (IFF_compareChunk e1 rg) l1 l2 = compare_props (IFF_compareChunk e2 rg) l1 l2).
    { induction l1 as [|c l1 IH]; intros H [|c2 l2]; cbn [compare_props]; try reflexivity. rewrite H by (left; reflexivity).
      destruct (IFF_compareGroup (IFF_compareChunk e2 rg) c c2) as [[]|u|]; cbn [obind]; try reflexivity. apply IH. intros; apply H; right; assumption. }
    assert (HEAD : forall c, (forall h c2, compareExtensionChunk (IFF_compareChunk e1 rg) e1 h c c2 = compareExtensionChunk (IFF_compareChunk e2 rg) e2 h c c2) ->
      forall c2 g, IFF_compareChunk e1 rg c c2 g = IFF_compareChunk e2 rg c c2 g).
    { intros c H c2 g. destruct c; cbn [IFF_compareChunk]; (destruct (_ && _); [|reflexivity]); destruct (find_handler rg g _) as [h|u|]; cbn [obind]; auto. }
    assert (RAW : forall c c2, IFF_compareRawChunk e1 c c2 = IFF_compareRawChunk e2 c c2).
    { intros c c2. unfold IFF_compareRawChunk. rewrite (long_eq _ _ A). reflexivity. }
    induction c1 as [i s d|i s g0 l IH|i s g0 p l IHp IHl|i s v] using chunk_tree_ind.
    - split; [|reflexivity]. apply HEAD. intros [] c2; cbn [compareExtensionChunk]; try reflexivity. apply RAW.
    - assert (G : forall c2, IFF_compareGroup (IFF_compareChunk e1 rg) (CGroup i s g0 l) c2 = IFF_compareGroup (IFF_compareChunk e2 rg) (CGroup i s g0 l) c2).
      { intro c2. cbn [IFF_compareGroup]. destruct (as_group c2) as [[g2 l2]|]; [|reflexivity]. rewrite ALL by (intros c H; apply (IH c H)). reflexivity. }
      split; [|exact G]. apply HEAD. intros [] c2; cbn [compareExtensionChunk]; try reflexivity; apply G.
    - assert (G : forall c2, IFF_compareGroup (IFF_compareChunk e1 rg) (CList i s g0 p l) c2 = IFF_compareGroup (IFF_compareChunk e2 rg) (CList i s g0 p l) c2).
      { intro c2. cbn [IFF_compareGroup]. destruct (as_group c2) as [[g2 l2]|]; [|reflexivity]. rewrite ALL by (intros c H; apply (IHl c H)). reflexivity. }
      split; [|exact G]. apply HEAD. intros [] c2; cbn [compareExtensionChunk]; try reflexivity; try apply G.
      unfold IFF_compareList. destruct c2 as [a b d|a b h q|a b h q r|a b w]; try reflexivity.
      rewrite PROPS by (intros c H; apply (IHp c H)). rewrite ALL by (intros c H; apply (IHl c H)). reflexivity.
    - split; [|reflexivity]. apply HEAD. intros [] c2; cbn [compareExtensionChunk]; reflexivity.
  Qed.
End Functions.

(** From [same] to equality. *)
Lemma same_equal : forall e1 e2 A (m1 m2 : M A), same e1 e2 true m1 m2 -> forall w, m1 e1 w = m2 e2 w.
Proof.
  intros e1 e2 A m1 m2 H w. specialize (H w w ltac:(repeat split)).
  destruct (m1 e1 w) as [[a v1]|u1|]; destruct (m2 e2 w) as [[b v2]|u2|]; try contradiction; [|congruence|reflexivity].
  destruct H as (<- & (I & O & N) & lg & L1 & L2). destruct v1, v2. cbn in *. subst. reflexivity.
Qed.
