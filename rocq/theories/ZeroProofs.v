(** * Proofs about hosts on which malloc(0) returns NULL *)

From Coq Require Import ZArith List Bool Lia.
From Coq Require Import Strings.Byte Strings.String.
From Verif Require Import Machine Io Types Build Read Iff Spec Lemmas IoProofs ReadProofs SoundProofs ZeroSpec.
Import ListNotations.
Open Scope Z_scope.

(** ** Trees without empty chunks *)
Fixpoint plain (c : chunk) : bool :=
  match c with
  | CRaw _ s _ => negb (s =? 0)
  | CGroup _ _ _ cs => forallb plain cs
  | CList _ _ _ ps cs => forallb plain ps && forallb plain cs
  | CFields _ _ _ => true
  end.

Lemma forallb_false : forall A (f : A -> bool) l, forallb f l = false -> exists x, In x l /\ f x = false.
Proof.
  intros A f l. induction l as [|a l IH]; cbn [forallb]; intro H; [discriminate H|].
  destruct (f a) eqn:E; [destruct (IH H) as (x & I & F); exists x; split; [right; exact I|exact F]|exists a; split; [left; reflexivity|exact E]].
Qed.
Lemma plain_HasEmpty : forall c, plain c = false <-> HasEmpty c.
Proof.
  intro c. split.
  - induction c as [i s d|i s g cs IH|i s g ps cs IHp IH|i s v] using chunk_tree_ind; cbn [plain]; intro H.
    + apply negb_false_iff, Z.eqb_eq in H. subst s. constructor.
    + destruct (forallb_false _ _ _ H) as (x & I & F). econstructor; [exact I|apply IH; assumption].
    + apply andb_false_iff in H as [H|H]; destruct (forallb_false _ _ _ H) as (x & I & F).
      * eapply Empty_prop; [exact I|apply IHp; assumption].
      * eapply Empty_list; [exact I|apply IH; assumption].
    + discriminate H.
  - assert (IN : forall l x, In x l -> plain x = false -> forallb plain l = false).
    { induction l as [|a l IH]; intros x [] E; cbn [forallb]; [subst; rewrite E; reflexivity|]. rewrite (IH x); [apply andb_false_r|assumption|assumption]. }
    intro H. induction H; cbn [plain]; [reflexivity|eapply IN; eassumption| |].
    + erewrite IN by eassumption. reflexivity.
    + erewrite (IN cs) by eassumption. apply andb_false_r.
Qed.

Section Zero.
  Variable e : env.
  Hypothesis NS : strict_c e = false.
  Let z := no_zero e.

  Definition Agree0 {A} (m : M A) : Prop := forall w, m z w = m e w.
  Lemma a0_bind : forall A B (m : M A) (f : A -> M B), Agree0 m -> (forall a, Agree0 (f a)) -> Agree0 (bind m f).
  Proof. intros A B m f K F w. unfold bind. rewrite K. destruct (m e w) as [[a w1]|u|]; [apply F|reflexivity|reflexivity]. Qed.
  Lemma a0_ask : forall A (f : env -> M A), f z = f e -> Agree0 (f e) -> Agree0 (bind ask f).
  Proof. intros A f S F w. unfold bind, ask. rewrite S. apply F. Qed.
  Lemma a0_any : forall A (x : world -> outcome (A * world)), Agree0 (fun _ w => x w).
  Proof. intros A x w. reflexivity. Qed.

  Ltac agree0 :=
    repeat (cbv beta;
    match goal with
    | |- Agree0 (ret _) => apply a0_any
    | |- Agree0 (undefined _) => apply a0_any
    | |- Agree0 nofuel => apply a0_any
    | |- Agree0 fgetc => apply a0_any
    | |- Agree0 (fread _) => apply a0_any
    | |- Agree0 (IFF_error _) => apply a0_any
    | |- Agree0 (lift _) => apply a0_any
    | |- Agree0 (fseek_cur _) => apply a0_any
    | |- Agree0 (bind ask _) => apply a0_ask; [reflexivity|]
    | |- Agree0 (bind _ _) => apply a0_bind; [|intro]
    | |- Agree0 (IFF_errorId _) => let w := fresh in intro w; rewrite !run_errorId; reflexivity
    | |- Agree0 (IFF_readError _ _) => unfold IFF_readError
    | |- Agree0 (if ?b then _ else _) => destruct b eqn:?
    | |- Agree0 (match ?x with _ => _ end) => destruct x eqn:?
    | |- Agree0 (let x := _ in _) => cbv zeta
    end).

  Lemma a0_prim : forall k i s, Agree0 (read_prim k i s).
  Proof.
    intros k i s. destruct k; cbn [read_prim];
      unfold IFF_readUByte, IFF_readUWord, IFF_readWord, IFF_readULong, IFF_readLong, IFF_readId, IFF_readULong, swap_long; agree0.
  Qed.
  Lemma a0_field : forall k i s a bp, Agree0 (IFF_readField k i s a bp).
  Proof. intros. unfold IFF_readField. agree0. apply a0_prim. Qed.
  Lemma a0_fields : forall ds vals i s bp, Agree0 (read_fields ds vals i s bp).
  Proof.
    induction ds as [|d ds IH]; intros vals i s bp; cbn [read_fields]; [agree0|].
    destruct vals as [|v vals]; [agree0|]. apply a0_bind; [apply a0_field|]. intros [[st o] b2]. destruct st, o; agree0. apply IH.
  Qed.
  Lemma a0_warning : forall a b, Agree0 (truncated_warning a b).
  Proof. intros. unfold truncated_warning. agree0. Qed.
  Lemma a0_skip : forall i s bp, Agree0 (IFF_skipUnknownBytes i s bp).
  Proof. intros. unfold IFF_skipUnknownBytes. agree0. Qed.
  Lemma a0_padding : forall s i, Agree0 (IFF_readPaddingByte s i).
  Proof. intros. unfold IFF_readPaddingByte. agree0. Qed.
  Lemma a0_raw : forall c bp, Agree0 (IFF_readRawChunk c bp).
  Proof. intros. unfold IFF_readRawChunk. destruct c; agree0. Qed.

  (** *** Good results come out of both, and only good ones out of [z] *)
  Definition Both {A} (ok good : A -> bool) (m : M A) : Prop := forall w a w',
    (m e w = Done (a, w') -> good a = true -> m z w = Done (a, w')) /\ (m z w = Done (a, w') -> ok a = true -> good a = true).
  (** nothing good comes out of it on any host *)
  Definition Dud0 {A} (good : A -> bool) (m : M A) : Prop := forall x w a w', m x w = Done (a, w') -> good a = false.

  Lemma b_agree : forall A ok (m : M A) (good : A -> bool), Agree0 m -> (forall w a w', m e w = Done (a, w') -> ok a = true -> good a = true) -> Both ok good m.
  Proof. intros A ok m good K G w a w'. rewrite K. split; [auto|apply G]. Qed.
  Lemma b_bind : forall A B ok1 g1 ok2 g2 (m : M A) (f : A -> M B), Both ok1 g1 m ->
    (forall a, g1 a = true -> Both ok2 g2 (f a)) -> (forall a, g1 a = false -> Dud0 g2 (f a)) -> (forall a, ok1 a = false -> Dud0 ok2 (f a)) -> (forall a, g1 a = true -> ok1 a = true) ->
    Both ok2 g2 (bind m f).
  Proof.
    intros A B ok1 g1 ok2 g2 m f K F D O I w b w'. unfold bind. split.
    - destruct (m e w) as [[a v]|u|] eqn:E; try discriminate. intros E2 G. destruct (g1 a) eqn:GA.
      + rewrite (proj1 (K w a v) E GA). exact (proj1 (F a GA v b w') E2 G).
      + rewrite (D a GA _ _ _ _ E2) in G. discriminate G.
    - destruct (m z w) as [[a v]|u|] eqn:E; try discriminate. intros E2 G. destruct (ok1 a) eqn:OA.
      + apply (proj2 (F a (proj2 (K w a v) E OA) v b w') E2 G).
      + rewrite (O a OA _ _ _ _ E2) in G. discriminate G.
  Qed.
  Lemma b_then : forall A B ok good (m : M A) (f : A -> M B), Agree0 m -> (forall a, Both ok good (f a)) -> Both ok good (bind m f).
  Proof.
    intros A B ok good m f K F. apply b_bind with (ok1 := fun _ => true) (g1 := fun _ => true); [apply b_agree; [exact K|reflexivity]|intros a _; apply F| | |]; intros; discriminate || reflexivity.
  Qed.
  Lemma b_malloc : forall A ok good n (f : bool -> M A), 0 < n -> (forall b, Both ok good (f b)) -> Both ok good (bind (malloc n) f).
  Proof.
    intros A ok good n f L F. apply b_then; [|exact F]. intro w. unfold malloc, z, no_zero, size_t_bits. cbn [malloc_ok lp64].
    destruct (Z.eqb_spec n 0) as [X|_]; [lia|]. cbn [negb]. rewrite andb_true_r. reflexivity.
  Qed.
  Lemma b_undefined : forall A ok good u, Both ok good (undefined u : M A).
  Proof. intros A ok good u w a w'. split; discriminate. Qed.
  Lemma b_nofuel : forall A ok good, Both ok good (nofuel : M A).
  Proof. intros A ok good w a w'. split; discriminate. Qed.
  Lemma b_ret : forall A (ok good : A -> bool) a, (ok a = true -> good a = true) -> Both ok good (ret a).
  Proof. intros A ok good a I. apply b_agree; [apply a0_any|]. intros w b w' E. injection E as <- _. exact I. Qed.
  Lemma b_assoc : forall A A1 A2 ok good (m : M A) (f : A -> M A1) (g : A1 -> M A2),
    Both ok good (bind m (fun a => bind (f a) g)) -> Both ok good (bind (bind m f) g).
  Proof. intros A A1 A2 ok good m f g K w a w'. specialize (K w a w'). unfold bind in *. destruct (m z w) as [[x y]|u|]; destruct (m e w) as [[x2 y2]|u2|]; exact K. Qed.
  Lemma d_bind : forall A B good (m : M A) (f : A -> M B), (forall a, Dud0 good (f a)) -> Dud0 good (bind m f).
  Proof. intros A B good m f F x w b w' E. unfold bind in E. destruct (m x w) as [[a w1]|u|]; [|discriminate E|discriminate E]. exact (F a x w1 b w' E). Qed.
  Lemma d_then : forall A B good (m : M A) (f : A -> M B), (forall x w a w', m x w = Done (a, w') -> Dud0 good (f a)) -> Dud0 good (bind m f).
  Proof. intros A B good m f F x w b w' E. unfold bind in E. destruct (m x w) as [[a w1]|u|] eqn:X; [|discriminate E|discriminate E]. exact (F x w a w1 X x w1 b w' E). Qed.
  Lemma d_ret : forall A (good : A -> bool) a, good a = false -> Dud0 good (ret a).
  Proof. intros A good a G x w b w' E. injection E as <- _. exact G. Qed.
  Lemma d_undefined : forall A good u, Dud0 good (undefined u : M A).
  Proof. intros A good u x w a w' E. discriminate E. Qed.

  Definition some0 (o : option chunk) : bool := match o with Some _ => true | None => false end.
  Definition good0 (o : option chunk) : bool := match o with Some c => plain c | None => false end.
  Definition ok3 (r : bool * chunk * Z) : bool := fst (fst r).
  Definition good3 (r : bool * chunk * Z) : bool := fst (fst r) && plain (snd (fst r)).

  Lemma plain_snoc : forall l c, forallb plain (l ++ [c]) = forallb plain l && plain c.
  Proof. intros. rewrite forallb_app. cbn [forallb]. rewrite andb_true_r. reflexivity. Qed.

  (** attaching [c] to [g] gives a group that is plain when both are *)
  Lemma b_attach : forall A ok good g c (f : chunk -> M A),
    (forall g', plain g' = plain g && plain c -> Both ok good (f g')) -> Both ok good (bind (IFF_attachToGroup g c) f).
  Proof.
    intros A ok good g c f F. unfold IFF_attachToGroup. destruct g as [i s d|i s g subs|i s g props subs|i s v]; cbn [as_group set_subs].
    1,4: intros w a w'; split; discriminate.
    all: apply b_assoc, b_malloc; [pose proof (zlength_nonneg _ subs); unfold sizeof_pointer; lia|]; intros [|]; [|intros w a w'; split; discriminate].
    all: intros w a w'; unfold bind, ret; apply F; cbn [plain]; rewrite plain_snoc; try rewrite andb_assoc; reflexivity.
  Qed.
  Lemma b_addProp : forall A ok good g c (f : chunk -> M A),
    (forall g', plain g' = plain g && plain c -> Both ok good (f g')) -> Both ok good (bind (addPropToList g c) f).
  Proof.
    intros A ok good g c f F. unfold addPropToList. destruct g as [i s d|i s g subs|i s g props subs|i s v].
    1,2,4: intros w a w'; split; discriminate.
    apply b_assoc, b_malloc; [pose proof (zlength_nonneg _ props); unfold sizeof_pointer; lia|]. intros [|]; [|intros w a w'; split; discriminate].
    intros w a w'; unfold bind, ret; apply F; cbn [plain]; rewrite plain_snoc. rewrite <- !andb_assoc. f_equal. apply andb_comm.
  Qed.
  Lemma d_attach : forall A good g c (f : chunk -> M A),
    (forall g', plain g' = plain g && plain c -> Dud0 good (f g')) -> Dud0 good (bind (IFF_attachToGroup g c) f).
  Proof.
    intros A good g c f F x w a w' E. unfold IFF_attachToGroup in E. destruct g as [i s d|i s g subs|i s g props subs|i s v]; cbn [as_group set_subs] in E; try discriminate E.
    all: unfold bind, malloc, ret, undefined in E; destruct (_ && _) in E; [|discriminate E]; refine (F _ _ _ _ _ _ E); cbn [plain]; rewrite plain_snoc; try rewrite andb_assoc; reflexivity.
  Qed.
  Lemma d_addProp : forall A good g c (f : chunk -> M A),
    (forall g', plain g' = plain g && plain c -> Dud0 good (f g')) -> Dud0 good (bind (addPropToList g c) f).
  Proof.
    intros A good g c f F x w a w' E. unfold addPropToList in E. destruct g as [i s d|i s g subs|i s g props subs|i s v]; try discriminate E.
    unfold bind, malloc, ret, undefined in E; destruct (_ && _) in E; [|discriminate E]; refine (F _ _ _ _ _ _ E); cbn [plain]; rewrite plain_snoc. rewrite <- !andb_assoc. f_equal. apply andb_comm.
  Qed.

  Section Loops.
    Variable rc : Z -> M (option chunk).
    Hypothesis RC : forall ft, Both some0 good0 (rc ft).

    (** a group that is not plain does not become so *)
    Lemma d_group_loop : forall f g gt bp, plain g = false -> Dud0 good3 (readGroupSubChunks rc f g gt bp).
    Proof.
      induction f as [|f IH]; intros g gt bp P; cbn [readGroupSubChunks]; destruct (bp <? chunkSize g); try (intros x w a w' E; discriminate E).
      1,3: apply d_bind; intro; apply d_ret; exact P.
      apply d_bind. intros [c|]; [|apply d_ret; reflexivity]. apply d_attach. intros g' E. apply d_bind. intro. apply IH. rewrite E, P. reflexivity.
    Qed.
    Lemma d_list_loop : forall f g gt bp, plain g = false -> Dud0 good3 (readListSubChunks rc f g gt bp).
    Proof.
      induction f as [|f IH]; intros g gt bp P; cbn [readListSubChunks]; destruct (bp <? chunkSize g); try (intros x w a w' E; discriminate E).
      1,3: apply d_bind; intro; apply d_ret; exact P.
      apply d_bind. intros [c|]; [|apply d_ret; reflexivity]. destruct (chunkId c =? IFF_ID_PROP); [apply d_addProp|apply d_attach];
        intros g' E; apply d_bind; intro; apply IH; rewrite E, P; reflexivity.
    Qed.
    Lemma b_group_loop : forall f g gt bp, plain g = true -> Both ok3 good3 (readGroupSubChunks rc f g gt bp).
    Proof.
      induction f as [|f IH]; intros g gt bp P; cbn [readGroupSubChunks]; destruct (bp <? chunkSize g); try apply b_nofuel.
      1,3: apply b_then; [destruct (_ <? _); [apply a0_warning|apply a0_any]|]; intro; apply b_ret; unfold good3; cbn [fst snd]; rewrite P; intros _; reflexivity.
      eapply b_bind with (ok1 := some0) (g1 := good0); [apply RC| | | |].
      - intros [c|] G; [|discriminate G]. apply b_attach. intros g' E. apply b_then; [agree0|]. intro. apply IH. rewrite E, P. exact G.
      - intros [c|] G; [|apply d_ret; reflexivity]. apply d_attach. intros g' E. apply d_bind. intro. apply d_group_loop. rewrite E. cbn in G. rewrite G. apply andb_false_r.
      - intros [c|] G; [discriminate G|apply d_ret; reflexivity].
      - intros [c|] G; [reflexivity|discriminate G].
    Qed.
    Lemma b_list_loop : forall f g gt bp, plain g = true -> Both ok3 good3 (readListSubChunks rc f g gt bp).
    Proof.
      induction f as [|f IH]; intros g gt bp P; cbn [readListSubChunks]; destruct (bp <? chunkSize g); try apply b_nofuel.
      1,3: apply b_then; [destruct (_ <? _); [apply a0_warning|apply a0_any]|]; intro; apply b_ret; unfold good3; cbn [fst snd]; rewrite P; intros _; reflexivity.
      eapply b_bind with (ok1 := some0) (g1 := good0); [apply RC| | | |].
      - intros [c|] G; [|discriminate G]. destruct (chunkId c =? IFF_ID_PROP); [apply b_addProp|apply b_attach];
          intros g' E; (apply b_then; [agree0|]); intro; apply IH; rewrite E, P; exact G.
      - intros [c|] G; [|apply d_ret; reflexivity]. destruct (chunkId c =? IFF_ID_PROP); [apply d_addProp|apply d_attach];
          intros g' E; apply d_bind; intro; apply d_list_loop; rewrite E; cbn in G; rewrite G; apply andb_false_r.
      - intros [c|] G; [discriminate G|apply d_ret; reflexivity].
      - intros [c|] G; [reflexivity|discriminate G].
    Qed.
    Lemma b_readGroup : forall f c s, plain c = true -> Both ok3 good3 (IFF_readGroup rc f c s 0).
    Proof.
      intros f c s P. unfold IFF_readGroup. destruct (as_group c) as [x|] eqn:AG; [|apply b_undefined].
      apply b_then; [apply a0_field|]. intros [[st o] b2].
      destruct st, o; try (apply b_ret; unfold ok3, good3; cbn [fst snd]; rewrite ?P; intro X; exact X).
      apply b_group_loop. destruct c; try discriminate AG; exact P.
    Qed.
    Lemma b_readList : forall f c, plain c = true -> Both ok3 good3 (IFF_readList rc f c 0).
    Proof.
      intros f c P. unfold IFF_readList. destruct c as [i s d|i s g subs|i s g props subs|i s v]; try apply b_undefined.
      apply b_then; [apply a0_field|]. intros [[st o] b2].
      destruct st, o; try (apply b_ret; unfold ok3, good3; cbn [fst snd]; rewrite ?P; intro X; exact X).
      eapply b_bind with (ok1 := ok3) (g1 := good3); [apply b_list_loop; exact P| | | |].
      - intros [[[|] l2] b3] G; [|discriminate G]. apply b_ret. intros _. exact G.
      - intros [[[|] l2] b3] G; [apply d_ret; exact G|]. apply d_bind. intro. apply d_ret. reflexivity.
      - intros [[[|] l2] b3] G; [discriminate G|]. apply d_bind. intro. apply d_ret. reflexivity.
      - intros [[[|] l2] b3] G; [reflexivity|discriminate G].
    Qed.

    Definition finish0 (rg : option registry) (s ft : Z) (r : bool * chunk * Z) : M (option chunk) :=
      match r with
      | (ok, c1, bp) =>
          ok3 <- andM (ret ok) (andM (IFF_skipUnknownBytes (chunkId c1) s bp) (IFF_readPaddingByte s (chunkId c1))) ;;
          if ok3 then ret (Some c1) else lift (IFF_freeChunk rg c1 ft) ;;; ret None
      end.
    Lemma d_finish : forall rg s ft r (ok : option chunk -> bool), ok None = false -> ok (Some (snd (fst r))) = false \/ ok3 r = false -> Dud0 ok (finish0 rg s ft r).
    Proof.
      intros rg s ft [[b c1] bp] ok NO [G|G]; cbn [fst snd ok3] in G.
      - cbn [finish0]. apply d_bind. intros [|]; [apply d_ret; exact G|]. apply d_bind. intro. apply d_ret. exact NO.
      - unfold ok3 in G. cbn in G. subst b. cbn [finish0]. unfold andM. intros x w a w' E. unfold bind, ret, lift in E.
        destruct (IFF_freeChunk rg c1 ft); [|discriminate E|discriminate E]. injection E as <- _. exact NO.
    Qed.
    Lemma a0_finish : forall rg s ft r, Agree0 (finish0 rg s ft r).
    Proof.
      intros rg s ft [[ok c1] bp]. cbn [finish0]. apply a0_bind; [unfold andM; agree0; [apply a0_skip|apply a0_padding]|]. intros [|]; agree0.
    Qed.

    Lemma b_body : forall rg f i s ft, in_range FLong s -> Both some0 good0 (readChunkBody rc rg f i s ft).
    Proof.
      intros rg f i s ft IR. unfold readChunkBody.
      apply b_then; [agree0|]. intro h.
      change (Both some0 good0 (oc <- createExtensionChunk h i s ;;
        match oc with None => ret None | Some c => r <- readExtensionChunkFields rc f h c 0 ;; finish0 rg s ft r end)).
      assert (K : forall c, Both ok3 good3 (readExtensionChunkFields rc f h c 0) ->
        Both some0 good0 (r <- readExtensionChunkFields rc f h c 0 ;; finish0 rg s ft r)).
      { intros c N. eapply b_bind with (ok1 := ok3) (g1 := good3); [exact N| | | |].
        - intros [[ok c1] bp] G. apply b_agree; [apply a0_finish|]. unfold good3 in G. cbn [fst snd] in G. apply andb_true_iff in G as [-> P].
          intros w [a|] w' E; [intros _|discriminate]. cbn [finish0] in E. unfold bind at 1 in E. destruct (andM _ _ e w) as [[[|] v]|u|]; try discriminate E.
          + injection E as <- _. exact P.
          + unfold bind, lift in E. destruct (IFF_freeChunk rg c1 ft); discriminate E.
        - intros [[ok c1] bp] G. apply d_finish; [reflexivity|]. unfold good3 in G. cbn [fst snd] in G. apply andb_false_iff in G as [G|G]; [right|left]; exact G.
        - intros r G. apply d_finish; [reflexivity|]. right. exact G.
        - intros [[ok c1] bp] G. apply andb_true_iff in G as [G _]. exact G. }
      assert (NONE : Both some0 good0 (ret (@None chunk))) by (apply b_ret; discriminate).
      destruct h; cbn [createExtensionChunk readExtensionChunkFields] in *.
      1,2,4: unfold IFF_createUnparsedGroup, IFF_createGroup; apply b_assoc, b_malloc;
        [unfold sizeof_Group; lia|intros []; [apply K, b_readGroup; reflexivity|exact NONE]].
      - unfold IFF_createUnparsedList, IFF_createList. apply b_assoc, b_malloc; [unfold sizeof_List; lia|]. intros []; [|exact NONE].
        apply K, b_readList; reflexivity.
      - unfold IFF_createRawChunk. set (n := wrap_u (size_t_bits e) s).
        match goal with |- Both _ _ (bind (bind ask ?f) ?g) =>
          enough (B : Both some0 good0 (bind (f e) g)) by (intros w a w'; exact (B w a w')) end.
        fold n. destruct (Z.eq_dec s 0) as [->|NZ].
        + replace n with 0 by (unfold n, wrap_u; rewrite Z.mod_0_l; [reflexivity|unfold size_t_bits; destruct (lp64 e); discriminate]).
          apply b_assoc, b_malloc; [unfold sizeof_RawChunk; lia|]. intros []; [|exact NONE]. clear.
          intros w a w'. split.
          * intros E G. exfalso. unfold bind at 1 2 in E. unfold malloc in E. unfold ret at 1 in E. destruct (_ && _) in E; [|injection E as <- _; discriminate G].
            assert (D : Dud0 good0 (r <- IFF_readRawChunk (CRaw i 0 None) 0 ;; finish0 rg 0 ft r)).
            { clear. apply d_then. intros x w [[ok c1] bp] w' E. apply d_finish; [reflexivity|]. cbn [fst snd]. unfold IFF_readRawChunk in E.
              unfold bind at 1 in E. unfold ask in E. unfold bind at 1 in E. unfold fread in E.
              destruct (_ <? _) in E.
              - unfold bind, IFF_error in E. rewrite run_errorId in E. injection E as <- <- <- <-. right. reflexivity.
              - destruct (_ <? _) in E; [discriminate E|]. injection E as <- <- <- <-. left. reflexivity. }
            rewrite (D _ _ _ _ E) in G. discriminate G.
          * unfold bind at 1 2. unfold malloc, z, no_zero. cbn [malloc_ok]. rewrite andb_false_r, andb_false_r. unfold ret at 1. intros E. injection E as <- _. discriminate.
        + assert (NP : 0 < n).
          { unfold n, wrap_u. cbn [in_range] in IR. pose proof (Z.mod_pos_bound s (2 ^ size_t_bits e)) as MB.
            assert (PW : 2 ^ size_t_bits e = 4294967296 \/ 2 ^ size_t_bits e = 18446744073709551616) by (unfold size_t_bits; destruct (lp64 e); [right|left]; reflexivity).
            enough (s mod 2 ^ size_t_bits e <> 0) by lia. intro Z0. apply Z.mod_divide in Z0; [|lia]. destruct Z0 as [q Q].
            unfold INT_MIN, INT_MAX in IR. destruct PW as [PW|PW]; rewrite PW in Q; lia. }
          apply b_assoc, b_malloc; [unfold sizeof_RawChunk; lia|]. intros []; [|exact NONE].
          apply b_assoc, b_malloc; [exact NP|]. intros []; [|exact NONE]. apply K. apply b_agree; [apply a0_raw|].
          intros w [[ok c1] bp] w' E G. unfold ok3 in G. cbn [fst] in G. subst ok. unfold IFF_readRawChunk in E.
          unfold bind at 1 in E. unfold ask in E. unfold bind at 1 in E. unfold fread in E.
          destruct (_ <? _) in E.
          * unfold bind, IFF_error in E. rewrite run_errorId in E. discriminate E.
          * destruct (_ <? _) in E; [discriminate E|]. injection E as <- <- <-. unfold good3. cbn. destruct (Z.eqb_spec s 0); [contradiction|reflexivity].
      - unfold create_fields. apply b_assoc, b_malloc; [unfold sizeof_Fields; lia|]. intros []; [|exact NONE].
        apply K. apply b_agree; [unfold read_fields_chunk; cbn; agree0; apply a0_fields|].
        intros w [[ok c1] bp] w' E G. unfold ok3 in G. cbn [fst] in G. subst ok. unfold read_fields_chunk in E. unfold bind in E.
        destruct (fkinds_eqb _ _) in E; [|discriminate E].
        match type of E with match ?x with _ => _ end = _ => destruct x as [[[[ok vs] b] v]|u|] end; try discriminate E. injection E as -> <- _ _. reflexivity.
    Qed.
  End Loops.

  Lemma long_range : forall i s w v w', read_prim FLong i s e w = Done (Some v, w') -> in_range FLong v.
  Proof.
    intros i s w v w' E. destruct (prim_cases e NS FLong w i s) as [(v2 & r & IR & _ & P)|[_ P]]; rewrite P in E; [injection E as <- _; exact IR|discriminate E].
  Qed.

  Lemma b_readChunk : forall rg fuel ft, Both some0 good0 (IFF_readChunk rg fuel ft).
  Proof.
    intros rg. induction fuel as [|f IH]; intros ft; cbn [IFF_readChunk]; [apply b_nofuel|].
    change (IFF_readId ID_EMPTY "") with (read_prim FId ID_EMPTY "").
    apply b_then; [apply a0_prim|]. intros [i|]; [|apply b_ret; discriminate].
    change (IFF_readLong i "chunkSize") with (read_prim FLong i "chunkSize").
    intros w a w'. unfold bind. rewrite a0_prim. destruct (read_prim FLong i "chunkSize" e w) as [[[s|] w1]|u|] eqn:P; try (split; discriminate).
    - apply b_body; [exact IH|]. eapply long_range. exact P.
    - split; [auto|]. intros E. injection E as <- _. discriminate.
  Qed.

  Theorem zero_readFd : forall rg w c w',
    (IFF_readFd rg e w = Done (Some c, w') -> plain c = true -> IFF_readFd rg (no_zero e) w = Done (Some c, w')) /\
    (IFF_readFd rg (no_zero e) w = Done (Some c, w') -> plain c = true).
  Proof.
    intros rg w c w'.
    assert (B : Both some0 good0 (IFF_readFd rg)).
    { intros v a v'. unfold IFF_readFd.
      match goal with |- (bind ?m ?f e v = _ -> _) /\ _ => enough (B : Both some0 good0 (bind m f)) by apply B end.
      eapply b_bind with (ok1 := some0) (g1 := good0); [apply b_readChunk| | | |].
      - intros [x|] G; [|discriminate G]. apply b_then; [agree0|]. intros [b|]; [apply b_then; [agree0|intro]|]; apply b_ret; intros _; exact G.
      - intros [x|] G; [|apply d_bind; intro; apply d_ret; reflexivity]. apply d_bind. intros [b|]; [apply d_bind; intro|]; apply d_ret; exact G.
      - intros [x|] G; [discriminate G|apply d_bind; intro; apply d_ret; reflexivity].
      - intros [x|] G; [reflexivity|discriminate G]. }
    destruct (B w (Some c) w') as [B1 B2]. split; [exact B1|intro E; exact (B2 E eq_refl)].
  Qed.
End Zero.
