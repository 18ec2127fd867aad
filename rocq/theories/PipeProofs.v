(** * Runs on a pipe and on a file go the same way, unless bytes are skipped *)

From Coq Require Import ZArith List Bool String Lia.
From Coq Require Import Strings.Byte.
From Verif Require Import Machine Io Types Build Read Write Iff Spec Lemmas IoProofs PipeSpec.
Import ListNotations.
Open Scope Z_scope.

Section Twin.
  Variable e : env.
  (** whether bytes may be skipped at all *)
  Variable skips : bool.

  Definition twin (v1 v2 : world) : Prop := r_seekable (w_in v1) = true /\ v2 = from_pipe v1.

  Definition grows {A} (m : M A) : Prop := forall w,
    match m e w with Done (_, v) => exists lg, w_log v = lg ++ w_log w | _ => True end.
  Definition gives {A} (F : A -> Prop) (m : M A) : Prop := forall w,
    match m e w with Done (a, _) => F a | _ => True end.

  (** [F] says that a result means failure. *)
  Definition Twin {A} (F : A -> Prop) (m : M A) : Prop := grows m /\
    forall w1 w2, twin w1 w2 ->
      match m e w1, m e w2 with
      | Done (a, v1), Done (b, v2) => a = b /\ twin v1 v2
      | Undefined u1, Undefined u2 => u1 = u2
      | OutOfFuel, OutOfFuel => True
      | _, _ => False
      end \/
      (skips = true /\ match m e w2 with Done (b, _) => F b | _ => True end /\
       match m e w1 with Done (_, v1) => skip_reported w1 v1 | _ => True end).

  Definition never {A} : A -> Prop := fun _ => False.

  Lemma skip_later : forall a b c, skip_reported a b -> (exists lg, w_log c = lg ++ w_log b) -> skip_reported a c.
  Proof.
    intros a b c (lg & n & E & I) [lg2 E2]. exists (lg2 ++ lg), n. split; [rewrite E2, E, app_assoc; reflexivity|]. apply in_or_app. right. exact I.
  Qed.
  Lemma skip_earlier : forall a b c, (exists lg, w_log b = lg ++ w_log a) -> skip_reported b c -> skip_reported a c.
  Proof.
    intros a b c [lg2 E2] (lg & n & E & I). exists (lg ++ lg2), n. split; [rewrite E, E2, app_assoc; reflexivity|]. apply in_or_app. left. exact I.
  Qed.

  Lemma grows_bind : forall A B (m : M A) (k : A -> M B), grows m -> (forall a, grows (k a)) -> grows (bind m k).
  Proof.
    intros A B m k H K w. specialize (H w). unfold bind. destruct (m e w) as [[a v]|u|]; [|exact I|exact I]. specialize (K a v).
    destruct (k a e v) as [[b v2]|u|]; [|exact I|exact I]. destruct H as [l1 H], K as [l2 K]. exists (l2 ++ l1). rewrite K, H, app_assoc. reflexivity.
  Qed.

  (** [P] holds of the results of [m]. *)
  Lemma twin_bind_post : forall A B (P F : A -> Prop) (G : B -> Prop) (m : M A) (k : A -> M B), Twin F m -> gives P m ->
    (forall a, grows (k a)) -> (forall a, P a -> Twin G (k a)) -> (forall a, F a -> gives G (k a)) -> Twin G (bind m k).
  Proof.
    intros A B P F G m k [GR H] PO GK K FK. split; [apply grows_bind; assumption|]. intros w1 w2 T. specialize (H w1 w2 T). pose proof (GR w1) as G1. pose proof (PO w1) as P1.
    unfold bind. destruct H as [H|(SK & H2 & H1)].
    - destruct (m e w1) as [[a v1]|u1|]; destruct (m e w2) as [[b v2]|u2|]; try contradiction; [|left; exact H|left; exact I].
      destruct H as [<- T2]. destruct (proj2 (K a P1) v1 v2 T2) as [L|(SK & L2 & L1)]; [left; exact L|right]. split; [exact SK|]. split; [exact L2|].
      destruct (k a e v1) as [[c x]|u|]; [|exact I|exact I]. apply (skip_earlier w1 v1); assumption.
    - right. split; [exact SK|]. split.
      + destruct (m e w2) as [[b v2]|u2|]; [|exact I|exact I]. exact (FK b H2 v2).
      + destruct (m e w1) as [[a v1]|u1|]; [|exact I|exact I]. pose proof (GK a v1) as GA. destruct (k a e v1) as [[c x]|u|]; [|exact I|exact I].
        apply (skip_later w1 v1); assumption.
  Qed.
  Lemma twin_bind : forall A B (F : A -> Prop) (G : B -> Prop) (m : M A) (k : A -> M B), Twin F m ->
    (forall a, Twin G (k a)) -> (forall a, F a -> gives G (k a)) -> Twin G (bind m k).
  Proof.
    intros A B F G m k H K FK. apply (twin_bind_post A B (fun _ => True) F); auto; [|intro a; apply K]. intro w. destruct (m e w) as [[a v]|u|]; exact I.
  Qed.
  (** Steps that are the same for both *)
  Lemma twin_then : forall A B (G : B -> Prop) (m : M A) (k : A -> M B), Twin never m -> (forall a, Twin G (k a)) -> Twin G (bind m k).
  Proof. intros A B G m k H K. apply (twin_bind A B never); auto. intros a []. Qed.

  Lemma twin_weaken : forall A (F : A -> Prop) (m : M A), Twin never m -> Twin F m.
  Proof.
    intros A F m [G H]. split; [exact G|]. intros w1 w2 T. destruct (H w1 w2 T) as [L|(SK & L2 & L1)]; [left; exact L|right].
    split; [exact SK|]. split; [|exact L1]. destruct (m e w2) as [[b v]|u|]; [destruct L2|exact I|exact I].
  Qed.

  Lemma twin_ret : forall A (F : A -> Prop) (a : A), Twin F (ret a).
  Proof. intros A F a. split; [intro w; exists []; reflexivity|]. intros w1 w2 H. left. cbn. auto. Qed.
  Lemma twin_undefined : forall A (F : A -> Prop) u, Twin F (@undefined A u).
  Proof. intros A F u. split; [intro w; exact I|]. intros w1 w2 H. left. reflexivity. Qed.
  Lemma twin_nofuel : forall A (F : A -> Prop), Twin F (@nofuel A).
  Proof. intros A F. split; [intro w; exact I|]. intros w1 w2 H. left. exact I. Qed.
  Lemma twin_lift : forall A (F : A -> Prop) (o : outcome A), Twin F (lift o).
  Proof. intros A F [a|u|]; [apply (twin_ret A F a)|apply (twin_undefined A F u)|apply (twin_nofuel A F)]. Qed.
  Lemma twin_ask : forall A (F : A -> Prop) (k : env -> M A), Twin F (k e) -> Twin F (x <- ask ;; k x).
  Proof. intros A F k H. exact H. Qed.
  Lemma twin_error : forall s, Twin never (IFF_error s).
  Proof.
    intro s. split; [intro w; exists [s]; reflexivity|]. intros w1 w2 [S ->]. left. cbn. split; [reflexivity|]. split; [exact S|reflexivity].
  Qed.
  Lemma twin_errorId : forall i, Twin never (IFF_errorId i).
  Proof.
    intro i. split; [intro w; rewrite run_errorId; exists (id_log i); reflexivity|]. intros w1 w2 [S ->]. left. rewrite !run_errorId. split; [reflexivity|]. split; [exact S|reflexivity].
  Qed.
  Lemma twin_readError : forall i n, Twin never (IFF_readError i n).
  Proof. intros. apply twin_then; [apply twin_error|]. intros _. apply twin_then; [apply twin_errorId|]. intros _. apply twin_error. Qed.
  Lemma twin_malloc : forall n, Twin never (malloc n).
  Proof.
    intro n. split; [intro w; exists []; reflexivity|]. intros w1 w2 [S ->]. left. unfold malloc. cbn [w_allocs from_pipe]. split; [reflexivity|]. split; [exact S|reflexivity].
  Qed.
  Lemma twin_fgetc : Twin never fgetc.
  Proof.
    split.
    - intro w. unfold fgetc. destruct (r_rest (w_in w)); exists []; reflexivity.
    - intros w1 w2 [S ->]. left. unfold fgetc. cbn [w_in from_pipe r_rest]. destruct (r_rest (w_in w1)) as [|b r] eqn:E; (split; [reflexivity|]); (split; [exact S|]).
      + reflexivity.
      + reflexivity.
  Qed.
  Lemma twin_fread : forall n, Twin never (fread n).
  Proof. intro n. split; [intro w; exists []; reflexivity|]. intros w1 w2 [S ->]. left. unfold fread. split; [reflexivity|]. split; [exact S|reflexivity]. Qed.
End Twin.

Ltac twin_step :=
  lazymatch goal with
  | |- Twin _ _ _ (bind ask _) => apply twin_ask; cbv beta
  | |- Twin _ _ _ (bind _ _) => apply twin_then; [|intros]
  | |- Twin _ _ _ (ret _) => apply twin_ret
  | |- Twin _ _ _ (lift _) => apply twin_lift
  | |- Twin _ _ _ (undefined _) => apply twin_undefined
  | |- Twin _ _ _ nofuel => apply twin_nofuel
  | |- Twin _ _ _ (IFF_error _) => first [apply twin_error | apply twin_weaken; apply twin_error]
  | |- Twin _ _ _ (IFF_errorId _) => first [apply twin_errorId | apply twin_weaken; apply twin_errorId]
  | |- Twin _ _ _ (IFF_readError _ _) => first [apply twin_readError | apply twin_weaken; apply twin_readError]
  | |- Twin _ _ _ (malloc _) => apply twin_malloc
  | |- Twin _ _ _ fgetc => apply twin_fgetc
  | |- Twin _ _ _ (fread _) => apply twin_fread
  | |- Twin _ _ _ (match ?x with _ => _ end) => destruct x
  end.
Ltac twin_all := repeat twin_step.

Section Functions.
  Variable e : env.
  Variable skips : bool.
  Notation Twin := (Twin e skips).

  Lemma twin_prim : forall k i n, Twin never (read_prim k i n).
  Proof.
    intros k i n. destruct k; cbn [read_prim]; unfold IFF_readUByte, IFF_readUWord, IFF_readWord, IFF_readULong, IFF_readLong, IFF_readId, IFF_readULong, swap_long; cbv zeta; twin_all.
  Qed.
  Lemma twin_readField : forall k i s n b, Twin never (IFF_readField k i s n b).
  Proof. intros. unfold IFF_readField. twin_all. apply twin_prim. Qed.
  Lemma twin_readPad : forall s i, Twin never (IFF_readPaddingByte s i).
  Proof. intros. unfold IFF_readPaddingByte. twin_all. Qed.
  Lemma twin_createExtension : forall h i s, Twin never (createExtensionChunk h i s).
  Proof.
    intros [| | | | |sp] i s; cbn [createExtensionChunk]; unfold IFF_createUnparsedGroup, IFF_createGroup, IFF_createUnparsedList, IFF_createList, IFF_createRawChunk, create_fields; twin_all.
  Qed.
  Lemma twin_attach : forall g c, Twin never (IFF_attachToGroup g c).
  Proof. intros. unfold IFF_attachToGroup. twin_all. Qed.
  Lemma twin_addProp : forall g c, Twin never (addPropToList g c).
  Proof. intros. unfold addPropToList. twin_all. Qed.
  Lemma twin_warning : forall a b, Twin never (truncated_warning a b).
  Proof. intros. unfold truncated_warning. twin_all. Qed.

  (** The one step that differs *)
  Lemma twin_skip : forall i s b, skips = true \/ s <= b -> Twin (fun ok => ok = false) (IFF_skipUnknownBytes i s b).
  Proof.
    intros i s b OK. unfold IFF_skipUnknownBytes. destruct (b <? s) eqn:L; [|apply twin_ret]. destruct OK as [SK|OK]; [|apply Z.ltb_lt in L; lia].
    cbv zeta. destruct (INT_MAX <? s - b); [apply twin_undefined|]. split.
    - intro w. unfold bind, fseek_cur. destruct (r_seekable (w_in w)); [|exists []; reflexivity]. unfold ask. destruct (strict_c e); [exact I|].
      unfold IFF_error. rewrite run_errorId. eexists [_; _; _; _; _; _]. reflexivity.
    - intros w1 w2 [S ->]. right. split; [exact SK|]. unfold bind, fseek_cur. rewrite S. cbn [from_pipe w_in r_seekable]. split; [reflexivity|].
      unfold ask. destruct (strict_c e); [exact I|]. unfold IFF_error. rewrite run_errorId. unfold ret. eexists [_; _; _; _; _; _], (s - b). split; [reflexivity|]. do 5 right. left. reflexivity.
  Qed.

  (** *** Chunks *)
  Definition failed (r : bool * chunk * Z) : Prop := fst (fst r) = false.
  Definition missing (r : option chunk) : Prop := r = None.

  Lemma twin_read_fields : forall ds vs i s b, Twin never (read_fields ds vs i s b).
  Proof.
    induction ds as [|d ds IH]; intros [|v vs] i s b; cbn [read_fields]; try solve [twin_all].
    apply twin_then; [apply twin_readField|]. intros [[[] [x|]] bp]; twin_all. apply IH.
  Qed.
  Lemma twin_readRaw : forall c b, Twin never (IFF_readRawChunk c b).
  Proof. intros [i s d|i s g l|i s g p l|i s v] b; cbn [IFF_readRawChunk]; cbv zeta; twin_all. Qed.

  Section Read.
    Variable rc : Z -> M (option chunk).
    Hypothesis RC : forall g, Twin missing (rc g).
    Lemma twin_groupSubs : forall f c g b, Twin failed (readGroupSubChunks rc f c g b).
    Proof.
      induction f as [|f IH]; intros c g b; cbn [readGroupSubChunks]; destruct (_ <? _); try apply twin_nofuel;
        try (apply twin_then; [destruct (_ <? _); [apply twin_warning|apply twin_ret]|]; intros; apply twin_ret).
      apply (twin_bind _ _ _ _ missing); [apply RC| |].
      - intros [x|]; [|apply twin_ret]. apply twin_then; [apply twin_attach|]. intros. apply twin_then; [apply twin_lift|]. intros. apply IH.
      - intros a ->. intro w. reflexivity.
    Qed.
    Lemma twin_listSubs : forall f c g b, Twin failed (readListSubChunks rc f c g b).
    Proof.
      induction f as [|f IH]; intros c g b; cbn [readListSubChunks]; destruct (_ <? _); try apply twin_nofuel;
        try (apply twin_then; [destruct (_ <? _); [apply twin_warning|apply twin_ret]|]; intros; apply twin_ret).
      apply (twin_bind _ _ _ _ missing); [apply RC| |].
      - intros [x|]; [|apply twin_ret]. apply twin_then; [destruct (_ =? _); [apply twin_addProp|apply twin_attach]|].
        intros. apply twin_then; [apply twin_lift|]. intros. apply IH.
      - intros a ->. intro w. reflexivity.
    Qed.
    Lemma twin_readExtension : forall f h c b, Twin failed (readExtensionChunkFields rc f h c b).
    Proof.
      assert (G : forall f c n b, Twin failed (IFF_readGroup rc f c n b)).
      { intros f c n b. unfold IFF_readGroup. destruct (as_group c); [|apply twin_undefined]. apply twin_then; [apply twin_readField|].
        intros [[[] [x|]] bp]; try apply twin_ret. apply twin_groupSubs. }
      intros f [| | | | |sp] c b; cbn [readExtensionChunkFields]; try apply G; try (apply twin_weaken; apply twin_readRaw).
      - unfold IFF_readList. destruct c; try apply twin_undefined. apply twin_then; [apply twin_readField|].
        intros [[[] [x|]] bp]; try apply twin_ret. apply (twin_bind _ _ _ _ failed); [apply twin_listSubs| |].
        + intros [[[] y] z]; twin_all.
        + intros [[[] y] z]; [discriminate|]. intros _ w. reflexivity.
      - unfold read_fields_chunk. destruct c; try apply twin_undefined. destruct (fkinds_eqb _ _); [|apply twin_undefined].
        apply twin_then; [apply twin_read_fields|]. intros [[a x] y]. apply twin_ret.
    Qed.

    (** Groups and data chunks are read up to their end. *)
    Lemma attach_size : forall g c w g' w', IFF_attachToGroup g c e w = Done (g', w') -> chunkSize g' = chunkSize g.
    Proof.
      intros g c w g' w' E. unfold IFF_attachToGroup in E. destruct (as_group g) as [[t l]|]; [|discriminate]. unfold bind, malloc in E. destruct (_ && _); [|discriminate].
      injection E as <- _. destruct g; reflexivity.
    Qed.
    Lemma addProp_size : forall g c w g' w', addPropToList g c e w = Done (g', w') -> chunkSize g' = chunkSize g.
    Proof.
      intros g c w g' w' E. unfold addPropToList in E. destruct g; try discriminate. unfold bind, malloc in E. destruct (_ && _); [|discriminate].
      injection E as <- _. reflexivity.
    Qed.
    Lemma groupSubs_end : forall f c g b w c1 bp w', readGroupSubChunks rc f c g b e w = Done (true, c1, bp, w') -> chunkSize c <= bp.
    Proof.
      induction f as [|f IH]; intros c g b w c1 bp w' E; cbn [readGroupSubChunks] in E; destruct (b <? chunkSize c) eqn:L; try discriminate.
      - apply Z.ltb_ge in L. unfold bind in E. match type of E with match ?x with _ => _ end = _ => destruct x as [[u v]|u|]; try discriminate end. injection E as _ <- _. exact L.
      - unfold bind in E. destruct (rc g e w) as [[[x|] v]|u|]; try discriminate. destruct (IFF_attachToGroup c x e v) as [[c' v2]|u|] eqn:A; try discriminate.
        unfold lift in E. destruct (IFF_incrementChunkSize b x) as [b2|u|]; try discriminate. rewrite <- (attach_size _ _ _ _ _ A). exact (IH _ _ _ _ _ _ _ E).
      - apply Z.ltb_ge in L. unfold bind in E. match type of E with match ?x with _ => _ end = _ => destruct x as [[u v]|u|]; try discriminate end. injection E as _ <- _. exact L.
    Qed.
    Lemma listSubs_end : forall f c g b w c1 bp w', readListSubChunks rc f c g b e w = Done (true, c1, bp, w') -> chunkSize c <= bp.
    Proof.
      induction f as [|f IH]; intros c g b w c1 bp w' E; cbn [readListSubChunks] in E; destruct (b <? chunkSize c) eqn:L; try discriminate.
      - apply Z.ltb_ge in L. unfold bind in E. match type of E with match ?x with _ => _ end = _ => destruct x as [[u v]|u|]; try discriminate end. injection E as _ <- _. exact L.
      - unfold bind in E. destruct (rc g e w) as [[[x|] v]|u|]; try discriminate.
        destruct ((if chunkId x =? IFF_ID_PROP then addPropToList c x else IFF_attachToGroup c x) e v) as [[c' v2]|u|] eqn:A; try discriminate.
        unfold lift in E. destruct (IFF_incrementChunkSize b x) as [b2|u|]; try discriminate.
        replace (chunkSize c) with (chunkSize c'); [exact (IH _ _ _ _ _ _ _ E)|]. destruct (_ =? _); [exact (addProp_size _ _ _ _ _ A)|exact (attach_size _ _ _ _ _ A)].
      - apply Z.ltb_ge in L. unfold bind in E. match type of E with match ?x with _ => _ end = _ => destruct x as [[u v]|u|]; try discriminate end. injection E as _ <- _. exact L.
    Qed.
    Lemma set_groupType_size : forall c g, chunkSize (set_groupType c g) = chunkSize c.
    Proof. intros [] g; reflexivity. Qed.
    Lemma type_fits : forall i s n w r w', IFF_readField FId i s n 0 e w = Done (r, w') -> match r with (FIELD_LAST, _, _) => False | (FIELD_MORE, None, _) => False | _ => True end.
    Proof.
      intros i s n w r w' E. unfold IFF_readField, bind, ask in E.
      replace (fieldDoesNotFitInChunk e (fieldSize FId) s 0) with false in E.
      - destruct (read_prim FId i n e w) as [[[v|] v2]|u|]; try discriminate; injection E as <- _; exact I.
      - symmetry. unfold fieldDoesNotFitInChunk. cbv zeta. apply Z.ltb_ge. unfold wrap_u at 1. rewrite Z.mod_0_l by (unfold size_t_bits; destruct (lp64 e); discriminate).
        unfold wrap_u. apply Z.mod_pos_bound. unfold size_t_bits; destruct (lp64 e); reflexivity.
    Qed.
    Lemma extension_end : forall f h c w c1 bp w', (forall s, h <> HFields s) -> readExtensionChunkFields rc f h c 0 e w = Done (true, c1, bp, w') -> chunkSize c <= bp.
    Proof.
      assert (G : forall f c n w c1 bp w', IFF_readGroup rc f c n 0 e w = Done (true, c1, bp, w') -> chunkSize c <= bp).
      { intros f c n w c1 bp w' E. unfold IFF_readGroup in E. destruct (as_group c); [|discriminate]. unfold bind in E.
        destruct (IFF_readField FId (chunkId c) (chunkSize c) n 0 e w) as [[r v]|u|] eqn:R; try discriminate. pose proof (type_fits _ _ _ _ _ _ R) as T.
        destruct r as [[[] [x|]] b]; try contradiction; try discriminate. rewrite <- (set_groupType_size c x). exact (groupSubs_end _ _ _ _ _ _ _ _ E). }
      intros f [| | | | |sp] c w c1 bp w' NH E; cbn [readExtensionChunkFields] in E; try (exact (G _ _ _ _ _ _ _ E)).
      - unfold IFF_readList in E. destruct c as [i s d|i s g l|i s g p l|i s v]; try discriminate. unfold bind in E.
        destruct (IFF_readField FId _ _ _ 0 e w) as [[r v]|u|] eqn:R; try discriminate. pose proof (type_fits _ _ _ _ _ _ R) as T.
        destruct r as [[[] [x|]] b]; try contradiction; try discriminate.
        destruct (readListSubChunks rc f (set_groupType (CList i s g p l) x) x b e v) as [[[[[] y] z] v2]|u|] eqn:S; try discriminate.
        injection E as _ <- _. exact (listSubs_end _ _ _ _ _ _ _ _ S).
      - unfold IFF_readRawChunk in E. destruct c as [i s d|i s g l|i s g p l|i s v]; try discriminate. unfold bind, ask, fread in E. cbv zeta in E.
        destruct (_ <? _); [unfold IFF_error in E; cbv beta iota in E; rewrite run_errorId in E; discriminate|]. destruct (_ <? _); [discriminate|]. injection E as _ <- _. cbn [chunkSize]. lia.
      - exfalso. exact (NH sp eq_refl).
    Qed.
    Lemma create_size : forall h i s w c w', createExtensionChunk h i s e w = Done (Some c, w') -> chunkSize c = s.
    Proof.
      intros [| | | | |sp] i s w c w' E; cbn [createExtensionChunk] in E; unfold IFF_createUnparsedGroup, IFF_createGroup, IFF_createUnparsedList, IFF_createList, IFF_createRawChunk, create_fields, bind, ask, malloc, ret in E;
        repeat (destruct (_ && _); try discriminate); injection E as <- _; reflexivity.
    Qed.

    Lemma twin_body : forall rg f i s g, skips = true \/ groups_and_data_only rg -> Twin missing (readChunkBody rc rg f i s g).
    Proof.
      intros rg f i s g OK. unfold readChunkBody.
      assert (GR : forall ok c1 bp, grows e (ok3 <- andM (ret ok) (andM (IFF_skipUnknownBytes (chunkId c1) s bp) (IFF_readPaddingByte s (chunkId c1))) ;;
          if ok3 then ret (Some c1) else lift (IFF_freeChunk rg c1 g) ;;; ret None)).
      { intros ok c1 bp. apply grows_bind.
          + destruct ok; [|intro w; exists []; reflexivity]. apply grows_bind; [intro w; exists []; reflexivity|]. intros []; [|intro w; exists []; reflexivity].
            apply grows_bind; [|intros []; [apply (twin_readPad)|intro w; exists []; reflexivity]].
            destruct (Z_lt_le_dec bp s) as [L|L].
            * intro w. unfold IFF_skipUnknownBytes. rewrite (proj2 (Z.ltb_lt _ _) L). cbv zeta. destruct (INT_MAX <? s - bp); [exact I|].
              unfold bind, fseek_cur. destruct (r_seekable (w_in w)); [|exists []; reflexivity]. unfold ask. destruct (strict_c e); [exact I|].
              unfold IFF_error. rewrite run_errorId. eexists [_; _; _; _; _; _]. reflexivity.
            * apply (twin_skip (chunkId c1) s bp (or_intror L)).
          + intros []; [intro w; exists []; reflexivity|]. apply grows_bind; [apply (twin_lift e skips _ never)|intros; intro w; exists []; reflexivity]. }
      assert (GB : forall h (c : chunk), (skips = true \/ forall sp, h <> HFields sp) -> chunkSize c = s ->
        Twin missing (r <- readExtensionChunkFields rc f h c 0 ;;
          match r with
          | (ok, c1, bp) =>
              ok3 <- andM (ret ok) (andM (IFF_skipUnknownBytes (chunkId c1) s bp) (IFF_readPaddingByte s (chunkId c1))) ;;
              if ok3 then ret (Some c1) else lift (IFF_freeChunk rg c1 g) ;;; ret None
          end)).
      { intros h c OKH CS. apply (twin_bind_post _ _ _ _ (fun r => fst (fst r) = true -> skips = true \/ s <= snd r) failed).
        - apply twin_readExtension.
        - intro w. destruct (readExtensionChunkFields rc f h c 0 e w) as [[[[ok c1] bp] v]|u|] eqn:E; [|exact I|exact I]. cbn. intros ->. destruct OKH as [SK|NH]; [auto|].
          right. rewrite <- CS. exact (extension_end f h c w c1 bp v NH E).
        - intros [[ok c1] bp]. exact (GR ok c1 bp).
        - intros [[ok c1] bp] PO. cbn in PO. destruct ok.
          + apply (twin_bind _ _ _ _ (fun ok => ok = false)).
            * apply twin_then; [apply twin_ret|]. intros []; [|apply twin_ret]. apply (twin_bind _ _ _ _ (fun ok => ok = false)); [exact (twin_skip _ _ _ (PO eq_refl))| |].
              -- intros []; [apply twin_weaken; apply twin_readPad|apply twin_ret].
              -- intros a ->. intro w. reflexivity.
            * intros []; twin_all.
            * intros a ->. intro w. unfold bind, lift. destruct (IFF_freeChunk rg c1 g); [reflexivity|exact I|exact I].
          + change (Twin missing (lift (IFF_freeChunk rg c1 g) ;;; ret None)). twin_all.
        - intros [[ok c1] bp] FA. destruct ok; [discriminate FA|]. intro w. unfold bind, andM, lift, ret. destruct (IFF_freeChunk rg c1 g); [reflexivity|exact I|exact I]. }
      apply (twin_bind_post _ _ _ _ (fun h => skips = true \/ forall sp, h <> HFields sp) never); [apply twin_lift| | | |intros a []].
      - intro w. unfold lift. destruct (find_handler rg g i) as [h|u|] eqn:FH; [|exact I|exact I]. destruct OK as [SK|GO]; [auto|]. right. exact (GO g i h FH).
      - intro h. apply grows_bind; [apply (twin_createExtension h i s)|]. intros [c|]; [|intro w; exists []; reflexivity].
        apply grows_bind; [apply twin_readExtension|]. intros [[ok c1] bp]. exact (GR ok c1 bp).
      - intros h OKH. apply (twin_bind_post _ _ _ _ (fun oc => forall c, oc = Some c -> chunkSize c = s) never); [apply twin_createExtension| | | |intros a []].
        + intro w. destruct (createExtensionChunk h i s e w) as [[oc v]|u|] eqn:E; [|exact I|exact I]. intros c ->. exact (create_size h i s w c v E).
        + intros [c|]; [|intro w; exists []; reflexivity]. apply grows_bind; [apply twin_readExtension|]. intros [[ok c1] bp]. exact (GR ok c1 bp).
        + intros [c|] CS; [|apply twin_ret]. exact (GB h c OKH (CS c eq_refl)).
    Qed.
  End Read.

  Lemma twin_readChunk : forall rg f g, skips = true \/ groups_and_data_only rg -> Twin missing (IFF_readChunk rg f g).
  Proof.
    intros rg f g OK. revert g. induction f as [|f IH]; intro g; cbn [IFF_readChunk]; [apply twin_nofuel|].
    apply twin_then; [exact (twin_prim FId _ _)|]. intros [i|]; [|apply twin_ret]. apply twin_then; [exact (twin_prim FLong _ _)|].
    intros [s|]; [|apply twin_ret]. apply twin_body; [exact IH|exact OK].
  Qed.
  Lemma twin_readFd : forall rg, skips = true \/ groups_and_data_only (selectChunkRegistry rg) -> Twin missing (IFF_readFd rg).
  Proof.
    intros rg OK.
    assert (X : forall n, Twin missing (oc <- IFF_readChunk (selectChunkRegistry rg) n 0 ;;
      match oc with
      | None => IFF_error ("ERROR: cannot open main chunk!" ++ nl)%string ;;; ret None
      | Some c =>
          ob <- fgetc ;;
          match ob with
          | None => ret (Some c)
          | Some b => IFF_error ("WARNING: Trailing IFF contents found: " ++ dec (b2z b) ++ "!" ++ nl)%string ;;; ret (Some c)
          end
      end)).
    { intro n. apply (twin_bind _ _ _ _ missing); [apply twin_readChunk; exact OK| |].
      - intros [c|]; twin_all.
      - intros a ->. intro w. reflexivity. }
    split.
    - intro w. exact (proj1 (X (S (List.length (r_rest (w_in w))))) w).
    - intros w1 w2 T. pose proof (proj2 (X (S (List.length (r_rest (w_in w1))))) w1 w2 T) as Y. destruct T as [T ->]. exact Y.
  Qed.
End Functions.
