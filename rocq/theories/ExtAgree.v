(** * The model with callbacks is the model with field lists, when the callbacks
    are those of field lists (proofs). *)

From Coq Require Import ZArith List Bool String Lia.
From Coq Require Import Strings.Byte.
From Verif Require Import Machine Io Types Build Read Write Check Compare Print Iff Spec Lemmas WriteProofs
  Ext ExtSpec ExtFields ExtReadProofs.
Import ListNotations.
Open Scope Z_scope.

Definition omap {A B} (f : A -> B) (o : outcome A) : outcome B :=
  match o with Done a => Done (f a) | Undefined u => Undefined u | OutOfFuel => OutOfFuel end.

(** ** Lookup *)

Lemma bsearch_loop_map : forall A B (f : A -> B) (k1 : A -> Z) (k2 : B -> Z) k arr,
  (forall a, k2 (f a) = k1 a) -> forall fuel l u,
  bsearch_loop k2 k (map f arr) fuel l u = option_map f (bsearch_loop k1 k arr fuel l u).
Proof.
  intros A B f k1 k2 k arr K. induction fuel as [|n IH]; intros l u; cbn [bsearch_loop]; [reflexivity|].
  destruct (Nat.ltb l u); [|reflexivity]. rewrite nth_error_map.
  destruct (nth_error arr (Nat.div2 (l + u))) as [a|]; [|reflexivity]. cbn [option_map]. rewrite K.
  destruct (k <? k1 a); [apply IH|]. destruct (k1 a <? k); [apply IH|reflexivity].
Qed.

Lemma bsearch_map : forall A B (f : A -> B) (k1 : A -> Z) (k2 : B -> Z) k arr,
  (forall a, k2 (f a) = k1 a) -> bsearch k2 k (map f arr) = option_map f (bsearch k1 k arr).
Proof. intros. unfold bsearch. rewrite map_length. apply bsearch_loop_map. assumption. Qed.

Lemma conv_getChunkType : forall cid n, xgetChunkType cid (conv_chain n) = option_map conv_type (getChunkType cid n).
Proof.
  intros cid. induction n as [|t p IH]; [reflexivity|]. change (conv_chain (t :: p)) with (map conv_type t :: conv_chain p). cbn [xgetChunkType getChunkType].
  unfold xchunktype in *. rewrite (bsearch_map _ (Z * xhandler fvals) conv_type ct_id fst cid t (fun _ => eq_refl)).
  destruct (bsearch ct_id cid t); [reflexivity|]. exact IH.
Qed.

Lemma conv_find : forall rg ft cid, xfind_handler (conv_reg rg) ft cid = omap conv_handler (find_handler rg ft cid).
Proof.
  intros [r|] ft cid; [|reflexivity]. unfold xfind_handler, find_handler, IFF_findChunkType, getFormChunkTypes.
  cbn [conv_reg conv_registry xr_forms xr_global xr_default].
  rewrite (bsearch_map _ _ (fun f => (fst f, conv_chain (snd f))) fst fst ft (rg_forms r) (fun _ => eq_refl)).
  destruct (bsearch fst ft (rg_forms r)) as [[f n]|]; cbn [option_map fst snd];
    rewrite conv_getChunkType.
  - destruct (getChunkType cid n); [reflexivity|]. cbn [option_map]. destruct (rg_default r); reflexivity.
  - destruct (getChunkType cid (rg_global r)); [reflexivity|]. cbn [option_map]. destruct (rg_default r); reflexivity.
Qed.

(** ** Members that all chunks have *)

Lemma conv_id : forall c, xid (conv c) = chunkId c.
Proof. intros [i s d|i s g l|i s g p l|i s v]; reflexivity. Qed.
Lemma conv_size : forall c, xsize (conv c) = chunkSize c.
Proof. intros [i s d|i s g l|i s g p l|i s v]; reflexivity. Qed.
Lemma bare_id : forall c, chunkId (bare (conv c)) = chunkId c.
Proof. intros [i s d|i s g l|i s g p l|i s v]; reflexivity. Qed.
Lemma bare_size : forall c, chunkSize (bare (conv c)) = chunkSize c.
Proof. intros [i s d|i s g l|i s g p l|i s v]; reflexivity. Qed.
Lemma bare_incr : forall n c, IFF_incrementChunkSize n (bare (conv c)) = IFF_incrementChunkSize n c.
Proof. intros. unfold IFF_incrementChunkSize. rewrite bare_size. reflexivity. Qed.

Lemma zlength_map : forall A B (f : A -> B) l, zlength (map f l) = zlength l.
Proof. intros. unfold zlength. rewrite map_length. reflexivity. Qed.

Lemma bind_ext : forall A B (m n : M A) (f g : A -> M B) e w,
  m e w = n e w -> (forall a w', f a e w' = g a e w') -> bind m f e w = bind n g e w.
Proof. intros A B m n f g e w E F. unfold bind. rewrite E. destruct (n e w) as [[a w']|u|]; auto. Qed.

Lemma andM_ext : forall m1 m2 n1 n2 e w, m1 e w = n1 e w -> (forall w', m2 e w' = n2 e w') ->
  andM m1 m2 e w = andM n1 n2 e w.
Proof. intros. unfold andM. apply bind_ext; [assumption|]. intros [|] w'; auto. Qed.

Lemma obind_ext : forall A B (m n : outcome A) (f g : A -> outcome B),
  m = n -> (forall a, f a = g a) -> obind m f = obind n g.
Proof. intros A B m n f g -> F. destruct n; cbn; auto. Qed.

Lemma lift_find : forall rg ft cid B (f : xhandler fvals -> M B) (g : handler -> M B) e w,
  (forall h w', f (conv_handler h) e w' = g h e w') ->
  bind (lift (xfind_handler (conv_reg rg) ft cid)) f e w = bind (lift (find_handler rg ft cid)) g e w.
Proof.
  intros rg ft cid B f g e w H. rewrite conv_find. unfold bind, lift.
  destruct (find_handler rg ft cid); cbn [omap]; auto.
Qed.

(** ** Writing *)

Lemma conv_write : forall rg c ft e w, xwriteChunk (conv_reg rg) (conv c) ft e w = IFF_writeChunk rg c ft e w.
Proof.
  intros rg.
  assert (ALL : forall l g, (forall c, In c l -> forall ft e w, xwriteChunk (conv_reg rg) (conv c) ft e w = IFF_writeChunk rg c ft e w) ->
            forall msg bp e w, xwrite_all (xwriteChunk (conv_reg rg)) msg (map conv l) g bp e w
                        = write_all (IFF_writeChunk rg) msg l g bp e w).
  { induction l as [|c l IH]; intros g H msg bp e w; [reflexivity|]. cbn [map xwrite_all write_all].
    apply bind_ext; [apply H; left; reflexivity|]. intros [|] w'; [|reflexivity].
    rewrite bare_incr. apply bind_ext; [reflexivity|]. intros a w''. apply IH. intros c' I. apply H. right. exact I. }
  assert (BODY : forall c, (forall h e w, xwriteExtensionChunkFields (xwriteChunk (conv_reg rg)) (conv_handler h) (conv c) 0 e w
                              = writeExtensionChunkFields (IFF_writeChunk rg) h c 0 e w) ->
            forall ft e w, xwriteChunk (conv_reg rg) (conv c) ft e w = IFF_writeChunk rg c ft e w).
  { intros c H ft e w.
    assert (EX : xwriteChunk (conv_reg rg) (conv c) ft e w =
      andM (IFF_writeId (xid (conv c)) (xid (conv c)) "chunkId")
        (andM (IFF_writeLong (xsize (conv c)) (xid (conv c)) "chunkSize")
           (xwriteChunkBody (xwriteChunk (conv_reg rg)) (conv_reg rg) (conv c) ft)) e w) by (destruct c; reflexivity).
    assert (EB : IFF_writeChunk rg c ft e w =
      andM (IFF_writeId (chunkId c) (chunkId c) "chunkId")
        (andM (IFF_writeLong (chunkSize c) (chunkId c) "chunkSize")
           (writeChunkBody (IFF_writeChunk rg) rg c ft)) e w) by (destruct c; reflexivity).
    rewrite EX, EB, conv_id, conv_size. apply andM_ext; [reflexivity|]. intro w1. apply andM_ext; [reflexivity|]. intro w2.
    unfold xwriteChunkBody, writeChunkBody. rewrite conv_id, conv_size. apply lift_find. intros h w3.
    apply bind_ext; [apply H|]. intros [ok bp] w4. reflexivity. }
  induction c as [i s d|i s g subs IH|i s g props subs IHp IHs|i s v] using chunk_tree_ind;
    apply BODY; intros h e w; destruct h as [| | | | |sp]; try reflexivity;
    cbn [conv conv_handler xwriteExtensionChunkFields writeExtensionChunkFields xwriteGroup IFF_writeGroup xwriteList IFF_writeList];
    apply bind_ext; try reflexivity; intros [st bp] w1; destruct st; try reflexivity;
    unfold IFF_writeGroupSubChunks, writeListPropChunks.
  all: try (apply ALL; assumption).
  apply bind_ext; [apply ALL; assumption|]. intros [[|] b2] w2; [apply ALL; assumption|reflexivity].
Qed.

(** ** Checking *)

Lemma conv_check : forall rg c ft e w, xcheckChunk (conv_reg rg) (conv c) ft e w = IFF_checkChunk rg c ft e w.
Proof.
  intros rg.
  assert (ALL : forall (sx sb : chunk -> M bool) l g,
            (forall c e w, In c l -> sx (bare (conv c)) e w = sb c e w) ->
            (forall c, In c l -> forall ft e w, xcheckChunk (conv_reg rg) (conv c) ft e w = IFF_checkChunk rg c ft e w) ->
            forall acc e w, xcheck_subs (xcheckChunk (conv_reg rg)) sx (map conv l) g acc e w
                        = check_subs (IFF_checkChunk rg) sb l g acc e w).
  { intros sx sb. induction l as [|c l IH]; intros g S H acc e w; [reflexivity|]. cbn [map xcheck_subs check_subs].
    apply bind_ext; [apply S; left; reflexivity|]. intros [|] w'; [|reflexivity]. cbn [negb].
    apply bind_ext; [apply H; left; reflexivity|]. intros [|] w2; [|reflexivity]. cbn [negb].
    rewrite bare_incr. apply bind_ext; [reflexivity|]. intros a w3. apply IH; intros; [apply S|apply H]; right; assumption. }
  assert (CAT : forall g g' c e w, as_group g = None \/ option_map fst (as_group g) = option_map fst (as_group g') ->
            option_map fst (as_group g) = option_map fst (as_group g') ->
            IFF_checkCATSubChunk g (bare (conv c)) e w = IFF_checkCATSubChunk g' c e w).
  { intros g g' c e w _ G. unfold IFF_checkCATSubChunk. rewrite bare_id.
    destruct (negb (checkValidCATSubChunkId (chunkId c))); [reflexivity|].
    destruct (as_group g) as [[a la]|], (as_group g') as [[b lb]|]; cbn in G; try discriminate; [|reflexivity].
    injection G as <-. destruct c as [i s d|i s gg l|i s gg p l|i s v]; reflexivity. }
  assert (SIZE : forall c n e w, IFF_checkGroupChunkSize (bare (conv c)) n e w = IFF_checkGroupChunkSize c n e w).
  { intros c n e w. unfold IFF_checkGroupChunkSize. rewrite bare_size, bare_id. reflexivity. }
  assert (BODY : forall c, (forall h e w, xcheckExtensionChunk (xcheckChunk (conv_reg rg)) (conv_handler h) (conv c) e w
                              = checkExtensionChunk (IFF_checkChunk rg) h c e w) ->
            forall ft e w, xcheckChunk (conv_reg rg) (conv c) ft e w = IFF_checkChunk rg c ft e w).
  { intros c H ft e w.
    assert (EX : xcheckChunk (conv_reg rg) (conv c) ft e w =
      (ok <- IFF_checkId (xid (conv c)) ;;
       if negb ok then ret false
       else h <- lift (xfind_handler (conv_reg rg) ft (xid (conv c))) ;;
            xcheckExtensionChunk (xcheckChunk (conv_reg rg)) h (conv c)) e w) by (destruct c; reflexivity).
    assert (EB : IFF_checkChunk rg c ft e w =
      (ok <- IFF_checkId (chunkId c) ;;
       if negb ok then ret false
       else h <- lift (find_handler rg ft (chunkId c)) ;;
            checkExtensionChunk (IFF_checkChunk rg) h c) e w) by (destruct c; reflexivity).
    rewrite EX, EB, conv_id. apply bind_ext; [reflexivity|]. intros [|] w1; [|reflexivity]. cbn [negb].
    apply lift_find. intros h w2. apply H. }
  assert (GRP : forall tc (sc : chunk -> chunk -> M bool) c,
            (forall x e w, sc (bare (conv c)) (bare (conv x)) e w = sc c x e w) ->
            match c with
            | CGroup _ _ _ l | CList _ _ _ _ l =>
                forall x, In x l -> forall ft e w, xcheckChunk (conv_reg rg) (conv x) ft e w = IFF_checkChunk rg x ft e w
            | _ => True end ->
            forall e w, xcheckGroup (xcheckChunk (conv_reg rg)) tc sc (conv c) e w
                        = IFF_checkGroup (IFF_checkChunk rg) tc sc c e w).
  { intros tc sc c S H e w. destruct c as [i s d|i s g l|i s g p l|i s v]; try reflexivity;
      cbn [conv xcheckGroup IFF_checkGroup];
      (apply bind_ext; [reflexivity|]; intros [|] w1; [|reflexivity]; cbn [negb];
       apply bind_ext; [apply ALL; [intros x e' w' _; apply S|exact H]|]; intros n w2;
       destruct (n =? -1); [reflexivity|]; apply bind_ext; [reflexivity|]; intros n' w3; apply (SIZE (CGroup i s g [])) || apply (SIZE (CList i s g p l))). }
  assert (SUB : forall c, match c with
            | CGroup _ _ _ l | CList _ _ _ _ l =>
                forall x, In x l -> forall ft e w, xcheckChunk (conv_reg rg) (conv x) ft e w = IFF_checkChunk rg x ft e w
            | _ => True end ->
            match c with
            | CList _ _ _ p _ =>
                forall x, In x p -> forall ft e w, xcheckChunk (conv_reg rg) (conv x) ft e w = IFF_checkChunk rg x ft e w
            | _ => True end ->
            forall h e w, xcheckExtensionChunk (xcheckChunk (conv_reg rg)) (conv_handler h) (conv c) e w
                              = checkExtensionChunk (IFF_checkChunk rg) h c e w).
  { intros c H1 H2 h e w. destruct h as [| | | | |sp];
      cbn [conv_handler xcheckExtensionChunk checkExtensionChunk].
    - apply GRP; [|exact H1]. intros x e' w'. unfold form_subChunkCheck. rewrite bare_id. reflexivity.
    - apply GRP; [|exact H1]. intros x e' w'. destruct c; apply CAT; auto.
    - destruct c as [i s d|i s g l|i s g p l|i s v]; try reflexivity. cbn [conv xcheckList IFF_checkList].
      apply bind_ext; [reflexivity|]. intros [|] w1; [|reflexivity]. cbn [negb].
      apply bind_ext; [apply ALL; [reflexivity|exact H2]|]. intros n w2. destruct (n =? -1); [reflexivity|].
      apply bind_ext; [reflexivity|]. intros n1 w3.
      apply bind_ext; [apply ALL; [intros; apply CAT; auto|exact H1]|]. intros m w4. destruct (m =? -1); [reflexivity|].
      apply bind_ext; [reflexivity|]. intros n2 w5. reflexivity.
    - apply GRP; [|exact H1]. intros x e' w'. unfold prop_subChunkCheck. rewrite bare_id. reflexivity.
    - reflexivity.
    - destruct c as [i s d|i s g l|i s g p l|i s v]; reflexivity. }
  induction c as [i s d|i s g subs IH|i s g props subs IHp IHs|i s v] using chunk_tree_ind;
    apply BODY; intros h e w; apply SUB; auto.
Qed.

(** ** Comparing *)

Lemma conv_compare : forall rg c1 c2 ft e,
  xcompareChunk e (conv_reg rg) (conv c1) (conv c2) ft = IFF_compareChunk e rg c1 c2 ft.
Proof.
  intros rg.
  assert (ALL : forall e l1 l2 g,
            (forall c, In c l1 -> forall c2 ft e, xcompareChunk e (conv_reg rg) (conv c) (conv c2) ft = IFF_compareChunk e rg c c2 ft) ->
            xcompare_all (xcompareChunk e (conv_reg rg)) (map conv l1) (map conv l2) g
            = compare_all (IFF_compareChunk e rg) l1 l2 g).
  { intros e. induction l1 as [|a l1 IH]; intros [|b l2] g H; try reflexivity. cbn [map xcompare_all compare_all].
    apply obind_ext; [apply H; left; reflexivity|]. intros [|]; [|reflexivity]. apply IH. intros c I. apply H. right. exact I. }
  assert (GRP : forall e c1 c2, match c1 with
            | CGroup _ _ _ l | CList _ _ _ _ l =>
                forall x, In x l -> forall c2 ft e, xcompareChunk e (conv_reg rg) (conv x) (conv c2) ft = IFF_compareChunk e rg x c2 ft
            | _ => True end ->
            xcompareGroup (xcompareChunk e (conv_reg rg)) (conv c1) (conv c2) = IFF_compareGroup (IFF_compareChunk e rg) c1 c2).
  { intros e c1 c2 H. destruct c1 as [i s d|i s g l|i s g p l|i s v]; try reflexivity;
      destruct c2 as [i2 s2 d2|i2 s2 g2 l2|i2 s2 g2 p2 l2|i2 s2 v2]; try reflexivity;
      cbn [conv xcompareGroup IFF_compareGroup as_group]; rewrite !zlength_map;
      (destruct ((g =? g2) && (zlength l =? zlength l2)); [apply ALL; exact H|reflexivity]). }
  assert (BODY : forall c1, (forall h c2 e, xcompareExtensionChunk (xcompareChunk e (conv_reg rg)) e (conv_handler h) (conv c1) (conv c2)
                              = compareExtensionChunk (IFF_compareChunk e rg) e h c1 c2) ->
            forall c2 ft e, xcompareChunk e (conv_reg rg) (conv c1) (conv c2) ft = IFF_compareChunk e rg c1 c2 ft).
  { intros c1 H c2 ft e.
    assert (EX : xcompareChunk e (conv_reg rg) (conv c1) (conv c2) ft =
      if (xid (conv c1) =? xid (conv c2)) && (xsize (conv c1) =? xsize (conv c2)) then
        h <-o xfind_handler (conv_reg rg) ft (xid (conv c1)) ;;
        xcompareExtensionChunk (xcompareChunk e (conv_reg rg)) e h (conv c1) (conv c2)
      else Done false) by (destruct c1; reflexivity).
    assert (EB : IFF_compareChunk e rg c1 c2 ft =
      if (chunkId c1 =? chunkId c2) && (chunkSize c1 =? chunkSize c2) then
        h <-o find_handler rg ft (chunkId c1) ;;
        compareExtensionChunk (IFF_compareChunk e rg) e h c1 c2
      else Done false) by (destruct c1; reflexivity).
    rewrite EX, EB, !conv_id, !conv_size. clear EX EB. destruct ((chunkId c1 =? chunkId c2) && (chunkSize c1 =? chunkSize c2)); [|reflexivity].
    rewrite conv_find. destruct (find_handler rg ft (chunkId c1)); cbn [omap obind]; auto. }
  (* a PROP is compared with the members of the PROP itself *)
  assert (MEM : forall c, (forall c2 ft e, xcompareChunk e (conv_reg rg) (conv c) (conv c2) ft = IFF_compareChunk e rg c c2 ft) /\
            match c with
            | CGroup _ _ _ l | CList _ _ _ _ l =>
                forall x, In x l -> forall c2 ft e, xcompareChunk e (conv_reg rg) (conv x) (conv c2) ft = IFF_compareChunk e rg x c2 ft
            | _ => True end).
  { induction c as [i s d|i s g subs IH|i s g props subs IHp IHs|i s v] using chunk_tree_ind.
    - split; [|exact I]. apply BODY. intros h c2 e. destruct h as [| | | | |sp]; try reflexivity;
        destruct c2; reflexivity.
    - assert (H : forall x, In x subs -> forall c2 ft e, xcompareChunk e (conv_reg rg) (conv x) (conv c2) ft = IFF_compareChunk e rg x c2 ft)
        by (intros x X; apply (IH x X)).
      split; [|exact H]. apply BODY. intros h c2 e. destruct h as [| | | | |sp]; try reflexivity;
        apply (GRP e (CGroup i s g subs) c2 H).
    - assert (H : forall x, In x subs -> forall c2 ft e, xcompareChunk e (conv_reg rg) (conv x) (conv c2) ft = IFF_compareChunk e rg x c2 ft)
        by (intros x X; apply (IHs x X)).
      assert (HP : forall e p2, (forall x, In x props -> In x props) ->
                xcompare_props (xcompareChunk e (conv_reg rg)) (map conv props) (map conv p2)
                = compare_props (IFF_compareChunk e rg) props p2).
      { intros e. generalize props at 1 3 4 as q. induction q as [|a q IHq]; intros [|b p2] Q; try reflexivity.
        cbn [map xcompare_props compare_props]. apply obind_ext.
        - apply GRP. exact (proj2 (IHp a (Q a (or_introl eq_refl)))).
        - intros [|]; [|reflexivity]. apply IHq. intros x X. apply Q. right. exact X. }
      split; [|exact H]. apply BODY. intros h c2 e. destruct h as [| | | | |sp]; try reflexivity;
        try (apply (GRP e (CList i s g props subs) c2 H)).
      destruct c2 as [i2 s2 d2|i2 s2 g2 l2|i2 s2 g2 p2 l2|i2 s2 v2]; try reflexivity.
      cbn [conv conv_handler xcompareExtensionChunk compareExtensionChunk xcompareList IFF_compareList]. rewrite !zlength_map.
      apply obind_ext; [destruct (zlength props =? zlength p2); [apply HP; auto|reflexivity]|].
      intros [|]; [|reflexivity]. destruct ((g =? g2) && (zlength subs =? zlength l2)); [apply ALL; exact H|reflexivity].
    - split; [|exact I]. apply BODY. intros h c2 e. destruct h as [| | | | |sp]; try reflexivity;
        destruct c2; reflexivity. }
  intros c1. exact (proj1 (MEM c1)).
Qed.

(** ** Printing *)

Lemma conv_print : forall rg c level ft, xprintChunk (conv_reg rg) (conv c) level ft = IFF_printChunk rg c level ft.
Proof.
  intros rg.
  assert (ALL : forall l g, (forall c, In c l -> forall level ft, xprintChunk (conv_reg rg) (conv c) level ft = IFF_printChunk rg c level ft) ->
            forall level, xprint_all (xprintChunk (conv_reg rg)) (map conv l) level g = print_all (IFF_printChunk rg) l level g).
  { induction l as [|c l IH]; intros g H level; [reflexivity|]. cbn [map xprint_all print_all].
    apply obind_ext; [apply H; left; reflexivity|]. intro t. apply obind_ext; [|reflexivity].
    apply IH. intros c' I. apply H. right. exact I. }
  assert (ARR : forall o l g level, (forall c, In c l -> forall level ft, xprintChunk (conv_reg rg) (conv c) level ft = IFF_printChunk rg c level ft) ->
            xprint_array (xprintChunk (conv_reg rg)) o (map conv l) g level = print_array (IFF_printChunk rg) o l g level).
  { intros o l g level H. unfold xprint_array, print_array. apply obind_ext; [apply ALL; exact H|reflexivity]. }
  assert (BODY : forall c, (forall h level, xprintExtensionChunk (xprintChunk (conv_reg rg)) (conv_handler h) (conv c) level
                              = printExtensionChunk (IFF_printChunk rg) h c level) ->
            forall level ft, xprintChunk (conv_reg rg) (conv c) level ft = IFF_printChunk rg c level ft).
  { intros c H level ft.
    assert (EX : xprintChunk (conv_reg rg) (conv c) level ft =
      obind (xfind_handler (conv_reg rg) ft (xid (conv c))) (fun h =>
      obind (xprintExtensionChunk (xprintChunk (conv_reg rg)) h (conv c) level) (fun s =>
      Done (IFF_printIndent level "'" ++ IFF_printId (xid (conv c)) ++ "' = {" ++ nl
          ++ IFF_printIndent (S level) ("chunkSize = " ++ dec (xsize (conv c)) ++ ";" ++ nl)
          ++ s ++ IFF_printIndent level ("}" ++ nl ++ nl))%string))) by (destruct c; reflexivity).
    assert (EB : IFF_printChunk rg c level ft =
      obind (find_handler rg ft (chunkId c)) (fun h =>
      obind (printExtensionChunk (IFF_printChunk rg) h c level) (fun s =>
      Done (IFF_printIndent level "'" ++ IFF_printId (chunkId c) ++ "' = {" ++ nl
          ++ IFF_printIndent (S level) ("chunkSize = " ++ dec (chunkSize c) ++ ";" ++ nl)
          ++ s ++ IFF_printIndent level ("}" ++ nl ++ nl))%string))) by (destruct c; reflexivity).
    rewrite EX, EB, conv_id, conv_size, conv_find. destruct (find_handler rg ft (chunkId c)); cbn [omap obind]; [|reflexivity|reflexivity].
    rewrite H. reflexivity. }
  induction c as [i s d|i s g subs IH|i s g props subs IHp IHs|i s v] using chunk_tree_ind;
    apply BODY; intros h level; destruct h as [| | | | |sp]; try reflexivity;
    cbn [conv conv_handler xprintExtensionChunk printExtensionChunk xprintGroup IFF_printGroup xprintList IFF_printList];
    try (apply obind_ext; [apply ARR; assumption|reflexivity]).
  apply obind_ext; [apply ARR; assumption|]. intro t. apply obind_ext; [apply ARR; assumption|reflexivity].
Qed.

(** ** Reading: the same input is consumed, the same messages are issued, and
    the same tree is the result. *)

Definition mapsP {A B} (f : A -> B) (P : A -> Prop) (m : M A) (n : M B) : Prop :=
  forall e w, match m e w with
              | Done (a, w') => n e w = Done (f a, w') /\ P a
              | Undefined u => n e w = Undefined u
              | OutOfFuel => n e w = OutOfFuel
              end.

Lemma mapsP_bind : forall A B C D (f : A -> B) (P : A -> Prop) (g : C -> D) (Q : C -> Prop) m n k l,
  mapsP f P m n -> (forall a, P a -> mapsP g Q (k a) (l (f a))) -> mapsP g Q (bind m k) (bind n l).
Proof.
  intros A B C D f P g Q m n k l H K e w. specialize (H e w). unfold bind.
  destruct (m e w) as [[a w']|u|]; [|rewrite H; reflexivity|rewrite H; reflexivity].
  destruct H as [-> PA]. exact (K a PA e w').
Qed.

Lemma mapsP_same : forall A (m : M A), mapsP (fun a => a) (fun _ => True) m m.
Proof. intros A m e w. destruct (m e w) as [[a w']|u|]; auto. Qed.

Lemma mapsP_ret : forall A B (f : A -> B) (P : A -> Prop) a b, b = f a -> P a -> mapsP f P (ret a) (ret b).
Proof. intros A B f P a b -> H e w. split; [reflexivity|exact H]. Qed.

Lemma mapsP_undefined : forall A B (f : A -> B) P u, mapsP f P (undefined u) (undefined u).
Proof. intros A B f P u e w. reflexivity. Qed.

Lemma mapsP_then : forall A C D (g : C -> D) (Q : C -> Prop) (m : M A) k l,
  (forall a, mapsP g Q (k a) (l a)) -> mapsP g Q (bind m k) (bind m l).
Proof. intros. eapply mapsP_bind; [apply mapsP_same|]. intros a _. auto. Qed.

(** Chunks that both models can free. *)
Definition Frees (rg : option registry) (ft : Z) (c : chunk) : Prop :=
  IFF_freeChunk rg c ft = Done tt /\ xfreeChunk (conv_reg rg) (conv c) ft = Done tt.

Definition conv3 (r : bool * chunk * Z) : bool * xchunk fvals * Z :=
  match r with (ok, c, bp) => (ok, conv c, bp) end.

Lemma frees_all : forall rg l g, (forall c, In c l -> Frees rg g c) ->
  free_all (IFF_freeChunk rg) l g = Done tt /\ xfree_all (xfreeChunk (conv_reg rg)) (map conv l) g = Done tt.
Proof.
  intros rg. induction l as [|c l IH]; intros g H; [split; reflexivity|]. cbn [map free_all xfree_all].
  destruct (H c (or_introl eq_refl)) as [-> ->]. cbn [obind]. apply IH. intros x I. apply H. right. exact I.
Qed.

(** What a chunk read by a handler looks like. *)
Definition Made (rg : option registry) (h : handler) (cid : Z) (c : chunk) : Prop :=
  chunkId c = cid /\
  match h with
  | HForm | HCAT | HProp => match c with CGroup _ _ g l => forall x, In x l -> Frees rg g x | _ => False end
  | HList => match c with
             | CList _ _ g p l => (forall x, In x p -> Frees rg g x) /\ (forall x, In x l -> Frees rg g x)
             | _ => False
             end
  | HRaw => match c with CRaw _ _ _ => True | _ => False end
  | HFields _ => match c with CFields _ _ _ => True | _ => False end
  end.

Lemma Made_frees : forall rg ft h cid c, find_handler rg ft cid = Done h -> Made rg h cid c -> Frees rg ft c.
Proof.
  intros rg ft h cid c F [I M]. unfold Frees.
  assert (EB : IFF_freeChunk rg c ft = obind (find_handler rg ft (chunkId c)) (fun h => freeExtensionChunk (IFF_freeChunk rg) h c))
    by (destruct c; reflexivity).
  assert (EX : xfreeChunk (conv_reg rg) (conv c) ft = obind (xfind_handler (conv_reg rg) ft (xid (conv c)))
                 (fun h => xfreeExtensionChunk (xfreeChunk (conv_reg rg)) h (conv c))) by (destruct c; reflexivity).
  rewrite EB, EX, conv_id, conv_find, I, F. cbn [omap obind]. clear EB EX F I.
  destruct h as [| | | | |sp]; destruct c as [i s d|i s g l|i s g p l|i s v]; try contradiction;
    cbn [conv_handler conv freeExtensionChunk xfreeExtensionChunk IFF_freeGroup IFF_freeList];
    try (split; reflexivity); try (apply frees_all; exact M).
  destruct M as [MP ML]. destruct (frees_all rg l g ML) as [-> ->]. cbn [obind]. apply frees_all. exact MP.
Qed.

Lemma Realises_lists : forall rg app, Realises rg app -> ListsAreLists rg.
Proof.
  intros rg app RG ft cid F. rewrite RG in F. unfold expected_handler in F.
  destruct (cid =? FORM_ID); [discriminate|]. destruct (cid =? CAT_ID); [discriminate|].
  destruct (cid =? LIST_ID) eqn:E; [apply Z.eqb_eq in E; exact E|].
  destruct (cid =? PROP_ID); [discriminate|]. destruct (app ft cid); discriminate.
Qed.

Section Agree.
  Variable rg : option registry.
  Hypothesis RG : ListsAreLists rg.
  Variable rb : Z -> M (option chunk).
  Variable rx : Z -> M (option (xchunk fvals)).
  Hypothesis RC : forall ft,
    mapsP (option_map conv) (fun oc => match oc with Some c => Frees rg ft c | None => True end) (rb ft) (rx ft).

  Lemma group_loop : forall fuel i s g l bp, (forall x, In x l -> Frees rg g x) ->
    mapsP conv3 (fun r => Made rg HForm i (snd (fst r)))
      (readGroupSubChunks rb fuel (CGroup i s g l) g bp)
      (xreadGroupSubChunks rx fuel (XGroup i s g (map conv l)) g bp).
  Proof.
    induction fuel as [|f IH]; intros i s g l bp L; cbn [readGroupSubChunks xreadGroupSubChunks chunkSize xsize];
      (destruct (bp <? s);
        [|apply mapsP_then; intros _; apply mapsP_ret; [reflexivity|split; [reflexivity|exact L]]]).
    - intros e w. reflexivity.
    - eapply mapsP_bind; [apply RC|]. intros [c|] FC; cbn [option_map].
      2:{ apply mapsP_ret; [reflexivity|]. split; [reflexivity|exact L]. }
      unfold IFF_attachToGroup, xattachToGroup. cbn [as_group set_subs]. rewrite zlength_map.
      eapply mapsP_bind with (f := conv) (P := fun g' => g' = CGroup i s g (l ++ [c])).
      + apply mapsP_then. intros [|]; [|apply mapsP_undefined].
        apply mapsP_ret; [|reflexivity]. cbn [conv]. rewrite map_app. reflexivity.
      + intros g' ->. rewrite bare_incr. apply mapsP_then. intro bp'. cbn [conv]. apply IH.
        intros x X. apply in_app_or in X. destruct X as [X|[<-|[]]]; [exact (L x X)|exact FC].
  Qed.

  Lemma list_loop : forall fuel s g p l bp, (forall x, In x p -> Frees rg g x) -> (forall x, In x l -> Frees rg g x) ->
    mapsP conv3 (fun r => Made rg HList IFF_ID_LIST (snd (fst r)))
      (readListSubChunks rb fuel (CList IFF_ID_LIST s g p l) g bp)
      (xreadListSubChunks rx fuel (XList IFF_ID_LIST s g (map conv p) (map conv l)) g bp).
  Proof.
    induction fuel as [|f IH]; intros s g p l bp LP L; cbn [readListSubChunks xreadListSubChunks chunkSize xsize];
      (destruct (bp <? s);
        [|apply mapsP_then; intros _; apply mapsP_ret; [reflexivity|split; [reflexivity|exact (conj LP L)]]]).
    - intros e w. reflexivity.
    - eapply mapsP_bind; [apply RC|]. intros [c|] FC; cbn [option_map].
      2:{ apply mapsP_ret; [reflexivity|]. split; [reflexivity|exact (conj LP L)]. }
      rewrite conv_id. destruct (chunkId c =? IFF_ID_PROP).
      + unfold addPropToList, xaddPropToList. cbn [set_props]. rewrite zlength_map.
        eapply mapsP_bind with (f := conv) (P := fun g' => g' = CList IFF_ID_LIST s g (p ++ [c]) l).
        * apply mapsP_then. intros [|]; [|apply mapsP_undefined].
          apply mapsP_ret; [|reflexivity]. cbn [conv]. rewrite map_app. reflexivity.
        * intros g' ->. rewrite bare_incr. apply mapsP_then. intro bp'. cbn [conv]. apply IH; [|exact L].
          intros x X. apply in_app_or in X. destruct X as [X|[<-|[]]]; [exact (LP x X)|exact FC].
      + unfold IFF_attachToGroup, xattachToGroup. cbn [as_group set_subs]. rewrite zlength_map.
        eapply mapsP_bind with (f := conv) (P := fun g' => g' = CList IFF_ID_LIST s g p (l ++ [c])).
        * apply mapsP_then. intros [|]; [|apply mapsP_undefined].
          apply mapsP_ret; [|reflexivity]. cbn [conv]. rewrite map_app. reflexivity.
        * intros g' ->. rewrite bare_incr. apply mapsP_then. intro bp'. cbn [conv]. apply IH; [exact LP|].
          intros x X. apply in_app_or in X. destruct X as [X|[<-|[]]]; [exact (L x X)|exact FC].
  Qed.

  Lemma group_read : forall fuel i s name,
    mapsP conv3 (fun r => Made rg HForm i (snd (fst r)))
      (IFF_readGroup rb fuel (CGroup i s 0 []) name 0) (xreadGroup rx fuel (XGroup i s 0 []) name 0).
  Proof.
    intros fuel i s name. unfold IFF_readGroup, xreadGroup. cbn [as_group chunkId chunkSize set_groupType].
    apply mapsP_then. intros [[st og] bp].
    assert (OTHER : mapsP conv3 (fun r => Made rg HForm i (snd (fst r)))
              (ret (IFF_deriveSuccess st, CGroup i s 0 [], bp)) (ret (IFF_deriveSuccess st, XGroup i s 0 [], bp))).
    { apply mapsP_ret; [reflexivity|]. split; [reflexivity|]. intros x []. }
    destruct st; try exact OTHER. destruct og as [g|]; [|exact OTHER]. apply (group_loop fuel i s g []). intros x [].
  Qed.

  Lemma handler_read : forall fuel h ft cid size c, find_handler rg ft cid = Done h ->
    (match h with
     | HForm | HCAT | HProp => c = CGroup cid size 0 []
     | HList => c = CList IFF_ID_LIST size 0 [] []
     | HRaw => c = CRaw cid size None
     | HFields sp => exists v, c = CFields cid size v
     end) ->
    mapsP conv3 (fun r => Made rg h cid (snd (fst r)))
      (readExtensionChunkFields rb fuel h c 0) (xreadExtensionChunkFields rx fuel (conv_handler h) (conv c) 0).
  Proof.
    intros fuel h ft cid size c F C.
    destruct h as [| | | | |sp]; cbn [conv_handler readExtensionChunkFields xreadExtensionChunkFields];
      try (subst c; apply group_read).
    - subst c. cbn [conv map IFF_readList xreadList chunkId chunkSize set_groupType].
      assert (LID : cid = IFF_ID_LIST) by exact (RG ft cid F).
      rewrite LID. clear LID F. apply mapsP_then. intros [[st og] bp].
      assert (OTHER : mapsP conv3 (fun r => Made rg HList IFF_ID_LIST (snd (fst r)))
                (ret (IFF_deriveSuccess st, CList IFF_ID_LIST size 0 [] [], bp))
                (ret (IFF_deriveSuccess st, XList IFF_ID_LIST size 0 [] [], bp))).
      { apply mapsP_ret; [reflexivity|]. split; [reflexivity|]. split; intros x []. }
      destruct st; try exact OTHER. destruct og as [g|]; [|exact OTHER].
      eapply mapsP_bind; [apply (list_loop fuel size g [] []); intros x []|].
      intros [[[|] c1] bp1] MA; cbn [conv3 fst snd] in *.
      + apply mapsP_ret; [reflexivity|exact MA].
      + apply mapsP_then. intros _. apply mapsP_ret; [reflexivity|exact MA].
    - subst c. cbn [conv xreadRawChunk]. unfold IFF_readRawChunk. intros e w. unfold bind, ask. cbv beta iota.
      destruct (fread (wrap_u (size_t_bits e) size) e w) as [[l w1]|u|]; [|reflexivity|reflexivity].
      destruct (zlength l <? wrap_u (size_t_bits e) size).
      + destruct (IFF_error "Error reading raw chunk body of chunk: '" e w1) as [[x1 w2]|u|]; [|reflexivity|reflexivity].
        destruct (IFF_errorId cid e w2) as [[x2 w3]|u|]; [|reflexivity|reflexivity].
        destruct (IFF_error ("'" ++ nl) e w3) as [[x3 w4]|u|]; [|reflexivity|reflexivity].
        split; [reflexivity|]. split; [reflexivity|exact I].
      + destruct (INT_MAX <? 0 + size); [reflexivity|]. split; [reflexivity|]. split; [reflexivity|exact I].
    - destruct C as [v ->]. cbn [conv fields_callbacks cb_read read_fields_chunk].
      destruct (fkinds_eqb (map fst v) (map fd_kind (fs_fields sp))); [|intros e w; reflexivity].
      intros e w. unfold bind. destruct (read_fields (fs_fields sp) v cid size 0 e w) as [[[[ok vs] bp] w1]|u|];
        [|reflexivity|reflexivity].
      cbv beta iota. cbn. split; [reflexivity|]. split; [reflexivity|exact I].
  Qed.

  Lemma create_same : forall h cid size,
    mapsP (option_map conv)
      (fun oc => match oc with
                 | None => True
                 | Some c =>
                     match h with
                     | HForm | HCAT | HProp => c = CGroup cid size 0 []
                     | HList => c = CList IFF_ID_LIST size 0 [] []
                     | HRaw => c = CRaw cid size None
                     | HFields sp => exists v, c = CFields cid size v
                     end
                 end)
      (createExtensionChunk h cid size) (xcreateExtensionChunk (conv_handler h) cid size).
  Proof.
    intros h cid size. destruct h as [| | | | |sp]; cbn [createExtensionChunk xcreateExtensionChunk conv_handler];
      try (unfold IFF_createUnparsedGroup, IFF_createGroup, IFF_createUnparsedList, IFF_createList;
           apply mapsP_then; intros [|]; (apply mapsP_ret; [reflexivity|]); [reflexivity|exact I]).
    - unfold IFF_createRawChunk. apply mapsP_then. intro e. apply mapsP_then. intros [|].
      + apply mapsP_then. intros [|]; (apply mapsP_ret; [reflexivity|]); [reflexivity|exact I].
      + apply mapsP_ret; [reflexivity|exact I].
    - cbn [fields_callbacks cb_create]. unfold create_fields. intros e w. unfold bind.
      destruct (malloc (sizeof_Fields sp) e w) as [[[|] w1]|u|]; cbn; try reflexivity.
      + split; [reflexivity|]. eexists. reflexivity.
      + split; [reflexivity|exact I].
  Qed.

  Lemma body_same : forall fuel cid size ft,
    mapsP (option_map conv) (fun oc => match oc with Some c => Frees rg ft c | None => True end)
      (readChunkBody rb rg fuel cid size ft) (xreadChunkBody rx (conv_reg rg) fuel cid size ft).
  Proof.
    intros fuel cid size ft. unfold readChunkBody, xreadChunkBody.
    eapply mapsP_bind with (f := conv_handler) (P := fun h => find_handler rg ft cid = Done h).
    { intros e w. unfold lift. rewrite conv_find. destruct (find_handler rg ft cid); cbn [omap]; auto. }
    intros h F. eapply mapsP_bind; [apply create_same|]. intros [c|] C; cbn [option_map].
    2:{ apply mapsP_ret; [reflexivity|exact I]. }
    eapply mapsP_bind; [eapply handler_read; eassumption|]. intros [[ok c1] bp] MA. cbn [conv3 fst snd] in *.
    rewrite conv_id. apply mapsP_then. pose proof (Made_frees rg ft h cid c1 F MA) as FR. intros [|].
    - apply mapsP_ret; [reflexivity|exact FR].
    - destruct FR as [FB FX]. intros e w. unfold bind, lift. rewrite FB, FX. split; [reflexivity|exact I].
  Qed.
End Agree.

Lemma conv_readChunk : forall rg, ListsAreLists rg -> forall fuel ft,
  mapsP (option_map conv) (fun oc => match oc with Some c => Frees rg ft c | None => True end)
    (IFF_readChunk rg fuel ft) (xreadChunk (conv_reg rg) fuel ft).
Proof.
  intros rg RG. induction fuel as [|f IH]; intro ft; [intros e w; reflexivity|].
  cbn [IFF_readChunk xreadChunk]. apply mapsP_then. intros [cid|]; [|apply mapsP_ret; [reflexivity|exact I]].
  apply mapsP_then. intros [size|]; [|apply mapsP_ret; [reflexivity|exact I]].
  apply (body_same rg RG). exact IH.
Qed.

Lemma conv_read : forall rg, ListsAreLists (selectChunkRegistry rg) -> forall e w,
  xreadFd (conv_reg (selectChunkRegistry rg)) e w =
  match IFF_readFd rg e w with
  | Done (oc, w') => Done (option_map conv oc, w')
  | Undefined u => Undefined u
  | OutOfFuel => OutOfFuel
  end.
Proof.
  intros rg RG e w. unfold xreadFd, IFF_readFd, bind.
  pose proof (conv_readChunk _ RG (S (List.length (r_rest (w_in w)))) 0 e w) as H.
  destruct (IFF_readChunk (selectChunkRegistry rg) (S (List.length (r_rest (w_in w)))) 0 e w) as [[[c|] w1]|u|].
  - destruct H as [-> _]. cbn [option_map]. destruct (fgetc e w1) as [[[b|] w2]|u|]; try reflexivity.
  - destruct H as [-> _]. reflexivity.
  - rewrite H. reflexivity.
  - rewrite H. reflexivity.
Qed.

(** A tree that was read can be freed in both. *)
Lemma conv_free : forall rg app ft c, Realises rg app -> Typed app ft c -> Frees rg ft c.
Proof.
  intros rg app ft c RG. revert ft.
  assert (NOT : forall ft i, ~ In i group_ids ->
            expected_handler app ft i = match app ft i with Some s => HFields s | None => HRaw end).
  { intros ft i N. unfold expected_handler.
    assert (E : forall z, In z group_ids -> (i =? z) = false) by (intros z Z; apply Z.eqb_neq; intros ->; exact (N Z)).
    rewrite (E FORM_ID), (E CAT_ID), (E LIST_ID), (E PROP_ID) by (unfold group_ids; simpl; auto). reflexivity. }
  induction c as [i s d|i s g subs IH|i s g props subs IHp IHs|i s v] using chunk_tree_ind; intros ft T;
    (eapply Made_frees; [apply RG|]; split; [reflexivity|]); inversion T; subst.
  - cbn [chunkId]. rewrite NOT by assumption.
    match goal with N : app _ _ = None |- _ => rewrite N end. exact I.
  - match goal with N : In i [FORM_ID; CAT_ID; PROP_ID] |- _ => destruct N as [<-|[<-|[<-|[]]]] end;
      intros x X; apply IH; auto.
  - cbn [chunkId]. split; intros x X; [apply IHp|apply IHs]; auto.
    match goal with N : forall c, In c props -> _ /\ _ |- _ => exact (proj1 (N x X)) end.
  - cbn [chunkId]. rewrite NOT by assumption.
    match goal with N : app _ _ = Some _ |- _ => rewrite N end. exact I.
Qed.
