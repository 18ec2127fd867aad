(** * Termination of the reader for every registry, host and input, and
    irrelevance of the step bound *)

From Coq Require Import ZArith List Bool String Lia.
From Coq Require Import Strings.Byte.
From Verif Require Import Machine Io Types Build Read Iff Spec Lemmas IoProofs.
Import ListNotations.
Open Scope Z_scope.

Definition left (w : world) : nat := List.length (r_rest (w_in w)).

(** [Eats n k m]: on success with [a], [m] has consumed at least [k a] bytes;
    it runs out of steps only when at least [n] bytes are left. *)
Definition Eats {A} (n : nat) (k : A -> nat) (m : M A) : Prop := forall e w,
  match m e w with
  | Done (a, w') => (left w' + k a <= left w)%nat
  | Undefined _ => True
  | OutOfFuel => (n <= left w)%nat
  end.

Lemma Eats_ret : forall A n (k : A -> nat) a, k a = O -> Eats n k (ret a).
Proof. intros A n k a H e w. simpl. lia. Qed.

Lemma Eats_bind : forall A B n (k : A -> nat) (k2 : B -> nat) (m : M A) (f : A -> M B),
  Eats n k m -> (forall a, Eats (n - k a) (fun b => k2 b - k a)%nat (f a)) -> Eats n k2 (bind m f).
Proof.
  intros A B n k k2 m f H F e w. unfold bind. specialize (H e w).
  destruct (m e w) as [[a w1]|u|]; [|exact I|exact H].
  specialize (F a e w1). destruct (f a e w1) as [[b w2]|u|]; [|exact I|]; lia.
Qed.

Lemma Eats_weaken : forall A n n' (k k' : A -> nat) m,
  Eats n k m -> (n' <= n)%nat -> (forall a, k' a <= k a)%nat -> Eats n' k' m.
Proof.
  intros A n n' k k' m H L K e w. specialize (H e w).
  destruct (m e w) as [[a w1]|u|]; [|exact I|lia]. specialize (K a). lia.
Qed.

Lemma Eats_0 : forall A B n (m : M A) (f : A -> M B) k2,
  Eats n (fun _ => O) m -> (forall a, Eats n k2 (f a)) -> Eats n k2 (bind m f).
Proof.
  intros. eapply Eats_bind; [eassumption|]. intro a. eapply Eats_weaken; [apply H0|lia|intro; lia].
Qed.

Lemma Eats_undefined : forall A n (k : A -> nat) u, Eats n k (undefined u).
Proof. intros A n k u e w. exact I. Qed.

Definition zero {A} : A -> nat := fun _ => O.

Lemma Eats_ask : forall n, Eats n zero ask.
Proof. intros n e w. unfold zero. simpl. lia. Qed.
Lemma Eats_error : forall n s, Eats n zero (IFF_error s).
Proof. intros n s e w. unfold zero, left. simpl. lia. Qed.
Lemma Eats_lift : forall A n (o : outcome A), o <> OutOfFuel -> Eats n zero (lift o).
Proof. intros A n o H e w. unfold zero, lift. destruct o; [simpl; lia|exact I|congruence]. Qed.
Lemma Eats_errorId : forall n i, Eats n zero (IFF_errorId i).
Proof. intros n i e w. rewrite run_errorId. unfold zero, left. simpl. lia. Qed.
Lemma Eats_malloc : forall n z, Eats n zero (malloc z).
Proof. intros n z e w. unfold zero, malloc, left. simpl. lia. Qed.

Lemma zdrop_length : forall A n (l : list A), (List.length (zdrop n l) <= List.length l)%nat.
Proof.
  intros A n l. revert n. induction l as [|x l IH]; intro n; simpl; [lia|].
  destruct (n <=? 0); simpl; [lia|]. specialize (IH (n - 1)). lia.
Qed.

Lemma ztake_zdrop_length : forall A n (l : list A),
  (List.length (ztake n l) + List.length (zdrop n l) = List.length l)%nat.
Proof.
  intros A n l. revert n. induction l as [|x l IH]; intro n; simpl; [lia|].
  destruct (n <=? 0); simpl; [lia|]. specialize (IH (n - 1)). lia.
Qed.

Lemma Eats_fread : forall n z, Eats n (fun l : list byte => List.length l) (fread z).
Proof.
  intros n z e w. unfold fread, left. simpl. pose proof (ztake_zdrop_length _ z (r_rest (w_in w))). lia.
Qed.
Lemma Eats_fgetc : forall n, Eats n (fun o : option byte => match o with Some _ => 1 | None => 0 end%nat) fgetc.
Proof.
  intros n e w. unfold fgetc. destruct (r_rest (w_in w)) as [|b r] eqn:E; unfold left; simpl; rewrite ?E; simpl; lia.
Qed.
Lemma Eats_fseek : forall n z, Eats n zero (fseek_cur z).
Proof.
  intros n z e w. unfold fseek_cur, zero, left. destruct (r_seekable (w_in w)); simpl; [|lia].
  pose proof (zdrop_length _ z (r_rest (w_in w))). lia.
Qed.

Ltac eats :=
  repeat (cbv beta;
  match goal with
  | |- Eats _ _ (ret _) => apply Eats_ret; solve [reflexivity | lia]
  | |- Eats _ _ (undefined _) => apply Eats_undefined
  | |- Eats _ _ (bind fgetc _) => eapply Eats_bind; [apply Eats_fgetc|intros [?|]]
  | |- Eats _ _ (bind (fread _) _) => eapply Eats_bind; [apply Eats_fread|intros ?]
  | |- Eats _ _ (bind _ _) => apply Eats_0; [|intro]
  | |- Eats _ _ ask => apply Eats_ask
  | |- Eats _ _ (IFF_error _) => apply Eats_error
  | |- Eats _ _ (IFF_errorId _) => apply Eats_errorId
  | |- Eats _ _ (malloc _) => apply Eats_malloc
  | |- Eats _ _ (fseek_cur _) => apply Eats_fseek
  | |- Eats _ _ (IFF_readError _ _) => unfold IFF_readError
  | |- Eats _ _ (if ?b then _ else _) => destruct b eqn:?
  | |- Eats _ _ (match ?x with _ => _ end) => destruct x eqn:?
  | |- Eats _ _ (let x := _ in _) => cbv zeta
  end).

(** Primitives consume what they return. *)
Definition osize (n : nat) (o : option Z) : nat := match o with Some _ => n | None => O end.

Lemma read_prim_eats : forall k n i s,
  Eats n (osize (Z.to_nat (fieldSize k))) (read_prim k i s).
Proof.
  assert (L : forall (l : list byte) z, (zlength l =? z) = true -> List.length l = Z.to_nat z).
  { intros l z H. apply Z.eqb_eq in H. unfold zlength in H. lia. }
  intros k n i s. destruct k; cbn [read_prim fieldSize];
    unfold IFF_readUByte, IFF_readUWord, IFF_readWord, IFF_readULong, IFF_readLong, IFF_readId, IFF_readULong, swap_long, osize;
    eats; try (apply Eats_ret; simpl; lia);
    try (match goal with H : (zlength _ =? _) = true |- _ => apply L in H end; apply Eats_ret; lia).
Qed.

Lemma readField_eats : forall k n i s a bp, Eats n zero (IFF_readField k i s a bp).
Proof.
  intros k n i s a bp. unfold IFF_readField. eats.
  eapply Eats_weaken; [apply read_prim_eats|apply le_n|unfold zero; intro; lia].
Qed.

Lemma read_fields_eats : forall ds vals n i s bp, Eats n zero (read_fields ds vals i s bp).
Proof.
  induction ds as [|d ds IH]; intros vals n i s bp; cbn [read_fields]; [eats|].
  destruct vals as [|v vals]; [eats|]. apply Eats_0; [apply readField_eats|].
  intros [[st o] b2]. destruct st, o; eats. apply IH.
Qed.

Lemma create_eats : forall h n i s, Eats n zero (createExtensionChunk h i s).
Proof.
  intros h n i s. destruct h; cbn [createExtensionChunk];
    unfold IFF_createUnparsedGroup, IFF_createGroup, IFF_createUnparsedList, IFF_createList, IFF_createRawChunk, create_fields; eats.
Qed.

Lemma attach_eats : forall n g c, Eats n zero (IFF_attachToGroup g c).
Proof. intros. unfold IFF_attachToGroup. eats. Qed.
Lemma addProp_eats : forall n g c, Eats n zero (addPropToList g c).
Proof. intros. unfold addPropToList. eats. Qed.
Lemma increment_fuel : forall z c, IFF_incrementChunkSize z c <> OutOfFuel.
Proof.
  intros. unfold IFF_incrementChunkSize. destruct (INT_MAX <? _); [discriminate|]. cbv zeta.
  destruct (c_odd _); [|discriminate]. destruct (_ =? INT_MAX); discriminate.
Qed.
Lemma find_handler_fuel : forall rg ft i, find_handler rg ft i <> OutOfFuel.
Proof. intros. unfold find_handler. destruct (IFF_findChunkType rg ft i); discriminate. Qed.
Lemma warning_eats : forall n a b, Eats n zero (truncated_warning a b).
Proof. intros. unfold truncated_warning. eats. Qed.

Lemma skip_eats : forall n i s bp, Eats n zero (IFF_skipUnknownBytes i s bp).
Proof. intros. unfold IFF_skipUnknownBytes. eats. Qed.
Lemma pad_eats : forall n s i, Eats n zero (IFF_readPaddingByte s i).
Proof. intros. unfold IFF_readPaddingByte, zero. eats. Qed.
Lemma andM_eats : forall n m1 m2, Eats n zero m1 -> Eats n zero m2 -> Eats n zero (andM m1 m2).
Proof. intros. unfold andM. apply Eats_0; [assumption|]. intros [|]; [assumption|eats]. Qed.

(** Freeing never runs out of steps: it has no step bound. *)
Lemma free_all_fuel : forall (f : chunk -> Z -> outcome unit) l ft,
  (forall c ft, In c l -> f c ft <> OutOfFuel) -> free_all f l ft <> OutOfFuel.
Proof.
  intros f l. induction l as [|c l IH]; intros ft H; simpl; [discriminate|].
  unfold obind. destruct (f c ft) eqn:E; [|discriminate|exfalso; exact (H c ft (or_introl eq_refl) E)].
  apply IH. intros; apply H; right; assumption.
Qed.

Lemma free_fuel : forall rg c ft, IFF_freeChunk rg c ft <> OutOfFuel.
Proof.
  intros rg. fix F 1. intros c ft.
  assert (L : forall l : list chunk, (forall c ft, In c l -> IFF_freeChunk rg c ft <> OutOfFuel) \/ True) by (right; exact I).
  clear L. destruct c as [i s d|i s g subs|i s g props subs|i s v]; cbn [IFF_freeChunk chunkId];
    unfold obind; destruct (find_handler rg ft i) as [h| |] eqn:E; try discriminate;
    try (exact (fun _ => find_handler_fuel rg ft i E));
    destruct h; cbn [freeExtensionChunk IFF_freeGroup IFF_freeList]; try discriminate.
  1-3: apply free_all_fuel; clear E; induction subs as [|x subs IH]; intros y f; [contradiction|intros [<-|I]; [apply F|apply IH; exact I]].
  - apply free_all_fuel; clear E; induction subs as [|x subs IH]; intros y f; [contradiction|intros [<-|I]; [apply F|apply IH; exact I]].
  - apply free_all_fuel; clear E; induction subs as [|x subs IH]; intros y f; [contradiction|intros [<-|I]; [apply F|apply IH; exact I]].
  - unfold obind. assert (A : free_all (IFF_freeChunk rg) subs g <> OutOfFuel).
    { apply free_all_fuel; clear E; induction subs as [|x subs IH]; intros y f; [contradiction|intros [<-|I]; [apply F|apply IH; exact I]]. }
    destruct (free_all (IFF_freeChunk rg) subs g); [|discriminate|congruence].
    apply free_all_fuel; clear E; induction props as [|x props IH]; intros y f; [contradiction|intros [<-|I]; [apply F|apply IH; exact I]].
  - apply free_all_fuel; clear E; induction subs as [|x subs IH]; intros y f; [contradiction|intros [<-|I]; [apply F|apply IH; exact I]].
Qed.

(** ** The reader *)

Definition ochunk (n : nat) (o : option chunk) : nat := match o with Some _ => n | None => O end.

Section Loops.
  Variable rc : Z -> M (option chunk).
  Variable n : nat.
  Hypothesis RC : forall ft, Eats n (ochunk 8) (rc ft).

  Lemma group_loop_eats : forall f m g gt bp, (m <= n)%nat -> (m <= f)%nat ->
    Eats m zero (readGroupSubChunks rc f g gt bp).
  Proof.
    induction f as [|f IH]; intros m g gt bp L F; cbn [readGroupSubChunks];
      destruct (bp <? chunkSize g).
    - intros e w. unfold nofuel. lia.
    - eats. apply warning_eats.
    - eapply Eats_bind; [eapply Eats_weaken; [apply RC|exact L|intro; apply le_n]|].
      intros [c|]; [|apply Eats_ret; reflexivity]. cbn [ochunk].
      apply Eats_0; [apply attach_eats|]. intro g2.
      apply Eats_0; [apply Eats_lift, increment_fuel|]. intro b2.
      eapply Eats_weaken; [apply (IH (m - 8)%nat); lia|lia|unfold zero; intro; lia].
    - eats. apply warning_eats.
  Qed.

  Lemma list_loop_eats : forall f m g gt bp, (m <= n)%nat -> (m <= f)%nat ->
    Eats m zero (readListSubChunks rc f g gt bp).
  Proof.
    induction f as [|f IH]; intros m g gt bp L F; cbn [readListSubChunks];
      destruct (bp <? chunkSize g).
    - intros e w. unfold nofuel. lia.
    - eats. apply warning_eats.
    - eapply Eats_bind; [eapply Eats_weaken; [apply RC|exact L|intro; apply le_n]|].
      intros [c|]; [|apply Eats_ret; reflexivity]. cbn [ochunk].
      apply Eats_0; [destruct (chunkId c =? IFF_ID_PROP); [apply addProp_eats|apply attach_eats]|]. intro g2.
      apply Eats_0; [apply Eats_lift, increment_fuel|]. intro b2.
      eapply Eats_weaken; [apply (IH (m - 8)%nat); lia|lia|unfold zero; intro; lia].
    - eats. apply warning_eats.
  Qed.

  Lemma body_fields_eats : forall f m h c, (m <= n)%nat -> (m <= f)%nat ->
    Eats m zero (readExtensionChunkFields rc f h c 0).
  Proof.
    intros f m h c L F.
    assert (G : forall s, Eats m zero (IFF_readGroup rc f c s 0)).
    { intro s. unfold IFF_readGroup. destruct (as_group c); [|eats]. apply Eats_0; [apply readField_eats|].
      intros [[st o] b2]. destruct st, o; eats. apply group_loop_eats; assumption. }
    destruct h; cbn [readExtensionChunkFields]; try apply G.
    - unfold IFF_readList. destruct c; try apply Eats_undefined. apply Eats_0; [apply readField_eats|].
      intros [[st o] b2]. destruct st, o; eats. apply list_loop_eats; assumption.
    - unfold IFF_readRawChunk, zero. destruct c; eats.
    - unfold read_fields_chunk. destruct c; eats. apply read_fields_eats.
  Qed.

  Lemma body_eats : forall rg f m i s ft, (m <= n)%nat -> (m <= f)%nat ->
    Eats m zero (readChunkBody rc rg f i s ft).
  Proof.
    intros rg f m i s ft L F. unfold readChunkBody.
    apply Eats_0; [apply Eats_lift, find_handler_fuel|]. intro h.
    apply Eats_0; [apply create_eats|]. intros [c|]; [|eats].
    apply Eats_0; [apply body_fields_eats; assumption|]. intros [[ok c1] bp].
    apply Eats_0.
    - apply andM_eats; [eats|]. apply andM_eats; [apply skip_eats|apply pad_eats].
    - intros [|]; eats. apply Eats_lift, free_fuel.
  Qed.
End Loops.

Theorem readChunk_eats : forall rg fuel ft, Eats fuel (ochunk 8) (IFF_readChunk rg fuel ft).
Proof.
  intros rg. induction fuel as [|f IH]; intros ft; cbn [IFF_readChunk].
  - intros e w. unfold nofuel. lia.
  - change (IFF_readId ID_EMPTY "") with (read_prim FId ID_EMPTY "").
    eapply Eats_bind; [apply read_prim_eats|]. intros [i|]; [|apply Eats_ret; reflexivity].
    change (IFF_readLong i "chunkSize") with (read_prim FLong i "chunkSize").
    eapply Eats_bind; [apply read_prim_eats|]. intros [s|]; [|apply Eats_ret; reflexivity].
    eapply Eats_weaken.
    + apply (body_eats _ f IH rg f f); apply le_n.
    + cbn [osize fieldSize]. change (Z.to_nat 4) with 4%nat. lia.
    + intros [c|]; cbn [ochunk osize fieldSize]; change (Z.to_nat 4) with 4%nat; unfold zero; lia.
Qed.

Theorem readFd_terminates : forall rg e w, IFF_readFd rg e w <> OutOfFuel.
Proof.
  intros rg e w H. unfold IFF_readFd in H.
  assert (E : Eats (S (left w)) zero
     (oc <- IFF_readChunk (selectChunkRegistry rg) (S (left w)) 0 ;;
      match oc with
      | None => IFF_error ("ERROR: cannot open main chunk!" ++ nl)%string ;;; ret None
      | Some c =>
         ob <- fgetc ;;
         match ob with
         | None => ret (Some c)
         | Some b =>
             IFF_error ("WARNING: Trailing IFF contents found: " ++ dec (b2z b) ++ "!" ++ nl)%string ;;;
             ret (Some c)
         end
      end)).
  { apply Eats_0; [eapply Eats_weaken; [apply readChunk_eats|apply le_n|intro; apply Nat.le_0_l]|].
    unfold zero. intros [c|]; eats. }
  specialize (E e w). fold (left w) in H. rewrite H in E. lia.
Qed.

(** ** The step bound is irrelevant *)

Definition Below {A} (m m' : M A) : Prop := forall e w, m e w = OutOfFuel \/ m' e w = m e w.

Lemma Below_refl : forall A (m : M A), Below m m.
Proof. intros A m e w. right. reflexivity. Qed.
Lemma Below_bind : forall A B (m m' : M A) (f f' : A -> M B),
  Below m m' -> (forall a, Below (f a) (f' a)) -> Below (bind m f) (bind m' f').
Proof.
  intros A B m m' f f' H F e w. unfold bind. destruct (H e w) as [E|E]; rewrite E.
  - left. reflexivity.
  - destruct (m e w) as [[a w1]|u|]; [apply F|right; reflexivity|left; reflexivity].
Qed.
Lemma Below_nofuel : forall A (m : M A), Below nofuel m.
Proof. intros A m e w. left. reflexivity. Qed.

Ltac below := repeat (cbv beta; match goal with
  | |- Below ?m ?m => apply Below_refl
  | |- Below nofuel _ => apply Below_nofuel
  | |- Below (bind _ _) (bind _ _) => apply Below_bind; [|intro]
  | |- Below (if ?b then _ else _) _ => destruct b eqn:?
  | |- Below (match ?x with _ => _ end) _ => destruct x eqn:?
  | _ => solve [auto]
  end).

Section More.
  Variables rc rc' : Z -> M (option chunk).
  Hypothesis RC : forall ft, Below (rc ft) (rc' ft).

  Lemma group_loop_more : forall f f' g gt bp, (f <= f')%nat ->
    Below (readGroupSubChunks rc f g gt bp) (readGroupSubChunks rc' f' g gt bp).
  Proof.
    induction f as [|f IH]; intros f' g gt bp L; (destruct f' as [|f']; [try (exfalso; lia)|]); cbn [readGroupSubChunks]; below.
    apply IH. lia.
  Qed.
  Lemma list_loop_more : forall f f' g gt bp, (f <= f')%nat ->
    Below (readListSubChunks rc f g gt bp) (readListSubChunks rc' f' g gt bp).
  Proof.
    induction f as [|f IH]; intros f' g gt bp L; (destruct f' as [|f']; [try (exfalso; lia)|]); cbn [readListSubChunks]; below.
    apply IH. lia.
  Qed.
  Lemma body_more : forall rg f f' i s ft, (f <= f')%nat ->
    Below (readChunkBody rc rg f i s ft) (readChunkBody rc' rg f' i s ft).
  Proof.
    intros rg f f' i s ft L. unfold readChunkBody.
    assert (G : forall c z, Below (IFF_readGroup rc f c z 0) (IFF_readGroup rc' f' c z 0)).
    { intros c z. unfold IFF_readGroup. below. apply group_loop_more. assumption. }
    apply Below_bind; [below|]. intro h. apply Below_bind; [below|]. intros [c|]; [|below].
    apply Below_bind; [|intro; apply Below_refl].
    destruct h; cbn [readExtensionChunkFields]; below.
    unfold IFF_readList. below. apply list_loop_more. assumption.
  Qed.
End More.

Theorem readChunk_more : forall rg f f' ft, (f <= f')%nat ->
  Below (IFF_readChunk rg f ft) (IFF_readChunk rg f' ft).
Proof.
  intros rg. induction f as [|f IH]; intros [|f'] ft L; try (exfalso; lia); cbn [IFF_readChunk]; below.
  apply body_more; [|lia]. intro. apply IH. lia.
Qed.

(** ** Reading only adds diagnostics and leaves the output alone *)

Definition Framed {A} (m : M A) : Prop := forall e w,
  match m e w with
  | Done (_, w') => (exists lg, w_log w' = lg ++ w_log w) /\ w_out w' = w_out w /\
                    r_seekable (w_in w') = r_seekable (w_in w)
  | _ => True
  end.

Lemma Framed_bind : forall A B (m : M A) (f : A -> M B), Framed m -> (forall a, Framed (f a)) -> Framed (bind m f).
Proof.
  intros A B m f H F e w. unfold bind. specialize (H e w).
  destruct (m e w) as [[a w1]|u|]; [|exact I|exact I]. specialize (F a e w1).
  destruct (f a e w1) as [[b w2]|u|]; [|exact I|exact I].
  destruct H as ([l1 E1] & O1 & K1), F as ([l2 E2] & O2 & K2). split; [|split; congruence].
  exists (l2 ++ l1). rewrite E2, E1, app_assoc. reflexivity.
Qed.
Lemma Framed_ret : forall A (a : A), Framed (ret a).
Proof. intros A a e w. split; [exists []; reflexivity|split; reflexivity]. Qed.
Lemma Framed_undefined : forall A u, Framed (@undefined A u).
Proof. intros A u e w. exact I. Qed.
Lemma Framed_nofuel : forall A, Framed (@nofuel A).
Proof. intros A e w. exact I. Qed.
Lemma Framed_ask : Framed ask.
Proof. intros e w. split; [exists []; reflexivity|split; reflexivity]. Qed.
Lemma Framed_lift : forall A (o : outcome A), Framed (lift o).
Proof. intros A o e w. destruct o; [|exact I|exact I]. split; [exists []; reflexivity|split; reflexivity]. Qed.
Lemma Framed_error : forall s, Framed (IFF_error s).
Proof. intros s e w. split; [exists [s]; reflexivity|split; reflexivity]. Qed.
Lemma Framed_errorId : forall i, Framed (IFF_errorId i).
Proof. intros i e w. rewrite run_errorId. split; [eexists; reflexivity|split; reflexivity]. Qed.
Lemma Framed_malloc : forall z, Framed (malloc z).
Proof. intros z e w. split; [exists []; reflexivity|split; reflexivity]. Qed.
Lemma Framed_fread : forall z, Framed (fread z).
Proof. intros z e w. split; [exists []; reflexivity|split; reflexivity]. Qed.
Lemma Framed_fgetc : Framed fgetc.
Proof.
  intros e w. unfold fgetc. destruct (r_rest (w_in w)); (split; [exists []; reflexivity|split; reflexivity]).
Qed.
Lemma Framed_fseek : forall z, Framed (fseek_cur z).
Proof.
  intros z e w. unfold fseek_cur. destruct (r_seekable (w_in w)) eqn:K; (split; [exists []; reflexivity|split; [reflexivity|]]);
    simpl; congruence.
Qed.

Ltac framed :=
  repeat (cbv beta zeta;
  match goal with
  | |- Framed (ret _) => apply Framed_ret
  | |- Framed (undefined _) => apply Framed_undefined
  | |- Framed nofuel => apply Framed_nofuel
  | |- Framed (lift _) => apply Framed_lift
  | |- Framed (bind _ _) => apply Framed_bind; [|intro]
  | |- Framed (andM _ _) => unfold andM
  | |- Framed ask => apply Framed_ask
  | |- Framed fgetc => apply Framed_fgetc
  | |- Framed (fread _) => apply Framed_fread
  | |- Framed (IFF_error _) => apply Framed_error
  | |- Framed (IFF_errorId _) => apply Framed_errorId
  | |- Framed (malloc _) => apply Framed_malloc
  | |- Framed (fseek_cur _) => apply Framed_fseek
  | |- Framed (if ?b then _ else _) => destruct b eqn:?
  | |- Framed (match ?x with _ => _ end) => destruct x eqn:?
  | _ => solve [auto]
  end).

Lemma read_prim_framed : forall k i s, Framed (read_prim k i s).
Proof.
  intros k i s. destruct k; cbn [read_prim];
    unfold IFF_readUByte, IFF_readUWord, IFF_readWord, IFF_readULong, IFF_readLong, IFF_readId, IFF_readULong, swap_long,
      IFF_readError; framed.
Qed.
Lemma readField_framed : forall k i s a bp, Framed (IFF_readField k i s a bp).
Proof. intros. unfold IFF_readField. framed. apply read_prim_framed. Qed.
Lemma read_fields_framed : forall ds vals i s bp, Framed (read_fields ds vals i s bp).
Proof.
  induction ds as [|d ds IH]; intros vals i s bp; cbn [read_fields]; [framed|]. framed. apply readField_framed.
Qed.

Lemma readChunk_framed : forall rg fuel ft, Framed (IFF_readChunk rg fuel ft).
Proof.
  intros rg. induction fuel as [|f IH]; intros ft; cbn [IFF_readChunk]; [framed|].
  assert (GL : forall n g gt bp, Framed (readGroupSubChunks (IFF_readChunk rg f) n g gt bp)).
  { induction n as [|n IHn]; intros; cbn [readGroupSubChunks]; unfold truncated_warning, IFF_attachToGroup; framed. }
  assert (LL : forall n g gt bp, Framed (readListSubChunks (IFF_readChunk rg f) n g gt bp)).
  { induction n as [|n IHn]; intros; cbn [readListSubChunks]; unfold truncated_warning, IFF_attachToGroup, addPropToList; framed. }
  change (IFF_readId ID_EMPTY "") with (read_prim FId ID_EMPTY "").
  apply Framed_bind; [apply read_prim_framed|]. intros [i|]; [|framed].
  change (IFF_readLong i "chunkSize") with (read_prim FLong i "chunkSize").
  apply Framed_bind; [apply read_prim_framed|]. intros [s|]; [|framed].
  unfold readChunkBody. apply Framed_bind; [framed|]. intro h. apply Framed_bind.
  { destruct h; cbn [createExtensionChunk];
      unfold IFF_createUnparsedGroup, IFF_createGroup, IFF_createUnparsedList, IFF_createList, IFF_createRawChunk, create_fields; framed. }
  intros [c|]; [|framed]. apply Framed_bind.
  { destruct h; cbn [readExtensionChunkFields]; unfold IFF_readGroup, IFF_readList, IFF_readRawChunk, read_fields_chunk; framed;
      try apply readField_framed; apply read_fields_framed. }
  intros [[ok c1] bp]. framed; unfold IFF_skipUnknownBytes, IFF_readPaddingByte; framed.
Qed.

Theorem readFd_framed : forall rg e w,
  match IFF_readFd rg e w with
  | Done (oc, w') => (exists lg, w_log w' = lg ++ w_log w /\ (oc = None -> lg <> [])) /\ w_out w' = w_out w
  | _ => True
  end.
Proof.
  intros rg e w. unfold IFF_readFd. set (n := S _). unfold bind at 1.
  pose proof (readChunk_framed (selectChunkRegistry rg) n 0 e w) as H.
  destruct (IFF_readChunk (selectChunkRegistry rg) n 0 e w) as [[[c|] w1]|u|]; [| |exact I|exact I];
    destruct H as ([lg E] & O & _).
  - assert (F : Framed (ob <- fgetc ;;
         match ob with
         | None => ret (Some c)
         | Some b =>
             IFF_error ("WARNING: Trailing IFF contents found: " ++ dec (b2z b) ++ "!" ++ nl)%string ;;;
             ret (Some c)
         end)) by framed.
    pose proof (F e w1) as G. revert G. unfold bind, fgetc.
    destruct (r_rest (w_in w1)); simpl; intros ([l2 E2] & O2 & _).
    + split; [|exact O]. exists lg. split; [exact E|discriminate].
    + split; [|exact O]. eexists (_ :: lg). rewrite E. split; [reflexivity|discriminate].
  - simpl. split; [|exact O]. eexists (_ :: lg). rewrite E. split; [reflexivity|discriminate].
Qed.
