(** * Failing writes are reported, for every tree, registry and host *)

From Coq Require Import ZArith List Bool String Lia.
From Coq Require Import Strings.Byte.
From Verif Require Import Machine Io Types Build Write Iff Spec Lemmas IoProofs TermProofs.
Import ListNotations.
Open Scope Z_scope.

(** [Loud ok m]: the log only grows, and it grows when the result is not [ok];
    what was handed to the output stream is not changed. *)
Definition Loud {A} (ok : A -> bool) (m : M A) : Prop := forall e w,
  match m e w with
  | Done (a, w') => (exists lg, w_log w' = lg ++ w_log w /\ (ok a = false -> lg <> [])) /\
      w_in w' = w_in w
  | _ => True
  end.

Definition always {A} : A -> bool := fun _ => true.

Lemma Loud_bind : forall A B (ok1 : A -> bool) (ok2 : B -> bool) (m : M A) (f : A -> M B),
  Loud ok1 m -> (forall a, ok1 a = true -> Loud ok2 (f a)) -> (forall a, ok1 a = false -> Loud always (f a)) ->
  Loud ok2 (bind m f).
Proof.
  intros A B ok1 ok2 m f H F1 F2 e w. unfold bind. specialize (H e w).
  destruct (m e w) as [[a w1]|u|]; [|exact I|exact I]. destruct H as [(lg & E & N) I1].
  destruct (ok1 a) eqn:O.
  - specialize (F1 a O e w1). destruct (f a e w1) as [[b w2]|u|]; [|exact I|exact I].
    destruct F1 as [(l2 & E2 & N2) I2]. split; [|congruence]. exists (l2 ++ lg). rewrite E2, E, app_assoc. split; [reflexivity|].
    intros B0 X. apply app_eq_nil in X. apply (N2 B0). apply X.
  - specialize (F2 a O e w1). destruct (f a e w1) as [[b w2]|u|]; [|exact I|exact I].
    destruct F2 as [(l2 & E2 & N2) I2]. split; [|congruence]. exists (l2 ++ lg). rewrite E2, E, app_assoc. split; [reflexivity|].
    intros B0 X. apply app_eq_nil in X. apply (N eq_refl). apply X.
Qed.

Lemma Loud_always : forall A B (ok2 : B -> bool) (m : M A) (f : A -> M B),
  Loud always m -> (forall a, Loud ok2 (f a)) -> Loud ok2 (bind m f).
Proof. intros. apply (Loud_bind _ _ always); auto; discriminate. Qed.

Lemma Loud_weaken : forall A (ok : A -> bool) m, Loud ok m -> Loud always m.
Proof.
  intros A ok m H e w. specialize (H e w). destruct (m e w) as [[a w1]|u|]; [|exact I|exact I].
  destruct H as [(lg & E & _) I1]. split; [|exact I1]. exists lg. split; [exact E|discriminate].
Qed.

Lemma Loud_ret : forall A (ok : A -> bool) a, ok a = true -> Loud ok (ret a).
Proof. intros A ok a H e w. split; [|reflexivity]. exists []. split; [reflexivity|congruence]. Qed.
Lemma Loud_undefined : forall A (ok : A -> bool) u, Loud ok (undefined u).
Proof. intros A ok u e w. exact I. Qed.
Lemma Loud_ask : Loud always ask.
Proof. intros e w. split; [|reflexivity]. exists []. split; [reflexivity|discriminate]. Qed.
Lemma Loud_lift : forall A (o : outcome A), Loud always (lift o).
Proof. intros A o e w. destruct o; [|exact I|exact I]. split; [|reflexivity]. exists []. split; [reflexivity|discriminate]. Qed.
Lemma Loud_malloc : forall z, Loud always (malloc z).
Proof. intros z e w. split; [|reflexivity]. exists []. split; [reflexivity|discriminate]. Qed.
Lemma Loud_fwrite : forall l, Loud always (fwrite l).
Proof.
  intros l e w. unfold fwrite. destruct (put_bytes l (w_out w)). split; [|reflexivity]. exists []. split; [reflexivity|discriminate].
Qed.

(** After an error message everything counts as reported. *)
Definition never {A} : A -> bool := fun _ => false.
Lemma Loud_error : forall s, Loud never (IFF_error s).
Proof. intros s e w. split; [|reflexivity]. exists [s]. split; [reflexivity|discriminate]. Qed.
Lemma Loud_errorId : forall i, Loud always (IFF_errorId i).
Proof. intros i e w. rewrite run_errorId. split; [|reflexivity]. eexists. split; [reflexivity|discriminate]. Qed.
Lemma Loud_after_error : forall B (ok : B -> bool) s (k : unit -> M B), (forall u, Loud always (k u)) -> Loud ok (bind (IFF_error s) k).
Proof. intros. apply (Loud_bind _ _ never); [apply Loud_error|discriminate|auto]. Qed.

Ltac loud :=
  repeat (cbv beta zeta;
  match goal with
  | |- Loud _ (ret _) => apply Loud_ret; solve [reflexivity | assumption]
  | |- Loud _ (undefined _) => apply Loud_undefined
  | |- Loud always (lift _) => apply Loud_lift
  | |- Loud _ (bind (IFF_error _) _) => apply Loud_after_error; intro
  | |- Loud _ (bind ask _) => apply Loud_always; [apply Loud_ask|intro]
  | |- Loud _ (bind (lift _) _) => apply Loud_always; [apply Loud_lift|intro]
  | |- Loud _ (bind (malloc _) _) => apply Loud_always; [apply Loud_malloc|intro]
  | |- Loud _ (bind (fwrite _) _) => apply Loud_always; [apply Loud_fwrite|intro]
  | |- Loud _ (bind (fputc _) _) => apply Loud_always; [apply Loud_fwrite|intro]
  | |- Loud _ (bind (IFF_errorId _) _) => apply Loud_always; [apply Loud_errorId|intro]
  | |- Loud always (IFF_error _) => eapply Loud_weaken; apply Loud_error
  | |- Loud always (IFF_errorId _) => apply Loud_errorId
  | |- Loud _ (if ?b then _ else _) => destruct b eqn:?
  | |- Loud _ (match ?x with _ => _ end) => destruct x eqn:?
  end).

Definition yes : bool -> bool := fun b => b.

Lemma writeError_loud : forall B (ok : B -> bool) i s (k : unit -> M B),
  (forall u, Loud always (k u)) -> Loud ok (bind (IFF_writeError i s) k).
Proof.
  intros. apply (Loud_bind _ _ never); [|discriminate|auto]. unfold IFF_writeError. loud.
Qed.

Lemma write_prim_loud : forall k v i s, Loud yes (write_prim k v i s).
Proof.
  intros k v i s. destruct k; cbn [write_prim];
    unfold IFF_writeUByte, IFF_writeUWord, IFF_writeWord, IFF_writeULong, IFF_writeLong, IFF_writeId, IFF_writeULong; loud;
    try (apply writeError_loud; intro; loud).
  apply Loud_always.
  - destruct (big_endian a); unfold swap_long; loud.
  - intro; loud. apply writeError_loud; intro; loud.
Qed.

Definition more : fstatus * Z -> bool := fun r => IFF_deriveSuccess (fst r).
Definition ok1 : bool * Z -> bool := fst.

Lemma writeField_loud : forall k v i s a bp, Loud more (IFF_writeField k v i s a bp).
Proof.
  intros. unfold IFF_writeField. apply Loud_always; [apply Loud_ask|]. intro e0. destruct (fieldDoesNotFitInChunk _ _ _ _); [loud|].
  apply (Loud_bind _ _ yes); [apply write_prim_loud| |]; intros [|] H; try discriminate; loud.
Qed.

Lemma write_fields_loud : forall ds vals i s bp, Loud ok1 (write_fields ds vals i s bp).
Proof.
  induction ds as [|d ds IH]; intros vals i s bp; cbn [write_fields]; [loud|]. destruct vals as [|[k v] vals]; [loud|].
  apply (Loud_bind _ _ more); [apply writeField_loud| |]; intros [st b] H; destruct st; try discriminate; loud. apply IH.
Qed.

Lemma andM_loud : forall m1 m2, Loud yes m1 -> Loud yes m2 -> Loud yes (andM m1 m2).
Proof.
  intros m1 m2 H1 H2. unfold andM. apply (Loud_bind _ _ yes); [assumption| |]; intros [|] H; try discriminate; [assumption|loud].
Qed.

Lemma filler_loud : forall i s bp, Loud yes (IFF_writeZeroFillerBytes i s bp).
Proof. intros. unfold IFF_writeZeroFillerBytes. loud. Qed.
Lemma pad_loud : forall s i, Loud yes (IFF_writePaddingByte s i).
Proof. intros. unfold IFF_writePaddingByte. loud. Qed.

Lemma write_all_loud : forall wc msg l ft bp, (forall c ft, In c l -> Loud yes (wc c ft)) ->
  Loud ok1 (write_all wc msg l ft bp).
Proof.
  intros wc msg l ft. induction l as [|c l IH]; intros bp H; cbn [write_all]; [loud|].
  apply (Loud_bind _ _ yes); [apply H; left; reflexivity| |]; intros [|] X; try discriminate; loud.
  apply IH. intros; apply H; right; assumption.
Qed.

Lemma write_loud : forall rg c ft, Loud yes (IFF_writeChunk rg c ft).
Proof.
  intros rg.
  assert (HEAD : forall c ft, (forall h, Loud ok1 (writeExtensionChunkFields (IFF_writeChunk rg) h c 0)) ->
     Loud yes (IFF_writeChunk rg c ft)).
  { intros c ft H.
    assert (X : Loud yes (andM (IFF_writeId (chunkId c) (chunkId c) "chunkId")
                (andM (IFF_writeLong (chunkSize c) (chunkId c) "chunkSize")
                  (writeChunkBody (IFF_writeChunk rg) rg c ft)))).
    { apply andM_loud; [apply (write_prim_loud FId)|]. apply andM_loud; [apply (write_prim_loud FLong)|].
      unfold writeChunkBody. apply Loud_always; [apply Loud_lift|]. intro h.
      apply (Loud_bind _ _ ok1); [apply H| |]; intros [ok bp] O; unfold ok1 in O; simpl in O; subst ok.
      - apply andM_loud; [loud|]. apply andM_loud; [apply filler_loud|apply pad_loud].
      - unfold andM at 1. loud; try discriminate. intros e w. unfold bind, ret. split; [|reflexivity]. exists []. split; [reflexivity|discriminate]. }
    destruct c; exact X. }
  induction c as [i s d|i s g subs IH|i s g props subs IHp IHs|i s vals] using chunk_tree_ind; intro ft; apply HEAD; intro h;
    destruct h; cbn [writeExtensionChunkFields IFF_writeGroup IFF_writeList IFF_writeRawChunk write_fields_chunk];
    try apply Loud_undefined; try solve [loud].
  - apply (Loud_bind _ _ more); [apply writeField_loud| |]; intros [st b] H; destruct st; try discriminate; loud.
    apply write_all_loud. intros; apply IH; assumption.
  - apply (Loud_bind _ _ more); [apply writeField_loud| |]; intros [st b] H; destruct st; try discriminate; loud.
    apply write_all_loud. intros; apply IH; assumption.
  - apply (Loud_bind _ _ more); [apply writeField_loud| |]; intros [st b] H; destruct st; try discriminate; loud.
    apply write_all_loud. intros; apply IH; assumption.
  - apply (Loud_bind _ _ more); [apply writeField_loud| |]; intros [st b] H; destruct st; try discriminate; loud.
    apply write_all_loud. intros; apply IHs; assumption.
  - apply (Loud_bind _ _ more); [apply writeField_loud| |]; intros [st b] H; destruct st; try discriminate; loud.
    apply write_all_loud. intros; apply IHs; assumption.
  - apply (Loud_bind _ _ more); [apply writeField_loud| |]; intros [st b] H; destruct st; try discriminate; loud.
    apply (Loud_bind _ _ ok1); [apply write_all_loud; intros; apply IHp; assumption| |];
      intros [ok b2] O; unfold ok1 in O; simpl in O; subst ok; loud.
    apply write_all_loud. intros; apply IHs; assumption.
  - apply (Loud_bind _ _ more); [apply writeField_loud| |]; intros [st b] H; destruct st; try discriminate; loud.
    apply write_all_loud. intros; apply IHs; assumption.
  - loud. apply write_fields_loud.
Qed.
