(** * How much memory reading takes *)

From Coq Require Import ZArith List Bool String Lia.
From Coq Require Import Strings.Byte.
From Verif Require Import Machine Io Types Build Read Iff Spec AllocSpec Lemmas IoProofs TermProofs.
Import ListNotations.
Open Scope Z_scope.

(** ** The number of allocations.  Each byte read pays for 3/8 of one: [Pay c m c']
    says that [m], given the credit [c], leaves [c' a] on returning [a]. *)
Definition weight (w : world) : Z := 8 * Z.of_nat (w_allocs w) + 3 * Z.of_nat (left w).
Definition Pay {A} (c : Z) (m : M A) (c' : A -> Z) : Prop := forall e w,
  match m e w with Done (a, w') => weight w' + c' a <= weight w + c | _ => True end.

Lemma Pay_ret : forall A c (a : A) c', c' a <= c -> Pay c (ret a) c'.
Proof. intros A c a c' L e w. cbn. lia. Qed.
Lemma Pay_bind : forall A B c (m : M A) c1 (f : A -> M B) c2, Pay c m c1 -> (forall a, Pay (c1 a) (f a) c2) -> Pay c (bind m f) c2.
Proof.
  intros A B c m c1 f c2 K F e w. unfold bind. specialize (K e w). destruct (m e w) as [[a w1]|u|]; [|exact I|exact I].
  specialize (F a e w1). destruct (f a e w1) as [[b w2]|u|]; [lia|exact I|exact I].
Qed.
Lemma Pay_weaken : forall A c d (m : M A) c' d', Pay c m c' -> (forall a, d' a - d <= c' a - c) -> Pay d m d'.
Proof. intros A c d m c' d' K L e w. specialize (K e w). destruct (m e w) as [[a w1]|u|]; [|exact I|exact I]. specialize (L a). lia. Qed.
Lemma Pay_undefined : forall A c u (c' : A -> Z), Pay c (undefined u) c'.
Proof. intros A c u c' e w. exact I. Qed.
Lemma Pay_nofuel : forall A c (c' : A -> Z), Pay c nofuel c'.
Proof. intros A c c' e w. exact I. Qed.
(** operations that allocate nothing *)
Definition Idle {A} (m : M A) (k : A -> nat) : Prop := forall e w,
  match m e w with Done (a, w') => w_allocs w' = w_allocs w /\ (left w' + k a <= left w)%nat | _ => True end.
Lemma Idle_bind : forall A B (m : M A) (f : A -> M B) k k2, Idle m k -> (forall a, Idle (f a) (fun b => k2 b - k a)%nat) -> Idle (bind m f) k2.
Proof.
  intros A B m f k k2 K F e w. unfold bind. specialize (K e w). destruct (m e w) as [[a w1]|u|]; [|exact I|exact I].
  specialize (F a e w1). destruct (f a e w1) as [[b w2]|u|]; [|exact I|exact I]. destruct K, F. split; [congruence|lia].
Qed.
Lemma Idle_0 : forall A B (m : M A) (f : A -> M B) k2, Idle m zero -> (forall a, Idle (f a) k2) -> Idle (bind m f) k2.
Proof. intros A B m f k2 K F. eapply Idle_bind; [exact K|]. intro a. unfold zero. intros e w. specialize (F a e w). destruct (f a e w) as [[b w1]|u|]; [|exact I|exact I]. destruct F. split; [assumption|lia]. Qed.
Lemma Idle_ret : forall A (a : A) k, k a = O -> Idle (ret a) k.
Proof. intros A a k K e w. cbn. rewrite K. split; [reflexivity|lia]. Qed.
Lemma Idle_undefined : forall A u (k : A -> nat), Idle (undefined u) k.
Proof. intros A u k e w. exact I. Qed.
Lemma Idle_ask : Idle ask zero.
Proof. intros e w. cbn. unfold zero. split; [reflexivity|lia]. Qed.
Lemma Idle_error : forall s, Idle (IFF_error s) zero.
Proof. intros s e w. unfold zero, left. cbn. split; [reflexivity|lia]. Qed.
Lemma Idle_errorId : forall i, Idle (IFF_errorId i) zero.
Proof. intros i e w. rewrite run_errorId. unfold zero, left. cbn. split; [reflexivity|lia]. Qed.
Lemma Idle_lift : forall A (o : outcome A), Idle (lift o) zero.
Proof. intros A o e w. unfold lift, zero. destruct o; [split; [reflexivity|lia]|exact I|exact I]. Qed.
Lemma Idle_fread : forall z, Idle (fread z) (fun l : list byte => List.length l).
Proof. intros z e w. unfold fread, left. cbn. pose proof (ztake_zdrop_length _ z (r_rest (w_in w))). split; [reflexivity|lia]. Qed.
Lemma Idle_fgetc : Idle fgetc (fun o : option byte => match o with Some _ => 1 | None => 0 end%nat).
Proof. intros e w. unfold fgetc. destruct (r_rest (w_in w)) as [|b r] eqn:E; unfold left; cbn; rewrite ?E; cbn; split; try reflexivity; lia. Qed.
Lemma Idle_fseek : forall z, Idle (fseek_cur z) zero.
Proof. intros z e w. unfold fseek_cur, zero, left. destruct (r_seekable (w_in w)); cbn; (split; [reflexivity|]); [pose proof (zdrop_length _ z (r_rest (w_in w))); lia|lia]. Qed.

Ltac idle :=
  repeat (cbv beta;
  match goal with
  | |- Idle (ret _) _ => apply Idle_ret; solve [reflexivity | lia]
  | |- Idle (undefined _) _ => apply Idle_undefined
  | |- Idle (bind fgetc _) _ => eapply Idle_bind; [apply Idle_fgetc|intros [?|]]
  | |- Idle (bind (fread _) _) _ => eapply Idle_bind; [apply Idle_fread|intros ?]
  | |- Idle (bind _ _) _ => apply Idle_0; [|intro]
  | |- Idle ask _ => apply Idle_ask
  | |- Idle (IFF_error _) _ => apply Idle_error
  | |- Idle (IFF_errorId _) _ => apply Idle_errorId
  | |- Idle (lift _) _ => apply Idle_lift
  | |- Idle (fseek_cur _) _ => apply Idle_fseek
  | |- Idle (IFF_readError _ _) _ => unfold IFF_readError
  | |- Idle (if ?b then _ else _) _ => destruct b eqn:?
  | |- Idle (match ?x with _ => _ end) _ => destruct x eqn:?
  | |- Idle (let x := _ in _) _ => cbv zeta
  end).

Lemma Idle_weaken : forall A (m : M A) k k', Idle m k -> (forall a, k' a <= k a)%nat -> Idle m k'.
Proof. intros A m k k' K L e w. specialize (K e w). destruct (m e w) as [[a w1]|u|]; [|exact I|exact I]. destruct K. split; [assumption|]. specialize (L a). lia. Qed.
Lemma read_prim_idle : forall k i s, Idle (read_prim k i s) (osize (Z.to_nat (fieldSize k))).
Proof.
  assert (L : forall (l : list byte) z, (zlength l =? z) = true -> List.length l = Z.to_nat z).
  { intros l z H. apply Z.eqb_eq in H. unfold zlength in H. lia. }
  intros k i s. destruct k; cbn [read_prim fieldSize];
    unfold IFF_readUByte, IFF_readUWord, IFF_readWord, IFF_readULong, IFF_readLong, IFF_readId, IFF_readULong, swap_long, osize;
    idle; try (apply Idle_ret; cbn; lia);
    try (match goal with H : (zlength _ =? _) = true |- _ => apply L in H end; apply Idle_ret; lia).
Qed.
Lemma readField_idle : forall k i s a bp, Idle (IFF_readField k i s a bp) zero.
Proof. intros. unfold IFF_readField. idle. eapply Idle_weaken; [apply read_prim_idle|unfold zero; intro; lia]. Qed.
Lemma read_fields_idle : forall ds vals i s bp, Idle (read_fields ds vals i s bp) zero.
Proof.
  induction ds as [|d ds IH]; intros vals i s bp; cbn [read_fields]; [idle|].
  destruct vals as [|v vals]; [idle|]. apply Idle_0; [apply readField_idle|]. intros [[st o] b2]. destruct st, o; idle. apply IH.
Qed.
Lemma warning_idle : forall a b, Idle (truncated_warning a b) zero.
Proof. intros. unfold truncated_warning. idle. Qed.
Lemma skip_idle : forall i s bp, Idle (IFF_skipUnknownBytes i s bp) zero.
Proof. intros. unfold IFF_skipUnknownBytes. idle. Qed.
Lemma padding_idle : forall s i, Idle (IFF_readPaddingByte s i) zero.
Proof. intros. unfold IFF_readPaddingByte, zero. idle. Qed.
Lemma and_idle : forall m n, Idle m zero -> Idle n zero -> Idle (andM m n) zero.
Proof. intros m n P Q. unfold andM. apply Idle_0; [exact P|]. intros [|]; [exact Q|idle]. Qed.

Lemma Pay_idle : forall A (m : M A) k c c', Idle m k -> (forall a, c' a <= c + 3 * Z.of_nat (k a)) -> Pay c m c'.
Proof.
  intros A m k c c' K L e w. specialize (K e w). destruct (m e w) as [[a w1]|u|]; [|exact I|exact I]. destruct K as (K1 & K2). specialize (L a). unfold weight. rewrite K1. lia.
Qed.
Lemma Pay_then : forall A B (m : M A) (f : A -> M B) c c2, Idle m zero -> (forall a, Pay c (f a) c2) -> Pay c (bind m f) c2.
Proof. intros A B m f c c2 K F. apply Pay_bind with (c1 := fun _ => c); [|exact F]. eapply Pay_idle; [exact K|]. intro. unfold zero. lia. Qed.
Lemma Pay_malloc : forall B n (f : bool -> M B) c c2, (forall b, Pay (c - 8) (f b) c2) -> Pay c (bind (malloc n) f) c2.
Proof.
  intros B n f c c2 F. apply Pay_bind with (c1 := fun _ => c - 8); [|exact F]. intros e w. unfold malloc, weight, left. cbn. lia.
Qed.

Definition some_pay (n : Z) (o : option chunk) : Z := match o with Some _ => n | None => 0 end.

Lemma create_pay : forall h i s, Pay 24 (createExtensionChunk h i s) (fun _ => 8).
Proof.
  intros h i s. destruct h; cbn [createExtensionChunk];
    unfold IFF_createUnparsedGroup, IFF_createGroup, IFF_createUnparsedList, IFF_createList, IFF_createRawChunk, create_fields.
  1-4: apply Pay_malloc; intro; apply Pay_ret; lia.
  - apply Pay_then; [apply Idle_ask|]. intro e0. apply Pay_malloc. intros []; [apply Pay_malloc; intro; apply Pay_ret; lia|apply Pay_ret; lia].
  - apply Pay_malloc; intro; apply Pay_ret; lia.
Qed.
Lemma attach_pay : forall g c, Pay 8 (IFF_attachToGroup g c) (fun _ => 0).
Proof. intros g c. unfold IFF_attachToGroup. destruct (as_group g) as [[gt subs]|]; [|apply Pay_undefined]. apply Pay_malloc. intros []; [apply Pay_ret; lia|apply Pay_undefined]. Qed.
Lemma addProp_pay : forall g c, Pay 8 (addPropToList g c) (fun _ => 0).
Proof. intros g c. unfold addPropToList. destruct g; try apply Pay_undefined. apply Pay_malloc. intros []; [apply Pay_ret; lia|apply Pay_undefined]. Qed.

Section Loops.
  Variable rc : Z -> M (option chunk).
  Hypothesis RC : forall ft, Pay 0 (rc ft) (some_pay 8).

  Lemma group_loop_pay : forall f g gt bp, Pay 0 (readGroupSubChunks rc f g gt bp) (fun _ => 0).
  Proof.
    induction f as [|f IH]; intros g gt bp; cbn [readGroupSubChunks]; destruct (bp <? chunkSize g); try apply Pay_nofuel.
    - apply Pay_then; [destruct (_ <? _); [apply warning_idle|apply Idle_ret; reflexivity]|]. intros _. apply Pay_ret. lia.
    - eapply Pay_bind; [apply RC|]. intros [c|]; cbn [some_pay]; [|apply Pay_ret; lia].
      eapply Pay_bind; [apply attach_pay|]. intro g2. apply Pay_then; [apply Idle_lift|]. intro b2. apply IH.
    - apply Pay_then; [destruct (_ <? _); [apply warning_idle|apply Idle_ret; reflexivity]|]. intros _. apply Pay_ret. lia.
  Qed.
  Lemma list_loop_pay : forall f g gt bp, Pay 0 (readListSubChunks rc f g gt bp) (fun _ => 0).
  Proof.
    induction f as [|f IH]; intros g gt bp; cbn [readListSubChunks]; destruct (bp <? chunkSize g); try apply Pay_nofuel.
    - apply Pay_then; [destruct (_ <? _); [apply warning_idle|apply Idle_ret; reflexivity]|]. intros _. apply Pay_ret. lia.
    - eapply Pay_bind; [apply RC|]. intros [c|]; cbn [some_pay]; [|apply Pay_ret; lia].
      eapply Pay_bind; [destruct (_ =? _); [apply addProp_pay|apply attach_pay]|]. intro g2. apply Pay_then; [apply Idle_lift|]. intro b2. apply IH.
    - apply Pay_then; [destruct (_ <? _); [apply warning_idle|apply Idle_ret; reflexivity]|]. intros _. apply Pay_ret. lia.
  Qed.
  Lemma fields_pay : forall f h c, Pay 0 (readExtensionChunkFields rc f h c 0) (fun _ => 0).
  Proof.
    intros f h c.
    assert (G : forall s, Pay 0 (IFF_readGroup rc f c s 0) (fun _ => 0)).
    { intro s. unfold IFF_readGroup. destruct (as_group c); [|apply Pay_undefined]. apply Pay_then; [apply readField_idle|].
      intros [[st o] b2]. destruct st, o; try (apply Pay_ret; lia). apply group_loop_pay. }
    destruct h; cbn [readExtensionChunkFields]; try apply G.
    - unfold IFF_readList. destruct c; try apply Pay_undefined. apply Pay_then; [apply readField_idle|].
      intros [[st o] b2]. destruct st, o; try (apply Pay_ret; lia). eapply Pay_bind; [apply list_loop_pay|].
      intros [[ok l2] b3]. destruct ok; [apply Pay_ret; lia|]. apply Pay_then; [apply Idle_error|]. intros _. apply Pay_ret. lia.
    - eapply Pay_idle with (k := zero); [|intro; unfold zero; lia]. unfold IFF_readRawChunk, zero. destruct c; idle.
    - eapply Pay_idle with (k := zero); [|intro; unfold zero; lia]. unfold read_fields_chunk. destruct c; idle. apply read_fields_idle.
  Qed.
  Lemma body_pay : forall rg f i s ft, Pay 24 (readChunkBody rc rg f i s ft) (some_pay 8).
  Proof.
    intros rg f i s ft. unfold readChunkBody. apply Pay_then; [apply Idle_lift|]. intro h.
    eapply Pay_bind; [apply create_pay|]. intros [c|]; [|apply Pay_ret; cbn; lia].
    apply Pay_bind with (c1 := fun _ => 8); [eapply Pay_weaken; [apply fields_pay|intro; lia]|]. intros [[ok c1] bp].
    apply Pay_then.
    - apply and_idle; [idle|]. apply and_idle; [apply skip_idle|apply padding_idle].
    - intros [|]; [apply Pay_ret; cbn; lia|]. apply Pay_then; [apply Idle_lift|]. intro. apply Pay_ret. cbn. lia.
  Qed.
End Loops.

Theorem readChunk_pay : forall rg fuel ft, Pay 0 (IFF_readChunk rg fuel ft) (some_pay 8).
Proof.
  intros rg. induction fuel as [|f IH]; intro ft; cbn [IFF_readChunk]; [apply Pay_nofuel|].
  change (IFF_readId ID_EMPTY "") with (read_prim FId ID_EMPTY "").
  apply Pay_bind with (c1 := fun o => match o with Some _ => 12 | None => 0 end).
  { eapply Pay_idle; [apply read_prim_idle|]. intros [i|]; cbn [osize fieldSize]; lia. }
  intros [i|]; [|apply Pay_ret; cbn; lia]. change (IFF_readLong i "chunkSize") with (read_prim FLong i "chunkSize").
  apply Pay_bind with (c1 := fun o => match o with Some _ => 24 | None => 0 end).
  { eapply Pay_idle; [apply read_prim_idle|]. intros [s|]; cbn [osize fieldSize]; lia. }
  intros [s|]; [|apply Pay_ret; cbn; lia]. apply body_pay, IH.
Qed.

(** reading [n] bytes takes at most [3 n / 8] allocations *)
Theorem readFd_allocs : forall rg e w r w', IFF_readFd rg e w = Done (r, w') ->
  8 * (Z.of_nat (w_allocs w') - Z.of_nat (w_allocs w)) <= 3 * (Z.of_nat (left w) - Z.of_nat (left w')).
Proof.
  intros rg e w r w' E. unfold IFF_readFd in E.
  assert (P : Pay 0 (oc <- IFF_readChunk (selectChunkRegistry rg) (S (left w)) 0 ;;
      match oc with
      | None => IFF_error ("ERROR: cannot open main chunk!" ++ nl)%string ;;; ret None
      | Some c =>
         ob <- fgetc ;;
         match ob with
         | None => ret (Some c)
         | Some b =>
             IFF_error ("WARNING: Trailing IFF contents found: " ++ dec (b2z b) ++ "!" ++ nl)%string ;;;
             ret (Some c)
         end
      end) (fun _ => 0)).
  { eapply Pay_bind; [apply readChunk_pay|]. intros [c|]; cbn [some_pay].
    - eapply Pay_weaken; [eapply Pay_idle with (k := zero) (c := 0) (c' := fun _ => 0)|intro; lia]; [|intro; unfold zero; lia]. unfold zero. idle.
    - eapply Pay_idle with (k := zero); [|intro; unfold zero; lia]. unfold zero. idle. }
  specialize (P e w). unfold left in P at 1. rewrite E in P. unfold weight in P. lia.
Qed.

(** ** Large requests are only made for files that are then rejected *)
Definition Agree {A} (m : M A) : Prop := forall B e w, m (capped B e) w = m e w.
Definition Needs {A} (B C : Z) (good : A -> bool) (m : M A) : Prop := forall e w a w',
  Z.of_nat (left w) <= C -> m e w = Done (a, w') -> good a = true -> m (capped B e) w = Done (a, w').
(** nothing good comes out of it *)
Definition Dud {A} (good : A -> bool) (m : M A) : Prop := forall e w a w', m e w = Done (a, w') -> good a = false.

Lemma Agree_bind : forall A B (m : M A) (f : A -> M B), Agree m -> (forall a, Agree (f a)) -> Agree (bind m f).
Proof. intros A B m f K F X e w. unfold bind. rewrite K. destruct (m e w) as [[a w1]|u|]; [apply F|reflexivity|reflexivity]. Qed.
Lemma Agree_ask : forall A (f : env -> M A), (forall B e, f (capped B e) = f e) -> (forall e, Agree (f e)) -> Agree (bind ask f).
Proof. intros A f S F B e w. unfold bind, ask. rewrite S. apply F. Qed.
Lemma Agree_any : forall A (x : world -> outcome (A * world)), Agree (fun _ w => x w).
Proof. intros A x B e w. reflexivity. Qed.

Ltac agree :=
  repeat (cbv beta;
  match goal with
  | |- Agree (ret _) => apply Agree_any
  | |- Agree (undefined _) => apply Agree_any
  | |- Agree nofuel => apply Agree_any
  | |- Agree fgetc => apply Agree_any
  | |- Agree (fread _) => apply Agree_any
  | |- Agree (IFF_error _) => apply Agree_any
  | |- Agree (lift _) => apply Agree_any
  | |- Agree (fseek_cur _) => apply Agree_any
  | |- Agree (bind ask _) => apply Agree_ask; [intros ? ?; reflexivity|intro]
  | |- Agree (bind _ _) => apply Agree_bind; [|intro]
  | |- Agree (IFF_errorId _) => let B := fresh in let e := fresh in let w := fresh in intros B e w; rewrite !run_errorId; reflexivity
  | |- Agree (IFF_readError _ _) => unfold IFF_readError
  | |- Agree (if ?b then _ else _) => destruct b eqn:?
  | |- Agree (match ?x with _ => _ end) => destruct x eqn:?
  | |- Agree (let x := _ in _) => cbv zeta
  end).

Lemma read_prim_agree : forall k i s, Agree (read_prim k i s).
Proof.
  intros k i s. destruct k; cbn [read_prim];
    unfold IFF_readUByte, IFF_readUWord, IFF_readWord, IFF_readULong, IFF_readLong, IFF_readId, IFF_readULong, swap_long; agree.
Qed.
Lemma readField_agree : forall k i s a bp, Agree (IFF_readField k i s a bp).
Proof. intros. unfold IFF_readField. agree. apply read_prim_agree. Qed.
Lemma read_fields_agree : forall ds vals i s bp, Agree (read_fields ds vals i s bp).
Proof.
  induction ds as [|d ds IH]; intros vals i s bp; cbn [read_fields]; [agree|].
  destruct vals as [|v vals]; [agree|]. apply Agree_bind; [apply readField_agree|]. intros [[st o] b2]. destruct st, o; agree. apply IH.
Qed.
Lemma warning_agree : forall a b, Agree (truncated_warning a b).
Proof. intros. unfold truncated_warning. agree. Qed.
Lemma skip_agree : forall i s bp, Agree (IFF_skipUnknownBytes i s bp).
Proof. intros. unfold IFF_skipUnknownBytes. agree. Qed.
Lemma padding_agree : forall s i, Agree (IFF_readPaddingByte s i).
Proof. intros. unfold IFF_readPaddingByte. agree. Qed.
Lemma raw_agree : forall c bp, Agree (IFF_readRawChunk c bp).
Proof. intros. unfold IFF_readRawChunk. destruct c; agree. Qed.
Lemma finish_agree : forall ok i s bp, Agree (andM (ret ok) (andM (IFF_skipUnknownBytes i s bp) (IFF_readPaddingByte s i))).
Proof. intros. unfold andM. agree; [apply skip_agree|apply padding_agree]. Qed.

Definition all {A} (a : A) : bool := true.
Lemma Needs_agree : forall A B C good (m : M A), Agree m -> Needs B C good m.
Proof. intros A B C good m K e w a w' _ E _. rewrite K. exact E. Qed.
Lemma Needs_bind : forall A A2 B C g1 g2 k (m : M A) (f : A -> M A2) n,
  Needs B C g1 m -> Eats n k m -> (forall a, g1 a = true -> Needs B (C - Z.of_nat (k a)) g2 (f a)) -> (forall a, g1 a = false -> Dud g2 (f a)) ->
  Needs B C g2 (bind m f).
Proof.
  intros A A2 B C g1 g2 k m f n K EA F D e w b w' L E G. unfold bind in *. specialize (EA e w). destruct (m e w) as [[a w1]|u|] eqn:X; [|discriminate E|discriminate E].
  destruct (g1 a) eqn:GA.
  - rewrite (K e w a w1 L X GA). exact (F a GA e w1 b w' ltac:(lia) E G).
  - rewrite (D a GA e w1 b w' E) in G. discriminate G.
Qed.
Lemma Needs_then : forall A A2 B C g2 (m : M A) (f : A -> M A2), Agree m -> Eats O zero m -> (forall a, Needs B C g2 (f a)) -> Needs B C g2 (bind m f).
Proof.
  intros A A2 B C g2 m f K EA F. apply Needs_bind with (g1 := all) (k := zero) (n := O); [apply Needs_agree, K|exact EA| |intros a X; discriminate X].
  intros a _. unfold zero. rewrite Z.sub_0_r. apply F.
Qed.
Lemma Needs_malloc : forall A B C good n (f : bool -> M A), n <= B -> (forall b, Needs B C good (f b)) -> Needs B C good (bind (malloc n) f).
Proof.
  intros A B C good n f L F e w a w' LE E G. unfold bind, malloc in *. cbn [capped malloc_ok size_t_bits lp64]. unfold size_t_bits in *. cbn [capped lp64].
  rewrite (proj2 (Z.leb_le _ _) L), andb_true_r. apply (F _ e); assumption.
Qed.
Lemma Dud_ret : forall A good (a : A), good a = false -> Dud good (ret a).
Proof. intros A good a G e w b w' E. injection E as <- _. exact G. Qed.
Lemma Dud_bind : forall A A2 good (m : M A) (f : A -> M A2), (forall a, Dud good (f a)) -> Dud good (bind m f).
Proof. intros A A2 good m f F e w b w' E. unfold bind in E. destruct (m e w) as [[a w1]|u|]; [|discriminate E|discriminate E]. exact (F a e w1 b w' E). Qed.

Definition slots (c : chunk) : Z :=
  match c with CGroup _ _ _ l => zlength l | CList _ _ _ p l => zlength p + zlength l | _ => 0 end.
Definition is_some (o : option chunk) : bool := match o with Some _ => true | None => false end.
Definition okay (r : bool * chunk * Z) : bool := fst (fst r).

Lemma zlength_snoc : forall A (l : list A) x, zlength (l ++ [x]) = zlength l + 1.
Proof. intros. rewrite zlength_app. reflexivity. Qed.
Lemma attach_needs : forall A B C good g c (f : chunk -> M A), 8 * (slots g + 1) <= B ->
  (forall g', slots g' = slots g + 1 -> Needs B C good (f g')) -> Needs B C good (bind (IFF_attachToGroup g c) f).
Proof.
  intros A B C good g c f L F. unfold IFF_attachToGroup. destruct (as_group g) as [[gt subs]|] eqn:AG; [|intros e w a w' _ E; discriminate E].
  intros e w a w' LE E G. unfold bind at 1 in E. unfold bind at 1.
  assert (SZ : (zlength subs + 1) * sizeof_pointer <= B).
  { destruct g; try discriminate AG; injection AG as <- <-; cbn [slots] in L; unfold sizeof_pointer; [lia|]. pose proof (zlength_nonneg _ props). lia. }
  unfold bind, malloc in *. cbn [capped malloc_ok]. unfold size_t_bits in *. cbn [capped lp64].
  rewrite (proj2 (Z.leb_le _ _) SZ), andb_true_r. destruct (_ && _); [|discriminate E]. cbn [ret] in *. apply (F _) with (e := e); try assumption.
  destruct g; try discriminate AG; injection AG as <- <-; cbn [slots set_subs]; rewrite zlength_snoc; lia.
Qed.
Lemma addProp_needs : forall A B C good g c (f : chunk -> M A), 8 * (slots g + 1) <= B ->
  (forall g', slots g' = slots g + 1 -> Needs B C good (f g')) -> Needs B C good (bind (addPropToList g c) f).
Proof.
  intros A B C good g c f L F. unfold addPropToList. destruct g as [i s d|i s g subs|i s g props subs|i s v]; try (intros e w a w' _ E; discriminate E).
  intros e w a w' LE E G. cbn [slots] in *.
  assert (SZ : (zlength props + 1) * sizeof_pointer <= B).
  { unfold sizeof_pointer. pose proof (zlength_nonneg _ subs). lia. }
  unfold bind, malloc in *. cbn [capped malloc_ok]. unfold size_t_bits in *. cbn [capped lp64].
  rewrite (proj2 (Z.leb_le _ _) SZ), andb_true_r. destruct (_ && _); [|discriminate E]. cbn [ret] in *. apply (F _) with (e := e); try assumption.
  cbn [slots]. rewrite zlength_snoc. lia.
Qed.
Lemma slots_nonneg : forall c, 0 <= slots c.
Proof. intros [i s d|i s g subs|i s g props subs|i s v]; cbn [slots]; try lia; pose proof (zlength_nonneg _ subs); try lia. pose proof (zlength_nonneg _ props). lia. Qed.

(** a program that needs some input has some *)
Lemma Needs_some : forall A B C good (m : M A), (0 <= C -> Needs B C good m) -> Needs B C good m.
Proof. intros A B C good m K e w a w' L. apply K; [lia|exact L]. Qed.

Lemma Needs_assoc : forall A A1 A2 B C good (m : M A) (f : A -> M A1) (g : A1 -> M A2),
  Needs B C good (bind m (fun a => bind (f a) g)) -> Needs B C good (bind (bind m f) g).
Proof. intros A A1 A2 B C good m f g K e w a w' L E G. specialize (K e w a w' L). unfold bind in *. destruct (m (capped B e) w) as [[x y]|u|]; destruct (m e w) as [[x2 y2]|u2|]; auto. Qed.
(** the host is known from the start *)
Lemma Needs_from : forall e A A1 B C good (f : env -> M A) (g : A -> M A1), f (capped B e) = f e ->
  Needs B C good (bind (f e) g) -> forall w a w', Z.of_nat (left w) <= C ->
  bind (bind ask f) g e w = Done (a, w') -> good a = true -> bind (bind ask f) g (capped B e) w = Done (a, w').
Proof. intros e A A1 B C good f g S K w a w' L E G. specialize (K e w a w' L E G). unfold bind, ask in *. rewrite S. exact K. Qed.

Section Capped.
  Variable rc : Z -> M (option chunk).
  Variable B : Z.
  Hypothesis B64 : 64 <= B.
  Hypothesis RC : forall C ft, C <= B -> Needs B C is_some (rc ft).
  Hypothesis RE : forall ft, Eats O (ochunk 8) (rc ft).

  Lemma group_loop_needs : forall f g gt bp C, 8 * slots g + C <= B -> Needs B C okay (readGroupSubChunks rc f g gt bp).
  Proof.
    induction f as [|f IH]; intros g gt bp C L; cbn [readGroupSubChunks]; destruct (bp <? chunkSize g); try (intros e w a w' _ E; discriminate E).
    1,3: apply Needs_agree; destruct (_ <? _); agree; apply warning_agree.
    eapply Needs_bind; [apply RC; pose proof (slots_nonneg g); lia|apply RE| |].
    - intros [c|] G; [|discriminate G]. cbn [ochunk]. apply Needs_some. intro P. apply attach_needs; [lia|]. intros g' SG.
      apply Needs_then; [agree|apply Eats_lift, increment_fuel|]. intro b2. apply IH. lia.
    - intros [c|] G; [discriminate G|]. apply Dud_ret. reflexivity.
  Qed.
  Lemma list_loop_needs : forall f g gt bp C, 8 * slots g + C <= B -> Needs B C okay (readListSubChunks rc f g gt bp).
  Proof.
    induction f as [|f IH]; intros g gt bp C L; cbn [readListSubChunks]; destruct (bp <? chunkSize g); try (intros e w a w' _ E; discriminate E).
    1,3: apply Needs_agree; destruct (_ <? _); agree; apply warning_agree.
    eapply Needs_bind; [apply RC; pose proof (slots_nonneg g); lia|apply RE| |].
    - intros [c|] G; [|discriminate G]. cbn [ochunk]. apply Needs_some. intro P.
      assert (K : forall g', slots g' = slots g + 1 -> Needs B (C - Z.of_nat 8) okay (bind (lift (IFF_incrementChunkSize bp c)) (fun bp0 => readListSubChunks rc f g' gt bp0))).
      { intros g' SG. apply Needs_then; [agree|apply Eats_lift, increment_fuel|]. intro b2. apply IH. lia. }
      destruct (chunkId c =? IFF_ID_PROP); [apply addProp_needs|apply attach_needs]; try exact K; lia.
    - intros [c|] G; [discriminate G|]. apply Dud_ret. reflexivity.
  Qed.
  Lemma readGroup_needs : forall f c s C, 8 * slots c + C <= B -> Needs B C okay (IFF_readGroup rc f c s 0).
  Proof.
    intros f c s C L. unfold IFF_readGroup. destruct (as_group c) as [x|] eqn:AG; [|intros e w a w' _ E; discriminate E].
    apply Needs_then; [apply readField_agree|apply readField_eats|]. intros [[st o] b2].
    destruct st, o; try solve [apply Needs_agree; agree]. apply group_loop_needs. destruct c; try discriminate AG; exact L.
  Qed.
  Lemma readList_needs : forall f c C, 8 * slots c + C <= B -> Needs B C okay (IFF_readList rc f c 0).
  Proof.
    intros f c C L. unfold IFF_readList. destruct c as [i s d|i s g subs|i s g props subs|i s v]; try (intros e w a w' _ E; discriminate E).
    apply Needs_then; [apply readField_agree|apply readField_eats|]. intros [[st o] b2].
    destruct st, o; try solve [apply Needs_agree; agree].
    eapply Needs_bind with (g1 := okay) (k := zero) (n := O); [apply list_loop_needs; exact L| | |].
    - apply list_loop_eats with (n := O); [exact RE|lia|lia].
    - intros [[[|] l2] b3] G; [|discriminate G]. apply Needs_agree. agree.
    - intros [[[|] l2] b3] G; [discriminate G|]. apply Dud_bind. intro. apply Dud_ret. reflexivity.
  Qed.

  (** the end of readChunkBody *)
  Definition finish (rg : option registry) (s ft : Z) (r : bool * chunk * Z) : M (option chunk) :=
    match r with
    | (ok, c1, bp) =>
        ok3 <- andM (ret ok) (andM (IFF_skipUnknownBytes (chunkId c1) s bp) (IFF_readPaddingByte s (chunkId c1))) ;;
        if ok3 then ret (Some c1) else lift (IFF_freeChunk rg c1 ft) ;;; ret None
    end.
  Lemma finish_agrees : forall rg s ft r, Agree (finish rg s ft r).
  Proof. intros rg s ft [[ok c1] bp]. cbn [finish]. apply Agree_bind; [apply finish_agree|]. intros [|]; agree. Qed.
  Lemma finish_dud : forall rg s ft r, okay r = false -> Dud is_some (finish rg s ft r).
  Proof.
    intros rg s ft [[ok c1] bp] G. cbn in G. subst ok. cbn [finish]. unfold andM. intros e w a w' E. unfold bind, ret, lift in E.
    destruct (IFF_freeChunk rg c1 ft); [|discriminate E|discriminate E]. injection E as <- _. reflexivity.
  Qed.

  Lemma body_needs : forall rg f i s ft C, C <= B -> Needs B C is_some (readChunkBody rc rg f i s ft).
  Proof.
    intros rg f i s ft C LC. unfold readChunkBody.
    apply Needs_then; [agree|apply Eats_lift, find_handler_fuel|]. intro h.
    change (Needs B C is_some (oc <- createExtensionChunk h i s ;;
      match oc with None => ret None | Some c => r <- readExtensionChunkFields rc f h c 0 ;; finish rg s ft r end)).
    assert (K : forall c, (forall X, X <= B -> Needs B X okay (readExtensionChunkFields rc f h c 0)) ->
      Needs B C is_some (r <- readExtensionChunkFields rc f h c 0 ;; finish rg s ft r)).
    { intros c N. eapply Needs_bind with (g1 := okay) (k := zero) (n := O); [apply N, LC|apply body_fields_eats with (n := O); [exact RE|lia|lia]| |].
      - intros r _. apply Needs_agree, finish_agrees.
      - intros r G. apply finish_dud, G. }
    assert (NONE : Needs B C is_some (ret (@None chunk))) by (apply Needs_agree; agree).
    destruct h; cbn [createExtensionChunk readExtensionChunkFields] in *.
    1,2,4: unfold IFF_createUnparsedGroup, IFF_createGroup; apply Needs_assoc, Needs_malloc;
      [unfold sizeof_Group; lia
      |intros [];
        [apply K; intros X LX; apply readGroup_needs; cbn [slots]; change (zlength (@nil chunk)) with 0; lia
        |exact NONE]].
    - unfold IFF_createUnparsedList, IFF_createList. apply Needs_assoc, Needs_malloc; [unfold sizeof_List; lia|]. intros []; [|exact NONE].
      apply K. intros X LX. apply readList_needs. cbn [slots]. change (zlength (@nil chunk)) with 0. lia.
    - unfold IFF_createRawChunk. intros e. pose (n := wrap_u (size_t_bits e) s).
      destruct (Z_le_gt_dec n B) as [SM|BIG].
      + apply (Needs_from e); [reflexivity|]. apply Needs_assoc, Needs_malloc; [unfold sizeof_RawChunk; lia|]. intros []; [|exact NONE].
        apply Needs_assoc, Needs_malloc; [exact SM|]. intros []; [|exact NONE]. apply K. intros X LX. apply Needs_agree, raw_agree.
      + intros w a w' LE E G. exfalso. unfold bind, ask, malloc, ret in E. destruct (_ && _) in E; [|injection E as <- _; discriminate G].
        destruct (_ && _) in E; [|injection E as <- _; discriminate G].
        unfold IFF_readRawChunk, bind, ask, fread in E. fold n in E.
        assert (SHORT : zlength (ztake n (r_rest (w_in w))) <? n = true).
        { apply Z.ltb_lt. pose proof (ztake_zdrop_length _ n (r_rest (w_in w))). unfold zlength, left in *. lia. }
        cbn [w_in r_rest] in E. rewrite SHORT in E. unfold IFF_error in E. rewrite run_errorId in E. unfold ret in E.
        match type of E with finish _ _ _ ?r _ _ = _ => rewrite (finish_dud rg s ft r eq_refl _ _ _ _ E) in G end. discriminate G.
    - unfold create_fields. apply Needs_assoc, Needs_malloc; [unfold sizeof_Fields; lia|]. intros []; [|exact NONE].
      apply K. intros X LX. apply Needs_agree. unfold read_fields_chunk. cbn. agree. apply read_fields_agree.
  Qed.
End Capped.

Theorem readChunk_needs : forall rg B, 64 <= B -> forall fuel C ft, C <= B -> Needs B C is_some (IFF_readChunk rg fuel ft).
Proof.
  intros rg B B64. induction fuel as [|f IH]; intros C ft LC; cbn [IFF_readChunk]; [intros e w a w' _ E; discriminate E|].
  change (IFF_readId ID_EMPTY "") with (read_prim FId ID_EMPTY "").
  assert (EZ : forall k i s, Eats O zero (read_prim k i s)) by (intros; eapply Eats_weaken; [apply read_prim_eats|apply le_n|unfold zero; intro; lia]).
  apply Needs_then; [apply read_prim_agree|apply EZ|]. intros [i|]; [|apply Needs_agree; agree].
  change (IFF_readLong i "chunkSize") with (read_prim FLong i "chunkSize").
  apply Needs_then; [apply read_prim_agree|apply EZ|]. intros [s|]; [|apply Needs_agree; agree].
  apply body_needs; try assumption. intro ft'. eapply Eats_weaken; [apply readChunk_eats|lia|intro; lia].
Qed.

(** a file of at most [B] bytes that is read is read just as well when no
    request for more than [B] (and 64) bytes is granted *)
Theorem readFd_capped : forall rg e w c w' B, 64 <= B -> Z.of_nat (left w) <= B ->
  IFF_readFd rg e w = Done (Some c, w') -> IFF_readFd rg (capped B e) w = Done (Some c, w').
Proof.
  intros rg e w c w' B B64 LB E. unfold IFF_readFd in *. fold (left w) in *.
  unfold bind at 1 in E. unfold bind at 1.
  destruct (IFF_readChunk (selectChunkRegistry rg) (S (left w)) 0 e w) as [[[c1|] w1]|u|] eqn:X; [| |discriminate E|discriminate E].
  - rewrite (readChunk_needs _ B B64 _ B 0 ltac:(lia) _ _ _ _ LB X eq_refl). rewrite <- E.
    assert (K : Agree (ob <- fgetc ;;
      match ob with
      | None => ret (Some c1)
      | Some b => IFF_error ("WARNING: Trailing IFF contents found: " ++ dec (b2z b) ++ "!" ++ nl)%string ;;; ret (Some c1)
      end)) by agree.
    apply K.
  - unfold bind, IFF_error, ret in E. discriminate E.
Qed.
