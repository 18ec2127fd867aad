(** * What can go wrong in an operation on a tree of the right C types, whatever
    its sizes and data *)

From Coq Require Import ZArith List Bool String Lia.
From Coq Require Import Strings.Byte.
From Verif Require Import Machine Io Types Build Write Check Compare Print Iff Spec UseSpec Lemmas IoProofs RegProofs WriteProofs SoundProofs ReadProofs CheckProofs.
Import ListNotations.
Open Scope Z_scope.

(** The only undefined behaviours of [m] on the host [e] are those in [bad]. *)
Definition Only (bad : ub -> Prop) {A} (e : env) (m : M A) : Prop := forall w,
  match m e w with Done _ => True | Undefined u => bad u | OutOfFuel => False end.
Definition onlyo (bad : ub -> Prop) {A} (o : outcome A) : Prop :=
  match o with Done _ => True | Undefined u => bad u | OutOfFuel => False end.

Lemma Only_bind : forall bad A B e (m : M A) (f : A -> M B), Only bad e m -> (forall a, Only bad e (f a)) -> Only bad e (bind m f).
Proof. intros bad A B e m f K F w. unfold bind. specialize (K w). destruct (m e w) as [[a w1]|u|]; [apply F|exact K|exact K]. Qed.
Lemma Only_ret : forall bad A e (a : A), Only bad e (ret a).
Proof. intros bad A e a w. exact I. Qed.
Lemma Only_undefined : forall (bad : ub -> Prop) A e u, bad u -> Only bad e (@undefined A u).
Proof. intros bad A e u b w. exact b. Qed.
Lemma Only_error : forall bad e s, Only bad e (IFF_error s).
Proof. intros bad e s w. exact I. Qed.
Lemma Only_errorId : forall bad e i, Only bad e (IFF_errorId i).
Proof. intros bad e i w. rewrite run_errorId. exact I. Qed.
Lemma Only_ask : forall bad B e (f : env -> M B), Only bad e (f e) -> Only bad e (bind ask f).
Proof. intros bad B e f F w. exact (F w). Qed.
Lemma Only_fwrite : forall bad e l, Only bad e (fwrite l).
Proof. intros bad e l w. unfold fwrite. destruct (put_bytes l (w_out w)). exact I. Qed.
Lemma Only_lift : forall bad A e (o : outcome A), onlyo bad o -> Only bad e (lift o).
Proof. intros bad A e o K w. unfold lift. destruct o; [exact I|exact K|exact K]. Qed.
Lemma Only_and : forall bad e m n, Only bad e m -> Only bad e n -> Only bad e (andM m n).
Proof. intros bad e m n P Q. apply Only_bind; [exact P|]. intros []; [exact Q|apply Only_ret]. Qed.
Lemma Only_weaken : forall (bad bad' : ub -> Prop) A e (m : M A), Only bad e m -> (forall u, bad u -> bad' u) -> Only bad' e m.
Proof. intros bad bad' A e m K W w. specialize (K w). destruct (m e w) as [[a w1]|u|]; [exact I|exact (W _ K)|exact K]. Qed.
Lemma onlyo_bind : forall bad A B (o : outcome A) (f : A -> outcome B), onlyo bad o -> (forall a, onlyo bad (f a)) -> onlyo bad (obind o f).
Proof. intros bad A B o f K F. destruct o; [apply F|exact K|exact K]. Qed.
Lemma onlyo_weaken : forall (bad bad' : ub -> Prop) A (o : outcome A), onlyo bad o -> (forall u, bad u -> bad' u) -> onlyo bad' o.
Proof. intros bad bad' A o K W. destruct o; [exact I|exact (W _ K)|exact K]. Qed.
Lemma only_increment : forall (bad : ub -> Prop) z c, bad UB_signed_overflow -> onlyo bad (IFF_incrementChunkSize z c).
Proof. intros bad z c b. unfold IFF_incrementChunkSize. destruct (_ <? _); [exact b|]. cbv zeta. destruct (c_odd _); [|exact I]. destruct (_ =? _); [exact b|exact I]. Qed.
Lemma only_add : forall (bad : ub -> Prop) a b, bad UB_signed_overflow -> onlyo bad (add_int a b).
Proof. intros bad a b o. unfold add_int. destruct (_ || _); [exact o|exact I]. Qed.

Ltac onlys := repeat (cbv beta zeta; match goal with
  | |- Only _ _ (ret _) => apply Only_ret
  | |- Only _ _ (IFF_error _) => apply Only_error
  | |- Only _ _ (IFF_errorId _) => apply Only_errorId
  | |- Only _ _ (fwrite _) => apply Only_fwrite
  | |- Only _ _ (fputc _) => apply Only_fwrite
  | |- Only _ _ (bind ask _) => apply Only_ask
  | |- Only _ _ (bind _ _) => apply Only_bind; [|intro]
  | |- Only _ _ (andM _ _) => apply Only_and
  | |- Only _ _ (if ?b then _ else _) => destruct b eqn:?
  | |- Only _ _ (match ?x with _ => _ end) => destruct x eqn:?
  | |- Only _ _ (lift (IFF_incrementChunkSize _ _)) => apply Only_lift, only_increment
  | |- Only _ _ (lift (add_int _ _)) => apply Only_lift, only_add
  end).

(** ** Writing *)

Lemma write_prim_only : forall bad k v i s e, strict_c e = false -> Only bad e (write_prim k v i s).
Proof.
  intros bad k v i s e NS. destruct k; cbn [write_prim];
    unfold IFF_writeUByte, IFF_writeUWord, IFF_writeWord, IFF_writeULong, IFF_writeLong, IFF_writeId, IFF_writeULong, IFF_writeError, swap_long;
    rewrite ?NS; cbn [andb]; onlys; rewrite ?NS in *; cbn [andb] in *; try discriminate; onlys.
Qed.

Lemma writeField_only : forall bad k v i s a bp e, strict_c e = false -> Only bad e (IFF_writeField k v i s a bp).
Proof. intros bad k v i s a bp e NS. unfold IFF_writeField. onlys. apply write_prim_only, NS. Qed.
Lemma write_fields_only : forall bad ds vals i s bp e, strict_c e = false -> Only bad e (write_fields ds vals i s bp).
Proof.
  intros bad ds. induction ds as [|d ds IH]; intros vals i s bp e NS; cbn [write_fields]; [apply Only_ret|].
  destruct vals as [|[k v] vals]; [apply Only_ret|]. apply Only_bind; [apply writeField_only, NS|]. intros [[] b]; try apply Only_ret. apply IH, NS.
Qed.

(** a failed allocation of [n] bytes, for [n] an int *)
Lemma malloc_small : forall bad e n B (f : bool -> M B), 0 < n <= INT_MAX -> Only bad e (f true) -> (small_failure e -> Only bad e (f false)) ->
  Only bad e (bind (malloc n) f).
Proof.
  intros bad e n B f L T F w. unfold bind, malloc. assert (S1 : n <? 2 ^ (size_t_bits e - 1) = true).
  { apply Z.ltb_lt. pose proof (half_size_t e). change INT_MAX with (2 ^ 31 - 1) in L. lia. }
  rewrite S1. cbn [andb]. destruct (malloc_ok e (w_allocs w) n) eqn:M; [apply T|]. apply F. exists (w_allocs w), n. auto.
Qed.
Lemma filler_only : forall (bad : ub -> Prop) i s bp e, strict_c e = false -> bad UB_signed_overflow \/ s - bp <= INT_MAX -> (small_failure e -> bad UB_null_deref) ->
  Only bad e (IFF_writeZeroFillerBytes i s bp).
Proof.
  intros bad i s bp e NS O N. unfold IFF_writeZeroFillerBytes. destruct (bp <? s) eqn:L; [|apply Only_ret]. apply Z.ltb_lt in L. cbv zeta.
  destruct (INT_MAX <? s - bp) eqn:K; [apply Z.ltb_lt in K; apply Only_undefined; destruct O as [O|O]; [exact O|lia]|]. apply Z.ltb_ge in K.
  apply malloc_small; [lia| |intro SF; apply Only_undefined, N, SF]. cbn [negb]. onlys. rewrite NS in *. discriminate.
Qed.
Lemma pad_only : forall bad s i e, Only bad e (IFF_writePaddingByte s i).
Proof. intros. unfold IFF_writePaddingByte. onlys. Qed.

Lemma block_bytes_only : forall (bad : ub -> Prop) d n, (0 < n -> zlength (data_of d) < n -> forall u, data_ub u -> bad u) -> onlyo bad (block_bytes d n).
Proof.
  intros bad d n K. unfold block_bytes. destruct (n <=? 0) eqn:L; [exact I|]. apply Z.leb_gt in L. destruct d as [l|].
  - destruct (zlength l <? n) eqn:Z; [|exact I]. apply Z.ltb_lt in Z. apply (K L Z). right. reflexivity.
  - apply (K L L). left. reflexivity.
Qed.
Lemma wrap_small : forall e s, 0 <= s <= INT_MAX -> wrap_u (size_t_bits e) s = s.
Proof. intros e s L. unfold wrap_u. apply Z.mod_small. pose proof (half_size_t e). change INT_MAX with (2 ^ 31 - 1) in L. assert (2 ^ (size_t_bits e - 1) < 2 ^ size_t_bits e) by (apply Z.pow_lt_mono_r; unfold size_t_bits; destruct (lp64 e); lia). lia. Qed.


(** ** Results as well *)
Definition OnlyQ (bad : ub -> Prop) {A} (e : env) (m : M A) (Q : A -> Prop) : Prop := forall w,
  match m e w with Done (a, _) => Q a | Undefined u => bad u | OutOfFuel => False end.
Lemma Q_of : forall bad A e (m : M A), Only bad e m -> OnlyQ bad e m (fun _ => True).
Proof. intros bad A e m K w. specialize (K w). destruct (m e w) as [[a w1]|u|]; [exact I|exact K|exact K]. Qed.
Lemma of_Q : forall bad A e (m : M A) Q, OnlyQ bad e m Q -> Only bad e m.
Proof. intros bad A e m Q K w. specialize (K w). destruct (m e w) as [[a w1]|u|]; [exact I|exact K|exact K]. Qed.
Lemma Q_bind : forall bad A B e (m : M A) (f : A -> M B) P Q, OnlyQ bad e m P -> (forall a, P a -> OnlyQ bad e (f a) Q) -> OnlyQ bad e (bind m f) Q.
Proof. intros bad A B e m f P Q K F w. unfold bind. specialize (K w). destruct (m e w) as [[a w1]|u|]; [apply F, K|exact K|exact K]. Qed.
Lemma Q_then : forall bad A B e (m : M A) (f : A -> M B) P, OnlyQ bad e m P -> (forall a, P a -> Only bad e (f a)) -> Only bad e (bind m f).
Proof. intros bad A B e m f P K F. apply of_Q with (fun _ => True). apply Q_bind with P; [exact K|]. intros a pa. apply Q_of, F, pa. Qed.
Lemma Q_ret : forall bad A e (a : A) (Q : A -> Prop), Q a -> OnlyQ bad e (ret a) Q.
Proof. intros bad A e a Q q w. exact q. Qed.
Lemma Q_any : forall bad A B e (m : M A) (f : A -> M B) Q, Only bad e m -> (forall a, OnlyQ bad e (f a) Q) -> OnlyQ bad e (bind m f) Q.
Proof. intros bad A B e m f Q K F. apply Q_bind with (fun _ => True); [apply Q_of, K|]. intros a _. apply F. Qed.
Lemma Q_weaken : forall bad A e (m : M A) (P Q : A -> Prop), OnlyQ bad e m P -> (forall a, P a -> Q a) -> OnlyQ bad e m Q.
Proof. intros bad A e m P Q K W w. specialize (K w). destruct (m e w) as [[a w1]|u|]; [apply W, K|exact K|exact K]. Qed.
Lemma Q_undefined : forall (bad : ub -> Prop) A e u Q, bad u -> OnlyQ bad e (@undefined A u) Q.
Proof. intros bad A e u Q b w. exact b. Qed.

(** ** Sizes *)
Lemma sizes_dec : forall l, (forall c, In c l -> int_size c) \/ exists c, In c l /\ ~ int_size c.
Proof.
  induction l as [|c l [IH|(x & X & Y)]]; [left; contradiction| |right; exists x; split; [right; exact X|exact Y]].
  unfold int_size in *. destruct (Z_le_dec 0 (chunkSize c)); [destruct (Z_le_dec (chunkSize c) INT_MAX)|].
  - left. intros x [<-|X]; [lia|apply IH, X].
  - right. exists c. split; [left; reflexivity|lia].
  - right. exists c. split; [left; reflexivity|lia].
Qed.
Lemma body_size_ge : forall l, (forall c, In c l -> int_size c) -> 0 <= body_size l.
Proof. intros l K. apply body_size_nonneg. intros c I. apply K, I. Qed.

(** what is needed to add the members [l] to [acc] without overflow *)
Definition Room (acc : Z) (l : list chunk) : Prop := (forall c, In c l -> int_size c) /\ 0 <= acc /\ acc + body_size l <= INT_MAX.
Lemma Room_step : forall acc c l, Room acc (c :: l) -> IFF_incrementChunkSize acc c = Done (acc + physical (chunkSize c)) /\ Room (acc + physical (chunkSize c)) l.
Proof.
  intros acc c l (K & A & B). rewrite body_size_cons in B. pose proof (physical_range (chunkSize c)). pose proof (K c (or_introl eq_refl)) as S1. unfold int_size in S1.
  assert (0 <= body_size l) by (apply body_size_ge; intros; apply K; right; assumption).
  split; [apply increment_ok; unfold INT_MIN; lia|]. split; [intros; apply K; right; assumption|split; lia].
Qed.
Lemma group_room : forall (bad : ub -> Prop) i s g l, (Large (CGroup i s g l) -> bad UB_signed_overflow) ->
  bad UB_signed_overflow \/ (0 <= s <= INT_MAX /\ Room 4 l).
Proof.
  intros bad i s g l O. destruct (sizes_dec l) as [D|(c & I & N)].
  - destruct (Z_le_dec 0 s); [destruct (Z_le_dec s INT_MAX); [destruct (Z_le_dec (4 + body_size l) INT_MAX)|]|].
    + right. unfold Room. auto with zarith.
    + left. apply O. exists (CGroup i s g l). split; [constructor|right; cbn [body_of]; lia].
    + left. apply O. exists (CGroup i s g l). split; [constructor|left; unfold int_size; cbn [chunkSize]; lia].
    + left. apply O. exists (CGroup i s g l). split; [constructor|left; unfold int_size; cbn [chunkSize]; lia].
  - left. apply O. exists c. split; [eapply In_group; [exact I|constructor]|left; exact N].
Qed.
Lemma list_room : forall (bad : ub -> Prop) i s g p l, (Large (CList i s g p l) -> bad UB_signed_overflow) ->
  bad UB_signed_overflow \/ (0 <= s <= INT_MAX /\ (forall c, In c p -> int_size c) /\ (forall c, In c l -> int_size c) /\ 4 + body_size p + body_size l <= INT_MAX).
Proof.
  intros bad i s g p l O. destruct (sizes_dec l) as [D|(c & I & N)]; [destruct (sizes_dec p) as [D2|(c & I & N)]|].
  - destruct (Z_le_dec 0 s); [destruct (Z_le_dec s INT_MAX); [destruct (Z_le_dec (4 + body_size p + body_size l) INT_MAX)|]|].
    + right. auto with zarith.
    + left. apply O. exists (CList i s g p l). split; [constructor|right; cbn [body_of]; lia].
    + left. apply O. exists (CList i s g p l). split; [constructor|left; unfold int_size; cbn [chunkSize]; lia].
    + left. apply O. exists (CList i s g p l). split; [constructor|left; unfold int_size; cbn [chunkSize]; lia].
  - left. apply O. exists c. split; [eapply In_list_prop; [exact I|constructor]|left; exact N].
  - left. apply O. exists c. split; [eapply In_list_sub; [exact I|constructor]|left; exact N].
Qed.
Lemma leaf_size : forall (bad : ub -> Prop) c, (Large c -> bad UB_signed_overflow) -> bad UB_signed_overflow \/ int_size c.
Proof.
  intros bad c O. unfold int_size. destruct (Z_le_dec 0 (chunkSize c)); [destruct (Z_le_dec (chunkSize c) INT_MAX); [right; auto|]|];
    left; apply O; exists c; (split; [constructor|left; unfold int_size; lia]).
Qed.
Lemma Large_sub : forall x c, Large x -> (forall y, InTree y x -> InTree y c) -> Large c.
Proof. intros x c (y & I & K) S. exists y. split; [apply S, I|exact K]. Qed.
Lemma Short_sub : forall x c, Short x -> (forall y, InTree y x -> InTree y c) -> Short c.
Proof. intros x c (i & s & d & I & K) S. exists i, s, d. split; [apply S, I|exact K]. Qed.

Lemma Typed_PROP : forall app ft ft' c, Typed app ft c -> chunkId c = PROP_ID -> Typed app ft' c.
Proof.
  intros app ft ft' c T P. inversion T as [? i s d G A|? i s spec vals G A KM|? i s g subs I K|? s g props subs KP KS]; subst; cbn [chunkId] in P.
  - subst i. exfalso. apply G. unfold group_ids. simpl. tauto.
  - subst i. exfalso. apply G. unfold group_ids. simpl. tauto.
  - constructor; assumption.
  - constructor; assumption.
Qed.

Section Passes.
  Variables (rg : option registry) (app : apps).
  Hypothesis RG : Realises rg app.

  (** *** Writing *)
  (** a tree of which only what [bad] says can go wrong *)
  Definition Allows (bad : ub -> Prop) (c : chunk) : Prop :=
    (Large c -> bad UB_signed_overflow) /\ (Short c -> forall u, data_ub u -> bad u).
  Lemma Allows_sub : forall bad x c, Allows bad c -> (forall y, InTree y x -> InTree y c) -> Allows bad x.
  Proof. intros bad x c (L & S) K. split; [intro; apply L; eapply Large_sub; eassumption|intro; apply S; eapply Short_sub; eassumption]. Qed.

  Lemma writeField_post : forall bad v i s a e, strict_c e = false ->
    OnlyQ bad e (IFF_writeField FId v i s a 0) (fun r => snd r = match fst r with FIELD_MORE => 4 | _ => 0 end).
  Proof.
    intros bad v i s a e NS. unfold IFF_writeField. intro w. unfold bind at 1, ask. rewrite fit_start.
    pose proof (write_prim_only bad FId v i a e NS w) as K. unfold bind. destruct (write_prim FId v i a e w) as [[[] w1]|u|]; [reflexivity|reflexivity|exact K|exact K].
  Qed.
  Lemma write_all_only : forall (bad : ub -> Prop) e msg l ft bp, bad UB_signed_overflow \/ Room bp l -> (forall c, In c l -> Only bad e (IFF_writeChunk rg c ft)) ->
    OnlyQ bad e (write_all (IFF_writeChunk rg) msg l ft bp) (fun r => bad UB_signed_overflow \/ (0 <= snd r /\ (fst r = true -> snd r = bp + body_size l))).
  Proof.
    intros bad e msg l ft bp O. revert bp O. induction l as [|c l IH]; intros bp O W; cbn [write_all].
    { apply Q_ret. destruct O as [O|(_ & O & _)]; [left; exact O|right]. cbn [fst snd]. split; [exact O|intros _; unfold body_size; cbn; lia]. }
    apply Q_any; [apply W; left; reflexivity|]. intros [].
    - destruct O as [O|O].
      + apply Q_any; [apply Only_lift, only_increment, O|]. intro z. eapply Q_weaken; [apply IH; [left; exact O|intros; apply W; right; assumption]|]. intros; left; exact O.
      + destruct (Room_step _ _ _ O) as (E & R). rewrite E. eapply Q_bind with (P := fun z => z = bp + physical (chunkSize c)); [intro w; reflexivity|].
        intros z ->. eapply Q_weaken; [apply IH; [right; exact R|intros; apply W; right; assumption]|]. intros r [B|(N & B)]; [left; exact B|right]. split; [exact N|].
        intro T. rewrite (B T), body_size_cons. lia.
    - apply Q_any; [apply Only_error|]. intros []. apply Q_ret. destruct O as [O|(_ & O & _)]; [left; exact O|right]. cbn [fst snd]. split; [exact O|discriminate].
  Qed.

  Lemma fields_size_cons : forall k v vals, fields_size ((k, v) :: vals) = fieldSize k + fields_size vals.
  Proof. reflexivity. Qed.
  Lemma fields_size_pos : forall vals, 0 <= fields_size vals.
  Proof. induction vals as [|[k v] vals IH]; [unfold fields_size; cbn; lia|]. rewrite fields_size_cons. pose proof (fieldSize_range k). lia. Qed.
  Lemma write_fields_post : forall (bad : ub -> Prop) ds vals i s bp e, strict_c e = false -> map fst vals = map fd_kind ds -> 0 <= bp -> bp + fields_size vals <= INT_MAX ->
    OnlyQ bad e (write_fields ds vals i s bp) (fun r => 0 <= snd r).
  Proof.
    intros bad ds. induction ds as [|d ds IH]; intros vals i s bp e NS K B L; cbn [write_fields]; [apply Q_ret, B|].
    destruct vals as [|[k v] vals]; [apply Q_ret, B|]. cbn [map fst] in K. injection K as K1 K. rewrite fields_size_cons in L. pose proof (fields_size_pos vals). pose proof (fieldSize_range k).
    apply Q_bind with (P := fun r => snd r = match fst r with FIELD_MORE => bp + fieldSize k | _ => bp end).
    - unfold IFF_writeField. intro w. unfold bind at 1, ask. destruct (fieldDoesNotFitInChunk _ _ _ _); [reflexivity|].
      pose proof (write_prim_only bad (fd_kind d) v i (fd_name d) e NS w) as W. unfold bind. destruct (write_prim (fd_kind d) v i (fd_name d) e w) as [[[] w1]|u|]; [|reflexivity|exact W|exact W].
      cbn [fst snd ret]. unfold increaseBytesProcessed. rewrite <- K1. apply wrap_s_id; [lia|]. change (2 ^ (32 - 1)) with (INT_MAX + 1). lia.
    - intros [[] b]; cbn [fst snd]; intros ->; [|apply Q_ret, B..]. apply IH; [exact NS|exact K|lia|lia].
  Qed.

  Lemma Only_done : forall bad A B e (a : A) (f : A -> M B), Only bad e (f a) -> Only bad e (bind (lift (Done a)) f).
  Proof. intros bad A B e a f K w. exact (K w). Qed.
  Lemma Q_done : forall bad A B e (a : A) (f : A -> M B) Q, OnlyQ bad e (f a) Q -> OnlyQ bad e (bind (lift (Done a)) f) Q.
  Proof. intros bad A B e a f Q K w. exact (K w). Qed.
  Lemma writeId_only : forall bad v i a e, strict_c e = false -> Only bad e (IFF_writeId v i a).
  Proof. intros bad v i a e NS. exact (write_prim_only bad FId v i a e NS). Qed.
  Lemma writeLong_only : forall bad v i a e, strict_c e = false -> Only bad e (IFF_writeLong v i a).
  Proof. intros bad v i a e NS. exact (write_prim_only bad FLong v i a e NS). Qed.

  Lemma write_body_only : forall e (bad : ub -> Prop) c h (Q : bool * Z -> Prop) ft, strict_c e = false -> (small_failure e -> bad UB_null_deref) ->
    find_handler rg ft (chunkId c) = Done h -> OnlyQ bad e (writeExtensionChunkFields (IFF_writeChunk rg) h c 0) Q ->
    (forall bp, Q (true, bp) -> bad UB_signed_overflow \/ chunkSize c - bp <= INT_MAX) -> Only bad e (IFF_writeChunk rg c ft).
  Proof.
    intros e bad c h Q ft NS N HH K F. assert (E : IFF_writeChunk rg c ft = andM (IFF_writeId (chunkId c) (chunkId c) "chunkId")
      (andM (IFF_writeLong (chunkSize c) (chunkId c) "chunkSize") (writeChunkBody (IFF_writeChunk rg) rg c ft))) by (destruct c; reflexivity).
    rewrite E. apply Only_and; [apply writeId_only, NS|]. apply Only_and; [apply writeLong_only, NS|]. unfold writeChunkBody. rewrite HH. apply Only_done.
    apply Q_then with Q; [exact K|]. intros [[] bp] q; [|intro w; exact I].
    apply Only_and; [apply Only_ret|]. apply Only_and; [apply filler_only; [exact NS|apply F, q|exact N]|apply pad_only].
  Qed.

  Theorem write_only : forall e (bad : ub -> Prop), strict_c e = false -> (small_failure e -> bad UB_null_deref) ->
    forall c ft, Typed app ft c -> Allows bad c -> Only bad e (IFF_writeChunk rg c ft).
  Proof.
    intros e bad NS N c. induction c as [i s d|i s g subs IH|i s g props subs IHp IHs|i s vals] using chunk_tree_ind; intros ft T A.
    - inversion T as [? ? ? ? G AN|? ? ? ? ? ? ? ?|? ? ? ? ? ? ?|? ? ? ? ? ? ?]; subst. apply write_body_only with (h := HRaw) (Q := fun r => fst r = true -> snd r = s); [exact NS|exact N| | |].
      + rewrite (RG ft). cbn [chunkId]. rewrite handler_data by exact G. rewrite AN. reflexivity.
      + cbn [writeExtensionChunkFields IFF_writeRawChunk]. intro w. unfold bind at 1, ask. revert w.
        change (OnlyQ bad e (bind (lift (block_bytes d (wrap_u (size_t_bits e) s))) (fun l => ok <- fwrite l ;; if ok then if INT_MAX <? 0 + s then undefined UB_signed_overflow else ret (true, 0 + s) else IFF_error "Error writing raw chunk body of chunk '" ;;; IFF_errorId i ;;; IFF_error ("'" ++ nl)%string ;;; ret (false, 0))) (fun r => fst r = true -> snd r = s)).
        apply Q_any.
        { apply Only_lift, block_bytes_only. intros P Z u U. apply (proj2 A); [|exact U]. exists i, s, d. split; [constructor|]. unfold short_raw.
          destruct (Z_lt_dec s 0) as [L|L]; [left; exact L|right]. unfold wrap_u in Z. assert (s mod 2 ^ size_t_bits e <= s) by (apply Z.mod_le; [lia|apply Z.pow_pos_nonneg; [lia|pose proof (size_t_big e); lia]]). lia. }
        intro l. apply Q_any; [apply Only_fwrite|]. intros [].
        * destruct (INT_MAX <? 0 + s) eqn:L; [|apply Q_ret; intros _; cbn [snd]; lia]. apply Q_undefined, (proj1 A). apply Z.ltb_lt in L. exists (CRaw i s d). split; [constructor|left; unfold int_size; cbn [chunkSize]; lia].
        * apply Q_any; [apply Only_error|intros []]. apply Q_any; [apply Only_errorId|intros []]. apply Q_any; [apply Only_error|intros []]. apply Q_ret. discriminate.
      + intros bp q. cbn [fst snd chunkSize] in *. rewrite (q eq_refl). right. unfold INT_MAX. lia.
    - inversion T as [? ? ? ? ? ?|? ? ? ? ? ? ? ?|? ? ? ? ? II K|? ? ? ? ? ? ?]; subst. destruct (WriteProofs.group_handler app ft i II) as (h & EH & IH3).
      assert (GW : forall nm, OnlyQ bad e (IFF_writeGroup (IFF_writeChunk rg) (CGroup i s g subs) nm 0) (fun r => bad UB_signed_overflow \/ 0 <= snd r)).
      { intro nm. cbn [IFF_writeGroup]. eapply Q_bind; [apply writeField_post, NS|]. intros [[] b]; cbn [fst snd]; intros ->; [|apply Q_ret; right; cbn; lia..].
        eapply Q_weaken; [apply write_all_only|intros r [X|(X & _)]; auto].
        - destruct (group_room bad i s g subs (proj1 A)) as [X|(_ & X)]; auto.
        - intros c I. apply IH; [exact I|apply K, I|]. eapply Allows_sub; [exact A|]. intros y Y. eapply In_group; eassumption. }
      apply write_body_only with (h := h) (Q := fun r => bad UB_signed_overflow \/ 0 <= snd r); [exact NS|exact N|rewrite (RG ft); cbn [chunkId]; rewrite EH; reflexivity| |].
      + destruct IH3 as [<-|[<-|[<-|[]]]]; apply GW.
      + intros bp [X|X]; [left; exact X|]. destruct (leaf_size bad _ (proj1 A)) as [Y|Y]; [left; exact Y|right]. unfold int_size in Y. cbn [snd] in X. lia.
    - inversion T as [? ? ? ? ? ?|? ? ? ? ? ? ? ?|? ? ? ? ? II K|? ? ? ? ? KP KS]; subst.
      apply write_body_only with (h := HList) (Q := fun r => bad UB_signed_overflow \/ 0 <= snd r); [exact NS|exact N|rewrite (RG ft); reflexivity| |].
      + cbn [writeExtensionChunkFields IFF_writeList]. eapply Q_bind; [apply writeField_post, NS|]. intros [[] b]; cbn [fst snd]; intros ->; [|apply Q_ret; right; cbn; lia..].
        pose proof (list_room bad LIST_ID s g props subs (proj1 A)) as R.
        eapply Q_bind; [apply write_all_only|].
        * destruct R as [R|(_ & RP & RS & RB)]; [left; exact R|right]. split; [exact RP|]. pose proof (body_size_ge subs RS). lia.
        * intros c I. destruct (KP c I) as (TC & PC). apply IHp; [exact I|eapply Typed_PROP; eassumption|]. eapply Allows_sub; [exact A|]. intros y Y. eapply In_list_prop; eassumption.
        * cbv beta. intros [[] b]; cbn [fst snd]; intro P.
          -- eapply Q_weaken; [apply write_all_only|intros r [X|(X & _)]; auto].
             ++ destruct P as [P|(P0 & P)]; [left; exact P|]. destruct R as [R|(_ & RP & RS & RB)]; [left; exact R|right]. rewrite (P eq_refl) in *. split; [exact RS|lia].
             ++ intros c I. apply IHs; [exact I|apply KS, I|]. eapply Allows_sub; [exact A|]. intros y Y. eapply In_list_sub; eassumption.
          -- apply Q_ret. cbn [snd]. destruct P as [P|(P & _)]; auto.
      + intros bp [X|X]; [left; exact X|]. destruct (leaf_size bad _ (proj1 A)) as [Y|Y]; [left; exact Y|right]. unfold int_size in Y. cbn [snd] in X. lia.
    - inversion T as [? ? ? ? ? ?|? ? ? spec ? G AS KM|? ? ? ? ? II K|? ? ? ? ? ? ?]; subst.
      apply write_body_only with (h := HFields spec) (Q := fun r => bad UB_signed_overflow \/ 0 <= snd r); [exact NS|exact N| | |].
      + rewrite (RG ft). cbn [chunkId]. rewrite handler_data by exact G. rewrite AS. reflexivity.
      + cbn [writeExtensionChunkFields write_fields_chunk]. rewrite (kinds_match_eqb _ _ KM). destruct (Z_le_dec (fields_size vals) INT_MAX) as [L|L].
        * eapply Q_weaken; [apply write_fields_post; [exact NS|exact KM|lia|lia]|]. auto.
        * eapply Q_weaken; [apply Q_of, write_fields_only, NS|]. intros r _. left. apply (proj1 A). exists (CFields i s vals). split; [constructor|right; cbn [body_of]; lia].
      + intros bp [X|X]; [left; exact X|]. destruct (leaf_size bad _ (proj1 A)) as [Y|Y]; [left; exact Y|right]. unfold int_size in Y. cbn [snd] in X. lia.
  Qed.

  (** *** Checking *)
  Lemma checkId_only : forall bad i e, Only bad e (IFF_checkId i).
  Proof.
    intros bad i e. assert (C : forall l, Only bad e (checkIdChars l)) by (induction l as [|x l IH]; cbn [checkIdChars]; onlys; exact IH).
    unfold IFF_checkId. onlys. apply C.
  Qed.
  Lemma checkFormType_only : forall bad i e, Only bad e (IFF_checkFormType i).
  Proof.
    intros bad i e. assert (C : forall l, Only bad e (checkFormTypeChars l)) by (induction l as [|x l IH]; cbn [checkFormTypeChars]; onlys; exact IH).
    unfold IFF_checkFormType. onlys; first [apply checkId_only | apply C].
  Qed.
  Lemma not_allowed_only : forall bad i s e, Only bad e (not_allowed i s).
  Proof. intros. unfold not_allowed. onlys. Qed.
  Lemma groupSize_only : forall bad g s e, Only bad e (IFF_checkGroupChunkSize g s).
  Proof. intros. unfold IFF_checkGroupChunkSize. onlys. Qed.
  Lemma cat_sub_only : forall bad ft grp g l c e, as_group grp = Some (g, l) -> Typed app ft c -> Only bad e (IFF_checkCATSubChunk grp c).
  Proof.
    intros bad ft grp g l c e AG T. unfold IFF_checkCATSubChunk. rewrite AG. destruct (checkValidCATSubChunkId (chunkId c)) eqn:V; cbn [negb]; [|apply not_allowed_only].
    apply valid_cat_id in V. destruct (Typed_group_type app ft c T) as (g2 & l2 & A2 & G2); [unfold group_ids; simpl in *; tauto|]. rewrite A2. onlys.
  Qed.
  Lemma form_sub_only : forall bad g c e, Only bad e (form_subChunkCheck g c).
  Proof. intros. unfold form_subChunkCheck. onlys. apply not_allowed_only. Qed.
  Lemma prop_sub_only : forall bad g c e, Only bad e (prop_subChunkCheck g c).
  Proof. intros. unfold prop_subChunkCheck. onlys. apply not_allowed_only. Qed.

  Lemma check_subs_only : forall (bad : ub -> Prop) e sub l ft acc, bad UB_signed_overflow \/ Room acc l -> (forall c, In c l -> Only bad e (sub c)) ->
    (forall c, In c l -> Only bad e (IFF_checkChunk rg c ft)) ->
    OnlyQ bad e (check_subs (IFF_checkChunk rg) sub l ft acc) (fun z => bad UB_signed_overflow \/ z = -1 \/ z = acc + body_size l).
  Proof.
    intros bad e sub l ft acc O. revert acc O. induction l as [|c l IH]; intros acc O S W; cbn [check_subs].
    { apply Q_ret. right. right. unfold body_size. cbn. lia. }
    apply Q_any; [apply S; left; reflexivity|]. intros []; cbn [negb]; [|apply Q_ret; auto].
    apply Q_any; [apply W; left; reflexivity|]. intros []; cbn [negb]; [|apply Q_ret; auto]. destruct O as [O|O].
    - apply Q_any; [apply Only_lift, only_increment, O|]. intro z. eapply Q_weaken; [apply IH; [left; exact O|intros; apply S; right; assumption|intros; apply W; right; assumption]|]. auto.
    - destruct (Room_step _ _ _ O) as (E & R). rewrite E. apply Q_done. eapply Q_weaken; [apply IH; [right; exact R|intros; apply S; right; assumption|intros; apply W; right; assumption]|].
      cbv beta. rewrite body_size_cons. intros z [Z|[Z|Z]]; [auto..|]. right. right. lia.
  Qed.

  Theorem check_only : forall e (bad : ub -> Prop) c ft, Typed app ft c -> (Large c -> bad UB_signed_overflow) -> Only bad e (IFF_checkChunk rg c ft).
  Proof.
    intros e bad c. induction c as [i s d|i s g subs IH|i s g props subs IHp IHs|i s vals] using chunk_tree_ind; intros ft T A; cbn [IFF_checkChunk];
      (apply Only_bind; [apply checkId_only|intros []; cbn [negb]; [|apply Only_ret]]); rewrite (RG ft); cbn [chunkId].
    - inversion T as [? ? ? ? G AN|? ? ? ? ? ? ? ?|? ? ? ? ? ? ?|? ? ? ? ? ? ?]; subst. rewrite handler_data by exact G. rewrite AN. apply Only_done, Only_ret.
    - inversion T as [? ? ? ? ? ?|? ? ? ? ? ? ? ?|? ? ? ? ? II K|? ? ? ? ? ? ?]; subst.
      assert (GC : forall tc sc, (forall g, Only bad e (tc g)) -> (forall c, In c subs -> Only bad e (sc (CGroup i s g subs) c)) -> Only bad e (IFF_checkGroup (IFF_checkChunk rg) tc sc (CGroup i s g subs))).
      { intros tc sc TC SC. cbn [IFF_checkGroup]. apply Only_bind; [apply TC|]. intros []; cbn [negb]; [|apply Only_ret]. pose proof (group_room bad i s g subs A) as R.
        eapply Q_then; [apply check_subs_only; [|exact SC|]|].
        - destruct R as [R|(_ & RS & RA & RB)]; [left; exact R|right]. split; [exact RS|lia].
        - intros c I. apply IH; [exact I|apply K, I|]. intro L. apply A. eapply Large_sub; [exact L|]. intros y Y. eapply In_group; eassumption.
        - cbv beta. intros z Z. destruct (z =? -1) eqn:M1; [apply Only_ret|]. apply Z.eqb_neq in M1. destruct R as [R|(_ & RS & RA & RB)].
          + apply Only_bind; [apply Only_lift, only_add, R|intro; apply groupSize_only].
          + destruct Z as [Z|[Z|Z]]; [apply Only_bind; [apply Only_lift, only_add, Z|intro; apply groupSize_only]|contradiction|]. pose proof (body_size_ge subs RS).
            rewrite add_int_ok by (unfold IFF_ID_SIZE, INT_MIN; lia). apply Only_done, groupSize_only. }
      destruct II as [<-|[<-|[<-|[]]]]; [rewrite handler_FORM|rewrite handler_CAT|rewrite handler_PROP]; apply Only_done; cbn [checkExtensionChunk].
      + apply GC; [intro; apply checkFormType_only|intros; apply form_sub_only].
      + apply GC; [intro; apply checkId_only|intros c I; eapply cat_sub_only; [reflexivity|apply K, I]].
      + apply GC; [intro; apply checkFormType_only|intros; apply prop_sub_only].
    - inversion T as [? ? ? ? ? ?|? ? ? ? ? ? ? ?|? ? ? ? ? II K|? ? ? ? ? KP KS]; subst. rewrite handler_LIST. apply Only_done. cbn [checkExtensionChunk IFF_checkList].
      apply Only_bind; [apply checkId_only|]. intros []; cbn [negb]; [|apply Only_ret]. pose proof (list_room bad LIST_ID s g props subs A) as R.
      assert (RP : bad UB_signed_overflow \/ Room 0 props). { destruct R as [R|(_ & RP & RS & RB)]; [left; exact R|right]. pose proof (body_size_ge subs RS). split; [exact RP|lia]. }
      assert (RS : bad UB_signed_overflow \/ Room 0 subs). { destruct R as [R|(_ & XP & XS & RB)]; [left; exact R|right]. pose proof (body_size_ge props XP). split; [exact XS|lia]. }
      eapply Q_then; [apply check_subs_only; [exact RP|intros; apply Only_ret|]|].
      + intros c I. apply IHp; [exact I|apply KP, I|]. intro L. apply A. eapply Large_sub; [exact L|]. intros y Y. eapply In_list_prop; eassumption.
      + cbv beta. intros z Z. destruct (z =? -1) eqn:M1; [apply Only_ret|]. apply Z.eqb_neq in M1.
        assert (F : bad UB_signed_overflow \/ (0 <= z /\ 4 + z + body_size subs <= INT_MAX /\ 0 <= body_size subs)).
        { destruct R as [R|(_ & XP & XS & RB)]; [left; exact R|]. destruct Z as [Z|[Z|Z]]; [left; exact Z|contradiction|right]. pose proof (body_size_ge props XP). pose proof (body_size_ge subs XS). lia. }
        apply Q_then with (P := fun x => bad UB_signed_overflow \/ x = 4 + z).
        * destruct F as [F|F]; [eapply Q_weaken; [apply Q_of, Only_lift, only_add, F|auto]|]. rewrite add_int_ok by (unfold IFF_ID_SIZE, INT_MIN; lia). intro w. right. reflexivity.
        * intros x X. eapply Q_then; [apply check_subs_only; [exact RS|intros c I; eapply cat_sub_only; [reflexivity|apply KS, I]|]|].
          -- intros c I. apply IHs; [exact I|apply KS, I|]. intro L. apply A. eapply Large_sub; [exact L|]. intros y Y. eapply In_list_sub; eassumption.
          -- cbv beta. intros z2 Z2. destruct (z2 =? -1) eqn:M2; [apply Only_ret|]. apply Z.eqb_neq in M2.
             apply Only_bind; [|intro; apply groupSize_only]. apply Only_lift. destruct F as [F|F]; [apply only_add, F|]. destruct X as [X|X]; [apply only_add, X|]. destruct Z2 as [Z2|[Z2|Z2]]; [apply only_add, Z2|contradiction|].
             rewrite add_int_ok by (unfold IFF_ID_SIZE, INT_MIN; lia). exact I.
    - inversion T as [? ? ? ? ? ?|? ? ? spec ? G AS KM|? ? ? ? ? II K|? ? ? ? ? ? ?]; subst. rewrite handler_data by exact G. rewrite AS. apply Only_done. cbn [checkExtensionChunk check_fields_chunk].
      rewrite (kinds_match_eqb _ _ KM). onlys.
  Qed.

  (** *** Printing *)
  Theorem print_only : forall (bad : ub -> Prop) c ft level, Typed app ft c -> (Short c -> forall u, data_ub u -> bad u) -> onlyo bad (IFF_printChunk rg c level ft).
  Proof.
    intro bad. assert (ALL : forall op l ft level, (forall c, In c l -> forall level, onlyo bad (IFF_printChunk rg c level ft)) -> onlyo bad (print_array (IFF_printChunk rg) op l ft level)).
    { intros op l ft level K. unfold print_array. apply onlyo_bind; [|intro; exact I]. generalize (S level). intro lv. induction l as [|c l IH]; cbn [print_all]; [exact I|].
      apply onlyo_bind; [apply K; left; reflexivity|]. intro t. apply onlyo_bind; [apply IH; intros; apply K; right; assumption|]. intro. exact I. }
    intro c. induction c as [i s d|i s g subs IH|i s g props subs IHp IHs|i s vals] using chunk_tree_ind; intros ft level T A; cbn [IFF_printChunk]; rewrite (RG ft); cbn [chunkId obind];
      (apply onlyo_bind; [|intro; exact I]).
    - inversion T as [? ? ? ? G AN|? ? ? ? ? ? ? ?|? ? ? ? ? ? ?|? ? ? ? ? ? ?]; subst. rewrite handler_data by exact G. rewrite AN. cbn [printExtensionChunk IFF_printRawChunk].
      assert (B : onlyo bad (block_bytes d s)). { apply block_bytes_only. intros P Z u U. apply A; [|exact U]. exists i, s, d. split; [constructor|right; exact Z]. }
      unfold IFF_printText, IFF_printRaw. destruct (i =? IFF_ID_TEXT); (apply onlyo_bind; [exact B|intro; exact I]).
    - inversion T as [? ? ? ? ? ?|? ? ? ? ? ? ? ?|? ? ? ? ? II K|? ? ? ? ? ? ?]; subst. destruct (WriteProofs.group_handler app ft i II) as (h & EH & IH3). rewrite EH.
      assert (G : forall nm, onlyo bad (IFF_printGroup (IFF_printChunk rg) (CGroup i s g subs) level nm)).
      { intro nm. cbn [IFF_printGroup]. apply onlyo_bind; [|intro; exact I]. apply ALL. intros c IC lv. apply IH; [exact IC|apply K, IC|]. intro S1. apply A. eapply Short_sub; [exact S1|]. intros y Y. eapply In_group; eassumption. }
      destruct IH3 as [<-|[<-|[<-|[]]]]; apply G.
    - inversion T as [? ? ? ? ? ?|? ? ? ? ? ? ? ?|? ? ? ? ? II K|? ? ? ? ? KP KS]; subst. rewrite handler_LIST. cbn [printExtensionChunk IFF_printList].
      apply onlyo_bind; [|intro; apply onlyo_bind; [|intro; exact I]]; apply ALL.
      + intros c IC lv. apply IHp; [exact IC|apply KP, IC|]. intro S1. apply A. eapply Short_sub; [exact S1|]. intros y Y. eapply In_list_prop; eassumption.
      + intros c IC lv. apply IHs; [exact IC|apply KS, IC|]. intro S1. apply A. eapply Short_sub; [exact S1|]. intros y Y. eapply In_list_sub; eassumption.
    - inversion T as [? ? ? ? ? ?|? ? ? spec ? G AS KM|? ? ? ? ? II K|? ? ? ? ? ? ?]; subst. rewrite handler_data by exact G. rewrite AS. cbn [printExtensionChunk print_fields_chunk].
      rewrite (kinds_match_eqb _ _ KM). exact I.
  Qed.

  (** printing looks at all data *)
  Lemma block_done : forall d n l, block_bytes d n = Done l -> n <= zlength (data_of d).
  Proof.
    intros d n l E. unfold block_bytes in E. pose proof (zlength_nonneg _ (data_of d)). destruct (n <=? 0) eqn:L; [apply Z.leb_le in L; lia|].
    destruct d as [b|]; [|discriminate]. cbn [data_of] in *. destruct (zlength b <? n) eqn:Z; [discriminate|]. apply Z.ltb_ge in Z. exact Z.
  Qed.
  Lemma obind_done : forall A B (o : outcome A) (f : A -> outcome B) b, obind o f = Done b -> exists a, o = Done a /\ f a = Done b.
  Proof. intros A B o f b E. destruct o as [a|u|]; [eauto|discriminate|discriminate]. Qed.
  Lemma print_needs : forall c ft level t, Typed app ft c -> IFF_printChunk rg c level ft = Done t ->
    forall i s d, InTree (CRaw i s d) c -> s <= zlength (data_of d).
  Proof.
    assert (ALL : forall op l ft level t, print_array (IFF_printChunk rg) op l ft level = Done t -> forall c, In c l -> exists lv t', IFF_printChunk rg c lv ft = Done t').
    { intros op l ft level t E. unfold print_array in E. apply obind_done in E. destruct E as (t1 & E & _). revert t1 E. generalize (S level). intro lv.
      induction l as [|c l IH]; intros t1 E x J; [destruct J|]. cbn [print_all] in E. apply obind_done in E. destruct E as (a & E1 & E2). destruct J as [<-|J].
      - eauto.
      - apply obind_done in E2. destruct E2 as (b & E2 & _). exact (IH _ E2 x J). }
    intro c. induction c as [i s d|i s g subs IH|i s g props subs IHp IHs|i s vals] using chunk_tree_ind; intros ft level t T E j z b J; cbn [IFF_printChunk] in E; rewrite (RG ft) in E; cbn [chunkId obind] in E;
      apply obind_done in E; destruct E as (tx & E & _).
    - inversion T as [? ? ? ? G AN|? ? ? ? ? ? ? ?|? ? ? ? ? ? ?|? ? ? ? ? ? ?]; subst. rewrite handler_data in E by exact G. rewrite AN in E. cbn [printExtensionChunk IFF_printRawChunk] in E.
      inversion J; subst. unfold IFF_printText, IFF_printRaw in E. destruct (i =? IFF_ID_TEXT); apply obind_done in E; destruct E as (l & E & _); exact (block_done _ _ _ E).
    - inversion T as [? ? ? ? ? ?|? ? ? ? ? ? ? ?|? ? ? ? ? II K|? ? ? ? ? ? ?]; subst. destruct (WriteProofs.group_handler app ft i II) as (h & EH & IH3). rewrite EH in E.
      assert (G : exists nm, IFF_printGroup (IFF_printChunk rg) (CGroup i s g subs) level nm = Done tx) by (destruct IH3 as [<-|[<-|[<-|[]]]]; eexists; exact E).
      destruct G as (nm & G). cbn [IFF_printGroup] in G. apply obind_done in G. destruct G as (t1 & G & _).
      inversion J as [|? ? ? ? x IX JX| |]; subst. destruct (ALL _ _ _ _ _ G x IX) as (lv & t2 & E2). exact (IH x IX g lv t2 (K x IX) E2 _ _ _ JX).
    - inversion T as [? ? ? ? ? ?|? ? ? ? ? ? ? ?|? ? ? ? ? II K|? ? ? ? ? KP KS]; subst. rewrite handler_LIST in E. cbn [printExtensionChunk IFF_printList] in E.
      apply obind_done in E. destruct E as (t1 & G1 & E). apply obind_done in E. destruct E as (t2 & G2 & _).
      inversion J as [| |? ? ? ? ? x IX JX|? ? ? ? ? x IX JX]; subst.
      + destruct (ALL _ _ _ _ _ G1 x IX) as (lv & t3 & E3). exact (IHp x IX g lv t3 (proj1 (KP x IX)) E3 _ _ _ JX).
      + destruct (ALL _ _ _ _ _ G2 x IX) as (lv & t3 & E3). exact (IHs x IX g lv t3 (KS x IX) E3 _ _ _ JX).
    - inversion J.
  Qed.

  (** *** Comparing *)
  Lemma Typed_same_handler : forall ft c1 c2, Typed app ft c1 -> Typed app ft c2 -> chunkId c1 = chunkId c2 ->
    match c1, c2 with
    | CRaw _ _ _, CRaw _ _ _ | CGroup _ _ _ _, CGroup _ _ _ _ | CList _ _ _ _ _, CList _ _ _ _ _ => True
    | CFields _ _ v1, CFields _ _ v2 => map fst v1 = map fst v2
    | _, _ => False
    end.
  Proof.
    assert (GL : ~ In LIST_ID [FORM_ID; CAT_ID; PROP_ID]) by (intros [X|[X|[X|[]]]]; discriminate X).
    assert (GG : forall i, In i [FORM_ID; CAT_ID; PROP_ID] -> In i group_ids) by (unfold group_ids; simpl; tauto).
    assert (LG : In LIST_ID group_ids) by (unfold group_ids; simpl; tauto).
    intros ft c1 c2 T1 T2 E. inversion T1 as [? i1 s1 d1 G1 A1|? i1 s1 spec1 v1 G1 A1 K1|? i1 s1 g1 l1 I1 K1|? s1 g1 p1 l1 KP1 KS1]; subst;
      inversion T2 as [? i2 s2 d2 G2 A2|? i2 s2 spec2 v2 G2 A2 K2|? i2 s2 g2 l2 I2 K2|? s2 g2 p2 l2 KP2 KS2]; subst; cbn [chunkId] in E; subst; try exact I; try congruence; try (now auto).
  Qed.

  Theorem compare_only : forall e (bad : ub -> Prop) c1 c2 ft, Typed app ft c1 -> Typed app ft c2 ->
    (Short c1 \/ Short c2 -> forall u, data_ub u -> bad u) -> onlyo bad (IFF_compareChunk e rg c1 c2 ft).
  Proof.
    intros e bad. assert (ALL : forall l1 l2 ft, (forall c1 c2, In c1 l1 -> In c2 l2 -> onlyo bad (IFF_compareChunk e rg c1 c2 ft)) -> onlyo bad (compare_all (IFF_compareChunk e rg) l1 l2 ft)).
    { induction l1 as [|c1 l1 IH]; intros l2 ft K; cbn [compare_all]; [exact I|]. destruct l2 as [|c2 l2]; [exact I|].
      apply onlyo_bind; [apply K; left; reflexivity|]. intros []; [|exact I]. apply IH. intros; apply K; right; assumption. }
    assert (X : forall c1, (forall c2 ft, Typed app ft c1 -> Typed app ft c2 -> (Short c1 \/ Short c2 -> forall u, data_ub u -> bad u) -> onlyo bad (IFF_compareChunk e rg c1 c2 ft)) /\
      (forall c2 ft, chunkId c1 = PROP_ID -> chunkId c2 = PROP_ID -> Typed app ft c1 -> Typed app ft c2 -> (Short c1 \/ Short c2 -> forall u, data_ub u -> bad u) ->
        onlyo bad (IFF_compareGroup (IFF_compareChunk e rg) c1 c2))).
    2:{ intros c1 c2 ft. apply (proj1 (X c1)). }
    intro c1. induction c1 as [i s d|i s g subs IH|i s g props subs IHp IHs|i s vals] using chunk_tree_ind.
    - split.
      + intros c2 ft T1 T2 A. cbn [IFF_compareChunk chunkId chunkSize]. destruct ((i =? chunkId c2) && (s =? chunkSize c2)) eqn:E; [|exact I].
        apply andb_true_iff in E. destruct E as [E1 E2]. apply Z.eqb_eq in E1, E2. pose proof (Typed_same_handler ft _ c2 T1 T2 E1) as TS. rewrite (RG ft).
        destruct c2 as [j z d2|j z g2 l2|j z g2 p2 l2|j z v2]; try contradiction. cbn [chunkId chunkSize] in *. subst j z.
        inversion T1 as [? ? ? ? G AN|? ? ? ? ? ? ? ?|? ? ? ? ? ? ?|? ? ? ? ? ? ?]; subst. rewrite handler_data by exact G. rewrite AN. cbn [obind compareExtensionChunk IFF_compareRawChunk]. cbv zeta.
        assert (M : 0 <= s -> wrap_u (size_t_bits e) s <= s) by (intro; apply Z.mod_le; [assumption|apply Z.pow_pos_nonneg; [lia|pose proof (size_t_big e); lia]]).
        apply onlyo_bind; [|intro; apply onlyo_bind; [|intro; exact I]]; apply block_bytes_only; intros P Z u U; (apply A; [|exact U]).
        * left. exists i, s, d. split; [constructor|]. unfold short_raw. lia.
        * right. exists i, s, d2. split; [constructor|]. unfold short_raw. lia.
      + intros c2 ft E1 E2 T1 T2 A. cbn [chunkId] in E1. subst i. inversion T1; subst. exfalso. match goal with K : ~ In _ _ |- _ => apply K end. unfold group_ids. simpl. tauto.
    - assert (GC : forall c2 ft, chunkId c2 = i -> Typed app ft (CGroup i s g subs) -> Typed app ft c2 -> (Short (CGroup i s g subs) \/ Short c2 -> forall u, data_ub u -> bad u) ->
        onlyo bad (IFF_compareGroup (IFF_compareChunk e rg) (CGroup i s g subs) c2)).
      { intros c2 ft E T1 T2 A. pose proof (Typed_same_handler ft _ c2 T1 T2 (eq_sym E)) as TS. destruct c2 as [j z d2|j z g2 l2|j z g2 p2 l2|j z v2]; try contradiction.
        cbn [IFF_compareGroup as_group]. destruct ((g =? g2) && _) eqn:EG; [|exact I]. apply andb_true_iff in EG. destruct EG as [EG _]. apply Z.eqb_eq in EG. subst g2.
        inversion T1 as [? ? ? ? ? ?|? ? ? ? ? ? ? ?|? ? ? ? ? I1 K1|? ? ? ? ? ? ?]; subst. inversion T2 as [? ? ? ? ? ?|? ? ? ? ? ? ? ?|? ? ? ? ? I2 K2|? ? ? ? ? ? ?]; subst.
        apply ALL. intros x1 x2 J1 J2. apply (proj1 (IH x1 J1)); [apply K1, J1|apply K2, J2|]. intros SS. apply A. destruct SS as [SS|SS]; [left|right]; (eapply Short_sub; [exact SS|]; intros y Y; eapply In_group; eassumption). }
      split; [|intros c2 ft E1 E2 T1 T2 A; cbn [chunkId] in E1; apply (GC c2 ft); [congruence|assumption..]].
      intros c2 ft T1 T2 A. cbn [IFF_compareChunk chunkId chunkSize]. destruct ((i =? chunkId c2) && (s =? chunkSize c2)) eqn:E; [|exact I].
      apply andb_true_iff in E. destruct E as [E1 _]. apply Z.eqb_eq in E1. rewrite (RG ft). assert (II : In i [FORM_ID; CAT_ID; PROP_ID]) by (inversion T1; assumption).
      destruct (WriteProofs.group_handler app ft i II) as (h & EH & IH3). rewrite EH. cbn [obind].
      destruct IH3 as [<-|[<-|[<-|[]]]]; (apply (GC c2 ft); [congruence|assumption..]).
    - split; [|intros c2 ft E1 E2 T1; exfalso; cbn [chunkId] in E1; subst i; inversion T1].
      intros c2 ft T1 T2 A. cbn [IFF_compareChunk chunkId chunkSize]. destruct ((i =? chunkId c2) && (s =? chunkSize c2)) eqn:E; [|exact I].
      apply andb_true_iff in E. destruct E as [E1 _]. apply Z.eqb_eq in E1. pose proof (Typed_same_handler ft _ c2 T1 T2 E1) as TS. rewrite (RG ft).
      destruct c2 as [j z d2|j z g2 l2|j z g2 p2 l2|j z v2]; try contradiction.
      inversion T1 as [? ? ? ? ? ?|? ? ? ? ? ? ? ?|? ? ? ? ? ? ?|? ? ? ? ? KP1 KS1]; subst. inversion T2 as [? ? ? ? ? ?|? ? ? ? ? ? ? ?|? ? ? ? ? ? ?|? ? ? ? ? KP2 KS2]; subst.
      rewrite handler_LIST. cbn [obind compareExtensionChunk IFF_compareList]. apply onlyo_bind.
      + destruct (_ =? _); [|exact I]. assert (PP : forall q1 q2, (forall x, In x q1 -> In x props) -> (forall x, In x q2 -> In x p2) -> onlyo bad (compare_props (IFF_compareChunk e rg) q1 q2)).
        { induction q1 as [|x1 q1 IHq]; intros q2 S1 S2; cbn [compare_props]; [exact I|]. destruct q2 as [|x2 q2]; [exact I|].
          apply onlyo_bind; [|intros []; [|exact I]; apply IHq; intros; [apply S1|apply S2]; right; assumption].
          pose proof (S1 x1 (or_introl eq_refl)) as J1. pose proof (S2 x2 (or_introl eq_refl)) as J2. destruct (KP1 x1 J1) as (TX1 & PX1). destruct (KP2 x2 J2) as (TX2 & PX2).
          apply (proj2 (IHp x1 J1) x2 ft PX1 PX2); [eapply Typed_PROP; eassumption|eapply Typed_PROP; eassumption|]. intros SS. apply A.
          destruct SS as [SS|SS]; [left|right]; (eapply Short_sub; [exact SS|]; intros y Y; eapply In_list_prop; eassumption). }
        apply PP; auto.
      + intros []; [|exact I]. destruct ((g =? g2) && _) eqn:EG; [|exact I]. apply andb_true_iff in EG. destruct EG as [EG _]. apply Z.eqb_eq in EG. subst g2.
        apply ALL. intros x1 x2 J1 J2. apply (proj1 (IHs x1 J1)); [apply KS1, J1|apply KS2, J2|]. intros SS. apply A. destruct SS as [SS|SS]; [left|right]; (eapply Short_sub; [exact SS|]; intros y Y; eapply In_list_sub; eassumption).
    - split.
      + intros c2 ft T1 T2 A. cbn [IFF_compareChunk chunkId chunkSize]. destruct ((i =? chunkId c2) && (s =? chunkSize c2)) eqn:E; [|exact I].
        apply andb_true_iff in E. destruct E as [E1 E2]. apply Z.eqb_eq in E1, E2. pose proof (Typed_same_handler ft _ c2 T1 T2 E1) as TS. rewrite (RG ft).
        destruct c2 as [j z d2|j z g2 l2|j z g2 p2 l2|j z v2]; try contradiction.
        inversion T1 as [? ? ? ? ? ?|? ? ? spec ? G AS KM|? ? ? ? ? II K|? ? ? ? ? ? ?]; subst. rewrite handler_data by exact G. rewrite AS. cbn [obind compareExtensionChunk compare_fields_chunk].
        rewrite <- TS, (kinds_match_eqb _ _ KM). exact I.
      + intros c2 ft E1 E2 T1 T2 A. cbn [chunkId] in E1. subst i. inversion T1; subst. exfalso. match goal with K : ~ In _ _ |- _ => apply K end. unfold group_ids. simpl. tauto.
  Qed.
End Passes.
