(** * Proofs about writing *)

From Coq Require Import ZArith List Bool String Lia.
From Coq Require Import Strings.Byte.
From Verif Require Import Machine Io Types Build Write Spec Lemmas IoProofs RegProofs.
Import ListNotations.
Open Scope Z_scope.

(** ** Small arithmetic facts *)

Lemma c_odd_odd : forall x, c_odd x = Z.odd x.
Proof.
  intro x. unfold c_odd.
  assert (E : Z.rem x 2 = 0 <-> Z.even x = true).
  { rewrite Z.even_spec. rewrite Z.rem_divide by lia. unfold Z.Even.
    split; intros [y Y]; exists y; lia. }
  rewrite <- Z.negb_even. f_equal.
  destruct (Z.even x); destruct (Z.eqb_spec (Z.rem x 2) 0); try reflexivity; exfalso.
  - apply n, E; reflexivity.
  - assert (false = true) by (apply E; assumption). discriminate.
Qed.

Lemma mod2_odd : forall n, n mod 2 = if Z.odd n then 1 else 0.
Proof. intro n. apply Zmod_odd. Qed.

Lemma physical_range : forall n, 8 + n <= physical n <= 9 + n.
Proof. intro n. unfold physical, round_even. pose proof (Z.mod_pos_bound n 2). lia. Qed.

Lemma physical_even : forall n, Z.even (physical n) = true.
Proof.
  intro n. unfold physical, round_even. rewrite mod2_odd.
  rewrite !Z.even_add. change (Z.even 8) with true.
  rewrite <- (Z.negb_odd n). destruct (Z.odd n); reflexivity.
Qed.

Lemma body_size_nonneg : forall l, (forall c, In c l -> 0 <= chunkSize c) -> 0 <= body_size l.
Proof.
  unfold body_size. induction l as [|c l IH]; intros H; simpl; [lia|].
  pose proof (physical_range (chunkSize c)). pose proof (H c (or_introl eq_refl)).
  assert (0 <= sum (map (fun c => physical (chunkSize c)) l)) by (apply IH; intros; apply H; right; assumption).
  lia.
Qed.

Lemma body_size_app : forall a b, body_size (a ++ b) = body_size a + body_size b.
Proof.
  unfold body_size. induction a as [|c a IH]; intros b; simpl; [lia|]. rewrite IH. lia.
Qed.

Lemma body_size_cons : forall c l, body_size (c :: l) = physical (chunkSize c) + body_size l.
Proof. reflexivity. Qed.

Lemma increment_ok : forall acc c,
  INT_MIN <= acc + 8 + chunkSize c -> acc + 4 <= INT_MAX -> acc + physical (chunkSize c) <= INT_MAX ->
  IFF_incrementChunkSize acc c = Done (acc + physical (chunkSize c)).
Proof.
  intros acc c L A H. unfold IFF_incrementChunkSize, IFF_ID_SIZE.
  pose proof (physical_range (chunkSize c)). unfold physical, round_even in *.
  rewrite (proj2 (Z.ltb_ge _ _)) by lia.
  rewrite wrap_s_id by (unfold INT_MIN, INT_MAX in *; simpl Z.sub; lia).
  rewrite c_odd_odd. pose proof (mod2_odd (chunkSize c)) as O.
  destruct (Z.odd (chunkSize c)).
  - rewrite (proj2 (Z.eqb_neq _ _)) by lia. f_equal. lia.
  - f_equal. lia.
Qed.

(** ** Which fields fit *)

Lemma size_t_big : forall e, 32 <= size_t_bits e.
Proof. intro e. unfold size_t_bits. destruct (lp64 e); lia. Qed.

Lemma size_t_pow : forall e, 2 ^ 32 <= 2 ^ size_t_bits e.
Proof. intro e. apply Z.pow_le_mono_r; [lia|apply size_t_big]. Qed.

Lemma wrap_size_id : forall e z, 0 <= z < 2 ^ 32 -> wrap_u (size_t_bits e) z = z.
Proof. intros e z H. apply wrap_u_id. pose proof (size_t_pow e). lia. Qed.

Lemma fieldSize_range : forall k, 1 <= fieldSize k <= 4.
Proof. intros []; simpl; lia. Qed.

Lemma fit_normal : forall e k size bp,
  fieldSize k <= size <= INT_MAX -> 0 <= bp <= INT_MAX ->
  fieldDoesNotFitInChunk e (fieldSize k) size bp = (size <? bp + fieldSize k).
Proof.
  intros e k size bp S B. unfold fieldDoesNotFitInChunk. pose proof (fieldSize_range k).
  unfold INT_MAX in *.
  rewrite (wrap_size_id e size) by lia. rewrite (wrap_size_id e bp) by lia.
  rewrite wrap_size_id by lia.
  destruct (Z.ltb_spec (size - fieldSize k) bp), (Z.ltb_spec size (bp + fieldSize k)); try reflexivity; lia.
Qed.

(** At the start of a chunk every field "fits", whatever the size. *)
Lemma fit_start : forall e fs size, fieldDoesNotFitInChunk e fs size 0 = false.
Proof.
  intros e fs size. unfold fieldDoesNotFitInChunk. apply Z.ltb_ge.
  rewrite (wrap_size_id e 0) by lia. unfold wrap_u. apply Z.mod_pos_bound.
  pose proof (size_t_pow e). lia.
Qed.

(** ** The effect of writing given bytes *)

Definition emits (e : env) (m : M bool) (l : list byte) : Prop :=
  forall w, exists lg n,
    m e w = Done (fst (put_bytes l (w_out w)),
                  mkWorld (w_in w) (snd (put_bytes l (w_out w))) (lg ++ w_log w) n) /\
    (fst (put_bytes l (w_out w)) = true <-> lg = []).

Definition emitsZ (e : env) (m : M (bool * Z)) (l : list byte) (bp : Z) : Prop :=
  forall w, exists b lg n,
    m e w = Done ((fst (put_bytes l (w_out w)), b),
                  mkWorld (w_in w) (snd (put_bytes l (w_out w))) (lg ++ w_log w) n) /\
    (fst (put_bytes l (w_out w)) = true <-> lg = []) /\
    (fst (put_bytes l (w_out w)) = true -> b = bp).

Lemma put_split : forall l w, put l w = (fst (put_bytes l (w_out w)),
  mkWorld (w_in w) (snd (put_bytes l (w_out w))) (w_log w) (w_allocs w)).
Proof. intros. unfold put. destruct (put_bytes l (w_out w)); reflexivity. Qed.

Lemma emits_eq : forall e m l1 l2, emits e m l1 -> l1 = l2 -> emits e m l2.
Proof. intros; subst; assumption. Qed.
Lemma emitsZ_eq : forall e m l1 l2 b1 b2, emitsZ e m l1 b1 -> l1 = l2 -> b1 = b2 -> emitsZ e m l2 b2.
Proof. intros; subst; assumption. Qed.

Lemma emits_ret_true : forall e, emits e (ret true) [].
Proof.
  intros e w. exists [], (w_allocs w). split; [destruct w; reflexivity|]. simpl. tauto.
Qed.
Lemma emitsZ_ret : forall e b, emitsZ e (ret (true, b)) [] b.
Proof.
  intros e b w. exists b, [], (w_allocs w). split; [destruct w; reflexivity|]. simpl. tauto.
Qed.

Lemma put_bytes_app_true : forall a b f, fst (put_bytes a f) = true ->
  put_bytes (a ++ b) f = put_bytes b (snd (put_bytes a f)).
Proof. intros a b f H. rewrite put_bytes_app. destruct (put_bytes a f) as [ok f1]. simpl in *. subst. reflexivity. Qed.
Lemma put_bytes_app_false : forall a b f, fst (put_bytes a f) = false ->
  put_bytes (a ++ b) f = (false, snd (put_bytes a f)).
Proof. intros a b f H. rewrite put_bytes_app. destruct (put_bytes a f) as [ok f1]. simpl in *. subst. reflexivity. Qed.

Lemma emits_andM : forall e m1 m2 l1 l2,
  emits e m1 l1 -> emits e m2 l2 -> emits e (andM m1 m2) (l1 ++ l2).
Proof.
  intros e m1 m2 l1 l2 E1 E2 w. unfold andM, bind.
  destruct (E1 w) as (lg1 & n1 & R1 & L1). rewrite R1.
  destruct (fst (put_bytes l1 (w_out w))) eqn:OK.
  - assert (lg1 = []) by (apply L1; reflexivity). subst lg1.
    set (w1 := mkWorld (w_in w) (snd (put_bytes l1 (w_out w))) ([] ++ w_log w) n1).
    destruct (E2 w1) as (lg2 & n2 & R2 & L2).
    exists lg2, n2. rewrite R2. rewrite put_bytes_app_true by assumption.
    split; [reflexivity|]. exact L2.
  - exists lg1, n1. rewrite put_bytes_app_false by assumption. split; [reflexivity|]. exact L1.
Qed.

(** Sequencing of operations that return the number of bytes processed; the
    continuation only runs on success, otherwise failure is passed on, perhaps
    with more diagnostics. *)
Lemma emitsZ_bind : forall e (m1 : M (bool * Z)) (k : bool * Z -> M (bool * Z)) l1 l2 b1 b2,
  emitsZ e m1 l1 b1 ->
  emitsZ e (k (true, b1)) l2 b2 ->
  (forall b w, exists b' lg n, k (false, b) e w =
       Done ((false, b'), mkWorld (w_in w) (w_out w) (lg ++ w_log w) n)) ->
  emitsZ e (bind m1 k) (l1 ++ l2) b2.
Proof.
  intros e m1 k l1 l2 b1 b2 E1 E2 F w. unfold bind.
  destruct (E1 w) as (b & lg1 & n1 & R1 & L1 & B1). rewrite R1.
  destruct (fst (put_bytes l1 (w_out w))) eqn:OK.
  - assert (lg1 = []) by (apply L1; reflexivity). subst lg1.
    rewrite (B1 eq_refl).
    set (w1 := mkWorld (w_in w) (snd (put_bytes l1 (w_out w))) ([] ++ w_log w) n1).
    destruct (E2 w1) as (b3 & lg2 & n2 & R2 & L2 & B2).
    exists b3, lg2, n2. rewrite R2. rewrite put_bytes_app_true by assumption.
    split; [reflexivity|]. split; assumption.
  - set (w1 := mkWorld (w_in w) (snd (put_bytes l1 (w_out w))) (lg1 ++ w_log w) n1).
    destruct (F b w1) as (b3 & lg2 & n2 & R2).
    exists b3, (lg2 ++ lg1), n2. rewrite R2. rewrite put_bytes_app_false by assumption.
    split; [unfold w1; simpl; rewrite app_assoc; reflexivity|].
    split; [|discriminate]. simpl.
    split; [discriminate|]. intro H. apply app_eq_nil in H. destruct H as [_ ->].
    exfalso. assert (false = true) by (apply L1; reflexivity). discriminate.
Qed.

Lemma emits_write_prim : forall e k v id name, strict_c e = false ->
  emits e (write_prim k v id name) (be_field k v).
Proof.
  intros e k v id name S w. rewrite write_prim_ok by (left; assumption).
  rewrite put_split. destruct (fst (put_bytes (be_field k v) (w_out w))).
  - exists [], (w_allocs w). split; [reflexivity|tauto].
  - exists (writeError_log id name), (w_allocs w). split; [reflexivity|].
    split; [discriminate|]. intro H. discriminate.
Qed.

Lemma emitsZ_of_emits : forall e (m : M bool) (k : bool -> M (bool * Z)) l b,
  emits e m l -> (forall w, k true e w = Done ((true, b), w)) ->
  (forall w, exists b' lg n, k false e w =
       Done ((false, b'), mkWorld (w_in w) (w_out w) (lg ++ w_log w) n)) ->
  emitsZ e (bind m k) l b.
Proof.
  intros e m k l b E T F w. unfold bind.
  destruct (E w) as (lg & n & R & L). rewrite R.
  destruct (fst (put_bytes l (w_out w))).
  - rewrite T. exists b, lg, n. split; [reflexivity|]. split; [exact L|reflexivity].
  - destruct (F (mkWorld (w_in w) (snd (put_bytes l (w_out w))) (lg ++ w_log w) n)) as (b' & lg2 & n2 & R2).
    rewrite R2. exists b', (lg2 ++ lg), n2. simpl. rewrite app_assoc. split; [reflexivity|].
    split; [|discriminate]. split; [discriminate|]. intro H. apply app_eq_nil in H. destruct H as [_ ->].
    apply L. reflexivity.
Qed.

Lemma keep_false : forall e b w, exists (b' : Z) lg n,
  ret (false, b) e w = Done ((false, b'), mkWorld (w_in w) (w_out w) (lg ++ w_log w) n).
Proof. intros e b w. exists b, [], (w_allocs w). destruct w; reflexivity. Qed.

(** ** Zero filler and pad *)

Lemma emits_filler : forall e id size bp, usual e -> 0 <= bp -> size <= INT_MAX ->
  emits e (IFF_writeZeroFillerBytes id size bp) (zeros (size - bp)).
Proof.
  intros e id size bp [NS MO] B SZ w. unfold IFF_writeZeroFillerBytes, zeros.
  destruct (Z.ltb_spec bp size) as [L|L].
  - rewrite (proj2 (Z.ltb_ge _ _)) by lia. unfold bind at 1. unfold malloc.
    rewrite MO. rewrite (proj2 (Z.ltb_lt _ _)).
    2:{ pose proof (size_t_big e). assert (2 ^ 31 <= 2 ^ (size_t_bits e - 1)) by (apply Z.pow_le_mono_r; lia).
        unfold INT_MAX in *. lia. }
    cbn [andb negb].
    unfold bind at 1. rewrite fwrite_put, put_split. cbn [w_out w_in w_log w_allocs].
    destruct (fst (put_bytes (repeat x00 (Z.to_nat (size - bp))) (w_out w))) eqn:OK.
    + exists [], (S (w_allocs w)). split; [reflexivity|]. tauto.
    + unfold bind at 1, ask. rewrite NS. cbn [andb].
      rewrite run_framed_ret. eexists _, _. split; [reflexivity|split; discriminate].
  - replace (Z.to_nat (size - bp)) with O by lia. apply emits_ret_true.
Qed.

Lemma emits_pad : forall e id size, emits e (IFF_writePaddingByte size id) (pad_for size).
Proof.
  intros e id size w. unfold IFF_writePaddingByte, pad_for. rewrite c_odd_odd.
  destruct (Z.odd size).
  - unfold bind at 1, fputc. rewrite fwrite_put, put_split.
    destruct (fst (put_bytes [x00] (w_out w))) eqn:OK.
    + exists [], (w_allocs w). split; [reflexivity|tauto].
    + rewrite run_framed_ret. eexists _, _. split; [reflexivity|split; discriminate].
  - apply emits_ret_true.
Qed.

(** ** Handlers *)

Lemma handler_FORM : forall app ft, expected_handler app ft FORM_ID = HForm.
Proof. reflexivity. Qed.
Lemma handler_CAT : forall app ft, expected_handler app ft CAT_ID = HCAT.
Proof. reflexivity. Qed.
Lemma handler_LIST : forall app ft, expected_handler app ft LIST_ID = HList.
Proof. reflexivity. Qed.
Lemma handler_PROP : forall app ft, expected_handler app ft PROP_ID = HProp.
Proof. reflexivity. Qed.
Lemma handler_data : forall app ft i, ~ In i group_ids ->
  expected_handler app ft i = match app ft i with Some s => HFields s | None => HRaw end.
Proof.
  intros app ft i N. unfold expected_handler. unfold group_ids in N. simpl in N.
  rewrite !(proj2 (Z.eqb_neq _ _)) by (intro; apply N; subst; auto). reflexivity.
Qed.

Lemma group_handler : forall app ft i, In i [FORM_ID; CAT_ID; PROP_ID] ->
  exists h, expected_handler app ft i = h /\ In h [HForm; HCAT; HProp].
Proof.
  intros app ft i [<-|[<-|[<-|[]]]]; eexists; (split; [reflexivity|simpl; auto]).
Qed.

Lemma fkinds_eqb_refl : forall l, fkinds_eqb l l = true.
Proof. induction l as [|k l IH]; [reflexivity|]. simpl. rewrite IH. destruct k; reflexivity. Qed.

Lemma fkinds_eqb_spec : forall a b, fkinds_eqb a b = true <-> a = b.
Proof.
  split; [|intros ->; apply fkinds_eqb_refl].
  revert b. induction a as [|k a IH]; intros [|k2 b] H; try discriminate; [reflexivity|].
  simpl in H. apply andb_true_iff in H. destruct H as [H1 H2]. rewrite (IH b H2).
  destruct k, k2; try discriminate; reflexivity.
Qed.

Lemma kinds_match_eqb : forall s vals, kinds_match s vals ->
  fkinds_eqb (map fst vals) (map fd_kind (fs_fields s)) = true.
Proof. intros s vals H. rewrite H. apply fkinds_eqb_refl. Qed.

(** ** Fields *)

Lemma emitsZ_writeField_more : forall e k v cid size name bp,
  strict_c e = false -> fieldDoesNotFitInChunk e (fieldSize k) size bp = false ->
  0 <= bp -> bp + fieldSize k <= INT_MAX ->
  forall (K : fstatus * Z -> M (bool * Z)) l b,
  emitsZ e (K (FIELD_MORE, bp + fieldSize k)) l b ->
  (forall b w, K (FIELD_FAILURE, b) e w = Done ((false, b), w)) ->
  emitsZ e (bind (IFF_writeField k v cid size name bp) K) (be_field k v ++ l) b.
Proof.
  intros e k v cid size name bp NS FT B0 B1 K l b E F w.
  unfold IFF_writeField, bind at 1. unfold bind at 1, ask at 1. rewrite FT. unfold bind at 1.
  destruct (emits_write_prim e k v cid name NS w) as (lg & n & R & L). rewrite R.
  destruct (fst (put_bytes (be_field k v) (w_out w))) eqn:OK.
  - assert (lg = []) by (apply L; reflexivity). subst lg.
    unfold ret at 1, increaseBytesProcessed. rewrite wrap_s_id.
    2: lia.
    2:{ pose proof (fieldSize_range k). unfold INT_MAX in *. simpl Z.sub. lia. }
    destruct (E (mkWorld (w_in w) (snd (put_bytes (be_field k v) (w_out w))) ([] ++ w_log w) n))
      as (b' & lg2 & n2 & R2 & L2 & B2).
    rewrite R2. exists b', lg2, n2. rewrite put_bytes_app_true by assumption. split; [reflexivity|].
    split; assumption.
  - unfold ret at 1. rewrite F. exists bp, lg, n. rewrite put_bytes_app_false by assumption.
    split; [reflexivity|]. split; [exact L|discriminate].
Qed.

Lemma zlength_fields_bytes_cons : forall kv r,
  zlength (fields_bytes (kv :: r)) = fieldSize (fst kv) + zlength (fields_bytes r).
Proof.
  intros. unfold fields_bytes. cbn [flat_map]. rewrite zlength_app, be_field_length. reflexivity.
Qed.

Lemma fitting_length : forall vals size, 0 <= size -> zlength (fields_bytes (fitting size vals)) <= size.
Proof.
  induction vals as [|[k v] r IH]; intros size S; cbn [fitting]; [change (zlength (fields_bytes [])) with 0; lia|].
  destruct (Z.leb_spec (fieldSize k) size); [|change (zlength (fields_bytes [])) with 0; lia].
  rewrite zlength_fields_bytes_cons. simpl fst.
  assert (zlength (fields_bytes (fitting (size - fieldSize k) r)) <= size - fieldSize k) by (apply IH; lia). lia.
Qed.

Lemma emitsZ_write_fields : forall e cid size, strict_c e = false -> 0 <= size <= INT_MAX ->
  forall ds vals bp,
  map fst vals = map fd_kind ds ->
  Forall (fun kv => fieldSize (fst kv) <= size) vals ->
  0 <= bp <= size ->
  emitsZ e (write_fields ds vals cid size bp) (fields_bytes (fitting (size - bp) vals))
         (bp + zlength (fields_bytes (fitting (size - bp) vals))).
Proof.
  intros e cid size NS SZ. induction ds as [|d ds IH]; intros vals bp K F B.
  - destruct vals as [|? ?]; [|discriminate]. simpl. eapply emitsZ_eq; [apply emitsZ_ret|reflexivity|].
    rewrite zlength_nil. lia.
  - destruct vals as [|[k v] vals]; [discriminate|]. simpl in K. injection K as Kd K.
    inversion F as [|? ? F1 F2]; subst. simpl in F1.
    cbn [write_fields fitting]. pose proof (fieldSize_range (fd_kind d)).
    assert (FN := fit_normal e (fd_kind d) size bp ltac:(lia) ltac:(lia)).
    destruct (Z.leb_spec (fieldSize (fd_kind d)) (size - bp)) as [C|C].
    + change (fields_bytes ((fd_kind d, v) :: ?r)) with (be_field (fd_kind d) v ++ fields_bytes r).
      rewrite zlength_app, be_field_length.
      apply emitsZ_writeField_more; try assumption; try lia.
      * rewrite FN. apply Z.ltb_ge. lia.
      * eapply emitsZ_eq; [apply IH; [assumption|assumption|lia]| |].
        -- f_equal. f_equal. lia.
        -- replace (size - (bp + fieldSize (fd_kind d))) with (size - bp - fieldSize (fd_kind d)) by lia. lia.
      * reflexivity.
    + unfold IFF_writeField. intros w. unfold bind, ask. rewrite FN.
      rewrite (proj2 (Z.ltb_lt _ _)) by lia. unfold ret.
      exists bp, [], (w_allocs w). cbn [fields_bytes flat_map put_bytes fst snd]. rewrite zlength_nil.
      split; [destruct w; reflexivity|]. split; [tauto|]. intros _. lia.
Qed.

(** ** Groups *)

Lemma emitsZ_write_all : forall e wc msg ft l bp,
  (forall c, In c l -> emits e (wc c ft) (emitted c)) ->
  (forall c, In c l -> 0 <= chunkSize c) ->
  0 <= bp -> bp + body_size l <= INT_MAX ->
  emitsZ e (write_all wc msg l ft bp) (flat_map emitted l) (bp + body_size l).
Proof.
  intros e wc msg ft l. induction l as [|c l IH]; intros bp E S B0 B1; cbn [write_all flat_map].
  - eapply emitsZ_eq; [apply emitsZ_ret|reflexivity|]. unfold body_size; simpl; lia.
  - intro w. rewrite body_size_cons in *.
    pose proof (S c (or_introl eq_refl)) as SC. pose proof (physical_range (chunkSize c)).
    assert (0 <= body_size l) by (apply body_size_nonneg; intros; apply S; right; assumption).
    unfold bind at 1. destruct (E c (or_introl eq_refl) w) as (lg & n & R & L). rewrite R.
    destruct (fst (put_bytes (emitted c) (w_out w))) eqn:OK.
    + assert (lg = []) by (apply L; reflexivity). subst lg.
      unfold bind at 1, lift. rewrite increment_ok by (unfold INT_MIN; lia).
      assert (I := IH (bp + physical (chunkSize c)) (fun c' H' => E c' (or_intror H'))
                      (fun c' H' => S c' (or_intror H')) ltac:(lia) ltac:(lia)).
      destruct (I (mkWorld (w_in w) (snd (put_bytes (emitted c) (w_out w))) ([] ++ w_log w) n))
        as (b & lg2 & n2 & R2 & L2 & B2).
      rewrite R2. exists b, lg2, n2. rewrite put_bytes_app_true by assumption.
      split; [reflexivity|]. split; [exact L2|]. intro Q. rewrite (B2 Q). lia.
    + exists bp, ((msg ++ nl)%string :: lg), n. rewrite put_bytes_app_false by assumption.
      split; [reflexivity|]. split; [split; discriminate|discriminate].
Qed.

Lemma Writable_size : forall app ft c, Writable app ft c -> 0 <= chunkSize c <= INT_MAX.
Proof. intros app ft c H. inversion H; subst; simpl; assumption. Qed.

Lemma Writable_PROP : forall app ft ft' c, Writable app ft c -> chunkId c = PROP_ID -> Writable app ft' c.
Proof.
  intros app ft ft' c H P. inversion H; subst; simpl in P; subst.
  - exfalso. apply H0. simpl. auto.
  - exfalso. apply H0. simpl. auto.
  - constructor; assumption.
  - discriminate.
Qed.

Lemma emits_body : forall e (m : M (bool * Z)) l b id size, usual e -> 0 <= b -> size <= INT_MAX ->
  emitsZ e m l b ->
  emits e (r <- m ;;
           match r with
           | (ok, bp) => andM (ret ok) (andM (IFF_writeZeroFillerBytes id size bp) (IFF_writePaddingByte size id))
           end) (l ++ zeros (size - b) ++ pad_for size).
Proof.
  intros e m l b id size U B S E w. unfold bind at 1.
  destruct (E w) as (b' & lg & n & R & L & BB). rewrite R.
  destruct (fst (put_bytes l (w_out w))) eqn:OK.
  - assert (lg = []) by (apply L; reflexivity). subst lg. rewrite (BB eq_refl).
    assert (EA := emits_andM e _ _ _ _ (emits_filler e id size b U B S) (emits_pad e id size)).
    destruct (EA (mkWorld (w_in w) (snd (put_bytes l (w_out w))) ([] ++ w_log w) n)) as (lg2 & n2 & R2 & L2).
    exists lg2, n2. rewrite put_bytes_app_true by assumption. split; [|exact L2].
    unfold andM at 1. unfold bind at 1, ret at 1. rewrite R2. reflexivity.
  - exists lg, n. rewrite put_bytes_app_false by assumption. split; [reflexivity|exact L].
Qed.

Lemma write_emits : forall rg app e, Realises rg app -> usual e ->
  forall c ft, Writable app ft c -> emits e (IFF_writeChunk rg c ft) (emitted c).
Proof.
  intros rg app e RG U.
  assert (NS : strict_c e = false) by apply U.
  assert (HEAD : forall c ft body,
    emits e (writeChunkBody (IFF_writeChunk rg) rg c ft) body ->
    emits e (andM (IFF_writeId (chunkId c) (chunkId c) "chunkId")
               (andM (IFF_writeLong (chunkSize c) (chunkId c) "chunkSize")
                  (writeChunkBody (IFF_writeChunk rg) rg c ft)))
            (be32 (chunkId c) ++ be32 (chunkSize c) ++ body)).
  { intros c ft body H. apply emits_andM.
    - apply (emits_write_prim e FId). assumption.
    - apply emits_andM; [apply (emits_write_prim e FLong); assumption|assumption]. }
  assert (FH : forall c ft m, emits e (r <- writeExtensionChunkFields (IFF_writeChunk rg)
                    (expected_handler app ft (chunkId c)) c 0 ;;
                 match r with
                 | (ok, bp) => andM (ret ok) (andM (IFF_writeZeroFillerBytes (chunkId c) (chunkSize c) bp)
                       (IFF_writePaddingByte (chunkSize c) (chunkId c)))
                 end) m -> emits e (writeChunkBody (IFF_writeChunk rg) rg c ft) m).
  { intros c ft m H w. unfold writeChunkBody. unfold bind at 1, lift. rewrite RG. apply H. }
  induction c as [i s d|i s g subs IH|i s g props subs IHp IHs|i s vals] using chunk_tree_ind;
    intros ft W; inversion W; subst; cbn [IFF_writeChunk emitted].
  - (* raw *)
    apply (HEAD (CRaw i s (Some l))). apply FH. cbn [chunkId chunkSize].
    rewrite handler_data by assumption. match goal with A : app ft i = _ |- _ => rewrite A end. cbn [writeExtensionChunkFields data_of].
    eapply emits_eq; [apply (emits_body e _ (ztake s l) s); [assumption|lia|lia|]|].
    + intro w. unfold IFF_writeRawChunk. unfold bind at 1, ask at 1. unfold bind at 1, lift.
      rewrite wrap_size_id by (unfold INT_MAX in *; lia).
      assert (BB : block_bytes (Some l) s = Done (ztake s l)).
      { unfold block_bytes. destruct (Z.leb_spec s 0).
        - rewrite ztake_0 by lia. reflexivity.
        - rewrite (proj2 (Z.ltb_ge _ _)) by lia. reflexivity. }
      rewrite BB. unfold bind at 1. rewrite fwrite_put, put_split.
      destruct (fst (put_bytes (ztake s l) (w_out w))) eqn:OK.
      * rewrite (proj2 (Z.ltb_ge _ _)) by lia. exists s, [], (w_allocs w).
        split; [reflexivity|]. tauto.
      * rewrite run_framed_ret. eexists _, _, _. split; [reflexivity|]. split; [split; discriminate|discriminate].
    + unfold zeros. rewrite Z.sub_diag. reflexivity.
  - (* group *)
    apply (HEAD (CGroup i s g subs)). apply FH. cbn [chunkId chunkSize].
    assert (SZ : forall c, In c subs -> 0 <= chunkSize c) by (intros; eapply Writable_size; eauto).
    assert (BN := body_size_nonneg subs SZ).
    assert (G : forall name, emitsZ e (IFF_writeGroup (IFF_writeChunk rg) (CGroup i s g subs) name 0)
                  (be32 g ++ flat_map emitted subs) (4 + body_size subs)).
    { intro name. unfold IFF_writeGroup.
      change (be32 g) with (be_field FId g).
      apply emitsZ_writeField_more; try assumption; try (simpl; unfold INT_MAX; lia).
      - apply fit_start.
      - apply emitsZ_write_all; try assumption; try (simpl; lia).
        intros c I. apply IH; auto.
      - reflexivity. }
    match goal with A : In i _ |- _ => destruct (group_handler app ft i A) as (h & -> & HI) end.
    assert (G2 : emitsZ e (writeExtensionChunkFields (IFF_writeChunk rg) h (CGroup i s g subs) 0)
                   (be32 g ++ flat_map emitted subs) (4 + body_size subs)).
    { destruct HI as [<-|[<-|[<-|[]]]]; apply G. }
    apply emits_body; try assumption; lia.
  - (* list *)
    apply (HEAD (CList LIST_ID s g props subs)). apply FH. cbn [chunkId chunkSize].
    match goal with A : forall c, In c props -> Writable _ _ _ /\ _ |- _ => rename A into HP end.
    assert (SZp : forall c, In c props -> 0 <= chunkSize c).
    { intros c I. destruct (HP c I). eapply Writable_size; eauto. }
    assert (SZs : forall c, In c subs -> 0 <= chunkSize c) by (intros; eapply Writable_size; eauto).
    assert (BNp := body_size_nonneg props SZp). assert (BNs := body_size_nonneg subs SZs).
    rewrite handler_LIST. cbn [writeExtensionChunkFields].
    apply emits_body; try assumption; try lia.
    unfold IFF_writeList. change (be32 g) with (be_field FId g).
    apply emitsZ_writeField_more; try assumption; try (simpl; unfold INT_MAX; lia).
    + apply fit_start.
    + eapply emitsZ_eq.
      * apply (emitsZ_bind e _ _ (flat_map emitted props) (flat_map emitted subs) (4 + body_size props)
                 (4 + body_size props + body_size subs)).
        -- apply emitsZ_write_all; try assumption; try (simpl; lia).
           intros c I. apply IHp; [assumption|]. destruct (HP c I). eapply Writable_PROP; eassumption.
        -- apply emitsZ_write_all; try assumption; try lia. intros c I. apply IHs; auto.
        -- intros b w. apply keep_false.
      * reflexivity.
      * reflexivity.
    + reflexivity.
  - (* fields *)
    apply (HEAD (CFields i s vals)). apply FH. cbn [chunkId chunkSize].
    rewrite handler_data by assumption. match goal with A : app ft i = _ |- _ => rewrite A end. cbn [writeExtensionChunkFields].
    unfold fields_body. rewrite <- app_assoc.
    apply (emits_body e _ (fields_bytes (fitting s vals)) (zlength (fields_bytes (fitting s vals))));
      try assumption; try apply zlength_nonneg; try lia.
    unfold write_fields_chunk. rewrite kinds_match_eqb by assumption.
    eapply emitsZ_eq; [apply emitsZ_write_fields; try assumption; lia| |];
      rewrite ?Z.sub_0_r; lia || reflexivity.
Qed.
