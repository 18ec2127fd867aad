(** * What writing says when the output takes no more *)

From Coq Require Import ZArith List Bool String Lia.
From Coq Require Import Strings.Byte.
From Verif Require Import Machine Io Types Build Write Iff Spec Lemmas IoProofs RegProofs WriteProofs DiagSpec DiagProofs CutProofs PartSpec.
Import ListNotations.
Open Scope Z_scope.

Definition bytes_of (ps : list part) : list byte := flat_map snd ps.
Lemma bytes_of_app : forall a b, bytes_of (a ++ b) = bytes_of a ++ bytes_of b.
Proof. intros. apply flat_map_app. Qed.

Lemma complaint_ok : forall ps f, fst (put_bytes (bytes_of ps) f) = true -> complaint ps f = ""%string.
Proof.
  induction ps as [|[t l] ps IH]; intros f H; [reflexivity|]. cbn [complaint]. change (bytes_of ((t, l) :: ps)) with (l ++ bytes_of ps) in H.
  rewrite put_bytes_app in H. destruct (put_bytes l f) as [[] f1]; [apply IH; exact H|discriminate].
Qed.
Lemma complaint_app : forall a b f, complaint (a ++ b) f =
  if fst (put_bytes (bytes_of a) f) then complaint b (snd (put_bytes (bytes_of a) f)) else complaint a f.
Proof.
  induction a as [|[t l] a IH]; intros b f; [reflexivity|]. cbn [app complaint]. change (bytes_of ((t, l) :: a)) with (l ++ bytes_of a).
  rewrite put_bytes_app. destruct (put_bytes l f) as [[] f1]; [apply IH|reflexivity].
Qed.
Lemma complaint_within : forall line ps f, fst (put_bytes (bytes_of ps) f) = false ->
  complaint (map (within line) ps) f = (complaint ps f ++ line ++ nl)%string.
Proof.
  intros line. induction ps as [|[t l] ps IH]; intros f H; [discriminate|]. cbn [map complaint within fst snd].
  change (bytes_of ((t, l) :: ps)) with (l ++ bytes_of ps) in H. rewrite put_bytes_app in H.
  destruct (put_bytes l f) as [[] f1]; [apply IH; exact H|reflexivity].
Qed.
Lemma bytes_within : forall line ps, bytes_of (map (within line) ps) = bytes_of ps.
Proof. intros line. induction ps as [|p ps IH]; [reflexivity|]. cbn [map bytes_of flat_map within snd] in *. unfold bytes_of in IH. rewrite IH. reflexivity. Qed.

(** ** The effect of writing given parts *)

Definition says (e : env) (m : M bool) (ps : list part) : Prop := forall w, exists lg n,
  m e w = Done (fst (put_bytes (bytes_of ps) (w_out w)), mkWorld (w_in w) (snd (put_bytes (bytes_of ps) (w_out w))) (lg ++ w_log w) n) /\
  text lg = complaint ps (w_out w) /\ (fst (put_bytes (bytes_of ps) (w_out w)) = true -> lg = []).

Definition saysZ (e : env) (m : M (bool * Z)) (ps : list part) (bp : Z) : Prop := forall w, exists b lg n,
  m e w = Done ((fst (put_bytes (bytes_of ps) (w_out w)), b), mkWorld (w_in w) (snd (put_bytes (bytes_of ps) (w_out w))) (lg ++ w_log w) n) /\
  text lg = complaint ps (w_out w) /\ (fst (put_bytes (bytes_of ps) (w_out w)) = true -> lg = [] /\ b = bp).

Lemma says_true : forall e, says e (ret true) [].
Proof. intros e w. exists [], (w_allocs w). split; [destruct w; reflexivity|]. split; [reflexivity|]. reflexivity. Qed.
Lemma saysZ_true : forall e b, saysZ e (ret (true, b)) [] b.
Proof. intros e b w. exists b, [], (w_allocs w). split; [destruct w; reflexivity|]. split; [reflexivity|]. auto. Qed.

Lemma says_andM : forall e m1 m2 a b, says e m1 a -> says e m2 b -> says e (andM m1 m2) (a ++ b).
Proof.
  intros e m1 m2 a b E1 E2 w. unfold andM, bind. destruct (E1 w) as (lg1 & n1 & R1 & T1 & L1). rewrite R1. rewrite bytes_of_app, complaint_app.
  destruct (fst (put_bytes (bytes_of a) (w_out w))) eqn:OK.
  - rewrite (L1 eq_refl) in *. set (w1 := mkWorld (w_in w) (snd (put_bytes (bytes_of a) (w_out w))) ([] ++ w_log w) n1).
    destruct (E2 w1) as (lg2 & n2 & R2 & T2 & L2). exists lg2, n2. rewrite R2. rewrite put_bytes_app_true by assumption. auto.
  - exists lg1, n1. rewrite put_bytes_app_false by assumption. split; [reflexivity|]. split; [exact T1|discriminate].
Qed.

Lemma saysZ_bind : forall e (m1 : M (bool * Z)) (k : bool * Z -> M (bool * Z)) a b b1 b2,
  saysZ e m1 a b1 -> saysZ e (k (true, b1)) b b2 -> (forall z w, k (false, z) e w = Done ((false, z), w)) -> saysZ e (bind m1 k) (a ++ b) b2.
Proof.
  intros e m1 k a b b1 b2 E1 E2 F w. unfold bind. destruct (E1 w) as (z & lg1 & n1 & R1 & T1 & L1). rewrite R1. rewrite bytes_of_app, complaint_app.
  destruct (fst (put_bytes (bytes_of a) (w_out w))) eqn:OK.
  - destruct (L1 eq_refl) as [-> ->]. set (w1 := mkWorld (w_in w) (snd (put_bytes (bytes_of a) (w_out w))) ([] ++ w_log w) n1).
    destruct (E2 w1) as (z2 & lg2 & n2 & R2 & T2 & L2). exists z2, lg2, n2. rewrite R2. rewrite put_bytes_app_true by assumption. auto.
  - rewrite F. exists z, lg1, n1. rewrite put_bytes_app_false by assumption. split; [reflexivity|]. split; [exact T1|discriminate].
Qed.

Lemma text_writeError : forall i name, text (writeError_log i name) = cannot_write i name.
Proof. intros i name. unfold writeError_log. apply text_id. Qed.

Lemma one_part : forall t l f, complaint [(t, l)] f = if fst (put_bytes l f) then ""%string else t.
Proof. intros t l f. cbn [complaint]. destruct (put_bytes l f) as [[] f1]; reflexivity. Qed.
Lemma bytes_one : forall t l, bytes_of [(t, l)] = l.
Proof. intros t l. apply app_nil_r. Qed.

Lemma says_prim : forall e k v id name, strict_c e = false -> says e (write_prim k v id name) [(cannot_write id name, be_field k v)].
Proof.
  intros e k v id name S w. rewrite write_prim_ok by (left; assumption). rewrite put_split, one_part, bytes_one.
  destruct (fst (put_bytes (be_field k v) (w_out w))).
  - exists [], (w_allocs w). split; [reflexivity|]. auto.
  - exists (writeError_log id name), (w_allocs w). split; [reflexivity|]. split; [apply text_writeError|discriminate].
Qed.

Lemma says_filler : forall e id size bp, usual e -> 0 <= bp -> size <= INT_MAX ->
  says e (IFF_writeZeroFillerBytes id size bp) [filler id (size - bp)].
Proof.
  intros e id size bp [NS MO] B SZ w. unfold filler. rewrite one_part, bytes_one. unfold IFF_writeZeroFillerBytes, zeros.
  destruct (Z.ltb_spec bp size) as [L|L].
  - rewrite (proj2 (Z.ltb_ge _ _)) by lia. unfold bind at 1. unfold malloc.
    rewrite MO. rewrite (proj2 (Z.ltb_lt _ _)).
    2:{ pose proof (size_t_big e). assert (2 ^ 31 <= 2 ^ (size_t_bits e - 1)) by (apply Z.pow_le_mono_r; lia).
        unfold INT_MAX in *. lia. }
    cbn [andb negb].
    unfold bind at 1. rewrite fwrite_put, put_split. cbn [w_out w_in w_log w_allocs].
    destruct (fst (put_bytes (repeat x00 (Z.to_nat (size - bp))) (w_out w))) eqn:OK.
    + exists [], (S (w_allocs w)). split; [reflexivity|]. auto.
    + unfold bind at 1, ask. rewrite NS. cbn [andb].
      rewrite run_framed_ret. eexists _, _. split; [reflexivity|]. split; [apply text_id|discriminate].
  - replace (Z.to_nat (size - bp)) with O by lia. exists [], (w_allocs w). split; [destruct w; reflexivity|]. split; reflexivity.
Qed.

Lemma says_pad : forall e id size, says e (IFF_writePaddingByte size id) [pad_part id size].
Proof.
  intros e id size w. unfold pad_part. rewrite one_part, bytes_one. unfold IFF_writePaddingByte, pad_for. rewrite c_odd_odd.
  destruct (Z.odd size).
  - unfold bind at 1, fputc. rewrite fwrite_put, put_split.
    destruct (fst (put_bytes [x00] (w_out w))) eqn:OK.
    + exists [], (w_allocs w). split; [reflexivity|]. auto.
    + rewrite run_framed_ret. eexists _, _. split; [reflexivity|]. split; [apply text_id|discriminate].
  - exists [], (w_allocs w). split; [destruct w; reflexivity|]. split; reflexivity.
Qed.

Lemma saysZ_field : forall e k v cid size name bp,
  strict_c e = false -> fieldDoesNotFitInChunk e (fieldSize k) size bp = false ->
  0 <= bp -> bp + fieldSize k <= INT_MAX ->
  forall (K : fstatus * Z -> M (bool * Z)) ps b,
  saysZ e (K (FIELD_MORE, bp + fieldSize k)) ps b ->
  (forall b w, K (FIELD_FAILURE, b) e w = Done ((false, b), w)) ->
  saysZ e (bind (IFF_writeField k v cid size name bp) K) ((cannot_write cid name, be_field k v) :: ps) b.
Proof.
  intros e k v cid size name bp NS FT B0 B1 K ps b E F w.
  unfold IFF_writeField, bind at 1. unfold bind at 1, ask at 1. rewrite FT. unfold bind at 1.
  destruct (says_prim e k v cid name NS w) as (lg & n & R & T & L). rewrite R. rewrite bytes_one in *. rewrite one_part in T.
  change (bytes_of ((cannot_write cid name, be_field k v) :: ps)) with (be_field k v ++ bytes_of ps).
  cbn [complaint]. 
  destruct (fst (put_bytes (be_field k v) (w_out w))) eqn:OK.
  - rewrite (L eq_refl) in *. unfold ret at 1, increaseBytesProcessed. rewrite wrap_s_id.
    2: lia.
    2:{ pose proof (fieldSize_range k). unfold INT_MAX in *. simpl Z.sub. lia. }
    destruct (E (mkWorld (w_in w) (snd (put_bytes (be_field k v) (w_out w))) ([] ++ w_log w) n)) as (b' & lg2 & n2 & R2 & T2 & L2).
    rewrite R2. exists b', lg2, n2. rewrite put_bytes_app_true by assumption. split; [reflexivity|].
    split; [|assumption]. rewrite T2. destruct (put_bytes (be_field k v) (w_out w)) as [ok f1]. cbn in OK. subst ok. reflexivity.
  - unfold ret at 1. rewrite F. exists bp, lg, n. rewrite put_bytes_app_false by assumption.
    split; [reflexivity|]. split; [|discriminate]. rewrite T. destruct (put_bytes (be_field k v) (w_out w)) as [ok f1]. cbn in OK. subst ok. reflexivity.
Qed.

Definition field_parts (i : Z) (names : list string) (vals : list (fkind * Z)) : list part :=
  map (fun f => (cannot_write i (fst f), be_field (fst (snd f)) (snd (snd f)))) (combine names vals).

Lemma saysZ_fields : forall e cid size, strict_c e = false -> 0 <= size <= INT_MAX ->
  forall ds vals bp, map fst vals = map fd_kind ds -> Forall (fun kv => fieldSize (fst kv) <= size) vals -> 0 <= bp <= size ->
  saysZ e (write_fields ds vals cid size bp) (field_parts cid (map fd_name ds) (fitting (size - bp) vals))
         (bp + zlength (fields_bytes (fitting (size - bp) vals))).
Proof.
  intros e cid size NS SZ. induction ds as [|d ds IH]; intros vals bp K F B.
  - destruct vals as [|? ?]; [|discriminate]. cbn [write_fields map fitting]. change (zlength (fields_bytes [])) with 0. rewrite Z.add_0_r. apply saysZ_true.
  - destruct vals as [|[k v] vals]; [discriminate|]. simpl in K. injection K as Kd K.
    inversion F as [|? ? F1 F2]; subst. simpl in F1.
    cbn [write_fields fitting map]. pose proof (fieldSize_range (fd_kind d)).
    assert (FN := fit_normal e (fd_kind d) size bp ltac:(lia) ltac:(lia)).
    destruct (Z.leb_spec (fieldSize (fd_kind d)) (size - bp)) as [C|C].
    + change (fields_bytes ((fd_kind d, v) :: ?r)) with (be_field (fd_kind d) v ++ fields_bytes r).
      rewrite zlength_app, be_field_length. unfold field_parts. cbn [combine map fst snd].
      apply saysZ_field; try assumption; try lia.
      * rewrite FN. apply Z.ltb_ge. lia.
      * replace (size - bp - fieldSize (fd_kind d)) with (size - (bp + fieldSize (fd_kind d))) by lia. rewrite Z.add_assoc.
        apply IH; [assumption|assumption|lia].
      * reflexivity.
    + unfold IFF_writeField. intros w. unfold bind, ask. rewrite FN.
      rewrite (proj2 (Z.ltb_lt _ _)) by lia. unfold ret.
      exists bp, [], (w_allocs w). split; [destruct w; reflexivity|]. split; [reflexivity|]. intros _. split; [reflexivity|].
      change (zlength (fields_bytes [])) with 0. lia.
Qed.

Lemma saysZ_all : forall e wc line ft (P : chunk -> list part) l bp,
  (forall c, In c l -> says e (wc c ft) (P c)) -> (forall c, In c l -> 0 <= chunkSize c) ->
  0 <= bp -> bp + body_size l <= INT_MAX ->
  saysZ e (write_all wc line l ft bp) (flat_map (fun x => map (within line) (P x)) l) (bp + body_size l).
Proof.
  intros e wc line ft P l. induction l as [|c l IH]; intros bp E S B0 B1; cbn [write_all flat_map].
  - change (body_size []) with 0. rewrite Z.add_0_r. apply saysZ_true.
  - intro w. rewrite body_size_cons in *.
    pose proof (S c (or_introl eq_refl)) as SC. pose proof (physical_range (chunkSize c)).
    assert (0 <= body_size l) by (apply body_size_nonneg; intros; apply S; right; assumption).
    unfold bind at 1. destruct (E c (or_introl eq_refl) w) as (lg & n & R & T & L). rewrite R.
    rewrite bytes_of_app, complaint_app, bytes_within.
    destruct (fst (put_bytes (bytes_of (P c)) (w_out w))) eqn:OK.
    + rewrite (L eq_refl) in *.
      unfold bind at 1, lift. rewrite increment_ok by (unfold INT_MIN; lia).
      assert (I := IH (bp + physical (chunkSize c)) (fun c' H' => E c' (or_intror H'))
                      (fun c' H' => S c' (or_intror H')) ltac:(lia) ltac:(lia)).
      destruct (I (mkWorld (w_in w) (snd (put_bytes (bytes_of (P c)) (w_out w))) ([] ++ w_log w) n))
        as (b & lg2 & n2 & R2 & T2 & L2).
      rewrite R2. exists b, lg2, n2. rewrite put_bytes_app_true by assumption.
      split; [reflexivity|]. split; [exact T2|]. intro Q. destruct (L2 Q) as [-> ->]. split; [reflexivity|lia].
    + exists bp, ((line ++ nl)%string :: lg), n. rewrite put_bytes_app_false by assumption.
      split; [reflexivity|]. split; [|discriminate].
      change ((line ++ nl)%string :: lg) with ([(line ++ nl)%string] ++ lg). rewrite text_app, text_one, T, complaint_within by exact OK. reflexivity.
Qed.

Lemma says_body : forall e (m : M (bool * Z)) ps b id size, usual e -> 0 <= b -> size <= INT_MAX -> saysZ e m ps b ->
  says e (r <- m ;;
          match r with
          | (ok, bp) => andM (ret ok) (andM (IFF_writeZeroFillerBytes id size bp) (IFF_writePaddingByte size id))
          end) (ps ++ [filler id (size - b)] ++ [pad_part id size]).
Proof.
  intros e m ps b id size U B S E w. unfold bind at 1.
  destruct (E w) as (b' & lg & n & R & T & L). rewrite R. rewrite bytes_of_app, complaint_app.
  destruct (fst (put_bytes (bytes_of ps) (w_out w))) eqn:OK.
  - destruct (L eq_refl) as [-> ->].
    assert (EA := says_andM e _ _ _ _ (says_filler e id size b U B S) (says_pad e id size)).
    destruct (EA (mkWorld (w_in w) (snd (put_bytes (bytes_of ps) (w_out w))) ([] ++ w_log w) n)) as (lg2 & n2 & R2 & T2 & L2).
    exists lg2, n2. rewrite put_bytes_app_true by assumption. split; [|split; [exact T2|exact L2]].
    unfold andM at 1. unfold bind at 1, ret at 1. rewrite R2. reflexivity.
  - exists lg, n. rewrite put_bytes_app_false by assumption. split; [reflexivity|]. split; [exact T|discriminate].
Qed.

Lemma parts_PROP : forall app ft ft' c, Writable app ft c -> chunkId c = PROP_ID -> parts app ft' c = parts app ft c.
Proof.
  intros app ft ft' c W I. inversion W; subst; try reflexivity. cbn in I. subst. exfalso. 
  match goal with H : ~ In _ _ |- _ => apply H end. simpl. auto.
Qed.

Lemma write_says : forall rg app e, Realises rg app -> usual e ->
  forall c ft, Writable app ft c -> says e (IFF_writeChunk rg c ft) (parts app ft c).
Proof.
  intros rg app e RG U.
  assert (NS : strict_c e = false) by apply U.
  assert (HEAD : forall c ft ps,
    says e (r <- writeExtensionChunkFields (IFF_writeChunk rg) (expected_handler app ft (chunkId c)) c 0 ;;
                 match r with
                 | (ok, bp) => andM (ret ok) (andM (IFF_writeZeroFillerBytes (chunkId c) (chunkSize c) bp)
                       (IFF_writePaddingByte (chunkSize c) (chunkId c)))
                 end) ps ->
    says e (andM (IFF_writeId (chunkId c) (chunkId c) "chunkId")
               (andM (IFF_writeLong (chunkSize c) (chunkId c) "chunkSize")
                  (writeChunkBody (IFF_writeChunk rg) rg c ft)))
            ((cannot_write (chunkId c) "chunkId", be32 (chunkId c)) :: (cannot_write (chunkId c) "chunkSize", be32 (chunkSize c)) :: ps)).
  { intros c ft ps H. apply (says_andM e _ _ [_] (_ :: ps)).
    - apply (says_prim e FId). assumption.
    - apply (says_andM e _ _ [_] ps); [apply (says_prim e FLong); assumption|].
      intro w. unfold writeChunkBody. unfold bind at 1, lift. rewrite RG. apply H. }
  induction c as [i s d|i s g subs IH|i s g props subs IHp IHs|i s vals] using chunk_tree_ind;
    intros ft W; inversion W; subst; cbn [IFF_writeChunk parts chunkId chunkSize].
  - (* raw *)
    apply (HEAD (CRaw i s (Some l))). cbn [chunkId chunkSize].
    rewrite handler_data by assumption. match goal with A : app ft i = _ |- _ => rewrite A end. cbn [writeExtensionChunkFields data_of].
    cbn [List.app].
    assert (R : saysZ e (IFF_writeRawChunk (CRaw i s (Some l)) 0)
      [(("Error writing raw chunk body of chunk '" ++ id_name i ++ "'" ++ nl)%string, ztake s l)] s).
    { intro w. unfold IFF_writeRawChunk. unfold bind at 1, ask at 1. unfold bind at 1, lift.
      rewrite wrap_size_id by (unfold INT_MAX in *; lia).
      assert (BB : block_bytes (Some l) s = Done (ztake s l)).
      { unfold block_bytes. destruct (Z.leb_spec s 0).
        - rewrite ztake_0 by lia. reflexivity.
        - rewrite (proj2 (Z.ltb_ge _ _)) by lia. reflexivity. }
      rewrite BB. unfold bind at 1. rewrite fwrite_put, put_split, one_part, bytes_one.
      destruct (fst (put_bytes (ztake s l) (w_out w))) eqn:OK.
      * rewrite (proj2 (Z.ltb_ge _ _)) by lia. exists s, [], (w_allocs w).
        split; [reflexivity|]. auto.
      * rewrite run_framed_ret. eexists _, _, _. split; [reflexivity|]. split; [apply text_id|discriminate]. }
    pose proof (says_body e _ _ s i s U ltac:(lia) ltac:(lia) R) as X. rewrite Z.sub_diag in X.
    intro w. destruct (X w) as (lg & n & X1 & X2 & X3). exists lg, n. split; [exact X1|]. split; [|exact X3].
    rewrite X2. cbn [List.app complaint]. destruct (put_bytes _ (w_out w)) as [[] f1]; reflexivity.
  - (* group *)
    apply (HEAD (CGroup i s g subs)). cbn [chunkId chunkSize].
    assert (SZ : forall c, In c subs -> 0 <= chunkSize c) by (intros; eapply Writable_size; eauto).
    assert (BN := body_size_nonneg subs SZ).
    assert (G : forall name, saysZ e (IFF_writeGroup (IFF_writeChunk rg) (CGroup i s g subs) name 0)
                  ((cannot_write i name, be32 g) :: flat_map (fun x => map (within "Error writing chunk!") (parts app g x)) subs) (4 + body_size subs)).
    { intro name. unfold IFF_writeGroup.
      change (be32 g) with (be_field FId g).
      apply saysZ_field; try assumption; try (simpl; unfold INT_MAX; lia).
      - apply fit_start.
      - apply saysZ_all; try assumption; try (simpl; lia).
        intros c I. apply IH; auto.
      - reflexivity. }
    match goal with A : In i _ |- _ => rename A into GI end.
    assert (G2 : saysZ e (writeExtensionChunkFields (IFF_writeChunk rg) (expected_handler app ft i) (CGroup i s g subs) 0)
       ((cannot_write i (if i =? CAT_ID then "contentsType" else "formType"), be32 g) ::
        flat_map (fun x => map (within "Error writing chunk!") (parts app g x)) subs) (4 + body_size subs)).
    { destruct GI as [<-|[<-|[<-|[]]]]; apply G. }
    cbn [List.app]. rewrite <- app_assoc. rewrite app_comm_cons. apply says_body; try assumption; lia.
  - (* list *)
    apply (HEAD (CList LIST_ID s g props subs)). cbn [chunkId chunkSize].
    match goal with A : forall c, In c props -> Writable _ _ _ /\ _ |- _ => rename A into HP end.
    assert (SZp : forall c, In c props -> 0 <= chunkSize c).
    { intros c I. destruct (HP c I). eapply Writable_size; eauto. }
    assert (SZs : forall c, In c subs -> 0 <= chunkSize c) by (intros; eapply Writable_size; eauto).
    assert (BNp := body_size_nonneg props SZp). assert (BNs := body_size_nonneg subs SZs).
    rewrite handler_LIST. cbn [writeExtensionChunkFields].
    cbn [List.app]. rewrite <- !app_assoc. rewrite (app_assoc (flat_map _ props)). rewrite app_comm_cons.
    apply says_body; try assumption; try lia.
    unfold IFF_writeList. change (be32 g) with (be_field FId g).
    apply saysZ_field; try assumption; try (simpl; unfold INT_MAX; lia).
    + apply fit_start.
    + apply saysZ_bind with (b1 := 4 + body_size props).
      * apply (saysZ_all e _ "Error writing PROP!" 0 (parts app g)); try assumption; try (simpl; lia).
        intros c I. destruct (HP c I) as [WP PI]. rewrite <- (parts_PROP app g 0 c WP PI). apply IHp; [assumption|]. eapply Writable_PROP; eassumption.
      * apply saysZ_all; try assumption; try lia. intros c I. apply IHs; auto.
      * reflexivity.
    + reflexivity.
  - (* fields *)
    apply (HEAD (CFields i s vals)). cbn [chunkId chunkSize].
    rewrite handler_data by assumption. unfold field_names. match goal with A : app ft i = _ |- _ => rewrite A end. cbn [writeExtensionChunkFields].
    rewrite <- app_assoc.
    apply says_body; try assumption; try apply zlength_nonneg; try lia.
    unfold write_fields_chunk. rewrite kinds_match_eqb by assumption.
    match goal with H : Forall _ vals |- _ => pose proof (saysZ_fields e i s NS ltac:(lia) (fs_fields spec) vals 0 ltac:(assumption) H ltac:(lia)) as X end.
    rewrite Z.sub_0_r in X. exact X.
Qed.

(** ** The parts are the file *)

Lemma field_parts_bytes : forall i names vals, (List.length vals <= List.length names)%nat -> bytes_of (field_parts i names vals) = fields_bytes vals.
Proof.
  intros i. induction names as [|n names IH]; intros [|kv vals] L; cbn in L; [reflexivity|lia|reflexivity|].
  unfold field_parts. cbn [combine map]. change (bytes_of (?p :: ?r)) with (snd p ++ bytes_of r). cbn [snd fst].
  fold (field_parts i names vals). rewrite IH by lia. reflexivity.
Qed.
Lemma fitting_le : forall vals s, (List.length (fitting s vals) <= List.length vals)%nat.
Proof.
  induction vals as [|[k v] vals IH]; intro s; cbn [fitting]; [cbn; lia|]. destruct (fieldSize k <=? s); cbn [List.length]; [|lia].
  specialize (IH (s - fieldSize k)). lia.
Qed.
Lemma members_bytes : forall line (P : chunk -> list part) l, (forall c, In c l -> bytes_of (P c) = emitted c) ->
  bytes_of (flat_map (fun x => map (within line) (P x)) l) = flat_map emitted l.
Proof.
  intros line P. induction l as [|c l IH]; intro H; [reflexivity|]. cbn [flat_map]. rewrite bytes_of_app, bytes_within, H by (left; reflexivity).
  rewrite IH by (intros; apply H; right; assumption). reflexivity.
Qed.
Lemma bytes_cons : forall t l ps, bytes_of ((t, l) :: ps) = l ++ bytes_of ps.
Proof. reflexivity. Qed.

Lemma parts_bytes : forall app c ft, Writable app ft c -> bytes_of (parts app ft c) = emitted c.
Proof.
  intro app. induction c as [i s d|i s g subs IH|i s g props subs IHp IHs|i s vals] using chunk_tree_ind;
    intros ft W; inversion W; subst; cbn [parts emitted chunkId chunkSize List.app]; rewrite !bytes_cons; do 2 f_equal.
  - cbn [data_of]. unfold pad_part. rewrite bytes_one. reflexivity.
  - rewrite <- !app_assoc. f_equal. rewrite !bytes_of_app, members_bytes by (intros; apply IH; auto). f_equal. unfold filler, pad_part. rewrite !bytes_one. reflexivity.
  - rewrite <- !app_assoc. f_equal.
    match goal with A : forall c, In c props -> Writable _ _ _ /\ _ |- _ => rename A into HP end.
    rewrite !bytes_of_app, !members_bytes by (intros c I; try destruct (HP c I); auto).
    do 2 f_equal. unfold filler, pad_part. rewrite !bytes_one. reflexivity.
  - rewrite <- !app_assoc. fold (field_parts i (field_names app ft i) (fitting s vals)). rewrite !bytes_of_app, field_parts_bytes.
    + unfold filler, pad_part. rewrite !bytes_one. unfold fields_body. rewrite <- !app_assoc. reflexivity.
    + unfold field_names. match goal with A : app ft i = _ |- _ => rewrite A end. rewrite map_length.
      match goal with A : kinds_match _ _ |- _ => unfold kinds_match in A; apply (f_equal (@List.length fkind)) in A; rewrite !map_length in A end.
      pose proof (fitting_le vals s). lia.
Qed.

(** ** Which part it is *)
Lemma complaint_part : forall ps f, fst (put_bytes (bytes_of ps) f) = false ->
  exists before t l behind, ps = before ++ (t, l) :: behind /\ fst (put_bytes (bytes_of before) f) = true /\
    fst (put_bytes (bytes_of before ++ l) f) = false /\ complaint ps f = t.
Proof.
  induction ps as [|[t l] ps IH]; intros f H; [discriminate|]. rewrite bytes_cons, put_bytes_app in H. cbn [complaint].
  destruct (put_bytes l f) as [[] f1] eqn:E.
  - destruct (IH f1 H) as (before & t' & l' & behind & -> & B & N & C). exists ((t, l) :: before), t', l', behind.
    split; [reflexivity|]. rewrite bytes_cons, <- app_assoc.
    assert (X : forall x, put_bytes (l ++ x) f = put_bytes x f1) by (intro x; rewrite put_bytes_app, E; reflexivity).
    rewrite !X. auto.
  - exists [], t, l, ps. split; [reflexivity|]. split; [reflexivity|]. cbn [bytes_of flat_map List.app]. rewrite E. auto.
Qed.
