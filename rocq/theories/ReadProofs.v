(** * The reader accepts everything the grammar describes *)

From Coq Require Import ZArith List Bool String Lia.
From Coq Require Import Strings.Byte.
From Verif Require Import Machine Io Types Build Read Spec Grammar Lemmas IoProofs RegProofs WriteProofs EncodeProofs.
Import ListNotations.
Open Scope Z_scope.

(** ** Worlds *)

(** The world after consuming input up to [r] with diagnostics [lg]. *)
Definition after (r : list byte) (lg : list string) (n : nat) (w : world) : world :=
  mkWorld (mkRfile r (r_seekable (w_in w))) (w_out w) (lg ++ w_log w) n.

Lemma after_after : forall r1 lg1 n1 r2 lg2 n2 w,
  after r2 lg2 n2 (after r1 lg1 n1 w) = after r2 (lg2 ++ lg1) n2 w.
Proof. intros. unfold after. simpl. rewrite app_assoc. reflexivity. Qed.

Lemma set_rest_after : forall r w, set_rest r w = after r [] (w_allocs w) w.
Proof. reflexivity. Qed.
Lemma add_log_after : forall lg w, add_log lg w = after (rest w) lg (w_allocs w) w.
Proof. intros lg [[r s] o l n]. reflexivity. Qed.

Lemma id_log_text : forall id, id_log id = id_text id.
Proof.
  intro id. unfold id_log, id_text.
  assert (E : forall x y, x mod 256 = y mod 256 -> chr x = chr y).
  { intros x y H. unfold chr. rewrite (z2b_eq x y H). reflexivity. }
  assert (K : forall k m, 0 <= k -> m = Z.shiftl 255 k ->
              chr (Z.shiftr (Z.land id m) k) = chr (id / 2 ^ k)).
  { intros k m K ->. apply E. rewrite land_byte by assumption.
    rewrite Z.shiftr_div_pow2 by assumption. rewrite Z.div_mul by (apply Z.pow_nonzero; lia).
    change (2 ^ 8) with 256. apply Z.mod_mod. lia. }
  rewrite (K 8), (K 16) by (lia || reflexivity).
  rewrite Z.shiftr_div_pow2 by lia.
  f_equal. apply E. change 255 with (Z.shiftl 255 0). rewrite land_byte by lia.
  rewrite Z.pow_0_r, Z.div_1_r, Z.mul_1_r. change (2 ^ 8) with 256. apply Z.mod_mod. lia.
Qed.

(** ** Padding and skipping *)

Lemma zlength_mod2_cases : forall (p : list byte) s, zlength p = s mod 2 ->
  (Z.odd s = false /\ p = []) \/ (Z.odd s = true /\ exists b, p = [b]).
Proof.
  intros p s H. rewrite mod2_odd in H. destruct (Z.odd s).
  - right. split; [reflexivity|]. destruct p as [|b [|c p]]; unfold zlength in H; simpl in H; try lia.
    exists b. reflexivity.
  - left. split; [reflexivity|]. apply zlength_0. assumption.
Qed.

Lemma read_padding_ok : forall s id p r e w, zlength p = s mod 2 -> rest w = p ++ r ->
  IFF_readPaddingByte s id e w = Done (true, after r (pad_warning p) (w_allocs w) w).
Proof.
  intros s id p r e w H R. unfold IFF_readPaddingByte. rewrite c_odd_odd.
  destruct (zlength_mod2_cases p s H) as [[-> ->]|[-> [b ->]]].
  - simpl in R. unfold ret, after. simpl. rewrite <- R. destruct w as [[? ?] ? ? ?]. reflexivity.
  - unfold bind, fgetc. rewrite R. simpl. destruct (b2z b =? 0); reflexivity.
Qed.

Lemma skip_ok : forall id s bp u r e w, strict_c e = false ->
  s - bp <= INT_MAX -> zlength u = Z.max 0 (s - bp) -> rest w = u ++ r ->
  r_seekable (w_in w) = true \/ u = [] ->
  IFF_skipUnknownBytes id s bp e w = Done (true, after r (skip_warning id (zlength u)) (w_allocs w) w).
Proof.
  intros id s bp u r e w NS I U R SK. unfold IFF_skipUnknownBytes, skip_warning.
  destruct (Z.ltb_spec bp s) as [L|L].
  - rewrite (proj2 (Z.ltb_ge _ _)) by lia.
    assert (E : zlength u = s - bp) by lia.
    rewrite (proj2 (Z.ltb_lt 0 (zlength u))) by lia.
    destruct SK as [SK|SK]; [|subst u; unfold zlength in E; simpl in E; lia].
    unfold bind at 1, fseek_cur. rewrite SK. unfold bind at 1, ask. rewrite NS.
    rewrite run_framed_ret. rewrite R. rewrite zdrop_app_eq by lia.
    unfold framed_log. rewrite id_log_text, E. unfold add_log, after, set_in. simpl. rewrite SK. reflexivity.
  - assert (u = []) by (apply zlength_0; lia). subst u. simpl in R.
    unfold ret, after. simpl. rewrite <- R. destruct w as [[? ?] ? ? ?]. reflexivity.
Qed.

(** ** Fields *)

Lemma fit_general : forall e k s bp, 0 <= bp <= 2 ^ 30 -> INT_MIN <= s <= INT_MAX ->
  fieldDoesNotFitInChunk e (fieldSize k) s bp = negb ((s <? fieldSize k) || (bp + fieldSize k <=? s)).
Proof.
  intros e k s bp B S. pose proof (fieldSize_range k).
  destruct (Z.ltb_spec s (fieldSize k)) as [C|C].
  - cbn [orb negb]. unfold fieldDoesNotFitInChunk. apply Z.ltb_ge.
    rewrite (wrap_size_id e bp) by lia. pose proof (size_t_pow e) as P.
    unfold INT_MIN, INT_MAX, wrap_u in *. set (T := 2 ^ size_t_bits e) in *.
    rewrite Zminus_mod_idemp_l.
    replace (s - fieldSize k) with (s - fieldSize k + T + (-1) * T) by lia.
    rewrite Z.mod_add by lia. rewrite Z.mod_small by lia. lia.
  - rewrite fit_normal by (unfold INT_MAX in *; lia).
    cbn [orb]. destruct (Z.ltb_spec s (bp + fieldSize k)), (Z.leb_spec (bp + fieldSize k) s); try reflexivity; lia.
Qed.

Lemma read_fields_ok : forall e cid s, strict_c e = false -> INT_MIN <= s <= INT_MAX ->
  forall ds vals bp w r,
  map fst vals = map fd_kind ds ->
  Forall (fun kv => in_range (fst kv) (snd kv)) vals ->
  (forall n kv, nth_error vals n = Some kv -> (List.length (present s bp vals) <= n)%nat -> snd kv = 0) ->
  0 <= bp -> bp + 4 * zlength ds <= 2 ^ 30 ->
  rest w = fields_bytes (present s bp vals) ++ r ->
  read_fields ds (map (fun d => (fd_kind d, 0)) ds) cid s bp e w
  = Done ((true, vals, bp + zlength (fields_bytes (present s bp vals))), after r [] (w_allocs w) w).
Proof.
  intros e cid s NS SR. induction ds as [|d ds IH]; intros vals bp w r K F A B0 B1 R.
  - destruct vals; [|discriminate]. simpl in *. change (zlength []) with 0. rewrite Z.add_0_r.
    unfold ret, after. simpl. rewrite <- R. destruct w as [[? ?] ? ? ?]. reflexivity.
  - destruct vals as [|[k v] vals]; [discriminate|]. simpl in K. injection K as Kd K. subst k.
    inversion F as [|? ? F1 F2]; subst. simpl in F1.
    pose proof (fieldSize_range (fd_kind d)) as FR. rewrite zlength_cons in B1.
    pose proof (zlength_nonneg _ ds) as ZN.
    cbn [map read_fields present] in *. unfold IFF_readField. unfold bind at 1. unfold bind at 1, ask at 1.
    rewrite fit_general by lia.
    destruct ((s <? fieldSize (fd_kind d)) || (bp + fieldSize (fd_kind d) <=? s)) eqn:C.
    + cbn [negb].
      change (fields_bytes ((fd_kind d, v) :: ?r)) with (be_field (fd_kind d) v ++ fields_bytes r) in *.
      rewrite <- app_assoc in R.
      unfold bind at 1. rewrite (read_prim_ok (fd_kind d) e w v _ cid (fd_name d) ltac:(left; assumption) F1 R).
      unfold ret at 1, increaseBytesProcessed.
      rewrite wrap_s_id by (simpl Z.sub; lia).
      unfold bind at 1.
      rewrite (IH vals (bp + fieldSize (fd_kind d)) _ r); try assumption; try lia.
      * unfold ret. rewrite zlength_app, be_field_length. rewrite Z.add_assoc. reflexivity.
      * intros n kv N L. apply (A (S n) kv); [assumption|]. simpl. lia.
      * reflexivity.
    + cbn [negb]. unfold ret at 1. cbn [fields_bytes flat_map] in *. change (zlength []) with 0. rewrite Z.add_0_r.
      rewrite app_nil_l in R.
      assert (Z0 : forall n kv, nth_error ((fd_kind d, v) :: vals) n = Some kv -> snd kv = 0).
      { intros n kv N. apply (A n kv N). simpl. lia. }
      assert (E : (fd_kind d, v) :: vals = map (fun d => (fd_kind d, 0)) (d :: ds)).
      { clear - K Z0. assert (v = 0) by (apply (Z0 O (fd_kind d, v)); reflexivity). subst v.
        simpl. f_equal.
        assert (Z1 : forall n kv, nth_error vals n = Some kv -> snd kv = 0) by (intros n kv N; apply (Z0 (S n)); assumption).
        clear Z0. revert ds K Z1. induction vals as [|[k x] vals IHv]; intros [|d2 ds] K Z1; try discriminate; [reflexivity|].
        simpl in K. injection K as -> K. assert (x = 0) by (apply (Z1 O (fd_kind d2, x)); reflexivity). subst x.
        simpl. f_equal. apply IHv; [assumption|]. intros n kv N. apply (Z1 (S n)); assumption. }
      rewrite E. unfold ret, after. simpl. rewrite <- R. destruct w as [[? ?] ? ? ?]. reflexivity.
Qed.

(** ** Headers *)

Lemma readChunk_header : forall rg f ft e w i s r, strict_c e = false ->
  in_range FId i -> in_range FLong s -> rest w = be32 i ++ be32 s ++ r ->
  IFF_readChunk rg (S f) ft e w =
  readChunkBody (IFF_readChunk rg f) rg f i s ft e (after r [] (w_allocs w) w).
Proof.
  intros rg f ft e w i s r NS I S R. cbn [IFF_readChunk].
  change (IFF_readId ID_EMPTY "") with (read_prim FId ID_EMPTY "").
  unfold bind at 1.
  rewrite (read_prim_ok FId e w i (be32 s ++ r) ID_EMPTY "" ltac:(left; assumption) I R).
  change (IFF_readLong i "chunkSize") with (read_prim FLong i "chunkSize").
  unfold bind at 1.
  rewrite (read_prim_ok FLong e (set_rest (be32 s ++ r) w) s r i "chunkSize" ltac:(left; assumption) S eq_refl).
  reflexivity.
Qed.

Lemma malloc_ok_usual : forall e sz w, usual e -> sz < 2 ^ (size_t_bits e - 1) ->
  malloc sz e w = Done (true, after (rest w) [] (S (w_allocs w)) w).
Proof.
  intros e sz w [_ MO] H. unfold malloc. rewrite MO, (proj2 (Z.ltb_lt _ _)) by assumption.
  destruct w as [[? ?] ? ? ?]. reflexivity.
Qed.

Lemma half_size_t : forall e, 2 ^ 31 <= 2 ^ (size_t_bits e - 1).
Proof. intro e. pose proof (size_t_big e). apply Z.pow_le_mono_r; lia. Qed.

Lemma increment_advance : forall bp c,
  IFF_incrementChunkSize bp c =
  match advance bp (chunkSize c) with Some b => Done b | None => Undefined UB_signed_overflow end.
Proof.
  intros bp c. unfold IFF_incrementChunkSize, advance, IFF_ID_SIZE.
  rewrite c_odd_odd. replace (bp + 4 + 4 + chunkSize c) with (bp + 8 + chunkSize c) by lia.
  destruct (INT_MAX <? bp + 4); [reflexivity|].
  destruct (Z.odd (chunkSize c)); [|reflexivity].
  destruct (wrap_s 32 (bp + 8 + chunkSize c) =? INT_MAX); reflexivity.
Qed.

(** ** Completeness *)

Lemma Parsed_length : forall e app ft l c lg, Parsed e app ft l c lg -> 8 <= zlength l.
Proof.
  intros e app ft l c lg H. inversion H; subst; rewrite !zlength_app, ?be32_length.
  - pose proof (zlength_nonneg _ data). pose proof (zlength_nonneg _ p). lia.
  - pose proof (zlength_nonneg _ (fields_bytes (present s 0 vals))).
    pose proof (zlength_nonneg _ skipped). pose proof (zlength_nonneg _ p). lia.
  - pose proof (zlength_nonneg _ l0). pose proof (zlength_nonneg _ p). lia.
  - pose proof (zlength_nonneg _ l0). pose proof (zlength_nonneg _ p). lia.
Qed.

Definition SkipOk (app : apps) (sk : bool) (lg : list string) : Prop :=
  sk = true \/ lg = [] \/ forall ft i, app ft i = None.

Lemma SkipOk_app : forall app sk a b, SkipOk app sk (a ++ b) -> SkipOk app sk a /\ SkipOk app sk b.
Proof.
  intros app sk a b [H|[H|H]]; unfold SkipOk; [tauto| |tauto].
  apply app_eq_nil in H. tauto.
Qed.

Lemma filter_app_prop : forall (a b : list chunk) f, filter f (a ++ b) = filter f a ++ filter f b.
Proof. intros. apply filter_app. Qed.

Section Complete.
  Variables (rg : option registry) (app : apps) (e : env).
  Hypothesis RG : Realises rg app.
  Hypothesis U : usual e.
  Hypothesis SA : SaneApps app.

  Let NS : strict_c e = false := not_strict e U.

  Definition reads_as (ft : Z) (l : list byte) (c : chunk) (lg : list string) : Prop :=
    forall fuel w r, (List.length l < fuel)%nat -> zlength l < 2 ^ (size_t_bits e - 1) ->
      SkipOk app (r_seekable (w_in w)) lg -> rest w = l ++ r ->
      exists n, IFF_readChunk rg fuel ft e w = Done (Some c, after r lg n w).

  Definition reads_members (g bp s : Z) (l : list byte) (cs : list chunk) (lg : list string) (total : Z) : Prop :=
    forall f fuel w r, (List.length l < f)%nat -> (List.length l <= fuel)%nat ->
      SkipOk app (r_seekable (w_in w)) lg -> rest w = l ++ r ->
      (forall i subs, zlength subs * 8 + zlength l < 2 ^ (size_t_bits e - 1) -> exists n,
         readGroupSubChunks (IFF_readChunk rg f) fuel (CGroup i s g subs) g bp e w
         = Done ((true, CGroup i s g (subs ++ cs), total), after r (size_warning e "group" s total ++ lg) n w)) /\
      (forall props subs, zlength subs * 8 + zlength l < 2 ^ (size_t_bits e - 1) ->
         zlength props * 8 + zlength l < 2 ^ (size_t_bits e - 1) -> exists n,
         readListSubChunks (IFF_readChunk rg f) fuel (CList LIST_ID s g props subs) g bp e w
         = Done ((true, CList LIST_ID s g (props ++ filter is_prop cs)
                                     (subs ++ filter (fun c => negb (is_prop c)) cs), total),
                 after r (size_warning e "LIST" s total ++ lg) n w)).

  Lemma warn_size : forall what s bp w, (if s <? bp then truncated_warning what s else ret tt) e w
    = Done (tt, after (rest w) (size_warning e what s bp) (w_allocs w) w).
  Proof.
    intros what s bp w. unfold size_warning. destruct (s <? bp).
    - unfold truncated_warning, bind, ask. rewrite NS. destruct w as [[? ?] ? ? ?]. reflexivity.
    - destruct w as [[? ?] ? ? ?]. reflexivity.
  Qed.

  Lemma members_end : forall g bp s, s <= bp -> reads_members g bp s [] [] [] bp.
  Proof.
    intros g bp s L f fuel w r _ _ _ R. simpl in R. split; intros; exists (w_allocs w).
    - destruct fuel; cbn [readGroupSubChunks chunkSize]; rewrite (proj2 (Z.ltb_ge bp s)) by assumption;
        unfold bind; rewrite warn_size; rewrite !app_nil_r, R; reflexivity.
    - destruct fuel; cbn [readListSubChunks chunkSize]; rewrite (proj2 (Z.ltb_ge bp s)) by assumption;
        unfold bind; rewrite warn_size; cbn [filter]; rewrite !app_nil_r, R; reflexivity.
  Qed.

  Lemma members_next : forall g bp s l c lg bp' l2 cs lg2 total,
    bp < s -> reads_as g l c lg -> 8 <= zlength l -> advance bp (chunkSize c) = Some bp' ->
    reads_members g bp' s l2 cs lg2 total ->
    reads_members g bp s (l ++ l2) (c :: cs) (lg2 ++ lg) total.
  Proof.
    intros g bp s l c lg bp' l2 cs lg2 total L RC L8 AD RM f fuel w r F1 F2 SK R.
    rewrite app_length in F1, F2. rewrite <- app_assoc in R.
    assert (L8' : (8 <= List.length l)%nat) by (unfold zlength in L8; lia).
    pose proof (zlength_nonneg _ l2) as Z2.
    destruct (SkipOk_app _ _ _ _ SK) as [SK2 SK1].
    destruct fuel as [|fuel]; [lia|].
    assert (MEM : forall k, k * 8 + zlength (l ++ l2) < 2 ^ (size_t_bits e - 1) ->
              zlength l < 2 ^ (size_t_bits e - 1) \/ k < 0).
    { intros k H. rewrite zlength_app in H. lia. }
    split.
    - intros i subs MS. rewrite zlength_app in MS. pose proof (zlength_nonneg _ subs).
      destruct (RC f w (l2 ++ r)) as [n RCE]; [lia|lia|assumption|assumption|].
      cbn [readGroupSubChunks chunkSize]. rewrite (proj2 (Z.ltb_lt bp s)) by assumption.
      unfold bind at 1. rewrite RCE. unfold bind at 1. unfold IFF_attachToGroup. cbn [as_group].
      unfold bind at 1. rewrite malloc_ok_usual by (assumption || unfold sizeof_pointer; lia).
      unfold ret at 1. cbn [set_subs]. unfold bind at 1, lift. rewrite increment_advance, AD.
      set (w1 := after (rest (after (l2 ++ r) lg n w)) [] _ _).
      destruct (RM f fuel w1 r) as [G _]; [lia|lia|exact SK2|reflexivity|].
      destruct (G i (subs ++ [c])) as [n2 GE].
      { rewrite zlength_app, zlength_cons, zlength_nil. lia. }
      exists n2. rewrite GE. unfold w1. rewrite !after_after. rewrite <- !app_assoc. cbn [List.app]. reflexivity.
    - intros props subs MS MP. rewrite zlength_app in MS, MP. pose proof (zlength_nonneg _ subs).
      pose proof (zlength_nonneg _ props).
      destruct (RC f w (l2 ++ r)) as [n RCE]; [lia|lia|assumption|assumption|].
      cbn [readListSubChunks chunkSize]. rewrite (proj2 (Z.ltb_lt bp s)) by assumption.
      unfold bind at 1. rewrite RCE. unfold bind at 1. cbn [filter].
      change (chunkId c =? IFF_ID_PROP) with (is_prop c).
      destruct (is_prop c) eqn:CP; cbn [negb].
      + unfold addPropToList.
        unfold bind at 1. rewrite malloc_ok_usual by (assumption || unfold sizeof_pointer; lia).
        unfold ret at 1. unfold bind at 1, lift. rewrite increment_advance, AD.
        set (w1 := after (rest (after (l2 ++ r) lg n w)) [] _ _).
        destruct (RM f fuel w1 r) as [_ G]; [lia|lia|exact SK2|reflexivity|].
        destruct (G (props ++ [c]) subs) as [n2 GE].
        { lia. }
        { rewrite zlength_app, zlength_cons, zlength_nil. lia. }
        exists n2. rewrite GE. unfold w1. rewrite !after_after. rewrite <- !app_assoc. cbn [List.app]. reflexivity.
      + unfold IFF_attachToGroup. cbn [as_group].
        unfold bind at 1. rewrite malloc_ok_usual by (assumption || unfold sizeof_pointer; lia).
        unfold ret at 1. cbn [set_subs]. unfold bind at 1, lift. rewrite increment_advance, AD.
        set (w1 := after (rest (after (l2 ++ r) lg n w)) [] _ _).
        destruct (RM f fuel w1 r) as [_ G]; [lia|lia|exact SK2|reflexivity|].
        destruct (G props (subs ++ [c])) as [n2 GE].
        { rewrite zlength_app, zlength_cons, zlength_nil. lia. }
        { lia. }
        exists n2. rewrite GE. unfold w1. rewrite !after_after. rewrite <- !app_assoc. cbn [List.app]. reflexivity.
  Qed.

  (** The tail of readChunkBody after the fields were read. *)
  Lemma body_tail : forall (m : M (bool * chunk * Z)) c bp w1 w id s ft u p r,
    m e w = Done ((true, c, bp), w1) -> chunkId c = id -> s - bp <= INT_MAX ->
    zlength u = Z.max 0 (s - bp) -> zlength p = s mod 2 -> rest w1 = u ++ p ++ r ->
    r_seekable (w_in w1) = true \/ u = [] ->
    (r0 <- m ;;
     match r0 with
     | (ok, c1, bp0) =>
         ok3 <- andM (ret ok)
                  (andM (IFF_skipUnknownBytes (chunkId c1) s bp0) (IFF_readPaddingByte s (chunkId c1))) ;;
         if ok3 then ret (Some c1) else lift (IFF_freeChunk rg c1 ft) ;;; ret None
     end) e w
    = Done (Some c, after r (pad_warning p ++ skip_warning id (zlength u)) (w_allocs w1) w1).
  Proof.
    intros m c bp w1 w id s ft u p r H ID I ZU ZP R SK.
    unfold bind at 1. rewrite H. unfold bind at 1. unfold andM at 1. unfold bind at 1, ret at 1.
    unfold andM. unfold bind at 1.
    rewrite (skip_ok (chunkId c) s bp u (p ++ r)) by assumption.
    rewrite (read_padding_ok s (chunkId c) p r) by (assumption || reflexivity).
    unfold ret. rewrite after_after. subst id. reflexivity.
  Qed.

  Lemma reads_raw : forall ft i data p,
    in_range FId i -> ~ In i group_ids -> app ft i = None ->
    zlength data <= INT_MAX -> zlength p = zlength data mod 2 ->
    reads_as ft (be32 i ++ be32 (zlength data) ++ data ++ p)
      (CRaw i (zlength data) (Some data)) (pad_warning p).
  Proof.
    intros ft i data p I NG A Z ZP fuel w r F MEM SK R.
    destruct fuel as [|f]; [lia|]. pose proof (zlength_nonneg _ data) as ZD.
    rewrite <- !app_assoc in R.
    rewrite (readChunk_header rg f ft e w i (zlength data) (data ++ p ++ r)); try assumption.
    2:{ simpl. unfold INT_MAX in Z. lia. }
    unfold readChunkBody. unfold bind at 1, lift. rewrite RG, handler_data, A by assumption.
    cbn [createExtensionChunk readExtensionChunkFields]. unfold IFF_createRawChunk.
    unfold bind at 1. unfold bind at 1, ask at 1. unfold bind at 1.
    pose proof (half_size_t e) as HS.
    rewrite malloc_ok_usual by (assumption || unfold sizeof_RawChunk; lia).
    rewrite (wrap_size_id e (zlength data)) by (unfold INT_MAX in *; lia).
    unfold bind at 1. rewrite malloc_ok_usual by (assumption || unfold INT_MAX in *; lia).
    unfold ret at 1.
    eexists. eapply eq_trans; [eapply (body_tail _ (CRaw i (zlength data) (Some data)) (zlength data))|].
    - unfold IFF_readRawChunk. unfold bind at 1, ask. unfold bind at 1.
      rewrite (wrap_size_id e (zlength data)) by (unfold INT_MAX in *; lia).
      rewrite (fread_app _ data (p ++ r)) by reflexivity.
      rewrite Z.ltb_irrefl. rewrite (proj2 (Z.ltb_ge _ _)) by (unfold INT_MAX in *; lia).
      rewrite Z.add_0_l. reflexivity.
    - reflexivity.
    - unfold INT_MAX; lia.
    - instantiate (1 := []). rewrite Z.sub_diag. reflexivity.
    - eassumption.
    - reflexivity.
    - right; reflexivity.
    - rewrite set_rest_after, !after_after. unfold skip_warning. rewrite zlength_nil.
      change (0 <? 0) with false. cbv iota. rewrite !app_nil_r. reflexivity.
  Qed.

  Lemma create_fields_ok : forall s cid size w, exists n,
    create_fields s cid size e w
    = Done (Some (CFields cid size (map (fun d => (fd_kind d, 0)) (fs_fields s))), after (rest w) [] n w).
  Proof.
    intros s cid size w. unfold create_fields, bind. pose proof (half_size_t e).
    eexists. rewrite malloc_ok_usual by (assumption || unfold sizeof_Fields; lia). reflexivity.
  Qed.

  Lemma reads_fields : forall ft i s spec vals skipped p,
    in_range FId i -> ~ In i group_ids -> app ft i = Some spec -> in_range FLong s ->
    kinds_match spec vals -> Forall (fun kv => in_range (fst kv) (snd kv)) vals ->
    absent_zero s vals ->
    zlength skipped = Z.max 0 (s - zlength (fields_bytes (present s 0 vals))) ->
    zlength p = s mod 2 ->
    reads_as ft (be32 i ++ be32 s ++ fields_bytes (present s 0 vals) ++ skipped ++ p)
      (CFields i s vals) (pad_warning p ++ skip_warning i (zlength skipped)).
  Proof.
    intros ft i s spec vals skipped p I NG A S K F AZ ZS ZP fuel w r FU MEM SK R.
    destruct fuel as [|f]; [lia|].
    rewrite <- !app_assoc in R.
    rewrite (readChunk_header rg f ft e w i s (fields_bytes (present s 0 vals) ++ skipped ++ p ++ r)); try assumption.
    unfold readChunkBody. unfold bind at 1, lift. rewrite RG, handler_data, A by assumption.
    cbn [createExtensionChunk readExtensionChunkFields].
    unfold bind at 1.
    destruct (create_fields_ok spec i s (after (fields_bytes (present s 0 vals) ++ skipped ++ p ++ r) [] (w_allocs w) w))
      as [n CF]. rewrite CF.
    assert (SL : zlength (fs_fields spec) <= 2 ^ 28) by (eapply SA; eassumption).
    pose proof (zlength_nonneg _ (fields_bytes (present s 0 vals))) as ZN.
    assert (SI : INT_MIN <= s <= INT_MAX) by (simpl in S; unfold INT_MIN, INT_MAX; lia).
    eexists. eapply eq_trans; [eapply (body_tail _ (CFields i s vals) (zlength (fields_bytes (present s 0 vals))))|].
    - unfold read_fields_chunk. rewrite map_map. cbn [fst]. rewrite fkinds_eqb_refl.
      unfold bind at 1.
      rewrite (read_fields_ok e i s NS SI (fs_fields spec) vals 0 _ (skipped ++ p ++ r)); try assumption; try lia.
      + unfold ret. rewrite Z.add_0_l. reflexivity.
      + reflexivity.
    - reflexivity.
    - lia.
    - eassumption.
    - eassumption.
    - reflexivity.
    - destruct SK as [SK|[SK|SK]].
      + left. exact SK.
      + right. apply app_eq_nil in SK. destruct SK as [_ SK]. unfold skip_warning in SK.
        destruct (Z.ltb_spec 0 (zlength skipped)); [discriminate|].
        apply zlength_0. pose proof (zlength_nonneg _ skipped). lia.
      + rewrite SK in A. discriminate.
    - rewrite !after_after, !app_nil_r. reflexivity.
  Qed.

  Lemma Members_bound : forall g bp s l cs lg total, Members e app g bp s l cs lg total ->
    s <= total.
  Proof. intros g bp s l cs lg total H. induction H; assumption. Qed.

  Lemma reads_group : forall ft i s g l subs p lg total,
    In i [FORM_ID; CAT_ID; PROP_ID] -> in_range FLong s -> in_range FId g -> s <= total ->
    reads_members g 4 s l subs lg total -> zlength p = s mod 2 ->
    reads_as ft (be32 i ++ be32 s ++ be32 g ++ l ++ p)
      (CGroup i s g subs) (pad_warning p ++ size_warning e "group" s total ++ lg).
  Proof.
    intros ft i s g l subs p lg total GI SR G TOT RM ZP fuel w r FU MEM SK R.
    destruct fuel as [|f]; [lia|].
    rewrite !app_length in FU. change (List.length (be32 _)) with 4%nat in FU.
    rewrite !zlength_app in MEM. rewrite !be32_length in MEM. pose proof (zlength_nonneg _ p) as ZPN.
    rewrite <- !app_assoc in R.
    assert (IR : in_range FId i) by (destruct GI as [<-|[<-|[<-|[]]]]; vm_compute; split; congruence).
    rewrite (readChunk_header rg f ft e w i s (be32 g ++ l ++ p ++ r)); try assumption.
    destruct (SkipOk_app _ _ _ _ SK) as [_ SK2]. destruct (SkipOk_app _ _ _ _ SK2) as [_ SK3].
    unfold readChunkBody. unfold bind at 1, lift. rewrite RG.
    destruct (group_handler app ft i GI) as (h & -> & HI).
    set (w1 := after (be32 g ++ l ++ p ++ r) [] (w_allocs w) w).
    pose proof (half_size_t e) as HS.
    assert (CR : createExtensionChunk h i s e w1 = Done (Some (CGroup i s 0 []), after (rest w1) [] (S (w_allocs w1)) w1)).
    { assert (CG : IFF_createUnparsedGroup i s e w1 = Done (Some (CGroup i s 0 []), after (rest w1) [] (S (w_allocs w1)) w1)).
      { unfold IFF_createUnparsedGroup, IFF_createGroup, bind.
        rewrite malloc_ok_usual by (assumption || unfold sizeof_Group; lia). reflexivity. }
      destruct HI as [<-|[<-|[<-|[]]]]; exact CG. }
    unfold bind at 1. rewrite CR.
    set (w2 := after (rest w1) [] (S (w_allocs w1)) w1).
    destruct (RM f f (after (l ++ p ++ r) [] (w_allocs w2) w2) (p ++ r)) as [RG1 _]; [lia|lia|exact SK3|reflexivity|].
    destruct (RG1 i []) as [n RGE]; [rewrite zlength_nil; lia|].
    assert (RD : forall name, IFF_readGroup (IFF_readChunk rg f) f (CGroup i s 0 []) name 0 e w2
      = Done ((true, CGroup i s g subs, total), after (p ++ r) (size_warning e "group" s total ++ lg) n w2)).
    { intro name. unfold IFF_readGroup. cbn [as_group chunkId chunkSize]. unfold IFF_readField.
      unfold bind at 1. unfold bind at 1, ask at 1. rewrite fit_start. unfold bind at 1.
      rewrite (read_prim_ok FId e w2 g (l ++ p ++ r) i name ltac:(left; assumption) G eq_refl).
      unfold ret at 1. change (increaseBytesProcessed 0 (fieldSize FId)) with 4. cbn [set_groupType].
      rewrite set_rest_after. rewrite RGE. cbn [List.app]. rewrite after_after, app_nil_r. reflexivity. }
    eexists. eapply eq_trans; [eapply (body_tail _ (CGroup i s g subs) total)|].
    - destruct HI as [<-|[<-|[<-|[]]]]; cbn [readExtensionChunkFields]; apply RD.
    - reflexivity.
    - unfold INT_MAX; lia.
    - instantiate (1 := []). change (zlength []) with 0. lia.
    - eassumption.
    - reflexivity.
    - right; reflexivity.
    - unfold w2, w1. rewrite !after_after. unfold skip_warning. rewrite zlength_nil.
      change (0 <? 0) with false. cbv iota. rewrite !app_nil_r. reflexivity.
  Qed.

  Lemma reads_list : forall ft s g l members p lg total,
    in_range FLong s -> in_range FId g -> s <= total ->
    reads_members g 4 s l members lg total -> zlength p = s mod 2 ->
    reads_as ft (be32 LIST_ID ++ be32 s ++ be32 g ++ l ++ p)
      (CList LIST_ID s g (filter is_prop members) (filter (fun c => negb (is_prop c)) members))
      (pad_warning p ++ size_warning e "LIST" s total ++ lg).
  Proof.
    intros ft s g l members p lg total SR G TOT RM ZP fuel w r FU MEM SK R.
    destruct fuel as [|f]; [lia|].
    rewrite !app_length in FU. change (List.length (be32 _)) with 4%nat in FU.
    rewrite !zlength_app in MEM. rewrite !be32_length in MEM. pose proof (zlength_nonneg _ p) as ZPN.
    rewrite <- !app_assoc in R.
    assert (IR : in_range FId LIST_ID) by (vm_compute; split; congruence).
    rewrite (readChunk_header rg f ft e w LIST_ID s (be32 g ++ l ++ p ++ r)); try assumption.
    destruct (SkipOk_app _ _ _ _ SK) as [_ SK2]. destruct (SkipOk_app _ _ _ _ SK2) as [_ SK3].
    unfold readChunkBody. unfold bind at 1, lift. rewrite RG, handler_LIST.
    set (w1 := after (be32 g ++ l ++ p ++ r) [] (w_allocs w) w).
    pose proof (half_size_t e) as HS.
    unfold bind at 1. cbn [createExtensionChunk readExtensionChunkFields].
    unfold IFF_createUnparsedList, IFF_createList. unfold bind at 1.
    rewrite malloc_ok_usual by (assumption || unfold sizeof_List; lia). unfold ret at 1.
    set (w2 := after (rest w1) [] _ w1). change IFF_ID_LIST with LIST_ID.
    destruct (RM f f (after (l ++ p ++ r) [] (w_allocs w2) w2) (p ++ r)) as [_ RG1]; [lia|lia|exact SK3|reflexivity|].
    destruct (RG1 [] []) as [n RGE]; [rewrite zlength_nil; lia|rewrite zlength_nil; lia|].
    eexists. eapply eq_trans; [eapply (body_tail _ (CList LIST_ID s g (filter is_prop members) (filter (fun c => negb (is_prop c)) members)) total)|].
    - unfold IFF_readList. cbn [as_group chunkId chunkSize]. unfold IFF_readField.
      unfold bind at 1. unfold bind at 1, ask at 1. rewrite fit_start. unfold bind at 1.
      rewrite (read_prim_ok FId e w2 g (l ++ p ++ r) LIST_ID "contentsType" ltac:(left; assumption) G eq_refl).
      unfold ret at 1. change (increaseBytesProcessed 0 (fieldSize FId)) with 4. cbn [set_groupType].
      rewrite set_rest_after. unfold bind at 1. rewrite RGE. cbn [List.app]. rewrite after_after, app_nil_r.
      unfold ret. reflexivity.
    - reflexivity.
    - unfold INT_MAX; lia.
    - instantiate (1 := []). change (zlength []) with 0. lia.
    - eassumption.
    - reflexivity.
    - right; reflexivity.
    - unfold w2, w1. rewrite !after_after. unfold skip_warning. rewrite zlength_nil.
      change (0 <? 0) with false. cbv iota. rewrite !app_nil_r. reflexivity.
  Qed.

  Theorem read_complete :
    (forall ft l c lg, Parsed e app ft l c lg -> reads_as ft l c lg) /\
    (forall g bp s l cs lg total, Members e app g bp s l cs lg total -> reads_members g bp s l cs lg total /\ s <= total).
  Proof.
    apply (Parsed_Members_ind e app).
    - intros. apply reads_raw; assumption.
    - intros. eapply reads_fields; eassumption.
    - intros ft i s g l subs p lg total H1 H2 H3 H4 [H5 H6] H7. eapply reads_group; eassumption.
    - intros ft s g l members p lg total H2 H3 H4 [H5 H6] H7. eapply reads_list; eassumption.
    - intros g bp s H. split; [apply members_end; assumption|assumption].
    - intros g bp s l c lg bp' l2 cs lg2 total H1 H2 H3 H4 H5 [H6 H7]. split; [|assumption].
      eapply members_next; try eassumption. eapply Parsed_length; eassumption.
  Qed.
End Complete.
