(** * Whatever the reader does on any input: soundness, termination, absence of
    undefined behaviour *)

From Coq Require Import ZArith List Bool String Lia.
From Coq Require Import Strings.Byte.
From Verif Require Import Machine Io Types Build Read Spec Grammar Lemmas IoProofs RegProofs WriteProofs EncodeProofs ReadProofs DetProofs.
Import ListNotations.
Open Scope Z_scope.

(** ** Freeing well-typed trees *)

Lemma expected_group : forall app ft i, In i [FORM_ID; CAT_ID; PROP_ID] ->
  exists h, expected_handler app ft i = h /\ In h [HForm; HCAT; HProp].
Proof. intros. apply group_handler. assumption. Qed.

Lemma free_typed : forall rg app, Realises rg app -> forall c ft, Typed app ft c ->
  IFF_freeChunk rg c ft = Done tt.
Proof.
  intros rg app RG.
  assert (ALL : forall l g, (forall c, In c l -> IFF_freeChunk rg c g = Done tt) ->
                free_all (IFF_freeChunk rg) l g = Done tt).
  { induction l as [|c l IH]; intros g H; [reflexivity|].
    cbn [free_all]. rewrite H by (left; reflexivity). cbn [obind]. apply IH. intros c' I. apply H. right; assumption. }
  induction c as [i s d|i s g subs IH|i s g props subs IHp IHs|i s vals] using chunk_tree_ind; intros ft T;
    inversion T; subst; cbn [IFF_freeChunk]; rewrite RG.
  - rewrite handler_data by assumption.
    match goal with A : app ft _ = None |- _ => cbn [chunkId]; rewrite A end. reflexivity.
  - destruct (group_handler app ft i) as (h & E & HI); [assumption|]. cbn [chunkId]. rewrite E. cbn [obind].
    destruct HI as [<-|[<-|[<-|[]]]]; cbn [freeExtensionChunk IFF_freeGroup]; apply ALL; intros c I; apply IH; auto.
  - cbn [chunkId]. rewrite handler_LIST. cbn [obind freeExtensionChunk IFF_freeList].
    rewrite ALL by (intros c I; apply IHs; auto). cbn [obind]. apply ALL.
    intros c I. apply IHp; [assumption|].
    match goal with A : forall c, In c props -> _ |- _ => apply A; assumption end.
  - cbn [chunkId]. rewrite handler_data by assumption.
    match goal with A : app ft _ = Some _ |- _ => rewrite A end. reflexivity.
Qed.

Lemma Parsed_Typed : forall e app,
  (forall ft l c lg, Parsed e app ft l c lg -> Typed app ft c) /\
  (forall g bp s l cs lg total, Members e app g bp s l cs lg total -> forall c, In c cs -> Typed app g c).
Proof.
  intros e app. apply (Parsed_Members_ind e app); intros.
  - constructor; assumption.
  - econstructor; eassumption.
  - constructor; assumption.
  - constructor.
    + intros c I. apply filter_In in I. destruct I as [I P]. split; [auto|].
      apply Z.eqb_eq. exact P.
    + intros c I. apply filter_In in I. apply H2. apply I.
  - contradiction.
  - match goal with A : In _ (_ :: _) |- _ => destruct A as [<-|A]; auto end.
Qed.

(** ** Benign inputs *)

Lemma Benign_suffix : forall app a b, Benign app (a ++ b) -> Benign app b.
Proof.
  intros app a b H pre i s post E. apply (H (a ++ pre) i s post). rewrite E, app_assoc. reflexivity.
Qed.

Lemma Benign_prefix : forall app a b, Benign app (a ++ b) -> Benign app a.
Proof.
  intros app a b H pre i s post E. apply (H pre i s (post ++ b)). rewrite E. rewrite <- !app_assoc. reflexivity.
Qed.

Lemma physical_ge : forall s, s <= INT_MAX -> 0 <= s -> 8 + s <= physical s <= 9 + s.
Proof. intros s H H0. unfold physical, round_even. pose proof (Z.mod_pos_bound s 2 ltac:(lia)). lia. Qed.

Lemma advance_exact : forall bp s, 0 <= bp -> 0 <= s -> bp + physical s <= INT_MAX ->
  advance bp s = Some (bp + physical s).
Proof.
  intros bp s B S H. unfold advance. unfold physical, round_even in *. rewrite mod2_odd in *.
  unfold INT_MAX in *. rewrite (proj2 (Z.ltb_ge _ _)) by (destruct (Z.odd s); lia).
  rewrite wrap_s_id by (destruct (Z.odd s); simpl Z.sub; lia).
  destruct (Z.odd s).
  - rewrite (proj2 (Z.eqb_neq _ _)) by lia. f_equal. lia.
  - f_equal. lia.
Qed.

Lemma Parsed_benign : forall e app,
  (forall ft l c lg, Parsed e app ft l c lg -> Benign app l -> zlength l <= INT_MAX + 8 ->
     0 <= chunkSize c /\ physical (chunkSize c) <= zlength l) /\
  (forall g bp s l cs lg total, Members e app g bp s l cs lg total -> Benign app l -> 0 <= bp ->
     bp + zlength l <= INT_MAX -> s <= total <= Z.max (bp + zlength l) bp).
Proof.
  intros e app. apply (Parsed_Members_ind e app).
  - intros ft i data p I NG A Z ZP B L. cbn [chunkSize]. pose proof (zlength_nonneg _ data). split; [assumption|].
    rewrite !zlength_app, !be32_length. unfold physical, round_even. lia.
  - intros ft i s spec vals skipped p I NG A S K F AZ ZS ZP B L. cbn [chunkSize].
    assert (0 <= s) by (eapply (B [] i s); [reflexivity|assumption|assumption|right; eauto]).
    split; [assumption|]. rewrite !zlength_app, !be32_length. unfold physical, round_even.
    pose proof (zlength_nonneg _ (fields_bytes (present s 0 vals))). lia.
  - intros ft i s g l subs p lg total GI S G M IH ZP B L. cbn [chunkSize].
    assert (0 <= s).
    { eapply (B [] i s); [reflexivity| |assumption|left].
      - destruct GI as [<-|[<-|[<-|[]]]]; vm_compute; split; congruence.
      - destruct GI as [<-|[<-|[<-|[]]]]; simpl; tauto. }
    split; [assumption|].
    assert (B2 : Benign app l).
    { apply (Benign_prefix app l p). apply (Benign_suffix app (be32 i ++ be32 s ++ be32 g)).
      rewrite <- !app_assoc. exact B. }
    rewrite !zlength_app, !be32_length in *. pose proof (zlength_nonneg _ p).
    specialize (IH B2 ltac:(lia)). assert (4 + zlength l <= INT_MAX) by lia. specialize (IH ltac:(assumption)).
    unfold physical, round_even. pose proof (zlength_nonneg _ l). lia.
  - intros ft s g l subs p lg total S G M IH ZP B L. cbn [chunkSize].
    assert (0 <= s).
    { eapply (B [] LIST_ID s); [reflexivity| |assumption|left].
      - vm_compute; split; congruence.
      - simpl; tauto. }
    split; [assumption|].
    assert (B2 : Benign app l).
    { apply (Benign_prefix app l p). apply (Benign_suffix app (be32 LIST_ID ++ be32 s ++ be32 g)).
      rewrite <- !app_assoc. exact B. }
    rewrite !zlength_app, !be32_length in *. pose proof (zlength_nonneg _ p).
    specialize (IH B2 ltac:(lia)). assert (4 + zlength l <= INT_MAX) by lia. specialize (IH ltac:(assumption)).
    unfold physical, round_even. pose proof (zlength_nonneg _ l). lia.
  - intros g bp s L B _ _. rewrite zlength_nil. lia.
  - intros g bp s l c lg bp' l2 cs lg2 total L P IHP AD M IHM B B0 B1.
    rewrite zlength_app in *. pose proof (zlength_nonneg _ l2).
    destruct (IHP (Benign_prefix _ _ _ B)) as [C0 C1]; [lia|].
    rewrite advance_exact in AD by lia. injection AD as <-.
    assert (0 <= physical (chunkSize c)).
    { unfold physical, round_even. pose proof (Z.mod_pos_bound (chunkSize c) 2 ltac:(lia)). lia. }
    specialize (IHM (Benign_suffix _ _ _ B) ltac:(lia) ltac:(lia)). lia.
Qed.

Section Sound.
  Variables (rg : option registry) (app : apps) (e : env).
  Hypothesis RG : Realises rg app.
  Hypothesis NS : strict_c e = false.
  Hypothesis SA : SaneApps app.

  Definition has_apps : Prop := exists ft i s, app ft i = Some s.

  (** From [w] to [w'] the bytes [l] were consumed and [lg] reported.  Bytes [q]
      that are not in the file are only "consumed" by seeking beyond its end. *)
  Record step (w w' : world) (l : list byte) (lg : list string) : Prop := mkStep {
    st_in : exists q, rest w ++ q = l ++ rest w' /\
              (q = [] \/ (rest w' = [] /\ r_seekable (w_in w) = true /\ has_apps));
    st_len : zlength (rest w') <= zlength (rest w);
    st_out : w_out w' = w_out w;
    st_seek : r_seekable (w_in w') = r_seekable (w_in w);
    st_log : w_log w' = lg ++ w_log w }.

  Record fails (w w' : world) (lg : list string) : Prop := mkFails {
    fl_len : zlength (rest w') <= zlength (rest w);
    fl_out : w_out w' = w_out w;
    fl_seek : r_seekable (w_in w') = r_seekable (w_in w);
    fl_log : w_log w' = lg ++ w_log w }.

  Lemma step_after : forall w l r lg n, rest w = l ++ r -> step w (after r lg n w) l lg.
  Proof.
    intros w l r lg n R. constructor; try reflexivity.
    - exists []. rewrite app_nil_r. split; [exact R|left; reflexivity].
    - simpl. rewrite R, zlength_app. pose proof (zlength_nonneg _ l). lia.
  Qed.

  Lemma step_refl : forall w, step w w [] [].
  Proof.
    intro w. constructor; try reflexivity.
    - exists []. rewrite app_nil_r. split; [reflexivity|left; reflexivity].
  Qed.

  Lemma step_trans : forall w w1 w2 l1 l2 lg1 lg2,
    step w w1 l1 lg1 -> step w1 w2 l2 lg2 -> step w w2 (l1 ++ l2) (lg2 ++ lg1).
  Proof.
    intros w w1 w2 l1 l2 lg1 lg2 [[q1 [E1 Q1]] L1 O1 S1 G1] [[q2 [E2 Q2]] L2 O2 S2 G2].
    constructor; try congruence.
    - exists (q1 ++ q2). rewrite app_assoc, E1, <- !app_assoc, E2. split; [reflexivity|].
      destruct Q1 as [->|(R1 & K1 & A1)].
      + destruct Q2 as [->|(R2 & K2 & A2)]; [left; reflexivity|]. right. rewrite <- S1. auto.
      + right. split; [|auto]. apply zlength_0. rewrite R1, zlength_nil in L2.
        pose proof (zlength_nonneg _ (rest w2)). lia.
    - lia.
    - rewrite G2, G1, app_assoc. reflexivity.
  Qed.

  Lemma fails_step : forall w w1 w2 l lg1 lg2, step w w1 l lg1 -> fails w1 w2 lg2 -> fails w w2 (lg2 ++ lg1).
  Proof.
    intros w w1 w2 l lg1 lg2 [_ L1 O1 S1 G1] [L2 O2 S2 G2]. constructor; try congruence; [lia|].
    rewrite G2, G1, app_assoc. reflexivity.
  Qed.

  Lemma fails_trans : forall w w1 w2 lg1 lg2, fails w w1 lg1 -> fails w1 w2 lg2 -> fails w w2 (lg2 ++ lg1).
  Proof.
    intros w w1 w2 lg1 lg2 [L1 O1 S1 G1] [L2 O2 S2 G2]. constructor; try congruence; [lia|].
    rewrite G2, G1, app_assoc. reflexivity.
  Qed.

  Lemma step_fails : forall w w' l lg, step w w' l lg -> fails w w' lg.
  Proof. intros w w' l lg [_ L O S G]. constructor; assumption. Qed.

  Lemma step_allocs : forall w w' l lg n, step (after (rest w) [] n w) w' l lg -> step w w' l lg.
  Proof. intros w w' l lg n [I L O S G]. constructor; assumption. Qed.

  Lemma fails_allocs : forall w w' lg n, fails (after (rest w) [] n w) w' lg -> fails w w' lg.
  Proof. intros w w' lg n [L O S G]. constructor; assumption. Qed.

  (** *** When may something go wrong *)

  Definition NoMem (L : Z) : Prop :=
    exists n sz, 0 < sz <= L /\ (malloc_ok e n sz = false \/ 2 ^ (size_t_bits e - 1) <= sz).

  Definition bad (P : Prop) (L : Z) (u : ub) : Prop :=
    (u = UB_signed_overflow /\ ~ P) \/ (u = UB_null_deref /\ NoMem L).

  Lemma bad_weaken : forall (P P' : Prop) L L' u, (P -> P') -> L' <= L -> bad P' L' u -> bad P L u.
  Proof.
    intros P P' L L' u I LE [[-> NP]|[-> N]].
    - left. split; [reflexivity|]. tauto.
    - right. split; [reflexivity|]. destruct N as (n & sz & B & N). exists n, sz. split; [lia|exact N].
  Qed.

  Lemma malloc_cases : forall sz w,
    (malloc sz e w = Done (true, after (rest w) [] (S (w_allocs w)) w) /\ sz < 2 ^ (size_t_bits e - 1)) \/
    (malloc sz e w = Done (false, after (rest w) [] (S (w_allocs w)) w) /\ (0 < sz -> NoMem sz)).
  Proof.
    intros sz w. unfold malloc.
    destruct (Z.ltb_spec sz (2 ^ (size_t_bits e - 1))) as [L|L].
    - destruct (malloc_ok e (w_allocs w) sz) eqn:M.
      + left. split; [destruct w as [[? ?] ? ? ?]; reflexivity|assumption].
      + right. split; [destruct w as [[? ?] ? ? ?]; reflexivity|intro; exists (w_allocs w), sz; split; [lia|left; exact M]].
    - right. split; [destruct w as [[? ?] ? ? ?]; reflexivity|intro; exists O, sz; split; [lia|right; assumption]].
  Qed.

  (** *** Primitive reads *)

  Lemma prim_cases : forall k w id name,
    (exists v r, in_range k v /\ rest w = be_field k v ++ r /\
       read_prim k id name e w = Done (Some v, after r [] (w_allocs w) w)) \/
    (zlength (rest w) < fieldSize k /\
     read_prim k id name e w = Done (None, after [] (readError_log id name) (w_allocs w) w)).
  Proof.
    intros k w id name. destruct (Z.ltb_spec (zlength (rest w)) (fieldSize k)) as [L|L].
    - right. split; [assumption|]. rewrite read_prim_short by assumption. reflexivity.
    - left. pose proof (fieldSize_range k).
      destruct (be_field_surj k (ztake (fieldSize k) (rest w))) as (v & IR & E).
      { rewrite zlength_ztake. lia. }
      exists v, (zdrop (fieldSize k) (rest w)). split; [assumption|].
      assert (R : rest w = be_field k v ++ zdrop (fieldSize k) (rest w)) by (rewrite E; symmetry; apply ztake_zdrop).
      split; [exact R|]. apply (read_prim_ok k e w v _ id name ltac:(left; assumption) IR R).
  Qed.

  Lemma fails_short : forall w lg n, fails w (after [] lg n w) lg.
  Proof. intros w lg n. constructor; try reflexivity. simpl. rewrite zlength_nil. apply zlength_nonneg. Qed.

  Lemma skip_cases : forall id s bp w, s <= INT_MAX -> s - bp <= INT_MAX -> (bp < s -> has_apps) ->
    (exists w' u, IFF_skipUnknownBytes id s bp e w = Done (true, w') /\
       zlength u = Z.max 0 (s - bp) /\ step w w' u (skip_warning id (zlength u))) \/
    (exists w', IFF_skipUnknownBytes id s bp e w = Done (false, w') /\ fails w w' []).
  Proof.
    intros id s bp w SM SB HA. unfold IFF_skipUnknownBytes, skip_warning.
    destruct (Z.ltb_spec bp s) as [L|L].
    - rewrite (proj2 (Z.ltb_ge _ _)) by lia. unfold bind at 1, fseek_cur.
      destruct (r_seekable (w_in w)) eqn:SK.
      + left. unfold bind at 1, ask. rewrite NS. rewrite run_framed_ret.
        set (n := s - bp) in *.
        pose proof (zlength_nonneg _ (rest w)) as ZR.
        set (u := ztake n (rest w) ++ zeros (n - zlength (rest w))).
        assert (ZU : zlength u = n).
        { unfold u, zeros. rewrite zlength_app, zlength_ztake.
          destruct (Z.leb_spec n (zlength (rest w))).
          - replace (Z.to_nat (n - zlength (rest w))) with O by lia. cbn [repeat]. rewrite zlength_nil. lia.
          - rewrite zlength_repeat by lia. lia. }
        eexists. exists u. split; [reflexivity|]. rewrite ZU. split; [lia|].
        rewrite (proj2 (Z.ltb_lt 0 n)) by lia.
        constructor; cbn [add_log set_in w_in w_out w_log r_rest r_seekable]; try reflexivity.
        * destruct (Z.leb_spec n (zlength (rest w))).
          -- exists []. rewrite app_nil_r. split; [|left; reflexivity].
             unfold u, zeros. replace (Z.to_nat (n - zlength (rest w))) with O by lia. cbn [repeat].
             rewrite app_nil_r. symmetry. apply ztake_zdrop.
          -- exists (zeros (n - zlength (rest w))).
             assert (D : zdrop n (rest w) = []).
             { rewrite zdrop_skipn. apply skipn_all2. unfold zlength in *. lia. }
             rewrite D. split; [|right; auto].
             unfold u. rewrite ztake_all by lia. rewrite app_nil_r. reflexivity.
        * pose proof (ztake_zdrop _ n (rest w)) as E. apply (f_equal zlength) in E. rewrite zlength_app in E.
          pose proof (zlength_nonneg _ (ztake n (rest w))). lia.
        * symmetry; exact SK.
        * unfold framed_log. rewrite id_log_text. reflexivity.
      + right. exists w. split; [unfold bind at 1; rewrite SK; reflexivity|]. constructor; reflexivity.
    - left. exists w, []. split; [reflexivity|]. split; [rewrite zlength_nil; lia|]. apply step_refl.
  Qed.

  Lemma pad_cases : forall s id w,
    (exists w' p, IFF_readPaddingByte s id e w = Done (true, w') /\ zlength p = s mod 2 /\ step w w' p (pad_warning p)) \/
    (exists w' lg, IFF_readPaddingByte s id e w = Done (false, w') /\ fails w w' lg).
  Proof.
    intros s id w. destruct (rest w) as [|b r] eqn:R.
    - destruct (Z.odd s) eqn:O.
      + right. unfold IFF_readPaddingByte. rewrite c_odd_odd, O. unfold bind at 1, fgetc. rewrite R.
        rewrite run_framed_ret. eexists. eexists. split; [reflexivity|]. constructor; try reflexivity.
      + left. exists (after [] (pad_warning []) (w_allocs w) w), [].
        assert (Z : zlength (@nil byte) = s mod 2) by (rewrite mod2_odd, O; reflexivity).
        split; [apply read_padding_ok; assumption|]. split; [assumption|]. apply step_after. assumption.
    - left. set (p := if Z.odd s then [b] else []).
      assert (Z : zlength p = s mod 2) by (unfold p; rewrite mod2_odd; destruct (Z.odd s); reflexivity).
      set (r' := if Z.odd s then r else b :: r).
      assert (R' : rest w = p ++ r') by (rewrite R; unfold p, r'; destruct (Z.odd s); reflexivity).
      exists (after r' (pad_warning p) (w_allocs w) w), p.
      split; [apply read_padding_ok; assumption|]. split; [assumption|]. apply step_after. assumption.
  Qed.

  (** *** The end of readChunkBody *)

  Definition tail (s ft : Z) (r : bool * chunk * Z) : M (option chunk) :=
    match r with
    | (ok, c1, bp) =>
        ok3 <- andM (ret ok)
                 (andM (IFF_skipUnknownBytes (chunkId c1) s bp) (IFF_readPaddingByte s (chunkId c1))) ;;
        if ok3 then ret (Some c1) else lift (IFF_freeChunk rg c1 ft) ;;; ret None
    end.

  Lemma readChunkBody_eq : forall rc fuel i s ft,
    readChunkBody rc rg fuel i s ft =
    (h <- lift (find_handler rg ft i) ;;
     oc <- createExtensionChunk h i s ;;
     match oc with
     | None => ret None
     | Some c => bind (readExtensionChunkFields rc fuel h c 0) (tail s ft)
     end).
  Proof. reflexivity. Qed.

  Lemma tail_false : forall s ft c bp w, Typed app ft c -> tail s ft (false, c, bp) e w = Done (None, w).
  Proof.
    intros s ft c bp w T. unfold tail, andM, bind, ret, lift. rewrite (free_typed rg app RG c ft T). reflexivity.
  Qed.

  Lemma tail_true : forall s ft c bp w, Typed app ft c -> s <= INT_MAX -> s - bp <= INT_MAX -> (bp < s -> has_apps) ->
    (exists w' u p, tail s ft (true, c, bp) e w = Done (Some c, w') /\
       zlength u = Z.max 0 (s - bp) /\ zlength p = s mod 2 /\
       step w w' (u ++ p) (pad_warning p ++ skip_warning (chunkId c) (zlength u))) \/
    (exists w' lg, tail s ft (true, c, bp) e w = Done (None, w') /\ fails w w' lg).
  Proof.
    intros s ft c bp w T SM SB HA.
    destruct (skip_cases (chunkId c) s bp w SM SB HA) as [(w1 & u & E & ZU & ST)|(w1 & E & F)].
    - destruct (pad_cases s (chunkId c) w1) as [(w2 & p & E2 & ZP & ST2)|(w2 & lg & E2 & F2)].
      + left. exists w2, u, p. split; [unfold tail, andM, bind, ret; rewrite E, E2; reflexivity|].
        split; [assumption|]. split; [assumption|]. eapply step_trans; eassumption.
      + right. exists w2, (lg ++ skip_warning (chunkId c) (zlength u)).
        split; [unfold tail, andM, bind, ret, lift; rewrite E, E2, (free_typed rg app RG c ft T); reflexivity|].
        eapply fails_step; eassumption.
    - right. exists w1, [].
      split; [unfold tail, andM, bind, ret, lift; rewrite E, (free_typed rg app RG c ft T); reflexivity|assumption].
  Qed.

  (** *** Fields *)

  Lemma present_cons : forall s bp k v vals,
    present s bp ((k, v) :: vals) =
    if (s <? fieldSize k) || (bp + fieldSize k <=? s) then (k, v) :: present s (bp + fieldSize k) vals else [].
  Proof. reflexivity. Qed.

  Definition fields_outcome (s : Z) (ds : list fdesc) (bp : Z) (w : world)
      (o : outcome ((bool * list (fkind * Z) * Z) * world)) : Prop :=
    match o with
    | Done ((true, vals, bp'), w') =>
        bp' = bp + zlength (fields_bytes (present s bp vals)) /\
        map fst vals = map fd_kind ds /\
        Forall (fun kv => in_range (fst kv) (snd kv)) vals /\
        (forall n kv, nth_error vals n = Some kv -> (List.length (present s bp vals) <= n)%nat -> snd kv = 0) /\
        step w w' (fields_bytes (present s bp vals)) []
    | Done ((false, vals, _), w') => map fst vals = map fd_kind ds /\ exists lg, fails w w' lg
    | _ => False
    end.

  Lemma read_fields_sound : forall cid s, INT_MIN <= s <= INT_MAX -> forall ds bp w,
    0 <= bp -> bp + 4 * zlength ds <= 2 ^ 30 ->
    fields_outcome s ds bp w (read_fields ds (map (fun d => (fd_kind d, 0)) ds) cid s bp e w).
  Proof.
    intros cid s SR. induction ds as [|d ds IH]; intros bp w B0 B1.
    - cbn. split; [|split; [|split; [|split]]].
      + change (zlength (fields_bytes (present s bp []))) with 0. rewrite Z.add_0_r. reflexivity.
      + reflexivity.
      + constructor.
      + intros [|n] kv N; discriminate.
      + apply step_refl.
    - pose proof (fieldSize_range (fd_kind d)) as FR. rewrite zlength_cons in B1. pose proof (zlength_nonneg _ ds) as ZN.
      cbn [map read_fields]. unfold IFF_readField. unfold bind at 1. unfold bind at 1, ask at 1.
      rewrite fit_general by lia.
      destruct ((s <? fieldSize (fd_kind d)) || (bp + fieldSize (fd_kind d) <=? s)) eqn:C; cbn [negb].
      + unfold bind at 1.
        destruct (prim_cases (fd_kind d) w cid (fd_name d)) as [(v & r & IR & R & E)|(L & E)]; rewrite E.
        * unfold ret at 1. unfold increaseBytesProcessed. rewrite wrap_s_id by (simpl Z.sub; lia).
          unfold bind at 1.
          specialize (IH (bp + fieldSize (fd_kind d)) (after r [] (w_allocs w) w) ltac:(lia) ltac:(lia)).
          destruct (read_fields ds _ cid s (bp + fieldSize (fd_kind d)) e _) as [[[[[|] vals] bp'] w']| |]; try contradiction;
          unfold ret; cbn [fields_outcome] in IH |- *.
          -- destruct IH as (-> & K & F & A & ST). rewrite present_cons, C.
             change (fields_bytes ((fd_kind d, v) :: ?r)) with (be_field (fd_kind d) v ++ fields_bytes r).
             rewrite zlength_app, be_field_length, Z.add_assoc. split; [reflexivity|].
             split; [cbn [map fst]; rewrite K; reflexivity|]. split; [constructor; assumption|]. split.
             ++ intros [|n] kv N LE; [simpl in LE; lia|]. simpl in N, LE. apply (A n kv N). lia.
             ++ change (@nil string) with (@nil string ++ []). eapply step_trans; [apply step_after; exact R|exact ST].
          -- destruct IH as (K & lg & FL). split; [cbn [map fst]; rewrite K; reflexivity|].
             exists (lg ++ []). eapply fails_step; [apply step_after; exact R|exact FL].
        * unfold ret. cbn [IFF_deriveSuccess fields_outcome].
          split; [cbn [map fst]; rewrite map_map; reflexivity|]. eexists. apply fails_short.
      + unfold ret. cbn [IFF_deriveSuccess fields_outcome].
        rewrite present_cons, C. change (zlength (fields_bytes [])) with 0. rewrite Z.add_0_r.
        split; [reflexivity|]. split; [cbn [map fst]; rewrite map_map; reflexivity|].
        assert (IN : forall kv, In kv ((fd_kind d, 0) :: map (fun d => (fd_kind d, 0)) ds) -> snd kv = 0).
        { intros kv [<-|I]; [reflexivity|]. apply in_map_iff in I. destruct I as (x & <- & _). reflexivity. }
        split; [|split].
        * apply Forall_forall. intros kv I. rewrite (IN kv I). destruct (fst kv); simpl; lia.
        * intros n kv N _. apply IN. eapply nth_error_In; eassumption.
        * apply step_refl.
  Qed.

  (** *** Loops

      [SafeC ft l sk]: with [l] left to read, reading a member of a group of
      type [ft] overflows no counter.  [SafeM g bp s l sk]: nor does reading the
      rest of a group of type [g] and size [s] from position [bp].  These are
      parameters, instantiated twice below. *)

  Variable SafeC : Z -> list byte -> bool -> Prop.
  Variable SafeM : Z -> Z -> Z -> list byte -> bool -> Prop.
  Notation safeC ft w := (SafeC ft (rest w) (r_seekable (w_in w))).
  Notation safeM g bp s w := (SafeM g bp s (rest w) (r_seekable (w_in w))).

  Hypothesis safe_enter : forall ft i s g r sk, In i group_ids -> in_range FLong s -> in_range FId g ->
    SafeC ft (be32 i ++ be32 s ++ be32 g ++ r) sk -> SafeM g 4 s r sk.
  Hypothesis safe_member : forall g bp s l sk, bp < s -> SafeM g bp s l sk -> SafeC g l sk.
  Hypothesis safe_next : forall g bp s w w1 l c lg, bp < s -> safeM g bp s w ->
    step w w1 l lg -> Parsed e app g l c lg ->
    exists bp', advance bp (chunkSize c) = Some bp' /\ safeM g bp' s w1.

  Definition chunk_outcome (ft : Z) (w : world) (o : outcome (option chunk * world)) : Prop :=
    match o with
    | Done (Some c, w') =>
        exists l lg, step w w' l lg /\ Parsed e app ft l c lg /\ zlength (rest w') + 8 <= zlength (rest w)
    | Done (None, w') => exists lg, fails w w' lg
    | Undefined u => bad (safeC ft w) (zlength (rest w)) u
    | OutOfFuel => False
    end.

  Definition sound_at (f : nat) : Prop :=
    forall ft w, (List.length (rest w) < f)%nat -> chunk_outcome ft w (IFF_readChunk rg f ft e w).

  Definition group_outcome (i s g : Z) (subs : list chunk) (bp L : Z) (P : Prop) (w : world)
      (o : outcome ((bool * chunk * Z) * world)) : Prop :=
    match o with
    | Done ((true, c, total), w') => exists cs l lg,
        c = CGroup i s g (subs ++ cs) /\ step w w' l (size_warning e "group" s total ++ lg) /\
        Members e app g bp s l cs lg total
    | Done ((false, c, _), w') => exists cs lg,
        c = CGroup i s g (subs ++ cs) /\ (forall x, In x cs -> Typed app g x) /\ fails w w' lg
    | Undefined u => bad P L u
    | OutOfFuel => False
    end.

  Definition list_outcome (s g : Z) (props subs : list chunk) (bp L : Z) (P : Prop) (w : world)
      (o : outcome ((bool * chunk * Z) * world)) : Prop :=
    match o with
    | Done ((true, c, total), w') => exists cs l lg,
        c = CList LIST_ID s g (props ++ filter is_prop cs) (subs ++ filter (fun c => negb (is_prop c)) cs) /\
        step w w' l (size_warning e "LIST" s total ++ lg) /\
        Members e app g bp s l cs lg total
    | Done ((false, c, _), w') => exists cs lg,
        c = CList LIST_ID s g (props ++ filter is_prop cs) (subs ++ filter (fun c => negb (is_prop c)) cs) /\
        (forall x, In x cs -> Typed app g x) /\ fails w w' lg
    | Undefined u => bad P L u
    | OutOfFuel => False
    end.

  Lemma warn_size' : forall what s bp w, (if s <? bp then truncated_warning what s else ret tt) e w
    = Done (tt, after (rest w) (size_warning e what s bp) (w_allocs w) w).
  Proof.
    intros what s bp w. unfold size_warning. destruct (s <? bp).
    - unfold truncated_warning, bind, ask. rewrite NS. destruct w as [[? ?] ? ? ?]. reflexivity.
    - destruct w as [[? ?] ? ? ?]. reflexivity.
  Qed.

  (** [P]: the input as a whole is safe. *)
  Definition room (P : Prop) (g bp s : Z) (w : world) : Prop := P -> safeM g bp s w.

  (** One more member: the position after it. *)
  Lemma advance_room : forall P g s w w1 l c lg bp, bp < s -> room P g bp s w -> step w w1 l lg ->
    Parsed e app g l c lg ->
    (exists bp', advance bp (chunkSize c) = Some bp' /\ room P g bp' s w1) \/
    (advance bp (chunkSize c) = None /\ ~ P).
  Proof.
    intros P g s w w1 l c lg bp LT RM ST PA.
    destruct (advance bp (chunkSize c)) as [bp'|] eqn:AD.
    - left. exists bp'. split; [reflexivity|]. intros HP.
      destruct (safe_next _ _ _ _ _ _ _ _ LT (RM HP) ST PA) as (b & E & SM). rewrite AD in E. injection E as ->. exact SM.
    - right. split; [reflexivity|]. intro HP.
      destruct (safe_next _ _ _ _ _ _ _ _ LT (RM HP) ST PA) as (b & E & SM). rewrite AD in E. discriminate.
  Qed.

  Lemma group_loop : forall f, sound_at f -> forall P i s g L fuel subs bp w,
    (List.length (rest w) < fuel)%nat -> (List.length (rest w) < f)%nat ->
    zlength subs * 8 + zlength (rest w) <= L -> room P g bp s w ->
    group_outcome i s g subs bp L P w
      (readGroupSubChunks (IFF_readChunk rg f) fuel (CGroup i s g subs) g bp e w).
  Proof.
    intros f SF P i s g L. induction fuel as [|fuel IH]; intros subs bp w F1 F2 ML RM; [lia|].
    cbn [readGroupSubChunks chunkSize]. destruct (Z.ltb_spec bp s) as [LT|GE].
    - unfold bind at 1. specialize (SF g w F2) as SC.
      destruct (IFF_readChunk rg f g e w) as [[[c|] w1]|u|]; cbn [chunk_outcome] in SC.
      + destruct SC as (l & lg & ST & PA & LEN).
        unfold bind at 1. unfold IFF_attachToGroup. cbn [as_group]. unfold bind at 1.
        assert (LEN' : (List.length (rest w1) + 8 <= List.length (rest w))%nat) by (unfold zlength in LEN; lia).
        pose proof (zlength_nonneg _ subs) as ZS. pose proof (zlength_nonneg _ (rest w1)) as ZR.
        destruct (malloc_cases ((zlength subs + 1) * sizeof_pointer) w1) as [[-> _]|[-> NM]].
        * unfold ret at 1. cbn [set_subs]. unfold bind at 1, lift. rewrite increment_advance.
          set (w2 := after (rest w1) [] _ w1).
          destruct (advance_room P g s w w1 l c lg bp LT RM ST PA) as [(bp' & AD & RM')|(AD & NP)]; rewrite AD.
          -- assert (ST2 : step w w2 l lg).
             { rewrite <- (app_nil_r l). change lg with ([] ++ lg). eapply step_trans; [exact ST|apply step_after; reflexivity]. }
             specialize (IH (subs ++ [c]) bp' w2).
             rewrite zlength_app, zlength_cons, zlength_nil in IH.
             change (rest w2) with (rest w1) in IH.
             specialize (IH ltac:(lia) ltac:(lia) ltac:(unfold sizeof_pointer in *; lia) RM').
             destruct (readGroupSubChunks _ fuel _ g bp' e w2) as [[[[[|] c'] total] w3]|u|]; cbn [group_outcome] in IH |- *.
             ++ destruct IH as (cs & l2 & lg2 & -> & ST3 & M). exists (c :: cs), (l ++ l2), (lg2 ++ lg).
                split; [rewrite <- app_assoc; reflexivity|]. split.
                ** rewrite app_assoc. eapply step_trans; eassumption.
                ** econstructor; eassumption.
             ++ destruct IH as (cs & lg2 & -> & TY & FL). exists (c :: cs), (lg2 ++ lg).
                split; [rewrite <- app_assoc; reflexivity|]. split.
                ** intros x [<-|I]; [|auto]. eapply (proj1 (Parsed_Typed e app)); eassumption.
                ** eapply fails_step; eassumption.
             ++ assumption.
             ++ assumption.
          -- left. auto.
        * right. split; [reflexivity|]. unfold sizeof_pointer in NM. specialize (NM ltac:(lia)).
          destruct NM as (kk & sz & B & NM); exists kk, sz; split; [lia|exact NM].
      + destruct SC as (lg & FL). unfold ret. cbn [group_outcome]. exists [], lg. rewrite app_nil_r.
        split; [reflexivity|]. split; [intros x []|assumption].
      + eapply bad_weaken; [| |exact SC].
        * intro HP. apply (safe_member _ _ _ _ _ LT (RM HP)).
        * pose proof (zlength_nonneg _ subs). lia.
      + assumption.
    - unfold bind at 1. rewrite warn_size'. unfold ret. cbn [group_outcome].
      exists [], [], []. rewrite !app_nil_r. split; [reflexivity|]. split; [apply step_after; reflexivity|].
      constructor. assumption.
  Qed.

  Lemma list_loop : forall f, sound_at f -> forall P s g L fuel props subs bp w,
    (List.length (rest w) < fuel)%nat -> (List.length (rest w) < f)%nat ->
    zlength props * 8 + zlength subs * 8 + zlength (rest w) <= L -> room P g bp s w ->
    list_outcome s g props subs bp L P w
      (readListSubChunks (IFF_readChunk rg f) fuel (CList LIST_ID s g props subs) g bp e w).
  Proof.
    intros f SF P s g L. induction fuel as [|fuel IH]; intros props subs bp w F1 F2 ML RM; [lia|].
    cbn [readListSubChunks chunkSize]. destruct (Z.ltb_spec bp s) as [LT|GE].
    - unfold bind at 1. specialize (SF g w F2) as SC.
      destruct (IFF_readChunk rg f g e w) as [[[c|] w1]|u|]; cbn [chunk_outcome] in SC.
      + destruct SC as (l & lg & ST & PA & LEN).
        unfold bind at 1.
        assert (LEN' : (List.length (rest w1) + 8 <= List.length (rest w))%nat) by (unfold zlength in LEN; lia).
        pose proof (zlength_nonneg _ subs) as ZS. pose proof (zlength_nonneg _ props) as ZP.
        pose proof (zlength_nonneg _ (rest w1)) as ZR.
        change (chunkId c =? IFF_ID_PROP) with (is_prop c).
        assert (NEXT : forall n props' subs',
          props' = props ++ filter is_prop [c] -> subs' = subs ++ filter (fun c => negb (is_prop c)) [c] ->
          list_outcome s g props subs bp L P w
            ((bp' <- lift (IFF_incrementChunkSize bp c) ;;
              readListSubChunks (IFF_readChunk rg f) fuel (CList LIST_ID s g props' subs') g bp') e (after (rest w1) [] n w1))).
        { intros n props' subs' EP ES. unfold bind at 1, lift. rewrite increment_advance.
          set (w2 := after (rest w1) [] n w1).
          destruct (advance_room P g s w w1 l c lg bp LT RM ST PA) as [(bp' & AD & RM')|(AD & NP)]; rewrite AD.
          - assert (ST2 : step w w2 l lg).
            { rewrite <- (app_nil_r l). change lg with ([] ++ lg). eapply step_trans; [exact ST|apply step_after; reflexivity]. }
            specialize (IH props' subs' bp' w2).
            change (rest w2) with (rest w1) in IH.
            assert (ML' : zlength props' * 8 + zlength subs' * 8 + zlength (rest w1) <= L).
            { rewrite EP, ES. rewrite !zlength_app. cbn [filter]. destruct (is_prop c); cbn [negb];
                rewrite !zlength_cons, !zlength_nil; lia. }
            specialize (IH ltac:(lia) ltac:(lia) ML' RM').
            assert (SP : forall cs, props' ++ filter is_prop cs = props ++ filter is_prop (c :: cs)).
            { intro cs. rewrite EP, <- app_assoc. change (c :: cs) with ([c] ++ cs). rewrite filter_app. reflexivity. }
            assert (SS : forall cs, subs' ++ filter (fun c => negb (is_prop c)) cs = subs ++ filter (fun c => negb (is_prop c)) (c :: cs)).
            { intro cs. rewrite ES, <- app_assoc. change (c :: cs) with ([c] ++ cs). rewrite filter_app. reflexivity. }
            destruct (readListSubChunks _ fuel _ g bp' e w2) as [[[[[|] c'] total] w3]|u|]; cbn [list_outcome] in IH |- *.
            + destruct IH as (cs & l2 & lg2 & -> & ST3 & M). exists (c :: cs), (l ++ l2), (lg2 ++ lg).
              split; [rewrite SP, SS; reflexivity|]. split.
              * rewrite app_assoc. eapply step_trans; eassumption.
              * econstructor; eassumption.
            + destruct IH as (cs & lg2 & -> & TY & FL). exists (c :: cs), (lg2 ++ lg).
              split; [rewrite SP, SS; reflexivity|]. split.
              * intros x [<-|I]; [|auto]. eapply (proj1 (Parsed_Typed e app)); eassumption.
              * eapply fails_step; eassumption.
            + assumption.
            + assumption.
          - left. auto. }
        cbn [filter] in NEXT.
        destruct (is_prop c) eqn:CP; cbn [negb] in NEXT.
        * unfold addPropToList. unfold bind at 1.
          destruct (malloc_cases ((zlength props + 1) * sizeof_pointer) w1) as [[-> _]|[-> NM]].
          -- unfold ret at 1. apply NEXT; [reflexivity|rewrite app_nil_r; reflexivity].
          -- right. split; [reflexivity|]. unfold sizeof_pointer in NM. specialize (NM ltac:(lia)).
             destruct NM as (kk & sz & B & NM); exists kk, sz; split; [lia|exact NM].
        * unfold IFF_attachToGroup. cbn [as_group]. unfold bind at 1.
          destruct (malloc_cases ((zlength subs + 1) * sizeof_pointer) w1) as [[-> _]|[-> NM]].
          -- unfold ret at 1. cbn [set_subs]. apply NEXT; [rewrite app_nil_r; reflexivity|reflexivity].
          -- right. split; [reflexivity|]. unfold sizeof_pointer in NM. specialize (NM ltac:(lia)).
             destruct NM as (kk & sz & B & NM); exists kk, sz; split; [lia|exact NM].
      + destruct SC as (lg & FL). unfold ret. cbn [list_outcome]. exists [], lg. cbn [filter]. rewrite !app_nil_r.
        split; [reflexivity|]. split; [intros x []|assumption].
      + eapply bad_weaken; [| |exact SC].
        * intro HP. apply (safe_member _ _ _ _ _ LT (RM HP)).
        * pose proof (zlength_nonneg _ subs). pose proof (zlength_nonneg _ props). lia.
      + assumption.
    - unfold bind at 1. rewrite warn_size'. unfold ret. cbn [list_outcome].
      exists [], [], []. cbn [filter]. rewrite !app_nil_r. split; [reflexivity|]. split; [apply step_after; reflexivity|].
      constructor. assumption.
  Qed.

  (** *** Chunk bodies *)

  Lemma id_cases : forall i, In i [FORM_ID; CAT_ID; PROP_ID] \/ i = LIST_ID \/ ~ In i group_ids.
  Proof.
    intro i. destruct (Z.eq_dec i FORM_ID); [left; left; congruence|].
    destruct (Z.eq_dec i CAT_ID); [left; right; left; congruence|].
    destruct (Z.eq_dec i PROP_ID); [left; right; right; left; congruence|].
    destruct (Z.eq_dec i LIST_ID); [right; left; congruence|].
    right. right. intros [H|[H|[H|[H|[]]]]]; congruence.
  Qed.

  Definition body_outcome (P : Prop) (ft i s : Z) (w : world) (o : outcome (option chunk * world)) : Prop :=
    match o with
    | Done (Some c, w') =>
        exists l lg, step w w' l lg /\ Parsed e app ft (be32 i ++ be32 s ++ l) c lg
    | Done (None, w') => exists lg, fails w w' lg
    | Undefined u => bad P (zlength (rest w)) u
    | OutOfFuel => False
    end.

  Lemma fails_refl : forall w n, fails w (after (rest w) [] n w) [].
  Proof. intros w n. constructor; reflexivity. Qed.

  Lemma body_raw : forall (P : Prop) f ft i s w, in_range FId i -> in_range FLong s -> ~ In i group_ids -> app ft i = None ->
    body_outcome P ft i s w (readChunkBody (IFF_readChunk rg f) rg f i s ft e w).
  Proof.
    intros P f ft i s w IR SR NG A. rewrite readChunkBody_eq. unfold bind at 1, lift at 1. rewrite RG, handler_data, A by assumption.
    cbn [createExtensionChunk readExtensionChunkFields]. unfold IFF_createRawChunk.
    unfold bind at 1. unfold bind at 1, ask at 1. unfold bind at 1.
    destruct (malloc_cases sizeof_RawChunk w) as [[-> _]|[-> _]].
    2:{ unfold ret. cbn [body_outcome]. eexists. apply fails_refl. }
    unfold bind at 1. set (w1 := after (rest w) [] (S (w_allocs w)) w).
    destruct (malloc_cases (wrap_u (size_t_bits e) s) w1) as [[-> LT]|[-> _]].
    2:{ unfold ret. cbn [body_outcome]. eexists. apply (fails_refl w). }
    unfold ret at 1. set (w2 := after (rest w1) [] (S (w_allocs w1)) w1).
    assert (NN : 0 <= s /\ wrap_u (size_t_bits e) s = s).
    { pose proof (size_t_big e) as BIG. simpl in SR.
      assert (TW : 2 ^ size_t_bits e = 2 * 2 ^ (size_t_bits e - 1)).
      { replace (size_t_bits e) with (1 + (size_t_bits e - 1)) at 1 by lia. rewrite Z.pow_add_r by lia. reflexivity. }
      pose proof (half_size_t e) as HS.
      destruct (Z.leb_spec 0 s) as [G|G].
      - split; [assumption|]. apply wrap_u_id. lia.
      - exfalso. unfold wrap_u in LT. rewrite <- (Z.mod_add s 1) in LT by lia.
        rewrite Z.mod_small in LT by lia. lia. }
    destruct NN as [NN WR]. assert (SM : s <= INT_MAX) by (simpl in SR; unfold INT_MAX; lia).
    unfold IFF_readRawChunk. unfold bind at 1. unfold bind at 1, ask at 1. unfold bind at 1. rewrite WR. unfold fread at 1.
    destruct (Z.ltb_spec (zlength (ztake s (rest w2))) s) as [SH|FU].
    - rewrite run_framed_ret. rewrite (tail_false s ft (CRaw i s None) 0) by (constructor; assumption).
      cbn [body_outcome]. eexists. constructor; try reflexivity. cbn [add_log set_in w_in r_rest].
      pose proof (ztake_zdrop _ s (rest w2)) as E. apply (f_equal zlength) in E. rewrite zlength_app in E.
      pose proof (zlength_nonneg _ (ztake s (rest w2))). change (rest w2) with (rest w) in *. lia.
    - rewrite (proj2 (Z.ltb_ge _ _)) by lia. unfold ret at 1. rewrite Z.add_0_l.
      change (set_in _ w2) with (after (zdrop s (rest w2)) [] (w_allocs w2) w2).
      set (d := ztake s (rest w2)) in *.
      assert (ZD : zlength d = s).
      { unfold d in *. rewrite zlength_ztake in *. lia. }
      assert (ST : step w (after (zdrop s (rest w2)) [] (w_allocs w2) w2) d []).
      { apply (step_after w d (zdrop s (rest w)) [] _). symmetry. apply ztake_zdrop. }
      destruct (tail_true s ft (CRaw i s (Some d)) s (after (zdrop s (rest w2)) [] (w_allocs w2) w2)) as [(w' & u & p & E & ZU & ZP & ST2)|(w' & lg & E & FL)];
        [constructor; assumption|assumption|unfold INT_MAX; lia|lia| |];
        rewrite E; cbn [body_outcome].
      + assert (u = []) by (apply zlength_0; lia). subst u. cbn [List.app chunkId] in *.
        unfold skip_warning in ST2. rewrite zlength_nil in ST2. change (0 <? 0) with false in ST2. cbv iota in ST2.
        rewrite app_nil_r in ST2.
        exists (d ++ p), (pad_warning p ++ []). split; [eapply step_trans; eassumption|].
        rewrite app_nil_r. clearbody d. subst s. apply P_raw; assumption.
      + exists (lg ++ []). eapply fails_step; eassumption.
  Qed.

  Lemma body_fields : forall (P : Prop) f ft i s spec w, in_range FId i -> in_range FLong s -> ~ In i group_ids -> app ft i = Some spec ->
    body_outcome P ft i s w (readChunkBody (IFF_readChunk rg f) rg f i s ft e w).
  Proof.
    intros P f ft i s spec w IR SR NG A. rewrite readChunkBody_eq. unfold bind at 1, lift at 1. rewrite RG, handler_data, A by assumption.
    cbn [createExtensionChunk readExtensionChunkFields]. unfold create_fields.
    unfold bind at 1. unfold bind at 1.
    destruct (malloc_cases (sizeof_Fields spec) w) as [[-> _]|[-> _]].
    2:{ unfold ret. cbn [body_outcome]. eexists. apply fails_refl. }
    unfold ret at 1. set (w1 := after (rest w) [] (S (w_allocs w)) w).
    assert (SL : zlength (fs_fields spec) <= 2 ^ 28) by (eapply SA; eassumption).
    assert (SI : INT_MIN <= s <= INT_MAX) by (simpl in SR; unfold INT_MIN, INT_MAX; lia).
    unfold read_fields_chunk. rewrite map_map. cbn [fst]. rewrite fkinds_eqb_refl.
    unfold bind at 1. unfold bind at 1.
    pose proof (read_fields_sound i s SI (fs_fields spec) 0 w1 ltac:(lia) ltac:(lia)) as RF.
    destruct (read_fields _ _ i s 0 e w1) as [[[[[|] vals] bp'] w2]| |]; cbn [fields_outcome] in RF; try contradiction.
    - destruct RF as (-> & K & F & AZ & ST). apply step_allocs in ST. unfold ret at 1.
      pose proof (zlength_nonneg _ (fields_bytes (present s 0 vals))) as ZN. rewrite Z.add_0_l.
      destruct (tail_true s ft (CFields i s vals) (zlength (fields_bytes (present s 0 vals))) w2) as [(w' & u & p & E & ZU & ZP & ST2)|(w' & lg & E & FL)];
        [econstructor; eassumption|lia|lia|intros _; exists ft, i, spec; assumption| |];
        rewrite E; cbn [body_outcome].
      + exists (fields_bytes (present s 0 vals) ++ u ++ p), ((pad_warning p ++ skip_warning i (zlength u)) ++ []).
        split; [eapply step_trans; eassumption|]. rewrite app_nil_r. exact (P_fields e app ft i s spec vals u p IR NG A SR K F AZ ZU ZP).
      + exists (lg ++ []). eapply fails_step; [exact ST|eassumption].
    - destruct RF as (K & lg & FL). unfold ret at 1. rewrite (tail_false s ft (CFields i s vals)) by (econstructor; eassumption).
      cbn [body_outcome]. exists lg. eapply fails_allocs. exact FL.
  Qed.

  Lemma body_group : forall (P : Prop) f ft i s w, sound_at f -> (List.length (rest w) < f)%nat ->
    (forall g r, rest w = be32 g ++ r -> in_range FId g -> P -> SafeM g 4 s r (r_seekable (w_in w))) ->
    in_range FLong s -> In i [FORM_ID; CAT_ID; PROP_ID] ->
    body_outcome P ft i s w (readChunkBody (IFF_readChunk rg f) rg f i s ft e w).
  Proof.
    intros P f ft i s w SF LF ENT SR GI. rewrite readChunkBody_eq. unfold bind at 1, lift at 1. rewrite RG.
    destruct (group_handler app ft i GI) as (h & -> & HI).
    assert (CR : createExtensionChunk h i s = IFF_createUnparsedGroup i s).
    { destruct HI as [<-|[<-|[<-|[]]]]; reflexivity. }
    rewrite CR. unfold IFF_createUnparsedGroup, IFF_createGroup. unfold bind at 1. unfold bind at 1.
    destruct (malloc_cases sizeof_Group w) as [[-> _]|[-> _]].
    2:{ unfold ret. cbn [body_outcome]. eexists. apply fails_refl. }
    unfold ret at 1. set (w1 := after (rest w) [] (S (w_allocs w)) w).
    assert (RD : exists name, readExtensionChunkFields (IFF_readChunk rg f) f h (CGroup i s 0 []) 0
                 = IFF_readGroup (IFF_readChunk rg f) f (CGroup i s 0 []) name 0).
    { destruct HI as [<-|[<-|[<-|[]]]]; eexists; reflexivity. }
    destruct RD as [name ->].
    assert (SM : INT_MIN <= s <= INT_MAX) by (simpl in SR; unfold INT_MIN, INT_MAX; lia).
    unfold bind at 1. unfold IFF_readGroup. cbn [as_group chunkId chunkSize]. unfold IFF_readField.
    unfold bind at 1. unfold bind at 1, ask at 1. rewrite fit_start. unfold bind at 1.
    destruct (prim_cases FId w1 i name) as [(g & r & GR & R & ->)|(LS & ->)].
    - unfold ret at 1. change (increaseBytesProcessed 0 (fieldSize FId)) with 4. cbn [set_groupType].
      set (w2 := after r [] (w_allocs w1) w1).
      assert (ST : step w w2 (be32 g) []) by (apply (step_after w (be32 g) r); exact R).
      assert (RL : rest w = be32 g ++ r) by exact R.
      assert (ZR : zlength (rest w) = 4 + zlength r) by (rewrite RL, zlength_app, be32_length; reflexivity).
      assert (LR : (List.length r < f)%nat) by (unfold zlength in ZR; lia).
      pose proof (group_loop f SF P i s g (zlength (rest w)) f [] 4 w2 LR LR) as GL.
      assert (RM : room P g 4 s w2) by (intro HP; exact (ENT g r RL GR HP)).
      specialize (GL ltac:(rewrite zlength_nil; change (rest w2) with r; lia) RM).
      destruct (readGroupSubChunks _ f _ g 4 e w2) as [[[[[|] c'] total] w3]|u|]; cbn [group_outcome] in GL.
      + destruct GL as (cs & l & lg & -> & ST3 & M). cbn [List.app].
        assert (TL : s <= total) by (eapply Members_bound; eassumption).
        assert (TY : Typed app ft (CGroup i s g cs)).
        { constructor; [assumption|]. apply (proj2 (Parsed_Typed e app) _ _ _ _ _ _ _ M). }
        destruct (tail_true s ft (CGroup i s g cs) total w3) as [(w' & u & p & E & ZU & ZP & ST2)|(w' & lg' & E & FL)];
          [exact TY|lia|unfold INT_MAX; lia|lia| |]; rewrite E; cbn [body_outcome].
        * assert (u = []) by (apply zlength_0; lia). subst u. cbn [List.app chunkId] in *.
          unfold skip_warning in ST2. rewrite zlength_nil in ST2. change (0 <? 0) with false in ST2. cbv iota in ST2.
          rewrite app_nil_r in ST2.
          exists (be32 g ++ l ++ p), ((pad_warning p ++ (size_warning e "group" s total ++ lg)) ++ []).
          split; [eapply step_trans; [exact ST|]; eapply step_trans; eassumption|].
          rewrite app_nil_r. constructor; assumption.
        * exists ((lg' ++ (size_warning e "group" s total ++ lg)) ++ []).
          eapply fails_step; [exact ST|]. eapply fails_step; eassumption.
      + destruct GL as (cs & lg & -> & TY & FL). cbn [List.app].
        pose proof (tail_false s ft (CGroup i s g cs) total w3) as E.
        rewrite E by (constructor; assumption). cbn [body_outcome].
        exists (lg ++ []). eapply fails_step; eassumption.
      + cbn [body_outcome]. exact GL.
      + exact GL.
    - unfold ret. cbn [IFF_deriveSuccess].
      pose proof (tail_false s ft (CGroup i s 0 []) 0) as E.
      rewrite E by (constructor; [assumption|intros c []]). cbn [body_outcome].
      eexists. constructor; try reflexivity. cbn [after w_in r_rest]. rewrite zlength_nil. apply zlength_nonneg.
  Qed.

  Lemma body_list : forall (P : Prop) f ft s w, sound_at f -> (List.length (rest w) < f)%nat ->
    (forall g r, rest w = be32 g ++ r -> in_range FId g -> P -> SafeM g 4 s r (r_seekable (w_in w))) ->
    in_range FLong s ->
    body_outcome P ft LIST_ID s w (readChunkBody (IFF_readChunk rg f) rg f LIST_ID s ft e w).
  Proof.
    intros P f ft s w SF LF ENT SR. rewrite readChunkBody_eq. unfold bind at 1, lift at 1. rewrite RG, handler_LIST.
    cbn [createExtensionChunk readExtensionChunkFields].
    unfold IFF_createUnparsedList, IFF_createList. unfold bind at 1. unfold bind at 1.
    destruct (malloc_cases sizeof_List w) as [[-> _]|[-> _]].
    2:{ unfold ret. cbn [body_outcome]. eexists. apply fails_refl. }
    unfold ret at 1. change IFF_ID_LIST with LIST_ID. set (w1 := after (rest w) [] (S (w_allocs w)) w).
    assert (SM : INT_MIN <= s <= INT_MAX) by (simpl in SR; unfold INT_MIN, INT_MAX; lia).
    unfold bind at 1. unfold IFF_readList. cbn [as_group chunkId chunkSize]. unfold IFF_readField.
    unfold bind at 1. unfold bind at 1, ask at 1. rewrite fit_start. unfold bind at 1.
    destruct (prim_cases FId w1 LIST_ID "contentsType") as [(g & r & GR & R & ->)|(LS & ->)].
    - unfold ret at 1. change (increaseBytesProcessed 0 (fieldSize FId)) with 4. cbn [set_groupType].
      set (w2 := after r [] (w_allocs w1) w1).
      assert (ST : step w w2 (be32 g) []) by (apply (step_after w (be32 g) r); exact R).
      assert (RL : rest w = be32 g ++ r) by exact R.
      assert (ZR : zlength (rest w) = 4 + zlength r) by (rewrite RL, zlength_app, be32_length; reflexivity).
      assert (LR : (List.length r < f)%nat) by (unfold zlength in ZR; lia).
      pose proof (list_loop f SF P s g (zlength (rest w)) f [] [] 4 w2 LR LR) as GL.
      assert (RM : room P g 4 s w2) by (intro HP; exact (ENT g r RL GR HP)).
      specialize (GL ltac:(rewrite zlength_nil; change (rest w2) with r; lia) RM).
      unfold bind at 1.
      destruct (readListSubChunks _ f _ g 4 e w2) as [[[[[|] c'] total] w3]|u|]; cbn [list_outcome] in GL.
      + destruct GL as (cs & l & lg & -> & ST3 & M). cbn [List.app]. unfold ret at 1.
        assert (TL : s <= total) by (eapply Members_bound; eassumption).
        set (c := CList LIST_ID s g (filter is_prop cs) (filter (fun c => negb (is_prop c)) cs)).
        assert (TY : Typed app ft c).
        { pose proof (proj2 (Parsed_Typed e app) _ _ _ _ _ _ _ M) as TM. constructor.
          - intros x I. apply filter_In in I. destruct I as [I IP]. split; [auto|]. apply Z.eqb_eq. exact IP.
          - intros x I. apply filter_In in I. apply TM. apply I. }
        destruct (tail_true s ft c total w3) as [(w' & u & p & E & ZU & ZP & ST2)|(w' & lg' & E & FL)];
          [exact TY|lia|unfold INT_MAX; lia|lia| |]; rewrite E; cbn [body_outcome].
        * assert (u = []) by (apply zlength_0; lia). subst u. cbn [List.app chunkId] in *.
          unfold skip_warning in ST2. rewrite zlength_nil in ST2. change (0 <? 0) with false in ST2. cbv iota in ST2.
          rewrite app_nil_r in ST2.
          exists (be32 g ++ l ++ p), ((pad_warning p ++ (size_warning e "LIST" s total ++ lg)) ++ []).
          split; [eapply step_trans; [exact ST|]; eapply step_trans; eassumption|].
          rewrite app_nil_r. constructor; assumption.
        * exists ((lg' ++ (size_warning e "LIST" s total ++ lg)) ++ []).
          eapply fails_step; [exact ST|]. eapply fails_step; eassumption.
      + destruct GL as (cs & lg & -> & TM & FL). cbn [List.app]. unfold bind at 1, IFF_error at 1. unfold ret at 1.
        pose proof (tail_false s ft (CList LIST_ID s g (filter is_prop cs) (filter (fun c => negb (is_prop c)) cs)) total) as E.
       
        rewrite E by (constructor; [intros x I; apply filter_In in I; destruct I as [I IP]; split; [auto|apply Z.eqb_eq; exact IP]
                                   |intros x I; apply filter_In in I; apply TM; apply I]).
        cbn [body_outcome].
        exists ((["Error reading chunk in list!" ++ nl]%string ++ lg) ++ []). eapply fails_step; [exact ST|].
        eapply fails_trans; [exact FL|]. constructor; reflexivity.
      + cbn [body_outcome]. exact GL.
      + exact GL.
    - unfold ret. cbn [IFF_deriveSuccess].
      pose proof (tail_false s ft (CList LIST_ID s 0 [] []) 0) as E.
      rewrite E by (constructor; intros c []). cbn [body_outcome].
      eexists. constructor; try reflexivity. cbn [after w_in r_rest]. rewrite zlength_nil. apply zlength_nonneg.
  Qed.

  Theorem read_sound : forall f, sound_at f.
  Proof.
    induction f as [|f IH]; intros ft w LF; [lia|].
    cbn [IFF_readChunk].
    change (IFF_readId ID_EMPTY "") with (read_prim FId ID_EMPTY "").
    unfold bind at 1.
    destruct (prim_cases FId w ID_EMPTY "") as [(i & r1 & IR & R1 & ->)|(LS & ->)].
    2:{ unfold ret. cbn [chunk_outcome]. eexists. apply fails_short. }
    change (IFF_readLong i "chunkSize") with (read_prim FLong i "chunkSize").
    unfold bind at 1. set (w1 := after r1 [] (w_allocs w) w).
    destruct (prim_cases FLong w1 i "chunkSize") as [(s & r & SR & R & ->)|(LS & ->)].
    2:{ unfold ret. cbn [chunk_outcome]. eexists. apply (fails_short w). }
    change (rest w1) with r1 in R.
    set (w2 := after r [] (w_allocs w1) w1).
    assert (RW : rest w = (be32 i ++ be32 s) ++ r).
    { rewrite R1, R. cbn [be_field]. rewrite app_assoc. reflexivity. }
    assert (ST : step w w2 (be32 i ++ be32 s) []) by (apply (step_after w (be32 i ++ be32 s) r); exact RW).
    assert (ZR : zlength (rest w) = 8 + zlength r).
    { rewrite RW, !zlength_app, !be32_length. lia. }
    assert (LR : (List.length (rest w2) < f)%nat) by (change (rest w2) with r; unfold zlength in ZR; lia).
    assert (ENT : In i group_ids -> forall g r', rest w2 = be32 g ++ r' -> in_range FId g -> safeC ft w ->
                  SafeM g 4 s r' (r_seekable (w_in w2))).
    { intros GI g r' RE GR SW. change (rest w2) with r in RE. rewrite RW, RE, <- app_assoc in SW.
      exact (safe_enter ft i s g r' _ GI SR GR SW). }
    assert (BO : body_outcome (safeC ft w) ft i s w2 (readChunkBody (IFF_readChunk rg f) rg f i s ft e w2)).
    { destruct (id_cases i) as [GI|[->|NG]].
      - apply body_group; try assumption. apply ENT. apply group_in. assumption.
      - apply body_list; try assumption. apply ENT. apply LIST_in.
      - destruct (app ft i) as [spec|] eqn:A; [eapply body_fields|apply body_raw]; eassumption. }
    destruct (readChunkBody _ rg f i s ft e w2) as [[[c|] w3]|u|]; cbn [body_outcome chunk_outcome] in *.
    - destruct BO as (l & lg & ST2 & PA). exists ((be32 i ++ be32 s) ++ l), (lg ++ []).
      split; [eapply step_trans; eassumption|]. rewrite app_nil_r. split; [rewrite <- app_assoc; exact PA|].
      destruct ST2 as [_ L2 _ _ _]. change (rest w2) with r in L2. lia.
    - destruct BO as (lg & FL). exists (lg ++ []). eapply fails_step; eassumption.
    - eapply bad_weaken; [intro SW; exact SW| |exact BO]. change (rest w2) with r. lia.
    - exact BO.
  Qed.
End Sound.

(** ** First instance: benign inputs of less than 2 GiB *)

Definition Safe (app : apps) (l : list byte) (sk : bool) : Prop :=
  Benign app l /\ zlength l <= INT_MAX /\ (sk = false \/ forall ft i, app ft i = None).

Lemma no_apps_has : forall app, (forall ft i, app ft i = None) -> ~ has_apps app.
Proof. intros app H (ft & i & s & E). rewrite H in E. discriminate. Qed.

Lemma exact_step : forall app w w' l lg, r_seekable (w_in w) = false \/ (forall ft i, app ft i = None) ->
  step app w w' l lg -> rest w = l ++ rest w'.
Proof.
  intros app w w' l lg K [[q [E Q]] _ _ _ _].
  destruct Q as [->|(_ & SK & A)]; [rewrite app_nil_r in E; exact E|].
  destruct K as [K|K]; [congruence|]. destruct (no_apps_has app K A).
Qed.

Lemma Safe_step : forall app w w' l lg, Safe app (rest w) (r_seekable (w_in w)) -> step app w w' l lg ->
  Safe app (rest w') (r_seekable (w_in w')).
Proof.
  intros app w w' l lg (B & L & K) ST. pose proof (exact_step _ _ _ _ _ K ST) as E.
  rewrite E in B. destruct ST as [_ L' _ SK _]. split; [|split].
  - eapply Benign_suffix. exact B.
  - lia.
  - rewrite SK. exact K.
Qed.

Definition SafeMembers (app : apps) (g bp s : Z) (l : list byte) (sk : bool) : Prop :=
  Safe app l sk /\ 0 <= bp /\ bp + zlength l <= INT_MAX.

Theorem read_outcomes : forall rg app e, Realises rg app -> strict_c e = false -> SaneApps app ->
  forall f, sound_at rg app e (fun _ => Safe app) f.
Proof.
  intros rg app e RG NS SA. apply (read_sound rg app e RG NS SA (fun _ => Safe app) (SafeMembers app)).
  - intros _ i s g r sk GI SR GR (B & L & K). rewrite !zlength_app, !be32_length in L.
    split; [split; [|split]|].
    + apply (Benign_suffix app (be32 i ++ be32 s ++ be32 g)). rewrite <- !app_assoc. exact B.
    + lia.
    + exact K.
    + lia.
  - intros g bp s l sk _ (S & _). exact S.
  - intros g bp s w w1 l c lg _ (SF & B0 & B1) ST PA.
    pose proof (Safe_step _ _ _ _ _ SF ST) as SF1. destruct SF as (BN & LN & K).
    pose proof (exact_step _ _ _ _ _ K ST) as EQ. rewrite EQ in BN, B1, LN. rewrite zlength_app in B1, LN.
    pose proof (zlength_nonneg _ (rest w1)).
    destruct (proj1 (Parsed_benign e app) _ _ _ _ PA (Benign_prefix _ _ _ BN)) as [C0 C1]; [lia|].
    assert (0 <= physical (chunkSize c)).
    { unfold physical, round_even. pose proof (Z.mod_pos_bound (chunkSize c) 2 ltac:(lia)). lia. }
    exists (bp + physical (chunkSize c)). split; [apply advance_exact; lia|]. split; [exact SF1|lia].
Qed.

(** ** Second instance: prefixes of readable inputs *)

Definition PrefixC (e : env) (app : apps) (ft : Z) (l : list byte) (sk : bool) : Prop :=
  (sk = false \/ forall ft i, app ft i = None) /\
  exists suf l' c lg r, l ++ suf = l' ++ r /\ Parsed e app ft l' c lg.

Definition PrefixM (e : env) (app : apps) (g bp s : Z) (l : list byte) (sk : bool) : Prop :=
  (sk = false \/ forall ft i, app ft i = None) /\
  exists suf l' cs lg t r, l ++ suf = l' ++ r /\ Members e app g bp s l' cs lg t.

Theorem read_prefix_outcomes : forall rg app e, Realises rg app -> strict_c e = false -> SaneApps app ->
  forall f, sound_at rg app e (PrefixC e app) f.
Proof.
  intros rg app e RG NS SA. apply (read_sound rg app e RG NS SA (PrefixC e app) (PrefixM e app)).
  - intros ft i s g r sk GI SR GR (K & suf & l' & c & lg & r' & E & P). split; [exact K|].
    inversion P; subst; rewrite <- !app_assoc in E.
    + apply (be32_split FId) in E; auto using group_in_range. destruct E as [-> _]. contradiction.
    + apply (be32_split FId) in E; auto using group_in_range. destruct E as [-> _]. contradiction.
    + apply (be32_split FId) in E; auto using group_in_range, group_in. destruct E as [-> E].
      apply (be32_split FLong) in E; auto. destruct E as [-> E].
      apply (be32_split FId) in E; auto. destruct E as [-> E]. eexists. eexists. eexists. eexists. eexists. eexists.
      split; [exact E|eassumption].
    + apply (be32_split FId) in E; auto using group_in_range, LIST_in. destruct E as [-> E].
      apply (be32_split FLong) in E; auto. destruct E as [-> E].
      apply (be32_split FId) in E; auto. destruct E as [-> E]. eexists. eexists. eexists. eexists. eexists. eexists.
      split; [exact E|eassumption].
  - intros g bp s l sk LT (K & suf & l' & cs & lg & t & r & E & M). split; [exact K|].
    inversion M; subst; [lia|]. rewrite <- app_assoc in E. eauto 8.
  - intros g bp s w w1 l c lg LT (K & suf & l' & cs & lg' & t & r & E & M) ST PA.
    pose proof (exact_step _ _ _ _ _ K ST) as EQ.
    inversion M; subst; [lia|]. rewrite EQ in E. rewrite <- !app_assoc in E.
    match goal with B : Parsed e app g ?x ?y ?z, C : advance bp (chunkSize ?y) = Some _ |- _ =>
      destruct (proj1 (Parsed_det e app) _ _ _ _ PA _ _ _ _ _ B E) as (-> & -> & -> & E2); eexists; split; [exact C|] end.
    split; [rewrite (st_seek _ _ _ _ _ ST); exact K|]. eauto 10.
Qed.
