(** * Field lists and colour maps honour the contract *)

From Coq Require Import ZArith List Bool String Lia.
From Coq Require Import Strings.Byte.
From Verif Require Import Machine Io Types Build Read Write Check Print Compare Spec Lemmas IoProofs WriteProofs EncodeProofs
  Grammar ReadProofs DetProofs RoundProofs PrimProofs CompareProofs Ext ExtSpec ExtFields ExtReadProofs.
Import ListNotations.
Open Scope Z_scope.

(** ** Decoding fields *)

Lemma field_value_spec : forall k v, in_range k v -> field_value k (be_field k v) = v.
Proof.
  intros k v R. destruct (be_field_Wire k v R) as (_ & _ & E). unfold field_value. rewrite E.
  destruct k; cbn [fieldSize in_range] in *;
    [change (8 * 1) with 8|change (8 * 2) with 16|change (8 * 2) with 16|
     change (8 * 4) with 32|change (8 * 4) with 32|change (8 * 4) with 32];
    try (apply Z.mod_small; assumption).
  - transitivity (wrap_s 16 v); [apply wrap_s_congr; [lia|apply Z.mod_mod; lia]|apply wrap_s_id; simpl; lia].
  - transitivity (wrap_s 32 v); [apply wrap_s_congr; [lia|apply Z.mod_mod; lia]|apply wrap_s_id; simpl; lia].
Qed.

Lemma field_value_bytes : forall k l, zlength l = fieldSize k ->
  in_range k (field_value k l) /\ be_field k (field_value k l) = l.
Proof.
  intros k l H. destruct (be_field_surj k l H) as (v & R & <-). rewrite field_value_spec by assumption. auto.
Qed.

Lemma take_kinds : forall ks l, map fst (take_fields ks l) = ks.
Proof.
  induction ks as [|k ks IH]; intro l; [reflexivity|]. cbn [take_fields].
  destruct (fieldSize k <=? zlength l).
  - cbn [map fst]. rewrite IH. reflexivity.
  - rewrite map_map. cbn [fst]. apply map_id.
Qed.

Lemma take_spec : forall ks l, let vals := take_fields ks l in
  Forall (fun kv => in_range (fst kv) (snd kv)) vals /\
  l = fields_bytes (fitting (zlength l) vals) ++ zdrop (zlength (fields_bytes (fitting (zlength l) vals))) l /\
  (forall n kv, nth_error vals n = Some kv -> (List.length (fitting (zlength l) vals) <= n)%nat -> snd kv = 0).
Proof.
  induction ks as [|k ks IH]; intro l.
  - cbn. split; [constructor|]. split; [symmetry; apply zdrop_0; lia|]. intros [|n] kv E; discriminate.
  - cbn [take_fields]. pose proof (fieldSize_range k) as FR.
    destruct (Z.leb_spec (fieldSize k) (zlength l)) as [C|C].
    + cbv zeta. set (a := ztake (fieldSize k) l). set (b := zdrop (fieldSize k) l).
      assert (LA : zlength a = fieldSize k) by (unfold a; rewrite zlength_ztake; lia).
      assert (LB : zlength b = zlength l - fieldSize k) by (unfold b; rewrite zlength_zdrop; lia).
      assert (AB : l = a ++ b) by (symmetry; apply ztake_zdrop).
      destruct (field_value_bytes k a LA) as [R E]. destruct (IH b) as (F & B & A). cbv zeta in F, B, A.
      cbn [fitting]. rewrite (proj2 (Z.leb_le _ _)) by lia. rewrite <- LB.
      set (vals := take_fields ks b) in *.
      change (fields_bytes ((k, field_value k a) :: fitting (zlength b) vals))
        with (be_field k (field_value k a) ++ fields_bytes (fitting (zlength b) vals)).
      rewrite E. split; [constructor; assumption|]. split.
      * rewrite zlength_app, <- app_assoc. rewrite AB at 1. f_equal. rewrite B at 1. f_equal.
        set (q := zlength (fields_bytes (fitting (zlength b) vals))). assert (Q : 0 <= q) by apply zlength_nonneg.
        rewrite AB, !zdrop_skipn, Z2Nat.inj_add by (try lia; apply zlength_nonneg).
        replace (Z.to_nat (zlength a)) with (List.length a) by (unfold zlength; lia).
        rewrite skipn_app, (skipn_all2 a) by lia. cbn [Datatypes.app]. f_equal. lia.
      * intros [|n] kv EN L; [cbn in L; lia|]. cbn [nth_error] in EN. cbn [List.length] in L. eapply A; [exact EN|lia].
    + cbv zeta. cbn [map fitting]. rewrite (proj2 (Z.leb_gt _ _)) by lia. split.
      * change ((k, 0) :: map (fun k0 => (k0, 0)) ks) with (map (fun k0 => (k0, 0)) (k :: ks)).
        apply Forall_forall. intros kv I. apply in_map_iff in I. destruct I as (k0 & <- & _). cbn. destruct k0; cbn; lia.
      * split; [symmetry; apply zdrop_0; cbn; lia|]. intros n kv EN _.
        change ((k, 0) :: map (fun k0 => (k0, 0)) ks) with (map (fun k0 => (k0, 0)) (k :: ks)) in EN.
        apply nth_error_In, in_map_iff in EN. destruct EN as (k0 & <- & _). reflexivity.
Qed.

Lemma vals_eqb_spec : forall v1 v2, map fst v1 = map fst v2 -> (vals_eqb v1 v2 = true <-> v1 = v2).
Proof.
  induction v1 as [|[k a] v1 IH]; intros [|[k2 b] v2] E; try discriminate; [split; reflexivity|].
  cbn [map fst] in E. injection E as -> E. cbn [vals_eqb]. rewrite andb_true_iff, Z.eqb_eq, (IH v2 E).
  split; [intros [-> ->]; reflexivity|]. intro H. injection H as -> ->. auto.
Qed.

Theorem fields_honour : forall spec, zlength (fs_fields spec) <= 2 ^ 28 ->
  Honours (fields_callbacks spec) (fields_codec spec).
Proof.
  intros spec SANE.
  assert (KINDS : forall i s u, Holds (fields_codec spec) i s u -> map fst u = kinds_of spec).
  { intros i s u (_ & _ & _ & D). cbn [co_dec fields_codec] in D. injection D as <-. apply take_kinds. }
  assert (FITS : forall i s u, Holds (fields_codec spec) i s u -> Forall (fun kv => fieldSize (fst kv) <= s) u).
  { intros i s u H. pose proof (KINDS i s u H) as K. destruct H as (SZ & _). cbn [co_sizes fields_codec] in SZ.
    apply Forall_forall. intros kv I. apply SZ. rewrite <- K. apply in_map. exact I. }
  constructor.
  - intros i body t e w US SZ LE R. cbn [co_sizes co_dec co_used fields_codec] in *.
    set (vals := take_fields (kinds_of spec) body). set (n := zlength (fields_bytes (fitting (zlength body) vals))).
    destruct (take_spec (kinds_of spec) body) as (F & B & A). fold vals in F, B, A. cbv zeta in F, B, A.
    destruct (create_fields_ok e US spec i (zlength body) w) as [m CR].
    assert (PF : present (zlength body) 0 vals = fitting (zlength body) vals).
    { rewrite present_fitting; [f_equal; lia|]. apply Forall_forall. intros kv I. apply SZ.
      unfold vals in I. rewrite <- (take_kinds (kinds_of spec) body). apply in_map. exact I. }
    exists (map (fun d => (fd_kind d, 0)) (fs_fields spec)), (after (rest w) [] m w), true, vals, n.
    eexists. cbn [cb_create cb_read fields_callbacks].
    split; [unfold bind; rewrite CR; reflexivity|].
    split.
    + unfold read_fields_chunk.
      replace (fkinds_eqb (map fst (map (fun d => (fd_kind d, 0)) (fs_fields spec))) (map fd_kind (fs_fields spec))) with true
        by (symmetry; rewrite map_map; cbn [fst]; apply fkinds_eqb_refl).
      rewrite bind_assoc.
      rewrite (bind_done _ _ _ _ _ _ _ _ (read_fields_ok e i (zlength body) (not_strict e US)
        ltac:(pose proof (zlength_nonneg _ body); unfold INT_MIN; lia)
        (fs_fields spec) vals 0 (after (rest w) [] m w) (zdrop n body ++ t)
        (take_kinds _ _) F ltac:(rewrite PF; exact A) ltac:(lia) ltac:(lia)
        ltac:(rewrite PF; cbn [after w_in r_rest]; rewrite R; rewrite B at 1; rewrite <- app_assoc; reflexivity))).
      rewrite PF. cbn [vals_of]. unfold bind, ret. cbn [vals_of]. reflexivity.
    + split; [|reflexivity]. split; [reflexivity|]. split; [reflexivity|]. split; [reflexivity|].
      split; [|reflexivity]. split; [apply zlength_nonneg|]. apply fitting_length, zlength_nonneg.
  - intros i s u e w US H. pose proof H as (_ & SB & _). cbn [co_enc fields_codec cb_write fields_callbacks].
    destruct (emitsZ_write_fields e i s (not_strict e US) SB (fs_fields spec) u 0 (KINDS i s u H) (FITS i s u H) ltac:(lia) w)
      as (b & lg & n & E & _ & BP).
    rewrite Z.sub_0_r, Z.add_0_l in *.
    eexists. eexists. eexists. split.
    + unfold write_fields_chunk. rewrite (proj2 (fkinds_eqb_spec _ _)) by apply (KINDS i s u H). exact E.
    + cbn [w_out w_in]. split; [symmetry; apply surjective_pairing|]. split; [reflexivity|exact BP].
  - intros i s u e w H. cbn [cb_check fields_callbacks co_good fields_codec check_fields_chunk].
    rewrite (proj2 (fkinds_eqb_spec _ _)) by apply (KINDS i s u H).
    destruct (fs_check spec (map snd u)); eexists; (split; [reflexivity|split; reflexivity]).
  - reflexivity.
  - intros i s u level H. cbn [cb_print fields_callbacks print_fields_chunk].
    rewrite (proj2 (fkinds_eqb_spec _ _)) by apply (KINDS i s u H). eexists. reflexivity.
  - intros i s u v HU HV. cbn [cb_compare fields_callbacks compare_fields_chunk].
    rewrite !(proj2 (fkinds_eqb_spec _ _)) by (apply (KINDS i s); assumption). cbn [andb].
    eexists. split; [reflexivity|]. apply vals_eqb_spec. rewrite (KINDS i s u HU), (KINDS i s v HV). reflexivity.
Qed.

(** ** Colour maps *)

Lemma readField_byte : forall e w i s name bp x r, strict_c e = false -> 0 <= bp -> bp + 1 <= s <= INT_MAX ->
  rest w = x :: r ->
  IFF_readField FUByte i s name bp e w = Done ((FIELD_MORE, Some (b2z x), bp + 1), after r [] (w_allocs w) w).
Proof.
  intros e w i s name bp x r NS B S R. unfold IFF_readField. unfold bind at 1, ask at 1.
  rewrite fit_normal by (cbn [fieldSize]; lia). cbn [fieldSize]. rewrite (proj2 (Z.ltb_ge _ _)) by lia.
  erewrite bind_done.
  2:{ apply (read_prim_ok FUByte e w (b2z x) r); [left; exact NS|apply b2z_range|cbn [be_field]; rewrite z2b_b2z; exact R]. }
  cbn [fieldSize]. unfold ret, increaseBytesProcessed. rewrite wrap_s_id by (unfold INT_MAX in *; simpl Z.sub; lia). reflexivity.
Qed.

Lemma read_colours_ok : forall e i s t, strict_c e = false -> s <= INT_MAX ->
  forall n body bp w, zlength body = 3 * Z.of_nat n -> 0 <= bp -> bp + zlength body <= s -> rest w = body ++ t ->
  read_colours n i s bp e w = Done ((true, three body, bp + zlength body), after t [] (w_allocs w) w).
Proof.
  intros e i s t NS SM. induction n as [|n IH]; intros body bp w L B S R.
  - destruct body as [|x body]; [|rewrite zlength_cons in L; pose proof (zlength_nonneg _ body); lia].
    cbn [read_colours three]. cbn [Datatypes.app] in R. unfold ret, after. rewrite <- R, zlength_nil, Z.add_0_r.
    destruct w as [[? ?] ? ? ?]. reflexivity.
  - destruct body as [|x [|y [|z body]]]; rewrite ?zlength_cons, ?zlength_nil in L; try lia.
    pose proof (zlength_nonneg _ body) as ZN. rewrite !zlength_cons in S. cbn [read_colours Datatypes.app] in *.
    erewrite bind_done; [|apply (readField_byte e w i s "red" bp x _ NS B ltac:(lia) R)].
    cbv iota beta.
    erewrite bind_done; [|eapply (readField_byte e _ i s "green" (bp + 1) y _ NS); [lia|lia|reflexivity]].
    cbv iota beta.
    erewrite bind_done; [|eapply (readField_byte e _ i s "blue" (bp + 1 + 1) z _ NS); [lia|lia|reflexivity]].
    cbv iota beta.
    erewrite bind_done; [|eapply (IH body (bp + 1 + 1 + 1)); [lia|lia|lia|reflexivity]].
    cbn [three]. unfold ret. rewrite !zlength_cons. unfold after. cbn [w_in w_out w_log w_allocs r_seekable Datatypes.app].
    do 3 f_equal. lia.
Qed.

Lemma zlength_colours : forall l, zlength (flat_map colour_bytes l) = 3 * zlength l.
Proof.
  induction l as [|[[r g] b] l IH]; [reflexivity|]. cbn [flat_map colour_bytes]. rewrite zlength_app, IH, !zlength_cons, zlength_nil. lia.
Qed.

Lemma emitsZ_colours : forall e i s, strict_c e = false -> s <= INT_MAX ->
  forall l bp, 0 <= bp -> bp + 3 * zlength l <= s ->
  emitsZ e (write_colours l i s bp) (flat_map colour_bytes l) (bp + 3 * zlength l).
Proof.
  intros e i s NS SM. induction l as [|[[r g] b] l IH]; intros bp B S.
  - cbn [write_colours flat_map]. rewrite zlength_nil, Z.add_0_r. apply emitsZ_ret.
  - rewrite zlength_cons in *. pose proof (zlength_nonneg _ l) as ZN. cbn [write_colours flat_map colour_bytes].
    assert (FT : forall q, bp <= q -> q + 1 <= s -> fieldDoesNotFitInChunk e (fieldSize FUByte) s q = false).
    { intros q Q1 Q2. rewrite fit_normal by (cbn [fieldSize]; lia). cbn [fieldSize]. apply Z.ltb_ge. lia. }
    change ([z2b r; z2b g; z2b b] ++ flat_map colour_bytes l)
      with (be_field FUByte r ++ be_field FUByte g ++ be_field FUByte b ++ flat_map colour_bytes l).
    apply emitsZ_writeField_more; [exact NS|apply FT; lia|lia|cbn [fieldSize]; lia| |reflexivity].
    apply emitsZ_writeField_more; [exact NS|apply FT; cbn [fieldSize]; lia|cbn [fieldSize]; lia|cbn [fieldSize]; lia| |reflexivity].
    apply emitsZ_writeField_more; [exact NS|apply FT; cbn [fieldSize]; lia|cbn [fieldSize]; lia|cbn [fieldSize]; lia| |reflexivity].
    cbn [fieldSize]. eapply emitsZ_eq; [apply IH; lia|reflexivity|lia].
Qed.

Lemma colours_eqb_spec : forall a b, colours_eqb a b = true <-> a = b.
Proof.
  induction a as [|[[r1 g1] b1] a IH]; intros [|[[r2 g2] b2] b]; cbn [colours_eqb colour_eqb]; try (split; [discriminate|discriminate]); [split; reflexivity|].
  rewrite !andb_true_iff, !Z.eqb_eq, IH. split; [intros [[[-> ->] ->] ->]; reflexivity|]. intro H. injection H as -> -> -> ->. auto.
Qed.

Theorem cmap_honours : Honours cmap_callbacks cmap_codec.
Proof.
  constructor.
  - intros i body t e w US _ LE R. cbn [co_dec co_used cmap_codec cb_create cb_read cmap_callbacks].
    pose proof (half_size_t e) as HS. pose proof (zlength_nonneg _ body) as ZN.
    assert (MA : exists n, malloc 64 e w = Done (true, after (rest w) [] n w)).
    { eexists. rewrite malloc_ok_usual by (assumption || lia). reflexivity. }
    destruct MA as [n MA].
    destruct (Z.eqb_spec (zlength body mod 3) 0) as [C|C].
    + do 6 eexists. split; [erewrite bind_done by exact MA; reflexivity|].
      split.
      * eapply (read_colours_ok e i (zlength body) t (not_strict e US) LE (Z.to_nat (zlength body / 3)) body 0); [|lia|lia|cbn [after w_in r_rest]; exact R].
        rewrite Z2Nat.id by (apply Z.div_pos; lia). pose proof (Z.div_mod (zlength body) 3 ltac:(lia)). lia.
      * split; [|reflexivity]. rewrite Z.add_0_l. repeat split; try lia.
        rewrite zdrop_skipn, skipn_all2 by (unfold zlength; lia). reflexivity.
    + do 6 eexists. split; [erewrite bind_done by exact MA; reflexivity|]. split; [reflexivity|]. split; reflexivity.
  - intros i s u e w US (_ & SB & EL & _). cbn [co_enc cmap_codec cb_write cmap_callbacks] in *. rewrite zlength_colours in *.
    destruct (emitsZ_colours e i s (not_strict e US) ltac:(lia) u 0 ltac:(lia) ltac:(lia) w) as (b & lg & n & E & _ & BP).
    do 3 eexists. split; [exact E|]. cbn [w_out w_in]. split; [symmetry; apply surjective_pairing|]. split; [reflexivity|exact BP].
  - intros i s u e w _. cbn [cb_check co_good cmap_codec cmap_callbacks].
    destruct (zlength u <=? 256); eexists; (split; [reflexivity|split; reflexivity]).
  - reflexivity.
  - intros. eexists. reflexivity.
  - intros i s u v _ _. eexists. split; [reflexivity|]. apply colours_eqb_spec.
Qed.

(** ** Both codecs are lawful *)

Lemma take_again : forall ks body, let vals := take_fields ks body in
  let l := fields_bytes (fitting (zlength body) vals) in
  take_fields ks (l ++ zeros (zlength body - zlength l)) = vals.
Proof.
  induction ks as [|k ks IH]; intro body; [reflexivity|]. cbn [take_fields]. pose proof (fieldSize_range k) as FR.
  destruct (Z.leb_spec (fieldSize k) (zlength body)) as [C|C]; cbv zeta.
  - set (a := ztake (fieldSize k) body). set (b := zdrop (fieldSize k) body).
    assert (LA : zlength a = fieldSize k) by (unfold a; rewrite zlength_ztake; lia).
    assert (LB : zlength b = zlength body - fieldSize k) by (unfold b; rewrite zlength_zdrop; lia).
    destruct (field_value_bytes k a LA) as [R E]. specialize (IH b). cbv zeta in IH.
    cbn [fitting]. rewrite (proj2 (Z.leb_le (fieldSize k) (zlength body))) by lia. rewrite <- LB.
    set (vals := take_fields ks b) in *.
    change (fields_bytes ((k, field_value k a) :: fitting (zlength b) vals))
      with (be_field k (field_value k a) ++ fields_bytes (fitting (zlength b) vals)).
    rewrite E. rewrite <- app_assoc. rewrite !zlength_app, LA.
    pose proof (zlength_nonneg _ (fields_bytes (fitting (zlength b) vals))) as Z1.
    match goal with |- context [zlength (zeros ?q)] => pose proof (zlength_nonneg _ (zeros q)) as Z2 end.
    rewrite (proj2 (Z.leb_le _ _)) by lia.
    rewrite ztake_app_eq, zdrop_app_eq by (symmetry; exact LA).
    replace (zlength body - (fieldSize k + zlength (fields_bytes (fitting (zlength b) vals))))
      with (zlength b - zlength (fields_bytes (fitting (zlength b) vals))) by lia.
    rewrite IH. reflexivity.
  - cbn [map fitting]. rewrite (proj2 (Z.leb_gt (fieldSize k) (zlength body))) by lia. change (fields_bytes []) with (@nil byte).
    rewrite zlength_nil, Z.sub_0_r. cbn [Datatypes.app]. replace (zlength (zeros (zlength body))) with (zlength body)
      by (unfold zeros; unfold zlength at 2; rewrite repeat_length; unfold zlength; lia).
    rewrite (proj2 (Z.leb_gt _ _)) by lia. reflexivity.
Qed.

Theorem fields_lawful : forall spec, Lawful (fields_codec spec).
Proof.
  intros spec i body u SZ LE D. cbn [co_sizes co_dec fields_codec] in *. injection D as <-.
  split; [exact SZ|]. split; [split; [apply zlength_nonneg|exact LE]|].
  split; [apply fitting_length, zlength_nonneg|]. cbn [co_dec fields_codec]. unfold ubody. cbn [co_enc fields_codec].
  f_equal. apply take_again.
Qed.

Lemma three_bytes : forall n l, zlength l = 3 * Z.of_nat n -> flat_map colour_bytes (three l) = l.
Proof.
  induction n as [|n IH]; intros l L.
  - destruct l as [|x l]; [reflexivity|]. rewrite zlength_cons in L. pose proof (zlength_nonneg _ l). lia.
  - destruct l as [|x [|y [|z l]]]; rewrite ?zlength_cons, ?zlength_nil in L; try lia.
    cbn [three flat_map colour_bytes]. rewrite !z2b_b2z, IH by lia. reflexivity.
Qed.

Theorem cmap_lawful : Lawful cmap_codec.
Proof.
  intros i body u _ LE D. cbn [co_dec cmap_codec] in D. pose proof (zlength_nonneg _ body) as ZN.
  destruct (Z.eqb_spec (zlength body mod 3) 0) as [C|C]; [|discriminate]. injection D as <-.
  assert (B : flat_map colour_bytes (three body) = body).
  { apply (three_bytes (Z.to_nat (zlength body / 3))). rewrite Z2Nat.id by (apply Z.div_pos; lia).
    pose proof (Z.div_mod (zlength body) 3 ltac:(lia)). lia. }
  split; [exact I|]. split; [lia|]. unfold ubody. cbn [co_enc co_dec cmap_codec]. rewrite B. split; [lia|].
  rewrite Z.sub_diag. cbn [zeros Z.to_nat repeat]. rewrite app_nil_r, C. reflexivity.
Qed.
