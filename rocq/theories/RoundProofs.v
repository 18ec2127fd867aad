(** * Encodings of well-formed trees are sentences of the reader's grammar *)

From Coq Require Import ZArith List Bool String Lia.
From Coq Require Import Strings.Byte.
From Verif Require Import Machine Io Types Build Spec Lemmas IoProofs RegProofs WriteProofs EncodeProofs
  Grammar ReadProofs DetProofs SoundProofs.
Import ListNotations.
Open Scope Z_scope.

Lemma Z2Nat_nonpos : forall n, n <= 0 -> Z.to_nat n = 0%nat.
Proof. intros. lia. Qed.

Lemma present_fitting : forall vals S bp, Forall (fun kv => fieldSize (fst kv) <= S) vals ->
  present S bp vals = fitting (S - bp) vals.
Proof.
  induction vals as [|[k v] r IH]; intros S bp F; [reflexivity|].
  inversion F as [|? ? Hk Hr]; subst. simpl in Hk. cbn [present fitting].
  replace (S <? fieldSize k) with false by (symmetry; apply Z.ltb_ge; lia). cbn [orb].
  replace (bp + fieldSize k <=? S) with (fieldSize k <=? S - bp)
    by (destruct (Z.leb_spec (fieldSize k) (S - bp)); symmetry; [apply Z.leb_le|apply Z.leb_gt]; lia).
  destruct (fieldSize k <=? S - bp); [|reflexivity].
  rewrite IH by assumption. do 2 f_equal. lia.
Qed.

Lemma pad_warning_zero : forall s p, zlength p = s mod 2 -> (pad_warning p = [] <-> p = pad_for s).
Proof.
  intros s p L. unfold pad_for. rewrite mod2_odd in L. destruct (Z.odd s).
  - destruct p as [|b [|b2 p]]; rewrite ?zlength_cons, ?zlength_nil in L.
    + lia.
    + cbn [pad_warning]. destruct (Z.eqb_spec (b2z b) 0) as [Z0|Z0].
      * split; [|reflexivity]. intros _. f_equal. apply b2z_inj. exact Z0.
      * split; [discriminate|]. intro H. inversion H; subst. contradiction Z0; reflexivity.
    + pose proof (zlength_nonneg _ p). lia.
  - apply zlength_0 in L. subst p. split; reflexivity.
Qed.

Lemma pad_warning_only : forall p x, In x (pad_warning p) ->
  x = ("WARNING: Padding byte is non-zero!" ++ nl)%string.
Proof.
  intros p x I. destruct p as [|b [|]]; simpl in I; try contradiction.
  destruct (b2z b =? 0); simpl in I; [contradiction|]. destruct I as [I|[]]. auto.
Qed.

Lemma Covered_group : forall i s g subs c, Covered (CGroup i s g subs) -> In c subs -> Covered c.
Proof. intros i s g subs c H I i' s' v T. apply (H i' s' v). eapply In_group; eauto. Qed.
Lemma Covered_prop : forall i s g props subs c, Covered (CList i s g props subs) -> In c props -> Covered c.
Proof. intros i s g props subs c H I i' s' v T. apply (H i' s' v). eapply In_list_prop; eauto. Qed.
Lemma Covered_sub : forall i s g props subs c, Covered (CList i s g props subs) -> In c subs -> Covered c.
Proof. intros i s g props subs c H I i' s' v T. apply (H i' s' v). eapply In_list_sub; eauto. Qed.

Lemma size_warning_exact : forall e what s, size_warning e what s s = [].
Proof. intros. unfold size_warning. rewrite Z.ltb_irrefl. reflexivity. Qed.

(** What one tree and one encoding give: a parse whose diagnostics say exactly
    whether the encoding is the canonical one. *)
Definition Reads (e : env) (app : apps) (ft : Z) (c : chunk) (l : list byte) : Prop :=
  exists lg, Parsed e app ft l c lg /\ zlength l = physical (chunkSize c) /\
    (lg = [] -> l = encode c) /\
    (Covered c -> l = encode c -> lg = []) /\
    (Covered c -> forall x, In x lg -> x = ("WARNING: Padding byte is non-zero!" ++ nl)%string).

Lemma members_reads : forall e app g subs ls bp s,
  (forall c l, In c subs -> In l ls -> WF app g c -> Encoding c l -> Reads e app g c l) ->
  Forall2 Encoding subs ls -> (forall c, In c subs -> WF app g c) ->
  0 <= bp -> bp + body_size subs <= s -> s <= INT_MAX ->
  forall l2 cs2 lg2 total,
  Members e app g (bp + body_size subs) s l2 cs2 lg2 total ->
  exists lg, Members e app g bp s (List.concat ls ++ l2) (subs ++ cs2) (lg2 ++ lg) total /\
    zlength (List.concat ls) = body_size subs /\
    (lg = [] -> List.concat ls = flat_map encode subs) /\
    ((forall c, In c subs -> Covered c) -> List.concat ls = flat_map encode subs -> lg = []) /\
    ((forall c, In c subs -> Covered c) -> forall x, In x lg -> x = ("WARNING: Padding byte is non-zero!" ++ nl)%string).
Proof.
  intros e app g subs. induction subs as [|c subs IH]; intros ls bp s R F2 W B LE SM l2 cs2 lg2 total M2.
  - inversion F2; subst. exists []. cbn [List.concat flat_map List.app]. rewrite app_nil_r.
    change (body_size []) with 0 in *. rewrite Z.add_0_r in M2. repeat split; try assumption; try reflexivity.
    intros _ x [].
  - inversion F2 as [|? l ? ls' E1 E2]; subst.
    assert (Wc : WF app g c) by (apply W; left; reflexivity).
    destruct (R c l) as (lg & P & L & N1 & N2 & N3); try assumption; try (left; reflexivity).
    pose proof (WF_size _ _ _ Wc) as SZ. pose proof (physical_range (chunkSize c)) as PR.
    rewrite body_size_cons in LE, M2.
    assert (BN : 0 <= body_size subs).
    { apply body_size_nonneg. intros d I. apply (WF_size app g). apply W. right; assumption. }
    rewrite Z.add_assoc in M2.
    destruct (IH ls' (bp + physical (chunkSize c)) s) with (l2 := l2) (cs2 := cs2) (lg2 := lg2) (total := total)
      as (lgs & M & Ls & S1 & S2 & S3); try assumption; try lia.
    { intros d l' Id Il Wd Ed. apply R; try assumption; right; assumption. }
    { intros; apply W; right; assumption. }
    exists (lgs ++ lg).
    cbn [List.concat flat_map List.app]. split.
    { rewrite <- (app_assoc l), (app_assoc lg2). eapply M_next; [|exact P| |exact M]; [lia|].
      apply advance_exact; lia. }
    split. { rewrite zlength_app, Ls, body_size_cons. lia. }
    split. { intro H. apply app_eq_nil in H as [H1 H2]. rewrite N1, S1 by assumption. reflexivity. }
    split.
    { intros CV H. apply app_split in H as [H1 H2].
      - rewrite N2, S2; try assumption; try reflexivity.
        + intros; apply CV; right; assumption.
        + apply CV; left; reflexivity.
      - rewrite L. symmetry. eapply WF_encode_length. eassumption. }
    intros CV x I. apply in_app_or in I as [I|I].
    + apply S3; [intros; apply CV; right; assumption|assumption].
    + apply N3; [apply CV; left; reflexivity|assumption].
Qed.

Lemma filter_all : forall A (f : A -> bool) l, (forall x, In x l -> f x = true) -> filter f l = l.
Proof.
  induction l as [|x l IH]; intros H; [reflexivity|]. simpl. rewrite (H x) by (left; reflexivity).
  rewrite IH; [reflexivity|]. intros; apply H; right; assumption.
Qed.
Lemma filter_none : forall A (f : A -> bool) l, (forall x, In x l -> f x = false) -> filter f l = [].
Proof.
  induction l as [|x l IH]; intros H; [reflexivity|]. simpl. rewrite (H x) by (left; reflexivity).
  apply IH. intros; apply H; right; assumption.
Qed.

Lemma filter_props : forall props subs,
  (forall c, In c props -> chunkId c = PROP_ID) -> (forall c, In c subs -> chunkId c <> PROP_ID) ->
  filter is_prop (props ++ subs) = props /\ filter (fun c => negb (is_prop c)) (props ++ subs) = subs.
Proof.
  intros props subs HP HS. rewrite !filter_app_prop. split.
  - rewrite (filter_all _ _ props), (filter_none _ _ subs), app_nil_r; [reflexivity| |].
    + intros c I. unfold is_prop. apply Z.eqb_neq. auto.
    + intros c I. unfold is_prop. apply Z.eqb_eq. auto.
  - rewrite (filter_none _ _ props), (filter_all _ _ subs); [reflexivity| |].
    + intros c I. unfold is_prop. apply negb_true_iff, Z.eqb_neq. auto.
    + intros c I. unfold is_prop. apply negb_false_iff, Z.eqb_eq. auto.
Qed.

Lemma skip_warning_nil : forall i n, skip_warning i n = [] <-> n <= 0.
Proof.
  intros. unfold skip_warning. destruct (Z.ltb_spec 0 n); split; intro H0; try lia; try reflexivity; discriminate.
Qed.

Theorem WF_reads : forall e app c ft l, WF app ft c -> Encoding c l -> Reads e app ft c l.
Proof.
  intros e app.
  induction c as [i s d|i s g subs IH|i s g props subs IHp IHs|i s vals] using chunk_tree_ind;
    intros ft l W En; pose proof (WF_size _ _ _ W) as SZ; inversion W; subst; inversion En; subst;
    cbn [chunkSize data_of] in *.
  - exists (pad_warning p). split; [apply P_raw; assumption|].
    split. { cbn [chunkSize]. rewrite !zlength_app, !be32_length. unfold physical, round_even. lia. }
    unfold encode. fold encode. unfold frame, pad. cbn [data_of].
    split; [|split].
    + intro H. apply (pad_warning_zero (zlength l0)) in H; [|assumption]. rewrite H. reflexivity.
    + intros _ H. apply (pad_warning_zero (zlength l0)); [assumption|].
      do 2 apply app_inv_head in H. apply app_inv_head in H. exact H.
    + intros _. apply pad_warning_only.
  - match goal with A : Forall2 _ subs ls |- _ => rename A into F2 end.
    rewrite (flat_encode_length app g) in * by assumption.
    destruct (members_reads e app g subs ls 4 (4 + body_size subs)) with (l2 := @nil byte) (cs2 := @nil chunk)
      (lg2 := @nil string) (total := 4 + body_size subs) as (lg & M & L & S1 & S2 & S3); try assumption; try lia.
    { intros c l' Ic Il Wc Ec. apply IH; assumption. }
    { apply M_end. lia. }
    rewrite !app_nil_r in M. cbn [List.app] in M.
    exists (pad_warning p ++ size_warning e "group" (4 + body_size subs) (4 + body_size subs) ++ lg).
    split.
    { eapply P_group; try eassumption. unfold in_range, INT_MAX in *. lia. }
    split. { cbn [chunkSize]. rewrite !zlength_app, !be32_length, L. unfold physical, round_even. lia. }
    rewrite size_warning_exact. cbn [List.app].
    assert (EN : encode (CGroup i (4 + body_size subs) g subs) =
      be32 i ++ be32 (4 + body_size subs) ++ be32 g ++ flat_map encode subs ++ pad_for (4 + body_size subs)).
    { cbn [encode]. unfold frame, pad, pad_for. rewrite zlength_app, be32_length.
      rewrite (flat_encode_length app g) by assumption. rewrite <- app_assoc. reflexivity. }
    rewrite EN. split; [|split].
    + intro H. apply app_eq_nil in H as [H1 H2].
      apply (pad_warning_zero (4 + body_size subs)) in H1; [|assumption]. rewrite H1, S1 by assumption. reflexivity.
    + intros CV H. do 3 apply app_inv_head in H. apply app_split in H as [H1 H2].
      * rewrite S2; [|intros; eapply Covered_group; eassumption|assumption]. rewrite app_nil_r.
        apply (pad_warning_zero (4 + body_size subs)); assumption.
      * rewrite L. symmetry. eapply flat_encode_length. eassumption.
    + intros CV x I. apply in_app_or in I as [I|I]; [eapply pad_warning_only; eassumption|].
      apply S3; [intros; eapply Covered_group; eassumption|assumption].
  - match goal with A : forall c, In c props -> _ /\ chunkId c = _ |- _ => rename A into HP end.
    match goal with A : forall c, In c subs -> _ /\ chunkId c <> _ |- _ => rename A into HS end.
    match goal with A : Forall2 _ subs ls |- _ => rename A into F2 end.
    match goal with A : Forall2 _ props lp |- _ => rename A into F1 end.
    assert (Wp : forall c, In c props -> WF app g c) by (intros; apply HP; assumption).
    assert (Ws : forall c, In c subs -> WF app g c) by (intros; apply HS; assumption).
    rewrite (flat_encode_length app g props), (flat_encode_length app g subs) in * by assumption.
    set (S := 4 + body_size props + body_size subs) in *.
    assert (BN : 0 <= body_size subs).
    { apply body_size_nonneg. intros d I. apply (WF_size app g). apply Ws. assumption. }
    assert (BN2 : 0 <= body_size props).
    { apply body_size_nonneg. intros d I. apply (WF_size app g). apply Wp. assumption. }
    destruct (members_reads e app g subs ls (4 + body_size props) S) with (l2 := @nil byte) (cs2 := @nil chunk)
      (lg2 := @nil string) (total := S) as (lg & M & L & S1 & S2 & S3); try assumption; try lia.
    { intros c l' Ic Il Wc Ec. apply IHs; assumption. }
    { apply M_end. subst S. lia. }
    destruct (members_reads e app g props lp 4 S) with (l2 := List.concat ls ++ []) (cs2 := subs ++ [])
      (lg2 := [] ++ lg) (total := S) as (lgp & Mp & Lp & T1 & T2 & T3); try assumption; try lia.
    { intros c l' Ic Il Wc Ec. apply IHp; assumption. }
    rewrite !app_nil_r in Mp. rewrite app_nil_l in Mp.
    destruct (filter_props props subs) as [FP FS].
    { intros; apply HP; assumption. }
    { intros; apply HS; assumption. }
    exists (pad_warning p ++ size_warning e "LIST" S S ++ (lg ++ lgp)).
    split.
    { replace (CList LIST_ID S g props subs) with
        (CList LIST_ID S g (filter is_prop (props ++ subs)) (filter (fun c => negb (is_prop c)) (props ++ subs)))
        by (rewrite FP, FS; reflexivity).
      rewrite (app_assoc (List.concat lp)). eapply P_list; try eassumption.
      unfold in_range, INT_MAX in *. lia. }
    split. { cbn [chunkSize]. rewrite !zlength_app, !be32_length, L, Lp. unfold physical, round_even. subst S. lia. }
    rewrite size_warning_exact. rewrite app_nil_l.
    assert (EN : encode (CList LIST_ID S g props subs) =
      be32 LIST_ID ++ be32 S ++ be32 g ++ flat_map encode props ++ flat_map encode subs ++ pad_for S).
    { cbn [encode]. unfold frame, pad, pad_for. rewrite !zlength_app, be32_length.
      rewrite (flat_encode_length app g props), (flat_encode_length app g subs) by assumption.
      rewrite Z.add_assoc. fold S. rewrite <- !app_assoc. reflexivity. }
    rewrite EN. split; [|split].
    + intro H. apply app_eq_nil in H as [H1 H2]. apply app_eq_nil in H2 as [H2 H3].
      apply (pad_warning_zero S) in H1; [|assumption]. rewrite H1, S1, T1 by assumption. reflexivity.
    + intros CV H. do 3 apply app_inv_head in H. apply app_split in H as [H1 H2].
      2: { rewrite Lp. symmetry. eapply flat_encode_length. eassumption. }
      apply app_split in H2 as [H2 H3].
      2: { rewrite L. symmetry. eapply flat_encode_length. eassumption. }
      rewrite S2; [|intros; eapply Covered_sub; eassumption|assumption].
      rewrite T2; [|intros; eapply Covered_prop; eassumption|assumption].
      rewrite !app_nil_r. apply (pad_warning_zero S); assumption.
    + intros CV x I. apply in_app_or in I as [I|I]; [eapply pad_warning_only; eassumption|].
      apply in_app_or in I as [I|I].
      * apply S3; [intros; eapply Covered_sub; eassumption|assumption].
      * apply T3; [intros; eapply Covered_prop; eassumption|assumption].
  - match goal with A : Forall (fun kv => fieldSize (fst kv) <= s) vals |- _ => rename A into FS end.
    match goal with A : zlength extra = _ |- _ => rename A into EXL end.
    assert (PF : present s 0 vals = fitting s vals).
    { rewrite present_fitting by assumption. f_equal. lia. }
    exists (pad_warning p ++ skip_warning i (zlength extra)).
    pose proof (fitting_length vals s (proj1 SZ)) as FL.
    split.
    { rewrite <- PF. rewrite <- PF in EXL. eapply P_fields; try eassumption.
      - unfold in_range, INT_MAX in *. lia.
      - unfold absent_zero. rewrite PF. assumption. }
    split. { cbn [chunkSize]. rewrite !zlength_app, !be32_length. unfold physical, round_even. lia. }
    assert (EN : encode (CFields i s vals) =
      be32 i ++ be32 s ++ fields_bytes (fitting s vals)
      ++ repeat x00 (Z.to_nat (s - zlength (fields_bytes (fitting s vals)))) ++ pad_for s).
    { cbn [encode]. unfold frame, pad, pad_for. rewrite fields_body_length by lia.
      unfold fields_body. rewrite <- app_assoc. reflexivity. }
    rewrite EN. split; [|split].
    + intro H. apply app_eq_nil in H as [H0' H2']. apply skip_warning_nil in H2'.
      apply (pad_warning_zero s) in H0'; [|assumption]. rewrite H0'.
      assert (X : extra = []) by (apply zlength_0; pose proof (zlength_nonneg _ extra); lia).
      subst extra. rewrite zlength_nil in EXL. rewrite Z2Nat_nonpos by lia. reflexivity.
    + intros CV H. assert (X : s <= zlength (fields_bytes (fitting s vals))) by (apply (CV i); apply In_here).
      assert (E : extra = []) by (apply zlength_0; lia). subst extra.
      rewrite Z2Nat_nonpos in H by lia. cbn [repeat List.app] in H. do 3 apply app_inv_head in H.
      replace (skip_warning i (zlength [])) with (@nil string) by (symmetry; apply skip_warning_nil; reflexivity).
      rewrite app_nil_r. apply (pad_warning_zero s); assumption.
    + intros CV x I. assert (X : s <= zlength (fields_bytes (fitting s vals))) by (apply (CV i); apply In_here).
      apply in_app_or in I as [I|I]; [eapply pad_warning_only; eassumption|].
      replace (skip_warning i (zlength extra)) with (@nil string) in I by (symmetry; apply skip_warning_nil; lia).
      destruct I.
Qed.

Lemma flat_encodings : forall app g l, (forall c, In c l -> WF app g c) ->
  (forall c, In c l -> WF app g c -> Encoding c (encode c)) -> Forall2 Encoding l (map encode l).
Proof.
  intros app g l. induction l as [|c l IH]; intros W H; constructor.
  - apply H; [left; reflexivity|apply W; left; reflexivity].
  - apply IH; intros; [apply W|apply H]; try (right; assumption). apply W; right; assumption.
Qed.

Theorem encode_Encoding : forall app c ft, WF app ft c -> Encoding c (encode c).
Proof.
  intros app.
  induction c as [i s d|i s g subs IH|i s g props subs IHp IHs|i s vals] using chunk_tree_ind;
    intros ft W; pose proof (WF_size _ _ _ W) as SZ; inversion W; subst; cbn [encode chunkSize data_of] in *;
    unfold frame.
  - apply (En_raw i (zlength l) (Some l)). apply pad_length.
  - rewrite flat_map_concat_map. rewrite <- app_assoc. apply En_group.
    + eapply flat_encodings; [eassumption|]. intros; eapply IH; eassumption.
    + rewrite pad_length, zlength_app, be32_length. reflexivity.
  - match goal with A : forall c, In c props -> _ /\ chunkId c = _ |- _ => rename A into HP end.
    match goal with A : forall c, In c subs -> _ /\ chunkId c <> _ |- _ => rename A into HS end.
    rewrite !flat_map_concat_map. rewrite <- !app_assoc. apply En_list.
    + eapply (flat_encodings app g); [intros; apply HP; assumption|]. intros; eapply IHp; eassumption.
    + eapply (flat_encodings app g); [intros; apply HS; assumption|]. intros; eapply IHs; eassumption.
    + rewrite pad_length, !zlength_app, be32_length. f_equal. lia.
  - unfold fields_body at 1. rewrite <- app_assoc. apply En_fields.
    + pose proof (fitting_length vals s (proj1 SZ)). rewrite zlength_repeat; lia.
    + rewrite pad_length, fields_body_length by lia. reflexivity.
Qed.

Theorem WF_parsed : forall e app ft c, WF app ft c -> exists lg, Parsed e app ft (encode c) c lg /\ (Covered c -> lg = []).
Proof.
  intros e app ft c W. destruct (WF_reads e app c ft (encode c) W (encode_Encoding app c ft W)) as (lg & P & _ & _ & N & _).
  exists lg. split; [assumption|]. intros CV. apply N; auto.
Qed.
