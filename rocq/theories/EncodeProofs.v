(** * Facts about the encoding of well-formed trees *)

From Coq Require Import ZArith List Bool String Lia.
From Coq Require Import Strings.Byte.
From Verif Require Import Machine Io Types Build Write Spec Lemmas IoProofs RegProofs WriteProofs.
Import ListNotations.
Open Scope Z_scope.

Lemma be32_length : forall v, zlength (be32 v) = 4.
Proof. reflexivity. Qed.

Lemma pad_length : forall body, zlength (pad body) = zlength body mod 2.
Proof. intros. unfold pad. rewrite mod2_odd. destruct (Z.odd (zlength body)); reflexivity. Qed.

Lemma pad_for_length : forall s, zlength (pad_for s) = s mod 2.
Proof. intros. unfold pad_for. rewrite mod2_odd. destruct (Z.odd s); reflexivity. Qed.

Lemma frame_length : forall i s body, zlength (frame i s body) = physical (zlength body).
Proof.
  intros. unfold frame, physical, round_even. rewrite !zlength_app, !be32_length, pad_length. lia.
Qed.

Lemma fields_body_length : forall s vals, 0 <= s -> zlength (fields_body s vals) = s.
Proof.
  intros s vals S. unfold fields_body. pose proof (fitting_length vals s S).
  rewrite zlength_app, zlength_repeat by lia. lia.
Qed.

Lemma WF_size : forall app ft c, WF app ft c -> 0 <= chunkSize c <= INT_MAX.
Proof.
  intros app ft c H. inversion H; subst; simpl chunkSize.
  - pose proof (zlength_nonneg _ l). lia.
  - assumption.
  - pose proof (zlength_nonneg _ (flat_map encode subs)). lia.
  - pose proof (zlength_nonneg _ (flat_map encode subs)).
    pose proof (zlength_nonneg _ (flat_map encode props)). lia.
Qed.

Lemma WF_encode_length : forall app ft c, WF app ft c -> zlength (encode c) = physical (chunkSize c).
Proof.
  intros app ft c H. inversion H; subst; cbn [encode chunkSize data_of]; rewrite frame_length; f_equal.
  - apply fields_body_length; lia.
  - rewrite zlength_app, be32_length. reflexivity.
  - rewrite !zlength_app, be32_length. lia.
Qed.

Lemma flat_encode_length : forall app ft l, (forall c, In c l -> WF app ft c) ->
  zlength (flat_map encode l) = body_size l.
Proof.
  intros app ft l. induction l as [|c l IH]; intros H; [reflexivity|].
  cbn [flat_map]. rewrite zlength_app, body_size_cons.
  rewrite (WF_encode_length app ft c) by (apply H; left; reflexivity).
  rewrite IH; [reflexivity|]. intros; apply H; right; assumption.
Qed.

Lemma WF_emitted : forall app c ft, WF app ft c -> emitted c = encode c.
Proof.
  intros app. induction c as [i s d|i s g subs IH|i s g props subs IHp IHs|i s vals] using chunk_tree_ind;
    intros ft W; inversion W; subst; cbn [emitted encode data_of].
  - rewrite ztake_all by lia. reflexivity.
  - assert (E : flat_map emitted subs = flat_map encode subs).
    { rewrite !flat_map_concat_map. f_equal. apply map_ext_in. intros c I. eapply IH; eauto. }
    rewrite E. rewrite (flat_encode_length app g) by assumption.
    unfold zeros. rewrite Z.sub_diag. change (repeat x00 (Z.to_nat 0)) with (@nil byte). rewrite app_nil_l. unfold frame, pad, pad_for.
    rewrite zlength_app, be32_length, (flat_encode_length app g) by assumption. reflexivity.
  - match goal with A : forall c, In c props -> _ /\ chunkId c = _ |- _ => rename A into H5' end.
    match goal with A : forall c, In c subs -> _ /\ chunkId c <> _ |- _ => rename A into H6' end.
    assert (E : flat_map emitted subs = flat_map encode subs).
    { rewrite !flat_map_concat_map. f_equal. apply map_ext_in. intros c I. apply (IHs c I g). apply H6'; assumption. }
    assert (Ep : flat_map emitted props = flat_map encode props).
    { rewrite !flat_map_concat_map. f_equal. apply map_ext_in. intros c I. apply (IHp c I g). apply H5'; assumption. }
    rewrite E, Ep. rewrite (flat_encode_length app g props) by (intros; apply H5'; assumption).
    rewrite (flat_encode_length app g subs) by (intros; apply H6'; assumption).
    unfold zeros. rewrite Z.sub_diag. change (repeat x00 (Z.to_nat 0)) with (@nil byte). rewrite app_nil_l. unfold frame, pad, pad_for.
    rewrite !zlength_app, be32_length.
    rewrite (flat_encode_length app g props) by (intros; apply H5'; assumption).
    rewrite (flat_encode_length app g subs) by (intros; apply H6'; assumption).
    rewrite Z.add_assoc. reflexivity.
  - unfold frame, pad, pad_for. rewrite fields_body_length by lia. reflexivity.
Qed.

Lemma WF_Writable : forall app c ft, WF app ft c -> Writable app ft c.
Proof.
  intros app. induction c as [i s d|i s g subs IH|i s g props subs IHp IHs|i s vals] using chunk_tree_ind;
    intros ft W; pose proof (WF_size _ _ _ W) as SZ; inversion W; subst; cbn [chunkSize] in SZ.
  - constructor; try assumption; lia.
  - rewrite (flat_encode_length app g) in * by assumption.
    constructor; try assumption; try lia. intros; apply IH; auto.
  - match goal with A : forall c, In c props -> _ /\ chunkId c = _ |- _ => rename A into H5' end.
    match goal with A : forall c, In c subs -> _ /\ chunkId c <> _ |- _ => rename A into H6' end.
    rewrite (flat_encode_length app g props) in * by (intros; apply H5'; assumption).
    rewrite (flat_encode_length app g subs) in * by (intros; apply H6'; assumption).
    constructor; try assumption; try lia.
    + intros c I. destruct (H5' c I). split; [apply IHp; assumption|assumption].
    + intros c I. destruct (H6' c I). apply IHs; assumption.
  - econstructor; eassumption.
Qed.

Lemma write_encode : forall rg app e c ft, Realises rg app -> usual e -> WF app ft c ->
  emits e (IFF_writeChunk rg c ft) (encode c).
Proof.
  intros rg app e c ft RG U W. rewrite <- (WF_emitted app c ft W).
  eapply write_emits; try eassumption. apply WF_Writable. assumption.
Qed.
