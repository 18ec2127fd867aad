(** * Conforming trees with correctly sized data are well formed; trees built
    through the API conform *)

From Coq Require Import ZArith List Bool String Lia.
From Coq Require Import Strings.Byte.
From Verif Require Import Machine Io Types Build Check Iff Spec Lemmas IoProofs RegProofs WriteProofs EncodeProofs IdProofs
  Grammar CheckProofs CompareProofs.
Import ListNotations.
Open Scope Z_scope.

Lemma ValidId_range : forall i, ValidId i -> in_range FId i.
Proof.
  intros i (a & b & c & d & -> & H & _). unfold id4, in_range.
  pose proof (H a (or_introl eq_refl)). pose proof (H b (or_intror (or_introl eq_refl))).
  pose proof (H c (or_intror (or_intror (or_introl eq_refl)))).
  pose proof (H d (or_intror (or_intror (or_intror (or_introl eq_refl))))). lia.
Qed.

Lemma LeafData_sub : forall c p, LeafData p -> (forall x, InTree x c -> InTree x p) -> LeafData c.
Proof. intros c p L H x I. apply L. apply H. exact I. Qed.

Lemma LeafData_sizes : forall c, LeafData c -> LeafSizes c.
Proof.
  intros c L x I Q. pose proof (L x I) as X. destruct x as [i s d|i s g l|i s g pp l|i s v]; cbn [is_leaf chunkSize] in *; try contradiction.
  - destruct X as (l & _ & <-). unfold zlength. lia.
  - tauto.
Qed.

Lemma body_in : forall l c, In c l -> (forall c, In c l -> 0 <= chunkSize c) -> physical (chunkSize c) <= body_size l.
Proof.
  induction l as [|x l IH]; intros c HI H; [contradiction|]. rewrite body_size_cons.
  assert (N : 0 <= body_size l) by (apply body_size_nonneg; intros; apply H; right; assumption).
  pose proof (physical_range (chunkSize x)). pose proof (H x (or_introl eq_refl)).
  destruct HI as [->|HI]; [lia|]. pose proof (IH c HI ltac:(intros; apply H; right; assumption)). lia.
Qed.

Lemma Conforms_nonneg : forall app ft c, Conforms app ft c -> LeafSizes c -> 0 <= chunkSize c.
Proof.
  intros app ft c C L. pose proof (Conforms_size app c ft C L) as E. pose proof (physical_range (chunkSize c)).
  destruct c as [i s d|i s g l|i s g pp l|i s v]; cbn [chunkSize encoded_size] in *.
  - exact (L _ (In_here _) I).
  - pose proof (sum_encoded_pos l ltac:(intros; eapply LeafSizes_sub; [exact L|]; intros; eapply In_group; eassumption)). lia.
  - pose proof (sum_encoded_pos l ltac:(intros; eapply LeafSizes_sub; [exact L|]; intros; eapply In_list_sub; eassumption)).
    pose proof (sum_encoded_pos pp ltac:(intros; eapply LeafSizes_sub; [exact L|]; intros; eapply In_list_prop; eassumption)). lia.
  - exact (L _ (In_here _) I).
Qed.

Lemma encode_body : forall app g l, (forall c, In c l -> WF app g c) -> zlength (flat_map encode l) = body_size l.
Proof.
  induction l as [|c l IH]; intro H; [reflexivity|]. cbn [flat_map]. rewrite zlength_app, body_size_cons.
  rewrite (WF_encode_length app g c) by (apply H; left; reflexivity). rewrite IH by (intros; apply H; right; assumption). reflexivity.
Qed.

Theorem Conforms_WF : forall app c ft, Typed app ft c -> Conforms app ft c -> LeafData c -> chunkSize c <= INT_MAX -> WF app ft c.
Proof.
  intro app.
  assert (SUB : forall g l, (forall c, In c l -> forall ft, Typed app ft c -> Conforms app ft c -> LeafData c -> chunkSize c <= INT_MAX -> WF app ft c) ->
    (forall c, In c l -> Typed app g c) -> (forall c, In c l -> Conforms app g c) -> (forall c, In c l -> LeafData c) ->
    4 + body_size l <= INT_MAX -> (forall c, In c l -> WF app g c) /\ zlength (flat_map encode l) = body_size l).
  { intros g l IH T C L B.
    assert (W : forall c, In c l -> WF app g c).
    { intros c HI. apply IH; auto.
      pose proof (body_in l c HI ltac:(intros; eapply Conforms_nonneg; [apply C|apply LeafData_sizes, L]; assumption)).
      pose proof (physical_range (chunkSize c)). lia. }
    split; [exact W|]. exact (encode_body app g l W). }
  assert (NN : forall g l, (forall c, In c l -> Conforms app g c) -> (forall c, In c l -> LeafData c) -> 0 <= body_size l).
  { intros g l C L. apply body_size_nonneg. intros c HI. eapply Conforms_nonneg; [apply C; exact HI|]. apply LeafData_sizes, L, HI. }
  induction c as [i s d|i s g subs IH|i s g props subs IHp IHs|i s vals] using chunk_tree_ind; intros ft T C L B.
  - destruct (L _ (In_here _)) as (l & -> & <-). inversion C; subst. apply WF_raw; try assumption. apply ValidId_range. assumption.
  - assert (LS : forall c, In c subs -> LeafData c)
      by (intros c HI; eapply LeafData_sub; [exact L|]; intros; eapply In_group; eassumption).
    assert (TS : forall c, In c subs -> Typed app g c) by (inversion T; subst; assumption).
    assert (CS : forall c, In c subs -> Conforms app g c) by (inversion C; subst; intros c HI;
      match goal with H : forall c, In c subs -> _ |- _ => destruct (H c HI) as [_ X]; exact X end).
    assert (E : s = 4 + body_size subs) by (inversion C; subst; reflexivity).
    assert (VG : in_range FId g) by (apply ValidId_range; inversion C; subst;
      match goal with H : ValidFormType g |- _ => apply H | _ => assumption end).
    cbn [chunkSize] in B. rewrite E in B. destruct (SUB g subs IH TS CS LS B) as [W EL].
    apply WF_group; auto; [inversion T; subst; assumption|rewrite EL; exact E|rewrite E; exact B].
  - apply Typed_list_inv in T. destruct T as (-> & TP & TS). inversion C; subst. cbn [chunkSize] in B.
    match goal with H : forall c, In c subs -> cat_member g c /\ _ |- _ => rename H into CS end.
    match goal with H : forall c, In c props -> Conforms app g c |- _ => rename H into CP end.
    assert (LP : forall c, In c props -> LeafData c)
      by (intros c HI; eapply LeafData_sub; [exact L|]; intros; eapply In_list_prop; eassumption).
    assert (LS : forall c, In c subs -> LeafData c)
      by (intros c HI; eapply LeafData_sub; [exact L|]; intros; eapply In_list_sub; eassumption).
    pose proof (NN g props CP LP). pose proof (NN g subs (fun c HI => proj2 (CS c HI)) LS).
    destruct (SUB g subs IHs TS (fun c HI => proj2 (CS c HI)) LS) as [WS ES]; [lia|].
    destruct (SUB g props IHp (fun c HI => proj1 (TP c HI)) CP LP) as [WP EP]; [lia|].
    apply WF_list; auto.
    + apply ValidId_range. assumption.
    + intros c HI. split; [exact (WP c HI)|exact (proj2 (TP c HI))].
    + intros c HI. split; [exact (WS c HI)|]. destruct (CS c HI) as [[M _] _]. intro X. rewrite X in M. vm_compute in M. intuition discriminate.
    + rewrite ES, EP. reflexivity.
  - destruct (L _ (In_here _)) as (NG & R & F & Z). inversion T; subst. inversion C; subst. cbn [chunkSize] in B.
    match goal with H : kinds_match ?sp _ |- _ => apply (WF_fields app ft i s sp vals) end; try assumption; [apply ValidId_range; assumption|].
    revert NG B. cbn. lia.
Qed.

(** What a well-formed tree has. *)
Lemma WF_properties : forall app c ft, WF app ft c -> Typed app ft c /\ Represented c /\ LeafData c.
Proof.
  intro app. induction c as [i s d|i s g subs IH|i s g props subs IHp IHs|i s vals] using chunk_tree_ind; intros ft W; inversion W; subst.
  - split; [constructor; assumption|]. split; intros x I; inversion I; subst.
    + split; [assumption|intros g E; discriminate].
    + eexists. split; reflexivity.
  - match goal with H : forall c, In c subs -> WF _ _ _ |- _ => rename H into WS end.
    split; [constructor; [assumption|intros c HI; apply (IH c HI g), WS, HI]|].
    split; intros x I; inversion I; subst; try exact Logic.I.
    + split; [|intros g' E; cbn in E; injection E as <-; assumption]. cbn [chunkId].
      match goal with H : In _ _ |- _ => destruct H as [<-|[<-|[<-|[]]]]; vm_compute; split; congruence end.
    + match goal with H : In ?c subs, K : InTree x ?c |- _ => exact (proj1 (proj2 (IH c H g (WS c H))) x K) end.
    + match goal with H : In ?c subs, K : InTree x ?c |- _ => exact (proj2 (proj2 (IH c H g (WS c H))) x K) end.
  - match goal with H : forall c, In c subs -> WF _ _ _ /\ _ |- _ => rename H into WS end.
    match goal with H : forall c, In c props -> WF _ _ _ /\ _ |- _ => rename H into WP end.
    split; [constructor; intros c HI; [split; [apply (IHp c HI g), WP, HI|apply WP, HI]|apply (IHs c HI g), WS, HI]|].
    split; intros x I; inversion I; subst; try exact Logic.I.
    + split; [vm_compute; split; congruence|intros g' E; cbn in E; injection E as <-; assumption].
    + match goal with H : In ?c props, K : InTree x ?c |- _ => exact (proj1 (proj2 (IHp c H g (proj1 (WP c H)))) x K) end.
    + match goal with H : In ?c subs, K : InTree x ?c |- _ => exact (proj1 (proj2 (IHs c H g (proj1 (WS c H)))) x K) end.
    + match goal with H : In ?c props, K : InTree x ?c |- _ => exact (proj2 (proj2 (IHp c H g (proj1 (WP c H)))) x K) end.
    + match goal with H : In ?c subs, K : InTree x ?c |- _ => exact (proj2 (proj2 (IHs c H g (proj1 (WS c H)))) x K) end.
  - split; [econstructor; eassumption|]. split; intros x I; inversion I; subst.
    + split; [assumption|intros g E; discriminate].
    + repeat split; try assumption; lia.
Qed.

(** ** What reading without application chunks produces *)

Lemma sum_filter : forall (f : chunk -> bool) l,
  sum (map encoded_size (filter f l)) + sum (map encoded_size (filter (fun c => negb (f c)) l)) = sum (map encoded_size l).
Proof.
  intros f l. induction l as [|c l IH]; [reflexivity|]. cbn [filter]. destruct (f c); cbn [negb map sum fold_right];
    change (fold_right Z.add 0) with sum; lia.
Qed.

Lemma Parsed_properties : forall e app, (forall ft i, app ft i = None) ->
  (forall ft l c lg, Parsed e app ft l c lg -> Represented c /\ LeafData c /\ encoded_size c <= zlength l) /\
  (forall g bp s l cs lg total, Members e app g bp s l cs lg total ->
     (forall c, In c cs -> Represented c /\ LeafData c) /\ sum (map encoded_size cs) <= zlength l).
Proof.
  intros e app NA. apply (Parsed_Members_ind e app); intros.
  - split; [|split].
    + intros x I; inversion I; subst. split; [assumption|intros g E; discriminate].
    + intros x I; inversion I; subst. eexists. split; reflexivity.
    + cbn [encoded_size]. rewrite !zlength_app, !EncodeProofs.be32_length. unfold physical, round_even. lia.
  - rewrite NA in *. discriminate.
  - destruct H3 as [SUB SZ]. split; [|split].
    + intros x I; inversion I; subst.
      * split; [|intros h E; cbn in E; injection E as <-; assumption]. cbn [chunkId].
        destruct H as [<-|[<-|[<-|[]]]]; vm_compute; split; congruence.
      * match goal with K : In ?c subs, J : InTree x ?c |- _ => exact (proj1 (SUB c K) x J) end.
    + intros x I; inversion I; subst; [exact Logic.I|].
      match goal with K : In ?c subs, J : InTree x ?c |- _ => exact (proj2 (SUB c K) x J) end.
    + cbn [encoded_size]. rewrite !zlength_app, !EncodeProofs.be32_length. pose proof (zlength_nonneg _ p). lia.
  - destruct H2 as [SUB SZ]. split; [|split].
    + intros x I; inversion I; subst.
      * split; [vm_compute; split; congruence|intros h E; cbn in E; injection E as <-; assumption].
      * match goal with K : In ?c (filter _ _), J : InTree x ?c |- _ => apply filter_In in K; exact (proj1 (SUB c (proj1 K)) x J) end.
      * match goal with K : In ?c (filter _ _), J : InTree x ?c |- _ => apply filter_In in K; exact (proj1 (SUB c (proj1 K)) x J) end.
    + intros x I; inversion I; subst; [exact Logic.I| |];
      match goal with K : In ?c (filter _ _), J : InTree x ?c |- _ => apply filter_In in K; exact (proj2 (SUB c (proj1 K)) x J) end.
    + cbn [encoded_size]. rewrite !zlength_app, !EncodeProofs.be32_length. pose proof (zlength_nonneg _ p).
      pose proof (sum_filter is_prop members). lia.
  - split; [intros c []|reflexivity].
  - destruct H1 as (A & B & C), H4 as [D E]. split.
    + intros x [<-|I]; auto.
    + cbn [map sum fold_right]. change (fold_right Z.add 0) with sum. rewrite zlength_app. lia.
Qed.
