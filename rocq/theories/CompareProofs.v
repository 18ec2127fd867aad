(** * What IFF_compare decides *)

From Coq Require Import ZArith List Bool String Lia.
From Coq Require Import Strings.Byte.
From Verif Require Import Machine Io Types Build Write Compare Iff Spec Lemmas IoProofs RegProofs WriteProofs.
Import ListNotations.
Open Scope Z_scope.

(** [Answers o P]: no undefined behaviour, and the answer is whether [P]. *)
Definition Answers (o : outcome bool) (P : Prop) : Prop := exists b, o = Done b /\ (b = true <-> P).

Lemma Answers_iff : forall o P Q, (P <-> Q) -> Answers o P -> Answers o Q.
Proof. intros o P Q H (b & E & B). exists b. split; [exact E|tauto]. Qed.
Lemma Answers_bool : forall (b : bool) P, (b = true <-> P) -> Answers (Done b) P.
Proof. intros b P H. exists b. split; [reflexivity|exact H]. Qed.
Lemma Answers_and : forall o k P Q, Answers o P -> (P -> Answers k Q) ->
  Answers (b <-o o ;; if b then k else Done false) (P /\ Q).
Proof.
  intros o k P Q (b & -> & B) K. cbn [obind]. destruct b.
  - destruct (K (proj1 B eq_refl)) as (b2 & -> & B2). apply Answers_bool. tauto.
  - apply Answers_bool. split; [discriminate|]. intros [X _]. apply B in X. discriminate.
Qed.
Lemma Answers_if : forall (b : bool) k P Q, (b = true <-> P) -> (P -> Answers k Q) ->
  Answers (if b then k else Done false) (P /\ Q).
Proof.
  intros b k P Q H K. apply (Answers_and (Done b)); [apply Answers_bool; exact H|exact K].
Qed.

Lemma bytes_eqb_spec : forall l1 l2, bytes_eqb l1 l2 = true <-> l1 = l2.
Proof.
  induction l1 as [|a l1 IH]; intros [|b l2]; cbn [bytes_eqb]; try (split; [discriminate|discriminate]); [tauto|].
  rewrite andb_true_iff, IH. split.
  - intros [E ->]. f_equal. apply byte_dec_bl. exact E.
  - intros [= -> ->]. split; [apply byte_dec_lb; reflexivity|reflexivity].
Qed.

Lemma vals_eqb_spec : forall v1 v2, map fst v1 = map fst v2 -> (vals_eqb v1 v2 = true <-> v1 = v2).
Proof.
  induction v1 as [|[k1 a] v1 IH]; intros [|[k2 b] v2] H; cbn [map fst] in H; try discriminate; cbn [vals_eqb]; [tauto|].
  injection H as -> H. rewrite andb_true_iff, Z.eqb_eq, (IH v2 H). split; [intros [-> ->]; reflexivity|intros [= -> ->]; tauto].
Qed.

Lemma block_bytes_ok : forall d s, s <= zlength (data_of d) -> block_bytes d s = Done (ztake s (data_of d)).
Proof.
  intros d s L. unfold block_bytes. destruct (Z.leb_spec s 0) as [N|N].
  - destruct (data_of d); cbn [ztake]; [reflexivity|]. rewrite (proj2 (Z.leb_le _ _) N). reflexivity.
  - destruct d as [l|]; cbn [data_of] in *; [|rewrite zlength_nil in L; lia].
    rewrite (proj2 (Z.ltb_ge _ _)) by lia. reflexivity.
Qed.

Lemma wrap_u_small : forall e s, 0 <= s <= INT_MAX -> wrap_u (size_t_bits e) s = s.
Proof.
  intros e s H. unfold wrap_u. apply Z.mod_small. unfold size_t_bits, INT_MAX in *. destruct (lp64 e); lia.
Qed.

Lemma LeafBlocks_sub : forall c p, LeafBlocks p -> (forall x, InTree x c -> InTree x p) -> LeafBlocks c.
Proof. intros c p L H i s d I. eapply L. apply H. exact I. Qed.

Lemma zlength_eqb : forall A (l1 : list A) B (l2 : list B), (zlength l1 =? zlength l2) = true <-> List.length l1 = List.length l2.
Proof. intros. rewrite Z.eqb_eq. unfold zlength. lia. Qed.

Section Compare.
  Variables (e : env) (rg : option registry) (app : apps).
  Hypothesis RG : Realises rg app.

  Definition compares (c1 : chunk) : Prop := forall ft c2, Typed app ft c1 -> Typed app ft c2 -> LeafBlocks c1 -> LeafBlocks c2 ->
    Answers (IFF_compareChunk e rg c1 c2 ft) (visible c1 = visible c2).

  Lemma compare_all_ok : forall l1 l2 ft, List.length l1 = List.length l2 ->
    (forall c, In c l1 -> compares c) -> (forall c, In c l1 -> Typed app ft c) -> (forall c, In c l2 -> Typed app ft c) ->
    (forall c, In c l1 -> LeafBlocks c) -> (forall c, In c l2 -> LeafBlocks c) ->
    Answers (compare_all (IFF_compareChunk e rg) l1 l2 ft) (map visible l1 = map visible l2).
  Proof.
    induction l1 as [|c1 l1 IH]; intros [|c2 l2] ft L C T1 T2 B1 B2; try discriminate; cbn [compare_all].
    - apply Answers_bool. tauto.
    - assert (LE : List.length l1 = List.length l2) by (injection L; auto).
      eapply Answers_iff; [|apply Answers_and; [apply (C c1 (or_introl eq_refl) ft c2)|intros _; apply (IH l2 ft LE)]];
        first [ apply T1; left; reflexivity | apply T2; left; reflexivity | apply B1; left; reflexivity | apply B2; left; reflexivity | intros c Hc; first [apply C; right; exact Hc|apply T1; right; exact Hc|apply T2; right; exact Hc|apply B1; right; exact Hc|apply B2; right; exact Hc] | idtac ].
      cbn [map]. split; [intros [-> ->]; reflexivity|]. intro X. injection X. auto.
  Qed.

  (** Groups, as compared both from IFF_compareChunk and for PROPs of a LIST. *)
  Lemma compareGroup_ok : forall i1 s1 g1 l1 i2 s2 g2 l2,
    (forall c, In c l1 -> compares c) ->
    (forall c, In c l1 -> Typed app g1 c) -> (forall c, In c l2 -> Typed app g2 c) ->
    (forall c, In c l1 -> LeafBlocks c) -> (forall c, In c l2 -> LeafBlocks c) ->
    Answers (IFF_compareGroup (IFF_compareChunk e rg) (CGroup i1 s1 g1 l1) (CGroup i2 s2 g2 l2))
      ((g1 = g2 /\ List.length l1 = List.length l2) /\ map visible l1 = map visible l2).
  Proof.
    intros i1 s1 g1 l1 i2 s2 g2 l2 C T1 T2 B1 B2. cbn [IFF_compareGroup as_group]. apply Answers_if.
    - rewrite andb_true_iff, Z.eqb_eq, zlength_eqb. tauto.
    - intros [-> L]. apply compare_all_ok; assumption.
  Qed.

  Definition compares_group (c1 : chunk) : Prop := forall ft ft2 c2, Typed app ft c1 -> Typed app ft2 c2 -> LeafBlocks c1 -> LeafBlocks c2 ->
    chunkId c1 = PROP_ID -> chunkId c2 = PROP_ID ->
    Answers (IFF_compareGroup (IFF_compareChunk e rg) c1 c2)
      (set_chunkSize (visible c1) 0 = set_chunkSize (visible c2) 0).

  Lemma compare_props_ok : forall l1 l2 ft ft2, List.length l1 = List.length l2 ->
    (forall c, In c l1 -> compares_group c) ->
    (forall c, In c l1 -> Typed app ft c /\ chunkId c = PROP_ID) -> (forall c, In c l2 -> Typed app ft2 c /\ chunkId c = PROP_ID) ->
    (forall c, In c l1 -> LeafBlocks c) -> (forall c, In c l2 -> LeafBlocks c) ->
    Answers (compare_props (IFF_compareChunk e rg) l1 l2)
      (map (fun p => set_chunkSize (visible p) 0) l1 = map (fun p => set_chunkSize (visible p) 0) l2).
  Proof.
    induction l1 as [|c1 l1 IH]; intros [|c2 l2] ft ft2 L C T1 T2 B1 B2; try discriminate; cbn [compare_props].
    - apply Answers_bool. tauto.
    - assert (LE : List.length l1 = List.length l2) by (injection L; auto).
      eapply Answers_iff; [|apply Answers_and; [apply (C c1 (or_introl eq_refl) ft ft2 c2)|intros _; apply (IH l2 ft ft2 LE)]];
        first [ apply T1; left; reflexivity | apply T2; left; reflexivity | apply B1; left; reflexivity | apply B2; left; reflexivity | intros c Hc; first [apply C; right; exact Hc|apply T1; right; exact Hc|apply T2; right; exact Hc|apply B1; right; exact Hc|apply B2; right; exact Hc] | idtac ].
      cbn [map]. split; [intros [-> ->]; reflexivity|]. intro X. injection X. auto.
  Qed.

  Lemma map_length_eq : forall A B (f g : A -> B) l1 l2, map f l1 = map g l2 -> List.length l1 = List.length l2.
  Proof. intros A B f g l1 l2 H. apply (f_equal (@List.length B)) in H. rewrite !map_length in H. exact H. Qed.

  Lemma Typed_list_inv : forall ft i s g props subs, Typed app ft (CList i s g props subs) ->
    i = LIST_ID /\ (forall c, In c props -> Typed app g c /\ chunkId c = PROP_ID) /\ (forall c, In c subs -> Typed app g c).
  Proof. intros ft i s g props subs T. inversion T; subst. auto. Qed.

  Lemma visible_head : forall c, chunkId (visible c) = chunkId c /\ chunkSize (visible c) = chunkSize c.
  Proof. intros [a b d|a b g l|a b g pp l|a b v]; split; reflexivity. Qed.

  Lemma compare_head : forall c1 c2 ft,
    (chunkId c1 = chunkId c2 -> chunkSize c1 = chunkSize c2 ->
     Answers (compareExtensionChunk (IFF_compareChunk e rg) e (expected_handler app ft (chunkId c1)) c1 c2) (visible c1 = visible c2)) ->
    Answers (IFF_compareChunk e rg c1 c2 ft) (visible c1 = visible c2).
  Proof.
    intros c1 c2 ft H.
    assert (X : Answers (if (chunkId c1 =? chunkId c2) && (chunkSize c1 =? chunkSize c2)
                         then h <-o find_handler rg ft (chunkId c1) ;; compareExtensionChunk (IFF_compareChunk e rg) e h c1 c2
                         else Done false) (visible c1 = visible c2)).
    { eapply Answers_iff; [|apply Answers_if; [rewrite andb_true_iff, !Z.eqb_eq; reflexivity|]].
      2:{ intros [EI ES]. rewrite RG. cbn [obind]. apply H; assumption. }
      split; [tauto|]. intro E. split; [|exact E].
      destruct (visible_head c1) as [A1 A2], (visible_head c2) as [B1 B2]. rewrite <- A1, <- A2, <- B1, <- B2, E. auto. }
    destruct c1; exact X.
  Qed.

  Theorem compare_ok : forall c1, compares c1 /\ compares_group c1.
  Proof.
    induction c1 as [i s d|i s g subs IH|i s g props subs IHp IHs|i s vals] using chunk_tree_ind.
    - split.
      2:{ intros ft ft2 c2 T1 _ _ _ E. exfalso. inversion T1; subst. cbn [chunkId] in E. subst. unfold group_ids in *. simpl in *. tauto. }
      intros ft c2 T1 T2 B1 B2. apply compare_head. intros EI ES. inversion T1; subst. cbn [chunkId chunkSize] in *. subst.
      rewrite data_handler by assumption.
      match goal with H : app ft _ = None |- _ => rewrite H; rename H into NA end. cbn [compareExtensionChunk].
      inversion T2; subst; cbn [chunkId chunkSize] in *; try congruence; try (exfalso; unfold group_ids in *; simpl in *; tauto).
      cbn [IFF_compareRawChunk]. destruct (B1 _ _ _ (In_here _)) as [S1 L1]. destruct (B2 _ _ _ (In_here _)) as [S2 L2].
      rewrite wrap_u_small by assumption. rewrite !block_bytes_ok by assumption. cbn [obind]. apply Answers_bool.
      rewrite bytes_eqb_spec. cbn [visible]. split; [congruence|]. intros [= X]. exact X.
    - assert (CG : forall i2 s2 g2 subs2, (forall c, In c subs -> Typed app g c) -> (forall c, In c subs2 -> Typed app g2 c) ->
                LeafBlocks (CGroup i s g subs) -> LeafBlocks (CGroup i2 s2 g2 subs2) ->
                Answers (IFF_compareGroup (IFF_compareChunk e rg) (CGroup i s g subs) (CGroup i2 s2 g2 subs2))
                  ((g = g2 /\ List.length subs = List.length subs2) /\ map visible subs = map visible subs2)).
      { intros i2 s2 g2 subs2 T1 T2 B1 B2. apply compareGroup_ok; auto; try (intros; apply IH; assumption).
        - intros c Hc. eapply LeafBlocks_sub; [exact B1|]. intros; eapply In_group; eassumption.
        - intros c Hc. eapply LeafBlocks_sub; [exact B2|]. intros; eapply In_group; eassumption. }
      split.
      + intros ft c2 T1 T2 B1 B2. apply compare_head. intros EI ES. inversion T1; subst. cbn [chunkId chunkSize] in *. subst.
        match goal with H : In (chunkId c2) _ |- _ => rename H into II end.
        inversion T2; subst; cbn [chunkId chunkSize] in *; try (exfalso; unfold group_ids in *; simpl in *; tauto).
        2:{ exfalso. vm_compute in II. intuition discriminate. }
        rewrite RegProofs.group_handler by (unfold group_ids; simpl in *; tauto).
        match goal with |- Answers (compareExtensionChunk _ _ _ _ (CGroup ?i2 ?s2 ?g2 ?l2)) _ =>
          assert (A : Answers (IFF_compareGroup (IFF_compareChunk e rg) (CGroup i2 s2 g subs) (CGroup i2 s2 g2 l2))
             (visible (CGroup i2 s2 g subs) = visible (CGroup i2 s2 g2 l2))) end.
        { eapply Answers_iff; [|apply CG; assumption]. cbn [visible]. split.
          - intros [[-> _] ->]. reflexivity.
          - intros [= -> X]. split; [split; [reflexivity|eapply map_length_eq; exact X]|exact X]. }
        clear -A II. destruct II as [<-|[<-|[<-|[]]]]; exact A.
      + intros ft ft2 c2 T1 T2 B1 B2 E1 E2. inversion T1; subst. cbn [chunkId] in *. subst.
        inversion T2; subst; cbn [chunkId chunkSize] in *; subst; try (exfalso; unfold group_ids in *; simpl in *; tauto).
        2:{ discriminate E2. }
        eapply Answers_iff; [|apply CG; assumption]. cbn [visible set_chunkSize]. split.
        * intros [[-> _] ->]. reflexivity.
        * intros [= -> X]. split; [split; [reflexivity|eapply map_length_eq; exact X]|exact X].
    - split.
      2:{ intros ft ft2 c2 T1 _ _ _ E. exfalso. inversion T1; subst. discriminate E. }
      intros ft c2 T1 T2 B1 B2. apply compare_head. intros EI ES. apply Typed_list_inv in T1. destruct T1 as (-> & TP1 & TS1).
      cbn [chunkId chunkSize] in *.
      destruct c2 as [i2 s2 d2|i2 s2 g2 subs2|i2 s2 h props2 subs2|i2 s2 v2]; cbn [chunkId chunkSize] in *; subst i2 s2;
        try (exfalso; inversion T2; subst; unfold group_ids in *; simpl in *; intuition discriminate).
      apply Typed_list_inv in T2. destruct T2 as (_ & TP2 & TS2).
      change (expected_handler app ft LIST_ID) with HList. cbn [compareExtensionChunk IFF_compareList].
      assert (A : Answers (b <-o (if zlength props =? zlength props2 then compare_props (IFF_compareChunk e rg) props props2 else Done false) ;;
                   if b then if (g =? h) && (zlength subs =? zlength subs2) then compare_all (IFF_compareChunk e rg) subs subs2 g else Done false
                   else Done false)
                 ((List.length props = List.length props2 /\
                   map (fun p => set_chunkSize (visible p) 0) props = map (fun p => set_chunkSize (visible p) 0) props2) /\
                  ((g = h /\ List.length subs = List.length subs2) /\ map visible subs = map visible subs2))).
      { apply Answers_and.
        - apply Answers_if; [apply zlength_eqb|]. intro L. apply (compare_props_ok _ _ g h); auto; try (intros; apply IHp; assumption).
          + intros c Hc. eapply LeafBlocks_sub; [exact B1|]. intros; eapply In_list_prop; eassumption.
          + intros c Hc. eapply LeafBlocks_sub; [exact B2|]. intros; eapply In_list_prop; eassumption.
        - intros _. apply Answers_if; [rewrite andb_true_iff, Z.eqb_eq, zlength_eqb; tauto|]. intros [-> L].
          apply compare_all_ok; auto; try (intros; apply IHs; assumption).
          + intros c Hc. eapply LeafBlocks_sub; [exact B1|]. intros; eapply In_list_sub; eassumption.
          + intros c Hc. eapply LeafBlocks_sub; [exact B2|]. intros; eapply In_list_sub; eassumption. }
      eapply Answers_iff; [|exact A]. cbn [visible]. split.
      + intros [[_ ->] [[-> _] ->]]. reflexivity.
      + intros [= -> X Y]. repeat split; auto; eapply map_length_eq; eassumption.
    - split.
      2:{ intros ft ft2 c2 T1 _ _ _ E. exfalso. inversion T1; subst. cbn [chunkId] in E. subst. unfold group_ids in *. simpl in *. tauto. }
      intros ft c2 T1 T2 B1 B2. apply compare_head. intros EI ES. inversion T1; subst. cbn [chunkId chunkSize] in *. subst.
      rewrite data_handler by assumption.
      match goal with H : app ft _ = Some _ |- _ => rewrite H; rename H into SA end. cbn [compareExtensionChunk].
      match goal with H : kinds_match _ _ |- _ => rename H into K1 end.
      inversion T2; subst; cbn [chunkId chunkSize] in *; try congruence; try (exfalso; unfold group_ids in *; simpl in *; tauto).
      match goal with H : app ft _ = Some ?x, H0 : kinds_match ?x _ |- _ => rename H into SB, H0 into K2 end.
      rewrite SA in SB. injection SB as <-. unfold kinds_match in *. cbn [compare_fields_chunk].
      rewrite !(proj2 (fkinds_eqb_spec _ _)) by assumption. cbn [andb]. apply Answers_bool.
      rewrite vals_eqb_spec by congruence. cbn [visible]. split; [congruence|]. intros [= X]. exact X.
  Qed.
End Compare.
