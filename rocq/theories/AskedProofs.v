(** * Only the chunk types that are asked for matter *)

From Coq Require Import ZArith List Bool String Lia.
From Coq Require Import Strings.Byte.
From Verif Require Import Machine Io Types Build Read Write Check Compare Print Iff Spec Lemmas AskedSpec.
Import ListNotations.
Open Scope Z_scope.

Section Same.
  Variables r1 r2 : option registry.
  Notation same := (same_types r1 r2).

  Lemma st_here : forall ft c, same ft c -> find_handler r1 ft (chunkId c) = find_handler r2 ft (chunkId c).
  Proof. intros ft c S. apply S. constructor. Qed.
  Lemma st_group : forall ft i s g l x, same ft (CGroup i s g l) -> In x l -> same g x.
  Proof. intros ft i s g l x S X ft' i' A. apply S. eapply Asked_group; eassumption. Qed.
  Lemma st_member : forall ft i s g ps l x, same ft (CList i s g ps l) -> In x l -> same g x.
  Proof. intros ft i s g ps l x S X ft' i' A. apply S. eapply Asked_member; eassumption. Qed.
  Lemma st_prop : forall ft i s g ps l x, same ft (CList i s g ps l) -> In x ps -> same g x.
  Proof. intros ft i s g ps l x S X ft' i' A. apply S. eapply Asked_prop; eassumption. Qed.
  Lemma st_written : forall ft i s g ps l x, same ft (CList i s g ps l) -> In x ps -> same 0 x.
  Proof.
    intros ft i s g ps l x S X ft' i' A. apply S. inversion A; subst; [apply Asked_written; assumption|..];
      (eapply Asked_prop; [eassumption|]); [eapply Asked_group|eapply Asked_member|eapply Asked_prop|apply Asked_written]; eassumption.
  Qed.

  (** ** The calls that only look at a tree *)

  Lemma bind_alike : forall A C (m n : M A) (f g : A -> M C) e w, m e w = n e w -> (forall a w, f a e w = g a e w) -> bind m f e w = bind n g e w.
  Proof. intros A C m n f g e w X Y. unfold bind. rewrite X. destruct (n e w) as [[a w1]|u|]; auto. Qed.

  Lemma write_all_alike : forall (f1 f2 : chunk -> Z -> M bool) msg l ft bp e w, (forall x, In x l -> forall e w, f1 x ft e w = f2 x ft e w) ->
    write_all f1 msg l ft bp e w = write_all f2 msg l ft bp e w.
  Proof.
    intros f1 f2 msg l ft. induction l as [|c l IH]; intros bp e w X; [reflexivity|]. cbn [write_all]. apply bind_alike; [apply X; left; reflexivity|].
    intros [] w1; [|reflexivity]. apply bind_alike; [reflexivity|]. intros b w2. apply IH. intros x I. apply X. right. exact I.
  Qed.
  Lemma check_all_alike : forall (f1 f2 : chunk -> Z -> M bool) k l ft acc e w, (forall x, In x l -> forall e w, f1 x ft e w = f2 x ft e w) ->
    check_subs f1 k l ft acc e w = check_subs f2 k l ft acc e w.
  Proof.
    intros f1 f2 k l ft. induction l as [|c l IH]; intros bp e w X; [reflexivity|]. cbn [check_subs]. apply bind_alike; [reflexivity|].
    intros [] w1; [|reflexivity]. apply bind_alike; [apply X; left; reflexivity|]. intros [] w2; [|reflexivity].
    apply bind_alike; [reflexivity|]. intros b w3. apply IH. intros x I. apply X. right. exact I.
  Qed.
  Lemma print_all_alike : forall (f1 f2 : chunk -> nat -> Z -> outcome string) l lv ft, (forall x, In x l -> forall lv, f1 x lv ft = f2 x lv ft) ->
    print_all f1 l lv ft = print_all f2 l lv ft.
  Proof.
    intros f1 f2 l lv ft. induction l as [|c l IH]; intro X; [reflexivity|]. cbn [print_all]. rewrite (X c (or_introl eq_refl)).
    destruct (f2 c lv ft); [|reflexivity|reflexivity]. cbn [obind]. rewrite IH; [reflexivity|]. intros x I. apply X. right. exact I.
  Qed.
  Lemma free_all_alike : forall (f1 f2 : chunk -> Z -> outcome unit) l ft, (forall x, In x l -> f1 x ft = f2 x ft) -> free_all f1 l ft = free_all f2 l ft.
  Proof.
    intros f1 f2 l ft. induction l as [|c l IH]; intro X; [reflexivity|]. cbn [free_all]. rewrite (X c (or_introl eq_refl)).
    destruct (f2 c ft); [|reflexivity|reflexivity]. cbn [obind]. apply IH. intros x I. apply X. right. exact I.
  Qed.
  Lemma compare_all_alike : forall (f1 f2 : chunk -> chunk -> Z -> outcome bool) l l2 ft, (forall x, In x l -> forall y, f1 x y ft = f2 x y ft) ->
    compare_all f1 l l2 ft = compare_all f2 l l2 ft.
  Proof.
    intros f1 f2 l l2 ft. revert l2. induction l as [|c l IH]; intros [|c2 l2] X; try reflexivity. cbn [compare_all]. rewrite (X c (or_introl eq_refl)).
    destruct (f2 c c2 ft) as [[]| |]; cbn [obind]; try reflexivity. apply IH. intros x I. apply X. right. exact I.
  Qed.

  Lemma same_written : forall c ft e w, same ft c -> IFF_writeChunk r1 c ft e w = IFF_writeChunk r2 c ft e w.
  Proof.
    assert (HEAD : forall c ft e w, same ft c ->
      (forall h bp e w, writeExtensionChunkFields (IFF_writeChunk r1) h c bp e w = writeExtensionChunkFields (IFF_writeChunk r2) h c bp e w) ->
      IFF_writeChunk r1 c ft e w = IFF_writeChunk r2 c ft e w).
    { intros c ft e w S X.
      assert (U : forall r, IFF_writeChunk r c ft = andM (IFF_writeId (chunkId c) (chunkId c) "chunkId")
        (andM (IFF_writeLong (chunkSize c) (chunkId c) "chunkSize") (writeChunkBody (IFF_writeChunk r) r c ft))) by (intro r; destruct c; reflexivity).
      rewrite !U. unfold andM. apply bind_alike; [reflexivity|]. intros [] w1; [|reflexivity]. apply bind_alike; [reflexivity|]. intros [] w2; [|reflexivity].
      unfold writeChunkBody. rewrite (st_here _ _ S). apply bind_alike; [reflexivity|]. intros h w3. apply bind_alike; [apply X|]. intros [ok bp] w4. reflexivity. }
    induction c as [i s d|i s g l IH|i s g ps l IHp IHl|i s v] using chunk_tree_ind; intros ft e w S; (apply HEAD; [exact S|]); clear e w; intros h bp e w; destruct h; try reflexivity;
      cbn [writeExtensionChunkFields IFF_writeGroup IFF_writeList]; try (apply bind_alike; [reflexivity|]; intros [[] bp1] w1; try reflexivity);
      try (unfold IFF_writeGroupSubChunks; apply write_all_alike; intros x I e' w'; first [apply IH; [exact I|exact (st_group _ _ _ _ _ _ S I)]|apply IHl; [exact I|exact (st_member _ _ _ _ _ _ _ S I)]]).
    apply bind_alike; [unfold writeListPropChunks; apply write_all_alike; intros x I e' w'; apply IHp; [exact I|exact (st_written _ _ _ _ _ _ _ S I)]|].
    intros [[] bp2] w2; [|reflexivity]. unfold IFF_writeGroupSubChunks; apply write_all_alike; intros x I e' w'. apply IHl; [exact I|exact (st_member _ _ _ _ _ _ _ S I)].
  Qed.

  Lemma same_checked : forall c ft e w, same ft c -> IFF_checkChunk r1 c ft e w = IFF_checkChunk r2 c ft e w.
  Proof.
    assert (HEAD : forall c ft e w, same ft c ->
      (forall h e w, checkExtensionChunk (IFF_checkChunk r1) h c e w = checkExtensionChunk (IFF_checkChunk r2) h c e w) ->
      IFF_checkChunk r1 c ft e w = IFF_checkChunk r2 c ft e w).
    { intros c ft e w S X.
      assert (U : forall r, IFF_checkChunk r c ft = (ok <- IFF_checkId (chunkId c) ;; if negb ok then ret false else
        h <- lift (find_handler r ft (chunkId c)) ;; checkExtensionChunk (IFF_checkChunk r) h c)) by (intro r; destruct c; reflexivity).
      rewrite !U. apply bind_alike; [reflexivity|]. intros [] w1; [|reflexivity]. cbn [negb]. rewrite (st_here _ _ S). apply bind_alike; [reflexivity|]. intros h w2. apply X. }
    assert (GR : forall tc sc c e w, (forall i s g l, c = CGroup i s g l -> forall x, In x l -> forall e w, IFF_checkChunk r1 x g e w = IFF_checkChunk r2 x g e w) ->
      (forall i s g ps l, c = CList i s g ps l -> forall x, In x l -> forall e w, IFF_checkChunk r1 x g e w = IFF_checkChunk r2 x g e w) ->
      IFF_checkGroup (IFF_checkChunk r1) tc sc c e w = IFF_checkGroup (IFF_checkChunk r2) tc sc c e w).
    { intros tc sc c e w X Y. unfold IFF_checkGroup. destruct c as [i s d|i s g l|i s g ps l|i s v]; try reflexivity; (apply bind_alike; [reflexivity|]; intros [] w1; [|reflexivity]; cbn [negb];
        apply bind_alike; [apply check_all_alike; eauto|reflexivity]). }
    induction c as [i s d|i s g l IH|i s g ps l IHp IHl|i s v] using chunk_tree_ind; intros ft e w S; (apply HEAD; [exact S|]); clear e w; intros h e w; destruct h; try reflexivity;
      cbn [checkExtensionChunk]; unfold IFF_checkForm, IFF_checkCAT, IFF_checkProp; try (apply GR; [intros i' s' g' l' E x I e' w'|intros i' s' g' ps' l' E x I e' w']; try discriminate E; injection E as <- <- <- <-;
        first [apply IH; [exact I|exact (st_group _ _ _ _ _ _ S I)]|apply IHl; [exact I|exact (st_member _ _ _ _ _ _ _ S I)]]);
      try (apply GR; [intros i' s' g' l' E x I e' w'|intros i' s' g' ps' l' E x I e' w']; try discriminate E; injection E as <- <- <- <- <-; apply IHl; [exact I|exact (st_member _ _ _ _ _ _ _ S I)]).
    cbn [IFF_checkList]. apply bind_alike; [reflexivity|]. intros [] w1; [|reflexivity]. cbn [negb]. unfold checkListPropChunks.
    apply bind_alike; [apply check_all_alike; intros x I e' w'; apply IHp; [exact I|exact (st_prop _ _ _ _ _ _ _ S I)]|]. intros z w2. destruct (z =? -1); [reflexivity|].
    apply bind_alike; [reflexivity|]. intros z2 w3. apply bind_alike; [apply check_all_alike; intros x I e' w'; apply IHl; [exact I|exact (st_member _ _ _ _ _ _ _ S I)]|reflexivity].
  Qed.

  Lemma same_printed : forall c ft lv, same ft c -> IFF_printChunk r1 c lv ft = IFF_printChunk r2 c lv ft.
  Proof.
    induction c as [i s d|i s g l IH|i s g ps l IHp IHl|i s v] using chunk_tree_ind; intros ft lv S; pose proof (st_here _ _ S) as H; cbn [IFF_printChunk chunkId] in *; rewrite H;
      (destruct (find_handler r2 ft i) as [h|u|]; [|reflexivity|reflexivity]); cbn [obind]; destruct h; cbn [printExtensionChunk IFF_printGroup IFF_printList]; try reflexivity; unfold print_array.
    1-3: (rewrite (print_all_alike (IFF_printChunk r1) (IFF_printChunk r2) l); [reflexivity|]; intros x I lv'; apply IH; [exact I|exact (st_group _ _ _ _ _ _ S I)]).
    all: try (rewrite (print_all_alike (IFF_printChunk r1) (IFF_printChunk r2) ps); [|intros x I lv'; apply IHp; [exact I|exact (st_prop _ _ _ _ _ _ _ S I)]]);
      rewrite (print_all_alike (IFF_printChunk r1) (IFF_printChunk r2) l); [reflexivity|intros x I lv'; apply IHl; [exact I|exact (st_member _ _ _ _ _ _ _ S I)]].
  Qed.

  Lemma same_freed : forall c ft, same ft c -> IFF_freeChunk r1 c ft = IFF_freeChunk r2 c ft.
  Proof.
    induction c as [i s d|i s g l IH|i s g ps l IHp IHl|i s v] using chunk_tree_ind; intros ft S; pose proof (st_here _ _ S) as H; cbn [IFF_freeChunk chunkId] in *; rewrite H;
      (destruct (find_handler r2 ft i) as [h|u|]; [|reflexivity|reflexivity]); cbn [obind]; destruct h; cbn [freeExtensionChunk IFF_freeGroup IFF_freeList]; try reflexivity.
    1-3: (apply free_all_alike; intros x I; apply IH; [exact I|exact (st_group _ _ _ _ _ _ S I)]).
    all: rewrite (free_all_alike (IFF_freeChunk r1) (IFF_freeChunk r2) l) by (intros x I; apply IHl; [exact I|exact (st_member _ _ _ _ _ _ _ S I)]); try reflexivity.
    rewrite (free_all_alike (IFF_freeChunk r1) (IFF_freeChunk r2) ps) by (intros x I; apply IHp; [exact I|exact (st_prop _ _ _ _ _ _ _ S I)]). reflexivity.
  Qed.

  Lemma same_compared : forall e c ft c2, same ft c -> IFF_compareChunk e r1 c c2 ft = IFF_compareChunk e r2 c c2 ft.
  Proof.
    intro e.
    assert (BOTH : forall c ft, same ft c -> (forall c2, IFF_compareChunk e r1 c c2 ft = IFF_compareChunk e r2 c c2 ft) /\
      (forall c2, IFF_compareGroup (IFF_compareChunk e r1) c c2 = IFF_compareGroup (IFF_compareChunk e r2) c c2)).
    2: { intros c ft c2 S. exact (proj1 (BOTH c ft S) c2). }
    assert (HEAD : forall c ft, same ft c -> (forall h c2, compareExtensionChunk (IFF_compareChunk e r1) e h c c2 = compareExtensionChunk (IFF_compareChunk e r2) e h c c2) ->
      forall c2, IFF_compareChunk e r1 c c2 ft = IFF_compareChunk e r2 c c2 ft).
    { intros c ft S H c2. pose proof (st_here _ _ S) as E. destruct c as [i s d|i s g l|i s g ps l|i s v]; cbn [IFF_compareChunk chunkId] in *; (destruct (_ && _); [|reflexivity]); rewrite E; destruct (find_handler r2 ft _) as [h|u|]; cbn [obind]; auto. }
    induction c as [i s d|i s g l IH|i s g ps l IHp IHl|i s v] using chunk_tree_ind; intros ft S.
    - split; [|reflexivity]. apply HEAD; [exact S|]. intros [] c2; reflexivity.
    - assert (G : forall c2, IFF_compareGroup (IFF_compareChunk e r1) (CGroup i s g l) c2 = IFF_compareGroup (IFF_compareChunk e r2) (CGroup i s g l) c2).
      { intro c2. cbn [IFF_compareGroup]. destruct (as_group c2) as [[g2 l2]|]; [|reflexivity].
        rewrite (compare_all_alike (IFF_compareChunk e r1) (IFF_compareChunk e r2)); [reflexivity|]. intros x I. exact (proj1 (IH x I g (st_group _ _ _ _ _ _ S I))). }
      split; [|exact G]. apply HEAD; [exact S|]. intros [] c2; cbn [compareExtensionChunk]; try reflexivity; apply G.
    - assert (G : forall c2, IFF_compareGroup (IFF_compareChunk e r1) (CList i s g ps l) c2 = IFF_compareGroup (IFF_compareChunk e r2) (CList i s g ps l) c2).
      { intro c2. cbn [IFF_compareGroup]. destruct (as_group c2) as [[g2 l2]|]; [|reflexivity].
        rewrite (compare_all_alike (IFF_compareChunk e r1) (IFF_compareChunk e r2)); [reflexivity|]. intros x I. exact (proj1 (IHl x I g (st_member _ _ _ _ _ _ _ S I))). }
      split; [|exact G]. apply HEAD; [exact S|]. intros [] c2; cbn [compareExtensionChunk]; try reflexivity; try apply G.
      cbn [IFF_compareList]. destruct c2 as [| |i2 s2 g2 ps2 l2|]; try reflexivity.
      assert (P : forall q q2, (forall x, In x q -> In x ps) -> compare_props (IFF_compareChunk e r1) q q2 = compare_props (IFF_compareChunk e r2) q q2).
      { induction q as [|x q IQ]; intros [|x2 q2] X; try reflexivity. cbn [compare_props]. assert (I : In x ps) by (apply X; left; reflexivity).
        rewrite (proj2 (IHp x I g (st_prop _ _ _ _ _ _ _ S I))). destruct (IFF_compareGroup _ x x2) as [[]| |]; cbn [obind]; try reflexivity. apply IQ. intros y Y. apply X. right. exact Y. }
      rewrite (P ps ps2 (fun x I => I)). rewrite (compare_all_alike (IFF_compareChunk e r1) (IFF_compareChunk e r2)); [reflexivity|].
      intros x I. exact (proj1 (IHl x I g (st_member _ _ _ _ _ _ _ S I))).
    - split; [|reflexivity]. apply HEAD; [exact S|]. intros [] c2; reflexivity.
  Qed.

  (** ** Reading *)

  (** A group while its members are read: it only gets more of them. *)
  Definition grown (a b : chunk) : Prop :=
    match a, b with
    | CGroup i s g l, CGroup i' s' g' l' => i = i' /\ s = s' /\ g = g' /\ incl l l'
    | CList i s g ps l, CList i' s' g' ps' l' => i = i' /\ s = s' /\ g = g' /\ incl ps ps' /\ incl l l'
    | _, _ => a = b
    end.
  Lemma grown_refl : forall a, grown a a.
  Proof. intros [i s d|i s g l|i s g ps l|i s v]; cbn; try reflexivity; repeat split; auto using incl_refl. Qed.
  Lemma grown_trans : forall a b c, grown a b -> grown b c -> grown a c.
  Proof.
    intros [i s d|i s g l|i s g ps l|i s v] [i1 s1 d1|i1 s1 g1 l1|i1 s1 g1 ps1 l1|i1 s1 v1] [i2 s2 d2|i2 s2 g2 l2|i2 s2 g2 ps2 l2|i2 s2 v2]; cbn; intros X Y; try discriminate; try congruence.
    - destruct X as (-> & -> & -> & X), Y as (-> & -> & -> & Y). repeat split; auto. exact (incl_tran X Y).
    - destruct X as (-> & -> & -> & X & X'), Y as (-> & -> & -> & Y & Y'). repeat split; auto; [exact (incl_tran X Y)|exact (incl_tran X' Y')].
  Qed.
  Definition members_of (c : chunk) : list chunk := match c with CGroup _ _ _ l => l | CList _ _ _ ps l => ps ++ l | _ => [] end.
  Lemma grown_members : forall a b, grown a b -> incl (members_of a) (members_of b).
  Proof.
    intros [i s d|i s g l|i s g ps l|i s v] [i1 s1 d1|i1 s1 g1 l1|i1 s1 g1 ps1 l1|i1 s1 v1]; cbn; intros X; try discriminate; auto using incl_refl; try (intros x []).
    - exact (proj2 (proj2 (proj2 X))).
    - destruct X as (_ & _ & _ & X & Y). intros x I. apply in_app_or in I. apply in_or_app. destruct I as [I|I]; [left; exact (X x I)|right; exact (Y x I)].
  Qed.
  Lemma grown_same : forall a b, grown a b -> chunkId a = chunkId b /\ chunkSize a = chunkSize b.
  Proof. intros [i s d|i s g l|i s g ps l|i s v] [i1 s1 d1|i1 s1 g1 l1|i1 s1 g1 ps1 l1|i1 s1 v1]; cbn; intros X; try discriminate; try (destruct X as (-> & -> & _); split; reflexivity); injection X as -> ->; split; reflexivity. Qed.

  Lemma bind_ok : forall A C (m : M A) (k : A -> M C) e w c w', bind m k e w = Done (c, w') -> exists a w1, m e w = Done (a, w1) /\ k a e w1 = Done (c, w').
  Proof. intros A C m k e w c w' X. unfold bind in X. destruct (m e w) as [[a w1]|u|]; try discriminate X. exists a, w1. split; [reflexivity|exact X]. Qed.

  Lemma attach_grows : forall a c e w b w', IFF_attachToGroup a c e w = Done (b, w') -> grown a b /\ In c (members_of b).
  Proof.
    intros a c e w b w' X. unfold IFF_attachToGroup in X. destruct a as [i s d|i s g l|i s g ps l|i s v]; cbn [as_group] in X; try discriminate X;
      (apply bind_ok in X; destruct X as (ok & w1 & _ & X); destruct ok; [|discriminate X]; injection X as <- <-; cbn; split).
    - repeat split; auto. apply incl_appl, incl_refl.
    - apply in_or_app. right. left. reflexivity.
    - repeat split; auto using incl_refl. apply incl_appl, incl_refl.
    - apply in_or_app. right. apply in_or_app. right. left. reflexivity.
  Qed.
  Lemma addProp_grows : forall a c e w b w', addPropToList a c e w = Done (b, w') -> grown a b /\ In c (members_of b).
  Proof.
    intros a c e w b w' X. unfold addPropToList in X. destruct a as [i s d|i s g l|i s g ps l|i s v]; try discriminate X.
    apply bind_ok in X; destruct X as (ok & w1 & _ & X); destruct ok; [|discriminate X]; injection X as <- <-; cbn; split.
    - repeat split; auto using incl_refl. apply incl_appl, incl_refl.
    - apply in_or_app. left. apply in_or_app. right. left. reflexivity.
  Qed.

  Section Loops.
    Variables rc1 rc2 : Z -> M (option chunk).
    Hypothesis RC : forall ft e w c w', rc1 ft e w = Done (Some c, w') -> same ft c -> rc2 ft e w = Done (Some c, w').

    Lemma loop_same : forall f a gt bp e w b bp' w', readGroupSubChunks rc1 f a gt bp e w = Done ((true, b, bp'), w') ->
      grown a b /\ ((forall x, In x (members_of b) -> same gt x) -> readGroupSubChunks rc2 f a gt bp e w = Done ((true, b, bp'), w')).
    Proof.
      induction f as [|f IH]; intros a gt bp e w b bp' w' X; cbn [readGroupSubChunks] in X |- *; destruct (bp <? chunkSize a); try discriminate X.
      - pose proof X as X'. apply bind_ok in X. destruct X as (u & w1 & _ & X). injection X as <- <- <-. split; [apply grown_refl|]. intros _. exact X'.
      - apply bind_ok in X. destruct X as ([c|] & w1 & R & X); [|discriminate X]. apply bind_ok in X. destruct X as (a' & w2 & AT & X).
        apply bind_ok in X. destruct X as (bp1 & w3 & IC & X). destruct (IH _ _ _ _ _ _ _ _ X) as (G & Y). destruct (attach_grows _ _ _ _ _ _ AT) as (G1 & IN).
        split; [exact (grown_trans _ _ _ G1 G)|]. intro S. unfold bind. rewrite (RC _ _ _ _ _ R (S c (grown_members _ _ G c IN))). rewrite AT, IC. exact (Y S).
      - pose proof X as X'. apply bind_ok in X. destruct X as (u & w1 & _ & X). injection X as <- <- <-. split; [apply grown_refl|]. intros _. exact X'.
    Qed.
    Lemma list_loop_same : forall f a gt bp e w b bp' w', readListSubChunks rc1 f a gt bp e w = Done ((true, b, bp'), w') ->
      grown a b /\ ((forall x, In x (members_of b) -> same gt x) -> readListSubChunks rc2 f a gt bp e w = Done ((true, b, bp'), w')).
    Proof.
      induction f as [|f IH]; intros a gt bp e w b bp' w' X; cbn [readListSubChunks] in X |- *; destruct (bp <? chunkSize a); try discriminate X.
      - pose proof X as X'. apply bind_ok in X. destruct X as (u & w1 & _ & X). injection X as <- <- <-. split; [apply grown_refl|]. intros _. exact X'.
      - apply bind_ok in X. destruct X as ([c|] & w1 & R & X); [|discriminate X]. apply bind_ok in X. destruct X as (a' & w2 & AT & X).
        apply bind_ok in X. destruct X as (bp1 & w3 & IC & X). destruct (IH _ _ _ _ _ _ _ _ X) as (G & Y).
        assert (GI : grown a a' /\ In c (members_of a')) by (destruct (chunkId c =? IFF_ID_PROP); [exact (addProp_grows _ _ _ _ _ _ AT)|exact (attach_grows _ _ _ _ _ _ AT)]). destruct GI as (G1 & IN).
        split; [exact (grown_trans _ _ _ G1 G)|]. intro S. unfold bind. rewrite (RC _ _ _ _ _ R (S c (grown_members _ _ G c IN))). rewrite AT, IC. exact (Y S).
      - pose proof X as X'. apply bind_ok in X. destruct X as (u & w1 & _ & X). injection X as <- <- <-. split; [apply grown_refl|]. intros _. exact X'.
    Qed.
    Lemma members_same : forall ft c g, same ft c -> match c with CGroup _ _ g' _ | CList _ _ g' _ _ => g' = g | _ => True end -> forall x, In x (members_of c) -> same g x.
    Proof.
      intros ft [i s d|i s g' l|i s g' ps l|i s v] g S E x I; cbn [members_of] in I; try (destruct I; fail); subst g'; [exact (st_group _ _ _ _ _ _ S I)|].
      apply in_app_or in I. destruct I as [I|I]; [exact (st_prop _ _ _ _ _ _ _ S I)|exact (st_member _ _ _ _ _ _ _ S I)].
    Qed.
    Lemma grown_type : forall a g b, grown (set_groupType a g) b -> match b with CGroup _ _ g' _ | CList _ _ g' _ _ => g' = g | _ => True end.
    Proof. intros [i s d|i s g0 l|i s g0 ps l|i s v] g [i1 s1 d1|i1 s1 g1 l1|i1 s1 g1 ps1 l1|i1 s1 v1]; cbn; intro X; try discriminate X; auto; destruct X as (_ & _ & <- & _); reflexivity. Qed.

    Lemma group_same : forall f a name bp e w b bp' w' ft, IFF_readGroup rc1 f a name bp e w = Done ((true, b, bp'), w') ->
      chunkId a = chunkId b /\ (same ft b -> IFF_readGroup rc2 f a name bp e w = Done ((true, b, bp'), w')).
    Proof.
      intros f a name bp e w b bp' w' ft X. unfold IFF_readGroup in *. destruct (as_group a) as [ga|]; [|discriminate X]. apply bind_ok in X. destruct X as ([[st v] bp1] & w1 & R & X).
      unfold bind at 1. rewrite R. destruct st, v as [g|]; try discriminate X; try (injection X as <- <- <-; split; [reflexivity|intros _; reflexivity]).
      destruct (loop_same _ _ _ _ _ _ _ _ _ X) as (G & Y). split; [rewrite <- (proj1 (grown_same _ _ G)); destruct a; reflexivity|].
      intro S. apply Y. exact (members_same ft b g S (grown_type _ _ _ G)).
    Qed.
    Lemma list_same : forall f a bp e w b bp' w' ft, IFF_readList rc1 f a bp e w = Done ((true, b, bp'), w') ->
      chunkId a = chunkId b /\ (same ft b -> IFF_readList rc2 f a bp e w = Done ((true, b, bp'), w')).
    Proof.
      intros f a bp e w b bp' w' ft X. unfold IFF_readList in *. destruct a as [i s d|i s g l|i s g0 ps l|i s v]; try discriminate X.
      set (a := CList i s g0 ps l) in *. apply bind_ok in X. destruct X as ([[st v] bp1] & w1 & R & X).
      unfold bind at 1. rewrite R. destruct st, v as [g|]; try discriminate X; try (injection X as <- <- <-; split; [reflexivity|intros _; reflexivity]).
      apply bind_ok in X. destruct X as ([[ok b'] bp2] & w2 & LP & X). destruct ok; [|apply bind_ok in X; destruct X as (u & w3 & _ & X); discriminate X]. injection X as -> -> ->.
      destruct (list_loop_same _ _ _ _ _ _ _ _ _ LP) as (G & Y). split; [rewrite <- (proj1 (grown_same _ _ G)); reflexivity|].
      intro S. unfold bind at 1. rewrite (Y (members_same ft b g S (grown_type _ _ _ G))). reflexivity.
    Qed.

    Lemma raw_id : forall a bp e w b bp' w' ok, IFF_readRawChunk a bp e w = Done ((ok, b, bp'), w') -> chunkId a = chunkId b.
    Proof.
      intros a bp e w b bp' w' ok X. unfold IFF_readRawChunk in X. destruct a as [i s d|i s g l|i s g0 ps l|i s v]; try discriminate X.
      apply bind_ok in X. destruct X as (e' & w1 & _ & X). apply bind_ok in X. destruct X as (l & w2 & _ & X).
      destruct (zlength l <? _); [|destruct (_ <? _); [discriminate X|injection X as _ <- _ _; reflexivity]].
      apply bind_ok in X. destruct X as (u1 & w3 & _ & X). apply bind_ok in X. destruct X as (u2 & w4 & _ & X). apply bind_ok in X. destruct X as (u3 & w5 & _ & X). injection X as _ <- _ _. reflexivity.
    Qed.
    Lemma fields_id : forall spec a bp e w b bp' w' ok, read_fields_chunk spec a bp e w = Done ((ok, b, bp'), w') -> chunkId a = chunkId b.
    Proof.
      intros spec a bp e w b bp' w' ok X. unfold read_fields_chunk in X. destruct a as [i s d|i s g l|i s g0 ps l|i s v]; try discriminate X.
      destruct (fkinds_eqb _ _); [|discriminate X]. apply bind_ok in X. destruct X as ([[ok' vs] bp1] & w1 & _ & X). injection X as _ <- _ _. reflexivity.
    Qed.

    Lemma body_same : forall f h a bp e w b bp' w' ft, readExtensionChunkFields rc1 f h a bp e w = Done ((true, b, bp'), w') ->
      chunkId a = chunkId b /\ (same ft b -> readExtensionChunkFields rc2 f h a bp e w = Done ((true, b, bp'), w')).
    Proof.
      intros f h a bp e w b bp' w' ft X. destruct h as [| | | | |spec]; cbn [readExtensionChunkFields] in *; try (exact (group_same _ _ _ _ _ _ _ _ _ ft X)).
      - exact (list_same _ _ _ _ _ _ _ _ ft X).
      - split; [exact (raw_id _ _ _ _ _ _ _ _ X)|intros _; exact X].
      - split; [exact (fields_id _ _ _ _ _ _ _ _ _ X)|intros _; exact X].
    Qed.
  End Loops.

  Hypothesis LL : forall ft cid, find_handler r1 ft cid = Done HList -> cid = IFF_ID_LIST.

  Lemma created_id : forall h cid size e w c w', (h = HList -> cid = IFF_ID_LIST) -> createExtensionChunk h cid size e w = Done (Some c, w') -> chunkId c = cid.
  Proof.
    intros h cid size e w c w' L X. destruct h as [| | | | |spec]; cbn [createExtensionChunk] in X;
      unfold IFF_createUnparsedGroup, IFF_createGroup, IFF_createUnparsedList, IFF_createList, IFF_createRawChunk, create_fields in X.
    5: { apply bind_ok in X. destruct X as (e' & w1 & _ & X). apply bind_ok in X. destruct X as ([] & w2 & _ & X); [|discriminate X]. apply bind_ok in X. destruct X as ([] & w3 & _ & X); [|discriminate X]. injection X as <- _. reflexivity. }
    3: { apply bind_ok in X. destruct X as ([] & w1 & _ & X); [|discriminate X]. injection X as <- _. symmetry. apply L. reflexivity. }
    all: (apply bind_ok in X; destruct X as ([] & w1 & _ & X); [|discriminate X]; injection X as <- _; reflexivity).
  Qed.

  Lemma same_read : forall f ft e w c w', IFF_readChunk r1 f ft e w = Done (Some c, w') -> same ft c -> IFF_readChunk r2 f ft e w = Done (Some c, w').
  Proof.
    induction f as [|f IH]; intros ft e w c w' X S; [discriminate X|]. cbn [IFF_readChunk] in *. apply bind_ok in X. destruct X as ([cid|] & w1 & R1 & X); [|discriminate X].
    apply bind_ok in X. destruct X as ([size|] & w2 & R2 & X); [|discriminate X]. unfold bind at 1. rewrite R1. unfold bind at 1. rewrite R2. clear R1 R2.
    unfold readChunkBody in *. apply bind_ok in X. destruct X as (h & w3 & FH & X). unfold lift in FH. destruct (find_handler r1 ft cid) as [h'|u|] eqn:F1; try discriminate FH. injection FH as -> ->.
    apply bind_ok in X. destruct X as ([a|] & w4 & CR & X); [|discriminate X]. apply bind_ok in X. destruct X as ([[ok b] bp] & w5 & RD & X).
    apply bind_ok in X. destruct X as (ok3 & w6 & AN & X). destruct ok3; [|apply bind_ok in X; destruct X as (u & w7 & _ & X); discriminate X]. injection X as <- <-.
    destruct ok; [|discriminate AN]. destruct (body_same (IFF_readChunk r1 f) (IFF_readChunk r2 f) IH f h a 0 e w4 b bp w5 ft RD) as (ID & Y).
    assert (CI : chunkId b = cid) by (rewrite <- ID; apply (created_id h cid size e w3 a w4); [intros ->; exact (LL _ _ F1)|exact CR]).
    pose proof (st_here _ _ S) as F2. rewrite CI, F1 in F2. unfold bind at 1. unfold lift at 1. rewrite <- F2. unfold bind at 1. rewrite CR. unfold bind at 1. rewrite (Y S). unfold bind at 1. rewrite AN. reflexivity.
  Qed.
End Same.
