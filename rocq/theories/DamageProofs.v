(** * Files some bytes of which have been damaged (proofs for C99) *)

From Coq Require Import ZArith List Bool Lia.
From Coq Require Import Strings.Byte.
From Verif Require Import Machine Io Types Spec Lemmas EncodeProofs WriteProofs DamageSpec.
Import ListNotations.
Open Scope Z_scope.

Lemma agree_app : forall m1 m2 f1 f2 f', List.length m1 = List.length f1 -> agree (m1 ++ m2) (f1 ++ f2) f' ->
  exists f1' f2', f' = f1' ++ f2' /\ agree m1 f1 f1' /\ agree m2 f2 f2'.
Proof.
  induction m1 as [|m m1 IH]; intros m2 [|x f1] f2 f' L A; cbn [List.length] in L; try lia.
  - exists [], f'. repeat split. exact A.
  - destruct f' as [|y f']; [destruct A|]. destruct A as (E & A). apply IH in A; [|lia]. destruct A as (g1 & g2 & -> & A1 & A2). exists (y :: g1), g2. repeat split; assumption.
Qed.
Lemma agree_length : forall m f f', agree m f f' -> List.length f = List.length f'.
Proof. induction m as [|m ms IH]; intros [|x f] [|y f'] A; cbn in A; try contradiction; [reflexivity|]. cbn [List.length]. f_equal. apply IH. exact (proj2 A). Qed.
Lemma agree_none : forall n f f', agree (repeat false n) f f' -> f' = f.
Proof. induction n as [|n IH]; intros [|x f] [|y f'] A; cbn in A; try contradiction; [reflexivity|]. destruct A as (E & A). rewrite (E eq_refl), (IH _ _ A). reflexivity. Qed.

Lemma frame_split : forall i s body m n f', n = List.length (pad body) -> List.length m = List.length body ->
  agree (repeat false 8 ++ m ++ repeat false n) (frame i s body) f' ->
  exists body', agree m body body' /\ f' = frame i s body'.
Proof.
  intros i s body m n f' -> L A. unfold frame in A. rewrite (app_assoc (be32 i) (be32 s)) in A. apply agree_app in A; [|reflexivity].
  destruct A as (h & r & -> & AH & A). apply agree_app in A; [|exact L]. destruct A as (body' & p & -> & AB & AP).
  apply agree_none in AH. apply agree_none in AP. subst h p. exists body'. split; [exact AB|]. unfold frame. rewrite <- !app_assoc.
  assert (pad body' = pad body) as ->; [|reflexivity]. unfold pad, zlength. rewrite (agree_length _ _ _ AB). reflexivity.
Qed.

Lemma even_pad : forall l, zlength l mod 2 = 0 -> pad l = [].
Proof. intros l E. unfold pad. rewrite Zmod_odd in E. destruct (Z.odd (zlength l)); [discriminate E|reflexivity]. Qed.

Lemma encode_even : forall c, zlength (encode c) mod 2 = 0.
Proof.
  assert (F : forall i s body, zlength (frame i s body) mod 2 = 0).
  { intros i s body. rewrite frame_length. unfold physical, round_even. pose proof (Z.div_mod (zlength body) 2 ltac:(lia)) as D. pose proof (Z.mod_pos_bound (zlength body) 2 ltac:(lia)).
    replace (8 + (zlength body + zlength body mod 2)) with ((4 + zlength body / 2 + zlength body mod 2) * 2) by lia. apply Z.mod_mul. lia. }
  intros [i s d|i s g l|i s g p l|i s v]; cbn [encode]; apply F.
Qed.
Lemma flat_even : forall l, zlength (flat_map encode l) mod 2 = 0.
Proof. induction l as [|c l IH]; [reflexivity|]. cbn [flat_map]. rewrite zlength_app, Z.add_mod by lia. rewrite encode_even, IH. reflexivity. Qed.
Lemma group_even : forall g l, zlength (be32 g ++ flat_map encode l) mod 2 = 0.
Proof. intros g l. rewrite zlength_app, be32_length, Z.add_mod by lia. rewrite flat_even. reflexivity. Qed.
Lemma list_even : forall g p l, zlength (be32 g ++ flat_map encode p ++ flat_map encode l) mod 2 = 0.
Proof. intros g p l. rewrite !zlength_app, be32_length. rewrite Z.add_mod by lia. rewrite (Z.add_mod (zlength (flat_map encode p))) by lia. rewrite !flat_even. reflexivity. Qed.

Lemma marks_length : forall c, List.length (data_bytes c) = List.length (encode c).
Proof.
  induction c as [i s d|i s g l IH|i s g p l IHp IH|i s v] using chunk_tree_ind.
  - cbn [data_bytes encode]. unfold frame. rewrite !app_length, !repeat_length. reflexivity.
  - cbn [data_bytes encode]. unfold frame. rewrite (even_pad _ (group_even g l)), !app_length, repeat_length. cbn [List.length]. change (List.length (be32 i)) with 4%nat. change (List.length (be32 s)) with 4%nat. change (List.length (be32 g)) with 4%nat.
    enough (List.length (flat_map data_bytes l) = List.length (flat_map encode l)) by lia.
    clear - IH. induction l as [|x l IHl]; [reflexivity|]. cbn [flat_map]. rewrite !app_length, (IH x (or_introl eq_refl)), IHl; [reflexivity|]. intros y I. apply IH. right. exact I.
  - cbn [data_bytes encode]. unfold frame. rewrite (even_pad _ (list_even g p l)), !app_length, repeat_length. cbn [List.length]. change (List.length (be32 i)) with 4%nat. change (List.length (be32 s)) with 4%nat. change (List.length (be32 g)) with 4%nat.
    assert (X : forall l, (forall c, In c l -> List.length (data_bytes c) = List.length (encode c)) -> List.length (flat_map data_bytes l) = List.length (flat_map encode l)).
    { clear. intros l IH. induction l as [|x l IHl]; [reflexivity|]. cbn [flat_map]. rewrite !app_length, (IH x (or_introl eq_refl)), IHl; [reflexivity|]. intros y I. apply IH. right. exact I. }
    rewrite (X p IHp), (X l IH). lia.
  - cbn [data_bytes]. apply repeat_length.
Qed.

Lemma alike_header : forall c c', Alike c c' -> chunkId c' = chunkId c /\ chunkSize c' = chunkSize c.
Proof. intros c c' A. destruct A; split; reflexivity. Qed.

Section Damage.
  Variable app : apps.
  Hypothesis none : forall ft i, app ft i = None.

  Lemma damaged_all : forall l g, (forall c, In c l -> forall ft f', WF app ft c -> agree (data_bytes c) (encode c) f' -> exists c', f' = encode c' /\ WF app ft c' /\ Alike c c') ->
    (forall c, In c l -> WF app g c) -> forall f', agree (flat_map data_bytes l) (flat_map encode l) f' ->
    exists l', f' = flat_map encode l' /\ Forall2 (fun c c' => WF app g c' /\ Alike c c') l l'.
  Proof.
    induction l as [|c l IHl]; intros g IH W f' A; cbn [flat_map] in A.
    - destruct f'; [|destruct A]. exists []. split; [reflexivity|constructor].
    - apply agree_app in A; [|apply marks_length]. destruct A as (f1 & f2 & -> & A1 & A2).
      destruct (IH c (or_introl eq_refl) g f1 (W c (or_introl eq_refl)) A1) as (c' & -> & W' & AL).
      destruct (IHl g (fun x I => IH x (or_intror I)) (fun x I => W x (or_intror I)) f2 A2) as (l' & -> & F). exists (c' :: l'). split; [reflexivity|]. constructor; [split; assumption|exact F].
  Qed.

  Lemma damaged_lists : forall g l l', Forall2 (fun c c' => WF app g c' /\ Alike c c') l l' ->
    Forall2 Alike l l' /\ (forall c', In c' l' -> WF app g c' /\ exists c, In c l /\ Alike c c') /\ ((forall c, In c l -> WF app g c) -> zlength (flat_map encode l') = zlength (flat_map encode l)).
  Proof.
    induction 1 as [|c c' l l' (W & A) F (F1 & F2 & F3)]; [split; [constructor|split; [intros c' []|reflexivity]]|]. split; [constructor; assumption|]. split.
    - intros x [<-|I]; [split; [exact W|exists c; split; [left; reflexivity|exact A]]|]. destruct (F2 x I) as (WX & y & IY & AY). split; [exact WX|]. exists y. split; [right; exact IY|exact AY].
    - intro WL. cbn [flat_map]. rewrite !zlength_app, F3 by (intros x I; apply WL; right; exact I). rewrite (WF_encode_length _ _ _ W), (WF_encode_length _ _ _ (WL c (or_introl eq_refl))), (proj2 (alike_header _ _ A)). reflexivity.
  Qed.

  Lemma damaged : forall c ft f', WF app ft c -> agree (data_bytes c) (encode c) f' -> exists c', f' = encode c' /\ WF app ft c' /\ Alike c c'.
  Proof.
    induction c as [i s d|i s g l IH|i s g p l IHp IH|i s v] using chunk_tree_ind; intros ft f' W A.
    - inversion W; subst. cbn [data_bytes encode] in A. apply frame_split in A; [|reflexivity|apply repeat_length]. destruct A as (l' & AL & ->). pose proof (agree_length _ _ _ AL) as LL. cbn [data_of] in LL.
      exists (CRaw i (zlength l) (Some l')). split; [reflexivity|]. assert (E : zlength l = zlength l') by (unfold zlength; rewrite LL; reflexivity). split; [|constructor; exact LL]. rewrite E. constructor; try assumption. rewrite <- E. assumption.
    - inversion W; subst. cbn [data_bytes encode] in A. pose proof (group_even g l) as EV. change (repeat false 12) with (repeat false 8 ++ repeat false 4) in A. rewrite <- app_assoc in A.
      replace ((repeat false 4 ++ flat_map data_bytes l)) with ((repeat false 4 ++ flat_map data_bytes l) ++ repeat false (List.length (pad (be32 g ++ flat_map encode l)))) in A by (rewrite (even_pad _ EV), app_nil_r; reflexivity).
      apply frame_split in A; [|reflexivity|].
      2:{ rewrite !app_length. cbn [List.length]. change (List.length (be32 g)) with 4%nat. rewrite repeat_length. clear. induction l as [|x l IHl]; [reflexivity|]. cbn [flat_map]. rewrite !app_length, marks_length. lia. }
      destruct A as (body & A & ->). apply agree_app in A; [|reflexivity]. destruct A as (h & r & -> & AH & AR). apply agree_none in AH. subst h.
      destruct (damaged_all l g IH ltac:(assumption) r AR) as (l' & -> & F). destruct (damaged_lists _ _ _ F) as (F1 & F2 & F3).
      eexists (CGroup i _ g l'). split; [reflexivity|]. split; [|constructor; exact F1]. constructor; try assumption; [intros c I; exact (proj1 (F2 c I))|rewrite F3 by assumption; reflexivity].
    - inversion W; subst. cbn [data_bytes encode] in A. pose proof (list_even g p l) as EV. change (repeat false 12) with (repeat false 8 ++ repeat false 4) in A. rewrite <- app_assoc in A.
      replace ((repeat false 4 ++ flat_map data_bytes p ++ flat_map data_bytes l)) with ((repeat false 4 ++ flat_map data_bytes p ++ flat_map data_bytes l) ++ repeat false (List.length (pad (be32 g ++ flat_map encode p ++ flat_map encode l)))) in A by (rewrite (even_pad _ EV), app_nil_r; reflexivity).
      assert (ML : forall l, List.length (flat_map data_bytes l) = List.length (flat_map encode l)). { clear. induction l as [|x l IHl]; [reflexivity|]. cbn [flat_map]. rewrite !app_length, marks_length. lia. }
      apply frame_split in A; [|reflexivity|rewrite !app_length, repeat_length, !ML; reflexivity].
      destruct A as (body & A & ->). apply agree_app in A; [|reflexivity]. destruct A as (h & r & -> & AH & AR). apply agree_none in AH. subst h.
      apply agree_app in AR; [|apply ML]. destruct AR as (r1 & r2 & -> & AP & AL).
      match goal with HP : forall c, In c p -> WF app g c /\ _, HL : forall c, In c l -> WF app g c /\ _ |- _ => rename HP into WP; rename HL into WL end.
      destruct (damaged_all p g IHp (fun c I => proj1 (WP c I)) r1 AP) as (p' & -> & FP). destruct (damaged_lists _ _ _ FP) as (P1 & P2 & P3).
      destruct (damaged_all l g IH (fun c I => proj1 (WL c I)) r2 AL) as (l' & -> & FL). destruct (damaged_lists _ _ _ FL) as (L1 & L2 & L3).
      eexists (CList LIST_ID _ g p' l'). split; [reflexivity|]. split; [|constructor; assumption]. constructor; try assumption.
      + intros c I. destruct (P2 c I) as (WC & y & IY & AY). split; [exact WC|]. rewrite (proj1 (alike_header _ _ AY)). exact (proj2 (WP y IY)).
      + intros c I. destruct (L2 c I) as (WC & y & IY & AY). split; [exact WC|]. rewrite (proj1 (alike_header _ _ AY)). exact (proj2 (WL y IY)).
      + rewrite P3 by (intros c I; exact (proj1 (WP c I))). rewrite L3 by (intros c I; exact (proj1 (WL c I))). reflexivity.
    - inversion W; subst. match goal with E : app _ _ = Some _ |- _ => rewrite none in E; discriminate E end.
  Qed.

End Damage.

(** ** Alike trees conform alike *)
Lemma alike_sym : forall c c', Alike c c' -> Alike c' c.
Proof.
  induction c as [i s d|i s g l IH|i s g p l IHp IH|i s v] using chunk_tree_ind; intros c' A; inversion A as [? ? ? ? LL|? ? ? ? ? FL|? ? ? ? ? ? ? FP FL]; subst; constructor; try (symmetry; assumption).
  - clear A. induction FL as [|x y l l' X F IHF]; constructor; [apply IH; [left; reflexivity|exact X]|]. apply IHF. intros z I. apply IH. right. exact I.
  - clear A FL. induction FP as [|x y p p' X F IHF]; constructor; [apply IHp; [left; reflexivity|exact X]|]. apply IHF. intros z I. apply IHp. right. exact I.
  - clear A FP. induction FL as [|x y l l' X F IHF]; constructor; [apply IH; [left; reflexivity|exact X]|]. apply IHF. intros z I. apply IH. right. exact I.
Qed.
Lemma alike_in : forall l l', Forall2 Alike l l' -> forall x', In x' l' -> exists x, In x l /\ Alike x x'.
Proof. induction 1 as [|x y l l' A F IH]; intros z I; [destruct I|]. destruct I as [<-|I]; [exists x; split; [left; reflexivity|exact A]|]. destruct (IH z I) as (w & IW & AW). exists w. split; [right; exact IW|exact AW]. Qed.
Lemma alike_size : forall l l', Forall2 Alike l l' -> body_size l' = body_size l.
Proof. induction 1 as [|x y l l' A F IH]; [reflexivity|]. rewrite !body_size_cons, IH, (proj2 (alike_header _ _ A)). reflexivity. Qed.
Lemma alike_member : forall g c c', Alike c c' -> cat_member g c -> cat_member g c'.
Proof. intros g c c' A. destruct A; exact (fun x => x). Qed.
Lemma alike_conforms : forall app c c', Alike c c' -> forall ft, Conforms app ft c -> Conforms app ft c'.
Proof.
  intro app. induction c as [i s d|i s g l IH|i s g p l IHp IH|i s v] using chunk_tree_ind; intros c' A ft C; inversion A as [? ? ? ? LL|? ? ? ? ? FL|? ? ? ? ? ? ? FP FL]; subst; inversion C; subst.
  - constructor; assumption.
  - constructor; [assumption| |rewrite (alike_size _ _ FL); reflexivity]. intros x' I. destruct (alike_in _ _ FL _ I) as (x & IX & AX). rewrite (proj1 (alike_header _ _ AX)).
    match goal with H : forall c, In c l -> _ |- _ => destruct (H x IX) as (H1 & H2) end. split; [exact H1|exact (IH x IX x' AX _ H2)].
  - constructor; [assumption| |rewrite (alike_size _ _ FL); reflexivity]. intros x' I. destruct (alike_in _ _ FL _ I) as (x & IX & AX).
    match goal with H : forall c, In c l -> _ |- _ => destruct (H x IX) as (H1 & H2) end. split; [exact (alike_member _ _ _ AX H1)|exact (IH x IX x' AX _ H2)].
  - constructor; [assumption| |rewrite (alike_size _ _ FL); reflexivity]. intros x' I. destruct (alike_in _ _ FL _ I) as (x & IX & AX). rewrite (proj1 (alike_header _ _ AX)).
    match goal with H : forall c, In c l -> _ |- _ => destruct (H x IX) as (H1 & H2) end. split; [exact H1|exact (IH x IX x' AX _ H2)].
  - constructor; [assumption| | |rewrite (alike_size _ _ FL), (alike_size _ _ FP); reflexivity].
    + intros x' I. destruct (alike_in _ _ FP _ I) as (x & IX & AX). match goal with H : forall c, In c p -> _ |- _ => exact (IHp x IX x' AX _ (H x IX)) end.
    + intros x' I. destruct (alike_in _ _ FL _ I) as (x & IX & AX). match goal with H : forall c, In c l -> cat_member _ _ /\ _ |- _ => destruct (H x IX) as (H1 & H2) end. split; [exact (alike_member _ _ _ AX H1)|exact (IH x IX x' AX _ H2)].
Qed.
