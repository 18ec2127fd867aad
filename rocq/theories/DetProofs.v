(** * The grammar is deterministic and prefix free *)

From Coq Require Import ZArith List Bool String Lia.
From Coq Require Import Strings.Byte.
From Verif Require Import Machine Io Types Spec Grammar Lemmas IoProofs WriteProofs EncodeProofs.
Import ListNotations.
Open Scope Z_scope.

Lemma app_split : forall A (a1 b1 a2 b2 : list A), a1 ++ b1 = a2 ++ b2 -> zlength a1 = zlength a2 ->
  a1 = a2 /\ b1 = b2.
Proof.
  intros A. induction a1 as [|x a1 IH]; intros b1 [|y a2] b2 E L; unfold zlength in L; simpl in L; try lia.
  - auto.
  - simpl in E. injection E as -> E. destruct (IH b1 a2 b2 E) as [-> ->]; [unfold zlength; lia|auto].
Qed.

Lemma be32_split : forall k v1 v2 r1 r2, in_range k v1 -> in_range k v2 -> k = FId \/ k = FLong ->
  be32 v1 ++ r1 = be32 v2 ++ r2 -> v1 = v2 /\ r1 = r2.
Proof.
  intros k v1 v2 r1 r2 R1 R2 K E. destruct (app_split _ _ _ _ _ E) as [E1 E2]; [reflexivity|].
  split; [|assumption]. apply (be_field_inj k); try assumption. destruct K as [->| ->]; exact E1.
Qed.

Lemma present_det : forall s vals1 vals2 bp r1 r2,
  map fst vals1 = map fst vals2 ->
  Forall (fun kv => in_range (fst kv) (snd kv)) vals1 -> Forall (fun kv => in_range (fst kv) (snd kv)) vals2 ->
  (forall n kv, nth_error vals1 n = Some kv -> (List.length (present s bp vals1) <= n)%nat -> snd kv = 0) ->
  (forall n kv, nth_error vals2 n = Some kv -> (List.length (present s bp vals2) <= n)%nat -> snd kv = 0) ->
  fields_bytes (present s bp vals1) ++ r1 = fields_bytes (present s bp vals2) ++ r2 ->
  vals1 = vals2 /\ r1 = r2.
Proof.
  intros s. induction vals1 as [|[k v] vals1 IH]; intros [|[k2 v2] vals2] bp r1 r2 K F1 F2 Z1 Z2 E; try discriminate.
  - auto.
  - simpl in K. injection K as <- K. inversion F1 as [|? ? I1 F1']. inversion F2 as [|? ? I2 F2']. subst.
    cbn [present] in *. simpl in I1, I2.
    destruct ((s <? fieldSize k) || (bp + fieldSize k <=? s)).
    + change (fields_bytes ((?a, ?b) :: ?c)) with (be_field a b ++ fields_bytes c) in E.
      rewrite <- !app_assoc in E.
      destruct (app_split _ _ _ _ _ E) as [E1 E2]; [rewrite !be_field_length; reflexivity|].
      apply be_field_inj in E1; [|assumption|assumption]. subst v2.
      destruct (IH vals2 (bp + fieldSize k) r1 r2 K F1' F2') as [-> ->]; try assumption; auto.
      * intros n kv N L. apply (Z1 (S n) kv N). simpl. lia.
      * intros n kv N L. apply (Z2 (S n) kv N). simpl. lia.
    + split; [|exact E].
      assert (A : forall n kv, nth_error ((k, v) :: vals1) n = Some kv -> snd kv = 0) by (intros n kv N; apply (Z1 n kv N); simpl; lia).
      assert (B : forall n kv, nth_error ((k, v2) :: vals2) n = Some kv -> snd kv = 0) by (intros n kv N; apply (Z2 n kv N); simpl; lia).
      assert (v = 0) by (apply (A O (k, v)); reflexivity). assert (v2 = 0) by (apply (B O (k, v2)); reflexivity). subst.
      f_equal. clear - K A B. revert vals2 K B. induction vals1 as [|[k1 x] v1 IHv]; intros [|[k2 y] v2] K B; try discriminate; [reflexivity|].
      simpl in K. injection K as <- K.
      assert (x = 0) by (apply (A 1%nat (k1, x)); reflexivity). assert (y = 0) by (apply (B 1%nat (k1, y)); reflexivity). subst.
      f_equal. apply IHv; [|assumption|].
      * intros n kv N. destruct n as [|n]; [simpl in N; injection N as <-; reflexivity|]. apply (A (S (S n)) kv N).
      * intros n kv N. destruct n as [|n]; [simpl in N; injection N as <-; reflexivity|]. apply (B (S (S n)) kv N).
Qed.

Lemma group_not_list : ~ In LIST_ID [FORM_ID; CAT_ID; PROP_ID].
Proof. intros [H|[H|[H|[]]]]; vm_compute in H; discriminate. Qed.

Lemma group_in : forall i, In i [FORM_ID; CAT_ID; PROP_ID] -> In i group_ids.
Proof. intros i [<-|[<-|[<-|[]]]]; simpl; tauto. Qed.

Lemma group_in_range : forall i, In i group_ids -> in_range FId i.
Proof. intros i [<-|[<-|[<-|[<-|[]]]]]; vm_compute; split; congruence. Qed.

Lemma LIST_in : In LIST_ID group_ids.
Proof. simpl; tauto. Qed.

Lemma raw_size_range : forall (d : list byte), zlength d <= INT_MAX -> in_range FLong (zlength d).
Proof. intros d H. pose proof (zlength_nonneg _ d). simpl. unfold INT_MAX in H. lia. Qed.

Ltac header_eq E EI ES :=
  rewrite <- ?app_assoc in E;
  apply (be32_split FId) in E; [destruct E as [EI E]|eauto using group_in_range, group_in, LIST_in
                               |eauto using group_in_range, group_in, LIST_in|auto];
  apply (be32_split FLong) in E; [destruct E as [ES E]|eauto using raw_size_range|eauto using raw_size_range|auto].

Theorem Parsed_det : forall e app,
  (forall ft l c lg, Parsed e app ft l c lg -> forall l' c' lg' r r', Parsed e app ft l' c' lg' ->
     l ++ r = l' ++ r' -> l = l' /\ c = c' /\ lg = lg' /\ r = r') /\
  (forall g bp s l cs lg t, Members e app g bp s l cs lg t -> forall l' cs' lg' t' r r',
     Members e app g bp s l' cs' lg' t' ->
     l ++ r = l' ++ r' -> l = l' /\ cs = cs' /\ lg = lg' /\ t = t' /\ r = r').
Proof.
  intros e app. apply (Parsed_Members_ind e app).
  - intros ft i data p I NG A Z ZP l' c' lg' r r' P E.
    inversion P; subst; header_eq E EI ES; subst.
    + destruct (app_split _ _ _ _ _ E) as [-> E2]; [assumption|].
      destruct (app_split _ _ _ _ _ E2) as [-> ->]; [congruence|]. auto.
    + congruence.
    + exfalso. apply NG. apply group_in. assumption.
    + exfalso. apply NG. apply LIST_in.
  - intros ft i s spec vals skipped p I NG A SR K F AZ ZS ZP l' c' lg' r r' P E.
    inversion P; subst; header_eq E EI ES; subst.
    + congruence.
    + match goal with B : app ft _ = Some _ |- _ => rewrite A in B; injection B as <- end.
      rewrite <- ?app_assoc in E.
      apply (present_det s0) in E; try assumption.
      2:{ unfold kinds_match in *. congruence. }
      destruct E as [-> E]. destruct (app_split _ _ _ _ _ E) as [-> E2]; [congruence|].
      destruct (app_split _ _ _ _ _ E2) as [-> ->]; [congruence|]. auto.
    + exfalso. apply NG. apply group_in. assumption.
    + exfalso. apply NG. apply LIST_in.
  - intros ft i s g l subs p lg total GI SR G M IH ZP l' c' lg' r r' P E.
    inversion P; subst; header_eq E EI ES; subst.
    + exfalso. match goal with B : ~ In _ group_ids |- _ => apply B end. apply group_in. assumption.
    + exfalso. match goal with B : ~ In _ group_ids |- _ => apply B end. apply group_in. assumption.
    + rewrite <- ?app_assoc in E. apply (be32_split FId) in E; auto. destruct E as [-> E].
      match goal with B : Members e app _ _ _ _ _ _ _ |- _ => destruct (IH _ _ _ _ _ _ B E) as (-> & -> & -> & -> & E2) end.
      destruct (app_split _ _ _ _ _ E2) as [-> ->]; [congruence|]. auto.
    + exfalso. apply group_not_list. assumption.
  - intros ft s g l subs p lg total SR G M IH ZP l' c' lg' r r' P E.
    inversion P; subst; header_eq E EI ES; subst.
    + exfalso. match goal with B : ~ In _ group_ids |- _ => apply B end. apply LIST_in.
    + exfalso. match goal with B : ~ In _ group_ids |- _ => apply B end. apply LIST_in.
    + exfalso. apply group_not_list. assumption.
    + rewrite <- ?app_assoc in E. apply (be32_split FId) in E; auto. destruct E as [-> E].
      match goal with B : Members e app _ _ _ _ _ _ _ |- _ => destruct (IH _ _ _ _ _ _ B E) as (-> & -> & -> & -> & E2) end.
      destruct (app_split _ _ _ _ _ E2) as [-> ->]; [congruence|]. auto.
  - intros g bp s L l' cs' lg' t' r r' M E. inversion M; subst; [auto|lia].
  - intros g bp s l c lg bp' l2 cs lg2 total L P IHP AD M IHM l' cs' lg' t' r r' M' E.
    inversion M'; subst; [lia|]. rewrite <- !app_assoc in E.
    match goal with B : Parsed e app _ _ _ _ |- _ => destruct (IHP _ _ _ _ _ B E) as (-> & -> & -> & E2) end.
    assert (bp' = bp'0) by congruence. subst bp'0.
    match goal with B : Members e app _ bp' _ _ _ _ _ |- _ => destruct (IHM _ _ _ _ _ _ B E2) as (-> & -> & -> & -> & ->) end.
    auto.
Qed.
