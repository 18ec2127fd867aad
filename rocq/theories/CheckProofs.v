(** * IFF_check decides conformance, and says why it rejects *)

From Coq Require Import ZArith List Bool String Lia.
From Coq Require Import Strings.Byte.
From Verif Require Import Machine Io Types Build Check Iff Spec Lemmas IoProofs RegProofs WriteProofs IdProofs.
Import ListNotations.
Open Scope Z_scope.

(** ** Every verdict FALSE is reported and every verdict TRUE is silent, for
    all trees, registries and hosts *)

Definition Verdict (m : M bool) : Prop := forall e w,
  match m e w with
  | Done (b, w') => exists lg, w' = add_log lg w /\ (b = true <-> lg = [])
  | _ => True
  end.
(** Sizes: -1 stands for failure. *)
Definition VerdictZ (m : M Z) : Prop := forall e w,
  match m e w with
  | Done (z, w') => exists lg, w' = add_log lg w /\ (z <> -1 <-> lg = []) /\ (lg = [] -> Z.even z = true)
  | _ => True
  end.

Lemma add_log_log : forall l2 l1 w, add_log l2 (add_log l1 w) = add_log (l2 ++ l1) w.
Proof. intros l2 l1 [i o lg n]. unfold add_log. cbn. rewrite app_assoc. reflexivity. Qed.

Lemma errorId_run : forall i e w, exists lg, IFF_errorId i e w = Done (tt, add_log lg w).
Proof. intros. rewrite run_errorId. eexists. reflexivity. Qed.
Lemma error_run : forall s e w, IFF_error s e w = Done (tt, add_log [s] w).
Proof. reflexivity. Qed.

Lemma Verdict_true : Verdict (ret true).
Proof. intros e w. exists []. rewrite add_log_nil. split; [reflexivity|tauto]. Qed.
Lemma Verdict_undefined : forall u, Verdict (undefined u).
Proof. intros u e w. exact I. Qed.
Lemma Verdict_error_false : forall s, Verdict (IFF_error s ;;; ret false).
Proof. intros s e w. exists [s]. split; [reflexivity|]. split; discriminate. Qed.

Lemma Verdict_and : forall m1 (m2 : M bool), Verdict m1 -> Verdict m2 ->
  Verdict (ok <- m1 ;; if negb ok then ret false else m2).
Proof.
  intros m1 m2 H1 H2 e w. unfold bind. specialize (H1 e w). destruct (m1 e w) as [[b w1]|u|]; [|exact I|exact I].
  destruct H1 as (lg & -> & L). destruct b; cbn [negb].
  - assert (lg = []) by (apply L; reflexivity). subst. rewrite add_log_nil. apply H2.
  - exists lg. split; [reflexivity|]. exact L.
Qed.

Lemma not_allowed_run : forall i s e w, exists lg, not_allowed i s e w = Done (false, add_log lg w) /\ lg <> [].
Proof.
  intros i s e w. unfold not_allowed, bind. rewrite error_run. rewrite run_errorId.
  eexists. split; [rewrite error_run; unfold ret; rewrite !add_log_log; reflexivity|]. discriminate.
Qed.
Lemma not_allowed_verdict : forall i s, Verdict (not_allowed i s).
Proof.
  intros i s e w. destruct (not_allowed_run i s e w) as (lg & E & N). rewrite E. exists lg.
  split; [reflexivity|]. split; [discriminate|contradiction].
Qed.

Lemma checkIdChars_verdict : forall l, Verdict (checkIdChars l).
Proof.
  induction l as [|c l IH]; cbn [checkIdChars]; [apply Verdict_true|]. destruct (_ || _); [apply Verdict_error_false|exact IH].
Qed.
Lemma checkId_verdict : forall i, Verdict (IFF_checkId i).
Proof.
  intros i e w. unfold IFF_checkId. unfold bind at 1. unfold ask. refine (Verdict_and _ _ _ _ e w).
  - apply checkIdChars_verdict.
  - destruct (_ =? _); [apply Verdict_error_false|apply Verdict_true].
Qed.
Lemma formChars_verdict : forall l, Verdict (checkFormTypeChars l).
Proof.
  induction l as [|c l IH]; cbn [checkFormTypeChars]; [apply Verdict_true|]. destruct (_ || _); [apply Verdict_error_false|exact IH].
Qed.
Lemma checkFormType_verdict : forall i, Verdict (IFF_checkFormType i).
Proof.
  intro i. unfold IFF_checkFormType. apply Verdict_and; [apply checkId_verdict|].
  intros e w. unfold bind at 1. unfold ask. refine (Verdict_and _ _ _ _ e w); [apply formChars_verdict|].
  destruct (is_reserved_form_type i); [|apply Verdict_true].
  intros e' w'. unfold bind. rewrite error_run, run_errorId, error_run. unfold ret. rewrite !add_log_log.
  eexists. split; [reflexivity|]. split; [discriminate|]. intro X. discriminate X.
Qed.

Lemma form_sub_verdict : forall g c, Verdict (form_subChunkCheck g c).
Proof. intros. unfold form_subChunkCheck. destruct (_ =? _); [apply not_allowed_verdict|apply Verdict_true]. Qed.
Lemma prop_sub_verdict : forall g c, Verdict (prop_subChunkCheck g c).
Proof. intros. unfold prop_subChunkCheck. destruct (_ || _); [apply not_allowed_verdict|apply Verdict_true]. Qed.
Lemma cat_sub_verdict : forall g c, Verdict (IFF_checkCATSubChunk g c).
Proof.
  intros. unfold IFF_checkCATSubChunk. destruct (negb (checkValidCATSubChunkId (chunkId c))); [apply not_allowed_verdict|].
  destruct (as_group g) as [[ct l]|]; [|apply Verdict_undefined]. destruct (negb (ct =? IFF_ID_JJJJ)); [|apply Verdict_true].
  destruct (checkValidCATSubChunkId (chunkId c)); [|apply Verdict_true].
  destruct (as_group c) as [[g2 l2]|]; [|apply Verdict_undefined]. destruct (negb (g2 =? ct)); [apply Verdict_error_false|apply Verdict_true].
Qed.
Lemma groupSize_verdict : forall g s, Verdict (IFF_checkGroupChunkSize g s).
Proof.
  intros g s. unfold IFF_checkGroupChunkSize. destruct (_ =? _); [apply Verdict_true|].
  intros e w. unfold bind. rewrite error_run, run_errorId, error_run. unfold ret. rewrite !add_log_log.
  eexists. split; [reflexivity|]. split; [discriminate|]. intro X. discriminate X.
Qed.

Lemma wrap_s_even : forall z, Z.even (wrap_s 32 z) = Z.even z.
Proof.
  intro z. unfold wrap_s. rewrite Z.even_sub. replace (2 ^ (32 - 1)) with (2 * 2 ^ 30) by reflexivity.
  rewrite (Z.even_mul 2). cbn [Z.even orb]. 
  rewrite Z.mod_eq by lia. rewrite Z.even_sub. replace (2 ^ 32) with (2 * 2 ^ 31) at 1 by reflexivity.
  rewrite <- Z.mul_assoc, Z.even_mul, Z.even_add, Z.even_mul. cbn [Z.even orb]. destruct (Z.even z); reflexivity.
Qed.

(** The running size stays even, so it never is the -1 that means failure. *)
Lemma increment_even : forall acc c z, Z.even acc = true -> IFF_incrementChunkSize acc c = Done z -> Z.even z = true.
Proof.
  intros acc c z E H. unfold IFF_incrementChunkSize in H. destruct (INT_MAX <? acc + IFF_ID_SIZE); [discriminate|].
  assert (EV : Z.even (wrap_s 32 (acc + IFF_ID_SIZE + 4 + chunkSize c)) = Z.even (chunkSize c)).
  { rewrite wrap_s_even. unfold IFF_ID_SIZE. rewrite !Z.even_add, E. cbn. destruct (Z.even (chunkSize c)); reflexivity. }
  set (r := wrap_s 32 (acc + IFF_ID_SIZE + 4 + chunkSize c)) in *.
  rewrite c_odd_odd in H. rewrite <- Z.negb_even in H. destruct (Z.even (chunkSize c)); cbn [negb] in H.
  - injection H as <-. exact EV.
  - destruct (r =? INT_MAX); [discriminate|]. injection H as <-. rewrite Z.even_add, EV. reflexivity.
Qed.

Lemma even_not_m1 : forall z, Z.even z = true -> z <> -1.
Proof. intros z E ->. discriminate. Qed.

Lemma check_subs_verdict : forall ck sub l ft acc,
  (forall c, Verdict (sub c)) -> (forall c ft, In c l -> Verdict (ck c ft)) -> Z.even acc = true ->
  VerdictZ (check_subs ck sub l ft acc).
Proof.
  intros ck sub l ft. induction l as [|c l IH]; intros acc HS HC EV e w; cbn [check_subs].
  - exists []. rewrite add_log_nil. split; [reflexivity|]. split; [|intros _; exact EV]. split; [reflexivity|].
    intros _. apply even_not_m1. exact EV.
  - unfold bind at 1. pose proof (HS c e w) as S1. destruct (sub c e w) as [[b w1]|u|]; [|exact I|exact I].
    destruct S1 as (lg & -> & L). destruct b; cbn [negb].
    2:{ exists lg. split; [reflexivity|]. split; [|intros ->; discriminate (proj2 L eq_refl)].
        split; [congruence|]. intros ->. discriminate (proj2 L eq_refl). }
    assert (lg = []) by (apply L; reflexivity). subst lg. clear L. rewrite add_log_nil.
    unfold bind at 1. pose proof (HC c ft (or_introl eq_refl) e w) as S1. destruct (ck c ft e w) as [[b w1]|u|]; [|exact I|exact I].
    destruct S1 as (lg & -> & L). destruct b; cbn [negb].
    2:{ exists lg. split; [reflexivity|]. split; [|intros ->; discriminate (proj2 L eq_refl)].
        split; [congruence|]. intros ->. discriminate (proj2 L eq_refl). }
    assert (lg = []) by (apply L; reflexivity). subst lg. clear L. rewrite add_log_nil.
    unfold bind at 1, lift. destruct (IFF_incrementChunkSize acc c) as [z|u|] eqn:INC; [|exact I|exact I].
    apply IH; [exact HS|intros; apply HC; right; assumption|exact (increment_even _ _ _ EV INC)].
Qed.

Lemma VerdictZ_then : forall m (k : Z -> M bool), VerdictZ m -> (forall z, Z.even z = true -> Verdict (k z)) ->
  Verdict (z <- m ;; if z =? -1 then ret false else k z).
Proof.
  intros m k H K e w. unfold bind. specialize (H e w). destruct (m e w) as [[z w1]|u|]; [|exact I|exact I].
  destruct H as (lg & -> & L & EV). destruct (Z.eqb_spec z (-1)) as [->|N].
  - exists lg. split; [reflexivity|]. split; [discriminate|]. intros ->. exfalso. apply (proj2 L eq_refl). reflexivity.
  - assert (lg = []) by (apply L; exact N). subst. rewrite add_log_nil. apply K. apply EV. reflexivity.
Qed.
Lemma Verdict_lift : forall A (o : outcome A) k, (forall a, Verdict (k a)) -> Verdict (a <- lift o ;; k a).
Proof. intros A o k H e w. unfold bind, lift. destruct o; [apply H|exact I|exact I]. Qed.

Lemma checkGroup_verdict : forall ck tc sc i s g subs grp, (grp = CGroup i s g subs \/ exists p, grp = CList i s g p subs) ->
  (forall g, Verdict (tc g)) -> (forall a b, Verdict (sc a b)) -> (forall c ft, In c subs -> Verdict (ck c ft)) ->
  Verdict (IFF_checkGroup ck tc sc grp).
Proof.
  intros ck tc sc i s g subs grp E T SC CK. unfold IFF_checkGroup.
  assert (X : Verdict (ok <- tc g ;; if negb ok then ret false else
        size <- check_subs ck (sc grp) subs g 0 ;;
        if size =? -1 then ret false else
        size' <- lift (add_int size IFF_ID_SIZE) ;;
        IFF_checkGroupChunkSize grp size')).
  { apply Verdict_and; [apply T|]. apply VerdictZ_then.
    - apply check_subs_verdict; auto.
    - intros z _. apply Verdict_lift. intro a. apply groupSize_verdict. }
  destruct E as [->|[p ->]]; exact X.
Qed.

Theorem checkChunk_verdict : forall rg c ft, Verdict (IFF_checkChunk rg c ft).
Proof.
  intros rg.
  assert (HEAD : forall c ft, (forall h, Verdict (checkExtensionChunk (IFF_checkChunk rg) h c)) -> Verdict (IFF_checkChunk rg c ft)).
  { intros c ft H.
    assert (X : Verdict (ok <- IFF_checkId (chunkId c) ;; if negb ok then ret false else
                 h <- lift (find_handler rg ft (chunkId c)) ;; checkExtensionChunk (IFF_checkChunk rg) h c)).
    { apply Verdict_and; [apply checkId_verdict|]. apply Verdict_lift. exact H. }
    destruct c; exact X. }
  induction c as [i s d|i s g subs IH|i s g props subs IHp IHs|i s vals] using chunk_tree_ind; intro ft; apply HEAD; intro h;
    destruct h; cbn [checkExtensionChunk IFF_checkForm IFF_checkCAT IFF_checkProp IFF_checkList check_fields_chunk];
    try apply Verdict_undefined; try apply Verdict_true.
  1-5: unfold IFF_checkForm, IFF_checkCAT, IFF_checkProp; eapply checkGroup_verdict; eauto using checkFormType_verdict, checkId_verdict,
    form_sub_verdict, cat_sub_verdict, prop_sub_verdict.
  - apply Verdict_and; [apply checkId_verdict|]. apply VerdictZ_then.
    + apply check_subs_verdict; auto using Verdict_true.
    + intros z _. apply Verdict_lift. intro a. apply VerdictZ_then.
      * apply check_subs_verdict; auto using cat_sub_verdict.
      * intros z2 _. apply Verdict_lift. intro a2. apply groupSize_verdict.
  - unfold IFF_checkProp. eapply checkGroup_verdict; eauto using checkFormType_verdict, prop_sub_verdict.
  - destruct (fkinds_eqb _ _); [|apply Verdict_undefined]. destruct (fs_check _ _); [apply Verdict_error_false|apply Verdict_true].
Qed.

(** ** What the verdict is *)

Definition decidesZ (m : M Z) (P : Prop) (z : Z) : Prop := forall e w,
  (P /\ m e w = Done (z, w)) \/
  (~ P /\ exists w', m e w = Done (-1, w') /\ reported w w' /\
    w_in w' = w_in w /\ w_out w' = w_out w /\ w_allocs w' = w_allocs w).

Lemma decides_iff : forall m P Q, (P <-> Q) -> decides m P -> decides m Q.
Proof. intros m P Q H D e w. destruct (D e w) as [[A B]|[A B]]; [left|right]; split; tauto. Qed.

Lemma decides_ret : decides (ret true) True.
Proof. intros e w. left. split; [exact I|reflexivity]. Qed.

Lemma decides_and : forall m1 m2 P Q, decides m1 P -> decides m2 Q ->
  decides (ok <- m1 ;; if negb ok then ret false else m2) (P /\ Q).
Proof.
  intros m1 m2 P Q D1 D2 e w. unfold bind. destruct (D1 e w) as [[A E]|[A (w' & E & R)]]; rewrite E; cbn [negb].
  - destruct (D2 e w) as [[B E2]|[B X]]; [left|right]; split; tauto.
  - right. split; [tauto|]. exists w'. split; [reflexivity|exact R].
Qed.
(** The second check only needs to be right when the first one passed. *)
Lemma decides_and_if : forall m1 m2 P Q, decides m1 P -> (P -> decides m2 Q) ->
  decides (ok <- m1 ;; if negb ok then ret false else m2) (P /\ Q).
Proof.
  intros m1 m2 P Q D1 D2 e w. unfold bind. destruct (D1 e w) as [[A E]|[A (w' & E & R)]]; rewrite E; cbn [negb].
  - destruct (D2 A e w) as [[B E2]|[B X]]; [left|right]; split; tauto.
  - right. split; [tauto|]. exists w'. split; [reflexivity|exact R].
Qed.
Lemma decides_Z : forall m k P Q z, decidesZ m P z -> z <> -1 -> (P -> decides (k z) Q) ->
  decides (z <- m ;; if z =? -1 then ret false else k z) (P /\ Q).
Proof.
  intros m k P Q z D1 NZ D2 e w. unfold bind. destruct (D1 e w) as [[A E]|[A (w' & E & R)]]; rewrite E.
  - rewrite (proj2 (Z.eqb_neq _ _) NZ). destruct (D2 A e w) as [[B E2]|[B X]]; [left|right]; split; tauto.
  - cbn. right. split; [tauto|]. exists w'. split; [reflexivity|exact R].
Qed.
Lemma decides_not_allowed : forall (b : bool) i s P, (b = true <-> ~ P) -> P \/ ~ P ->
  decides (if b then not_allowed i s else ret true) P.
Proof.
  intros b i s P H T e w. destruct b.
  - right. split; [apply H; reflexivity|]. destruct (not_allowed_run i s e w) as (lg & E & N). rewrite E.
    exists (add_log lg w). split; [reflexivity|]. split; [exists lg; split; [exact N|reflexivity]|]. repeat split.
  - left. split; [|reflexivity]. destruct T as [T|T]; [exact T|]. apply H in T. discriminate.
Qed.

Lemma decides_error : forall (b : bool) s P, (b = true <-> ~ P) -> P \/ ~ P ->
  decides (if b then IFF_error s ;;; ret false else ret true) P.
Proof.
  intros b s P H T e w. destruct b.
  - right. split; [apply H; reflexivity|]. exists (add_log [s] w). split; [reflexivity|].
    split; [exists [s]; split; [discriminate|reflexivity]|]. repeat split.
  - left. split; [|reflexivity]. destruct T as [T|T]; [exact T|]. apply H in T. discriminate.
Qed.

Lemma decides_lift : forall A (o : outcome A) a k P, o = Done a -> decides (k a) P -> decides (bind (lift o) k) P.
Proof.
  intros A o a k P -> D e w. destruct (D e w) as [[X E]|[X E]]; [left|right]; (split; [exact X|]); exact E.
Qed.

Lemma In_dec_Z : forall (x : Z) l, In x l \/ ~ In x l.
Proof. intros. destruct (in_dec Z.eq_dec x l); tauto. Qed.

Lemma form_sub_decides : forall g c, decides (form_subChunkCheck g c) (chunkId c <> PROP_ID).
Proof.
  intros g c. unfold form_subChunkCheck. change IFF_ID_PROP with PROP_ID. apply decides_not_allowed.
  - rewrite Z.eqb_eq. split; [tauto|]. intro H. destruct (Z.eq_dec (chunkId c) PROP_ID); tauto.
  - destruct (Z.eq_dec (chunkId c) PROP_ID); tauto.
Qed.
Lemma prop_sub_decides : forall g c, decides (prop_subChunkCheck g c) (~ In (chunkId c) group_ids).
Proof.
  intros g c. unfold prop_subChunkCheck. apply decides_not_allowed.
  - change IFF_ID_PROP with PROP_ID. change IFF_ID_FORM with FORM_ID. change IFF_ID_LIST with LIST_ID. change IFF_ID_CAT with CAT_ID.
    rewrite !orb_true_iff, !Z.eqb_eq. split.
    + intros H N. apply N. unfold group_ids. simpl. intuition congruence.
    + intros N. destruct (In_dec_Z (chunkId c) group_ids) as [H|H]; [|tauto]. unfold group_ids in H. simpl in H. intuition congruence.
  - destruct (In_dec_Z (chunkId c) group_ids); tauto.
Qed.

Lemma valid_cat_id : forall i, checkValidCATSubChunkId i = true <-> In i [FORM_ID; CAT_ID; LIST_ID].
Proof.
  intro i. unfold checkValidCATSubChunkId. change IFF_ID_FORM with FORM_ID. change IFF_ID_LIST with LIST_ID. change IFF_ID_CAT with CAT_ID.
  rewrite !orb_true_iff, !Z.eqb_eq. simpl. intuition congruence.
Qed.

Lemma Typed_group_type : forall app ft c, Typed app ft c -> In (chunkId c) group_ids ->
  exists g l, as_group c = Some (g, l) /\ group_type_of c = Some g.
Proof. intros app ft c T I. inversion T; subst; cbn [chunkId] in *; try contradiction; eexists _, _; split; reflexivity. Qed.

Lemma cat_sub_decides : forall app ft grp g l c, as_group grp = Some (g, l) -> Typed app ft c ->
  decides (IFF_checkCATSubChunk grp c) (cat_member g c).
Proof.
  intros app ft grp g l c AG T. unfold IFF_checkCATSubChunk, cat_member. rewrite AG. change IFF_ID_JJJJ with JJJJ_ID.
  destruct (checkValidCATSubChunkId (chunkId c)) eqn:V; cbn [negb].
  - apply valid_cat_id in V.
    destruct (Typed_group_type app ft c T) as (g2 & l2 & A2 & G2); [unfold group_ids; simpl in *; tauto|]. rewrite A2, G2.
    destruct (Z.eqb_spec g JJJJ_ID) as [->|NJ]; cbn [negb].
    + eapply decides_iff; [|apply decides_ret]. tauto.
    + destruct (Z.eqb_spec g2 g) as [->|NE]; cbn [negb].
      * eapply decides_iff; [|apply decides_ret]. tauto.
      * apply (decides_error true); [|right]; [|intros [_ [X|X]]; congruence]. split; [|reflexivity]. intros _ [_ [X|X]]; congruence.
  - assert (NV : ~ In (chunkId c) [FORM_ID; CAT_ID; LIST_ID]) by (rewrite <- valid_cat_id; congruence).
    apply (decides_not_allowed true); [|right; tauto]. split; [|reflexivity]. tauto.
Qed.

Lemma groupSize_decides : forall g s, decides (IFF_checkGroupChunkSize g s) (chunkSize g = s).
Proof.
  intros g s e w. pose proof (groupSize_verdict g s e w) as V. unfold IFF_checkGroupChunkSize in *.
  destruct (Z.eqb_spec s (chunkSize g)) as [->|N].
  - left. split; reflexivity.
  - right. split; [congruence|]. unfold bind in *. rewrite error_run, run_errorId, error_run in *. unfold ret in *.
    eexists. split; [reflexivity|]. destruct V as (lg & E & L). rewrite E. split; [|repeat split].
    exists lg. split; [|reflexivity]. intro X. apply L in X. discriminate.
Qed.

Lemma sum_body : forall l, (forall c, In c l -> physical (chunkSize c) = encoded_size c) -> body_size l = sum (map encoded_size l).
Proof.
  induction l as [|c l IH]; intro H; [reflexivity|]. rewrite body_size_cons, H by (left; reflexivity). cbn [map sum fold_right].
  change (fold_right Z.add 0) with sum. rewrite IH by (intros; apply H; right; assumption). reflexivity.
Qed.

Lemma LeafSizes_sub : forall c p, LeafSizes p -> (forall x, InTree x c -> InTree x p) -> LeafSizes c.
Proof. intros c p L H x I. apply L. apply H. exact I. Qed.
Lemma Represented_sub : forall c p, Represented p -> (forall x, InTree x c -> InTree x p) -> Represented c.
Proof. intros c p L H x I. apply L. apply H. exact I. Qed.

Lemma encoded_size_pos : forall c, LeafSizes c -> 8 <= encoded_size c.
Proof.
  assert (ALL : forall l, (forall c, In c l -> 8 <= encoded_size c) -> 0 <= sum (map encoded_size l)).
  { induction l as [|c l IH]; intro H; cbn [map sum fold_right]; [lia|]. pose proof (H c (or_introl eq_refl)).
    change (fold_right Z.add 0) with sum. assert (0 <= sum (map encoded_size l)) by (apply IH; intros; apply H; right; assumption). lia. }
  induction c as [i s d|i s g subs IH|i s g props subs IHp IHs|i s vals] using chunk_tree_ind; intro L; cbn [encoded_size].
  - pose proof (L _ (In_here _) I). cbn in *. pose proof (physical_range s). lia.
  - assert (0 <= sum (map encoded_size subs)).
    { apply ALL. intros c Hc. apply IH; [exact Hc|]. eapply LeafSizes_sub; [exact L|]. intros; eapply In_group; eassumption. }
    lia.
  - assert (0 <= sum (map encoded_size subs)).
    { apply ALL. intros c Hc. apply IHs; [exact Hc|]. eapply LeafSizes_sub; [exact L|]. intros; eapply In_list_sub; eassumption. }
    assert (0 <= sum (map encoded_size props)).
    { apply ALL. intros c Hc. apply IHp; [exact Hc|]. eapply LeafSizes_sub; [exact L|]. intros; eapply In_list_prop; eassumption. }
    lia.
  - pose proof (L _ (In_here _) I). cbn in *. pose proof (physical_range s). lia.
Qed.

Lemma sum_encoded_pos : forall l, (forall c, In c l -> LeafSizes c) -> 0 <= sum (map encoded_size l).
Proof.
  induction l as [|c l IH]; intro H; cbn [map sum fold_right]; [lia|]. pose proof (encoded_size_pos c (H c (or_introl eq_refl))).
  change (fold_right Z.add 0) with sum. assert (0 <= sum (map encoded_size l)) by (apply IH; intros; apply H; right; assumption). lia.
Qed.

Lemma sum_encoded_in : forall l c, (forall c, In c l -> LeafSizes c) -> In c l -> encoded_size c <= sum (map encoded_size l).
Proof.
  induction l as [|x l IH]; intros c H HI; [contradiction|]. cbn [map sum fold_right]. change (fold_right Z.add 0) with sum.
  assert (0 <= sum (map encoded_size l)) by (apply sum_encoded_pos; intros; apply H; right; assumption).
  pose proof (encoded_size_pos x (H x (or_introl eq_refl))). destruct HI as [->|HI]; [lia|].
  pose proof (IH c (fun c I => H c (or_intror I)) HI). lia.
Qed.

(** Conforming trees have the sizes of their contents. *)
Lemma Conforms_size : forall app c ft, Conforms app ft c -> LeafSizes c -> physical (chunkSize c) = encoded_size c.
Proof.
  assert (EV : forall l, (forall c, In c l -> physical (chunkSize c) = encoded_size c) -> Z.even (sum (map encoded_size l)) = true).
  { induction l as [|c l IH]; intro H; [reflexivity|]. cbn [map sum fold_right]. change (fold_right Z.add 0) with sum.
    rewrite Z.even_add, <- H by (left; reflexivity). rewrite physical_even, IH by (intros; apply H; right; assumption). reflexivity. }
  assert (PE : forall z, Z.even z = true -> physical (4 + z) = 12 + z).
  { intros z E. unfold physical, round_even. rewrite mod2_odd, <- Z.negb_even, Z.even_add, E. cbn. lia. }
  intro app. induction c as [i s d|i s g subs IH|i s g props subs IHp IHs|i s vals] using chunk_tree_ind; intros ft C L; cbn [encoded_size chunkSize];
    try reflexivity.
  - assert (X : forall c, In c subs -> physical (chunkSize c) = encoded_size c).
    { intros c Hc. apply (IH c Hc g).
      - inversion C; subst; match goal with H : forall c, In c subs -> _ |- _ => apply H; exact Hc end.
      - eapply LeafSizes_sub; [exact L|]. intros; eapply In_group; eassumption. }
    assert (s = 4 + body_size subs) by (inversion C; subst; reflexivity). subst s. rewrite (sum_body _ X). apply PE. apply EV. exact X.
  - assert (XP : forall c, In c props -> physical (chunkSize c) = encoded_size c).
    { intros c Hc. apply (IHp c Hc g).
      - inversion C; subst; match goal with H : forall c, In c props -> _ |- _ => apply H; exact Hc end.
      - eapply LeafSizes_sub; [exact L|]. intros; eapply In_list_prop; eassumption. }
    assert (XS : forall c, In c subs -> physical (chunkSize c) = encoded_size c).
    { intros c Hc. apply (IHs c Hc g).
      - inversion C; subst; match goal with H : forall c, In c subs -> _ |- _ => apply H; exact Hc end.
      - eapply LeafSizes_sub; [exact L|]. intros; eapply In_list_sub; eassumption. }
    assert (s = 4 + body_size props + body_size subs) by (inversion C; subst; reflexivity). subst s.
    rewrite (sum_body _ XP), (sum_body _ XS).
    replace (4 + sum (map encoded_size props) + sum (map encoded_size subs)) with (4 + (sum (map encoded_size props) + sum (map encoded_size subs))) by lia.
    rewrite PE; [lia|]. rewrite Z.even_add, (EV _ XP), (EV _ XS). reflexivity.
Qed.

Lemma check_subs_decides : forall ck sub app l ft acc (Q : chunk -> Prop),
  (forall c, In c l -> decides (sub c) (Q c)) -> (forall c, In c l -> decides (ck c ft) (Conforms app ft c)) ->
  (forall c, In c l -> LeafSizes c) -> 0 <= acc -> acc + sum (map encoded_size l) <= INT_MAX ->
  decidesZ (check_subs ck sub l ft acc) (forall c, In c l -> Q c /\ Conforms app ft c) (acc + sum (map encoded_size l)).
Proof.
  intros ck sub app l ft acc Q. revert acc. induction l as [|c l IH]; intros acc HS HC LS A B e w; cbn [check_subs].
  - left. split; [contradiction|]. cbn [map sum fold_right]. rewrite Z.add_0_r. reflexivity.
  - cbn [map sum fold_right] in B |- *. change (fold_right Z.add 0) with sum in *.
    pose proof (encoded_size_pos c (LS c (or_introl eq_refl))) as EP.
    assert (SP : 0 <= sum (map encoded_size l)) by (apply sum_encoded_pos; intros; apply LS; right; assumption).
    destruct (HS c (or_introl eq_refl) e w) as [[P1 E1]|[P1 (w' & E1 & R1)]].
    2:{ right. split; [intro X; apply P1; apply X; left; reflexivity|]. exists w'. split; [|exact R1].
        unfold bind at 1. rewrite E1. reflexivity. }
    destruct (HC c (or_introl eq_refl) e w) as [[P2 E2]|[P2 (w' & E2 & R2)]].
    2:{ right. split; [intro X; apply P2; apply X; left; reflexivity|]. exists w'. split; [|exact R2].
        unfold bind at 1. rewrite E1. cbn [negb]. unfold bind at 1. rewrite E2. reflexivity. }
    pose proof (Conforms_size app c ft P2 (LS c (or_introl eq_refl))) as CS. pose proof (physical_range (chunkSize c)) as PR.
    assert (EQ : check_subs ck sub (c :: l) ft acc e w = check_subs ck sub l ft (acc + encoded_size c) e w).
    { cbn [check_subs]. unfold bind at 1. rewrite E1. cbn [negb]. unfold bind at 1. rewrite E2. cbn [negb].
      unfold bind at 1, lift. rewrite increment_ok; [|unfold INT_MIN; lia|lia|lia]. rewrite CS. reflexivity. }
    cbn [check_subs] in EQ. rewrite EQ.
    destruct (IH (acc + encoded_size c)) with (e := e) (w := w) as [[P3 E3]|[P3 X3]].
    + intros; apply HS; right; assumption.
    + intros; apply HC; right; assumption.
    + intros; apply LS; right; assumption.
    + lia.
    + lia.
    + left. split; [intros x [<-|I]; [split; assumption|apply P3; exact I]|]. rewrite E3, Z.add_assoc. reflexivity.
    + right. split; [intro X; apply P3; intros; apply X; right; assumption|]. exact X3.
Qed.

Lemma add_int_ok : forall a b, INT_MIN <= a + b <= INT_MAX -> add_int a b = Done (a + b).
Proof.
  intros a b H. unfold add_int. rewrite (proj2 (Z.ltb_ge _ _)) by lia. rewrite (proj2 (Z.ltb_ge _ _)) by lia. reflexivity.
Qed.

Theorem check_decides : forall rg app, Realises rg app -> forall c ft,
  Typed app ft c -> Represented c -> LeafSizes c -> encoded_size c <= INT_MAX ->
  decides (IFF_checkChunk rg c ft) (Conforms app ft c).
Proof.
  intros rg app RG.
  induction c as [i s d|i s g subs IH|i s g props subs IHp IHs|i s vals] using chunk_tree_ind; intros ft T RP LS SZ.
  - cbn [IFF_checkChunk]. inversion T; subst. destruct (RP _ (In_here _)) as [RI _].
    eapply decides_iff; [|apply decides_and; [apply checkId_decides; exact RI|]].
    2:{ eapply decides_lift; [rewrite RG; cbn [chunkId]; rewrite data_handler by assumption; reflexivity|].
        match goal with H : app ft i = None |- _ => rewrite H end. cbn [checkExtensionChunk]. apply decides_ret. }
    cbn [chunkId]. split; [intros [V _]; constructor; assumption|]. intro C. inversion C; subst; split; auto.
  - cbn [IFF_checkChunk]. inversion T; subst. destruct (RP _ (In_here _)) as [RI RGT]. specialize (RGT g eq_refl).
    match goal with H : forall c, In c subs -> Typed _ _ _ |- _ => rename H into TS end.
    match goal with H : In i _ |- _ => rename H into II end.
    assert (LSS : forall c, In c subs -> LeafSizes c).
    { intros c Hc. eapply LeafSizes_sub; [exact LS|]. intros; eapply In_group; eassumption. }
    assert (RPS : forall c, In c subs -> Represented c).
    { intros c Hc. eapply Represented_sub; [exact RP|]. intros; eapply In_group; eassumption. }
    cbn [encoded_size] in SZ.
    assert (CK : forall c, In c subs -> decides (IFF_checkChunk rg c g) (Conforms app g c)).
    { intros c Hc. apply IH; auto. pose proof (sum_encoded_in subs c LSS Hc). lia. }
    assert (GRP : forall tc sc (PT : Prop) (Q : chunk -> Prop), decides (tc g) PT ->
       (forall c, In c subs -> decides (sc (CGroup i s g subs) c) (Q c)) ->
       decides (IFF_checkGroup (IFF_checkChunk rg) tc sc (CGroup i s g subs))
         (PT /\ (forall c, In c subs -> Q c /\ Conforms app g c) /\ s = 4 + body_size subs)).
    { intros tc sc PT Q DT DS. cbn [IFF_checkGroup]. apply decides_and; [exact DT|].
      assert (SP : 0 <= sum (map encoded_size subs)) by (apply sum_encoded_pos; exact LSS).
      eapply decides_Z.
      - apply check_subs_decides; try eassumption; lia.
      - lia.
      - intros HQ. eapply decides_lift; [unfold IFF_ID_SIZE; apply add_int_ok; unfold INT_MIN; lia|].
        eapply decides_iff; [|apply groupSize_decides]. cbn [chunkSize].
        rewrite (sum_body subs); [lia|]. intros c Hc. apply (Conforms_size app c g); [apply HQ; exact Hc|apply LSS; exact Hc]. }
    eapply decides_iff; [|apply decides_and; [apply checkId_decides; exact RI|]].
    2:{ eapply decides_lift; [rewrite RG; cbn [chunkId]; f_equal; apply RegProofs.group_handler; unfold group_ids; simpl in *; tauto|].
        instantiate (1 := if i =? FORM_ID then ValidFormType g /\ (forall c, In c subs -> chunkId c <> PROP_ID /\ Conforms app g c) /\ s = 4 + body_size subs
           else if i =? CAT_ID then ValidId g /\ (forall c, In c subs -> cat_member g c /\ Conforms app g c) /\ s = 4 + body_size subs
           else ValidFormType g /\ (forall c, In c subs -> ~ In (chunkId c) group_ids /\ Conforms app g c) /\ s = 4 + body_size subs).
        destruct II as [<-|[<-|[<-|[]]]]; cbn [checkExtensionChunk].
        - change (FORM_ID =? FORM_ID) with true. cbv iota. unfold IFF_checkForm.
          apply GRP; [apply checkFormType_decides; exact RGT|intros; apply form_sub_decides].
        - change (CAT_ID =? FORM_ID) with false. change (CAT_ID =? CAT_ID) with true. cbv iota. unfold IFF_checkCAT.
          apply GRP; [apply checkId_decides; exact RGT|]. intros c Hc. eapply cat_sub_decides; [reflexivity|]. apply TS; exact Hc.
        - change (PROP_ID =? FORM_ID) with false. change (PROP_ID =? CAT_ID) with false. change (PROP_ID =? LIST_ID) with false. cbv iota. unfold IFF_checkProp.
          apply GRP; [apply checkFormType_decides; exact RGT|intros; apply prop_sub_decides]. }
    cbn [chunkId].
    assert (VF : ValidId FORM_ID /\ ValidId CAT_ID /\ ValidId PROP_ID).
    { split; [|split]; eexists _, _, _, _; (split; [reflexivity|]); (split; [|cbv; discriminate]); intros x Hx; simpl in Hx;
        repeat destruct Hx as [<-|Hx]; try contradiction; split; vm_compute; discriminate. }
    destruct VF as (V1 & V2 & V3).
    destruct II as [<-|[<-|[<-|[]]]].
    + change (FORM_ID =? FORM_ID) with true. cbv iota. split.
      * intros (_ & A & B & C). subst s. apply Conf_form; auto.
      * intro C. inversion C; subst. auto.
    + change (CAT_ID =? FORM_ID) with false. change (CAT_ID =? CAT_ID) with true. cbv iota. split.
      * intros (_ & A & B & C). subst s. apply Conf_cat; auto.
      * intro C. inversion C; subst. auto.
    + change (PROP_ID =? FORM_ID) with false. change (PROP_ID =? CAT_ID) with false. cbv iota. split.
      * intros (_ & A & B & C). subst s. apply Conf_prop; auto.
      * intro C. inversion C; subst. auto.
  - cbn [IFF_checkChunk]. inversion T; subst. destruct (RP _ (In_here _)) as [RI RGT]. specialize (RGT g eq_refl).
    match goal with H : forall c, In c subs -> Typed _ _ _ |- _ => rename H into TS end.
    match goal with H : forall c, In c props -> _ |- _ => rename H into TP end.
    assert (LSS : forall c, In c subs -> LeafSizes c).
    { intros c Hc. eapply LeafSizes_sub; [exact LS|]. intros; eapply In_list_sub; eassumption. }
    assert (RPS : forall c, In c subs -> Represented c).
    { intros c Hc. eapply Represented_sub; [exact RP|]. intros; eapply In_list_sub; eassumption. }
    assert (LSP : forall c, In c props -> LeafSizes c).
    { intros c Hc. eapply LeafSizes_sub; [exact LS|]. intros; eapply In_list_prop; eassumption. }
    assert (RPP : forall c, In c props -> Represented c).
    { intros c Hc. eapply Represented_sub; [exact RP|]. intros; eapply In_list_prop; eassumption. }
    cbn [encoded_size] in SZ.
    assert (SP : 0 <= sum (map encoded_size subs)) by (apply sum_encoded_pos; exact LSS).
    assert (SPP : 0 <= sum (map encoded_size props)) by (apply sum_encoded_pos; exact LSP).
    assert (CKS : forall c, In c subs -> decides (IFF_checkChunk rg c g) (Conforms app g c)).
    { intros c Hc. apply IHs; auto. pose proof (sum_encoded_in subs c LSS Hc). lia. }
    assert (CKP : forall c, In c props -> decides (IFF_checkChunk rg c g) (Conforms app g c)).
    { intros c Hc. apply IHp; auto; [apply TP; exact Hc|]. pose proof (sum_encoded_in props c LSP Hc). lia. }
    eapply decides_iff; [|apply decides_and; [apply checkId_decides; exact RI|]].
    2:{ eapply decides_lift; [rewrite RG; cbn [chunkId]; f_equal; apply RegProofs.group_handler; unfold group_ids; simpl in *; tauto|].
        change (LIST_ID =? FORM_ID) with false. change (LIST_ID =? CAT_ID) with false. change (LIST_ID =? LIST_ID) with true. cbv iota.
        cbn [checkExtensionChunk IFF_checkList].
        instantiate (1 := ValidId g /\ (forall c, In c props -> True /\ Conforms app g c) /\
          (forall c, In c subs -> cat_member g c /\ Conforms app g c) /\ s = 4 + body_size props + body_size subs).
        apply decides_and; [apply checkId_decides; exact RGT|].
        eapply decides_Z.
        - unfold checkListPropChunks. apply check_subs_decides; try eassumption; try lia. intros; apply decides_ret.
        - lia.
        - intros HP. eapply decides_lift; [unfold IFF_ID_SIZE; apply add_int_ok; unfold INT_MIN; lia|].
          eapply decides_Z.
          + apply check_subs_decides; try eassumption; try lia. intros c Hc. eapply cat_sub_decides; [reflexivity|]. apply TS; exact Hc.
          + lia.
          + intros HQ. eapply decides_lift; [apply add_int_ok; unfold INT_MIN; lia|].
            eapply decides_iff; [|apply groupSize_decides]. cbn [chunkSize].
            rewrite (sum_body subs), (sum_body props); [lia| |]; intros c Hc; apply (Conforms_size app c g); auto; [apply HP|apply HQ]; exact Hc. }
    cbn [chunkId]. split.
    + intros (_ & A & B & C & D). apply Conf_list; auto. intros; apply B; assumption.
    + intro C. inversion C; subst. split; [|auto].
      eexists _, _, _, _; (split; [reflexivity|]); (split; [|cbv; discriminate]); intros x Hx; simpl in Hx;
        repeat destruct Hx as [<-|Hx]; try contradiction; split; vm_compute; discriminate.
  - cbn [IFF_checkChunk]. inversion T; subst. destruct (RP _ (In_here _)) as [RI _].
    eapply decides_iff; [|apply decides_and; [apply checkId_decides; exact RI|]].
    2:{ eapply decides_lift; [rewrite RG; cbn [chunkId]; rewrite data_handler by assumption; reflexivity|].
        match goal with H : app ft i = Some _ |- _ => rewrite H end. cbn [checkExtensionChunk check_fields_chunk].
        match goal with H : kinds_match _ _ |- _ => rewrite (proj2 (fkinds_eqb_spec _ _) H) end.
        instantiate (1 := fs_check spec (map snd vals) = None).
        destruct (fs_check spec (map snd vals)) as [msg|].
        - apply (decides_error true); [|right; discriminate]. split; [discriminate|reflexivity].
        - eapply decides_iff; [|apply decides_ret]. tauto. }
    cbn [chunkId]. split; [intros [V X]; econstructor; eassumption|]. intro C. inversion C; subst; split; auto. congruence.
Qed.
