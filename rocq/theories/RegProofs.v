(** * Proofs about chunkregistry.c and defaultregistry.c *)

From Coq Require Import ZArith List Bool String Lia Sorting.Sorted.
From Coq Require Import Strings.Byte.
From Verif Require Import Machine Io Types Spec Lemmas IoProofs.
Import ListNotations.
Open Scope Z_scope.

Section Bsearch.
  Context {A : Type} (key : A -> Z).

  Definition sorted_by (arr : list A) : Prop :=
    forall i j x y, (i < j)%nat -> nth_error arr i = Some x -> nth_error arr j = Some y -> key x < key y.

  Lemma bsearch_loop_spec : forall arr k fuel l u,
    sorted_by arr -> (u <= List.length arr)%nat -> (u - l < fuel)%nat ->
    (forall i x, (i < l)%nat -> nth_error arr i = Some x -> key x < k) ->
    (forall i x, (u <= i)%nat -> nth_error arr i = Some x -> k < key x) ->
    (forall x, bsearch_loop key k arr fuel l u = Some x -> In x arr /\ key x = k) /\
    (bsearch_loop key k arr fuel l u = None -> forall x, In x arr -> key x <> k).
  Proof.
    intros arr k fuel. induction fuel as [|f IH]; intros l u S U F L R; [lia|].
    cbn [bsearch_loop]. destruct (Nat.ltb_spec l u) as [LU|LU].
    - pose proof (Nat.div2_div (l + u)) as D.
      assert (B : (l <= Nat.div2 (l + u) < u)%nat).
      { rewrite D. split.
        - apply Nat.div_le_lower_bound; lia.
        - apply Nat.div_lt_upper_bound; lia. }
      set (idx := Nat.div2 (l + u)) in *.
      destruct (nth_error arr idx) as [x|] eqn:E.
      + destruct (Z.ltb_spec k (key x)) as [K|K].
        * apply IH; try assumption; try lia.
          intros i y I Y. destruct (Nat.eq_dec i idx) as [->|N].
          -- congruence.
          -- assert (key x < key y) by (apply (S idx i); [lia|assumption|assumption]). lia.
        * destruct (Z.ltb_spec (key x) k) as [K2|K2].
          -- apply IH; try assumption; try lia.
             intros i y I Y. destruct (Nat.eq_dec i idx) as [->|N].
             ++ congruence.
             ++ assert (key y < key x) by (apply (S i idx); [lia|assumption|assumption]). lia.
          -- split.
             ++ intros y Y. injection Y as <-. split; [eapply nth_error_In; eassumption|lia].
             ++ discriminate.
      + apply nth_error_None in E. lia.
    - split; [discriminate|]. intros _ x I.
      apply In_nth_error in I. destruct I as [i I].
      destruct (Nat.ltb_spec i l) as [C|C].
      + specialize (L i x C I). lia.
      + assert (u <= i)%nat by lia. specialize (R i x H I). lia.
  Qed.

  Lemma bsearch_spec : forall arr k, sorted_by arr ->
    (forall x, bsearch key k arr = Some x -> In x arr /\ key x = k) /\
    (bsearch key k arr = None -> forall x, In x arr -> key x <> k).
  Proof.
    intros arr k S. unfold bsearch. apply bsearch_loop_spec; try assumption; try lia.
    intros i x I N. assert (nth_error arr i <> None) by congruence.
    apply nth_error_Some in H. lia.
  Qed.

  Lemma sorted_unique : forall arr x y, sorted_by arr -> In x arr -> In y arr -> key x = key y -> x = y.
  Proof.
    intros arr x y S X Y K. apply In_nth_error in X, Y. destruct X as [i X], Y as [j Y].
    destruct (Nat.lt_total i j) as [C|[C|C]].
    - pose proof (S _ _ _ _ C X Y). lia.
    - congruence.
    - pose proof (S _ _ _ _ C Y X). lia.
  Qed.

  Lemma bsearch_find : forall arr k, sorted_by arr ->
    bsearch key k arr = find (fun x => key x =? k) arr.
  Proof.
    intros arr k S. destruct (bsearch_spec arr k S) as [P N].
    destruct (bsearch key k arr) as [x|] eqn:B.
    - destruct (P x eq_refl) as [I K].
      destruct (find (fun x => key x =? k) arr) as [y|] eqn:F.
      + apply find_some in F. destruct F as [IY KY]. apply Z.eqb_eq in KY.
        f_equal. apply (sorted_unique arr); [assumption|assumption|assumption|lia].
      + apply (find_none _ _ F) in I. apply Z.eqb_neq in I. lia.
    - destruct (find (fun x => key x =? k) arr) as [y|] eqn:F; [|reflexivity].
      apply find_some in F. destruct F as [IY KY]. apply Z.eqb_eq in KY.
      exfalso. apply (N eq_refl y IY KY).
  Qed.
End Bsearch.

Lemma ids_spec : IFF_ID_FORM = FORM_ID /\ IFF_ID_CAT = CAT_ID /\ IFF_ID_LIST = LIST_ID
  /\ IFF_ID_PROP = PROP_ID /\ IFF_ID_JJJJ = JJJJ_ID /\ IFF_ID_TEXT = TEXT_ID.
Proof. repeat split; vm_compute; reflexivity. Qed.

Lemma increasing_sorted : forall A (key : A -> Z) arr,
  strictly_increasing (map key arr) -> sorted_by key arr.
Proof.
  intros A key arr S i j x y L X Y. apply (S i j); [assumption| |]; apply map_nth_error; assumption.
Qed.

Lemma getChunkType_resolves : forall cid node,
  (forall tbl, In tbl node -> strictly_increasing (map ct_id tbl)) ->
  Resolves cid node (getChunkType cid node).
Proof.
  intros cid. induction node as [|tbl up IH]; intros S; simpl.
  - constructor.
  - assert (ST : sorted_by ct_id tbl) by (apply increasing_sorted, S; left; reflexivity).
    destruct (bsearch_spec ct_id tbl cid ST) as [P N].
    destruct (bsearch ct_id cid tbl) as [ct|].
    + apply Res_here. apply P. reflexivity.
    + apply Res_up.
      * intros ct [I K]. exact (N eq_refl ct I K).
      * apply IH. intros t T. apply S. right; assumption.
Qed.

Lemma Resolves_fun : forall cid node r1 r2,
  (forall tbl, In tbl node -> strictly_increasing (map ct_id tbl)) ->
  Resolves cid node r1 -> Resolves cid node r2 -> r1 = r2.
Proof.
  intros cid node. induction node as [|tbl up IH]; intros r1 r2 S R1 R2; inversion R1; inversion R2; subst.
  - reflexivity.
  - f_equal.
    match goal with H1 : Registered _ _ _, H2 : Registered _ _ _ |- _ => destruct H1 as [I1 K1], H2 as [I2 K2] end.
    apply (sorted_unique ct_id tbl); try assumption; [|congruence].
    apply increasing_sorted, S; left; reflexivity.
  - exfalso. match goal with H1 : forall ct, ~ Registered _ _ ct, H2 : Registered _ _ _ |- _ => exact (H1 _ H2) end.
  - exfalso. match goal with H1 : forall ct, ~ Registered _ _ ct, H2 : Registered _ _ _ |- _ => exact (H1 _ H2) end.
  - apply IH; try assumption. intros; apply S; right; assumption.
Qed.

Lemma find_scope : forall r ft, SortedRegistry r ->
  exists node, ScopeOf r ft node /\
    match getFormChunkTypes ft r with Some (_, n) => n | None => rg_global r end = node.
Proof.
  intros r ft [SF ST].
  pose proof (bsearch_spec fst (rg_forms r) ft (increasing_sorted _ _ _ SF)) as [P N].
  unfold getFormChunkTypes. destruct (bsearch fst ft (rg_forms r)) as [[f n]|].
  - exists n. split; [|reflexivity]. apply Scope_form. destruct (P _ eq_refl) as [I K]. simpl in K. subst. assumption.
  - exists (rg_global r). split; [|reflexivity]. apply Scope_global. intros n I.
    apply (N eq_refl _ I). reflexivity.
Qed.

Lemma ScopeOf_fun : forall r ft n1 n2, SortedRegistry r -> ScopeOf r ft n1 -> ScopeOf r ft n2 -> n1 = n2.
Proof.
  intros r ft n1 n2 [SF _] S1 S2. inversion S1; inversion S2; subst.
  - assert ((ft, n1) = (ft, n2)); [|congruence].
    apply (sorted_unique fst (rg_forms r)); try assumption; [|reflexivity].
    apply increasing_sorted; assumption.
  - exfalso. match goal with H1 : forall n, ~ In _ _, H2 : In _ _ |- _ => exact (H1 _ H2) end.
  - exfalso. match goal with H1 : forall n, ~ In _ _, H2 : In _ _ |- _ => exact (H1 _ H2) end.
  - reflexivity.
Qed.

Lemma findChunkType_spec : forall r ft cid node res,
  SortedRegistry r -> ScopeOf r ft node -> Resolves cid node res ->
  IFF_findChunkType (Some r) ft cid = match res with Some ct => Some ct | None => rg_default r end.
Proof.
  intros r ft cid node res S SC RS.
  destruct (find_scope r ft S) as (n & SC2 & E).
  pose proof (ScopeOf_fun r ft n node S SC2 SC) as ->.
  assert (T : forall tbl, In tbl node -> strictly_increasing (map ct_id tbl)).
  { apply (proj2 S). inversion SC; subst; [right; exists ft; assumption|left; reflexivity]. }
  unfold IFF_findChunkType.
  assert (G : (match getFormChunkTypes ft r with
               | Some (_, node0) => getChunkType cid node0
               | None => getChunkType cid (rg_global r) end) = res).
  { transitivity (getChunkType cid node).
    - destruct (getFormChunkTypes ft r) as [[? ?]|]; subst; reflexivity.
    - apply (Resolves_fun cid node); try assumption. apply getChunkType_resolves. assumption. }
  rewrite G. reflexivity.
Qed.

(** The default registry. *)

Lemma default_getChunkType : forall cid,
  getChunkType cid IFF_globalChunkTypesNode =
  if cid =? FORM_ID then Some (mkChunkType IFF_ID_FORM HForm)
  else if cid =? CAT_ID then Some (mkChunkType IFF_ID_CAT HCAT)
  else if cid =? LIST_ID then Some (mkChunkType IFF_ID_LIST HList)
  else if cid =? PROP_ID then Some (mkChunkType IFF_ID_PROP HProp)
  else None.
Proof.
  intros cid. unfold IFF_globalChunkTypesNode, getChunkType.
  rewrite bsearch_find.
  - unfold IFF_globalChunkTypes. cbn [find ct_id].
    destruct ids_spec as (-> & -> & -> & -> & _).
    rewrite !(Z.eqb_sym _ cid).
    destruct (Z.eqb_spec cid CAT_ID) as [->|]; [reflexivity|].
    destruct (cid =? FORM_ID); [reflexivity|].
    destruct (cid =? LIST_ID); [reflexivity|].
    destruct (cid =? PROP_ID); reflexivity.
  - apply increasing_sorted.
    assert (forall l, StronglySorted Z.lt l -> strictly_increasing l) as K.
    { intros l S i j x y L X Y. revert i j x y L X Y. induction S as [|a l S IH F]; intros i j x y L X Y.
      - destruct i; discriminate.
      - destruct j as [|j]; [lia|]. destruct i as [|i].
        + injection X as <-. rewrite Forall_forall in F. apply F. eapply nth_error_In; exact Y.
        + apply (IH i j); [lia|assumption|assumption]. }
    apply K. repeat constructor; vm_compute; reflexivity.
Qed.

Lemma default_realises : forall rg, rg = Some IFF_defaultChunkRegistry -> Realises rg no_apps.
Proof.
  intros rg -> ft cid. unfold find_handler, IFF_findChunkType.
  assert (E : getFormChunkTypes ft IFF_defaultChunkRegistry = None) by reflexivity.
  rewrite E. cbn [rg_global rg_default IFF_defaultChunkRegistry].
  rewrite default_getChunkType. unfold expected_handler, no_apps.
  destruct (cid =? FORM_ID); [reflexivity|].
  destruct (cid =? CAT_ID); [reflexivity|].
  destruct (cid =? LIST_ID); [reflexivity|].
  destruct (cid =? PROP_ID); reflexivity.
Qed.

(** Extension registries whose form nodes end in the global table. *)

Definition app_of (r : registry) : apps := fun ft cid =>
  match IFF_findChunkType (Some r) ft cid with
  | Some ct => match ct_handler ct with HFields s => Some s | _ => None end
  | None => None
  end.

Lemma getChunkType_app : forall cid tbls node,
  getChunkType cid (tbls ++ node) =
  match getChunkType cid tbls with Some ct => Some ct | None => getChunkType cid node end.
Proof.
  intros cid. induction tbls as [|t tbls IH]; intros node; simpl; [reflexivity|].
  destruct (bsearch ct_id cid t); [reflexivity|apply IH].
Qed.

Lemma getChunkType_in : forall cid tbls ct,
  (forall tbl, In tbl tbls -> strictly_increasing (map ct_id tbl)) ->
  getChunkType cid tbls = Some ct -> exists tbl, In tbl tbls /\ In ct tbl /\ ct_id ct = cid.
Proof.
  intros cid. induction tbls as [|t tbls IH]; intros ct S H; simpl in H; [discriminate|].
  destruct (bsearch ct_id cid t) as [x|] eqn:B.
  - injection H as <-.
    apply (bsearch_spec ct_id t cid) in B; [|apply increasing_sorted, S; left; reflexivity].
    exists t. split; [left; reflexivity|assumption].
  - destruct (IH ct) as (tbl & I & R); [intros; apply S; right; assumption|assumption|].
    exists tbl. split; [right; assumption|assumption].
Qed.

Lemma extension_realises : forall forms,
  let r := IFF_EXTEND_DEFAULT_REGISTRY_WITH_FORM_CHUNK_TYPES forms in
  SortedRegistry r -> ExtendsGlobal forms -> Realises (Some r) (app_of r).
Proof.
  intros forms r [SF ST] X ft cid. unfold find_handler, app_of, expected_handler.
  assert (D : forall cid, getChunkType cid (rg_global r) = getChunkType cid IFF_globalChunkTypesNode)
    by reflexivity.
  assert (C : exists tbls,
     (match getFormChunkTypes ft r with
      | Some (_, node) => getChunkType cid node
      | None => getChunkType cid (rg_global r) end) = getChunkType cid (tbls ++ [IFF_globalChunkTypes])
     /\ (forall tbl ct, In tbl tbls -> In ct tbl -> ~ In (ct_id ct) group_ids /\ HandlesData (ct_handler ct))
     /\ (forall tbl, In tbl tbls -> strictly_increasing (map ct_id tbl))).
  { pose proof (bsearch_spec fst (rg_forms r) ft (increasing_sorted _ _ _ SF)) as [P _].
    unfold getFormChunkTypes. destruct (bsearch fst ft (rg_forms r)) as [[f n]|].
    - destruct (P _ eq_refl) as [I K]. simpl in K. subst f.
      destruct (X _ _ I) as (tbls & E & H). exists tbls. subst n. split; [reflexivity|]. split; [exact H|].
      intros tbl T. apply (ST (tbls ++ [IFF_globalChunkTypes])).
      + right. exists ft. exact I.
      + apply in_or_app. left. exact T.
    - exists []. split; [reflexivity|]. split; intros tbl; intros; contradiction. }
  destruct C as (tbls & E & H & S).
  unfold IFF_findChunkType. rewrite E. clear E. rewrite getChunkType_app.
  destruct (getChunkType cid tbls) as [ct|] eqn:G.
  - destruct (getChunkType_in cid tbls ct S G) as (tbl & I1 & I2 & K).
    destruct (H _ _ I1 I2) as [NG HD]. rewrite K in NG. unfold group_ids in NG. simpl in NG.
    rewrite !(proj2 (Z.eqb_neq _ _)) by (intro; apply NG; subst; simpl; auto).
    destruct HD as [HD|[s HD]]; rewrite HD; reflexivity.
  - change (getChunkType cid [IFF_globalChunkTypes]) with (getChunkType cid IFF_globalChunkTypesNode).
    rewrite default_getChunkType.
    destruct (cid =? FORM_ID); [reflexivity|].
    destruct (cid =? CAT_ID); [reflexivity|].
    destruct (cid =? LIST_ID); [reflexivity|].
    destruct (cid =? PROP_ID); reflexivity.
Qed.

Lemma group_handler : forall app ft cid, In cid group_ids ->
  expected_handler app ft cid =
  (if cid =? FORM_ID then HForm else if cid =? CAT_ID then HCAT else if cid =? LIST_ID then HList else HProp).
Proof.
  intros app ft cid I. unfold expected_handler.
  unfold group_ids in I. simpl in I. repeat destruct I as [<-|I]; reflexivity || contradiction.
Qed.

Lemma data_handler : forall app ft cid, ~ In cid group_ids ->
  expected_handler app ft cid = match app ft cid with Some s => HFields s | None => HRaw end.
Proof.
  intros app ft cid I. unfold expected_handler, group_ids in *. simpl in I.
  rewrite !(proj2 (Z.eqb_neq _ _)) by (intro; apply I; subst; simpl; auto). reflexivity.
Qed.

Lemma Resolves_prefix : forall cid tbls ct node, Resolves cid tbls (Some ct) ->
  Resolves cid (tbls ++ node) (Some ct).
Proof.
  intros cid. induction tbls as [|t tbls IH]; intros ct node R; inversion R; subst; simpl.
  - apply Res_here. assumption.
  - apply Res_up; [assumption|]. apply IH. assumption.
Qed.

Lemma Resolves_suffix : forall cid tbls r node, Resolves cid tbls None -> Resolves cid node r ->
  Resolves cid (tbls ++ node) r.
Proof.
  intros cid. induction tbls as [|t tbls IH]; intros r node R1 R2; inversion R1; subst; simpl.
  - assumption.
  - apply Res_up; [assumption|]. apply IH; assumption.
Qed.

Lemma extension_dispatch : forall forms,
  let r := IFF_EXTEND_DEFAULT_REGISTRY_WITH_FORM_CHUNK_TYPES forms in
  SortedRegistry r -> ExtendsGlobal forms ->
  (forall ft cid, In cid group_ids ->
     find_handler (Some r) ft cid =
     Done (if cid =? FORM_ID then HForm else if cid =? CAT_ID then HCAT
           else if cid =? LIST_ID then HList else HProp)) /\
  (forall ft tbls cid ct, In (ft, tbls ++ [IFF_globalChunkTypes]) forms ->
     Resolves cid tbls (Some ct) -> find_handler (Some r) ft cid = Done (ct_handler ct)) /\
  (forall ft tbls cid, In (ft, tbls ++ [IFF_globalChunkTypes]) forms -> ~ In cid group_ids ->
     Resolves cid tbls None -> find_handler (Some r) ft cid = Done HRaw) /\
  (forall ft cid, (forall node, ~ In (ft, node) forms) -> ~ In cid group_ids ->
     find_handler (Some r) ft cid = Done HRaw).
Proof.
  intros forms r S X. pose proof (extension_realises forms S X) as R. fold r in R.
  assert (G : forall cid, ~ In cid group_ids -> Resolves cid [IFF_globalChunkTypes] None).
  { intros cid N. apply Res_up; [|constructor]. intros ct [I K].
    unfold IFF_globalChunkTypes in I. simpl in I. apply N. rewrite <- K.
    repeat destruct I as [<-|I]; try contradiction; vm_compute; tauto. }
  split; [|split; [|split]].
  - intros ft cid I. rewrite R. rewrite (group_handler _ ft cid I). reflexivity.
  - intros ft tbls cid ct I RS. unfold find_handler.
    rewrite (findChunkType_spec r ft cid (tbls ++ [IFF_globalChunkTypes]) (Some ct) S);
      [reflexivity|apply Scope_form; exact I|apply Resolves_prefix; exact RS].
  - intros ft tbls cid I N RS. unfold find_handler.
    rewrite (findChunkType_spec r ft cid (tbls ++ [IFF_globalChunkTypes]) None S);
      [reflexivity|apply Scope_form; exact I|apply Resolves_suffix; [exact RS|apply G; exact N]].
  - intros ft cid I N. unfold find_handler.
    rewrite (findChunkType_spec r ft cid [IFF_globalChunkTypes] None S);
      [reflexivity|apply (Scope_global r); exact I|apply G; exact N].
Qed.
