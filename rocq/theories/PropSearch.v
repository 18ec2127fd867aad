(** * Properties C35-C38: searching FORMs, chunks and shared properties *)

From Coq Require Import ZArith List Bool String Lia.
From Coq Require Import Strings.Byte.
From Verif Require Import Machine Io Types Build Search Spec Lemmas Examples CheckProofs ConfProofs PropRead.
Import ListNotations.
Open Scope Z_scope.

(** ** C35.  IFF_searchForms *)

Lemma in_order_nil : in_order [].
Proof. intros i j p q _ H. destruct i; discriminate. Qed.
Lemma in_order_app : forall a b, in_order a -> in_order b -> (forall p q, In p a -> In q b -> before p q) -> in_order (a ++ b).
Proof.
  intros a b A B H i j p q L P Q.
  destruct (Nat.lt_ge_cases j (List.length a)) as [J|J].
  - rewrite nth_error_app1 in P by lia. rewrite nth_error_app1 in Q by lia. exact (A i j p q L P Q).
  - rewrite nth_error_app2 in Q by lia. destruct (Nat.lt_ge_cases i (List.length a)) as [I|I].
    + rewrite nth_error_app1 in P by lia. apply H; eapply nth_error_In; eassumption.
    + rewrite nth_error_app2 in P by lia. eapply (B (i - List.length a)%nat (j - List.length a)%nat); try eassumption. lia.
Qed.
Lemma in_order_map : forall n a, in_order a -> in_order (map (cons n) a).
Proof.
  intros n a A i j p q L P Q. rewrite nth_error_map in P, Q.
  destruct (nth_error a i) eqn:E; [|discriminate]. destruct (nth_error a j) eqn:F; [|discriminate].
  cbn in P, Q. injection P as <-. injection Q as <-. apply before_deeper. exact (A i j _ _ L E F).
Qed.

(** What is found from a chunk: the positions [ps] and the chunks there. *)
Definition finds (types : list Z) (c : chunk) (result : list chunk) : Prop :=
  exists ps, in_order ps /\ (forall p, In p ps <-> outermost types c p) /\
    map (at_position c) ps = map Some result.

Definition outermost_below (types : list Z) (l : list chunk) (n : nat) (p : list nat) : Prop :=
  exists k q x, p = (n + k)%nat :: q /\ nth_error l k = Some x /\ outermost types x q.

Lemma search_all_finds : forall types l n acc,
  (forall c, In c l -> exists r, IFF_searchFormsFromArray types c = Done r /\ finds types c r) ->
  exists r ps, search_all (IFF_searchFormsFromArray types) l acc = Done (acc ++ r) /\ in_order ps /\
    (forall p, In p ps <-> outermost_below types l n p) /\
    map Some r = map (fun p => match p with m :: q => match nth_error l (m - n) with Some x => at_position x q | None => None end | [] => None end) ps.
Proof.
  intro types. induction l as [|c l IH]; intros n acc H.
  - exists [], []. cbn [search_all]. rewrite app_nil_r. split; [reflexivity|]. split; [apply in_order_nil|]. split; [|reflexivity].
    intro p. split; [contradiction|]. intros (k & q & x & _ & E & _). destruct k; discriminate.
  - destruct (H c (or_introl eq_refl)) as (r1 & E1 & ps1 & O1 & I1 & M1).
    destruct (IH (S n) (acc ++ r1)) as (r2 & ps2 & E2 & O2 & I2 & M2); [intros; apply H; right; assumption|].
    exists (r1 ++ r2), (map (cons n) ps1 ++ ps2). cbn [search_all]. rewrite E1. cbn [obind]. rewrite E2, app_assoc.
    split; [reflexivity|]. split; [|split].
    + apply in_order_app; [apply in_order_map; exact O1|exact O2|].
      intros p q P Q. apply in_map_iff in P. destruct P as (p' & <- & _). apply I2 in Q. destruct Q as (k & q' & x & -> & _ & _).
      apply before_left. lia.
    + intro p. rewrite in_app_iff, in_map_iff. split.
      * intros [(q & <- & Q)|Q].
        -- exists 0%nat, q, c. rewrite Nat.add_0_r. split; [reflexivity|]. split; [reflexivity|]. apply I1. exact Q.
        -- apply I2 in Q. destruct Q as (k & q & x & -> & N & O). exists (S k), q, x. split; [f_equal; lia|]. split; assumption.
      * intros (k & q & x & -> & N & O). destruct k as [|k].
        -- cbn in N. injection N as <-. left. exists q. rewrite Nat.add_0_r. split; [reflexivity|]. apply I1. exact O.
        -- right. apply I2. exists k, q, x. split; [f_equal; lia|]. split; assumption.
    + rewrite !map_app, M2. f_equal.
      * rewrite <- M1, map_map. apply map_ext. intro q. cbn beta iota. rewrite Nat.sub_diag. reflexivity.
      * apply map_ext_in. intros p P. apply I2 in P. destruct P as (k & q & x & -> & N & _). cbn beta iota.
        replace (S n + k - S n)%nat with k by lia. replace (S n + k - n)%nat with (S k) by lia. reflexivity.
Qed.

Lemma outermost_not_wanted : forall types c, ~ wanted types c -> forall p,
  outermost types c p <-> outermost_below types (contents c) 0 p.
Proof.
  intros types c NW p. split.
  - intros [(x & A & W) N]. destruct p as [|k q].
    + cbn in A. injection A as <-. contradiction.
    + cbn [at_position] in A. destruct (nth_error (contents c) k) as [y|] eqn:E; [|discriminate].
      exists k, q, y. split; [reflexivity|]. split; [exact E|]. split; [eauto|].
      intros q' r z -> NR AT. apply (N (k :: q') r); [reflexivity|exact NR|]. cbn [at_position]. rewrite E. exact AT.
  - intros (k & q & y & -> & E & (x & A & W) & N). cbn [Nat.add]. split.
    + exists x. split; [|exact W]. cbn [at_position]. rewrite E. exact A.
    + intros q' r z EQ NR AT. destruct q' as [|k' q'].
      * cbn in AT. injection AT as <-. exact NW.
      * cbn in EQ. injection EQ as <- ->. cbn [at_position] in AT. rewrite E in AT. exact (N q' r z eq_refl NR AT).
Qed.

Lemma finds_below : forall types c, ~ wanted types c ->
  (forall x, In x (contents c) -> exists r, IFF_searchFormsFromArray types x = Done r /\ finds types x r) ->
  exists r, search_all (IFF_searchFormsFromArray types) (contents c) [] = Done r /\ finds types c r.
Proof.
  intros types c NW H. destruct (search_all_finds types (contents c) 0 [] H) as (r & ps & E & O & I & M).
  exists r. split; [exact E|]. exists ps. split; [exact O|]. split.
  - intro p. rewrite I. symmetry. apply outermost_not_wanted. exact NW.
  - rewrite M. apply map_ext_in. intros p P. apply I in P. destruct P as (k & q & x & -> & N & _). cbn [at_position Nat.add].
    rewrite Nat.sub_0_r. reflexivity.
Qed.

Lemma finds_nothing : forall types c, contents c = [] -> ~ wanted types c -> finds types c [].
Proof.
  intros types c E NW. destruct (finds_below types c NW) as (r & S & F); [rewrite E; contradiction|].
  rewrite E in S. cbn in S. injection S as <-. exact F.
Qed.

Lemma finds_itself : forall types c, wanted types c -> finds types c [c].
Proof.
  intros types c W. exists [[]]. split.
  - intros [|i] [|j] p q L P Q; try lia; destruct j; discriminate.
  - split; [|reflexivity]. intro p. split.
    + intros [<-|[]]. split; [exists c; split; [reflexivity|exact W]|].
      intros q r x E NR. exfalso. apply NR. symmetry in E. apply app_eq_nil in E. tauto.
    + intros [_ N]. destruct p as [|k p]; [left; reflexivity|]. exfalso. apply (N [] (k :: p) c); try reflexivity; [discriminate|exact W].
Qed.

Lemma wanted_dec : forall types g, existsb (fun t => g =? t) types = true <-> In g types.
Proof.
  intros types g. rewrite existsb_exists. split.
  - intros (t & I & E). apply Z.eqb_eq in E. subst. exact I.
  - intro I. exists g. split; [exact I|apply Z.eqb_refl].
Qed.

Theorem C35_searchForms : forall app ft types c, Typed app ft c ->
  exists result, IFF_searchFormsFromArray types c = Done result /\
  exists ps, in_order ps /\ (forall p, In p ps <-> outermost types c p) /\ map (at_position c) ps = map Some result.
Proof.
  intros app ft types c. revert ft.
  change (forall ft, Typed app ft c -> exists r, IFF_searchFormsFromArray types c = Done r /\ finds types c r).
  assert (LEAF : forall i, ~ In i group_ids -> i <> FORM_ID /\ i <> CAT_ID /\ i <> LIST_ID).
  { intros i N. unfold group_ids in N. simpl in N. repeat split; intro; apply N; subst; auto. }
  induction c as [i s d|i s g subs IH|i s g props subs IHp IHs|i s vals] using chunk_tree_ind; intros ft T.
  - inversion T; subst. destruct (LEAF i) as (A & B & C); [assumption|]. cbn [IFF_searchFormsFromArray chunkId].
    change IFF_ID_FORM with FORM_ID. change IFF_ID_CAT with CAT_ID. change IFF_ID_LIST with LIST_ID.
    rewrite !(proj2 (Z.eqb_neq _ _)) by assumption. exists []. split; [reflexivity|]. apply finds_nothing; [reflexivity|].
    intros [_ (g & E & _)]. discriminate.
  - inversion T; subst. match goal with H : forall c, In c subs -> Typed _ _ _ |- _ => rename H into TS end.
    match goal with H : In i _ |- _ => destruct H as [<-|[<-|[<-|[]]]] end.
    + change (IFF_searchFormsFromArray types (CGroup FORM_ID s g subs)) with
        (if existsb (fun formType => g =? formType) types then Done [CGroup FORM_ID s g subs]
         else search_all (IFF_searchFormsFromArray types) subs []).
      destruct (existsb (fun formType => g =? formType) types) eqn:X.
      * eexists. split; [reflexivity|]. apply finds_itself. split; [reflexivity|]. exists g. split; [reflexivity|]. apply wanted_dec, X.
      * apply (finds_below types (CGroup FORM_ID s g subs)).
        -- intros [_ (h & E & I)]. cbn in E. injection E as <-. apply wanted_dec in I. congruence.
        -- intros x I. change (In x subs) in I. apply (IH x I g). apply TS. exact I.
    + apply (finds_below types (CGroup CAT_ID s g subs)).
      * intros [E _]. discriminate.
      * intros x I. change (In x subs) in I. apply (IH x I g). apply TS. exact I.
    + exists []. split; [reflexivity|]. apply finds_nothing; [reflexivity|]. intros [E _]. discriminate.
  - inversion T; subst. match goal with H : forall c, In c subs -> Typed _ _ _ |- _ => rename H into TS end.
    apply (finds_below types (CList LIST_ID s g props subs)).
    + intros [E _]. discriminate.
    + intros x I. change (In x subs) in I. apply (IHs x I g). apply TS. exact I.
  - inversion T; subst. destruct (LEAF i) as (A & B & C); [assumption|]. cbn [IFF_searchFormsFromArray chunkId].
    change IFF_ID_FORM with FORM_ID. change IFF_ID_CAT with CAT_ID. change IFF_ID_LIST with LIST_ID.
    rewrite !(proj2 (Z.eqb_neq _ _)) by assumption. exists []. split; [reflexivity|]. apply finds_nothing; [reflexivity|].
    intros [_ (g & E & _)]. discriminate.
Qed.
Print Assumptions C35_searchForms.

(** The single-type entry point. *)
Theorem C35_searchForms_one : forall app ft formType c, Typed app ft c ->
  exists result, IFF_searchForms c formType = Done result /\
  exists ps, in_order ps /\ (forall p, In p ps <-> outermost [formType] c p) /\ map (at_position c) ps = map Some result.
Proof. intros app ft formType c T. exact (C35_searchForms app ft [formType] c T). Qed.
Print Assumptions C35_searchForms_one.

(** A FORM inside another FORM of the same type is not reported separately;
    the FORMs of a LIST inside a CAT are. *)
Definition nested : chunk := group "CAT " "JJJJ"
  [group "FORM" "TEST" [raw "HELO" "abc"; group "FORM" "TEST" []]; listc "JJJJ" [] [group "FORM" "ABCD" [group "FORM" "TEST" []]]].
Example C35_example : Typed no_apps 0 nested /\
  IFF_searchForms nested (ID_of "TEST") = Done [group "FORM" "TEST" [raw "HELO" "abc"; group "FORM" "TEST" []]; group "FORM" "TEST" []] /\
  outermost [ID_of "TEST"] nested [0%nat] /\ ~ outermost [ID_of "TEST"] nested [0%nat; 1%nat].
Proof.
  split; [apply (WF_properties no_apps nested 0); prove_wf|]. split; [vm_compute; reflexivity|]. split.
  - split; [eexists; split; [reflexivity|]; split; [reflexivity|]; eexists; split; [reflexivity|]; left; reflexivity|].
    intros q r x E NR. destruct q as [|a q]; [|destruct q; [injection E as _ <-; contradiction|discriminate]].
    cbn. intros [= <-] [W _]. discriminate.
  - intros [_ N]. apply (N [0%nat] [1%nat] (group "FORM" "TEST" [raw "HELO" "abc"; group "FORM" "TEST" []])); try reflexivity; [discriminate|].
    split; [reflexivity|]. eexists. split; [reflexivity|]. left; reflexivity.
Qed.

(** ** C36.  IFF_getDataChunkFromForm *)
Lemma first_with_id_spec : forall cid l,
  match first_with_id cid l with
  | Some c => first_member l cid c
  | None => forall c, In c l -> chunkId c <> cid
  end.
Proof.
  intros cid l. induction l as [|x l IH]; cbn [first_with_id]; [intros ? []|].
  destruct (Z.eqb_spec (chunkId x) cid) as [E|N].
  - exists [], l. split; [reflexivity|]. split; [exact E|]. intros ? [].
  - destruct (first_with_id cid l) as [c|].
    + destruct IH as (pre & post & -> & E & H). exists (x :: pre), post. split; [reflexivity|]. split; [exact E|].
      intros y [<-|I]; auto.
    + intros y [<-|I]; auto.
Qed.
Lemma first_member_unique : forall l cid c1 c2, first_member l cid c1 -> first_member l cid c2 -> c1 = c2.
Proof.
  intros l cid c1 c2 (p1 & q1 & E1 & I1 & N1) (p2 & q2 & E2 & I2 & N2). rewrite E1 in E2. clear E1 l. revert p2 E2 N2.
  induction p1 as [|a p1 IH]; intros [|b p2] E2 N2; cbn in E2; injection E2 as X Y.
  - exact X.
  - exfalso. apply (N2 b); [left; reflexivity|rewrite <- X; exact I1].
  - exfalso. apply (N1 a); [left; reflexivity|rewrite X; exact I2].
  - apply (IH (fun x H => N1 x (or_intror H)) p2 Y). intros x H1. apply N2. right. exact H1.
Qed.

Theorem C36_first_match : forall form g members cid, as_group form = Some (g, members) ->
  exists r, IFF_getDataChunkFromForm form cid = Done r /\
    (forall c, r = Some c <-> first_member members cid c) /\
    (r = None <-> forall c, In c members -> chunkId c <> cid).
Proof.
  intros form g l cid A. unfold IFF_getDataChunkFromForm. rewrite A. eexists. split; [reflexivity|].
  pose proof (first_with_id_spec cid l) as S. destruct (first_with_id cid l) as [c|].
  - split.
    + intro x. split; [intros [= <-]; exact S|]. intro X. f_equal. exact (first_member_unique _ _ _ _ S X).
    + split; [discriminate|]. intro N. destruct S as (pre & post & -> & E & _). exfalso. apply (N c); [apply in_elt|exact E].
  - split.
    + intro x. split; [discriminate|]. intros (pre & post & -> & E & _). exfalso. apply (S x); [apply in_elt|exact E].
    + tauto.
Qed.
Print Assumptions C36_first_match.

Example C36_example :
  IFF_getDataChunkFromForm (group "FORM" "TEST" [raw "A   " "1"; raw "B   " "2"; raw "B   " "3"]) (ID_of "B   ") = Done (Some (raw "B   " "2")) /\
  IFF_getDataChunkFromForm ex_form (ID_of "NONE") = Done None.
Proof. split; reflexivity. Qed.

(** The standard lets a later setting of a property cancel an earlier one; the
    earlier one is returned. *)
Theorem C36_last_setting_refuted : exists form cid c1 c2 pre, chunkId c1 = cid /\ chunkId c2 = cid /\ c1 <> c2 /\
  group_members form = pre ++ [c2] /\ IFF_getDataChunkFromForm form cid = Done (Some c1).
Proof.
  exists (group "FORM" "TEST" [raw "XY  " "1"; raw "XY  " "2"]), (ID_of "XY  "), (raw "XY  " "1"), (raw "XY  " "2"), [raw "XY  " "1"].
  repeat split; vm_compute; congruence.
Qed.
Print Assumptions C36_last_setting_refuted.

(** ** C37.  IFF_getChunksFromForm *)
Theorem C37_all_matches : forall form g members cid, as_group form = Some (g, members) ->
  IFF_getChunksFromForm form cid = Done (filter (fun c => chunkId c =? cid) members).
Proof.
  intros form g l cid A. unfold IFF_getChunksFromForm. rewrite A. f_equal.
  assert (X : forall l r, all_with_id cid l r = r ++ filter (fun c => chunkId c =? cid) l); [|apply X].
  clear. induction l as [|c l IH]; intro r; cbn [all_with_id filter]; [rewrite app_nil_r; reflexivity|].
  rewrite IH. destruct (chunkId c =? cid); [rewrite <- app_assoc|]; reflexivity.
Qed.
Print Assumptions C37_all_matches.

Example C37_example :
  IFF_getChunksFromForm (group "FORM" "TEST" [raw "A   " "1"; raw "B   " "2"; raw "A   " "3"]) (ID_of "A   ")
  = Done [raw "A   " "1"; raw "A   " "3"].
Proof. reflexivity. Qed.

(** ** C38.  IFF_getChunkFromForm: own chunk, else the innermost shared one *)

Lemma getProp_spec : forall props ft, (forall p, In p props -> exists g l, as_group p = Some (g, l)) ->
  exists r, getPropFromList props ft = Done r /\
    match r with
    | Some p => exists pre post, props = pre ++ p :: post /\ group_type_of p = Some ft /\ forall x, In x pre -> group_type_of x <> Some ft
    | None => forall p, In p props -> group_type_of p <> Some ft
    end.
Proof.
  intros props ft. induction props as [|p l IH]; intro H; cbn [getPropFromList].
  - exists None. split; [reflexivity|]. intros ? [].
  - destruct (H p (or_introl eq_refl)) as (g & m & A). rewrite A.
    assert (GT : group_type_of p = Some g) by (destruct p; cbn in *; try discriminate; injection A as <- <-; reflexivity).
    destruct (Z.eqb_spec g ft) as [->|N].
    + eexists. split; [reflexivity|]. exists [], l. split; [reflexivity|]. split; [exact GT|]. intros ? [].
    + destruct IH as (r & E & R); [intros; apply H; right; assumption|]. rewrite E. exists r. split; [reflexivity|].
      destruct r as [q|].
      * destruct R as (pre & post & -> & G & R). exists (p :: pre), post. split; [reflexivity|]. split; [exact G|].
        intros x [<-|I]; [rewrite GT; congruence|auto].
      * intros x [<-|I]; [rewrite GT; congruence|auto].
Qed.

Lemma first_prop_unique : forall ft (p1 p2 q1 q2 : list chunk) c1 c2, p1 ++ c1 :: q1 = p2 ++ c2 :: q2 ->
  group_type_of c1 = Some ft -> group_type_of c2 = Some ft ->
  (forall x, In x p1 -> group_type_of x <> Some ft) -> (forall x, In x p2 -> group_type_of x <> Some ft) -> c1 = c2.
Proof.
  intros ft p1 p2 q1 q2 c1 c2 E2 I1 I2 N1. revert p2 E2.
  induction p1 as [|a p1 IH]; intros [|b p2] E2 N2; cbn in E2; injection E2 as X Y.
  - exact X.
  - exfalso. apply (N2 b); [left; reflexivity|rewrite <- X; exact I1].
  - exfalso. apply (N1 a); [left; reflexivity|rewrite X; exact I2].
  - apply (IH (fun x H => N1 x (or_intror H)) p2 Y). intros x H1. apply N2. right. exact H1.
Qed.

Lemma shares_unique : forall a ft cid c1 c2, shares a ft cid c1 -> shares a ft cid c2 -> c1 = c2.
Proof.
  intros a ft cid c1 c2 (i & s & g & props & subs & pre & prop & post & -> & E & G & N & F)
    (i2 & s2 & g2 & props2 & subs2 & pre2 & prop2 & post2 & E0 & E2 & G2 & N2 & F2).
  injection E0 as <- <- <- <- <-. subst props.
  assert (prop = prop2); [|subst; eapply first_member_unique; eassumption].
  eapply first_prop_unique; eassumption.
Qed.

Definition list_like (c : chunk) : Prop :=
  (chunkId c = LIST_ID <-> match c with CList _ _ _ _ _ => True | _ => False end) /\
  match c with CList _ _ _ props _ => forall p, In p props -> exists g l, as_group p = Some (g, l) | _ => True end.

Lemma searchProperty_spec : forall ft cid up, (forall a, In a up -> list_like a) ->
  exists r, searchProperty up ft cid = Done r /\
    (forall c, r = Some c <-> shared_setting ft cid up c) /\
    (r = None <-> forall a c, In a up -> ~ shares a ft cid c).
Proof.
  intros ft cid. induction up as [|a up IH]; intro LL; cbn [searchProperty].
  - exists None. split; [reflexivity|]. split; [|split; [intros _ a c []|reflexivity]].
    intro c. split; [discriminate|]. intro X. inversion X.
  - destruct (IH ltac:(intros; apply LL; right; assumption)) as (r & E & R1 & R2).
    assert (SKIP : (forall x, ~ shares a ft cid x) ->
      exists r, searchProperty up ft cid = Done r /\ (forall c, r = Some c <-> shared_setting ft cid (a :: up) c) /\
        (r = None <-> forall b c, In b (a :: up) -> ~ shares b ft cid c)).
    { intro NS. exists r. split; [exact E|]. split.
      - intro c. rewrite R1. split; [intro X; apply shared_above; assumption|]. intro X. inversion X; subst; [|assumption].
        exfalso. eapply NS. eassumption.
      - rewrite R2. split; [intros H b c [<-|I]; auto|]. intros H b c I. apply H. right. exact I. }
    destruct (LL a (or_introl eq_refl)) as [LI LP].
    change IFF_ID_LIST with LIST_ID. destruct (Z.eqb_spec (chunkId a) LIST_ID) as [L|L].
    + destruct a as [i s d|i s g l|i s g props subs|i s v]; try (exfalso; apply LI in L; exact L).
      destruct (getProp_spec props ft LP) as (op & EP & OP). rewrite EP. cbn [obind]. destruct op as [prop|].
      * destruct OP as (pre & post & PE & G & NP).
        assert (AG : as_group prop = Some (ft, group_members prop)) by (destruct prop; cbn in *; try discriminate; injection G as <-; reflexivity).
        destruct (C36_first_match prop ft (group_members prop) cid AG) as (oc & EC & OC1 & OC2). rewrite EC. cbn [obind].
        assert (SH : forall x, shares (CList i s g props subs) ft cid x <-> first_member (group_members prop) cid x).
        { intro x. split.
          - intros (i2 & s2 & g2 & props2 & subs2 & pre2 & prop2 & post2 & E0 & E2 & G2 & N2 & F2). injection E0 as <- <- <- <- <-.
            assert (prop = prop2); [|subst; assumption]. rewrite PE in E2. eapply first_prop_unique; eassumption.
          - intro F. exists i, s, g, props, subs, pre, prop, post. auto 10. }
        destruct oc as [c|].
        -- exists (Some c). split; [reflexivity|].
           assert (SC : shares (CList i s g props subs) ft cid c) by (apply SH, OC1; reflexivity). split.
           ++ intro x. split; [intros [= <-]; apply shared_here; exact SC|]. intro X. inversion X; subst.
              ** f_equal. eapply shares_unique; eassumption.
              ** exfalso. match goal with K : forall x, ~ _ |- _ => exact (K c SC) end.
           ++ split; [discriminate|]. intro X. exfalso. exact (X _ c (or_introl eq_refl) SC).
        -- apply SKIP. intros x X. apply SH, OC1 in X. discriminate.
      * apply SKIP. intros x (i2 & s2 & g2 & props2 & subs2 & pre2 & prop2 & post2 & E0 & E2 & G2 & _). injection E0 as <- <- <- <- <-.
        apply (OP prop2); [rewrite E2; apply in_elt|exact G2].
    + apply SKIP. intros x (i2 & s2 & g2 & props2 & subs2 & pre2 & prop2 & post2 & -> & _). apply L. apply LI. exact I.
Qed.

Lemma Typed_enclosed : forall app root, Typed app 0 root -> forall c up, enclosed root c up ->
  (exists ft, Typed app ft c) /\ forall a, In a up -> list_like a.
Proof.
  intros app root T c up E.
  assert (LLT : forall ft c, Typed app ft c -> list_like c).
  { intros ft x X. split.
    - inversion X; subst; cbn [chunkId]; split; try tauto; intro Q; subst; try (unfold group_ids in *; simpl in *; tauto).
      match goal with H : In LIST_ID _ |- _ => vm_compute in H; intuition discriminate end.
    - inversion X; subst; try exact I. intros p HP.
      match goal with H : forall c, In c props -> _ |- _ => destruct (H p HP) as [TP IP] end.
      inversion TP; subst; cbn [chunkId] in *; subst; try (exfalso; unfold group_ids in *; simpl in *; tauto); [|discriminate].
      eexists _, _. reflexivity. }
  induction E as [|c x up E IH I|i s g props subs x up E IH I].
  - split; [eauto|]. intros a [].
  - destruct IH as [[ft TC] U]. split.
    + inversion TC; subst; cbn in I; try contradiction; eauto.
    + intros a [<-|J]; [|auto]. eapply LLT. eassumption.
  - destruct IH as [[ft TC] U]. split.
    + inversion TC; subst. match goal with H : forall c, In c props -> _ |- _ => exists g; apply H; exact I end.
    + intros a [<-|J]; [|auto]. eapply LLT. eassumption.
Qed.

Theorem C38_shared_properties : forall app root form up ft members cid,
  Typed app 0 root -> enclosed root form up -> as_group form = Some (ft, members) ->
  exists r, IFF_getChunkFromForm form up cid = Done r /\
    (forall c, r = Some c <->
       first_member members cid c \/
       (forall x, In x members -> chunkId x <> cid) /\ shared_setting ft cid up c) /\
    (r = None <-> (forall x, In x members -> chunkId x <> cid) /\ forall a c, In a up -> ~ shares a ft cid c).
Proof.
  intros app root form up ft l cid T E A. destruct (Typed_enclosed app root T form up E) as [_ LL].
  destruct (C36_first_match form ft l cid A) as (r1 & E1 & S1 & N1).
  destruct (searchProperty_spec ft cid up LL) as (r2 & E2 & S2 & N2).
  unfold IFF_getChunkFromForm. rewrite E1. cbn [obind]. destruct r1 as [c1|].
  - exists (Some c1). split; [reflexivity|]. split.
    + intro c. rewrite S1. split; [auto|]. intros [H|[H _]]; [exact H|]. apply N1 in H. discriminate.
    + split; [discriminate|]. intros [H _]. apply N1 in H. discriminate.
  - rewrite A, E2. exists r2. split; [reflexivity|]. pose proof (proj1 N1 eq_refl) as NO. split.
    + intro c. rewrite S2. split; [auto|]. intros [H|[_ H]]; [|exact H]. apply S1 in H. discriminate.
    + rewrite N2. tauto.
Qed.
Print Assumptions C38_shared_properties.

(** Inside two LISTs: the inner PROP decides for XY, the outer one for COLR,
    the FORM itself for SIZE. *)
Definition scope_form : chunk := group "FORM" "TEST" [raw "SIZE" "1"].
Definition inner_list : chunk := listc "TEST" [group "PROP" "TEST" [raw "XY  " "2"]] [scope_form].
Definition outer_list : chunk := listc "TEST" [group "PROP" "TEST" [raw "XY  " "3"; raw "COLR" "4"; raw "SIZE" "5"]] [inner_list].
Example C38_example : Typed no_apps 0 outer_list /\ enclosed outer_list scope_form [inner_list; outer_list] /\
  IFF_getChunkFromForm scope_form [inner_list; outer_list] (ID_of "XY  ") = Done (Some (raw "XY  " "2")) /\
  IFF_getChunkFromForm scope_form [inner_list; outer_list] (ID_of "COLR") = Done (Some (raw "COLR" "4")) /\
  IFF_getChunkFromForm scope_form [inner_list; outer_list] (ID_of "SIZE") = Done (Some (raw "SIZE" "1")) /\
  IFF_getChunkFromForm scope_form [inner_list; outer_list] (ID_of "NONE") = Done None.
Proof.
  split; [apply (WF_properties no_apps outer_list 0); prove_wf|]. split.
  - apply enclosed_member; [|left; reflexivity]. apply enclosed_member; [|left; reflexivity]. apply enclosed_root.
  - repeat split; vm_compute; reflexivity.
Qed.
