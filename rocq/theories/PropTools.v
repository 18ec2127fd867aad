(** * Properties C44 - C47: the tools iffjoin and iffpp *)

From Coq Require Import ZArith List Bool String Lia.
From Coq Require Import Strings.Byte.
From Verif Require Import Machine Io Types Build Read Write Check Print Iff Spec Lemmas IoProofs RegProofs WriteProofs EncodeProofs Grammar SoundProofs
  RoundProofs ApiProofs CheckProofs ConfProofs BuiltProofs HostProofs PrintProofs Examples PropRegistry PropRead PropWrite PropCheck PropBuild PropPrint.
Import ListNotations.
Open Scope Z_scope.

(** The operating system is as before, apart from the diagnostics. *)
Definition untouched (s s' : sys) : Prop :=
  sy_files s' = sy_files s /\ sy_writable s' = sy_writable s /\ sy_room s' = sy_room s /\ sy_bufsize s' = sy_bufsize s /\
  sy_stdin s' = sy_stdin s /\ sy_stdout s' = sy_stdout s.
(** The file [f] can be read, gives the tree [c], and [c] passes the check. *)
Definition accepted (e : env) (s : sys) (f : string) (c : chunk) : Prop :=
  (exists s', IFF_readFile f None e s = Done (Some c, s')) /\ (exists s', no_streams (IFF_check c None) e s = Done (true, s')).
Definition input_size (s : sys) (f : string) : Z := match sy_files s f with Some d => zlength d | None => 0 end.
Definition total_size (s : sys) (inputs : list string) : Z := sum (map (input_size s) inputs).

Lemma untouched_refl : forall s, untouched s s.
Proof. intro s. repeat split. Qed.
Lemma untouched_trans : forall a b c, untouched a b -> untouched b c -> untouched a c.
Proof. unfold untouched. intros a b c H K. intuition congruence. Qed.

Lemma alike_self : forall e, usual e -> alike e e.
Proof. intros e U. constructor; try reflexivity; apply (not_strict _ U). Qed.

(** Reading a file depends on its contents only. *)
Lemma readFile_frame : forall e s1 s2 f oc s1', usual e -> sy_files s1 f = sy_files s2 f -> IFF_readFile f None e s1 = Done (oc, s1') ->
  untouched s1 s1' /\ exists s2', IFF_readFile f None e s2 = Done (oc, s2').
Proof.
  intros e s1 s2 f oc s1' U E H. unfold IFF_readFile in *. rewrite <- E. destruct (sy_files s1 f) as [data|].
  - unfold bindS, with_streams in *.
    pose proof (same_readFd e e false (alike_self e U) None (mkWorld (mkRfile data true) no_out (sy_log s1) (sy_allocs s1))
      (mkWorld (mkRfile data true) no_out (sy_log s2) (sy_allocs s2)) ltac:(repeat split; apply U)) as X.
    destruct (IFF_readFd None e (mkWorld (mkRfile data true) no_out (sy_log s1) (sy_allocs s1))) as [[a v1]|u|]; try discriminate.
    destruct (IFF_readFd None e (mkWorld (mkRfile data true) no_out (sy_log s2) (sy_allocs s2))) as [[b v2]|u|]; try contradiction.
    destruct X as (<- & _). unfold retS in *. cbn [fst] in *. injection H as <- <-. split; [repeat split|]. eexists; reflexivity.
  - cbn in *. injection H as <- <-. split; [repeat split|]. eexists; reflexivity.
Qed.

Lemma no_streams_frame : forall A (m : M A) e s a s', no_streams m e s = Done (a, s') ->
  untouched s s' /\ exists w', m e (mkWorld no_in no_out (sy_log s) (sy_allocs s)) = Done (a, w').
Proof.
  intros A m e s a s' H. unfold no_streams, bindS, with_streams in H.
  destruct (m e (mkWorld no_in no_out (sy_log s) (sy_allocs s))) as [[x w]|u|]; try discriminate.
  unfold retS in H. injection H as <- <-. split; [repeat split|eauto].
Qed.

Lemma no_streams_indep : forall A (m : M A) e s1 s2 a s1', usual e -> same e e false m m -> no_streams m e s1 = Done (a, s1') ->
  exists s2', no_streams m e s2 = Done (a, s2').
Proof.
  intros A m e s1 s2 a s1' U S H. unfold no_streams, bindS, with_streams in *.
  pose proof (S (mkWorld no_in no_out (sy_log s1) (sy_allocs s1)) (mkWorld no_in no_out (sy_log s2) (sy_allocs s2)) ltac:(repeat split; apply U)) as X.
  destruct (m e (mkWorld no_in no_out (sy_log s1) (sy_allocs s1))) as [[x v1]|u|]; try discriminate.
  destruct (m e (mkWorld no_in no_out (sy_log s2) (sy_allocs s2))) as [[y v2]|u|]; try contradiction.
  destruct X as (<- & _). unfold retS in *. injection H as <- <-. eauto.
Qed.

Lemma accepted_frame : forall e s1 s2 f c, usual e -> sy_files s1 f = sy_files s2 f -> accepted e s1 f c -> accepted e s2 f c.
Proof.
  intros e s1 s2 f c U E [[s' H] [s'' K]]. split.
  - exact (proj2 (readFile_frame e s1 s2 f _ _ U E H)).
  - exact (no_streams_indep _ _ e s1 s2 _ _ U (same_check e e false c None) K).
Qed.
Lemma accepted_unique : forall e s f c1 c2, accepted e s f c1 -> accepted e s f c2 -> c1 = c2.
Proof. intros e s f c1 c2 [[s1 H] _] [[s2 K] _]. congruence. Qed.

(** *** What the loop does, whatever the inputs *)
Lemma same_add : forall e, usual e -> forall cat c, same e e false (IFF_addToCATAndUpdateContentsType cat c) (IFF_addToCATAndUpdateContentsType cat c).
Proof.
  intros e U cat c. pose proof (alike_self e U) as A. unfold IFF_addToCATAndUpdateContentsType. apply same_bind; [apply same_lift|]. intro.
  unfold IFF_addToGroup. apply same_bind; [apply same_attach; exact A|]. intro. same_all A.
Qed.
Lemma add_streams : forall e cat c w cat' w', IFF_addToCATAndUpdateContentsType cat c e w = Done (cat', w') -> w_in w' = w_in w /\ w_out w' = w_out w.
Proof.
  intros e cat c w cat' w' H. unfold IFF_addToCATAndUpdateContentsType, IFF_addToGroup, IFF_attachToGroup, bind, lift in H.
  destruct (updateContentsType cat c) as [x| |]; try discriminate. destruct (as_group x) as [[g l]|]; try discriminate. unfold malloc in H.
  match type of H with context [if ?b then ret _ else _] => destruct b end; [|discriminate]. unfold ret in H.
  match type of H with context [IFF_incrementChunkSize ?a ?b] => destruct (IFF_incrementChunkSize a b) end; try discriminate. injection H as <- <-. auto.
Qed.

Lemma loop_result : forall e, usual e -> forall inputs cat s r s', join_loop inputs cat e s = Done (r, s') ->
  untouched s s' /\
  match r with
  | inl cat' => exists cs, Forall2 (accepted e s) inputs cs /\ forall lg n, exists w', add_all cat cs e (mkWorld no_in no_out lg n) = Done (cat', w')
  | inr z => z = 1 /\ exists f, In f inputs /\ ~ exists c, accepted e s f c
  end.
Proof.
  intros e U. induction inputs as [|f inputs IH]; intros cat s r s' H; cbn [join_loop] in H.
  - injection H as <- <-. split; [apply untouched_refl|]. exists []. split; [constructor|]. intros. eexists. reflexivity.
  - unfold bindS in H. destruct (IFF_readFile f None e s) as [[oc s1]| |] eqn:R; try discriminate.
    destruct (readFile_frame e s s f oc s1 U eq_refl R) as [T1 _]. destruct oc as [c|].
    + destruct (no_streams (IFF_check c None) e s1) as [[ok s2]| |] eqn:K; try discriminate.
      destruct (no_streams_frame _ _ _ _ _ _ K) as [T2 _].
      destruct (no_streams_indep _ _ e s1 s _ _ U (same_check e e false c None) K) as [s3 K3].
      destruct ok.
      * destruct (no_streams (IFF_addToCATAndUpdateContentsType cat c) e s2) as [[cat1 s4]| |] eqn:D; try discriminate.
        destruct (no_streams_frame _ _ _ _ _ _ D) as [T4 [w4 D4]].
        destruct (IH _ _ _ _ H) as [T5 X].
        assert (TT : untouched s s4) by (eapply untouched_trans; [exact T1|]; eapply untouched_trans; eassumption).
        split; [eapply untouched_trans; eassumption|].
        assert (FR : forall g x, accepted e s4 g x <-> accepted e s g x).
        { intros g x. pose proof (f_equal (fun h => h g) (proj1 TT)) as E. cbv beta in E.
          split; apply accepted_frame; auto. }
        destruct r as [cat'|z].
        -- destruct X as (cs & F & AD). exists (c :: cs). split.
           { constructor; [split; eauto|]. revert F. clear -FR. induction 1; constructor; auto. apply FR. assumption. }
           intros lg n. cbn [add_all]. unfold bind.
           pose proof (same_add e U cat c (mkWorld no_in no_out (sy_log s2) (sy_allocs s2)) (mkWorld no_in no_out lg n) ltac:(repeat split; apply U)) as S.
           rewrite D4 in S. destruct (IFF_addToCATAndUpdateContentsType cat c e (mkWorld no_in no_out lg n)) as [[y [vi vo vl vn]]|u|] eqn:D5; try contradiction.
           destruct S as (<- & _). destruct (add_streams _ _ _ _ _ _ D5) as [E1 E2]. cbn in E1, E2. subst. apply AD.
        -- destruct X as [-> (g & I & N)]. split; [reflexivity|]. exists g. split; [right; exact I|]. intros [x X]. apply N. exists x. apply FR. exact X.
      * destruct (liftS (IFF_free cat None) e s2) as [[u s4]| |] eqn:F; try discriminate. injection H as <- <-.
        assert (T4 : untouched s2 s4) by (unfold liftS in F; destruct (IFF_free cat None); try discriminate; injection F as <- <-; apply untouched_refl).
        split; [eapply untouched_trans; [exact T1|]; eapply untouched_trans; eassumption|]. split; [reflexivity|]. exists f. split; [left; reflexivity|].
        intros [x [[sx X] [sy Y]]]. rewrite R in X. injection X as <- <-. congruence.
    + destruct (liftS (IFF_free cat None) e s1) as [[u s4]| |] eqn:F; try discriminate. injection H as <- <-.
      assert (T4 : untouched s1 s4) by (unfold liftS in F; destruct (IFF_free cat None); try discriminate; injection F as <- <-; apply untouched_refl).
      split; [eapply untouched_trans; eassumption|]. split; [reflexivity|]. exists f. split; [left; reflexivity|].
      intros [x [[sx X] _]]. congruence.
Qed.

(** *** Good inputs *)
Record good (c : chunk) : Prop := mkGood {
  good_typed : Typed no_apps 0 c;
  good_data : LeafData c;
  good_conforms : Conforms no_apps 0 c;
  good_top : top_level c }.

Lemma accepted_good : forall e s f c, usual e -> input_size s f <= INT_MAX -> accepted e s f c -> good c /\ encoded_size c <= input_size s f.
Proof.
  intros e s f c U L [[s' H] [s'' K]]. unfold input_size in *. unfold IFF_readFile in H. destruct (sy_files s f) as [data|]; [|discriminate].
  unfold bindS, with_streams in H.
  destruct (IFF_readFd None e (mkWorld (mkRfile data true) no_out (sy_log s) (sy_allocs s))) as [[a v]|u|] eqn:R; try discriminate.
  unfold retS in H. cbn [fst] in H. injection H as -> _.
  destruct (readFd_sound None no_apps e _ c v default_registry (not_strict _ U) no_apps_sane (or_intror no_apps_none) R) as (l & t & lg & n & P & RR & _).
  cbn in RR. destruct (proj1 (Parsed_properties e no_apps no_apps_none) _ _ _ _ P) as (RP & LD & SZ).
  assert (LL : encoded_size c <= zlength data).
  { unfold rest in RR. cbn in RR. rewrite RR, zlength_app. pose proof (zlength_nonneg _ t). lia. }
  split; [|exact LL]. destruct (no_streams_frame _ _ _ _ _ _ K) as [_ [w' C]].
  destruct (C26_check_decides_conformance None no_apps c e (mkWorld no_in no_out (sy_log s) (sy_allocs s)) default_registry
    (proj1 (Parsed_Typed e no_apps) _ _ _ _ P) RP (LeafData_sizes _ LD) ltac:(lia)) as (b & w2 & E & B).
  rewrite E in C. injection C as -> _. destruct (proj1 B eq_refl) as [T CF].
  constructor; auto. exact (proj1 (Parsed_Typed e no_apps) _ _ _ _ P).
Qed.

(** A CAT with the given members. *)
Record joined (cs : list chunk) (cat : chunk) : Prop := mkJoined {
  joined_shape : exists g, cat = CGroup CAT_ID (4 + body_size cs) g cs /\ ValidId g /\ forall c, In c cs -> cat_member g c;
  joined_good : forall c, In c cs -> good c }.

Lemma joined_all_good : forall cs cat, joined cs cat -> good cat.
Proof.
  intros cs cat [(g & -> & V & M) G]. constructor.
  - apply Ty_group; [right; left; reflexivity|]. intros c H. apply (Typed_any _ 0); [apply cat_ids_group; apply (good_top _ (G c H))|apply (good_typed _ (G c H))].
  - intros x I. apply InTree_group_inv in I. destruct I as [->|(c & H & I)]; [exact Logic.I|]. exact (good_data _ (G c H) x I).
  - apply Conf_cat; [exact V| |reflexivity]. intros c H. split; [apply M; exact H|].
    apply (Conforms_any _ 0); [apply cat_ids_group; apply (good_top _ (G c H))|apply (good_conforms _ (G c H))].
  - right; left; reflexivity.
Qed.

Lemma add_joined : forall e, usual e -> forall l cs cat w, joined cs cat -> (forall c, In c l -> good c) ->
  12 + sum (map encoded_size cs) + sum (map encoded_size l) <= INT_MAX ->
  exists cat' w', add_all cat l e w = Done (cat', w') /\ joined (cs ++ l) cat'.
Proof.
  intros e U. induction l as [|c l IH]; intros cs cat w J GL S; cbn [add_all].
  - eexists _, _. split; [reflexivity|]. rewrite app_nil_r. exact J.
  - pose proof (joined_all_good _ _ J) as GC. destruct J as [(g & -> & V & M) G].
    pose proof (GL c (or_introl eq_refl)) as C. cbn [map sum fold_right] in S. change (fold_right Z.add 0) with sum in S.
    assert (PL : 0 <= sum (map encoded_size l)) by (apply sum_encoded_pos; intros; apply LeafData_sizes; apply good_data; apply GL; right; assumption).
    assert (TC : exists gc lc, as_group c = Some (gc, lc)).
    { pose proof (good_conforms _ C) as X. pose proof (good_top _ C) as T. inversion X; subst; cbn; eauto; exfalso; cbn in T;
        match goal with H : ~ In _ group_ids |- _ => apply H; apply cat_ids_group; exact T end. }
    destruct TC as (gc & lc & AC).
    assert (UP : exists g', updateContentsType (CGroup CAT_ID (4 + body_size cs) g cs) c = Done (CGroup CAT_ID (4 + body_size cs) g' cs) /\
      ValidId g' /\ (forall x, In x cs -> cat_member g' x) /\ cat_member g' c).
    { assert (GT : group_type_of c = Some gc) by (destruct c; cbn in *; try discriminate; injection AC as <- <-; reflexivity).
      unfold updateContentsType. rewrite (proj2 (valid_cat_id _) (good_top _ C)). cbn [as_group]. rewrite AC. change IFF_ID_JJJJ with JJJJ_ID.
      destruct (Z.eqb_spec (zlength cs) 0) as [Z0|NZ].
      - assert (cs = []) by (destruct cs; [reflexivity|unfold zlength in Z0; cbn in Z0; lia]). subst cs. exists gc. split; [reflexivity|].
        split; [exact (member_type_valid _ _ _ _ _ (good_conforms _ C) (good_top _ C) AC)|]. split; [intros x []|]. split; [apply (good_top _ C)|right; exact GT].
      - destruct (Z.eqb_spec g JJJJ_ID) as [EJ|NJ]; cbn [negb andb].
        + exists g. split; [reflexivity|]. split; [exact V|]. split; [exact M|]. split; [apply (good_top _ C)|left; exact EJ].
        + destruct (Z.eqb_spec g gc) as [EG|NG]; cbn [negb].
          * exists g. split; [reflexivity|]. split; [exact V|]. split; [exact M|]. split; [apply (good_top _ C)|right; congruence].
          * exists JJJJ_ID. split; [reflexivity|]. split; [exact JJJJ_valid|].
            split; [intros x H; destruct (M x H) as [Q _]|]; (split; [|left; reflexivity]); [exact Q|apply (good_top _ C)]. }
    destruct UP as (g' & UP & V' & M' & MC).
    set (cat1 := CGroup CAT_ID (4 + body_size cs) g' cs) in *.
    assert (J1 : joined cs cat1) by (constructor; [exists g'; auto|exact G]). pose proof (joined_all_good _ _ J1) as G1.
    destruct (addToGroup_succeeds no_apps 0 0 cat1 g' cs c e w U (good_conforms _ G1) (good_conforms _ C) (LeafData_sizes _ (good_data _ G1)) (LeafData_sizes _ (good_data _ C)) eq_refl) as (w1 & AD & _).
    { unfold cat1. cbn [encoded_size]. lia. }
    unfold bind at 1. unfold IFF_addToCATAndUpdateContentsType, bind at 1, lift. rewrite UP, AD.
    destruct (IH (cs ++ [c]) (set_chunkSize (set_subs cat1 (cs ++ [c])) (chunkSize cat1 + physical (chunkSize c))) w1) as (cat' & w' & AL & JF).
    + constructor.
      * exists g'. split; [unfold cat1; cbn; f_equal; rewrite body_snoc; lia|]. split; [exact V'|]. apply in_snoc; assumption.
      * apply in_snoc; assumption.
    + intros; apply GL; right; assumption.
    + rewrite encoded_app. lia.
    + exists cat', w'. rewrite <- app_assoc in JF. auto.
Qed.

Lemma empty_joined : joined [] (CGroup CAT_ID 4 JJJJ_ID []).
Proof. constructor; [|intros c []]. exists JJJJ_ID. split; [reflexivity|]. split; [exact JJJJ_valid|intros c []]. Qed.

Lemma joined_WF : forall cs cat, joined cs cat -> 12 + sum (map encoded_size cs) <= INT_MAX ->
  WF no_apps 0 cat /\ zlength (encode cat) = 12 + sum (map encoded_size cs).
Proof.
  intros cs cat J S. pose proof (joined_all_good _ _ J) as G. pose proof (Conforms_size _ _ _ (good_conforms _ G) (LeafData_sizes _ (good_data _ G))) as CS.
  assert (E : encoded_size cat = 12 + sum (map encoded_size cs)) by (destruct J as [(g & -> & _) _]; reflexivity).
  pose proof (physical_range (chunkSize cat)).
  assert (W : WF no_apps 0 cat) by (apply Conforms_WF; [apply G..|lia]). split; [exact W|]. rewrite (WF_encode_length _ _ _ W). lia.
Qed.

Lemma inputs_good : forall e s inputs cs, usual e -> total_size s inputs <= INT_MAX -> Forall2 (accepted e s) inputs cs ->
  (forall c, In c cs -> good c) /\ sum (map encoded_size cs) <= total_size s inputs.
Proof.
  intros e s inputs cs U L F. unfold total_size in *. induction F as [|f c fs cs A F IH]; [split; [intros c []|reflexivity]|].
  cbn [map sum fold_right] in *. change (fold_right Z.add 0) with sum in *.
  assert (NN : forall l, 0 <= sum (map (input_size s) l)).
  { induction l as [|x l IHl]; [cbn; lia|]. cbn [map sum fold_right]. change (fold_right Z.add 0) with sum. unfold input_size at 1. destruct (sy_files s x) as [d|]; [pose proof (zlength_nonneg _ d)|]; lia. }
  assert (N0 : 0 <= input_size s f) by (unfold input_size; destruct (sy_files s f) as [d|]; [apply zlength_nonneg|lia]).
  pose proof (NN fs). destruct (accepted_good e s f c U ltac:(lia) A) as [G E]. destruct IH as [IG IE]; [lia|]. split; [|lia].
  intros x [<-|H2]; auto.
Qed.

(** Creating the CAT and running the loop. *)
Lemma create_cat : forall e s, usual e -> exists s1, no_streams IFF_createEmptyCAT e s = Done (Some (CGroup CAT_ID 4 JJJJ_ID []), s1) /\ untouched s s1.
Proof.
  intros e s U. unfold no_streams, bindS, with_streams. unfold IFF_createEmptyCAT, IFF_createEmptyCATWithContentsType, IFF_createCAT, IFF_createEmptyGroup, IFF_createGroup, bind, malloc.
  rewrite (memory _ U). replace (sizeof_Group <? 2 ^ (size_t_bits e - 1)) with true by (unfold size_t_bits; destruct (lp64 e); reflexivity).
  cbn. eexists. split; [reflexivity|]. repeat split.
Qed.

Lemma loop_succeeds : forall e, usual e -> forall inputs cs0 cs cat s, joined cs0 cat -> Forall2 (accepted e s) inputs cs ->
  12 + sum (map encoded_size cs0) + total_size s inputs <= INT_MAX ->
  exists cat' s', join_loop inputs cat e s = Done (inl cat', s').
Proof.
  intros e U. induction inputs as [|f inputs IH]; intros cs0 cs cat s J F S; cbn [join_loop]; [eexists _, _; reflexivity|].
  inversion F as [|f' c fs cs' A F']; subst. unfold total_size in S. cbn [map sum fold_right] in S. change (fold_right Z.add 0) with sum in S. fold (total_size s inputs) in S.
  pose proof A as [[s1 R] [sk K]].
  destruct (readFile_frame e s s f _ _ U eq_refl R) as [T1 _].
  destruct (no_streams_indep _ _ e s s1 _ _ U (same_check e e false c None) K) as [s2 K2]. destruct (no_streams_frame _ _ _ _ _ _ K2) as [T2 _].
  assert (NN : 0 <= sum (map encoded_size cs0)) by (apply sum_encoded_pos; intros x H; apply LeafData_sizes; apply good_data; apply (joined_good _ _ J x H)).
  destruct (inputs_good e s inputs cs' U) as [GL GS]; [unfold input_size in S; destruct (sy_files s f) as [d|]; [pose proof (zlength_nonneg _ d)|]; lia|exact F'|].
  assert (PL : 0 <= sum (map encoded_size cs')) by (apply sum_encoded_pos; intros; apply LeafData_sizes; apply good_data; apply GL; assumption).
  destruct (accepted_good e s f c U ltac:(lia) A) as [G E].
  destruct (add_joined e U [c] cs0 cat (mkWorld no_in no_out (sy_log s2) (sy_allocs s2)) J) as (cat1 & w1 & AD & J1).
  { intros x [<-|[]]. exact G. }
  { cbn [map sum fold_right]. lia. }
  unfold bindS. rewrite R, K2. cbn [add_all] in AD. unfold bind in AD.
  destruct (IFF_addToCATAndUpdateContentsType cat c e (mkWorld no_in no_out (sy_log s2) (sy_allocs s2))) as [[y w2]|u|] eqn:D; try discriminate.
  unfold ret in AD. injection AD as <- <-. unfold no_streams, bindS, with_streams. rewrite D. unfold retS. cbn [fst].
  apply (IH (cs0 ++ [c]) cs'); [exact J1| |].
  - pose proof (proj1 (untouched_trans _ _ _ T1 T2)) as EF. revert F'. clear - EF U. induction 1; constructor; auto.
    eapply accepted_frame; [exact U| |eassumption]. cbn. rewrite EF. reflexivity.
  - rewrite encoded_app. unfold total_size, input_size. cbn. rewrite (proj1 (untouched_trans _ _ _ T1 T2)).
    change (sum (map (fun f0 => match sy_files s f0 with Some d => zlength d | None => 0 end) inputs)) with (total_size s inputs). lia.
Qed.

Lemma join_written : forall e inputs output s s', usual e -> 12 + total_size s inputs <= INT_MAX -> IFF_join inputs output e s = Done (0, s') ->
  exists cs cat s1, Forall2 (accepted e s) inputs cs /\ joined cs cat /\ 12 + sum (map encoded_size cs) <= INT_MAX /\
    untouched s s1 /\ IFF_write output cat None e s1 = Done (true, s') /\ (cs <> [] -> exists g, as_group cat = Some (g, cs) /\ common_type cs g).
Proof.
  intros e inputs output s s' U S H. unfold IFF_join in H. destruct (create_cat e s U) as (s0 & C & T0). unfold bindS at 1 in H. rewrite C in H.
  unfold bindS at 1 in H. destruct (join_loop inputs (CGroup CAT_ID 4 JJJJ_ID []) e s0) as [[[cat|z] s1]|u|] eqn:L; try discriminate.
  2:{ destruct (loop_result e U _ _ _ _ _ L) as [_ [-> _]]. discriminate H. }
  destruct (loop_result e U _ _ _ _ _ L) as [T1 (cs & F & AD)].
  assert (F' : Forall2 (accepted e s) inputs cs).
  { revert F. clear - T0 U. induction 1; constructor; auto. eapply accepted_frame; [exact U| |eassumption]. rewrite (proj1 T0). reflexivity. }
  destruct (inputs_good e s inputs cs U ltac:(lia) F') as [G E].
  destruct (add_joined e U cs [] _ (mkWorld no_in no_out [] 0) empty_joined G ltac:(cbn [map sum fold_right]; lia)) as (cat' & w' & AL & J). cbn [Datatypes.app] in J.
  destruct (AD [] 0%nat) as [w2 AL2]. rewrite AL in AL2. injection AL2 as -> _.
  exists cs, cat, s1. split; [exact F'|]. split; [exact J|]. split; [lia|]. split; [eapply untouched_trans; eassumption|]. split.
  - unfold bindS in H. destruct (IFF_write output cat None e s1) as [[ok s2]|u|]; try discriminate.
    unfold liftS in H. destruct (IFF_free cat None); try discriminate. unfold retS in H. destruct ok; [|discriminate]. injection H as <-. reflexivity.
  - intro N. apply (C43_contents_type cs (CGroup CAT_ID 4 JJJJ_ID []) JJJJ_ID e (mkWorld no_in no_out [] 0) cat w' eq_refl N); [|exact AL].
    intros c I. split; [apply (good_top _ (G c I))|]. pose proof (good_conforms _ (G c I)) as X. pose proof (good_top _ (G c I)) as TT. inversion X; subst; cbn; eauto; exfalso; cbn in TT;
      match goal with H : ~ In _ group_ids |- _ => apply H; apply cat_ids_group; exact TT end.
Qed.

Lemma joined_file : forall e inputs out s s', usual e -> 12 + total_size s inputs <= INT_MAX -> sy_room s out = None ->
  IFF_join inputs (Some out) e s = Done (0, s') ->
  exists cs cat, Forall2 (accepted e s) inputs cs /\ joined cs cat /\ WF no_apps 0 cat /\ zlength (encode cat) <= INT_MAX /\
    sy_files s' out = Some (encode cat) /\ (forall other, other <> out -> sy_files s' other = sy_files s other) /\
    (cs <> [] -> exists g, as_group cat = Some (g, cs) /\ common_type cs g).
Proof.
  intros e inputs out s s' U S NR H. destruct (join_written e inputs (Some out) s s' U S H) as (cs & cat & s1 & F & J & SZ & T & W & CT).
  destruct (joined_WF cs cat J SZ) as [WF EL]. exists cs, cat. repeat (split; [assumption|]). split; [lia|].
  destruct T as (E1 & E2 & E3 & E4 & E5 & E6). rewrite <- E3 in NR.
  pose proof (C23_write_file_complete None no_apps cat e s1 out default_registry U WF NR) as X. cbn [IFF_write] in W. rewrite W in X. split; [exact X|]. split; [|exact CT].
  intros other N. unfold IFF_writeFile in W. destruct (sy_writable s1 out); [|discriminate W]. unfold with_streams in W.
  destruct (IFF_writeFd cat None e _) as [[b w]|u|]; try discriminate. injection W as -> <-. cbn. apply String.eqb_neq in N. rewrite N, E1. reflexivity.
Qed.

(** ** C44.  The output file is a valid CAT. *)
Theorem C44_output_valid : forall e e2 inputs out s s', usual e -> usual e2 ->
  12 + total_size s inputs <= INT_MAX -> sy_room s out = None ->
  IFF_join inputs (Some out) e s = Done (0, s') ->
  exists cat s2, IFF_readFile out None e2 s' = Done (Some cat, s2) /\ sy_log s2 = sy_log s' /\
    chunkId cat = CAT_ID /\ forall w, IFF_check cat None e2 w = Done (true, w).
Proof.
  intros e e2 inputs out s s' U U2 S NR H. destruct (joined_file e inputs out s s' U S NR H) as (cs & cat & F & J & W & L & D & _).
  pose proof (joined_all_good _ _ J) as G. destruct (WF_properties _ _ _ W) as (T & RP & LD).
  assert (LL : zlength (encode cat) < 2 ^ (size_t_bits e2 - 1)).
  { unfold INT_MAX, size_t_bits in *. destruct (lp64 e2); change (2 ^ (64 - 1)) with 9223372036854775808; change (2 ^ (32 - 1)) with 2147483648; lia. }
  destruct (WF_parsed e2 no_apps 0 cat W) as (lg & P & CV).
  destruct (readFd_complete None no_apps e2 (mkWorld (mkRfile (encode cat) true) no_out (sy_log s') (sy_allocs s')) (encode cat) [] cat lg default_registry U2 no_apps_sane P) as [m E].
  - unfold rest. cbn. rewrite app_nil_r. reflexivity.
  - exact LL.
  - left. reflexivity.
  - exists cat. eexists. unfold IFF_readFile. rewrite D. unfold bindS, with_streams. rewrite E. split; [reflexivity|]. split.
    + cbn. rewrite (CV (no_apps_covered _ _ W)). reflexivity.
    + split; [destruct J as [(g & -> & _) _]; reflexivity|]. intro w. rewrite check_root by apply (good_top _ G).
      pose proof (Conforms_size _ _ _ (good_conforms _ G) (LeafData_sizes _ LD)) as CS.
      destruct (check_decides _ _ default_registry cat 0 T RP (LeafData_sizes _ LD) ltac:(rewrite <- CS, <- (WF_encode_length _ _ _ W); lia) e2 w) as [[_ X]|[X _]]; [exact X|].
      exfalso. apply X. apply (good_conforms _ G).
Qed.
Print Assumptions C44_output_valid.

(** ** C45.  Its members are the trees of the inputs, in order; its type is
    their common type.  The output may be one of the inputs. *)
Theorem C45_members_in_order : forall e e2 inputs out s s', usual e -> usual e2 ->
  12 + total_size s inputs <= INT_MAX -> sy_room s out = None ->
  IFF_join inputs (Some out) e s = Done (0, s') ->
  exists cat g trees s2, IFF_readFile out None e2 s' = Done (Some cat, s2) /\
    as_group cat = Some (g, trees) /\ Forall2 (accepted e s) inputs trees /\
    (inputs <> [] -> common_type trees g) /\
    (forall other, other <> out -> sy_files s' other = sy_files s other).
Proof.
  intros e e2 inputs out s s' U U2 S NR H.
  destruct (C44_output_valid e e2 inputs out s s' U U2 S NR H) as (cat2 & s2 & R & _).
  destruct (joined_file e inputs out s s' U S NR H) as (cs & cat & F & J & W & L & D & O & CT).
  assert (cat2 = cat).
  { unfold IFF_readFile in R. rewrite D in R. unfold bindS, with_streams in R.
    destruct (IFF_readFd None e2 (mkWorld (mkRfile (encode cat) true) no_out (sy_log s') (sy_allocs s'))) as [[a v]|u|] eqn:X; try discriminate.
    unfold retS in R. cbn in R. injection R as -> _.
    destruct (WF_parsed e2 no_apps 0 cat W) as (lg & P & CV).
    destruct (readFd_complete None no_apps e2 (mkWorld (mkRfile (encode cat) true) no_out (sy_log s') (sy_allocs s')) (encode cat) [] cat lg default_registry U2 no_apps_sane P) as [m E].
    - unfold rest. cbn. rewrite app_nil_r. reflexivity.
    - unfold INT_MAX, size_t_bits in *. destruct (lp64 e2); change (2 ^ (64 - 1)) with 9223372036854775808; change (2 ^ (32 - 1)) with 2147483648; lia.
    - left. reflexivity.
    - rewrite E in X. injection X as <- _. reflexivity. }
  subst cat2. destruct J as [(g & -> & V & M) G].
  exists (CGroup CAT_ID (4 + body_size cs) g cs), g, cs, s2. split; [exact R|]. split; [reflexivity|]. split; [exact F|]. split; [|exact O].
  intro N. destruct CT as (g' & A & CT); [intros ->; inversion F; subst; contradiction|]. cbn in A. injection A as <-. exact CT.
Qed.
Print Assumptions C45_members_in_order.

(** And iffjoin does succeed when all inputs are accepted and the output can
    be written. *)
Theorem C45_succeeds : forall e inputs trees out s, usual e ->
  12 + total_size s inputs <= INT_MAX -> sy_room s out = None -> sy_writable s out = true ->
  Forall2 (accepted e s) inputs trees -> exists s', IFF_join inputs (Some out) e s = Done (0, s').
Proof.
  intros e inputs trees out s U S NR OW F. unfold IFF_join. destruct (create_cat e s U) as (s0 & C & T0). unfold bindS at 1. rewrite C. unfold bindS at 1.
  assert (F0 : Forall2 (accepted e s0) inputs trees).
  { revert F. clear - T0 U. induction 1; constructor; auto. eapply accepted_frame; [exact U| |eassumption]. rewrite (proj1 T0). reflexivity. }
  assert (S0 : 12 + total_size s0 inputs <= INT_MAX).
  { unfold total_size, input_size in *. rewrite (proj1 T0). exact S. }
  destruct (loop_succeeds e U inputs [] trees _ s0 empty_joined F0 ltac:(cbn [map sum fold_right]; lia)) as (cat & s1 & L). rewrite L.
  destruct (loop_result e U _ _ _ _ _ L) as [T1 (cs & F1 & AD)].
  destruct (inputs_good e s0 inputs cs U ltac:(lia) F1) as [G E].
  destruct (add_joined e U cs [] _ (mkWorld no_in no_out [] 0) empty_joined G ltac:(cbn [map sum fold_right]; lia)) as (cat' & w' & AL & J). cbn [Datatypes.app] in J.
  destruct (AD [] 0%nat) as [w2 AL2]. rewrite AL in AL2. injection AL2 as -> _.
  destruct (joined_WF cs cat J ltac:(lia)) as [W EL]. destruct (WF_properties _ _ _ W) as (T & _ & _).
  pose proof (untouched_trans _ _ _ T0 T1) as (E1 & E2 & E3 & _). rewrite <- E3 in NR. rewrite <- E2 in OW.
  pose proof (C23_write_file_complete None no_apps cat e s1 out default_registry U W NR) as X. unfold bindS. cbn [IFF_write].
  destruct (IFF_writeFile out cat None e s1) as [[[] s2]|u|]; try contradiction; [|destruct X; congruence].
  unfold liftS, IFF_free. rewrite (free_typed _ _ default_registry cat 0 T). eexists. reflexivity.
Qed.
Print Assumptions C45_succeeds.

(** The same on standard output, which is flushed when the program exits. *)
Lemma put_bytes_room : forall l f, o_room f = None -> o_room (snd (put_bytes l f)) = None.
Proof.
  induction l as [|b l IH]; intros f R; [exact R|]. cbn [put_bytes]. unfold put_byte. cbn [o_buf o_bufsize o_room]. destruct (Nat.ltb _ _); [apply IH; exact R|].
  unfold flush. cbn [o_room o_buf o_dev o_bufsize]. rewrite R. apply IH. reflexivity.
Qed.

Definition delivered (s : sys) : list byte := o_dev (snd (flush (sy_stdout s))).

Theorem C45_standard_output : forall e e2 inputs s s' seekable log n, usual e -> usual e2 ->
  12 + total_size s inputs <= INT_MAX -> handed (sy_stdout s) = [] -> o_room (sy_stdout s) = None ->
  IFF_join inputs None e s = Done (0, s') ->
  exists cat g trees w2,
    IFF_readFd None e2 (mkWorld (mkRfile (delivered s') seekable) no_out log n) = Done (Some cat, w2) /\ w_log w2 = log /\
    chunkId cat = CAT_ID /\ (forall w, IFF_check cat None e2 w = Done (true, w)) /\
    as_group cat = Some (g, trees) /\ Forall2 (accepted e s) inputs trees /\ (inputs <> [] -> common_type trees g) /\
    (forall name, sy_files s' name = sy_files s name).
Proof.
  intros e e2 inputs s s' sk log n U U2 S HD NR H. destruct (join_written e inputs None s s' U S H) as (cs & cat & s1 & F & J & SZ & T & W & CT).
  destruct (joined_WF cs cat J SZ) as [WF0 EL]. destruct T as (E1 & E2 & E3 & E4 & E5 & E6). cbn [IFF_write] in W. unfold with_streams in W.
  destruct (IFF_writeFd cat None e (mkWorld no_in (sy_stdout s1) (sy_log s1) (sy_allocs s1))) as [[b w]|u|] eqn:WR; try discriminate. injection W as -> <-.
  destruct (WF_properties _ _ _ WF0) as (TY & RP & LD).
  pose proof (C23_true_means_complete None no_apps e cat _ _ default_registry U (WF_Writable _ _ _ WF0) WR) as HC. cbn [w_out] in HC. rewrite E6, HD, (WF_emitted _ _ _ WF0) in HC. cbn [Datatypes.app] in HC.
  assert (RM : o_room (w_out w) = None).
  { destruct (write_emits _ no_apps e default_registry U cat 0 (WF_Writable _ _ _ WF0) (mkWorld no_in (sy_stdout s1) (sy_log s1) (sy_allocs s1))) as (lg & m & R & _). unfold IFF_writeFd in WR. rewrite R in WR. injection WR as _ <-. cbn [w_out].
    apply put_bytes_room. rewrite E6. exact NR. }
  assert (DV : o_dev (snd (flush (w_out w))) = encode cat) by (unfold flush; rewrite RM; exact HC).
  assert (LL : zlength (encode cat) < 2 ^ (size_t_bits e2 - 1)).
  { unfold INT_MAX, size_t_bits in *. destruct (lp64 e2); change (2 ^ (64 - 1)) with 9223372036854775808; change (2 ^ (32 - 1)) with 2147483648; lia. }
  destruct (WF_parsed e2 no_apps 0 cat WF0) as (lg & P & CV). pose proof (joined_all_good _ _ J) as G.
  destruct (readFd_complete None no_apps e2 (mkWorld (mkRfile (encode cat) sk) no_out log n) (encode cat) [] cat lg default_registry U2 no_apps_sane P) as [m E].
  - unfold rest. cbn. rewrite app_nil_r. reflexivity.
  - exact LL.
  - right; right; exact no_apps_none.
  - pose proof J as [(g & EC & V & M) GG]. exists cat, g, cs. eexists. unfold delivered. cbn [sy_stdout sy_files]. rewrite DV. split; [exact E|]. split; [cbn; rewrite (CV (no_apps_covered _ _ WF0)); reflexivity|].
    split; [subst cat; reflexivity|]. split.
    + intro w0. rewrite check_root by apply (good_top _ G). pose proof (Conforms_size _ _ _ (good_conforms _ G) (LeafData_sizes _ LD)) as CS.
      destruct (check_decides _ _ default_registry cat 0 TY RP (LeafData_sizes _ LD) ltac:(rewrite <- CS, <- (WF_encode_length _ _ _ WF0); lia) e2 w0) as [[_ X]|[X _]]; [exact X|].
      exfalso. apply X. apply (good_conforms _ G).
    + split; [subst cat; reflexivity|]. split; [exact F|]. split; [|intro name; rewrite E1; reflexivity].
      intro N. destruct CT as (g' & A & CT); [intros ->; inversion F; subst; contradiction|]. subst cat. cbn in A. injection A as <-. exact CT.
Qed.
Print Assumptions C45_standard_output.

(** With a full device, the exit status on standard output can be wrong: the
    bytes are still in the buffer when IFF_join returns 0. *)
Theorem C45_standard_output_refuted : exists s s',
  IFF_join ["a.iff"]%string None (host false) s = Done (0, s') /\ sy_log s' = [] /\ delivered s' = [].
Proof.
  exists (mkSys (fun n => if String.eqb n "a.iff" then Some (encode ex_form) else None) (fun _ => true) (fun _ => None) 16 no_in (mkWfile [] [] 4096 (Some 0%nat)) [] 0).
  eexists. split; [vm_compute; reflexivity|]. split; reflexivity.
Qed.
Print Assumptions C45_standard_output_refuted.

(** ** C46.  With an unreadable or invalid input nothing is written: iffjoin
    fails, and no file changes, nor does standard output. *)
Theorem C46_nothing_written : forall e inputs output s z s', usual e ->
  IFF_join inputs output e s = Done (z, s') ->
  (exists f, In f inputs /\ ~ exists c, accepted e s f c) ->
  z = 1 /\ (forall name, sy_files s' name = sy_files s name) /\ sy_stdout s' = sy_stdout s.
Proof.
  intros e inputs output s z s' U H (f & I & N). unfold IFF_join in H. destruct (create_cat e s U) as (s0 & C & T0). unfold bindS at 1 in H. rewrite C in H.
  unfold bindS at 1 in H. destruct (join_loop inputs (CGroup CAT_ID 4 JJJJ_ID []) e s0) as [[[cat|z1] s1]|u|] eqn:L; try discriminate;
    destruct (loop_result e U _ _ _ _ _ L) as [T1 X].
  - exfalso. destruct X as (cs & F & _). apply N. revert I. clear - F U T0. induction F as [|g c gs cs A F IH]; intro I; [destruct I|destruct I as [<-|I]; [|auto]].
    exists c. eapply accepted_frame; [exact U| |exact A]. rewrite (proj1 T0). reflexivity.
  - destruct X as [-> _]. unfold retS in H. injection H as <- <-. split; [reflexivity|].
    pose proof (untouched_trans _ _ _ T0 T1) as (E1 & _ & _ & _ & _ & E6). split; [intro; rewrite E1; reflexivity|exact E6].
Qed.
Print Assumptions C46_nothing_written.

(** Conversely, a failure has one of two reasons. *)
Theorem C46_failure_reasons : forall e inputs out s z s', usual e ->
  12 + total_size s inputs <= INT_MAX -> sy_room s out = None ->
  IFF_join inputs (Some out) e s = Done (z, s') -> z <> 0 ->
  z = 1 /\ (forall name, sy_files s' name = sy_files s name) /\
  ((exists f, In f inputs /\ ~ exists c, accepted e s f c) \/ sy_writable s out = false).
Proof.
  intros e inputs out s z s' U S NR H NZ. unfold IFF_join in H. destruct (create_cat e s U) as (s0 & C & T0). unfold bindS at 1 in H. rewrite C in H.
  unfold bindS at 1 in H. destruct (join_loop inputs (CGroup CAT_ID 4 JJJJ_ID []) e s0) as [[[cat|z1] s1]|u|] eqn:L; try discriminate;
    destruct (loop_result e U _ _ _ _ _ L) as [T1 X]; pose proof (untouched_trans _ _ _ T0 T1) as (E1 & E2 & E3 & _).
  - destruct X as (cs & F1 & AD). destruct (inputs_good e s0 inputs cs U) as [G E]; [unfold total_size, input_size in *; rewrite (proj1 T0); lia|exact F1|].
    assert (TS : total_size s0 inputs = total_size s inputs) by (unfold total_size, input_size; rewrite (proj1 T0); reflexivity).
    destruct (add_joined e U cs [] _ (mkWorld no_in no_out [] 0) empty_joined G ltac:(cbn [map sum fold_right]; lia)) as (cat' & w' & AL & J). cbn [Datatypes.app] in J.
    destruct (AD [] 0%nat) as [w2 AL2]. rewrite AL in AL2. injection AL2 as -> _.
    destruct (joined_WF cs cat J ltac:(lia)) as [W EL]. rewrite <- E3 in NR. rewrite <- E2.
    pose proof (C23_write_file_complete None no_apps cat e s1 out default_registry U W NR) as X. unfold bindS in H. cbn [IFF_write] in H.
    destruct (IFF_writeFile out cat None e s1) as [[ok s2]|u|] eqn:WR; try contradiction. unfold liftS, retS in H. destruct (IFF_free cat None); try discriminate.
    injection H as <- <-. destruct ok; [contradiction|]. destruct X as (X1 & _ & X3). split; [reflexivity|]. split; [|right; exact X1].
    unfold IFF_writeFile in WR. rewrite X1 in WR. cbn in WR. injection WR as <-. intro. cbn. rewrite E1. reflexivity.
  - destruct X as [-> (f & I & N)]. unfold retS in H. injection H as <- <-. split; [reflexivity|]. split; [intro; rewrite E1; reflexivity|]. left. exists f. split; [exact I|].
    intros [c A]. apply N. exists c. eapply accepted_frame; [exact U| |exact A]. rewrite (proj1 T0). reflexivity.
Qed.
Print Assumptions C46_failure_reasons.

(** Two files and an output that is one of them. *)
Definition two_files (second : list byte) : sys :=
  mkSys (fun n => if String.eqb n "a.iff" then Some (encode ex_form) else if String.eqb n "b.iff" then Some second else None)
    (fun _ => true) (fun _ => None) 16 no_in no_out [] 0.
Example C45_example :
  12 + total_size (two_files (encode ex_list)) ["a.iff"; "b.iff"; "a.iff"]%string <= INT_MAX /\
  (exists trees, Forall2 (accepted (host false) (two_files (encode ex_list))) ["a.iff"; "b.iff"; "a.iff"]%string trees) /\
  match IFF_join ["a.iff"; "b.iff"; "a.iff"]%string (Some "b.iff"%string) (host false) (two_files (encode ex_list)) with
  | Done (z, s') => z = 0 /\ match IFF_readFile "b.iff" None (host false) s' with
      | Done (Some c, _) => as_group c = Some (ID_of "TEST", [ex_form; ex_list; ex_form]) | _ => False end
  | _ => False end.
Proof.
  split; [vm_compute; congruence|]. split.
  - exists [ex_form; ex_list; ex_form]. repeat constructor; eexists; vm_compute; reflexivity.
  - vm_compute. split; reflexivity.
Qed.
(** A truncated second file. *)
Example C46_example : exists s', IFF_join ["a.iff"; "b.iff"]%string (Some "a.iff"%string) (host false) (two_files (firstn 20 (encode ex_list))) = Done (1, s') /\
  ~ (exists c, accepted (host false) (two_files (firstn 20 (encode ex_list))) "b.iff" c).
Proof. eexists. split; [vm_compute; reflexivity|]. intros [c [[s' H] _]]. vm_compute in H. discriminate H. Qed.

(** iffjoin has a result for all inputs without negative sizes below 2 GiB.
    ([C13_negative_sizes_refuted] shows what happens otherwise.) *)
Lemma read_file_tree : forall e s f c s', usual e -> IFF_readFile f None e s = Done (Some c, s') ->
  Typed no_apps 0 c /\ Represented c /\ LeafData c /\ encoded_size c <= input_size s f.
Proof.
  intros e s f c s' U H. unfold input_size. unfold IFF_readFile in H. destruct (sy_files s f) as [data|]; [|discriminate].
  unfold bindS, with_streams in H.
  destruct (IFF_readFd None e (mkWorld (mkRfile data true) no_out (sy_log s) (sy_allocs s))) as [[a v]|u|] eqn:R; try discriminate.
  unfold retS in H. cbn [fst] in H. injection H as -> _.
  destruct (readFd_sound None no_apps e _ c v default_registry (not_strict _ U) no_apps_sane (or_intror no_apps_none) R) as (l & t & lg & n & P & RR & _).
  unfold rest in RR. cbn in RR. destruct (proj1 (Parsed_properties e no_apps no_apps_none) _ _ _ _ P) as (RP & LD & SZ).
  split; [exact (proj1 (Parsed_Typed e no_apps) _ _ _ _ P)|]. split; [exact RP|]. split; [exact LD|]. rewrite RR, zlength_app. pose proof (zlength_nonneg _ t). lia.
Qed.

Lemma read_file_defined : forall e s f, usual e -> input_size s f <= INT_MAX -> (forall d, sy_files s f = Some d -> Benign no_apps d) ->
  exists oc s', IFF_readFile f None e s = Done (oc, s').
Proof.
  intros e s f U L B. unfold IFF_readFile, input_size in *. destruct (sy_files s f) as [data|]; [|eexists _, _; reflexivity].
  unfold bindS, with_streams. pose proof (C12_reading_terminates None e (mkWorld (mkRfile data true) no_out (sy_log s) (sy_allocs s))) as T.
  pose proof (fun u => C13_no_undefined_behaviour e (mkWorld (mkRfile data true) no_out (sy_log s) (sy_allocs s)) u U (B _ eq_refl) L) as N.
  destruct (IFF_readFd None e (mkWorld (mkRfile data true) no_out (sy_log s) (sy_allocs s))) as [[a v]|u|].
  - eexists _, _. reflexivity.
  - exfalso. apply (N u); [|reflexivity]. cbn. unfold INT_MAX, size_t_bits in *.
    destruct (lp64 e); change (2 ^ (64 - 1)) with 9223372036854775808; change (2 ^ (32 - 1)) with 2147483648; lia.
  - contradiction.
Qed.

Lemma loop_defined : forall e, usual e -> forall inputs cs0 cat s, joined cs0 cat ->
  (forall f d, In f inputs -> sy_files s f = Some d -> Benign no_apps d) ->
  12 + sum (map encoded_size cs0) + total_size s inputs <= INT_MAX ->
  exists r s', join_loop inputs cat e s = Done (r, s').
Proof.
  intros e U. induction inputs as [|f inputs IH]; intros cs0 cat s J B S; cbn [join_loop]; [eexists _, _; reflexivity|].
  unfold total_size in S. cbn [map sum fold_right] in S. change (fold_right Z.add 0) with sum in S. fold (total_size s inputs) in S.
  assert (NN : 0 <= sum (map encoded_size cs0)) by (apply sum_encoded_pos; intros x H; apply LeafData_sizes; apply good_data; apply (joined_good _ _ J x H)).
  assert (NS : forall g, 0 <= input_size s g) by (intro g; unfold input_size; destruct (sy_files s g) as [d|]; [apply zlength_nonneg|lia]).
  assert (NT : 0 <= total_size s inputs).
  { unfold total_size. clear -NS. induction inputs as [|g l IHl]; [cbn; lia|]. cbn [map sum fold_right]. change (fold_right Z.add 0) with sum. pose proof (NS g). lia. }
  pose proof (NS f). assert (FR : forall s0, liftS (IFF_free cat None) e s0 = Done (tt, s0)).
  { intro s0. unfold liftS, IFF_free. rewrite (free_typed _ _ default_registry cat 0 (good_typed _ (joined_all_good _ _ J))). reflexivity. }
  destruct (read_file_defined e s f U ltac:(lia) ltac:(intros; eapply B; [left; reflexivity|eassumption])) as (oc & s1 & R).
  destruct (readFile_frame e s s f _ _ U eq_refl R) as [T1 _]. unfold bindS. rewrite R. destruct oc as [c|]; [|rewrite FR; eexists _, _; reflexivity].
  destruct (read_file_tree e s f c s1 U R) as (T & RP & LD & SZ).
  destruct (C26_check_decides_conformance None no_apps c e (mkWorld no_in no_out (sy_log s1) (sy_allocs s1)) default_registry T RP (LeafData_sizes _ LD) ltac:(lia)) as (b & w2 & E & K).
  unfold no_streams at 1, bindS, with_streams. rewrite E. unfold retS at 1. cbn [fst]. destruct b.
  - destruct (proj1 K eq_refl) as [TL CF]. assert (G : good c) by (constructor; assumption).
    match goal with |- context [no_streams (IFF_addToCATAndUpdateContentsType cat c) e ?x] => set (s2 := x) end.
    destruct (add_joined e U [c] cs0 cat (mkWorld no_in no_out (sy_log s2) (sy_allocs s2)) J) as (cat1 & w1 & AD & J1).
    { intros x [<-|[]]. exact G. }
    { cbn [map sum fold_right]. lia. }
    cbn [add_all] in AD. unfold bind in AD.
    destruct (IFF_addToCATAndUpdateContentsType cat c e (mkWorld no_in no_out (sy_log s2) (sy_allocs s2))) as [[y w3]|u|] eqn:D; try discriminate.
    unfold ret in AD. injection AD as <- <-. unfold no_streams, bindS, with_streams. rewrite D. unfold retS. cbn [fst].
    apply (IH (cs0 ++ [c])); [exact J1| |].
    + cbn. rewrite (proj1 T1). intros g d I. apply B. right. exact I.
    + rewrite encoded_app. unfold total_size, input_size. cbn. rewrite (proj1 T1).
      change (sum (map (fun f0 => match sy_files s f0 with Some d => zlength d | None => 0 end) inputs)) with (total_size s inputs). lia.
  - rewrite FR. eexists _, _. reflexivity.
Qed.

Theorem C46_defined : forall e inputs output s, usual e -> 12 + total_size s inputs <= INT_MAX ->
  (forall f d, In f inputs -> sy_files s f = Some d -> Benign no_apps d) ->
  exists z s', IFF_join inputs output e s = Done (z, s') /\ (z = 0 \/ z = 1).
Proof.
  intros e inputs output s U S B. unfold IFF_join. destruct (create_cat e s U) as (s0 & C & T0). unfold bindS at 1. rewrite C. unfold bindS at 1.
  assert (TS : total_size s0 inputs = total_size s inputs) by (unfold total_size, input_size; rewrite (proj1 T0); reflexivity).
  destruct (loop_defined e U inputs [] _ s0 empty_joined) as (r & s1 & L); [rewrite (proj1 T0); exact B|cbn [map sum fold_right]; lia|]. rewrite L.
  destruct (loop_result e U _ _ _ _ _ L) as [T1 X]. destruct r as [cat|z].
  2:{ destruct X as [-> _]. eexists _, _. split; [reflexivity|right; reflexivity]. }
  destruct X as (cs & F1 & AD). destruct (inputs_good e s0 inputs cs U ltac:(lia) F1) as [G E].
  destruct (add_joined e U cs [] _ (mkWorld no_in no_out [] 0) empty_joined G ltac:(cbn [map sum fold_right]; lia)) as (cat' & w' & AL & J). cbn [Datatypes.app] in J.
  destruct (AD [] 0%nat) as [w2 AL2]. rewrite AL in AL2. injection AL2 as -> _.
  destruct (joined_WF cs cat J ltac:(lia)) as [W EL]. destruct (WF_properties _ _ _ W) as (T & _ & _).
  assert (WR : exists ok s2, IFF_write output cat None e s1 = Done (ok, s2)).
  { destruct output as [out|]; cbn [IFF_write].
    - unfold IFF_writeFile. destruct (sy_writable s1 out); [|eexists _, _; reflexivity]. unfold with_streams.
      destruct (write_result None no_apps e cat (mkWorld no_in (mkWfile [] [] (sy_bufsize s1) (sy_room s1 out)) (sy_log s1) (sy_allocs s1)) default_registry U W) as (lg & n & R & _).
      rewrite R. eexists _, _. reflexivity.
    - unfold with_streams. destruct (write_result None no_apps e cat (mkWorld no_in (sy_stdout s1) (sy_log s1) (sy_allocs s1)) default_registry U W) as (lg & n & R & _).
      rewrite R. eexists _, _. reflexivity. }
  destruct WR as (ok & s2 & WR). unfold bindS. rewrite WR. unfold liftS, IFF_free. rewrite (free_typed _ _ default_registry cat 0 T).
  eexists _, _. split; [reflexivity|]. destruct ok; auto.
Qed.
Print Assumptions C46_defined.

(** ** C47.  The exit status of iffpp. *)
Definition read_size (f : option string) (s : sys) : Z :=
  match f with Some n => input_size s n | None => zlength (r_rest (sy_stdin s)) end.

Lemma read_tree : forall e f s c s', usual e -> IFF_read f None e s = Done (Some c, s') ->
  Typed no_apps 0 c /\ Represented c /\ LeafData c /\ encoded_size c <= read_size f s.
Proof.
  intros e [f|] s c s' U H; [exact (read_file_tree e s f c s' U H)|]. cbn [IFF_read] in H. unfold with_streams in H.
  destruct (IFF_readFd None e (mkWorld (sy_stdin s) no_out (sy_log s) (sy_allocs s))) as [[a v]|u|] eqn:R; try discriminate. injection H as -> _.
  destruct (readFd_sound None no_apps e _ c v default_registry (not_strict _ U) no_apps_sane (or_intror no_apps_none) R) as (l & t & lg & n & P & RR & _).
  change (r_rest (sy_stdin s) = l ++ t) in RR. destruct (proj1 (Parsed_properties e no_apps no_apps_none) _ _ _ _ P) as (RP & LD & SZ).
  split; [exact (proj1 (Parsed_Typed e no_apps) _ _ _ _ P)|]. split; [exact RP|]. split; [exact LD|]. unfold read_size. rewrite RR, zlength_app. pose proof (zlength_nonneg _ t). lia.
Qed.

Theorem C47_exit_status : forall e f disable_check s oc s1, usual e -> read_size f s <= INT_MAX ->
  IFF_read f None e s = Done (oc, s1) ->
  exists z text s2, IFF_prettyPrint f disable_check e s = Done ((z, text), s2) /\ (z = 0 \/ z = 1) /\
    (z = 0 <-> exists c, oc = Some c /\ (disable_check = true \/ exists s3, no_streams (IFF_check c None) e s1 = Done (true, s3))) /\
    (forall c, z = 0 -> oc = Some c -> IFF_print c 0 None = Done text) /\ (z = 1 -> text = ""%string).
Proof.
  intros e f d s oc s1 U L R. unfold IFF_prettyPrint, bindS. rewrite R. destruct oc as [c|].
  2:{ eexists _, _, _. split; [reflexivity|]. split; [right; reflexivity|]. split; [|split; [discriminate|reflexivity]].
      split; [discriminate|]. intros (c & X & _). discriminate X. }
  destruct (read_tree e f s c s1 U R) as (T & RP & LD & SZ).
  assert (PR : exists t, IFF_print c 0 None = Done t).
  { unfold IFF_print. rewrite (printed _ default_registry c 0 0 T LD). eauto. }
  destruct PR as [t PR]. assert (FR : IFF_free c None = Done tt) by exact (free_typed _ _ default_registry c 0 T).
  assert (OK : exists b s2, (if d then retS true else no_streams (IFF_check c None)) e s1 = Done (b, s2) /\
    (b = true <-> d = true \/ exists s3, no_streams (IFF_check c None) e s1 = Done (true, s3))).
  { destruct d; [eexists _, _; split; [reflexivity|]; tauto|].
    destruct (C26_check_decides_conformance None no_apps c e (mkWorld no_in no_out (sy_log s1) (sy_allocs s1)) default_registry T RP (LeafData_sizes _ LD) ltac:(lia)) as (b & w2 & E & _).
    unfold no_streams, bindS, with_streams. rewrite E. unfold retS. cbn [fst]. eexists _, _. split; [reflexivity|].
    split; [intros ->; right; eauto|]. intros [X|[s3 X]]; [discriminate X|congruence]. }
  destruct OK as (b & s2 & E & B). rewrite E. destruct b.
  - unfold liftS. rewrite PR, FR. unfold retS. eexists _, _, _. split; [reflexivity|]. split; [left; reflexivity|]. split; [|split; [intros c0 _ [= <-]; exact PR|discriminate]].
    split; [intros _; exists c; split; [reflexivity|apply B; reflexivity]|reflexivity].
  - unfold liftS. rewrite FR. unfold retS. eexists _, _, _. split; [reflexivity|]. split; [right; reflexivity|]. split; [|split; [discriminate|reflexivity]].
    split; [discriminate|]. intros (c0 & [= <-] & X). apply B in X. discriminate X.
Qed.
Print Assumptions C47_exit_status.

Example C47_example :
  let run f d := match IFF_prettyPrint (Some f) d (host false) (two_files (encode bad_cat)) with Done ((z, t), _) => Some (z, (String.length t =? 0)%nat) | _ => None end in
  run "a.iff"%string false = Some (0, false) /\ run "b.iff"%string false = Some (1, true) /\ run "b.iff"%string true = Some (0, false) /\ run "c.iff"%string true = Some (1, true).
Proof. vm_compute. repeat split. Qed.
