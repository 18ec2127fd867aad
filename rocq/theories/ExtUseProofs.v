(** * Using trees that were read with an application's callbacks *)

From Coq Require Import ZArith List Bool String Lia.
From Coq Require Import Strings.Byte.
From Verif Require Import Machine Io Types Build Read Write Check Compare Print Iff Spec UseSpec Lemmas IoProofs RegProofs WriteProofs
  CheckProofs UseProofs Ext ExtSpec ExtReadProofs ExtFields ExtSafeProofs.
Import ListNotations.
Open Scope Z_scope.

Section Use.
  Context {U : Type}.
  Variables (rg : xregistry U) (ext : exts U) (inv : Z -> Z -> Z -> Z -> U -> Prop).
  Hypothesis RG : XRealises rg ext.
  Notation Sound := (Sound inv ext).

  Lemma expected_data : forall ft i, ~ In i group_ids ->
    xexpected ext ft i = match ext ft i with Some (cb, _) => XCall cb | None => XRAW end.
  Proof.
    intros ft i N. unfold xexpected, group_ids in *. cbn [In] in N.
    rewrite !(proj2 (Z.eqb_neq _ _)) by (intro; apply N; subst; auto). reflexivity.
  Qed.

  Lemma expected_group : forall (ft i : Z), In i [FORM_ID; CAT_ID; PROP_ID] ->
    exists h, In h [XForm; XCAT; XProp] /\ forall ft', xexpected ext ft' i = h.
  Proof. intros ft i [<-|[<-|[<-|[]]]]; [exists XForm|exists XCAT|exists XProp]; (split; [simpl; auto|intro; reflexivity]). Qed.

  Lemma Sound_PROP : forall ft ft' c, Sound ft c -> xid c = PROP_ID -> Sound ft' c.
  Proof.
    intros ft ft' c S E. inversion S as [? i l G N|? i s u cb cd G N V|? i s g subs II K|? s g props subs KP KS]; subst; cbn [xid] in E; subst;
      try (exfalso; apply G; unfold group_ids; simpl; auto; fail); constructor; assumption.
  Qed.

  (** Everything that is read is sound. *)
  Section Read.
    Variable e : env.
    Hypothesis NS : strict_c e = false.
    Hypothesis TA : AllTame inv ext.

    Theorem xread_sound : forall w x w', xreadFd rg e w = Done (Some x, w') -> Sound 0 x.
    Proof.
      intros w x w' E.
      pose proof (xreadFd_good e NS (zlength (r_rest (w_in w))) rg inv) as H. specialize (H ltac:(
        intros ft cid; rewrite RG; eexists; split; [reflexivity|]; unfold xexpected;
        destruct (cid =? FORM_ID); [exact I|]; destruct (cid =? CAT_ID); [exact I|];
        destruct (Z.eqb_spec cid LIST_ID) as [Q|]; [exact Q|]; destruct (cid =? PROP_ID); [exact I|];
        destruct (ext ft cid) as [[cb cd]|] eqn:Q; [exact (TA ft cid cb cd Q)|exact I])).
      assert (GM : forall ft h cid s c, xfind_handler rg ft cid = Done h ->
                XMade rg inv Sound ft h cid s true c -> Sound ft c).
      { intros ft h cid s c F (ID & SZ & M). rewrite RG in F. injection F as F.
        unfold xexpected in F.
        assert (GR : In cid [FORM_ID; CAT_ID; PROP_ID] -> match c with XGroup _ _ g l => forall x, In x l -> XGood rg Sound g x | _ => False end -> Sound ft c).
        { intros IC MG. destruct c as [i z d|i z g l|i z g p l|i z v]; try contradiction. cbn [xid] in ID. subst i.
          constructor; [exact IC|]. intros y Y. apply (MG y Y). }
        destruct (Z.eqb_spec cid FORM_ID) as [Q1|Q1]; [subst h; apply GR; [left; auto|exact M]|].
        destruct (Z.eqb_spec cid CAT_ID) as [Q2|Q2]; [subst h; apply GR; [right; left; auto|exact M]|].
        destruct (Z.eqb_spec cid LIST_ID) as [Q3|Q3].
        { subst h. destruct c as [i z d|i z g l|i z g p l|i z v]; try contradiction. cbn [xid] in ID. rewrite ID, Q3. destruct M as [MP ML].
          constructor; intros y Y; [destruct (MP y Y) as [[_ K] P]; auto|destruct (ML y Y) as [[_ K] _]; exact K]. }
        destruct (Z.eqb_spec cid PROP_ID) as [Q4|Q4]; [subst h; apply GR; [right; right; left; auto|exact M]|].
        assert (NG : ~ In cid group_ids) by (unfold group_ids; cbn [In]; intros [X|[X|[X|[X|[]]]]]; congruence).
        destruct (ext ft cid) as [[cb cd]|] eqn:EX; subst h.
        - destruct c as [i z d|i z g l|i z g p l|i z v]; try contradiction. cbn [xid] in ID. subst i. econstructor; eassumption.
        - destruct c as [i z d|i z g l|i z g p l|i z v]; try contradiction. cbn [xid xsize] in ID, SZ. subst i z.
          destruct (M eq_refl) as (l & -> & <-). constructor; assumption. }
      specialize (H Sound GM w eq_refl). rewrite E in H. destruct H as [_ [_ S]]. exact S.
    Qed.
  End Read.

  Section Free.
    Hypothesis TA : AllTame inv ext.
    Theorem sound_free : forall x ft, Sound ft x -> xfreeChunk rg x ft = Done tt.
    Proof.
      assert (ALL : forall l g, (forall c, In c l -> xfreeChunk rg c g = Done tt) -> xfree_all (xfreeChunk rg) l g = Done tt).
      { induction l as [|c l IH]; intros g H; [reflexivity|]. cbn [xfree_all].
        rewrite (H c (or_introl eq_refl)). cbn [obind]. apply IH. intros x I. apply H. right. exact I. }
      induction x as [i s d|i s g subs IH|i s g props subs IHp IHs|i s u] using xchunk_tree_ind; intros ft T;
        inversion T as [? ? l G N|? ? ? ? cb cd G N V|? ? ? ? ? II K|? ? ? ? ? KP KS]; subst; cbn [xfreeChunk xid]; rewrite RG; cbn [obind].
      - rewrite (expected_data ft i G), N. reflexivity.
      - destruct (expected_group ft i II) as (h & IN & EH). rewrite EH.
        assert (A : xfree_all (xfreeChunk rg) subs g = Done tt) by (apply ALL; intros c IC; apply IH; auto).
        destruct IN as [<-|[<-|[<-|[]]]]; exact A.
      - change (xexpected ext ft LIST_ID) with (@XLIST U). cbn [xfreeExtensionChunk].
        rewrite (ALL subs g) by (intros c IC; apply IHs; auto). cbn [obind]. apply ALL. intros c IC. apply IHp; [exact IC|]. apply (KP c IC).
      - rewrite (expected_data ft i G), N. cbn [xfreeExtensionChunk]. exact (t_free _ cb (TA ft i cb cd N) i s u V).
    Qed.
  End Free.

  Section Use2.
    Hypothesis US : AllUsable inv ext.

    Section Only2.
    Variable e : env.
    Hypothesis NS : strict_c e = false.
    Variable bad : ub -> Prop.
    Hypothesis BO : bad UB_signed_overflow.

    (** ** Writing *)
    Section Write.
      Hypothesis BN : small_failure e -> bad UB_null_deref.

      Lemma xwrite_all_only : forall msg l ft bp, (forall c, In c l -> Only bad e (xwriteChunk rg c ft)) ->
        Only bad e (xwrite_all (xwriteChunk rg) msg l ft bp).
      Proof.
        intros msg l ft. induction l as [|c l IH]; intros bp W; cbn [xwrite_all]; [apply Only_ret|].
        apply Only_bind; [apply W; left; reflexivity|]. intros [|]; [|onlys].
        apply Only_bind; [apply Only_lift, only_increment, BO|]. intro z. apply IH. intros; apply W; right; assumption.
      Qed.

      Lemma user_write_only : forall (cb : callbacks U) (J : Z -> Z -> U -> Prop) i s u, Usable J cb -> J i s u -> Only bad e (cb_write cb i s u 0).
      Proof. intros cb J i s u K V w. destruct (u_write J cb K i s u e w NS V) as (ok & k & w' & E). rewrite E. exact I. Qed.

      Theorem sound_write : forall x ft, Sound ft x -> Only bad e (xwriteChunk rg x ft).
      Proof.
        induction x as [i s d|i s g subs IH|i s g props subs IHp IHs|i s u] using xchunk_tree_ind; intros ft T; cbn [xwriteChunk];
          (apply Only_and; [apply (write_prim_only bad FId); exact NS|]); (apply Only_and; [apply (write_prim_only bad FLong); exact NS|]);
          unfold xwriteChunkBody; rewrite RG; apply Only_done;
          (apply Only_bind; [|intros [ok bp]; apply Only_and; [apply Only_ret|]; apply Only_and; [apply filler_only; auto|apply pad_only]]);
          inversion T as [? ? l G N|? ? ? ? cb cd G N V|? ? ? ? ? II K|? ? ? ? ? KP KS]; subst; cbn [xid].
        - rewrite (expected_data ft i G), N. cbn [xwriteExtensionChunkFields IFF_writeRawChunk].
          apply Only_ask. apply Only_bind; [apply Only_lift, block_bytes_only|].
          + cbn [data_of]. intros P L. exfalso. pose proof (zlength_nonneg _ l) as ZN.
            assert (wrap_u (size_t_bits e) (zlength l) <= zlength l)
              by (unfold wrap_u; apply Z.mod_le; [exact ZN|unfold size_t_bits; destruct (lp64 e); reflexivity]). lia.
          + intro b. apply Only_bind; [apply Only_fwrite|]. intros [|]; onlys. apply Only_undefined, BO.
        - destruct (expected_group ft i II) as (h & IN & EH). rewrite EH.
          assert (A : forall nm, Only bad e (xwriteGroup (xwriteChunk rg) (XGroup i s g subs) nm 0)).
          { intro nm. cbn [xwriteGroup]. apply Only_bind; [apply writeField_only; exact NS|]. intros [st bp].
            destruct st; try apply Only_ret. apply xwrite_all_only. intros c IC. apply IH; auto. }
          destruct IN as [<-|[<-|[<-|[]]]]; apply A.
        - change (xexpected ext ft LIST_ID) with (@XLIST U). cbn [xwriteExtensionChunkFields xwriteList].
          apply Only_bind; [apply writeField_only; exact NS|]. intros [st bp]. destruct st; try apply Only_ret.
          apply Only_bind; [apply xwrite_all_only; intros c IC; apply IHp; [exact IC|]; destruct (KP c IC) as [S P]; exact (Sound_PROP g 0 c S P)|].
          intros [[|] b2]; [|apply Only_ret]. apply xwrite_all_only. intros c IC. apply IHs; auto.
        - rewrite (expected_data ft i G), N. cbn [xwriteExtensionChunkFields]. exact (user_write_only cb _ i s u (US ft i cb cd N) V).
      Qed.
    End Write.

    (** ** Checking *)
    Lemma bare_group : forall ft c, Sound ft c -> In (xid c) group_ids -> exists g l, as_group (bare c) = Some (g, l).
    Proof.
      intros ft c T J. inversion T; subst; cbn [bare xid] in *; try contradiction; cbn; eauto.
    Qed.

    Lemma xcat_sub_only : forall ft grp g l c, as_group grp = Some (g, l) -> Sound ft c -> Only bad e (IFF_checkCATSubChunk grp (bare c)).
    Proof.
      intros ft grp g l c AG T. unfold IFF_checkCATSubChunk. rewrite AG.
      assert (EI : chunkId (bare c) = xid c) by (destruct c; reflexivity). rewrite EI.
      destruct (checkValidCATSubChunkId (xid c)) eqn:V; cbn [negb]; [|apply not_allowed_only].
      apply valid_cat_id in V. destruct (bare_group ft c T) as (g2 & l2 & A2); [unfold group_ids; simpl in *; tauto|]. rewrite A2. onlys.
    Qed.

    Lemma xcheck_subs_only : forall sub l ft acc, (forall c, In c l -> Only bad e (sub (bare c))) ->
      (forall c, In c l -> Only bad e (xcheckChunk rg c ft)) -> Only bad e (xcheck_subs (xcheckChunk rg) sub l ft acc).
    Proof.
      intros sub l ft. induction l as [|c l IH]; intros acc S W; cbn [xcheck_subs]; [apply Only_ret|].
      apply Only_bind; [apply S; left; reflexivity|]. intros []; cbn [negb]; [|apply Only_ret].
      apply Only_bind; [apply W; left; reflexivity|]. intros []; cbn [negb]; [|apply Only_ret].
      apply Only_bind; [apply Only_lift, only_increment, BO|]. intro z. apply IH; intros; [apply S|apply W]; right; assumption.
    Qed.

    Theorem sound_check : forall x ft, Sound ft x -> Only bad e (xcheckChunk rg x ft).
    Proof.
      induction x as [i s d|i s g subs IH|i s g props subs IHp IHs|i s u] using xchunk_tree_ind; intros ft T; cbn [xcheckChunk];
        (apply Only_bind; [apply checkId_only|intros []; cbn [negb]; [|apply Only_ret]]); rewrite RG; apply Only_done;
        inversion T as [? ? l G N|? ? ? ? cb cd G N V|? ? ? ? ? II K|? ? ? ? ? KP KS]; subst; cbn [xid].
      - rewrite (expected_data ft i G), N. apply Only_ret.
      - assert (GC : forall tc sc, (forall g, Only bad e (tc g)) -> (forall c, In c subs -> Only bad e (sc (bare (XGroup i s g subs)) (bare c))) ->
                  Only bad e (xcheckGroup (xcheckChunk rg) tc sc (XGroup i s g subs))).
        { intros tc sc TC SC. cbn [xcheckGroup]. apply Only_bind; [apply TC|]. intros []; cbn [negb]; [|apply Only_ret].
          apply Only_bind; [apply xcheck_subs_only; [exact SC|intros c IC; apply IH; auto]|]. intro z.
          destruct (z =? -1); [apply Only_ret|]. apply Only_bind; [apply Only_lift, only_add, BO|intro; apply groupSize_only]. }
        destruct II as [<-|[<-|[<-|[]]]]; cbn [xexpected].
        + change (xexpected ext ft FORM_ID) with (@XForm U). apply GC; [intro; apply checkFormType_only|intros; apply form_sub_only].
        + change (xexpected ext ft CAT_ID) with (@XCAT U). apply GC; [intro; apply checkId_only|].
          intros c IC. eapply xcat_sub_only; [reflexivity|apply K, IC].
        + change (xexpected ext ft PROP_ID) with (@XProp U). apply GC; [intro; apply checkFormType_only|intros; apply prop_sub_only].
      - change (xexpected ext ft LIST_ID) with (@XLIST U). cbn [xcheckExtensionChunk xcheckList].
        apply Only_bind; [apply checkId_only|]. intros []; cbn [negb]; [|apply Only_ret].
        apply Only_bind; [apply xcheck_subs_only; [intros; apply Only_ret|intros c IC; apply IHp; [exact IC|apply (KP c IC)]]|]. intro z.
        destruct (z =? -1); [apply Only_ret|]. apply Only_bind; [apply Only_lift, only_add, BO|]. intro z1.
        apply Only_bind; [apply xcheck_subs_only; [intros c IC; eapply xcat_sub_only; [reflexivity|apply KS, IC]|intros c IC; apply IHs; auto]|].
        intro z2. destruct (z2 =? -1); [apply Only_ret|]. apply Only_bind; [apply Only_lift, only_add, BO|intro; apply groupSize_only].
      - rewrite (expected_data ft i G), N. cbn [xcheckExtensionChunk]. intro w.
        destruct (u_check _ cb (US ft i cb cd N) i s u e w V) as (b & w' & E). rewrite E. exact I.
    Qed.
    End Only2.

    (** ** Printing *)
    Theorem sound_print : forall x ft level, Sound ft x -> exists t, xprintChunk rg x level ft = Done t.
    Proof.
      assert (ALL : forall op l ft level, (forall c, In c l -> forall level, exists t, xprintChunk rg c level ft = Done t) ->
                exists t, xprint_array (xprintChunk rg) op l ft level = Done t).
      { intros op l ft level K. unfold xprint_array.
        assert (A : exists t, xprint_all (xprintChunk rg) l (S level) ft = Done t).
        { induction l as [|c l IH]; cbn [xprint_all]; [eexists; reflexivity|]. destruct (K c (or_introl eq_refl) (S level)) as (t & E). rewrite E.
          destruct IH as (t2 & E2); [intros x X; apply K; right; exact X|]. cbn [obind]. rewrite E2. eexists. reflexivity. }
        destruct A as (t & E). rewrite E. eexists. reflexivity. }
      induction x as [i s d|i s g subs IH|i s g props subs IHp IHs|i s u] using xchunk_tree_ind; intros ft level T; cbn [xprintChunk xid];
        rewrite RG; cbn [obind];
        (match goal with |- exists t, obind ?o _ = _ => assert (A : exists t, o = Done t); [|destruct A as (t & E); rewrite E; eexists; reflexivity] end);
        inversion T as [? ? l G N|? ? ? ? cb cd G N V|? ? ? ? ? II K|? ? ? ? ? KP KS]; subst.
      - rewrite (expected_data ft i G), N. cbn [xprintExtensionChunk IFF_printRawChunk].
        assert (B : exists b, block_bytes (Some l) (zlength l) = Done b).
        { unfold block_bytes. destruct (zlength l <=? 0); [eexists; reflexivity|]. rewrite Z.ltb_irrefl. eexists. reflexivity. }
        destruct B as (b & B). unfold IFF_printText, IFF_printRaw. rewrite B. destruct (i =? IFF_ID_TEXT); eexists; reflexivity.
      - destruct (expected_group ft i II) as (h & IN & EH). rewrite EH.
        assert (A : forall nm, exists t, xprintGroup (xprintChunk rg) (XGroup i s g subs) level nm = Done t).
        { intro nm. cbn [xprintGroup]. destruct (ALL "["%string subs g level) as (t & E); [intros c IC lv; apply IH; auto|]. rewrite E. eexists. reflexivity. }
        destruct IN as [<-|[<-|[<-|[]]]]; apply A.
      - change (xexpected ext ft LIST_ID) with (@XLIST U). cbn [xprintExtensionChunk xprintList].
        destruct (ALL "prop = ["%string props g level) as (t & E); [intros c IC lv; apply IHp; [exact IC|apply (KP c IC)]|]. rewrite E. cbn [obind].
        destruct (ALL "["%string subs g level) as (t2 & E2); [intros c IC lv; apply IHs; auto|]. rewrite E2. eexists. reflexivity.
      - rewrite (expected_data ft i G), N. cbn [xprintExtensionChunk]. exact (u_print _ cb (US ft i cb cd N) i s u level V).
    Qed.

    (** ** Comparing *)
    Lemma xcompare_all_done : forall e l1 l2 g,
      (forall x y, In x l1 -> In y l2 -> exists b, xcompareChunk e rg x y g = Done b) ->
      exists b, xcompare_all (xcompareChunk e rg) l1 l2 g = Done b.
    Proof.
      intros e l1. induction l1 as [|x l1 IH]; intros [|y l2] g H; cbn [xcompare_all]; try (eexists; reflexivity).
      destruct (H x y (or_introl eq_refl) (or_introl eq_refl)) as ([|] & E); rewrite E; cbn [obind]; [|eexists; reflexivity].
      apply IH. intros a b A B. apply H; right; assumption.
    Qed.

    Theorem sound_compare : forall e x ft y, Sound ft x -> Sound ft y -> exists b, xcompareChunk e rg x y ft = Done b.
    Proof.
      intros e. induction x as [i s d|i s g subs IH|i s g props subs IHp IHs|i s u] using xchunk_tree_ind; intros ft y TX TY;
        cbn [xcompareChunk xid xsize];
        (match goal with |- exists b, (if ?c then _ else _) = _ => destruct c eqn:EQ; [|eexists; reflexivity] end);
        apply andb_true_iff in EQ; destruct EQ as [EI ES]; rewrite RG; cbn [obind];
        inversion TX as [? ? l G N|? ? ? ? cb cd G N V|? ? ? ? ? II K|? ? ? ? ? KP KS]; subst.
      - inversion TY as [? i2 l2 G2 N2|? i2 ? u2 cb2 cd2 G2 N2 V2|? i2 ? g2 subs2 II2 K2|? s2 g2 props2 subs2 KP2 KS2]; subst; cbn [xid xsize] in *; apply Z.eqb_eq in EI, ES; subst.
        + rewrite (expected_data ft _ G), N. cbn [xcompareExtensionChunk IFF_compareRawChunk].
          assert (B : forall b : list byte, exists r, block_bytes (Some b) (wrap_u (size_t_bits e) (zlength b)) = Done r).
          { intro b. unfold block_bytes. destruct (_ <=? 0); [eexists; reflexivity|].
            assert (wrap_u (size_t_bits e) (zlength b) <= zlength b)
              by (unfold wrap_u; apply Z.mod_le; [apply zlength_nonneg|unfold size_t_bits; destruct (lp64 e); reflexivity]).
            rewrite (proj2 (Z.ltb_ge _ _)) by assumption. eexists. reflexivity. }
          destruct (B l) as (r1 & B1). destruct (B l2) as (r2 & B2). rewrite B1. cbn [obind].
          replace (zlength l) with (zlength l2) by congruence. rewrite B2. eexists. reflexivity.
        + congruence.
        + exfalso. apply G. unfold group_ids. cbn [In] in *. tauto.
        + exfalso. apply G. unfold group_ids. simpl. auto.
      - assert (NL : i <> LIST_ID) by (intros ->; cbn [In] in II; destruct II as [X|[X|[X|[]]]]; discriminate X).
        assert (NG : In i group_ids) by (unfold group_ids; cbn [In] in *; tauto).
        inversion TY as [? i2 l2 G2 N2|? i2 ? u2 cb2 cd2 G2 N2 V2|? i2 ? g2 subs2 II2 K2|? s2 g2 props2 subs2 KP2 KS2]; subst; cbn [xid xsize] in *; apply Z.eqb_eq in EI, ES; subst; try contradiction.
        destruct (expected_group ft i2 II) as (h & IN & EH). rewrite EH.
        assert (A : forall s2, exists b, xcompareGroup (xcompareChunk e rg) (XGroup i2 s2 g subs) (XGroup i2 s2 g2 subs2) = Done b).
        { intro s2. cbn [xcompareGroup]. destruct (Z.eqb_spec g g2) as [<-|]; cbn [andb]; [|eexists; reflexivity].
          destruct (zlength subs =? zlength subs2); [|eexists; reflexivity]. apply xcompare_all_done. intros a b A B. apply IH; auto. }
        destruct IN as [<-|[<-|[<-|[]]]]; apply A.
      - inversion TY as [? i2 l2 G2 N2|? i2 ? u2 cb2 cd2 G2 N2 V2|? i2 ? g2 subs2 II2 K2|? s2 g2 props2 subs2 KP2 KS2]; subst; cbn [xid xsize] in *; apply Z.eqb_eq in EI, ES; subst;
          try (exfalso; apply G2; unfold group_ids; simpl; auto; fail);
          try (exfalso; cbn [In] in II2; destruct II2 as [X|[X|[X|[]]]]; discriminate X).
        change (xexpected ext ft LIST_ID) with (@XLIST U). cbn [xcompareExtensionChunk xcompareList].
        assert (AP : exists b, xcompare_props (xcompareChunk e rg) props props2 = Done b).
        { clear TX TY KS KS2 IHs. revert props2 KP2. induction props as [|x props IHl]; intros [|y props2] KP2; cbn [xcompare_props]; try (eexists; reflexivity).
          assert (G1 : exists b, xcompareGroup (xcompareChunk e rg) x y = Done b).
          { destruct (KP x (or_introl eq_refl)) as [SX PX]. destruct (KP2 y (or_introl eq_refl)) as [SY PY].
            assert (SH : forall gg z, Sound gg z -> xid z = PROP_ID -> exists s0 g0 l0, z = XGroup PROP_ID s0 g0 l0).
            { intros gg z SZ PZ. inversion SZ as [? i2 l2 G2 N2|? i2 z2 u2 cb2 cd2 G2 N2 V2|? i2 z2 g3 subs3 II2 K2|? z2 g3 props3 subs3 KP3 KS3]; subst; cbn [xid] in PZ; subst;
                try (exfalso; apply G2; unfold group_ids; simpl; auto; fail); try discriminate PZ; eauto. }
            destruct (SH _ _ SX PX) as (s1 & g1 & l1 & ->). destruct (SH _ _ SY PY) as (s3 & g3 & l3 & ->).
            (* comparing with a copy of the right size goes through the induction hypothesis *)
            destruct (IHp (XGroup PROP_ID s1 g1 l1) (or_introl eq_refl) 0 (XGroup PROP_ID s1 g3 l3)) as (b & E).
            - exact (Sound_PROP g 0 _ SX eq_refl).
            - inversion SY as [? i2 l2 G2 N2|? i2 z2 u2 cb2 cd2 G2 N2 V2|? i2 z2 g4 subs4 II2 K2|? z2 g4 props3 subs3 KP3 KS3]; subst. constructor; assumption.
            - cbn [xcompareChunk xid xsize] in E. rewrite !Z.eqb_refl in E. cbn [andb] in E. rewrite RG in E. cbn [obind] in E.
              change (xexpected ext 0 PROP_ID) with (@XProp U) in E. cbn [xcompareExtensionChunk] in E. exists b. exact E. }
          destruct G1 as ([|] & E); rewrite E; cbn [obind]; [|eexists; reflexivity].
          apply IHl; [intros c IC; apply IHp; right; exact IC|intros c IC; apply KP; right; exact IC|intros c IC; apply KP2; right; exact IC]. }
        destruct AP as (b1 & EP).
        assert (AB : exists b, (if zlength props =? zlength props2 then xcompare_props (xcompareChunk e rg) props props2 else Done false) = Done b)
          by (destruct (zlength props =? zlength props2); [exists b1; exact EP|eexists; reflexivity]).
        destruct AB as ([|] & EB); rewrite EB; cbn [obind]; [|eexists; reflexivity].
        destruct (Z.eqb_spec g g2) as [<-|]; cbn [andb]; [|eexists; reflexivity].
        destruct (zlength subs =? zlength subs2); [|eexists; reflexivity]. apply xcompare_all_done. intros a b A B. apply IHs; auto.
      - inversion TY as [? i2 l2 G2 N2|? i2 ? u2 cb2 cd2 G2 N2 V2|? i2 ? g2 subs2 II2 K2|? s2 g2 props2 subs2 KP2 KS2]; subst; cbn [xid xsize] in *; apply Z.eqb_eq in EI, ES; subst.
        + congruence.
        + rewrite (expected_data ft _ G), N. cbn [xcompareExtensionChunk].
          exact (u_compare _ cb (US ft _ cb cd N) _ _ u u2 V V2).
        + exfalso. apply G. unfold group_ids. cbn [In] in *. tauto.
        + exfalso. apply G. unfold group_ids. simpl. auto.
    Qed.
  End Use2.
End Use.

(** ** Field lists and colour maps *)

Lemma Only_False : forall A e (m : M A), Only (fun _ => False) e m -> forall w, exists a w', m e w = Done (a, w').
Proof. intros A e m H w. specialize (H w). destruct (m e w) as [[a w']|u|]; [eauto|contradiction|contradiction]. Qed.

Lemma fields_usable : forall spec, Usable (fun _ _ u => map fst u = map fd_kind (fs_fields spec)) (fields_callbacks spec).
Proof.
  intro spec. constructor.
  - intros i s u e w NS IV. cbn [fields_callbacks cb_write write_fields_chunk]. rewrite (proj2 (fkinds_eqb_spec _ _) IV).
    destruct (Only_False _ e _ (write_fields_only (fun _ => False) (fs_fields spec) u i s 0 e NS) w) as ([ok k] & w' & E).
    exists ok, k, w'. exact E.
  - intros i s u e w IV. cbn [fields_callbacks cb_check check_fields_chunk]. rewrite (proj2 (fkinds_eqb_spec _ _) IV).
    destruct (fs_check spec (map snd u)); eexists _, _; reflexivity.
  - intros i s u level IV. cbn [fields_callbacks cb_print print_fields_chunk]. rewrite (proj2 (fkinds_eqb_spec _ _) IV). eexists. reflexivity.
  - intros i s u v IU IV. cbn [fields_callbacks cb_compare compare_fields_chunk].
    rewrite (proj2 (fkinds_eqb_spec _ _) IU), (proj2 (fkinds_eqb_spec _ _) IV). eexists. reflexivity.
Qed.

Lemma cmap_usable : Usable (fun _ _ _ => True) cmap_callbacks.
Proof.
  constructor.
  - intros i s u e w NS _. cbn [cmap_callbacks cb_write].
    assert (W : forall l bp, Only (fun _ => False) e (write_colours l i s bp)).
    { induction l as [|[[r g] b] l IH]; intro bp; cbn [write_colours]; [apply Only_ret|].
      apply Only_bind; [apply writeField_only; exact NS|]. intros [st1 b1]. destruct st1; try apply Only_ret.
      apply Only_bind; [apply writeField_only; exact NS|]. intros [st2 b2]. destruct st2; try apply Only_ret.
      apply Only_bind; [apply writeField_only; exact NS|]. intros [st3 b3]. destruct st3; try apply Only_ret. apply IH. }
    destruct (Only_False _ e _ (W u 0) w) as ([ok k] & w' & E). exists ok, k, w'. exact E.
  - intros i s u e w _. cbn [cmap_callbacks cb_check]. destruct (zlength u <=? 256); eexists _, _; reflexivity.
  - intros. eexists. reflexivity.
  - intros. eexists. reflexivity.
Qed.
