(** * Memory with application chunk types: writing, checking, printing and
    comparing only look *)

From Coq Require Import ZArith List Bool String Lia.
From Coq Require Import Strings.Byte.
From Verif Require Import Machine Io Types Build Read Write Check Compare Print Iff Spec UseSpec Lemmas IoProofs CheckProofs UseProofs
  Ext ExtSpec Heap HeapExt HeapExtSpec HeapExtPass HeapExtProofs.
Import ListNotations.
Open Scope Z_scope.

Section Look.
  Context {V : Type}.
  Notation heap := (yheap V).

  Lemma Same_refl : forall h : heap, Same h h.
  Proof. intros h x. reflexivity. Qed.
  Lemma Same_trans : forall h h1 h2 : heap, Same h h1 -> Same h1 h2 -> Same h h2.
  Proof. intros h h1 h2 S1 S2 x. rewrite S2. apply S1. Qed.

  Variable own : Z -> Z -> heap -> addr -> list addr -> Prop.
  Variable find : yfind V.
  Hypothesis OW : Owners own find.
  Hypothesis LK : Lookers own find.
  Hypothesis GU : GroupsAsUsual find.
  Variable e : env.
  Variable h : heap.
  Variable bad : ub -> Prop.
  Notation Tree := (Tree own find True h).
  Notation Trees := (Trees own find True h).

  Definition Sees {A} (m : Y V A) : Prop := forall w h1, Same h h1 -> OnlyLooks bad h (m e w h1).

  Lemma Sees_ret : forall A (a : A), Sees (yret a).
  Proof. intros A a w h1 S. exact S. Qed.
  Lemma Sees_bind : forall A B (m : Y V A) (f : A -> Y V B), Sees m -> (forall a, Sees (f a)) -> Sees (ybind m f).
  Proof.
    intros A B m f M F w h1 S. specialize (M w h1 S). unfold ybind. destruct (m e w h1) as [[[a w2] h2]|u|]; [|exact M|exact M].
    exact (F a w2 h2 M).
  Qed.
  Lemma Sees_step : forall A B (m : Y V A) (f : A -> Y V B) a, (forall w h1, Same h h1 -> m e w h1 = Done (a, w, h1)) ->
    Sees (f a) -> Sees (ybind m f).
  Proof. intros A B m f a E F w h1 S. unfold ybind. rewrite E by exact S. exact (F w h1 S). Qed.
  Lemma Sees_io : forall A (m : M A), Only bad e m -> Sees (yio m).
  Proof. intros A m O w h1 S. specialize (O w). unfold yio. destruct (m e w) as [[a w2]|u|]; [exact S|exact O|exact O]. Qed.
  Lemma Sees_lift : forall A (o : outcome A), onlyo bad o -> Sees (ylift o).
  Proof. intros A o O. apply Sees_io, Only_lift, O. Qed.
  Lemma Sees_undefined : forall A u, bad u -> Sees (@yundefined V A u).
  Proof. intros A u B w h1 S. exact B. Qed.
  Lemma Sees_and : forall m1 m2, Sees m1 -> Sees m2 -> Sees (yandM m1 m2).
  Proof. intros m1 m2 S1 S2. apply Sees_bind; [exact S1|]. intros []; [exact S2|apply Sees_ret]. Qed.
  Lemma Sees_ask : forall B (f : env -> Y V B), Sees (f e) -> Sees (ybind (yio ask) f).
  Proof. intros B f F. apply (Sees_step _ _ _ _ e); [reflexivity|exact F]. Qed.

  Lemma Sees_chunk : forall B a hd b (f : header * ybody V -> Y V B), ylookup h a = Some (YChunk hd b) ->
    Sees (f (hd, b)) -> Sees (ybind (ychunk a) f).
  Proof.
    intros B a hd b f L F. apply (Sees_step _ _ _ _ (hd, b)); [|exact F]. intros w h1 S. apply (run_chunk e).
    rewrite (S a). exact L.
  Qed.

  Lemma Sees_elements : forall B arr la Fa (f : list addr -> Y V B), yarray_at h arr la Fa ->
    Sees (f la) -> Sees (ybind (yelements arr (List.length la)) f).
  Proof.
    intros B arr la Fa f A F. apply (Sees_step _ _ _ _ la); [|exact F]. intros w h1 S.
    apply (run_elements e h1 arr la Fa). apply (array_same h); [exact A|]. intros x _. apply S.
  Qed.

  Lemma Sees_find : forall B ft i k (f : yhandler V -> Y V B), find ft i = Done k -> Sees (f k) -> Sees (ybind (ylift (find ft i)) f).
  Proof. intros B ft i k f E F. apply (Sees_step _ _ _ _ k); [|exact F]. intros w h1 S. unfold ylift, yio, lift. rewrite E. reflexivity. Qed.

  Lemma Sees_block : forall d s l n, ylookup h d = Some (YData s (Some l)) -> n <= zlength l -> Sees (yblock_bytes (Some d) n).
  Proof.
    intros d s l n L LE. unfold yblock_bytes. destruct (n <=? 0); [apply Sees_ret|].
    apply (Sees_step _ _ _ _ (YData s (Some l))); [intros w h1 S; apply (run_load e); rewrite (S d); exact L|].
    apply Sees_lift, block_bytes_only. cbn [data_of]. lia.
  Qed.

  Lemma Sees_increment : forall z c hd b, bad UB_signed_overflow -> ylookup h c = Some (YChunk hd b) -> Sees (yincrementChunkSize z c).
  Proof.
    intros z c hd b BO L. unfold yincrementChunkSize. apply (Sees_chunk _ _ _ _ _ L). cbv beta iota zeta.
    destruct (INT_MAX <? _); [apply Sees_undefined, BO|]. destruct (c_odd _); [|apply Sees_ret].
    destruct (_ =? INT_MAX); [apply Sees_undefined, BO|apply Sees_ret].
  Qed.

  Lemma Tree_head : forall ft p a F, Tree ft p a F -> exists i s b, ylookup h a = Some (YChunk (mkHeader p i s) b).
  Proof. exact (Tree_chunk own find True h). Qed.

  (** PROPs are PROPs everywhere. *)
  Lemma Tree_PROP : forall ft ft' p a F, Tree ft p a F -> id_at h a PROP_ID -> Tree ft' p a F.
  Proof.
    intros ft ft' p a F T (hd & b & L & E). destruct (GU ft) as (_ & _ & _ & G). destruct (GU ft') as (_ & _ & _ & G').
    inversion T as [? ? ? i s d c FE La Ld WH|? ? ? i s v cb ? FE La O|? ? ? i s k g arr la Fa Fl FE KK La AR LL|
      ? ? ? i s g arr la Fa Fl parr pa Fb Fp FE La AR LL BR LP PI]; subst; rewrite L in La; injection La as -> ->; cbn [o_id] in E; subst i;
      rewrite G in FE; try discriminate.
    apply (T_group _ _ _ _ ft' p a PROP_ID s YPROP g arr la Fa Fl G'); [cbn; tauto|exact L|exact AR|exact LL].
  Qed.

  Lemma PROP_group : forall ft p a F, Tree ft p a F -> id_at h a PROP_ID -> exists s g arr la Fa Fl,
    ylookup h a = Some (YChunk (mkHeader p PROP_ID s) (YGroup g (List.length la) arr)) /\ yarray_at h arr la Fa /\
    Trees g (Some a) la Fl /\ F = a :: Fa ++ Fl.
  Proof.
    intros ft p a F T (hd & b & L & E). destruct (GU ft) as (_ & _ & _ & G).
    inversion T as [? ? ? i s d c FE La Ld WH|? ? ? i s v cb ? FE La O|? ? ? i s k g arr la Fa Fl FE KK La AR LL|
      ? ? ? i s g arr la Fa Fl parr pa Fb Fp FE La AR LL BR LP PI]; subst; rewrite L in La; injection La as -> ->; cbn [o_id] in E; subst i;
      rewrite G in FE; try discriminate. exists s, g, arr, la, Fa, Fl. auto.
  Qed.

  Lemma wrap_le : forall s, 0 <= s -> wrap_u (size_t_bits e) s <= s.
  Proof. intros s N. unfold wrap_u. apply Z.mod_le; [exact N|]. unfold size_t_bits; destruct (lp64 e); reflexivity. Qed.

  Lemma own_later : forall ft i cb a F h1, find ft i = Done (YCALL cb) -> own ft i h a F -> Same h h1 -> own ft i h1 a F.
  Proof. intros ft i cb a F h1 E O S. apply (ow_local _ _ (owner_at own find OW ft i cb E) h h1 a F O). intros x _. apply S. Qed.

  Lemma Sees_user : forall A (m : Y V A), (forall w h1, Same h h1 -> exists r w' h', m e w h1 = Done (r, w', h') /\ Same h1 h') -> Sees m.
  Proof. intros A m H w h1 S. destruct (H w h1 S) as (r & w' & h' & E & S'). rewrite E. exact (Same_trans _ _ _ S S'). Qed.

  (** ** Writing *)
  Section Write.
    Hypothesis NS : strict_c e = false.
    Hypothesis BO : bad UB_signed_overflow.
    Hypothesis BN : small_failure e -> bad UB_null_deref.

    Section All.
      Variable fuel : nat.
      Hypothesis IH : forall ft p a F, Tree ft p a F -> (List.length F <= fuel)%nat -> Sees (ywriteChunk find fuel a ft).

      Lemma sees_write_all : forall msg la g p F bp, Trees g p la F -> (List.length F <= fuel)%nat ->
        Sees (ywrite_all (ywriteChunk find fuel) msg la g bp).
      Proof.
        intros msg. induction la as [|a la IHl]; intros g p F bp T L; cbn [ywrite_all]; [apply Sees_ret|].
        inversion T as [|? ? ? ? F1 F2 T1 T2]; subst. rewrite app_length in L.
        apply Sees_bind; [apply (IH g p a F1 T1); lia|]. intros [].
        - destruct (Tree_head _ _ _ _ T1) as (i & s & b & La). apply Sees_bind; [exact (Sees_increment _ _ _ _ BO La)|].
          intro z. apply (IHl g p F2 z T2). lia.
        - apply Sees_bind; [apply Sees_io, Only_error|intros; apply Sees_ret].
      Qed.
    End All.

    Theorem sees_write : forall fuel ft p a F, Tree ft p a F -> (List.length F <= fuel)%nat -> Sees (ywriteChunk find fuel a ft).
    Proof.
      induction fuel as [|fuel IH]; intros ft p a F T L.
      - destruct F; [|cbn in L; lia]. destruct (proj2 (proj1 (Tree_live own find True OW h) _ _ _ _ T)).
      - cbn [ywriteChunk].
        assert (B : forall i s b, ylookup h a = Some (YChunk (mkHeader p i s) b) -> Sees (ywriteChunkBody (ywriteChunk find fuel) find a ft) ->
          Sees ('(hd, _) <-y ychunk a ;;
                yandM (yio (IFF_writeId (o_id hd) (o_id hd) "chunkId"))
                  (yandM (yio (IFF_writeLong (o_size hd) (o_id hd) "chunkSize"))
                     (ywriteChunkBody (ywriteChunk find fuel) find a ft)))).
        { intros i s b La S. apply (Sees_chunk _ _ _ _ _ La). cbn [o_id o_size].
          apply Sees_and; [apply Sees_io, (write_prim_only bad FId); exact NS|].
          apply Sees_and; [apply Sees_io, (write_prim_only bad FLong); exact NS|exact S]. }
        assert (K : forall i s b k, ylookup h a = Some (YChunk (mkHeader p i s) b) -> find ft i = Done k ->
          Sees (ywriteExtensionChunkFields (ywriteChunk find fuel) k a 0) -> Sees (ywriteChunkBody (ywriteChunk find fuel) find a ft)).
        { intros i s b k La E S. unfold ywriteChunkBody. apply (Sees_chunk _ _ _ _ _ La). cbn [o_id o_size].
          apply (Sees_find _ _ _ _ _ E). apply Sees_bind; [exact S|]. intros [ok bp]. apply Sees_and; [apply Sees_ret|].
          apply Sees_and; apply Sees_io; [apply filler_only; auto|apply pad_only]. }
        inversion T as [? ? ? i s d c FE La Ld WH|? ? ? i s v cb ? FE La O|? ? ? i s k g arr la Fa Fl FE KK La AR LL|
          ? ? ? i s g arr la Fa Fl parr pa Fb Fp FE La AR LL BR LP PI]; subst;
          apply (B i s _ La), (K i s _ _ La FE); clear B K; cbn [ywriteExtensionChunkFields].
        + destruct (WH I) as (l & -> & E). unfold ywriteRawChunk. apply (Sees_chunk _ _ _ _ _ La). cbv beta iota. cbn [o_size o_id].
          apply Sees_ask. apply Sees_bind.
          * apply (Sees_block _ _ _ _ Ld). rewrite E. apply wrap_le. rewrite <- E. apply zlength_nonneg.
          * intro x. apply Sees_bind; [apply Sees_io, Only_fwrite|]. intros [].
            -- destruct (INT_MAX <? _); [apply Sees_undefined, BO|apply Sees_ret].
            -- apply Sees_bind; [apply Sees_io; onlys|intros; apply Sees_ret].
        + apply Sees_user. intros w h1 S. apply (lk_write _ _ (LK _ _ _ FE) e w h1 a F NS). exact (own_later _ _ _ _ _ _ FE O S).
        + assert (W : forall nm, Sees (ywriteGroup (ywriteChunk find fuel) a nm 0)).
          { intro nm. unfold ywriteGroup. apply (Sees_chunk _ _ _ _ _ La). cbv beta iota. cbn [o_id o_size].
            apply Sees_bind; [apply Sees_io, writeField_only; exact NS|]. intros [[] bp]; try apply Sees_ret.
            apply (Sees_elements _ _ _ _ _ AR). apply (sees_write_all fuel IH _ _ _ _ _ _ LL).
            cbn [List.length] in L. rewrite app_length in L. lia. }
          destruct KK as [<-|[<-|[<-|[]]]]; apply W.
        + unfold ywriteList. apply (Sees_chunk _ _ _ _ _ La). cbv beta iota. cbn [o_id o_size].
          cbn [List.length] in L. rewrite !app_length in L.
          apply Sees_bind; [apply Sees_io, writeField_only; exact NS|]. intros [[] bp]; try apply Sees_ret.
          apply (Sees_elements _ _ _ _ _ BR). apply Sees_bind.
          * apply (sees_write_all fuel IH _ pa 0 (Some a) Fp); [|lia].
            clear - LP PI GU. revert Fp LP. induction pa as [|x pa IHp]; intros Fp LP; inversion LP as [|? ? ? ? F1 F2 T1 T2]; subst; constructor.
            -- apply (Tree_PROP g); [exact T1|]. apply PI. left. reflexivity.
            -- apply IHp; [|exact T2]. intros y I. apply PI. right. exact I.
          * intros [[] b2]; [|apply Sees_ret]. apply (Sees_elements _ _ _ _ _ AR). apply (sees_write_all fuel IH _ _ _ _ _ _ LL). lia.
    Qed.
  End Write.

  (** ** Checking *)
  Section Check.
    Hypothesis BO : bad UB_signed_overflow.

    Lemma sees_groupSize : forall a hd b z, ylookup h a = Some (YChunk hd b) -> Sees (ycheckGroupChunkSize a z).
    Proof.
      intros a hd b z L. unfold ycheckGroupChunkSize. apply (Sees_chunk _ _ _ _ _ L). cbv beta iota. destruct (_ =? _); [apply Sees_ret|].
      apply Sees_bind; [apply Sees_io; onlys|intros; apply Sees_ret].
    Qed.

    Lemma sees_form_sub : forall g a hd b, ylookup h a = Some (YChunk hd b) -> Sees (yform_subChunkCheck g a).
    Proof.
      intros g a hd b L. unfold yform_subChunkCheck. apply (Sees_chunk _ _ _ _ _ L). cbv beta iota.
      destruct (_ =? _); [apply Sees_io, not_allowed_only|apply Sees_ret].
    Qed.
    Lemma sees_prop_sub : forall g a hd b, ylookup h a = Some (YChunk hd b) -> Sees (yprop_subChunkCheck g a).
    Proof.
      intros g a hd b L. unfold yprop_subChunkCheck. apply (Sees_chunk _ _ _ _ _ L). cbv beta iota.
      destruct (_ || _); [apply Sees_io, not_allowed_only|apply Sees_ret].
    Qed.

    (** A chunk with the ID of a group is one. *)
    Lemma Tree_typed : forall ft p a F i s b, Tree ft p a F -> ylookup h a = Some (YChunk (mkHeader p i s) b) ->
      checkValidCATSubChunkId i = true -> exists g, ytype_of b = Some g.
    Proof.
      intros ft p a F i s b T L VI. apply valid_cat_id in VI. destruct (GU ft) as (G1 & G2 & G3 & _).
      inversion T as [? ? ? i' s' d c FE La Ld WH|? ? ? i' s' v cb ? FE La O|? ? ? i' s' k g arr la Fa Fl FE KK La AR LL|
        ? ? ? i' s' g arr la Fa Fl parr pa Fb Fp FE La AR LL BR LP PI]; subst; rewrite L in La; injection La as -> -> ->; try (eexists; reflexivity);
        exfalso; destruct VI as [<-|[<-|[<-|[]]]]; congruence.
    Qed.

    Lemma sees_cat_sub : forall ft p a F gr hd b g, Tree ft p a F -> ylookup h gr = Some (YChunk hd b) -> ytype_of b = Some g ->
      Sees (ycheckCATSubChunk gr a).
    Proof.
      intros ft p a F gr hd b g T L TY. destruct (Tree_head _ _ _ _ T) as (i & s & b' & La). unfold ycheckCATSubChunk.
      apply (Sees_chunk _ _ _ _ _ La). cbv beta iota. cbn [o_id].
      destruct (checkValidCATSubChunkId i) eqn:VI; cbn [negb]; [|apply Sees_io, not_allowed_only].
      apply (Sees_chunk _ _ _ _ _ L). cbv beta iota. rewrite TY. destruct (Tree_typed _ _ _ _ _ _ _ T La VI) as (g' & TY'). rewrite TY'.
      destruct (negb _); [|apply Sees_ret]. destruct (negb _); [|apply Sees_ret].
      apply Sees_bind; [apply Sees_io, Only_error|intros; apply Sees_ret].
    Qed.

    Section All.
      Variable fuel : nat.
      Hypothesis IH : forall ft p a F, Tree ft p a F -> (List.length F <= fuel)%nat -> Sees (ycheckChunk find fuel a ft).

      Lemma sees_check_subs : forall sub la g p F acc, Trees g p la F -> (List.length F <= fuel)%nat ->
        (forall a F, Tree g p a F -> Sees (sub a)) -> Sees (ycheck_subs (ycheckChunk find fuel) sub la g acc).
      Proof.
        intros sub. induction la as [|a la IHl]; intros g p F acc T L S; cbn [ycheck_subs]; [apply Sees_ret|].
        inversion T as [|? ? ? ? F1 F2 T1 T2]; subst. rewrite app_length in L.
        apply Sees_bind; [exact (S a F1 T1)|]. intros []; cbn [negb]; [|apply Sees_ret].
        apply Sees_bind; [apply (IH g p a F1 T1); lia|]. intros []; cbn [negb]; [|apply Sees_ret].
        destruct (Tree_head _ _ _ _ T1) as (i & s & b & La). apply Sees_bind; [exact (Sees_increment _ _ _ _ BO La)|].
        intro z. apply (IHl g p F2 z T2); [lia|exact S].
      Qed.
    End All.

    Theorem sees_check : forall fuel ft p a F, Tree ft p a F -> (List.length F <= fuel)%nat -> Sees (ycheckChunk find fuel a ft).
    Proof.
      induction fuel as [|fuel IH]; intros ft p a F T L.
      - destruct F; [|cbn in L; lia]. destruct (proj2 (proj1 (Tree_live own find True OW h) _ _ _ _ T)).
      - cbn [ycheckChunk].
        assert (K : forall i s b k, ylookup h a = Some (YChunk (mkHeader p i s) b) -> find ft i = Done k ->
          Sees (ycheckExtensionChunk (ycheckChunk find fuel) k a) ->
          Sees ('(hd, _) <-y ychunk a ;;
                ok <-y yio (IFF_checkId (o_id hd)) ;;
                if negb ok then yret false
                else k <-y ylift (find ft (o_id hd)) ;; ycheckExtensionChunk (ycheckChunk find fuel) k a)).
        { intros i s b k La E S. apply (Sees_chunk _ _ _ _ _ La). cbn [o_id o_size].
          apply Sees_bind; [apply Sees_io, checkId_only|]. intros []; cbn [negb]; [|apply Sees_ret].
          apply (Sees_find _ _ _ _ _ E). exact S. }
        inversion T as [? ? ? i s d c FE La Ld WH|? ? ? i s v cb ? FE La O|? ? ? i s k g arr la Fa Fl FE KK La AR LL|
          ? ? ? i s g arr la Fa Fl parr pa Fb Fp FE La AR LL BR LP PI]; subst;
          apply (K i s _ _ La FE); clear K; cbn [ycheckExtensionChunk].
        + apply Sees_ret.
        + apply Sees_user. intros w h1 S. apply (lk_check _ _ (LK _ _ _ FE) e w h1 a F). exact (own_later _ _ _ _ _ _ FE O S).
        + assert (C : forall tc sc, (forall z, Only bad e (tc z)) -> (forall x Fx, Tree g (Some a) x Fx -> Sees (sc a x)) ->
            Sees (ycheckGroup (ycheckChunk find fuel) tc sc a)).
          { intros tc sc TC SC. unfold ycheckGroup. apply (Sees_chunk _ _ _ _ _ La). cbv beta iota.
            apply Sees_bind; [apply Sees_io, TC|]. intros []; cbn [negb]; [|apply Sees_ret]. apply (Sees_elements _ _ _ _ _ AR).
            cbn [List.length] in L. rewrite app_length in L.
            apply Sees_bind; [apply (sees_check_subs fuel IH _ _ _ _ _ _ LL); [lia|exact SC]|]. intro z.
            destruct (z =? -1); [apply Sees_ret|]. apply Sees_bind; [apply Sees_lift, only_add, BO|]. intro. exact (sees_groupSize _ _ _ _ La). }
          destruct KK as [<-|[<-|[<-|[]]]]; apply C;
            try (intro; apply checkFormType_only); try (intro; apply checkId_only);
            intros x Fx TX; destruct (Tree_head _ _ _ _ TX) as (i' & s' & b' & Lx).
          * exact (sees_form_sub _ _ _ _ Lx).
          * exact (sees_cat_sub _ _ _ _ _ _ _ _ TX La eq_refl).
          * exact (sees_prop_sub _ _ _ _ Lx).
        + unfold ycheckList. apply (Sees_chunk _ _ _ _ _ La). cbv beta iota. cbn [List.length] in L. rewrite !app_length in L.
          apply Sees_bind; [apply Sees_io, checkId_only|]. intros []; cbn [negb]; [|apply Sees_ret].
          apply (Sees_elements _ _ _ _ _ BR).
          apply Sees_bind; [apply (sees_check_subs fuel IH _ _ _ _ _ _ LP); [lia|intros; apply Sees_ret]|]. intro z.
          destruct (z =? -1); [apply Sees_ret|]. apply Sees_bind; [apply Sees_lift, only_add, BO|]. intro z1.
          apply (Sees_elements _ _ _ _ _ AR).
          apply Sees_bind; [apply (sees_check_subs fuel IH _ _ _ _ _ _ LL); [lia|]|].
          { intros x Fx TX. exact (sees_cat_sub _ _ _ _ _ _ _ _ TX La eq_refl). }
          intro z2. destruct (z2 =? -1); [apply Sees_ret|]. apply Sees_bind; [apply Sees_lift, only_add, BO|].
          intro. exact (sees_groupSize _ _ _ _ La).
    Qed.
  End Check.

  (** ** Printing *)
  Section PrintAll.
    Variable fuel : nat.
    Hypothesis IH : forall ft p a F level, Tree ft p a F -> (List.length F <= fuel)%nat -> Sees (yprintChunk find fuel a level ft).

    Lemma sees_print_array : forall op arr la Fa g p F level, Trees g p la F -> yarray_at h arr la Fa -> (List.length F <= fuel)%nat ->
      Sees (yprint_array (yprintChunk find fuel) op arr (List.length la) g level).
    Proof.
      intros op arr la Fa g p F level T AR L. unfold yprint_array. apply (Sees_elements _ _ _ _ _ AR).
      apply Sees_bind; [|intro; apply Sees_ret]. clear AR. revert F T L.
      induction la as [|a la IHl]; intros F T L; cbn [yprint_all]; [apply Sees_ret|].
      inversion T as [|? ? ? ? F1 F2 T1 T2]; subst. rewrite app_length in L.
      apply Sees_bind; [apply (IH g p a F1 _ T1); lia|]. intro t. apply Sees_bind; [apply (IHl F2 T2); lia|]. intro. apply Sees_ret.
    Qed.
  End PrintAll.

  Theorem sees_print : forall fuel ft p a F level, Tree ft p a F -> (List.length F <= fuel)%nat -> Sees (yprintChunk find fuel a level ft).
  Proof.
    induction fuel as [|fuel IH]; intros ft p a F level T L.
    - destruct F; [|cbn in L; lia]. destruct (proj2 (proj1 (Tree_live own find True OW h) _ _ _ _ T)).
    - cbn [yprintChunk].
      inversion T as [? ? ? i s d c FE La Ld WH|? ? ? i s v cb ? FE La O|? ? ? i s k g arr la Fa Fl FE KK La AR LL|
        ? ? ? i s g arr la Fa Fl parr pa Fb Fp FE La AR LL BR LP PI]; subst;
        apply (Sees_chunk _ _ _ _ _ La); cbn [o_id o_size]; apply (Sees_find _ _ _ _ _ FE);
        (apply Sees_bind; [|intro; apply Sees_ret]); cbn [yprintExtensionChunk].
      + destruct (WH I) as (l & -> & E). unfold yprintRawChunk. apply (Sees_chunk _ _ _ _ _ La). cbv beta iota. cbn [o_size].
        apply Sees_bind; [apply (Sees_block _ _ _ _ Ld); lia|]. intro. apply Sees_ret.
      + apply Sees_user. intros w h1 S. apply (lk_print _ _ (LK _ _ _ FE) e w h1 a F). exact (own_later _ _ _ _ _ _ FE O S).
      + cbn [List.length] in L. rewrite app_length in L.
        assert (W : forall nm, Sees (yprintGroup (yprintChunk find fuel) a level nm)).
        { intro nm. unfold yprintGroup. apply (Sees_chunk _ _ _ _ _ La). cbv beta iota.
          apply Sees_bind; [apply (sees_print_array fuel IH _ _ _ _ _ _ _ _ LL AR); lia|]. intro. apply Sees_ret. }
        destruct KK as [<-|[<-|[<-|[]]]]; apply W.
      + cbn [List.length] in L. rewrite !app_length in L. unfold yprintList. apply (Sees_chunk _ _ _ _ _ La). cbv beta iota.
        apply Sees_bind; [apply (sees_print_array fuel IH _ _ _ _ _ _ _ _ LP BR); lia|]. intro.
        apply Sees_bind; [apply (sees_print_array fuel IH _ _ _ _ _ _ _ _ LL AR); lia|]. intro. apply Sees_ret.
  Qed.

  (** ** Comparing *)
  Section CompareAll.
    Variable fuel : nat.
    Hypothesis IH : forall ft p q a b F G, Tree ft p a F -> Tree ft q b G -> (List.length F <= fuel)%nat -> Sees (ycompareChunk find fuel a b ft).

    Lemma sees_members : forall g1 arr1 la1 Fa1 F1 p1 g2 arr2 la2 Fa2 F2 p2,
      yarray_at h arr1 la1 Fa1 -> Trees g1 p1 la1 F1 -> yarray_at h arr2 la2 Fa2 -> Trees g2 p2 la2 F2 -> (List.length F1 <= fuel)%nat ->
      Sees (ycompare_members (ycompareChunk find fuel) g1 (List.length la1) arr1 g2 (List.length la2) arr2).
    Proof.
      intros g1 arr1 la1 Fa1 F1 p1 g2 arr2 la2 Fa2 F2 p2 A1 T1 A2 T2 L. unfold ycompare_members.
      destruct (Z.eqb_spec g1 g2) as [<-|]; cbn [andb]; [|apply Sees_ret]. destruct (Nat.eqb _ _); [|apply Sees_ret].
      apply (Sees_elements _ _ _ _ _ A1). apply (Sees_elements _ _ _ _ _ A2). clear A1 A2. revert F1 T1 L la2 F2 T2.
      induction la1 as [|a la1 IHl]; intros F1 T1 L la2 F2 T2; [destruct la2; apply Sees_ret|].
      destruct la2 as [|b la2]; [apply Sees_ret|]. inversion T1 as [|? ? ? ? X1 X2 TA TL]; subst. inversion T2 as [|? ? ? ? Y1 Y2 TB TM]; subst.
      rewrite app_length in L. cbn [ycompare_all]. apply Sees_bind; [apply (IH g1 p1 p2 a b X1 Y1 TA TB); lia|].
      intros []; [|apply Sees_ret]. apply (IHl X2 TL ltac:(lia) la2 Y2 TM).
    Qed.

    Lemma sees_props : forall g1 p1 la1 F1 g2 p2 la2 F2, Trees g1 p1 la1 F1 -> Trees g2 p2 la2 F2 -> (List.length F1 <= fuel)%nat ->
      (forall x, In x la1 -> id_at h x PROP_ID) -> (forall x, In x la2 -> id_at h x PROP_ID) ->
      Sees (ycompare_props (ycompareChunk find fuel) la1 la2).
    Proof.
      intros g1 p1 la1. induction la1 as [|a la1 IHl]; intros F1 g2 p2 la2 F2 T1 T2 L P1 P2; [destruct la2; apply Sees_ret|].
      destruct la2 as [|b la2]; [apply Sees_ret|]. inversion T1 as [|? ? ? ? X1 X2 TA TL]; subst. inversion T2 as [|? ? ? ? Y1 Y2 TB TM]; subst.
      rewrite app_length in L. cbn [ycompare_props].
      destruct (PROP_group _ _ _ _ TA (P1 a (or_introl eq_refl))) as (s & g & arr & l & Fa & Fl & La & AR & TT & ->).
      destruct (PROP_group _ _ _ _ TB (P2 b (or_introl eq_refl))) as (s' & g' & arr' & l' & Fa' & Fl' & Lb & AR' & TT' & ->).
      apply Sees_bind.
      - unfold ycompareGroup. apply (Sees_chunk _ _ _ _ _ La). cbv beta iota. apply (Sees_chunk _ _ _ _ _ Lb). cbv beta iota.
        apply (sees_members _ _ _ _ _ _ _ _ _ _ _ _ AR TT AR' TT'). cbn [List.length] in L. rewrite app_length in L. lia.
      - intros []; [|apply Sees_ret]. apply (IHl X2 g2 p2 la2 Y2 TL TM); [lia| |]; intros x I; [apply P1|apply P2]; right; exact I.
    Qed.
  End CompareAll.

  Theorem sees_compare : forall fuel ft p q a b F G, Tree ft p a F -> Tree ft q b G -> (List.length F <= fuel)%nat ->
    Sees (ycompareChunk find fuel a b ft).
  Proof.
    induction fuel as [|fuel IH]; intros ft p q a b F G T U L.
    - destruct F; [|cbn in L; lia]. destruct (proj2 (proj1 (Tree_live own find True OW h) _ _ _ _ T)).
    - cbn [ycompareChunk].
      destruct (Tree_head _ _ _ _ U) as (i2 & s2 & b2 & Lb).
      inversion T as [? ? ? i s d c FE La Ld WH|? ? ? i s v cb ? FE La O|? ? ? i s k g arr la Fa Fl FE KK La AR LL|
        ? ? ? i s g arr la Fa Fl parr pa Fb Fp FE La AR LL BR LP PI]; subst;
        apply (Sees_chunk _ _ _ _ _ La); cbv beta iota; apply (Sees_chunk _ _ _ _ _ Lb); cbv beta iota; cbn [o_id o_size];
        (destruct (Z.eqb_spec i i2) as [<-|]; cbn [andb]; [|apply Sees_ret]);
        (destruct (Z.eqb_spec s s2) as [<-|]; cbn [andb]; [|apply Sees_ret]);
        apply (Sees_find _ _ _ _ _ FE);
        inversion U as [? ? ? i' s' d' c' FE' La' Ld' WH'|? ? ? i' s' v' cb' ? FE' La' O'|? ? ? i' s' k' g' arr' la' Fa' Fl' FE' KK' La' AR' LL'|
          ? ? ? i' s' g' arr' la' Fa' Fl' parr' pa' Fb' Fp' FE' La' AR' LL' BR' LP' PI']; subst;
        pose proof La' as La2; rewrite Lb in La'; injection La' as <- <- ->; rewrite FE in FE'; try discriminate FE'; try (injection FE'; intros; subst);
        try (exfalso; cbn in KK'; clear - KK'; intuition discriminate); try (exfalso; cbn in KK; clear - KK; intuition discriminate);
        cbn [ycompareExtensionChunk].
      + destruct (WH I) as (l & -> & E). destruct (WH' I) as (l' & -> & E'). unfold ycompareRawChunk.
        apply (Sees_chunk _ _ _ _ _ La); cbv beta iota; apply (Sees_chunk _ _ _ _ _ Lb); cbv beta iota zeta. cbn [o_size]. apply Sees_ask.
        assert (W : wrap_u (size_t_bits e) s <= s) by (apply wrap_le; rewrite <- E; apply zlength_nonneg).
        apply Sees_bind; [apply (Sees_block _ _ _ _ Ld); lia|]. intro x. apply Sees_bind; [apply (Sees_block _ _ _ _ Ld'); lia|]. intro. apply Sees_ret.
      + apply Sees_user. intros w h1 S. apply (lk_compare _ _ (LK _ _ _ FE) e w h1 a F b G).
        * exact (own_later _ _ _ _ _ _ FE O S).
        * exact (own_later _ _ _ _ _ _ FE O' S).
      + cbn [List.length] in L. rewrite app_length in L.
        assert (W : Sees (ycompareGroup (ycompareChunk find fuel) a b)).
        { unfold ycompareGroup. apply (Sees_chunk _ _ _ _ _ La); cbv beta iota; apply (Sees_chunk _ _ _ _ _ Lb); cbv beta iota.
          apply (sees_members fuel IH _ _ _ _ _ _ _ _ _ _ _ _ AR LL AR' LL'). lia. }
        destruct KK as [<-|[<-|[<-|[]]]]; exact W.
      + cbn [List.length] in L. rewrite !app_length in L. unfold ycompareList.
        apply (Sees_chunk _ _ _ _ _ La); cbv beta iota; apply (Sees_chunk _ _ _ _ _ Lb); cbv beta iota.
        apply Sees_bind.
        * destruct (Nat.eqb _ _); [|apply Sees_ret]. apply (Sees_elements _ _ _ _ _ BR). apply (Sees_elements _ _ _ _ _ BR').
          apply (sees_props fuel IH _ _ _ _ _ _ _ _ LP LP'); [lia|exact PI|exact PI'].
        * intros []; [|apply Sees_ret]. apply (sees_members fuel IH _ _ _ _ _ _ _ _ _ _ _ _ AR LL AR' LL'). lia.
  Qed.
End Look.
