(** * Trees of values in memory: what they consist of, and freeing them *)

From Coq Require Import ZArith List Bool String Lia.
From Coq Require Import Strings.Byte.
From Verif Require Import Machine Io Types Build Read Spec Lemmas IoProofs HeapProofs TermProofs
  Ext ExtSpec ExtReadProofs ExtSafeProofs Heap HeapExt HeapExtSpec HeapExtProofs HeapViewSpec.
Import ListNotations.
Open Scope Z_scope.

Scheme Shows_mut := Minimality for Shows Sort Prop
  with ShowsAll_mut := Minimality for ShowsAll Sort Prop.
Combined Scheme Shows_ShowsAll_ind from Shows_mut, ShowsAll_mut.

Section Trees.
  Context {U V : Type}.
  Notation heap := (yheap V).
  Variable rep : Z -> Z -> heap -> addr -> list addr -> U -> Prop.
  Variable rg : xregistry U.
  Variable find : yfind V.
  Hypothesis RG : Registered rep rg find.
  Notation Shows := (Shows rep find).
  Notation ShowsAll := (ShowsAll rep find).

  Lemma refines_at : forall ft i yc, find ft i = Done (YCALL yc) ->
    exists cb, xfind_handler rg ft i = Done (XCall cb) /\ Refines (rep ft i) cb yc.
  Proof.
    intros ft i yc E. destruct (RG ft i) as (x & y & EX & EY & K). rewrite E in EY. injection EY as <-.
    destruct x; try contradiction. exists cb. auto.
  Qed.

  Lemma Shows_live : forall h,
    (forall c ft p a F, Shows h c ft p a F -> live h F /\ In a F) /\
    (forall l g p la F, ShowsAll h l g p la F -> live h F).
  Proof.
    intro h. apply Shows_ShowsAll_ind.
    - intros ft p a i s d c E La Ld. split; [|left; reflexivity]. intros x [<-|[<-|[]]]; congruence.
    - intros ft p a i s v yc u F E La O. destruct (refines_at _ _ _ E) as (cb & _ & RF).
      destruct (rf_struct _ _ _ RF _ _ _ _ O) as (_ & I & L & _). split; [exact L|exact I].
    - intros ft p a i s k g arr la l Fa Fl E K La AR _ LL. split; [|left; reflexivity].
      intros x [<-|I]; [congruence|]. apply in_app_iff in I. destruct I as [I|I]; [exact (array_live _ _ _ _ AR x I)|exact (LL x I)].
    - intros ft p a i s g arr la l Fa Fl parr pa pl Fb Fp E La AR _ LL BR _ LP PI. split; [|left; reflexivity].
      intros x [<-|I]; [congruence|]. rewrite !in_app_iff in I.
      destruct I as [I|[I|[I|I]]]; [exact (array_live _ _ _ _ AR x I)|exact (LL x I)|exact (array_live _ _ _ _ BR x I)|exact (LP x I)].
    - intros g p x [].
    - intros c l g p a la F1 F2 _ [L1 _] _ L2 x I. apply in_app_iff in I. destruct I as [I|I]; [exact (L1 x I)|exact (L2 x I)].
  Qed.

  Lemma Shows_same : forall h h',
    (forall c ft p a F, Shows h c ft p a F -> (forall x, In x F -> ylookup h' x = ylookup h x) -> Shows h' c ft p a F) /\
    (forall l g p la F, ShowsAll h l g p la F -> (forall x, In x F -> ylookup h' x = ylookup h x) -> ShowsAll h' l g p la F).
  Proof.
    intros h h'. apply Shows_ShowsAll_ind.
    - intros ft p a i s d c E La Ld K. apply (S_raw _ _ _ ft p a i s d c E); rewrite K by (cbn; tauto); assumption.
    - intros ft p a i s v yc u F E La O K. destruct (refines_at _ _ _ E) as (cb & _ & RF).
      destruct (rf_struct _ _ _ RF _ _ _ _ O) as (_ & I & _ & _).
      apply (S_user _ _ _ ft p a i s v yc u F E); [rewrite (K a I); exact La|].
      exact (rf_local _ _ _ RF h h' a F u O K).
    - intros ft p a i s k g arr la l Fa Fl E KK La AR _ LL K.
      apply (S_group _ _ _ ft p a i s k g arr la l Fa Fl E KK); [rewrite K by (left; reflexivity); exact La| |].
      + apply (array_same h); [exact AR|]. intros x I. apply K. right. apply in_or_app. tauto.
      + apply LL. intros x I. apply K. right. apply in_or_app. tauto.
    - intros ft p a i s g arr la l Fa Fl parr pa pl Fb Fp E La AR _ LL BR TP LP PI K.
      apply (S_list _ _ _ ft p a i s g arr la l Fa Fl parr pa pl Fb Fp E); [rewrite K by (left; reflexivity); exact La|..].
      + apply (array_same h); [exact AR|]. intros x I. apply K. right. rewrite !in_app_iff. tauto.
      + apply LL. intros x I. apply K. right. rewrite !in_app_iff. tauto.
      + apply (array_same h); [exact BR|]. intros x I. apply K. right. rewrite !in_app_iff. tauto.
      + apply LP. intros x I. apply K. right. rewrite !in_app_iff. tauto.
      + exact PI.
    - intros g p _. constructor.
    - intros c l g p a la F1 F2 _ I1 _ I2 K. constructor.
      + apply I1. intros x I. apply K. apply in_or_app. tauto.
      + apply I2. intros x I. apply K. apply in_or_app. tauto.
  Qed.

  Lemma ShowsAll_same : forall h h' l g p la F, ShowsAll h l g p la F ->
    (forall x, In x F -> ylookup h' x = ylookup h x) -> ShowsAll h' l g p la F.
  Proof. intros h h'. exact (proj2 (Shows_same h h')). Qed.

  Lemma ShowsAll_length : forall h l g p la F, ShowsAll h l g p la F -> List.length la = List.length l.
  Proof. intros h l g p la F T. induction T; cbn; congruence. Qed.

  Lemma ShowsAll_snoc : forall h l g p la F c a F1, ShowsAll h l g p la F -> Shows h c g p a F1 ->
    ShowsAll h (l ++ [c]) g p (la ++ [a]) (F ++ F1).
  Proof.
    intros h l g p. induction l as [|b l IH]; intros la F c a F1 T T1; inversion T as [|? ? ? ? ? ? G1 G2 TB TL]; subst; cbn [app].
    - rewrite <- (app_nil_r F1). constructor; [exact T1|constructor].
    - rewrite <- app_assoc. constructor; [exact TB|]. apply IH; assumption.
  Qed.

  Lemma Shows_chunk : forall h c ft p a F, Shows h c ft p a F ->
    exists b, ylookup h a = Some (YChunk (mkHeader p (xid c) (xsize c)) b).
  Proof. intros h c ft p a F T. inversion T; subst; cbn [xid xsize]; eauto. Qed.

  (** Another parent pointer *)
  Lemma Shows_parent : forall h c ft p a F hd b q, Shows h c ft p a F -> NoDup F ->
    ylookup h a = Some (YChunk hd b) -> Shows (ystore h a (YChunk (set_parent hd q) b)) c ft q a F.
  Proof.
    intros h c ft p a F hd b q T N E.
    assert (LV : ylookup h a <> None) by congruence.
    assert (K : forall x, x <> a -> ylookup (ystore h a (YChunk (set_parent hd q) b)) x = ylookup h x).
    { intros x X. rewrite ylookup_store by exact LV. destruct (Nat.eqb_spec x a) as [->|_]; [congruence|reflexivity]. }
    assert (KA : ylookup (ystore h a (YChunk (set_parent hd q) b)) a = Some (YChunk (set_parent hd q) b)).
    { rewrite ylookup_store by exact LV. rewrite Nat.eqb_refl. reflexivity. }
    inversion T as [? ? ? i s d dc FE La Ld|? ? ? i s v yc u ? FE La O|? ? ? i s k g arr la l Fa Fl FE KK La AR LL|
      ? ? ? i s g arr la l Fa Fl parr pa pl Fb Fp FE La AR LL BR LP PI]; subst; rewrite E in La; injection La as -> ->;
      cbn [set_parent o_id o_size] in *.
    - apply (S_raw _ _ _ ft q a i s d dc FE KA). rewrite K; [exact Ld|]. intros ->. rewrite E in Ld. discriminate.
    - apply (S_user _ _ _ ft q a i s v yc u F FE KA). destruct (refines_at _ _ _ FE) as (cb & _ & RF).
      exact (rf_parent _ _ _ RF h a F u (mkHeader p i s) v q O E).
    - apply NoDup_cons_iff in N. destruct N as [NA N].
      assert (KX : forall x, In x (Fa ++ Fl) -> ylookup (ystore h a (YChunk (mkHeader q i s) (YGroup g (List.length la) arr))) x = ylookup h x)
        by (intros x I; apply K; intros ->; tauto).
      apply (S_group _ _ _ ft q a i s k g arr la l Fa Fl FE KK KA).
      + apply (array_same h); [exact AR|]. intros x I. apply KX, in_or_app. tauto.
      + apply (ShowsAll_same h); [exact LL|]. intros x I. apply KX, in_or_app. tauto.
    - apply NoDup_cons_iff in N. destruct N as [NA N].
      assert (KX : forall x, In x (Fa ++ Fl ++ Fb ++ Fp) ->
        ylookup (ystore h a (YChunk (mkHeader q i s) (YList g (List.length la) arr (List.length pa) parr))) x = ylookup h x)
        by (intros x I; apply K; intros ->; tauto).
      apply (S_list _ _ _ ft q a i s g arr la l Fa Fl parr pa pl Fb Fp FE KA).
      + apply (array_same h); [exact AR|]. intros x I. apply KX. rewrite !in_app_iff. tauto.
      + apply (ShowsAll_same h); [exact LL|]. intros x I. apply KX. rewrite !in_app_iff. tauto.
      + apply (array_same h); [exact BR|]. intros x I. apply KX. rewrite !in_app_iff. tauto.
      + apply (ShowsAll_same h); [exact LP|]. intros x I. apply KX. rewrite !in_app_iff. tauto.
      + exact PI.
  Qed.

  (** ** Freeing values does nothing undefined *)

  Lemma xfree_all_done : forall h l g p la F, ShowsAll h l g p la F ->
    (forall c, In c l -> forall ft p a F, Shows h c ft p a F -> xfreeChunk rg c ft = Done tt) ->
    xfree_all (xfreeChunk rg) l g = Done tt.
  Proof.
    intros h l. induction l as [|c l IH]; intros g p la F T H; cbn [xfree_all]; [reflexivity|].
    inversion T as [|? ? ? ? ? ? F1 F2 T1 T2]; subst. rewrite (H c (or_introl eq_refl) _ _ _ _ T1). cbn [obind].
    apply (IH _ _ _ _ T2). intros c' I. apply H. right. exact I.
  Qed.

  Lemma handler_x : forall ft i y, find ft i = Done y -> exists x, xfind_handler rg ft i = Done x /\
    match y, x with
    | YFORM, XForm | YCAT, XCAT | YPROP, XProp | YRAW, XRAW => True
    | YLIST, XLIST => i = LIST_ID
    | YCALL yc, XCall cb => Refines (rep ft i) cb yc
    | _, _ => False
    end.
  Proof.
    intros ft i y E. destruct (RG ft i) as (x & y' & EX & EY & K). rewrite E in EY. injection EY as <-.
    exists x. split; [exact EX|]. destruct y, x; tauto.
  Qed.

  Lemma xfree_done : forall h,
    (forall c ft p a F, Shows h c ft p a F -> xfreeChunk rg c ft = Done tt) /\
    (forall l g p la F, ShowsAll h l g p la F -> xfree_all (xfreeChunk rg) l g = Done tt).
  Proof.
    intro h. apply Shows_ShowsAll_ind.
    - intros ft p a i s d c E La Ld. destruct (handler_x _ _ _ E) as (x & EX & K). destruct x; try contradiction.
      cbn [xfreeChunk xid]. rewrite EX. reflexivity.
    - intros ft p a i s v yc u F E La O. destruct (handler_x _ _ _ E) as (x & EX & RF). destruct x; try contradiction.
      cbn [xfreeChunk xid]. rewrite EX. cbn [obind xfreeExtensionChunk].
      apply (rf_free _ _ _ RF (mkEnv false true true false (fun _ _ => true) 0 (fun _ => 0%nat)) (mkWorld (mkRfile [] true) (mkWfile [] [] 0 None) [] 0%nat) h a F u i s O).
    - intros ft p a i s k g arr la l Fa Fl E KK La AR _ LL. destruct (handler_x _ _ _ E) as (x & EX & K).
      cbn [xfreeChunk xid]. rewrite EX. destruct KK as [<-|[<-|[<-|[]]]]; destruct x; try contradiction; exact LL.
    - intros ft p a i s g arr la l Fa Fl parr pa pl Fb Fp E La AR _ LL BR _ LP PI. destruct (handler_x _ _ _ E) as (x & EX & K).
      cbn [xfreeChunk xid]. rewrite EX. destruct x; try contradiction. cbn [obind xfreeExtensionChunk]. rewrite LL. exact LP.
    - reflexivity.
    - intros c l g p a la F1 F2 _ H1 _ H2. cbn [xfree_all]. rewrite H1. exact H2.
  Qed.
  (** ** Freeing the memory *)

  Variable e : env.

  (** [m] comes to an end, as [Q] says, without input, output or allocations *)
  Definition Quiet {A} (m : Y V A) (h : heap) (Q : A -> heap -> Prop) : Prop := forall w,
    exists a h', m e w h = Done (a, w, h') /\ Q a h'.

  Lemma Quiet_ret : forall A (a : A) h (Q : A -> heap -> Prop), Q a h -> Quiet (yret a) h Q.
  Proof. intros A a h Q H w. exists a, h. split; [reflexivity|exact H]. Qed.

  Lemma Quiet_bind : forall A B (m : Y V A) (f : A -> Y V B) h P Q, Quiet m h P ->
    (forall a h', P a h' -> Quiet (f a) h' Q) -> Quiet (ybind m f) h Q.
  Proof.
    intros A B m f h P Q H F w. destruct (H w) as (a & h1 & E & PA). destruct (F a h1 PA w) as (b & h2 & E2 & QB).
    exists b, h2. unfold ybind. rewrite E. split; [exact E2|exact QB].
  Qed.

  (** A step whose outcome is known *)
  Lemma Quiet_step : forall A B (m : Y V A) (f : A -> Y V B) h a h' Q, (forall w, m e w h = Done (a, w, h')) ->
    Quiet (f a) h' Q -> Quiet (ybind m f) h Q.
  Proof.
    intros A B m f h a h' Q E F. apply (Quiet_bind _ _ m f h (fun x y => x = a /\ y = h')).
    - intro w. exists a, h'. split; [apply E|auto].
    - intros x y [-> ->]. exact F.
  Qed.

  Lemma quiet_array : forall (h : heap) p l F, yarray_at h p l F -> Quiet (yfree p) h (fun _ h' => Turns h F h' []).
  Proof.
    intros h p l F [(-> & -> & ->)|(d & -> & E & ->)].
    - apply Quiet_ret, Turns_refl. intros x [].
    - intro w. exists tt, (yrelease h d). split; [apply run_free; congruence|apply Turns_release].
  Qed.

  Section FreeAll.
    Variable fuel : nat.
    Hypothesis IH : forall c ft p a F h, Shows h c ft p a F -> NoDup F -> (List.length F <= fuel)%nat ->
      Quiet (yfreeChunk find fuel a ft) h (fun _ h' => Turns h F h' []).

    Lemma quiet_trees : forall l la g p F h, ShowsAll h l g p la F -> NoDup F -> (List.length F <= fuel)%nat ->
      Quiet (yfree_all (yfreeChunk find fuel) la g) h (fun _ h' => Turns h F h' []).
    Proof.
      induction l as [|c l IHl]; intros la0 g p F h T N L; inversion T as [|? ? ? ? a la F1 F2 T1 T2]; subst; cbn [yfree_all].
      - apply Quiet_ret, Turns_refl. intros x [].
      - apply NoDup_parts in N. destruct N as (N1 & N2 & A). rewrite app_length in L.
        pose proof (proj2 (Shows_live h) _ _ _ _ _ T2) as L2.
        assert (A' : apart F2 F1) by (intros x I J; exact (A x J I)).
        eapply Quiet_bind; [apply (IH c g p a F1 h T1 N1); lia|]. intros [] h1 C1. cbv beta in C1.
        assert (T2' : ShowsAll h1 l g p la F2).
        { apply (ShowsAll_same h); [exact T2|]. intros x I. exact (Turns_keeps _ _ _ _ _ x C1 L2 A' I). }
        intro w. destruct (IHl la g p F2 h1 T2' N2 ltac:(lia) w) as (u & h2 & E & C2).
        exists u, h2. split; [exact E|]. exact (Turns_gone _ _ _ _ _ C1 C2 L2 A').
    Qed.

    (** The members of a group and their array *)
    Lemma quiet_members : forall l la g p F arr Fa h, ShowsAll h l g p la F -> yarray_at h arr la Fa -> NoDup (Fa ++ F) ->
      (List.length F <= fuel)%nat ->
      Quiet (l <-y yelements arr (List.length la) ;; yfree_all (yfreeChunk find fuel) l g ;;y yfree arr) h
        (fun _ h' => Turns h (Fa ++ F) h' []).
    Proof.
      intros l la g p F arr Fa h T AR N L. apply NoDup_parts in N. destruct N as (N1 & N2 & A).
      eapply Quiet_step; [apply (run_elements e h arr la Fa AR)|].
      eapply Quiet_bind; [apply (quiet_trees l la g p F h T N2 L)|]. intros [] h1 C1. cbv beta in C1.
      pose proof (array_live _ _ _ _ AR) as LA.
      assert (AR' : yarray_at h1 arr la Fa).
      { apply (array_same h); [exact AR|]. intros x I. exact (Turns_keeps _ _ _ _ _ x C1 LA A I). }
      intro w. destruct (quiet_array h1 arr la Fa AR' w) as (u & h2 & E & C2).
      exists u, h2. split; [exact E|].
      apply (Turns_equiv _ _ _ _ _ _ (Turns_gone _ _ _ _ _ C1 C2 LA A)); intro x; rewrite ?in_app_iff; tauto.
    Qed.
  End FreeAll.

  Lemma quiet_struct : forall (h : heap) a F h', Turns h F h' [a] -> Quiet (yfree (Some a)) h' (fun _ h2 => Turns h F h2 []).
  Proof.
    intros h a F h' T w. exists tt, (yrelease h' a).
    split; [apply run_free; apply (tu_live _ _ _ _ T); left; reflexivity|].
    exact (Turns_trans _ _ _ _ _ _ T (Turns_release h' a)).
  Qed.

  Lemma quiet_tree : forall fuel c ft p a F h, Shows h c ft p a F -> NoDup F -> (List.length F <= fuel)%nat ->
    Quiet (yfreeChunk find fuel a ft) h (fun _ h' => Turns h F h' []).
  Proof.
    induction fuel as [|fuel IH]; intros c ft p a F h T N L.
    - destruct F; [|cbn in L; lia]. destruct (proj2 (proj1 (Shows_live h) _ _ _ _ _ T)).
    - pose proof (proj1 (proj1 (Shows_live h) _ _ _ _ _ T)) as LV. cbn [yfreeChunk].
      inversion T as [? ? ? i s d dc FE La Ld|? ? ? i s v yc u ? FE La O|? ? ? i s k g arr la l Fa Fl FE KK La AR LL|
        ? ? ? i s g arr la l Fa Fl parr pa pl Fb Fp FE La AR LL BR LP PI]; subst;
        (eapply Quiet_step; [apply (run_chunk e _ _ _ _ La)|]); cbn [o_id];
        (eapply Quiet_step; [apply (run_find find e _ _ _ _ FE)|]).
      + cbn [yfreeExtensionChunk]. unfold yfreeRawChunk.
        eapply Quiet_bind with (P := fun _ h' => Turns h [d] h' []); [eapply Quiet_step; [apply (run_chunk e _ _ _ _ La)|]; intro w; exists tt, (yrelease h d);
          split; [apply run_free; congruence|apply Turns_release]|].
        intros [] h1 C1. cbv beta in C1. apply quiet_struct.
        eapply (Turns_within _ _ _ _ [a]); [exact C1|intros x [<-|[]]; congruence|intros x [<-|[]] [<-|[]]; congruence|..]; intro x; cbn; tauto.
      + cbn [yfreeExtensionChunk].
        eapply Quiet_bind with (P := fun _ h' => Turns h F h' [a]).
        * intro w. destruct (refines_at _ _ _ FE) as (cb & _ & RF).
          destruct (rf_free _ _ _ RF e w h a F u i s O) as (_ & h' & E & TT). exists tt, h'. auto.
        * intros [] h1 C1. apply quiet_struct. exact C1.
      + apply NoDup_cons_iff in N. destruct N as [NA N]. cbn [List.length] in L. rewrite app_length in L.
        assert (KE : yfreeExtensionChunk (yfreeChunk find fuel) k a = yfreeGroup (yfreeChunk find fuel) a)
          by (destruct KK as [<-|[<-|[<-|[]]]]; reflexivity).
        rewrite KE. unfold yfreeGroup.
        eapply Quiet_bind; [eapply Quiet_step; [apply (run_chunk e _ _ _ _ La)|]; cbv beta iota;
          apply (quiet_members fuel IH l la g (Some a) Fl arr Fa h LL AR N); lia|].
        intros [] h1 C1. cbv beta in C1. apply quiet_struct.
        eapply (Turns_within _ _ _ _ [a]); [exact C1|intros x [<-|[]]; congruence|intros x [<-|[]]; exact NA|..];
          intro x; cbn; rewrite ?in_app_iff; tauto.
      + apply NoDup_cons_iff in N. destruct N as [NA N]. cbn [List.length] in L. rewrite !app_length in L.
        rewrite app_assoc in N. apply NoDup_parts in N. destruct N as (N1 & N2 & A12).
        cbn [yfreeExtensionChunk]. unfold yfreeList.
        assert (LB : live h (Fb ++ Fp)) by (intros x I; apply LV; right; rewrite !in_app_iff in *; tauto).
        assert (A21 : apart (Fb ++ Fp) (Fa ++ Fl)) by (intros x I J; exact (A12 x J I)).
        eapply Quiet_bind with (P := fun _ h' => Turns h ((Fa ++ Fl) ++ Fb ++ Fp) h' []).
        * eapply Quiet_bind; [unfold yfreeGroup; eapply Quiet_step; [apply (run_chunk e _ _ _ _ La)|]; cbv beta iota;
            apply (quiet_members fuel IH l la g (Some a) Fl arr Fa h LL AR N1); lia|].
          intros [] h1 C1. cbv beta in C1.
          assert (La1 : ylookup h1 a = Some (YChunk (mkHeader p i s) (YList g (List.length la) arr (List.length pa) parr))).
          { rewrite (tu_other _ _ _ _ C1 a); [exact La| |intros []]. intro I. apply NA. rewrite !in_app_iff in *. tauto. }
          eapply Quiet_step; [apply (run_chunk e _ _ _ _ La1)|]. cbv beta iota.
          assert (K : forall x, In x (Fb ++ Fp) -> ylookup h1 x = ylookup h x)
            by (intros x I; exact (Turns_keeps _ _ _ _ _ x C1 LB A21 I)).
          intro w. destruct (quiet_members fuel IH pl pa g (Some a) Fp parr Fb h1
            (ShowsAll_same _ _ _ _ _ _ _ LP (fun x I => K x (in_or_app _ _ _ (or_intror I))))
            (array_same _ _ _ _ _ BR (fun x I => K x (in_or_app _ _ _ (or_introl I)))) N2 ltac:(lia) w)
            as (u & h2 & E & C2).
          exists u, h2. split; [exact E|]. exact (Turns_gone _ _ _ _ _ C1 C2 LB A21).
        * intros [] h1 C1. cbv beta in C1. apply quiet_struct.
          eapply (Turns_within _ _ _ _ [a]); [exact C1|intros x [<-|[]]; congruence| |..].
          -- intros x [<-|[]] I. apply NA. rewrite !in_app_iff in *. tauto.
          -- intro x. cbn. rewrite ?in_app_iff. tauto.
          -- intro x. cbn. tauto.
  Qed.

  Theorem freeTree_quiet : forall c ft p a F h, Shows h c ft p a F -> NoDup F ->
    Quiet (yfreeTree find a ft) h (fun _ h' => Turns h F h' []).
  Proof.
    intros c ft p a F h T N w. unfold yfreeTree.
    apply (quiet_tree (S (List.length h)) c ft p a F h T N).
    pose proof (live_count h F N (proj1 (proj1 (Shows_live h) _ _ _ _ _ T))). lia.
  Qed.
End Trees.

(** A block shows one tree only. *)
Fixpoint one_view {U V} (rep : Z -> Z -> yheap V -> addr -> list addr -> U -> Prop) (find : yfind V) h
  (D : forall ft i a F G u t, rep ft i h a F u -> rep ft i h a G t -> u = t)
  (x : xchunk U) ft p a F (T : Shows rep find h x ft p a F) {struct T} :
  forall y q G, Shows rep find h y ft q a G -> x = y
with one_view_all {U V} (rep : Z -> Z -> yheap V -> addr -> list addr -> U -> Prop) (find : yfind V) h
  (D : forall ft i a F G u t, rep ft i h a F u -> rep ft i h a G t -> u = t)
  (l : list (xchunk U)) g p la F (T : ShowsAll rep find h l g p la F) {struct T} :
  forall m q G, ShowsAll rep find h m g q la G -> l = m.
Proof.
  - assert (AE : forall arr la Fa la' Fa', yarray_at h arr la Fa -> yarray_at h arr la' Fa' -> la = la').
    { intros arr la Fa la' Fa' [(-> & -> & _)|(d & -> & E & _)] [(E' & -> & _)|(d' & E2 & E' & _)]; try congruence. }
    destruct T as [ft p a i s d c FE La Ld|ft p a i s v yc u F FE La O|ft p a i s k g arr la l Fa Fl FE KK La AR LL|
      ft p a i s g arr la l Fa Fl parr pa pl Fb Fp FE La AR LL BR LP PI]; intros y q G T';
      inversion T' as [? ? ? i' s' d' c' FE' La' Ld'|? ? ? i' s' v' yc' u' ? FE' La' O'|? ? ? i' s' k' g' arr' la' l' Fa' Fl' FE' KK' La' AR' LL'|
        ? ? ? i' s' g' arr' la' l' Fa' Fl' parr' pa' pl' Fb' Fp' FE' La' AR' LL' BR' LP' PI']; subst; rewrite La in La'; try discriminate La'.
    + injection La' as <- <- <- <-. congruence.
    + injection La' as <- <- <- <-. rewrite (D _ _ _ _ _ _ _ O O'). reflexivity.
    + injection La' as <- <- <- <- _ <-. rewrite <- (AE _ _ _ _ _ AR AR') in LL'.
      rewrite (one_view_all U V rep find h D _ _ _ _ _ LL _ _ _ LL'). reflexivity.
    + injection La' as <- <- <- <- _ <- _ <-. rewrite <- (AE _ _ _ _ _ AR AR') in LL'. rewrite <- (AE _ _ _ _ _ BR BR') in LP'.
      rewrite (one_view_all U V rep find h D _ _ _ _ _ LL _ _ _ LL'), (one_view_all U V rep find h D _ _ _ _ _ LP _ _ _ LP'). reflexivity.
  - destruct T as [g p|c l g p a la F1 F2 T1 T2]; intros m q G T'; inversion T' as [|c' m' ? ? ? ? G1 G2 T1' T2']; subst; [reflexivity|].
    rewrite (one_view U V rep find h D _ _ _ _ _ T1 _ _ _ T1'), (one_view_all U V rep find h D _ _ _ _ _ T2 _ _ _ T2'). reflexivity.
Qed.
