(** * Memory with application chunk types: reading *)

From Coq Require Import ZArith List Bool String Lia.
From Coq Require Import Strings.Byte.
From Verif Require Import Machine Io Types Build Read Spec Lemmas IoProofs HeapProofs TermProofs
  Ext ExtSpec ExtReadProofs ExtSafeProofs Heap HeapExt HeapExtSpec HeapExtProofs.
Import ListNotations.
Open Scope Z_scope.

Section Read.
  Context {V : Type}.
  Notation heap := (yheap V).
  Variable own : Z -> Z -> heap -> addr -> list addr -> Prop.
  Variable find : yfind V.
  Hypothesis OW : Owners own find.
  Variable e : env.
  Hypothesis NS : strict_c e = false.
  Variable inp : Z.

  (** As [Runs], in a heap *)
  Definition HRuns {A} (n : nat) (k : A -> nat) (P : A -> heap -> Prop) (m : Y V A) (h : heap) : Prop := forall w, (left w < n)%nat ->
    match m e w h with
    | Done (a, w', h') => (exists l, r_rest (w_in w) = l ++ r_rest (w_in w') /\ (k a <= List.length l)%nat) /\ P a h'
    | Undefined u => Excused e inp u
    | OutOfFuel => False
    end.

  Lemma HRuns_ret : forall A n (k : A -> nat) (P : A -> heap -> Prop) a h, k a = O -> P a h -> HRuns n k P (yret a) h.
  Proof. intros A n k P a h H PA w _. split; [|exact PA]. exists []. simpl. split; [reflexivity|lia]. Qed.

  Lemma HRuns_bind : forall A B n (k : A -> nat) (P : A -> heap -> Prop) (k2 : B -> nat) (Q : B -> heap -> Prop) (m : Y V A) (f : A -> Y V B) h,
    HRuns n k P m h -> (forall a h', P a h' -> HRuns (n - k a) (fun b => k2 b - k a)%nat Q (f a) h') -> HRuns n k2 Q (ybind m f) h.
  Proof.
    intros A B n k P k2 Q m f h H F w LW. unfold ybind. specialize (H w LW).
    destruct (m e w h) as [[[a w1] h1]|u|]; [|exact H|exact H]. destruct H as [(l & E & L) PA].
    assert (L1 : (left w1 < n - k a)%nat) by (unfold left in *; rewrite E, app_length in LW; lia).
    specialize (F a h1 PA w1 L1). destruct (f a e w1 h1) as [[[b w2] h2]|u|]; [|exact F|exact F].
    destruct F as [(l2 & E2 & L2) Q2]. split; [|exact Q2]. exists (l ++ l2). rewrite E, E2, app_assoc, app_length.
    split; [reflexivity|lia].
  Qed.

  Lemma HRuns_weaken : forall A n n' (k k' : A -> nat) (P P' : A -> heap -> Prop) m h,
    HRuns n k P m h -> (n' <= n)%nat -> (forall a, k' a <= k a)%nat -> (forall a h', P a h' -> P' a h') -> HRuns n' k' P' m h.
  Proof.
    intros A n n' k k' P P' m h H L K PP w LW. specialize (H w ltac:(lia)).
    destruct (m e w h) as [[[a w1] h1]|u|]; [|exact H|exact H]. destruct H as [(l & E & LL) PA]. specialize (K a).
    split; [|auto]. exists l. split; [exact E|lia].
  Qed.

  Lemma HRuns_0 : forall A B n (P : A -> heap -> Prop) (Q : B -> heap -> Prop) (m : Y V A) (f : A -> Y V B) k2 h,
    HRuns n (fun _ => O) P m h -> (forall a h', P a h' -> HRuns n k2 Q (f a) h') -> HRuns n k2 Q (ybind m f) h.
  Proof.
    intros A B n P Q m f k2 h H F. eapply HRuns_bind; [eassumption|]. intros a h' PA.
    eapply HRuns_weaken; [apply F; exact PA|lia|intro; lia|auto].
  Qed.

  Lemma HRuns_undefined : forall A n (k : A -> nat) P u h, Excused e inp u -> HRuns n k P (yundefined u) h.
  Proof. intros A n k P u h H w _. exact H. Qed.

  Lemma HRuns_pos : forall A n (k : A -> nat) P m h, ((0 < n)%nat -> HRuns n k P m h) -> HRuns n k P m h.
  Proof. intros A n k P m h H w LW. apply H; [lia|exact LW]. Qed.

  (** A step whose outcome is known *)
  Lemma HRuns_step : forall A B (m : Y V A) (f : A -> Y V B) h a h' n k Q, (forall w, m e w h = Done (a, w, h')) ->
    HRuns n k Q (f a) h' -> HRuns n k Q (ybind m f) h.
  Proof. intros A B m f h a h' n k Q E F w LW. unfold ybind. rewrite E. apply F. exact LW. Qed.

  Lemma HRuns_known : forall A (m : Y V A) h a h' n (Q : A -> heap -> Prop), (forall w, m e w h = Done (a, w, h')) ->
    Q a h' -> HRuns n zero Q m h.
  Proof. intros A m h a h' n Q E F w _. rewrite E. split; [apply nothing_read; reflexivity|exact F]. Qed.

  Lemma HRuns_ends : forall A n (P : A -> heap -> Prop) m h, Ends e m h P -> HRuns n zero P m h.
  Proof.
    intros A n P m h H w _. destruct (H w) as (a & w' & h' & E & (l & C) & PA). rewrite E.
    split; [exists l; split; [exact C|apply Nat.le_0_l]|exact PA].
  Qed.

  Lemma HRuns_io : forall A n k (P : A -> Prop) (m : M A) h, Runs e inp n k P m -> HRuns n k (fun a h' => P a /\ h' = h) (yio m) h.
  Proof.
    intros A n k P m h H w LW. specialize (H w LW). unfold yio. destruct (m e w) as [[a w1]|u|]; [|exact H|exact H].
    destruct H as [C PA]. auto.
  Qed.

  Lemma HRuns_io0 : forall A B n (P : A -> Prop) (Q : B -> heap -> Prop) (m : M A) (f : A -> Y V B) k2 h,
    Runs e inp n (fun _ => O) P m -> (forall a, P a -> HRuns n k2 Q (f a) h) -> HRuns n k2 Q (ybind (yio m) f) h.
  Proof.
    intros A B n P Q m f k2 h H F. eapply HRuns_0; [apply HRuns_io; exact H|]. intros a h' [PA ->]. apply F. exact PA.
  Qed.

  (** ** malloc *)

  Lemma malloc_runs : forall n z o (h : heap),
    HRuns n zero (fun p h' => match p with
      | None => h' = h
      | Some a => Placed h a o h' /\ z < 2 ^ (size_t_bits e - 1)
      end) (ymalloc z o) h.
  Proof.
    intros n z o h. unfold ymalloc. eapply HRuns_io0; [apply Runs_malloc|]. intros [|] B.
    - intros w _. split; [apply nothing_read; reflexivity|split; [apply placed|exact B]].
    - apply HRuns_ret; reflexivity.
  Qed.

  Lemma push_runs : forall n arr la Fa c h, yarray_at h arr la Fa -> 8 * (Z.of_nat (List.length la) + 1) <= inp ->
    HRuns n zero (fun p h' => exists d, p = Some d /\ ylookup h' d = Some (YArray (la ++ [c])) /\ Turns h Fa h' [d])
      (ypush arr (List.length la) c) h.
  Proof.
    intros n arr la Fa c h AR LN. unfold ypush.
    assert (YA : forall w, yarray arr e w h = Done (la, w, h)).
    { intro w. destruct AR as [(-> & -> & _)|(d & -> & E & _)]; [reflexivity|]. cbn [yarray]. unfold ybind, yload. rewrite E. reflexivity. }
    eapply HRuns_step; [exact YA|]. eapply HRuns_io0; [apply Runs_malloc|]. intros [|] B; [|apply HRuns_undefined, B, array_size; lia].
    rewrite firstn_all.
    destruct AR as [(-> & -> & ->)|(d & -> & E & ->)].
    - eapply HRuns_step; [intro w; reflexivity|]. intros w _. split; [apply nothing_read; reflexivity|].
      eexists. split; [reflexivity|]. split; [exact (Placed_at _ _ _ _ (placed e w h _))|exact (Turns_new _ _ _ _ (placed e w h _))].
    - eapply HRuns_step; [intro w; apply run_free; congruence|]. intros w _. split; [apply nothing_read; reflexivity|].
      eexists. split; [reflexivity|]. split; [exact (Placed_at _ _ _ _ (placed e w (yrelease h d) _))|].
      exact (Turns_trans _ _ _ _ _ _ (Turns_release h d) (Turns_new _ _ _ _ (placed e w (yrelease h d) _))).
  Qed.

  Lemma Turns_store_in : forall (h : heap) a o F, In a F -> live h F -> Turns h F (ystore h a o) F.
  Proof.
    intros h a o F I L. assert (LA := L a I). constructor; intros x; rewrite ?ylookup_store by exact LA.
    - intros N _. destruct (Nat.eqb_spec x a) as [->|_]; [tauto|reflexivity].
    - tauto.
    - tauto.
    - intro J. destruct (Nat.eqb x a); [discriminate|exact (L x J)].
  Qed.

  Lemma run_parent : forall (h : heap) c hd b q, ylookup h c = Some (YChunk hd b) -> forall w,
    yset_parent c q e w h = Done (tt, w, ystore h c (YChunk (set_parent hd q) b)).
  Proof.
    intros h c hd b q E w. unfold yset_parent, ybind. rewrite (run_chunk e h c hd b E). apply run_put. congruence.
  Qed.

  (** ** A chunk becomes the last member of a group.  [R]: the rest of the
      group's blocks. *)
  Lemma attach_runs : forall n a hd (b0 : ybody V) mk g arr la Fa Fl R c Fc h,
    ylookup h a = Some (YChunk hd b0) -> yarray_at h arr la Fa -> Trees own find True h g (Some a) la Fl -> live h R ->
    NoDup (a :: Fa ++ Fl ++ R) -> Tree own find True h g None c Fc -> NoDup Fc -> apart (a :: Fa ++ Fl ++ R) Fc ->
    8 * (Z.of_nat (List.length la) + 1) <= inp ->
    HRuns n zero (fun _ h' => exists d,
        ylookup h' a = Some (YChunk hd (mk (Some d))) /\ yarray_at h' (Some d) (la ++ [c]) [d] /\
        Trees own find True h' g (Some a) (la ++ [c]) (Fl ++ Fc) /\ Tree own find True h' g (Some a) c Fc /\
        (forall x, In x R -> ylookup h' x = ylookup h x) /\
        (forall x i, In x (la ++ [c]) -> id_at h x i -> id_at h' x i) /\
        NoDup (a :: [d] ++ (Fl ++ Fc) ++ R) /\
        Turns h (a :: Fa ++ Fl ++ R ++ Fc) h' (a :: [d] ++ (Fl ++ Fc) ++ R))
      (arr' <-y ypush arr (List.length la) c ;; yput a (YChunk hd (mk arr')) ;;y yset_parent c (Some a)) h.
  Proof.
    intros n a hd b0 mk g arr la Fa Fl R c Fc h La AR TL LR ND TC NC AP LN.
    pose proof (array_live _ _ _ _ AR) as LFa. pose proof (proj2 (Tree_live own find True OW h) _ _ _ _ TL) as LFl.
    destruct (proj1 (Tree_live own find True OW h) _ _ _ _ TC) as [LFc IC].
    apply NoDup_cons_iff in ND. destruct ND as [NA ND]. apply NoDup_parts in ND. destruct ND as (NFa & ND & A1).
    apply NoDup_parts in ND. destruct ND as (NFl & NR & A2).
    assert (AAc : ~ In a Fc) by (apply AP; left; reflexivity).
    assert (AFl : forall x, In x Fl -> ~ In x Fc) by (intros x I; apply AP; right; rewrite !in_app_iff; tauto).
    assert (AR' : forall x, In x R -> ~ In x Fc) by (intros x I; apply AP; right; rewrite !in_app_iff; tauto).
    assert (AFa : forall x, In x Fa -> ~ In x Fc) by (intros x I; apply AP; right; rewrite !in_app_iff; tauto).
    assert (NAC : a <> c) by (intros ->; exact (AAc IC)).
    set (G := a :: (Fl ++ Fc) ++ R).
    assert (LG : live h G).
    { intros x [<-|I]; [congruence|]. rewrite !in_app_iff in I. destruct I as [[I|I]|I]; [exact (LFl x I)|exact (LFc x I)|exact (LR x I)]. }
    assert (AG : apart G Fa).
    { intros x [<-|I] J; [apply NA; rewrite !in_app_iff; tauto|]. rewrite !in_app_iff in I.
      destruct I as [[I|I]|I].
      - apply (A1 x J). rewrite in_app_iff. tauto.
      - exact (AFa x J I).
      - apply (A1 x J). rewrite in_app_iff. tauto. }
    eapply HRuns_0; [apply (push_runs n arr la Fa c h AR LN)|]. intros p h1 (d & -> & D1 & T1).
    assert (K1 : forall x, In x G -> ylookup h1 x = ylookup h x) by (intros x I; exact (Turns_keeps _ _ _ _ _ x T1 LG AG I)).
    assert (DG : ~ In d G) by (intro I; exact (Turns_apart _ _ _ _ _ T1 LG AG d I (or_introl eq_refl))).
    assert (La1 : ylookup h1 a = Some (YChunk hd b0)) by (rewrite K1 by (left; reflexivity); exact La).
    assert (T1' : Turns h (a :: Fa ++ Fl ++ R ++ Fc) h1 (a :: [d] ++ (Fl ++ Fc) ++ R)).
    { apply (Turns_within _ _ _ _ G _ _ T1 LG AG); intro x; unfold G; cbn [In app]; rewrite ?in_app_iff; cbn [In]; tauto. }
    assert (L1 : live h1 (a :: [d] ++ (Fl ++ Fc) ++ R)) by exact (tu_live _ _ _ _ T1').
    eapply HRuns_step; [apply run_put; congruence|].
    set (h2 := ystore h1 a (YChunk hd (mk (Some d)))).
    assert (K2 : forall x, ylookup h2 x = if Nat.eqb x a then Some (YChunk hd (mk (Some d))) else ylookup h1 x)
      by (intro x; apply ylookup_store; congruence).
    assert (T2 : Turns h (a :: Fa ++ Fl ++ R ++ Fc) h2 (a :: [d] ++ (Fl ++ Fc) ++ R)).
    { eapply Turns_trans; [exact T1'|]. apply Turns_store_in; [left; reflexivity|exact L1]. }
    assert (K2' : forall x, In x G -> x <> a -> ylookup h2 x = ylookup h x).
    { intros x I X. rewrite K2. destruct (Nat.eqb_spec x a) as [->|_]; [congruence|]. exact (K1 x I). }
    assert (TC2 : Tree own find True h2 g None c Fc).
    { apply (proj1 (Tree_same own find True OW h h2)); [exact TC|]. intros x I. apply K2'; [unfold G; right; rewrite !in_app_iff; tauto|].
      intros ->. exact (AAc I). }
    destruct (Tree_chunk own find True _ _ _ _ _ TC2) as (i & s & b & Lc).
    set (h3 := ystore h2 c (YChunk (set_parent (mkHeader None i s) (Some a)) b)).
    assert (K3 : forall x, x <> c -> ylookup h3 x = ylookup h2 x).
    { intros x X. unfold h3. rewrite ylookup_store by congruence. destruct (Nat.eqb_spec x c) as [->|_]; [congruence|reflexivity]. }
    apply (HRuns_known _ _ h2 tt h3); [apply run_parent; exact Lc|]. exists d.
    assert (DC : d <> c) by (intros ->; apply DG; unfold G; right; rewrite !in_app_iff; tauto).
    assert (DA : d <> a) by (intros ->; apply DG; left; reflexivity).
    assert (TC3 : Tree own find True h3 g (Some a) c Fc) by (apply (Tree_parent own find True OW h2 g None); assumption).
    split; [rewrite K3, K2, Nat.eqb_refl by exact NAC; reflexivity|].
    split.
    { right. exists d. split; [reflexivity|]. split; [|reflexivity].
      rewrite K3, K2 by exact DC. destruct (Nat.eqb_spec d a) as [->|_]; [congruence|exact D1]. }
    split.
    { apply (Trees_snoc own find True); [|exact TC3]. apply (Trees_same own find True OW h); [exact TL|].
      intros x I. rewrite K3 by (intros ->; exact (AFl c I IC)). apply K2'; [unfold G; right; rewrite !in_app_iff; tauto|].
      intros ->. apply NA. rewrite !in_app_iff. tauto. }
    split; [exact TC3|].
    split.
    { intros x I. rewrite K3 by (intros ->; exact (AR' c I IC)). apply K2'; [unfold G; right; rewrite !in_app_iff; tauto|].
      intros ->. apply NA. rewrite !in_app_iff. tauto. }
    split.
    { intros x j I J. apply in_app_iff in I. destruct I as [I|[<-|[]]].
      - apply (id_same h); [exact J|]. pose proof (Trees_roots own find True OW _ _ _ _ _ TL x I) as IL.
        rewrite K3 by (intros ->; exact (AFl c IL IC)). apply K2'; [unfold G; right; rewrite !in_app_iff; tauto|].
        intros ->. apply NA. rewrite !in_app_iff. tauto.
      - destruct J as (hd0 & b0' & L0 & J). exists (set_parent (mkHeader None i s) (Some a)), b. unfold h3.
        rewrite ylookup_store by congruence. rewrite Nat.eqb_refl. split; [reflexivity|].
        rewrite <- K2' in L0 by (unfold G; solve [right; rewrite !in_app_iff; tauto|congruence]). rewrite Lc in L0. injection L0 as <- <-. exact J. }
    split.
    { constructor.
      - cbn [app In]. rewrite !in_app_iff. intros [X|[[X|X]|X]]; [congruence| |tauto|]; apply NA; rewrite !in_app_iff; tauto.
      - cbn [app]. constructor; [intro I; apply DG; right; exact I|].
        apply NoDup_parts. split; [apply NoDup_parts; split; [exact NFl|split; [exact NC|exact AFl]]|split; [exact NR|]].
        intros x I J. rewrite in_app_iff in I. destruct I as [I|I]; [exact (A2 x I J)|exact (AR' x J I)]. }
    eapply Turns_trans; [exact T2|]. apply Turns_store_in; [|exact (tu_live _ _ _ _ T2)].
    right. right. cbn [app]. rewrite !in_app_iff. tauto.
  Qed.

  Lemma yincrement_runs : forall n z c hd b (h : heap), ylookup h c = Some (YChunk hd b) ->
    HRuns n zero (fun _ h' => h' = h) (yincrementChunkSize z c) h.
  Proof.
    intros n z c hd b h E. unfold yincrementChunkSize. eapply HRuns_step; [apply (run_chunk e _ _ _ _ E)|]. cbv beta iota zeta.
    destruct (INT_MAX <? _); [apply HRuns_undefined, overflow_excused|].
    destruct (c_odd _); [|apply HRuns_ret; reflexivity].
    destruct (_ =? INT_MAX); [apply HRuns_undefined, overflow_excused|apply HRuns_ret; reflexivity].
  Qed.

  (** ** Groups that are being read *)

  (** What readChunk gives back *)
  Definition Got (h : heap) (ft : Z) (p : ptr) (h' : heap) : Prop :=
    match p with
    | None => Turns h [] h' []
    | Some c => exists F, Turns h [] h' F /\ NoDup F /\ Tree own find True h' ft None c F
    end.

  Definition GroupAt (h : heap) (a : addr) (hd : header) (F : list addr) : Prop :=
    exists g arr la Fa Fl, ylookup h a = Some (YChunk hd (YGroup g (List.length la) arr)) /\
      yarray_at h arr la Fa /\ Trees own find True h g (Some a) la Fl /\ F = a :: Fa ++ Fl /\ NoDup F.

  Definition ListAt (h : heap) (a : addr) (hd : header) (F : list addr) : Prop :=
    exists g arr la Fa Fl parr pa Fb Fp,
      ylookup h a = Some (YChunk hd (YList g (List.length la) arr (List.length pa) parr)) /\
      yarray_at h arr la Fa /\ Trees own find True h g (Some a) la Fl /\
      yarray_at h parr pa Fb /\ Trees own find True h g (Some a) pa Fp /\
      (forall x, In x pa -> id_at h x PROP_ID) /\
      F = a :: Fa ++ Fl ++ Fb ++ Fp /\ NoDup F.

  Lemma GroupAt_live : forall h a hd F, GroupAt h a hd F -> live h F.
  Proof.
    intros h a hd F (g & arr & la & Fa & Fl & La & AR & TL & -> & _) x [<-|I]; [congruence|].
    apply in_app_iff in I. destruct I as [I|I]; [exact (array_live _ _ _ _ AR x I)|exact (proj2 (Tree_live own find True OW h) _ _ _ _ TL x I)].
  Qed.

  Lemma GroupAt_same : forall h h' a hd F, GroupAt h a hd F -> (forall x, In x F -> ylookup h' x = ylookup h x) -> GroupAt h' a hd F.
  Proof.
    intros h h' a hd F (g & arr & la & Fa & Fl & La & AR & TL & -> & N) K. exists g, arr, la, Fa, Fl.
    split; [rewrite K by (left; reflexivity); exact La|].
    split; [apply (array_same h); [exact AR|]; intros x I; apply K; right; rewrite in_app_iff; tauto|].
    split; [apply (Trees_same own find True OW h); [exact TL|]; intros x I; apply K; right; rewrite in_app_iff; tauto|]. auto.
  Qed.

  Lemma ListAt_live : forall h a hd F, ListAt h a hd F -> live h F.
  Proof.
    intros h a hd F (g & arr & la & Fa & Fl & parr & pa & Fb & Fp & La & AR & TL & BR & TP & PI & -> & _) x [<-|I]; [congruence|].
    rewrite !in_app_iff in I.
    destruct I as [I|[I|[I|I]]];
      [exact (array_live _ _ _ _ AR x I)|exact (proj2 (Tree_live own find True OW h) _ _ _ _ TL x I)|
       exact (array_live _ _ _ _ BR x I)|exact (proj2 (Tree_live own find True OW h) _ _ _ _ TP x I)].
  Qed.

  Lemma ListAt_same : forall h h' a hd F, ListAt h a hd F -> (forall x, In x F -> ylookup h' x = ylookup h x) -> ListAt h' a hd F.
  Proof.
    intros h h' a hd F (g & arr & la & Fa & Fl & parr & pa & Fb & Fp & La & AR & TL & BR & TP & PI & -> & N) K.
    exists g, arr, la, Fa, Fl, parr, pa, Fb, Fp.
    split; [rewrite K by (left; reflexivity); exact La|].
    split; [apply (array_same h); [exact AR|]; intros x I; apply K; right; rewrite !in_app_iff; tauto|].
    split; [apply (Trees_same own find True OW h); [exact TL|]; intros x I; apply K; right; rewrite !in_app_iff; tauto|].
    split; [apply (array_same h); [exact BR|]; intros x I; apply K; right; rewrite !in_app_iff; tauto|].
    split; [apply (Trees_same own find True OW h); [exact TP|]; intros x I; apply K; right; rewrite !in_app_iff; tauto|].
    split; [|auto]. intros x I. apply (id_same h); [exact (PI x I)|]. apply K. right. rewrite !in_app_iff.
    pose proof (Trees_roots own find True OW _ _ _ _ _ TP x I). tauto.
  Qed.

  Lemma apart_nil : forall F, apart F [].
  Proof. intros F x _ []. Qed.

  Section Loops.
    Variable rc : Z -> Y V ptr.
    Variable n : nat.
    Definition optr (k : nat) (p : ptr) : nat := match p with Some _ => k | None => O end.
    Hypothesis RC : forall ft h, HRuns n (optr 8) (Got h ft) (rc ft) h.
    Hypothesis SMALL : Z.of_nat n <= inp + 1.

    (** A chunk was read while the blocks [F] were there. *)
    Lemma got_beside : forall (h : heap) F (h1 : heap) Fc, live h F -> Turns h [] h1 Fc ->
      (forall x, In x F -> ylookup h1 x = ylookup h x) /\ apart F Fc /\ Turns h F h1 (F ++ Fc).
    Proof.
      intros h F h1 Fc LF T1. split; [intros x I; exact (Turns_keeps _ _ _ _ F x T1 LF (apart_nil F) I)|].
      split; [exact (Turns_apart _ _ _ _ _ T1 LF (apart_nil F))|].
      apply (Turns_within _ _ _ _ F _ _ T1 LF (apart_nil F)); intro x; rewrite ?in_app_iff; cbn; tauto.
    Qed.

    Lemma group_loop : forall f m h a hd F bp, (m <= n)%nat -> (m <= f)%nat -> GroupAt h a hd F ->
      (forall g k arr, ylookup h a = Some (YChunk hd (YGroup g k arr)) -> Z.of_nat m + 8 * Z.of_nat k <= inp + 1) ->
      HRuns m zero (fun _ h' => exists F', GroupAt h' a hd F' /\ Turns h F h' F') (yreadGroupSubChunks rc f a bp) h.
    Proof.
      induction f as [|f IH]; intros m h a hd F bp L FU GA CNT;
        pose proof (GroupAt_live _ _ _ _ GA) as LF; pose proof GA as (g & arr & la & Fa & Fl & La & AR & TL & EF & ND);
        cbn [yreadGroupSubChunks]; (eapply HRuns_step; [apply (run_chunk e _ _ _ _ La)|]); cbv beta iota;
        (destruct (bp <? o_size hd);
         [|eapply HRuns_0 with (P := fun _ h' => h' = h);
           [destruct (o_size hd <? bp);
             [eapply HRuns_weaken; [apply HRuns_io; apply (warning_runs e NS)|apply le_n|intro; apply le_n|intros ? ? [_ ?]; assumption]
             |apply HRuns_ret; reflexivity]
           |intros _ h1 ->; apply HRuns_ret; [reflexivity|]; exists F; split; [exact GA|apply Turns_refl; exact LF]]]).
      - intros w LW. lia.
      - cbn [ytype_of]. specialize (CNT _ _ _ La).
        eapply HRuns_bind; [eapply HRuns_weaken; [apply (RC g h)|exact L|intro; apply le_n|intros x y H; exact H]|].
        intros [c|] h1 G; cbn [Got optr] in *.
        + destruct G as (Fc & T1 & NC & TC). destruct (got_beside h F h1 Fc LF T1) as (KF & AP & T1').
          subst F. cbn [yattachToGroup]. unfold yattachToGroup. apply HRuns_pos. intro POS.
          assert (La1 : ylookup h1 a = Some (YChunk hd (YGroup g (List.length la) arr)))
            by (rewrite KF by (left; reflexivity); exact La).
          assert (AR1 : yarray_at h1 arr la Fa)
            by (apply (array_same h); [exact AR|]; intros x I; apply KF; right; rewrite in_app_iff; tauto).
          assert (TL1 : Trees own find True h1 g (Some a) la Fl)
            by (apply (Trees_same own find True OW h); [exact TL|]; intros x I; apply KF; right; rewrite in_app_iff; tauto).
          eapply HRuns_0.
          { eapply HRuns_step; [apply (run_chunk e _ _ _ _ La1)|]. cbv beta iota.
            eapply (attach_runs _ a hd _ (fun arr' => YGroup g (S (List.length la)) arr') g arr la Fa Fl [] c Fc h1 La1 AR1 TL1);
              [intros x []|rewrite app_nil_r; exact ND|exact TC|exact NC|rewrite app_nil_r; exact AP|lia]. }
          intros _ h2 (d & La2 & AR2 & TL2 & TC2 & _ & _ & ND2 & T2).
          destruct (Tree_chunk own find True _ _ _ _ _ TC2) as (ci & cs & cb & Lc).
          eapply HRuns_0; [apply (yincrement_runs _ _ _ _ _ _ Lc)|]. intros b2 h3 ->.
          rewrite app_nil_r in *. cbn [app] in T2.
          eapply HRuns_weaken; [apply (IH (m - 8)%nat h2 a hd (a :: [d] ++ Fl ++ Fc) b2); [lia|lia| |]|lia|unfold zero; intro; lia|].
          * exists g, (Some d), (la ++ [c]), [d], (Fl ++ Fc). rewrite app_length, Nat.add_1_r. auto.
          * intros g' k' arr' L'. rewrite La2 in L'. injection L' as <- <- <-. lia.
          * intros _ h3 (F' & G3 & T3). exists F'. split; [exact G3|].
            eapply Turns_trans; [|exact T3]. eapply Turns_trans; [|exact T2].
            apply (Turns_equiv _ _ _ _ _ _ T1'); intro x; cbn; rewrite ?in_app_iff; cbn; tauto.
        + apply HRuns_ret; [reflexivity|]. exists F. destruct (got_beside h F h1 [] LF G) as (KF & _ & T1').
          rewrite app_nil_r in T1'. split; [exact (GroupAt_same _ _ _ _ _ GA KF)|exact T1'].
    Qed.

    Lemma list_loop : forall f m h a hd F bp, (m <= n)%nat -> (m <= f)%nat -> ListAt h a hd F ->
      (forall g k arr j parr, ylookup h a = Some (YChunk hd (YList g k arr j parr)) -> Z.of_nat m + 8 * (Z.of_nat k + Z.of_nat j) <= inp + 1) ->
      HRuns m zero (fun _ h' => exists F', ListAt h' a hd F' /\ Turns h F h' F') (yreadListSubChunks rc f a bp) h.
    Proof.
      induction f as [|f IH]; intros m h a hd F bp L FU GA CNT;
        pose proof (ListAt_live _ _ _ _ GA) as LF;
        pose proof GA as (g & arr & la & Fa & Fl & parr & pa & Fb & Fp & La & AR & TL & BR & TP & PI & EF & ND);
        cbn [yreadListSubChunks]; (eapply HRuns_step; [apply (run_chunk e _ _ _ _ La)|]); cbv beta iota;
        (destruct (bp <? o_size hd);
         [|eapply HRuns_0 with (P := fun _ h' => h' = h);
           [destruct (o_size hd <? bp);
             [eapply HRuns_weaken; [apply HRuns_io; apply (warning_runs e NS)|apply le_n|intro; apply le_n|intros ? ? [_ ?]; assumption]
             |apply HRuns_ret; reflexivity]
           |intros _ h1 ->; apply HRuns_ret; [reflexivity|]; exists F; split; [exact GA|apply Turns_refl; exact LF]]]).
      - intros w LW. lia.
      - cbn [ytype_of]. specialize (CNT _ _ _ _ _ La).
        eapply HRuns_bind; [eapply HRuns_weaken; [apply (RC g h)|exact L|intro; apply le_n|intros x y H; exact H]|].
        intros [c|] h1 G; cbn [Got optr] in *.
        + destruct G as (Fc & T1 & NC & TC). destruct (got_beside h F h1 Fc LF T1) as (KF & AP & T1').
          subst F. apply HRuns_pos. intro POS.
          assert (La1 : ylookup h1 a = Some (YChunk hd (YList g (List.length la) arr (List.length pa) parr)))
            by (rewrite KF by (left; reflexivity); exact La).
          assert (AR1 : yarray_at h1 arr la Fa)
            by (apply (array_same h); [exact AR|]; intros x I; apply KF; right; rewrite !in_app_iff; tauto).
          assert (TL1 : Trees own find True h1 g (Some a) la Fl)
            by (apply (Trees_same own find True OW h); [exact TL|]; intros x I; apply KF; right; rewrite !in_app_iff; tauto).
          assert (BR1 : yarray_at h1 parr pa Fb)
            by (apply (array_same h); [exact BR|]; intros x I; apply KF; right; rewrite !in_app_iff; tauto).
          assert (TP1 : Trees own find True h1 g (Some a) pa Fp)
            by (apply (Trees_same own find True OW h); [exact TP|]; intros x I; apply KF; right; rewrite !in_app_iff; tauto).
          assert (PI1 : forall x, In x pa -> id_at h1 x PROP_ID).
          { intros x I. apply (id_same h); [exact (PI x I)|]. apply KF. right. rewrite !in_app_iff.
            pose proof (Trees_roots own find True OW _ _ _ _ _ TP x I). tauto. }
          pose proof (array_live _ _ _ _ AR1) as LFa. pose proof (proj2 (Tree_live own find True OW h1) _ _ _ _ TL1) as LFl.
          pose proof (array_live _ _ _ _ BR1) as LFb. pose proof (proj2 (Tree_live own find True OW h1) _ _ _ _ TP1) as LFp.
          destruct (Tree_chunk own find True _ _ _ _ _ TC) as (ci & cs & cb & Lc).
          eapply HRuns_step; [apply (run_chunk e _ _ _ _ Lc)|]. cbv beta iota.
          eapply HRuns_0 with (P := fun _ h2 => exists F2, ListAt h2 a hd F2 /\ Tree own find True h2 g (Some a) c Fc /\
            Turns h1 ((a :: Fa ++ Fl ++ Fb ++ Fp) ++ Fc) h2 F2 /\
            (forall g k arr j parr, ylookup h2 a = Some (YChunk hd (YList g k arr j parr)) ->
               Z.of_nat k + Z.of_nat j = Z.of_nat (List.length la) + Z.of_nat (List.length pa) + 1)).
          { destruct (Z.eqb_spec (o_id (mkHeader None ci cs)) IFF_ID_PROP) as [PE|_].
            - unfold yattachProp. eapply HRuns_step; [apply (run_chunk e _ _ _ _ La1)|]. cbv beta iota.
              eapply HRuns_weaken.
              + eapply (attach_runs (m - 8) a hd _ (fun arr' => YList g (List.length la) arr (S (List.length pa)) arr') g parr pa Fb Fp (Fa ++ Fl) c Fc h1 La1 BR1 TP1);
                  [intros x I; apply in_app_iff in I; destruct I as [I|I]; [exact (LFa x I)|exact (LFl x I)]| |exact TC|exact NC| |lia].
                * apply NoDup_cons_iff in ND. destruct ND as [NA ND]. constructor; [intro I; apply NA; rewrite !in_app_iff in *; tauto|].
                  rewrite (app_assoc Fb). apply NoDup_parts. rewrite (app_assoc Fa) in ND. apply NoDup_parts in ND.
                  destruct ND as (N1 & N2 & A). split; [exact N2|]. split; [exact N1|]. intros x I J. exact (A x J I).
                * intros x I. apply AP. cbn [In] in *. rewrite !in_app_iff in *. tauto.
              + apply le_n.
              + intro; apply le_n.
              + intros _ h2 (d & La2 & BR2 & TP2 & TC2 & KR & KI & ND2 & T2). exists (a :: Fa ++ Fl ++ [d] ++ Fp ++ Fc).
                split; [|split; [exact TC2|split; [|intros g' k' arr' j' parr' L'; rewrite La2 in L'; injection L' as <- <- <- <- <-; lia]]].
                * exists g, arr, la, Fa, Fl, (Some d), (pa ++ [c]), [d], (Fp ++ Fc). rewrite app_length, Nat.add_1_r.
                  split; [exact La2|].
                  split; [apply (array_same h1); [exact AR1|]; intros x I; apply KR; rewrite in_app_iff; tauto|].
                  split; [apply (Trees_same own find True OW h1); [exact TL1|]; intros x I; apply KR; rewrite in_app_iff; tauto|].
                  split; [exact BR2|]. split; [exact TP2|].
                  split; [intros x I; apply KI; [exact I|]; apply in_app_iff in I; destruct I as [I|[<-|[]]];
                          [exact (PI1 x I)|eexists _, _; split; [exact Lc|exact PE]]|].
                  split; [reflexivity|].
                  apply NoDup_cons_iff in ND2. destruct ND2 as [NA ND2]. constructor; [intro I; apply NA; rewrite !in_app_iff in *; tauto|].
                  rewrite (app_assoc Fa). apply NoDup_parts. rewrite (app_assoc [d]) in ND2. apply NoDup_parts in ND2.
                  destruct ND2 as (N1 & N2 & A). split; [exact N2|]. split; [exact N1|]. intros x I J. exact (A x J I).
                * apply (Turns_equiv _ _ _ _ _ _ T2); intro x; cbn; rewrite ?in_app_iff; cbn; rewrite ?in_app_iff; cbn; tauto.
            - unfold yattachToGroup. eapply HRuns_step; [apply (run_chunk e _ _ _ _ La1)|]. cbv beta iota.
              eapply HRuns_weaken.
              + eapply (attach_runs (m - 8) a hd _ (fun arr' => YList g (S (List.length la)) arr' (List.length pa) parr) g arr la Fa Fl (Fb ++ Fp) c Fc h1 La1 AR1 TL1);
                  [intros x I; apply in_app_iff in I; destruct I as [I|I]; [exact (LFb x I)|exact (LFp x I)]|exact ND|exact TC|exact NC|exact AP|lia].
              + apply le_n.
              + intro; apply le_n.
              + intros _ h2 (d & La2 & AR2 & TL2 & TC2 & KR & KI & ND2 & T2). exists (a :: [d] ++ (Fl ++ Fc) ++ Fb ++ Fp).
                split; [|split; [exact TC2|split; [|intros g' k' arr' j' parr' L'; rewrite La2 in L'; injection L' as <- <- <- <- <-; lia]]].
                * exists g, (Some d), (la ++ [c]), [d], (Fl ++ Fc), parr, pa, Fb, Fp. rewrite app_length, Nat.add_1_r.
                  split; [exact La2|]. split; [exact AR2|]. split; [exact TL2|].
                  split; [apply (array_same h1); [exact BR1|]; intros x I; apply KR; rewrite in_app_iff; tauto|].
                  split; [apply (Trees_same own find True OW h1); [exact TP1|]; intros x I; apply KR; rewrite in_app_iff; tauto|].
                  split; [intros x I; apply (id_same h1); [exact (PI1 x I)|]; apply KR; rewrite in_app_iff;
                          pose proof (Trees_roots own find True OW _ _ _ _ _ TP1 x I); tauto|].
                  split; [reflexivity|exact ND2].
                * apply (Turns_equiv _ _ _ _ _ _ T2); intro x; cbn; rewrite ?in_app_iff; cbn; rewrite ?in_app_iff; cbn; tauto. }
          intros _ h2 (F2 & L2 & TC2 & T2 & CNT2).
          destruct (Tree_chunk own find True _ _ _ _ _ TC2) as (ci' & cs' & cb' & Lc').
          eapply HRuns_0; [apply (yincrement_runs _ _ _ _ _ _ Lc')|]. intros b2 h3 ->.
          eapply HRuns_weaken; [apply (IH (m - 8)%nat h2 a hd F2 b2); [lia|lia|exact L2|intros g' k' arr' j' parr' L'; specialize (CNT2 _ _ _ _ _ L'); lia]|lia|unfold zero; intro; lia|].
          intros _ h3 (F' & G3 & T3). exists F'. split; [exact G3|].
          eapply Turns_trans; [|exact T3]. eapply Turns_trans; [exact T1'|exact T2].
        + apply HRuns_ret; [reflexivity|]. exists F. destruct (got_beside h F h1 [] LF G) as (KF & _ & T1').
          rewrite app_nil_r in T1'. split; [exact (ListAt_same _ _ _ _ _ GA KF)|exact T1'].
    Qed.

    Variable ft : Z.

    (** A chunk of which the struct exists *)
    Definition Begun (W : Prop) (k : yhandler V) (i s : Z) (h : heap) (a : addr) (F : list addr) : Prop :=
      NoDup F /\ Tree own find W h ft None a F /\ (exists b, ylookup h a = Some (YChunk (mkHeader None i s) b)) /\
      match k with YRAW => wrap_u (size_t_bits e) s = s | _ => True end.

    Lemma Begun_weaken : forall (W W' : Prop) k i s h a F, (W' -> W) -> Begun W k i s h a F -> Begun W' k i s h a F.
    Proof.
      intros W W' k i s h a F I (ND & T & R). split; [exact ND|]. split; [|exact R].
      exact (proj1 (Tree_weaken _ _ _ W W' h I) _ _ _ _ T).
    Qed.

    Lemma GroupAt_begun : forall W k i s h a F, find ft i = Done k -> In k [YFORM; YCAT; YPROP] ->
      GroupAt h a (mkHeader None i s) F -> Begun W k i s h a F.
    Proof.
      intros W k i s h a F FE KK (g & arr & la & Fa & Fl & La & AR & TL & -> & ND). apply (Begun_weaken True); [auto|].
      split; [exact ND|]. split; [exact (T_group _ _ _ _ ft None a i s k g arr la Fa Fl FE KK La AR TL)|].
      split; [eauto|]. destruct KK as [<-|[<-|[<-|[]]]]; exact I.
    Qed.

    Lemma ListAt_begun : forall W i s h a F, find ft i = Done YLIST -> ListAt h a (mkHeader None i s) F -> Begun W YLIST i s h a F.
    Proof.
      intros W i s h a F FE (g & arr & la & Fa & Fl & parr & pa & Fb & Fp & La & AR & TL & BR & TP & PI & -> & ND).
      apply (Begun_weaken True); [auto|].
      split; [exact ND|]. split; [exact (T_list _ _ _ _ ft None a i s g arr la Fa Fl parr pa Fb Fp FE La AR TL BR TP PI)|].
      split; [eauto|exact I].
    Qed.

    (** What createExtensionChunk makes *)
    Lemma create_runs : forall m k i s h, in_range FLong s -> find ft i = Done k ->
      HRuns m zero (fun p h' => match p with
        | None => Turns h [] h' []
        | Some a => exists F, Turns h [] h' F /\ Begun False k i s h' a F /\
            match k with
            | YFORM | YCAT | YPROP => ylookup h' a = Some (YChunk (mkHeader None i s) (YGroup 0 0 None)) /\ F = [a]
            | YLIST => ylookup h' a = Some (YChunk (mkHeader None i s) (YList 0 0 None 0 None)) /\ F = [a]
            | _ => True
            end
        end) (ycreateExtensionChunk k i s) h.
    Proof.
      intros m k i s h R FE.
      assert (ND1 : forall a : addr, NoDup [a]) by (intro; constructor; [intros []|constructor]).
      assert (NIL : Turns h [] h []) by (apply Turns_refl; intros x []).
      assert (GR : In k [YFORM; YCAT; YPROP] -> HRuns m zero (fun p h' => match p with
        | None => Turns h [] h' []
        | Some a => exists F, Turns h [] h' F /\ Begun False k i s h' a F /\
            ylookup h' a = Some (YChunk (mkHeader None i s) (YGroup 0 0 None)) /\ F = [a]
        end) (ycreateGroup i s 0) h).
      { intro KK. eapply HRuns_weaken; [apply malloc_runs|apply le_n|intro; apply le_n|].
        intros [a|] h' H; [|subst h'; exact NIL]. destruct H as (P & _). exists [a].
        split; [exact (Turns_new _ _ _ _ P)|]. split; [|split; [exact (Placed_at _ _ _ _ P)|reflexivity]].
        apply GroupAt_begun; [exact FE|exact KK|]. exists 0, None, [], [], []. split; [exact (Placed_at _ _ _ _ P)|].
        split; [left; auto|]. split; [constructor|]. split; [reflexivity|apply ND1]. }
      destruct k as [| | | | |cb]; cbn [ycreateExtensionChunk]; try (apply GR; cbn; tauto).
      - unfold ycreateList, ycreateChunk.
        assert (LID : IFF_ID_LIST = i).
        { destruct (OW ft i) as (k & E & K). rewrite FE in E. injection E as <-. symmetry. exact K. }
        rewrite LID. eapply HRuns_weaken; [apply malloc_runs|apply le_n|intro; apply le_n|].
        intros [a|] h' H; [|subst h'; exact NIL]. destruct H as (P & _). exists [a].
        split; [exact (Turns_new _ _ _ _ P)|]. split; [|split; [exact (Placed_at _ _ _ _ P)|reflexivity]].
        apply ListAt_begun; [exact FE|]. exists 0, None, [], [], [], None, [], [], []. split; [exact (Placed_at _ _ _ _ P)|].
        split; [left; auto|]. split; [constructor|]. split; [left; auto|]. split; [constructor|]. split; [intros x []|]. split; [reflexivity|apply ND1].
      - unfold ycreateRawChunk, ycreateChunk. eapply HRuns_io0; [apply Runs_ask|]. intros x ->.
        eapply HRuns_0; [apply malloc_runs|]. intros [a|] h1 H; [|subst h1; apply HRuns_ret; [reflexivity|exact NIL]].
        destruct H as (P1 & _). eapply HRuns_0; [apply malloc_runs|]. intros [d|] h2 H.
        + destruct H as (P2 & SM). pose proof (long_size e s R SM) as WU. rewrite WU in P2. cbv beta iota.
          destruct (Placed_other _ _ _ _ a P2 ltac:(rewrite (Placed_at _ _ _ _ P1); discriminate)) as [AD L2a]. rewrite (Placed_at _ _ _ _ P1) in L2a.
          pose proof (Placed_at _ _ _ _ P2) as L2d.
          eapply HRuns_step; [apply run_put; congruence|]. apply HRuns_ret; [reflexivity|].
          exists [a; d].
          assert (T2 : Turns h [] h2 [a; d]) by exact (Turns_beside _ _ _ _ _ _ _ (Turns_new _ _ _ _ P1) P2).
          split; [eapply Turns_trans; [exact T2|]; apply Turns_store_in; [left; reflexivity|exact (tu_live _ _ _ _ T2)]|].
          assert (KA : ylookup (ystore h2 a (YChunk (mkHeader None i s) (YRaw (Some d)))) a =
                       Some (YChunk (mkHeader None i s) (YRaw (Some d)))).
          { rewrite ylookup_store by congruence. rewrite Nat.eqb_refl. reflexivity. }
          split; [|exact I]. split; [constructor; [intros [X|[]]; congruence|apply ND1]|].
          split; [|split; [eexists; exact KA|exact WU]].
          apply (T_raw _ _ _ _ ft None a i s d None FE KA); [|intros []].
          rewrite ylookup_store by congruence. destruct (Nat.eqb_spec d a) as [X|_]; [congruence|exact L2d].
        + subst h2. eapply HRuns_step; [apply run_free; rewrite (Placed_at _ _ _ _ P1); discriminate|]. apply HRuns_ret; [reflexivity|].
          exact (Turns_trans _ _ _ _ _ _ (Turns_new _ _ _ _ P1) (Turns_release _ _)).
      - pose proof (owner_at own find OW ft i cb FE) as O. intro w.
        destruct (ow_create _ _ O i s e w h NS R) as (p & w' & h' & E & (l & C) & P). rewrite E.
        split; [exists l; split; [exact C|apply Nat.le_0_l]|]. destruct p as [a|]; [|exact P].
        destruct P as (F & v & T & OO & La). exists F. split; [exact T|]. split; [|exact I].
        destruct (ow_struct _ _ O _ _ _ OO) as (ND & _). split; [exact ND|].
        split; [exact (T_user _ _ _ _ ft None a i s v cb F FE La OO)|]. split; [eauto|exact I].
    Qed.

    Lemma group_runs : forall f m k i s name h a, (m <= n)%nat -> (m <= f)%nat -> find ft i = Done k -> In k [YFORM; YCAT; YPROP] ->
      ylookup h a = Some (YChunk (mkHeader None i s) (YGroup 0 0 None)) ->
      HRuns m zero (fun _ h' => exists F', Begun True k i s h' a F' /\ Turns h [a] h' F') (yreadGroup rc f a name 0) h.
    Proof.
      intros f m k i s name h a L F FE KK La.
      assert (ND1 : NoDup [a]) by (constructor; [intros []|constructor]).
      assert (G0 : forall h g, ylookup h a = Some (YChunk (mkHeader None i s) (YGroup g 0 None)) -> GroupAt h a (mkHeader None i s) [a]).
      { intros h0 g E. exists g, None, [], [], []. split; [exact E|]. split; [left; auto|]. split; [constructor|]. split; [reflexivity|exact ND1]. }
      unfold yreadGroup. eapply HRuns_step; [apply (run_chunk e _ _ _ _ La)|]. cbv beta iota. cbn [ytype_of o_id o_size].
      eapply HRuns_io0; [apply (readField_runs e NS)|]. intros [[st og] bp] _.
      assert (O : HRuns m zero (fun _ h' => exists F', Begun True k i s h' a F' /\ Turns h [a] h' F') (yret (IFF_deriveSuccess st, bp)) h).
      { apply HRuns_ret; [reflexivity|]. exists [a]. split; [apply GroupAt_begun; [exact FE|exact KK|exact (G0 h 0 La)]|].
        apply Turns_refl. intros x [<-|[]]. congruence. }
      destruct st; try exact O. destruct og as [g|]; [|exact O].
      eapply HRuns_step; [apply run_put; congruence|]. cbn [yset_type].
      assert (La1 : ylookup (ystore h a (YChunk (mkHeader None i s) (YGroup g 0 None))) a = Some (YChunk (mkHeader None i s) (YGroup g 0 None))).
      { rewrite ylookup_store by congruence. rewrite Nat.eqb_refl. reflexivity. }
      eapply HRuns_weaken; [apply (group_loop f m _ a (mkHeader None i s) [a] bp L F (G0 _ g La1)); intros g' k' arr' L'; rewrite La1 in L'; injection L' as <- <- <-; lia|apply le_n|intro; apply le_n|].
      intros _ h' (F' & G' & T'). exists F'. split; [apply GroupAt_begun; assumption|].
      eapply Turns_trans; [apply Turns_store; congruence|exact T'].
    Qed.

    Lemma list_runs : forall f m i s h a, (m <= n)%nat -> (m <= f)%nat -> find ft i = Done YLIST ->
      ylookup h a = Some (YChunk (mkHeader None i s) (YList 0 0 None 0 None)) ->
      HRuns m zero (fun _ h' => exists F', Begun True YLIST i s h' a F' /\ Turns h [a] h' F') (yreadList rc f a 0) h.
    Proof.
      intros f m i s h a L F FE La.
      assert (ND1 : NoDup [a]) by (constructor; [intros []|constructor]).
      assert (G0 : forall h g, ylookup h a = Some (YChunk (mkHeader None i s) (YList g 0 None 0 None)) -> ListAt h a (mkHeader None i s) [a]).
      { intros h0 g E. exists g, None, [], [], [], None, [], [], []. split; [exact E|]. split; [left; auto|]. split; [constructor|].
        split; [left; auto|]. split; [constructor|]. split; [intros x []|]. split; [reflexivity|exact ND1]. }
      unfold yreadList. eapply HRuns_step; [apply (run_chunk e _ _ _ _ La)|]. cbv beta iota. cbn [o_id o_size].
      eapply HRuns_io0; [apply (readField_runs e NS)|]. intros [[st og] bp] _.
      assert (O : HRuns m zero (fun _ h' => exists F', Begun True YLIST i s h' a F' /\ Turns h [a] h' F') (yret (IFF_deriveSuccess st, bp)) h).
      { apply HRuns_ret; [reflexivity|]. exists [a]. split; [apply ListAt_begun; [exact FE|exact (G0 h 0 La)]|].
        apply Turns_refl. intros x [<-|[]]. congruence. }
      destruct st; try exact O. destruct og as [g|]; [|exact O].
      eapply HRuns_step; [apply run_put; congruence|]. cbn [yset_type].
      assert (La1 : ylookup (ystore h a (YChunk (mkHeader None i s) (YList g 0 None 0 None))) a = Some (YChunk (mkHeader None i s) (YList g 0 None 0 None))).
      { rewrite ylookup_store by congruence. rewrite Nat.eqb_refl. reflexivity. }
      eapply HRuns_0; [apply (list_loop f m _ a (mkHeader None i s) [a] bp L F (G0 _ g La1)); intros g' k' arr' j' parr' L'; rewrite La1 in L'; injection L' as <- <- <- <- <-; lia|].
      intros [ok b2] h' (F' & G' & T').
      assert (P : exists F', Begun True YLIST i s h' a F' /\ Turns h [a] h' F').
      { exists F'. split; [apply ListAt_begun; assumption|]. eapply Turns_trans; [apply Turns_store; congruence|exact T']. }
      destruct ok; [apply HRuns_ret; [reflexivity|exact P]|].
      eapply HRuns_io0; [apply Runs_error|]. intros _ _. apply HRuns_ret; [reflexivity|exact P].
    Qed.

    Lemma fields_runs : forall f m k i s h a F, (m <= n)%nat -> (m <= f)%nat -> in_range FLong s -> find ft i = Done k ->
      Begun False k i s h a F ->
      match k with
      | YFORM | YCAT | YPROP => ylookup h a = Some (YChunk (mkHeader None i s) (YGroup 0 0 None)) /\ F = [a]
      | YLIST => ylookup h a = Some (YChunk (mkHeader None i s) (YList 0 0 None 0 None)) /\ F = [a]
      | _ => True
      end ->
      HRuns m zero (fun r h' => exists F', Begun (fst r = true) k i s h' a F' /\ Turns h F h' F') (yreadExtensionChunkFields rc f k a 0) h.
    Proof.
      intros f m k i s h a F L FU R FE BG X.
      destruct k as [| | | | |cb]; cbn [yreadExtensionChunkFields];
        try solve [destruct X as [La ->]; eapply HRuns_weaken;
          [first [apply group_runs; solve [eassumption|cbn; tauto]|apply list_runs; eassumption]|apply le_n|intro; apply le_n|
           intros r h' (F' & BG' & T'); exists F'; split; [exact (Begun_weaken True (fst r = true) _ _ _ _ _ _ (fun _ => I) BG')|exact T']]].
      - destruct BG as (ND & T & (b & La) & WU).
        inversion T as [? ? ? i' s' d c FE' La' Ld WH|? ? ? i' s' v cb ? FE' La' O|? ? ? i' s' k g arr la Fa Fl FE' KK La' AR LL|
          ? ? ? i' s' g arr la Fa Fl parr pa Fb Fp FE' La' AR LL BR LP PI]; subst;
          rewrite La in La'; injection La' as <- <- ->; rewrite FE in FE'; try discriminate.
        2:{ injection FE' as <-. cbn in KK. destruct KK as [KK|[KK|[KK|[]]]]; discriminate. }
        unfold yreadRawChunk. eapply HRuns_io0; [apply Runs_ask|]. intros x ->.
        eapply HRuns_step; [apply (run_chunk e _ _ _ _ La)|]. cbv beta iota zeta. cbn [o_size o_id].
        eapply HRuns_step; [apply (run_load e _ _ _ Ld)|]. cbv beta iota. rewrite WU.
        destruct (Z.ltb_spec s s) as [LT|_]; [lia|].
        assert (BG : forall (W : Prop) h' c', ylookup h' a = ylookup h a -> ylookup h' d = Some (YData s c') ->
          (W -> exists l, c' = Some l /\ zlength l = s) -> Begun W YRAW i s h' a [a; d]).
        { intros W h' c' E1 E2 E3. split; [exact ND|]. rewrite La in E1. split; [exact (T_raw _ _ _ _ ft None a i s d c' FE E1 E2 E3)|].
          split; [eauto|exact WU]. }
        assert (LV : live h [a; d]) by (intros x [<-|[<-|[]]]; congruence).
        eapply HRuns_io0 with (P := fun l => zlength l <= s).
        { intro w0. cbn. split; [exists (ztake s (r_rest (w_in w0))); rewrite ztake_zdrop; split; [reflexivity|apply Nat.le_0_l]|].
          rewrite zlength_ztake. assert (0 <= s); [|lia].
          rewrite <- WU. apply Z.mod_pos_bound. unfold size_t_bits. destruct (lp64 e); reflexivity. }
        intros l LE. destruct (Z.ltb_spec (zlength l) s) as [_|GE].
        + eapply HRuns_io0 with (P := any).
          { eapply Runs_0; [apply Runs_error|]. intros _ _. eapply Runs_0; [apply Runs_errorId|]. intros _ _. apply Runs_error. }
          intros _ _. apply HRuns_ret; [reflexivity|]. exists [a; d]. split; [apply (BG _ h c); [reflexivity|exact Ld|discriminate]|apply Turns_refl; exact LV].
        + eapply HRuns_step; [apply run_put; congruence|]. destruct (INT_MAX <? _); [apply HRuns_undefined, overflow_excused|].
          apply HRuns_ret; [reflexivity|]. exists [a; d].
          assert (AD : a <> d) by (intros ->; congruence).
          split; [|apply Turns_store_in; [right; left; reflexivity|exact LV]].
          apply (BG _ _ (Some l)); rewrite ?ylookup_store by congruence.
          * destruct (Nat.eqb_spec a d) as [X0|_]; [congruence|reflexivity].
          * rewrite Nat.eqb_refl. reflexivity.
          * intros _. exists l. split; [reflexivity|lia].
      - destruct BG as (ND & T & (b & La) & _).
        inversion T as [? ? ? i' s' d c FE' La' Ld WH|? ? ? i' s' v cb' ? FE' La' O|? ? ? i' s' k g arr la Fa Fl FE' KK La' AR LL|
          ? ? ? i' s' g arr la Fa Fl parr pa Fb Fp FE' La' AR LL BR LP PI]; subst;
          rewrite La in La'; injection La' as <- <- ->; rewrite FE in FE'; try discriminate.
        2:{ injection FE' as <-. cbn in KK. destruct KK as [KK|[KK|[KK|[]]]]; discriminate. }
        injection FE' as <-. pose proof (owner_at own find OW ft i cb FE) as OO. intro w.
        destruct (ow_read _ _ OO e w h a F (mkHeader None i s) v NS R O La) as (ok & kk & w' & h' & F' & v' & E & (l & C) & T' & O' & La').
        rewrite E. split; [exists l; split; [exact C|apply Nat.le_0_l]|]. exists F'. split; [|exact T'].
        destruct (ow_struct _ _ OO _ _ _ O') as (ND' & _). split; [exact ND'|].
        split; [exact (T_user _ _ _ _ ft None a i s v' cb F' FE La' O')|]. split; [eauto|exact I].
    Qed.

    Lemma body_runs : forall f m i s h, (m <= n)%nat -> (m <= f)%nat -> in_range FLong s ->
      HRuns m zero (Got h ft) (yreadChunkBody rc find f i s ft) h.
    Proof.
      intros f m i s h L FU R. unfold yreadChunkBody.
      destruct (OW ft i) as (k & FE & _). eapply HRuns_step; [intro w; apply (run_find find e ft i k h FE)|].
      eapply HRuns_0; [apply (create_runs m k i s h R FE)|].
      intros [a|] h1 C; [|apply HRuns_ret; [reflexivity|exact C]]. destruct C as (F & T1 & BG & X).
      eapply HRuns_0; [apply (fields_runs f m k i s h1 a F L FU R FE BG X)|]. intros [ok bp] h2 (F2 & BG2 & T2).
      destruct BG2 as (ND & T & (b & La) & _).
      eapply HRuns_step; [apply (run_chunk e _ _ _ _ La)|]. cbv beta iota.
      eapply HRuns_io0 with (P := fun b : bool => b = true -> ok = true).
      { destruct ok; [|apply Runs_ret; [reflexivity|discriminate]].
        eapply Runs_weaken; [apply andM_runs; [apply Runs_ret; [reflexivity|exact I]|apply andM_runs; [apply (skip_runs e NS)|apply pad_runs]]|apply le_n|intro; apply le_n|auto]. }
      intros [|] OK.
      - apply HRuns_ret; [reflexivity|]. exists F2. split; [exact (Turns_trans _ _ _ _ _ _ T1 T2)|]. split; [exact ND|].
        exact (proj1 (Tree_weaken _ _ _ _ True h2 (fun _ => OK eq_refl)) _ _ _ _ T).
      - eapply HRuns_0; [apply HRuns_ends; apply (freeTree_ends own find _ OW e NS ft None a F2 h2 T ND)|].
        intros u h3 T3. apply HRuns_ret; [reflexivity|].
        exact (Turns_trans _ _ _ _ _ _ (Turns_trans _ _ _ _ _ _ T1 T2) T3).
    Qed.
  End Loops.

  Theorem yreadChunk_runs : forall fuel ft h, Z.of_nat fuel <= inp + 1 -> HRuns fuel (optr 8) (Got h ft) (yreadChunk find fuel ft) h.
  Proof.
    induction fuel as [|f IH]; intros ft h SM; cbn [yreadChunk].
    - intros w LW. lia.
    - assert (NIL : Turns h [] h []) by (apply Turns_refl; intros x []).
      change (IFF_readId ID_EMPTY "") with (read_prim FId ID_EMPTY "").
      eapply HRuns_bind; [apply HRuns_io; apply (read_prim_runs e NS)|]. intros [i|] h1 [_ ->]; [|apply HRuns_ret; [reflexivity|exact NIL]].
      eapply HRuns_bind; [apply HRuns_io; apply (readLong_runs e NS)|]. intros [s|] h1 [R ->]; [|apply HRuns_ret; [reflexivity|exact NIL]].
      eapply HRuns_weaken.
      + apply (body_runs _ f (fun ft h => IH ft h ltac:(lia)) ltac:(lia) ft f f); [apply le_n|apply le_n|exact R].
      + cbn [osize fieldSize]. change (Z.to_nat 4) with 4%nat. lia.
      + intros [c|]; cbn [optr osize fieldSize]; change (Z.to_nat 4) with 4%nat; unfold zero; lia.
      + intros a h' H; exact H.
  Qed.

  Theorem yreadFd_memory : forall w h, inp = zlength (r_rest (w_in w)) ->
    match yIFF_readFd find e w h with
    | Done (p, w', h') => Consumes w w' /\ Got h 0 p h'
    | Undefined u => Excused e inp u
    | OutOfFuel => False
    end.
  Proof.
    intros w h NW. unfold yIFF_readFd. fold (left w).
    assert (E : HRuns (S (left w)) zero (Got h 0)
       (p <-y yreadChunk find (S (left w)) 0 ;;
        match p with
        | None => yio (IFF_error ("ERROR: cannot open main chunk!" ++ nl)%string) ;;y yret None
        | Some c =>
           ob <-y yio fgetc ;;
           match ob with
           | None => yret (Some c)
           | Some b =>
               yio (IFF_error ("WARNING: Trailing IFF contents found: " ++ dec (b2z b) ++ "!" ++ nl)%string) ;;y
               yret (Some c)
           end
        end) h).
    { eapply HRuns_0; [eapply HRuns_weaken; [apply yreadChunk_runs; rewrite NW; unfold left, zlength; lia|apply le_n|intro; apply Nat.le_0_l|intros a h' H; exact H]|].
      unfold zero. intros [c|] h1 FC.
      - eapply HRuns_bind; [apply HRuns_io; apply Runs_fgetc|]. intros [b|] h2 [_ ->]; [|apply HRuns_ret; [reflexivity|exact FC]].
        eapply HRuns_io0; [apply Runs_error|]. intros _ _. apply HRuns_ret; [reflexivity|exact FC].
      - eapply HRuns_io0; [apply Runs_error|]. intros _ _. apply HRuns_ret; [reflexivity|exact FC]. }
    specialize (E w (Nat.lt_succ_diag_r _)). destruct (ybind _ _ e w h) as [[[p w'] h']|u|]; [|exact E|exact E].
    destruct E as [(l & C & _) FR]. split; [exists l; exact C|exact FR].
  Qed.
End Read.
