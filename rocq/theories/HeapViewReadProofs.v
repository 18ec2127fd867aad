(** * Reading into memory and reading values *)

From Coq Require Import ZArith List Bool String Lia.
From Coq Require Import Strings.Byte.
From Verif Require Import Machine Io Types Build Read Spec Lemmas IoProofs HeapReadProofs HeapProofs TermProofs
  Ext ExtSpec ExtReadProofs ExtSafeProofs Heap HeapExt HeapExtSpec HeapExtProofs HeapExtReadProofs HeapViewSpec HeapViewProofs.
Import ListNotations.
Open Scope Z_scope.

(** ** Two computations side by side *)

Section Sim.
  Context {V : Type}.
  Notation heap := (yheap V).
  Variable e : env.

  Definition Sim {A B} (R : A -> B -> heap -> Prop) (m : M A) (n : Y V B) (h : heap) : Prop :=
    forall w, Mirror R (m e w) (n e w h).

  Lemma Sim_ret : forall A B (R : A -> B -> heap -> Prop) a b h, R a b h -> Sim R (ret a) (yret b) h.
  Proof. intros A B R a b h H w. exists b, h. auto. Qed.

  Lemma Sim_undefined : forall A B (R : A -> B -> heap -> Prop) u h, Sim R (undefined u) (yundefined u) h.
  Proof. intros A B R u h w. reflexivity. Qed.

  Lemma Sim_nofuel : forall A B (R : A -> B -> heap -> Prop) h, Sim R nofuel ynofuel h.
  Proof. intros A B R h w. reflexivity. Qed.

  Lemma Sim_bind : forall A B C D (R : A -> B -> heap -> Prop) (Q : C -> D -> heap -> Prop) m n f g h, Sim R m n h ->
    (forall a b h', R a b h' -> Sim Q (f a) (g b) h') -> Sim Q (bind m f) (ybind n g) h.
  Proof.
    intros A B C D R Q m n f g h H K w. specialize (H w). unfold bind, ybind. destruct (m e w) as [[a w1]|u|]; cbn [Mirror] in *.
    - destruct H as (b & h1 & E & RR). rewrite E. apply K. exact RR.
    - rewrite H. reflexivity.
    - rewrite H. reflexivity.
  Qed.

  Lemma Sim_io : forall A (m : M A) h, Sim (fun a b h' => a = b /\ h' = h) m (yio m) h.
  Proof. intros A m h w. unfold yio. destruct (m e w) as [[a w1]|u|]; cbn; eauto. Qed.

  Lemma Sim_io_bind : forall A C D (Q : C -> D -> heap -> Prop) (m : M A) f g h,
    (forall a, Sim Q (f a) (g a) h) -> Sim Q (bind m f) (ybind (yio m) g) h.
  Proof. intros A C D Q m f g h K. eapply Sim_bind; [apply Sim_io|]. intros a b h' [-> ->]. apply K. Qed.

  (** The same, knowing what the operation can give *)
  Lemma Sim_io_case : forall A C D (Q : C -> D -> heap -> Prop) (m : M A) f g h,
    (forall a, (exists w w', m e w = Done (a, w')) -> Sim Q (f a) (g a) h) -> Sim Q (bind m f) (ybind (yio m) g) h.
  Proof.
    intros A C D Q m f g h K w. unfold bind, ybind, yio. destruct (m e w) as [[a w1]|u|] eqn:E; [|reflexivity|reflexivity].
    apply K. eauto.
  Qed.

  (** A step in memory whose outcome is known *)
  Lemma Sim_step : forall A B D (Q : A -> D -> heap -> Prop) (m : M A) (n : Y V B) g h b h',
    (forall w, n e w h = Done (b, w, h')) -> Sim Q m (g b) h' -> Sim Q m (ybind n g) h.
  Proof. intros A B D Q m n g h b h' E K w. unfold ybind. rewrite E. apply K. Qed.

  Lemma Sim_known : forall A B (Q : A -> B -> heap -> Prop) a (n : Y V B) h b h',
    (forall w, n e w h = Done (b, w, h')) -> Q a b h' -> Sim Q (ret a) n h.
  Proof. intros A B Q a n h b h' E K w. exists b, h'. split; [apply E|exact K]. Qed.

  Lemma Sim_weaken : forall A B (R Q : A -> B -> heap -> Prop) m n h, Sim R m n h -> (forall a b h', R a b h' -> Q a b h') -> Sim Q m n h.
  Proof.
    intros A B R Q m n h H K w. specialize (H w). destruct (m e w) as [[a w1]|u|]; cbn [Mirror] in *; [|exact H|exact H].
    destruct H as (b & h1 & E & RR). exists b, h1. auto.
  Qed.

  (** A step of the computation on values whose outcome is known *)
  Lemma Sim_left : forall A B C (Q : C -> B -> heap -> Prop) (m : M A) f (n : Y V B) h a,
    (forall w, m e w = Done (a, w)) -> Sim Q (f a) n h -> Sim Q (bind m f) n h.
  Proof. intros A B C Q m f n h a E K w. unfold bind. rewrite E. apply K. Qed.

  Lemma Sim_right_eq : forall A B (Q : A -> B -> heap -> Prop) m (n n' : Y V B) h, (forall w, n e w h = n' e w h) -> Sim Q m n' h -> Sim Q m n h.
  Proof. intros A B Q m n n' h E K w. rewrite E. apply K. Qed.

  Lemma Sim_left_eq : forall A B (Q : A -> B -> heap -> Prop) m m' (n : Y V B) h, (forall w, m e w = m' e w) -> Sim Q m' n h -> Sim Q m n h.
  Proof. intros A B Q m m' n h E K w. rewrite E. apply K. Qed.

  Lemma Sim_assoc : forall A B C D (Q : A -> D -> heap -> Prop) m (n : Y V B) (f : B -> Y V C) (g : C -> Y V D) h,
    Sim Q m (ybind n (fun x => ybind (f x) g)) h -> Sim Q m (ybind (ybind n f) g) h.
  Proof.
    intros A B C D Q m n f g h K. eapply Sim_right_eq; [|exact K]. intro w. unfold ybind. destruct (n e w h) as [[[b w1] h1]|u|]; reflexivity.
  Qed.

  Lemma Sim_left_assoc : forall A B C D (Q : C -> D -> heap -> Prop) (m : M A) (f : A -> M B) (g : B -> M C) (n : Y V D) h,
    Sim Q (bind m (fun x => bind (f x) g)) n h -> Sim Q (bind (bind m f) g) n h.
  Proof. intros A B C D Q m f g n h K w. rewrite bind_assoc. apply K. Qed.

  (** ** malloc *)

  Lemma Sim_malloc : forall C D (Q : C -> D -> heap -> Prop) z o f g h,
    (forall a h', Placed h a o h' -> z < 2 ^ (size_t_bits e - 1) -> Sim Q (f true) (g (Some a)) h') -> Sim Q (f false) (g None) h ->
    Sim Q (bind (malloc z) f) (ybind (ymalloc z o) g) h.
  Proof.
    intros C D Q z o f g h KT KF. unfold ymalloc. apply Sim_assoc. apply Sim_io_case. intros [|] (w & w' & E).
    - intro w0. apply KT; [apply placed|]. unfold malloc in E. injection E as E _.
      apply andb_true_iff in E. destruct E as [E _]. apply Z.ltb_lt in E. exact E.
    - eapply Sim_step; [intro w0; reflexivity|]. exact KF.
  Qed.

  Lemma Sim_push : forall C D (Q : C -> D -> heap -> Prop) arr la Fa c n f g h, yarray_at h arr la Fa -> n = List.length la ->
    (forall d h', ylookup h' d = Some (YArray (la ++ [c])) -> Turns h Fa h' [d] -> Sim Q f (g (Some d)) h') ->
    Sim Q (ok <- malloc ((Z.of_nat n + 1) * sizeof_pointer) ;; if ok then f else undefined UB_null_deref)
          (ybind (ypush arr n c) g) h.
  Proof.
    intros C D Q arr la Fa c n f g h AR -> K. unfold ypush. apply Sim_assoc.
    assert (YA : forall w, yarray arr e w h = Done (la, w, h)).
    { intro w. destruct AR as [(-> & -> & _)|(d & -> & E & _)]; [reflexivity|]. cbn [yarray]. unfold ybind, yload. rewrite E. reflexivity. }
    eapply Sim_step; [exact YA|]. apply Sim_assoc. apply Sim_io_bind. intros [|]; [|intro w; reflexivity].
    rewrite firstn_all.
    apply Sim_assoc. destruct AR as [(-> & -> & ->)|(d & -> & E & ->)].
    - eapply Sim_step; [intro w; reflexivity|]. intro w.
      apply K; [exact (Placed_at _ _ _ _ (placed e w h _))|exact (Turns_new _ _ _ _ (placed e w h _))].
    - eapply Sim_step; [intro w; apply run_free; congruence|]. intro w.
      apply K; [exact (Placed_at _ _ _ _ (placed e w (yrelease h d) _))|].
      exact (Turns_trans _ _ _ _ _ _ (Turns_release h d) (Turns_new _ _ _ _ (placed e w (yrelease h d) _))).
  Qed.

  Lemma Sim_increment : forall z a hd b c h, ylookup h a = Some (YChunk hd b) -> o_size hd = chunkSize c ->
    Sim (fun x y h' => x = y /\ h' = h) (lift (IFF_incrementChunkSize z c)) (yincrementChunkSize z a) h.
  Proof.
    intros z a hd b c h E S. unfold yincrementChunkSize. eapply Sim_step; [apply (run_chunk e _ _ _ _ E)|]. cbv beta iota zeta.
    unfold IFF_incrementChunkSize. rewrite S. destruct (INT_MAX <? _); [intro w; reflexivity|]. cbv zeta.
    destruct (c_odd _); [destruct (_ =? INT_MAX); [intro w; reflexivity|]|]; intro w; eexists _, _; (split; [reflexivity|split; reflexivity]).
  Qed.
End Sim.

Section Read.
  Context {U V : Type}.
  Notation heap := (yheap V).
  Variable rep : Z -> Z -> heap -> addr -> list addr -> U -> Prop.
  Variable rg : xregistry U.
  Variable find : yfind V.
  Hypothesis RG : Registered rep rg find.
  Variable e : env.
  Hypothesis NS : strict_c e = false.
  Notation Shows := (Shows rep find).
  Notation ShowsAll := (ShowsAll rep find).
  Notation sim := (Sim e).

  Lemma size_bare : forall c : xchunk U, chunkSize (bare c) = xsize c.
  Proof. intros []; reflexivity. Qed.

  (** ** A chunk becomes the last member of a group *)
  Lemma attach_sim : forall C a hd (b0 : ybody V) mk g arr la l Fa Fl R cv c Fc (x : C) h,
    ylookup h a = Some (YChunk hd b0) -> yarray_at h arr la Fa -> ShowsAll h l g (Some a) la Fl -> live h R ->
    NoDup (a :: Fa ++ Fl ++ R) -> Shows h cv g None c Fc -> NoDup Fc -> apart (a :: Fa ++ Fl ++ R) Fc ->
    sim (fun y _ h' => y = x /\ exists d,
        ylookup h' a = Some (YChunk hd (mk (Some d))) /\ yarray_at h' (Some d) (la ++ [c]) [d] /\
        ShowsAll h' (l ++ [cv]) g (Some a) (la ++ [c]) (Fl ++ Fc) /\ Shows h' cv g (Some a) c Fc /\
        (forall x, In x R -> ylookup h' x = ylookup h x) /\
        NoDup (a :: [d] ++ (Fl ++ Fc) ++ R) /\
        Turns h (a :: Fa ++ Fl ++ R ++ Fc) h' (a :: [d] ++ (Fl ++ Fc) ++ R))
      (ok <- malloc ((zlength l + 1) * sizeof_pointer) ;; if ok then ret x else undefined UB_null_deref)
      (arr' <-y ypush arr (List.length la) c ;; yput a (YChunk hd (mk arr')) ;;y yset_parent c (Some a)) h.
  Proof.
    intros C a hd b0 mk g arr la l Fa Fl R cv c Fc x0 h La AR TL LR ND TC NC AP.
    pose proof (array_live _ _ _ _ AR) as LFa. pose proof (proj2 (Shows_live rep rg find RG h) _ _ _ _ _ TL) as LFl.
    destruct (proj1 (Shows_live rep rg find RG h) _ _ _ _ _ TC) as [LFc IC].
    apply NoDup_cons_iff in ND. destruct ND as [NA ND]. apply NoDup_parts in ND. destruct ND as (NFa & ND & A1).
    apply NoDup_parts in ND. destruct ND as (NFl & NR & A2).
    assert (AAc : ~ In a Fc) by (apply AP; left; reflexivity).
    assert (AFl : forall x, In x Fl -> ~ In x Fc) by (intros x I; apply AP; right; rewrite !in_app_iff; tauto).
    assert (AR' : forall x, In x R -> ~ In x Fc) by (intros x I; apply AP; right; rewrite !in_app_iff; tauto).
    assert (AFa : forall x, In x Fa -> ~ In x Fc) by (intros x I; apply AP; right; rewrite !in_app_iff; tauto).
    assert (NAC : a <> c) by (intros ->; exact (AAc IC)).
    set (G := a :: (Fl ++ Fc) ++ R).
    assert (LG : live h G).
    { intros x [<-|I]; [congruence|]. rewrite !in_app_iff in I. destruct I as [[I|I]|I]; [exact (LFl x I)|exact (LFc x I)|exact (LR x I)]. }
    assert (AG : apart G Fa).
    { intros x [<-|I] J; [apply NA; rewrite !in_app_iff; tauto|]. rewrite !in_app_iff in I.
      destruct I as [[I|I]|I].
      - apply (A1 x J). rewrite in_app_iff. tauto.
      - exact (AFa x J I).
      - apply (A1 x J). rewrite in_app_iff. tauto. }
    unfold zlength. rewrite <- (ShowsAll_length rep find _ _ _ _ _ _ TL).
    apply (Sim_push e _ _ _ arr la Fa); [exact AR|reflexivity|]. intros d h1 D1 T1.
    assert (K1 : forall x, In x G -> ylookup h1 x = ylookup h x) by (intros x I; exact (Turns_keeps _ _ _ _ _ x T1 LG AG I)).
    assert (DG : ~ In d G) by (intro I; exact (Turns_apart _ _ _ _ _ T1 LG AG d I (or_introl eq_refl))).
    assert (La1 : ylookup h1 a = Some (YChunk hd b0)) by (rewrite K1 by (left; reflexivity); exact La).
    assert (T1' : Turns h (a :: Fa ++ Fl ++ R ++ Fc) h1 (a :: [d] ++ (Fl ++ Fc) ++ R)).
    { apply (Turns_within _ _ _ _ G _ _ T1 LG AG); intro x; unfold G; cbn [In app]; rewrite ?in_app_iff; cbn [In]; tauto. }
    assert (L1 : live h1 (a :: [d] ++ (Fl ++ Fc) ++ R)) by exact (tu_live _ _ _ _ T1').
    eapply Sim_step; [apply run_put; congruence|].
    set (h2 := ystore h1 a (YChunk hd (mk (Some d)))).
    assert (K2 : forall x, ylookup h2 x = if Nat.eqb x a then Some (YChunk hd (mk (Some d))) else ylookup h1 x)
      by (intro x; apply ylookup_store; congruence).
    assert (T2 : Turns h (a :: Fa ++ Fl ++ R ++ Fc) h2 (a :: [d] ++ (Fl ++ Fc) ++ R)).
    { eapply Turns_trans; [exact T1'|]. apply Turns_store_in; [left; reflexivity|exact L1]. }
    assert (K2' : forall x, In x G -> x <> a -> ylookup h2 x = ylookup h x).
    { intros x I X. rewrite K2. destruct (Nat.eqb_spec x a) as [->|_]; [congruence|]. exact (K1 x I). }
    assert (TC2 : Shows h2 cv g None c Fc).
    { apply (proj1 (Shows_same rep rg find RG h h2)); [exact TC|]. intros x I. apply K2'; [unfold G; right; rewrite !in_app_iff; tauto|].
      intros ->. exact (AAc I). }
    destruct (Shows_chunk rep find _ _ _ _ _ _ TC2) as (b & Lc).
    set (h3 := ystore h2 c (YChunk (set_parent (mkHeader None (xid cv) (xsize cv)) (Some a)) b)).
    assert (K3 : forall x, x <> c -> ylookup h3 x = ylookup h2 x).
    { intros x X. unfold h3. rewrite ylookup_store by congruence. destruct (Nat.eqb_spec x c) as [->|_]; [congruence|reflexivity]. }
    apply (Sim_known _ _ _ _ _ _ h2 tt h3); [apply run_parent; exact Lc|]. split; [reflexivity|]. exists d.
    assert (DC : d <> c) by (intros ->; apply DG; unfold G; right; rewrite !in_app_iff; tauto).
    assert (DA : d <> a) by (intros ->; apply DG; left; reflexivity).
    assert (TC3 : Shows h3 cv g (Some a) c Fc) by (apply (Shows_parent rep rg find RG h2 cv g None); assumption).
    split; [rewrite K3, K2, Nat.eqb_refl by exact NAC; reflexivity|].
    split.
    { right. exists d. split; [reflexivity|]. split; [|reflexivity].
      rewrite K3, K2 by exact DC. destruct (Nat.eqb_spec d a) as [->|_]; [congruence|exact D1]. }
    split.
    { apply (ShowsAll_snoc rep find); [|exact TC3]. apply (ShowsAll_same rep rg find RG h); [exact TL|].
      intros x I. rewrite K3 by (intros ->; exact (AFl c I IC)). apply K2'; [unfold G; right; rewrite !in_app_iff; tauto|].
      intros ->. apply NA. rewrite !in_app_iff. tauto. }
    split; [exact TC3|].
    split.
    { intros x I. rewrite K3 by (intros ->; exact (AR' c I IC)). apply K2'; [unfold G; right; rewrite !in_app_iff; tauto|].
      intros ->. apply NA. rewrite !in_app_iff. tauto. }
    split.
    { constructor.
      - cbn [app In]. rewrite !in_app_iff. intros [X|[[X|X]|X]]; [congruence| |tauto|]; apply NA; rewrite !in_app_iff; tauto.
      - cbn [app]. constructor; [intro I; apply DG; right; exact I|].
        apply NoDup_parts. split; [apply NoDup_parts; split; [exact NFl|split; [exact NC|exact AFl]]|split; [exact NR|]].
        intros x I J. rewrite in_app_iff in I. destruct I as [I|I]; [exact (A2 x I J)|exact (AR' x J I)]. }
    eapply Turns_trans; [exact T2|]. apply Turns_store_in; [|exact (tu_live _ _ _ _ T2)].
    right. right. cbn [app]. rewrite !in_app_iff. tauto.
  Qed.

  (** ** Groups that are being read *)

  (** What readChunk gives back *)
  Definition Gives (h : heap) (ft : Z) (oc : option (xchunk U)) (p : ptr) (h' : heap) : Prop :=
    match oc, p with
    | None, None => Turns h [] h' []
    | Some c, Some a => exists F, Turns h [] h' F /\ NoDup F /\ Shows h' c ft None a F
    | _, _ => False
    end.

  Definition GroupIs (h : heap) (a : addr) (i s g : Z) (l : list (xchunk U)) (F : list addr) : Prop :=
    exists arr la Fa Fl, ylookup h a = Some (YChunk (mkHeader None i s) (YGroup g (List.length la) arr)) /\
      yarray_at h arr la Fa /\ ShowsAll h l g (Some a) la Fl /\ F = a :: Fa ++ Fl /\ NoDup F.

  Definition ListIs (h : heap) (a : addr) (i s g : Z) (pl l : list (xchunk U)) (F : list addr) : Prop :=
    exists arr la Fa Fl parr pa Fb Fp,
      ylookup h a = Some (YChunk (mkHeader None i s) (YList g (List.length la) arr (List.length pa) parr)) /\
      yarray_at h arr la Fa /\ ShowsAll h l g (Some a) la Fl /\
      yarray_at h parr pa Fb /\ ShowsAll h pl g (Some a) pa Fp /\
      (forall c, In c pl -> xid c = PROP_ID) /\
      F = a :: Fa ++ Fl ++ Fb ++ Fp /\ NoDup F.

  Lemma GroupIs_live : forall h a i s g l F, GroupIs h a i s g l F -> live h F.
  Proof.
    intros h a i s g l F (arr & la & Fa & Fl & La & AR & TL & -> & _) x [<-|I]; [congruence|].
    apply in_app_iff in I. destruct I as [I|I]; [exact (array_live _ _ _ _ AR x I)|exact (proj2 (Shows_live rep rg find RG h) _ _ _ _ _ TL x I)].
  Qed.

  Lemma GroupIs_same : forall h h' a i s g l F, GroupIs h a i s g l F -> (forall x, In x F -> ylookup h' x = ylookup h x) -> GroupIs h' a i s g l F.
  Proof.
    intros h h' a i s g l F (arr & la & Fa & Fl & La & AR & TL & -> & N) K. exists arr, la, Fa, Fl.
    split; [rewrite K by (left; reflexivity); exact La|].
    split; [apply (array_same h); [exact AR|]; intros x I; apply K; right; rewrite in_app_iff; tauto|].
    split; [apply (ShowsAll_same rep rg find RG h); [exact TL|]; intros x I; apply K; right; rewrite in_app_iff; tauto|]. auto.
  Qed.

  Lemma ListIs_live : forall h a i s g pl l F, ListIs h a i s g pl l F -> live h F.
  Proof.
    intros h a i s g pl l F (arr & la & Fa & Fl & parr & pa & Fb & Fp & La & AR & TL & BR & TP & PI & -> & _) x [<-|I]; [congruence|].
    rewrite !in_app_iff in I.
    destruct I as [I|[I|[I|I]]];
      [exact (array_live _ _ _ _ AR x I)|exact (proj2 (Shows_live rep rg find RG h) _ _ _ _ _ TL x I)|
       exact (array_live _ _ _ _ BR x I)|exact (proj2 (Shows_live rep rg find RG h) _ _ _ _ _ TP x I)].
  Qed.

  Lemma ListIs_same : forall h h' a i s g pl l F, ListIs h a i s g pl l F -> (forall x, In x F -> ylookup h' x = ylookup h x) -> ListIs h' a i s g pl l F.
  Proof.
    intros h h' a i s g pl l F (arr & la & Fa & Fl & parr & pa & Fb & Fp & La & AR & TL & BR & TP & PI & -> & N) K.
    exists arr, la, Fa, Fl, parr, pa, Fb, Fp.
    split; [rewrite K by (left; reflexivity); exact La|].
    split; [apply (array_same h); [exact AR|]; intros x I; apply K; right; rewrite !in_app_iff; tauto|].
    split; [apply (ShowsAll_same rep rg find RG h); [exact TL|]; intros x I; apply K; right; rewrite !in_app_iff; tauto|].
    split; [apply (array_same h); [exact BR|]; intros x I; apply K; right; rewrite !in_app_iff; tauto|].
    split; [apply (ShowsAll_same rep rg find RG h); [exact TP|]; intros x I; apply K; right; rewrite !in_app_iff; tauto|].
    auto.
  Qed.

  (** The result of reading: success, the chunk, and the bytes *)
  Definition Says (P : xchunk U -> heap -> Prop) (r : bool * xchunk U * Z) (q : bool * Z) (h' : heap) : Prop :=
    fst (fst r) = fst q /\ snd r = snd q /\ P (snd (fst r)) h'.

  Section Loops.
    Variable rx : Z -> M (option (xchunk U)).
    Variable ry : Z -> Y V ptr.
    Hypothesis RC : forall ft h, sim (Gives h ft) (rx ft) (ry ft) h.

    Lemma group_loop_sim : forall f h a i s g l F bp, GroupIs h a i s g l F ->
      sim (Says (fun c h' => exists l' F', c = XGroup i s g l' /\ GroupIs h' a i s g l' F' /\ Turns h F h' F'))
        (xreadGroupSubChunks rx f (XGroup i s g l) g bp) (yreadGroupSubChunks ry f a bp) h.
    Proof.
      induction f as [|f IH]; intros h a i s g l F bp GA;
        pose proof (GroupIs_live _ _ _ _ _ _ _ GA) as LF; pose proof GA as (arr & la & Fa & Fl & La & AR & TL & EF & ND);
        cbn [yreadGroupSubChunks xreadGroupSubChunks xsize]; (eapply Sim_step; [apply (run_chunk e _ _ _ _ La)|]); cbv beta iota; cbn [o_size ytype_of];
        (destruct (bp <? s);
         [|apply Sim_bind with (R := fun _ _ h' => h' = h);
           [destruct (s <? bp);
             [eapply Sim_weaken; [apply Sim_io|intros ? ? ? [_ ?]; assumption]
             |apply Sim_ret; reflexivity]
           |intros _ _ h1 ->; apply Sim_ret; split; [reflexivity|]; split; [reflexivity|]; exists l, F;
            split; [reflexivity|split; [exact GA|apply Turns_refl; exact LF]]]]).
      - apply Sim_nofuel.
      - eapply Sim_bind; [apply (RC g h)|]. intros [cv|] [c|] h1 G; try contradiction; cbn [Gives] in G.
        + destruct G as (Fc & T1 & NC & TC). destruct (got_beside h F h1 Fc LF T1) as (KF & AP & T1').
          subst F. unfold yattachToGroup.
          assert (La1 : ylookup h1 a = Some (YChunk (mkHeader None i s) (YGroup g (List.length la) arr)))
            by (rewrite KF by (left; reflexivity); exact La).
          assert (AR1 : yarray_at h1 arr la Fa)
            by (apply (array_same h); [exact AR|]; intros x I; apply KF; right; rewrite in_app_iff; tauto).
          assert (TL1 : ShowsAll h1 l g (Some a) la Fl)
            by (apply (ShowsAll_same rep rg find RG h); [exact TL|]; intros x I; apply KF; right; rewrite in_app_iff; tauto).
          cbn [xattachToGroup]. eapply Sim_bind.
          { eapply Sim_step; [apply (run_chunk e _ _ _ _ La1)|]. cbv beta iota.
            eapply (attach_sim _ a (mkHeader None i s) _ (fun arr' => YGroup g (S (List.length la)) arr') g arr la l Fa Fl [] cv c Fc _ h1 La1 AR1 TL1);
              [intros x []|rewrite app_nil_r; exact ND|exact TC|exact NC|rewrite app_nil_r; exact AP]. }
          intros c2 _ h2 (-> & d & La2 & AR2 & TL2 & TC2 & _ & ND2 & T2).
          destruct (Shows_chunk rep find _ _ _ _ _ _ TC2) as (cb & Lc).
          eapply Sim_bind; [apply (Sim_increment e _ _ _ _ (bare cv) _ Lc); rewrite size_bare; reflexivity|]. intros b2 b2' h3 [-> ->].
          rewrite app_nil_r in *. cbn [app] in T2.
          eapply Sim_weaken; [apply (IH h2 a i s g (l ++ [cv]) (a :: [d] ++ Fl ++ Fc) b2')|].
          * exists (Some d), (la ++ [c]), [d], (Fl ++ Fc). rewrite app_length, Nat.add_1_r. auto.
          * intros r q h3 (E1 & E2 & l' & F' & E3 & G3 & T3). split; [exact E1|]. split; [exact E2|]. exists l', F'.
            split; [exact E3|]. split; [exact G3|].
            eapply Turns_trans; [|exact T3]. eapply Turns_trans; [|exact T2].
            apply (Turns_equiv _ _ _ _ _ _ T1'); intro x; cbn; rewrite ?in_app_iff; cbn; tauto.
        + apply Sim_ret. split; [reflexivity|]. split; [reflexivity|]. exists l, F. split; [reflexivity|].
          destruct (got_beside h F h1 [] LF G) as (KF & _ & T1').
          rewrite app_nil_r in T1'. split; [exact (GroupIs_same _ _ _ _ _ _ _ _ GA KF)|exact T1'].
    Qed.

    Lemma list_loop_sim : forall f h a i s g pl l F bp, ListIs h a i s g pl l F ->
      sim (Says (fun c h' => exists pl' l' F', c = XList i s g pl' l' /\ ListIs h' a i s g pl' l' F' /\ Turns h F h' F'))
        (xreadListSubChunks rx f (XList i s g pl l) g bp) (yreadListSubChunks ry f a bp) h.
    Proof.
      induction f as [|f IH]; intros h a i s g pl l F bp GA;
        pose proof (ListIs_live _ _ _ _ _ _ _ _ GA) as LF;
        pose proof GA as (arr & la & Fa & Fl & parr & pa & Fb & Fp & La & AR & TL & BR & TP & PI & EF & ND);
        cbn [yreadListSubChunks xreadListSubChunks xsize]; (eapply Sim_step; [apply (run_chunk e _ _ _ _ La)|]); cbv beta iota; cbn [o_size ytype_of];
        (destruct (bp <? s);
         [|apply Sim_bind with (R := fun _ _ h' => h' = h);
           [destruct (s <? bp);
             [eapply Sim_weaken; [apply Sim_io|intros ? ? ? [_ ?]; assumption]
             |apply Sim_ret; reflexivity]
           |intros _ _ h1 ->; apply Sim_ret; split; [reflexivity|]; split; [reflexivity|]; exists pl, l, F;
            split; [reflexivity|split; [exact GA|apply Turns_refl; exact LF]]]]).
      - apply Sim_nofuel.
      - eapply Sim_bind; [apply (RC g h)|]. intros [cv|] [c|] h1 G; try contradiction; cbn [Gives] in G.
        + destruct G as (Fc & T1 & NC & TC). destruct (got_beside h F h1 Fc LF T1) as (KF & AP & T1').
          subst F.
          assert (La1 : ylookup h1 a = Some (YChunk (mkHeader None i s) (YList g (List.length la) arr (List.length pa) parr)))
            by (rewrite KF by (left; reflexivity); exact La).
          assert (AR1 : yarray_at h1 arr la Fa)
            by (apply (array_same h); [exact AR|]; intros x I; apply KF; right; rewrite !in_app_iff; tauto).
          assert (TL1 : ShowsAll h1 l g (Some a) la Fl)
            by (apply (ShowsAll_same rep rg find RG h); [exact TL|]; intros x I; apply KF; right; rewrite !in_app_iff; tauto).
          assert (BR1 : yarray_at h1 parr pa Fb)
            by (apply (array_same h); [exact BR|]; intros x I; apply KF; right; rewrite !in_app_iff; tauto).
          assert (TP1 : ShowsAll h1 pl g (Some a) pa Fp)
            by (apply (ShowsAll_same rep rg find RG h); [exact TP|]; intros x I; apply KF; right; rewrite !in_app_iff; tauto).
          pose proof (array_live _ _ _ _ AR1) as LFa. pose proof (proj2 (Shows_live rep rg find RG h1) _ _ _ _ _ TL1) as LFl.
          pose proof (array_live _ _ _ _ BR1) as LFb. pose proof (proj2 (Shows_live rep rg find RG h1) _ _ _ _ _ TP1) as LFp.
          destruct (Shows_chunk rep find _ _ _ _ _ _ TC) as (cb & Lc).
          eapply Sim_step; [apply (run_chunk e _ _ _ _ Lc)|]. cbv beta iota. cbn [o_id].
          apply Sim_bind with (R := fun c2 _ h2 => exists pl2 l2 F2, c2 = XList i s g pl2 l2 /\ ListIs h2 a i s g pl2 l2 F2 /\
            Shows h2 cv g (Some a) c Fc /\ Turns h1 ((a :: Fa ++ Fl ++ Fb ++ Fp) ++ Fc) h2 F2).
          { destruct (Z.eqb_spec (xid cv) IFF_ID_PROP) as [PE|_].
            - unfold yattachProp. eapply Sim_step; [apply (run_chunk e _ _ _ _ La1)|]. cbv beta iota. cbn [xaddPropToList].
              eapply Sim_weaken.
              + eapply (attach_sim _ a (mkHeader None i s) _ (fun arr' => YList g (List.length la) arr (S (List.length pa)) arr') g parr pa pl Fb Fp (Fa ++ Fl) cv c Fc _ h1 La1 BR1 TP1);
                  [intros x I; apply in_app_iff in I; destruct I as [I|I]; [exact (LFa x I)|exact (LFl x I)]| |exact TC|exact NC| ].
                * apply NoDup_cons_iff in ND. destruct ND as [NA ND]. constructor; [intro I; apply NA; rewrite !in_app_iff in *; tauto|].
                  rewrite (app_assoc Fb). apply NoDup_parts. rewrite (app_assoc Fa) in ND. apply NoDup_parts in ND.
                  destruct ND as (N1 & N2 & A). split; [exact N2|]. split; [exact N1|]. intros x I J. exact (A x J I).
                * intros x I. apply AP. cbn [In] in *. rewrite !in_app_iff in *. tauto.
              + intros c2 _ h2 (-> & d & La2 & BR2 & TP2 & TC2 & KR & ND2 & T2). exists (pl ++ [cv]), l, (a :: Fa ++ Fl ++ [d] ++ Fp ++ Fc).
                split; [reflexivity|]. split; [|split; [exact TC2|]].
                * exists arr, la, Fa, Fl, (Some d), (pa ++ [c]), [d], (Fp ++ Fc). rewrite app_length, Nat.add_1_r.
                  split; [exact La2|].
                  split; [apply (array_same h1); [exact AR1|]; intros x I; apply KR; rewrite in_app_iff; tauto|].
                  split; [apply (ShowsAll_same rep rg find RG h1); [exact TL1|]; intros x I; apply KR; rewrite in_app_iff; tauto|].
                  split; [exact BR2|]. split; [exact TP2|].
                  split; [intros x I; apply in_app_iff in I; destruct I as [I|[<-|[]]]; [exact (PI x I)|exact PE]|].
                  split; [reflexivity|].
                  apply NoDup_cons_iff in ND2. destruct ND2 as [NA ND2]. constructor; [intro I; apply NA; rewrite !in_app_iff in *; tauto|].
                  rewrite (app_assoc Fa). apply NoDup_parts. rewrite (app_assoc [d]) in ND2. apply NoDup_parts in ND2.
                  destruct ND2 as (N1 & N2 & A). split; [exact N2|]. split; [exact N1|]. intros x I J. exact (A x J I).
                * apply (Turns_equiv _ _ _ _ _ _ T2); intro x; cbn; rewrite ?in_app_iff; cbn; rewrite ?in_app_iff; cbn; tauto.
            - unfold yattachToGroup. eapply Sim_step; [apply (run_chunk e _ _ _ _ La1)|]. cbv beta iota. cbn [xattachToGroup].
              eapply Sim_weaken.
              + eapply (attach_sim _ a (mkHeader None i s) _ (fun arr' => YList g (S (List.length la)) arr' (List.length pa) parr) g arr la l Fa Fl (Fb ++ Fp) cv c Fc _ h1 La1 AR1 TL1);
                  [intros x I; apply in_app_iff in I; destruct I as [I|I]; [exact (LFb x I)|exact (LFp x I)]|exact ND|exact TC|exact NC|exact AP].
              + intros c2 _ h2 (-> & d & La2 & AR2 & TL2 & TC2 & KR & ND2 & T2). exists pl, (l ++ [cv]), (a :: [d] ++ (Fl ++ Fc) ++ Fb ++ Fp).
                split; [reflexivity|]. split; [|split; [exact TC2|]].
                * exists (Some d), (la ++ [c]), [d], (Fl ++ Fc), parr, pa, Fb, Fp. rewrite app_length, Nat.add_1_r.
                  split; [exact La2|]. split; [exact AR2|]. split; [exact TL2|].
                  split; [apply (array_same h1); [exact BR1|]; intros x I; apply KR; rewrite in_app_iff; tauto|].
                  split; [apply (ShowsAll_same rep rg find RG h1); [exact TP1|]; intros x I; apply KR; rewrite in_app_iff; tauto|].
                  split; [exact PI|]. split; [reflexivity|exact ND2].
                * apply (Turns_equiv _ _ _ _ _ _ T2); intro x; cbn; rewrite ?in_app_iff; cbn; rewrite ?in_app_iff; cbn; tauto. }
          intros c2 _ h2 (pl2 & l2 & F2 & -> & L2 & TC2 & T2).
          destruct (Shows_chunk rep find _ _ _ _ _ _ TC2) as (cb' & Lc').
          eapply Sim_bind; [apply (Sim_increment e _ _ _ _ (bare cv) _ Lc'); rewrite size_bare; reflexivity|]. intros b2 b2' h3 [-> ->].
          eapply Sim_weaken; [apply (IH h2 a i s g pl2 l2 F2 b2' L2)|].
          intros r q h3 (E1 & E2 & pl' & l' & F' & E3 & G3 & T3). split; [exact E1|]. split; [exact E2|]. exists pl', l', F'.
          split; [exact E3|]. split; [exact G3|].
          eapply Turns_trans; [|exact T3]. eapply Turns_trans; [exact T1'|exact T2].
        + apply Sim_ret. split; [reflexivity|]. split; [reflexivity|]. exists pl, l, F. split; [reflexivity|].
          destruct (got_beside h F h1 [] LF G) as (KF & _ & T1').
          rewrite app_nil_r in T1'. split; [exact (ListIs_same _ _ _ _ _ _ _ _ _ GA KF)|exact T1'].
    Qed.

    Variable ft : Z.

    (** A chunk of which the struct exists *)
    Definition Started (k : yhandler V) (i s : Z) (c : xchunk U) (h : heap) (a : addr) (F : list addr) : Prop :=
      NoDup F /\ Shows h c ft None a F /\ xid c = i /\ xsize c = s /\
      match k with YRAW => wrap_u (size_t_bits e) s = s | _ => True end.

    Lemma GroupIs_started : forall k i s g l h a F, find ft i = Done k -> In k [YFORM; YCAT; YPROP] ->
      GroupIs h a i s g l F -> Started k i s (XGroup i s g l) h a F.
    Proof.
      intros k i s g l h a F FE KK (arr & la & Fa & Fl & La & AR & TL & -> & ND).
      split; [exact ND|]. split; [exact (S_group _ _ _ ft None a i s k g arr la l Fa Fl FE KK La AR TL)|].
      split; [reflexivity|]. split; [reflexivity|]. destruct KK as [<-|[<-|[<-|[]]]]; exact I.
    Qed.

    Lemma ListIs_started : forall i s g pl l h a F, find ft i = Done YLIST -> ListIs h a i s g pl l F -> Started YLIST i s (XList i s g pl l) h a F.
    Proof.
      intros i s g pl l h a F FE (arr & la & Fa & Fl & parr & pa & Fb & Fp & La & AR & TL & BR & TP & PI & -> & ND).
      split; [exact ND|]. split; [exact (S_list _ _ _ ft None a i s g arr la l Fa Fl parr pa pl Fb Fp FE La AR TL BR TP PI)|].
      split; [reflexivity|]. split; [reflexivity|exact I].
    Qed.

    (** The same type in both registries *)
    Definition Matches (i : Z) (x : xhandler U) (k : yhandler V) : Prop :=
      match k, x with
      | YFORM, XForm | YCAT, XCAT | YPROP, XProp | YRAW, XRAW => True
      | YLIST, XLIST => i = LIST_ID
      | YCALL yc, XCall cb => Refines (rep ft i) cb yc
      | _, _ => False
      end.

    (** What createExtensionChunk makes *)
    Lemma create_sim : forall x k i s h, in_range FLong s -> find ft i = Done k -> Matches i x k ->
      sim (fun oc p h' => match oc, p with
        | None, None => Turns h [] h' []
        | Some c, Some a => exists F, Turns h [] h' F /\ Started k i s c h' a F /\
            match k with
            | YFORM | YCAT | YPROP => c = XGroup i s 0 [] /\ ylookup h' a = Some (YChunk (mkHeader None i s) (YGroup 0 0 None)) /\ F = [a]
            | YLIST => c = XList i s 0 [] [] /\ ylookup h' a = Some (YChunk (mkHeader None i s) (YList 0 0 None 0 None)) /\ F = [a]
            | YRAW => exists d, c = XRaw i s d
            | YCALL _ => exists u, c = XUser i s u
            end
        | _, _ => False
        end) (xcreateExtensionChunk x i s) (ycreateExtensionChunk k i s) h.
    Proof.
      intros x k i s h R FE MA.
      assert (ND1 : forall a : addr, NoDup [a]) by (intro; constructor; [intros []|constructor]).
      assert (NIL : Turns h [] h []) by (apply Turns_refl; intros y []).
      assert (RETR : forall A (m : Y V A) w, m e w h = ybind m yret e w h)
        by (intros A m w; unfold ybind; destruct (m e w h) as [[[? ?] ?]|?|]; reflexivity).
      assert (GR : In k [YFORM; YCAT; YPROP] -> sim (fun oc p h' => match oc, p with
        | None, None => Turns h [] h' []
        | Some c, Some a => exists F, Turns h [] h' F /\ Started k i s c h' a F /\
            (c = XGroup i s 0 [] /\ ylookup h' a = Some (YChunk (mkHeader None i s) (YGroup 0 0 None)) /\ F = [a])
        | _, _ => False
        end) (ok <- malloc sizeof_Group ;; ret (if ok then Some (XGroup i s 0 []) else None)) (ycreateGroup i s 0) h).
      { intro KK. eapply Sim_right_eq; [intro w; apply RETR|]. apply Sim_malloc.
        - intros a h1 P _. apply Sim_ret. exists [a].
          split; [exact (Turns_new _ _ _ _ P)|]. split; [|split; [reflexivity|split; [exact (Placed_at _ _ _ _ P)|reflexivity]]].
          apply GroupIs_started; [exact FE|exact KK|]. exists None, [], [], []. split; [exact (Placed_at _ _ _ _ P)|].
          split; [left; auto|]. split; [constructor|]. split; [reflexivity|apply ND1].
        - apply Sim_ret. exact NIL. }
      destruct k as [| | | | |yc]; destruct x as [| | | | |cb]; try contradiction; cbn [ycreateExtensionChunk xcreateExtensionChunk];
        try (apply GR; cbn; tauto).
      - unfold ycreateList, ycreateChunk. cbn [Matches] in MA.
        assert (LID : IFF_ID_LIST = i) by (symmetry; exact MA).
        rewrite LID. eapply Sim_right_eq; [intro w; apply RETR|]. apply Sim_malloc.
        + intros a h1 P _. apply Sim_ret. exists [a].
          split; [exact (Turns_new _ _ _ _ P)|]. split; [|split; [reflexivity|split; [exact (Placed_at _ _ _ _ P)|reflexivity]]].
          apply ListIs_started; [exact FE|]. exists None, [], [], [], None, [], [], []. split; [exact (Placed_at _ _ _ _ P)|].
          split; [left; auto|]. split; [constructor|]. split; [left; auto|]. split; [constructor|]. split; [intros y []|]. split; [reflexivity|apply ND1].
        + apply Sim_ret. exact NIL.
      - unfold ycreateRawChunk, ycreateChunk. apply Sim_io_case. intros x (w0 & w1 & E). injection E as <- _.
        apply Sim_malloc; [intros a h1 P1 _|apply Sim_ret; exact NIL].
        apply Sim_malloc.
        + intros d h2 P2 SM. pose proof (long_size e s R SM) as WU. rewrite WU in P2. cbv beta iota.
          destruct (Placed_other _ _ _ _ a P2 ltac:(rewrite (Placed_at _ _ _ _ P1); discriminate)) as [AD L2a]. rewrite (Placed_at _ _ _ _ P1) in L2a.
          pose proof (Placed_at _ _ _ _ P2) as L2d.
          eapply Sim_step; [apply run_put; congruence|]. apply Sim_ret.
          exists [a; d].
          assert (T2 : Turns h [] h2 [a; d]) by exact (Turns_beside _ _ _ _ _ _ _ (Turns_new _ _ _ _ P1) P2).
          split; [eapply Turns_trans; [exact T2|]; apply Turns_store_in; [left; reflexivity|exact (tu_live _ _ _ _ T2)]|].
          assert (KA : ylookup (ystore h2 a (YChunk (mkHeader None i s) (YRaw (Some d)))) a =
                       Some (YChunk (mkHeader None i s) (YRaw (Some d)))).
          { rewrite ylookup_store by congruence. rewrite Nat.eqb_refl. reflexivity. }
          split; [|eauto]. split; [constructor; [intros [X|[]]; congruence|apply ND1]|].
          split; [|split; [reflexivity|split; [reflexivity|exact WU]]].
          apply (S_raw _ _ _ ft None a i s d None FE KA).
          rewrite ylookup_store by congruence. destruct (Nat.eqb_spec d a) as [X|_]; [congruence|exact L2d].
        + eapply Sim_step; [apply run_free; rewrite (Placed_at _ _ _ _ P1); discriminate|]. apply Sim_ret.
          exact (Turns_trans _ _ _ _ _ _ (Turns_new _ _ _ _ P1) (Turns_release _ _)).
      - cbn [Matches] in MA. eapply Sim_right_eq; [intro w; apply RETR|].
        eapply Sim_bind; [intro w; apply (rf_create _ _ _ MA i s e w h NS R)|].
        intros [u|] [a|] h' G; try contradiction; apply Sim_ret; [|exact G].
        destruct G as (F & v & T & RP & La). exists F. split; [exact T|]. split; [|eauto].
        split; [exact (proj1 (rf_struct _ _ _ MA _ _ _ _ RP))|].
        split; [exact (S_user _ _ _ ft None a i s v yc u F FE La RP)|]. split; [reflexivity|]. split; [reflexivity|exact I].
    Qed.

    Lemma group_sim : forall f k i s name h a, find ft i = Done k -> In k [YFORM; YCAT; YPROP] ->
      ylookup h a = Some (YChunk (mkHeader None i s) (YGroup 0 0 None)) ->
      sim (Says (fun c h' => exists F', Started k i s c h' a F' /\ Turns h [a] h' F'))
        (xreadGroup rx f (XGroup i s 0 []) name 0) (yreadGroup ry f a name 0) h.
    Proof.
      intros f k i s name h a FE KK La.
      assert (ND1 : NoDup [a]) by (constructor; [intros []|constructor]).
      assert (G0 : forall h g, ylookup h a = Some (YChunk (mkHeader None i s) (YGroup g 0 None)) -> GroupIs h a i s g [] [a]).
      { intros h0 g E. exists None, [], [], []. split; [exact E|]. split; [left; auto|]. split; [constructor|]. split; [reflexivity|exact ND1]. }
      unfold yreadGroup. eapply Sim_step; [apply (run_chunk e _ _ _ _ La)|]. cbv beta iota. cbn [ytype_of o_id o_size xreadGroup].
      apply Sim_io_bind. intros [[st og] bp].
      assert (O : sim (Says (fun c h' => exists F', Started k i s c h' a F' /\ Turns h [a] h' F'))
        (ret (IFF_deriveSuccess st, XGroup i s 0 [], bp)) (yret (IFF_deriveSuccess st, bp)) h).
      { apply Sim_ret. split; [reflexivity|]. split; [reflexivity|]. exists [a].
        split; [apply GroupIs_started; [exact FE|exact KK|exact (G0 h 0 La)]|].
        apply Turns_refl. intros x [<-|[]]. congruence. }
      destruct st; try exact O. destruct og as [g|]; [|exact O].
      eapply Sim_step; [apply run_put; congruence|]. cbn [yset_type].
      assert (La1 : ylookup (ystore h a (YChunk (mkHeader None i s) (YGroup g 0 None))) a = Some (YChunk (mkHeader None i s) (YGroup g 0 None))).
      { rewrite ylookup_store by congruence. rewrite Nat.eqb_refl. reflexivity. }
      eapply Sim_weaken; [apply (group_loop_sim f _ a i s g [] [a] bp (G0 _ g La1))|].
      intros r q h' (E1 & E2 & l' & F' & E3 & G' & T'). split; [exact E1|]. split; [exact E2|]. exists F'. rewrite E3.
      split; [apply GroupIs_started; assumption|].
      eapply Turns_trans; [apply Turns_store; congruence|exact T'].
    Qed.

    Lemma list_sim : forall f i s h a, find ft i = Done YLIST ->
      ylookup h a = Some (YChunk (mkHeader None i s) (YList 0 0 None 0 None)) ->
      sim (Says (fun c h' => exists F', Started YLIST i s c h' a F' /\ Turns h [a] h' F'))
        (xreadList rx f (XList i s 0 [] []) 0) (yreadList ry f a 0) h.
    Proof.
      intros f i s h a FE La.
      assert (ND1 : NoDup [a]) by (constructor; [intros []|constructor]).
      assert (G0 : forall h g, ylookup h a = Some (YChunk (mkHeader None i s) (YList g 0 None 0 None)) -> ListIs h a i s g [] [] [a]).
      { intros h0 g E. exists None, [], [], [], None, [], [], []. split; [exact E|]. split; [left; auto|]. split; [constructor|].
        split; [left; auto|]. split; [constructor|]. split; [intros x []|]. split; [reflexivity|exact ND1]. }
      unfold yreadList. eapply Sim_step; [apply (run_chunk e _ _ _ _ La)|]. cbv beta iota. cbn [o_id o_size xreadList].
      apply Sim_io_bind. intros [[st og] bp].
      assert (O : sim (Says (fun c h' => exists F', Started YLIST i s c h' a F' /\ Turns h [a] h' F'))
        (ret (IFF_deriveSuccess st, XList i s 0 [] [], bp)) (yret (IFF_deriveSuccess st, bp)) h).
      { apply Sim_ret. split; [reflexivity|]. split; [reflexivity|]. exists [a].
        split; [apply ListIs_started; [exact FE|exact (G0 h 0 La)]|].
        apply Turns_refl. intros x [<-|[]]. congruence. }
      destruct st; try exact O. destruct og as [g|]; [|exact O].
      eapply Sim_step; [apply run_put; congruence|]. cbn [yset_type].
      assert (La1 : ylookup (ystore h a (YChunk (mkHeader None i s) (YList g 0 None 0 None))) a = Some (YChunk (mkHeader None i s) (YList g 0 None 0 None))).
      { rewrite ylookup_store by congruence. rewrite Nat.eqb_refl. reflexivity. }
      eapply Sim_bind; [apply (list_loop_sim f _ a i s g [] [] [a] bp (G0 _ g La1))|].
      intros [[ok c'] b2] [ok' b2'] h' (E1 & E2 & pl' & l' & F' & E3 & G' & T'). cbn [fst snd] in *. subst ok' b2' c'.
      assert (P : exists F', Started YLIST i s (XList i s g pl' l') h' a F' /\ Turns h [a] h' F').
      { exists F'. split; [apply ListIs_started; assumption|]. eapply Turns_trans; [apply Turns_store; congruence|exact T']. }
      destruct ok; [apply Sim_ret; split; [reflexivity|split; [reflexivity|exact P]]|].
      apply Sim_io_bind. intros _. apply Sim_ret. split; [reflexivity|split; [reflexivity|exact P]].
    Qed.

    Lemma fields_sim : forall f x k i s c h a F, in_range FLong s -> find ft i = Done k -> Matches i x k ->
      Started k i s c h a F ->
      match k with
      | YFORM | YCAT | YPROP => c = XGroup i s 0 [] /\ ylookup h a = Some (YChunk (mkHeader None i s) (YGroup 0 0 None)) /\ F = [a]
      | YLIST => c = XList i s 0 [] [] /\ ylookup h a = Some (YChunk (mkHeader None i s) (YList 0 0 None 0 None)) /\ F = [a]
      | YRAW => exists d, c = XRaw i s d
      | YCALL _ => exists u, c = XUser i s u
      end ->
      sim (Says (fun c' h' => exists F', Started k i s c' h' a F' /\ Turns h F h' F'))
        (xreadExtensionChunkFields rx f x c 0) (yreadExtensionChunkFields ry f k a 0) h.
    Proof.
      intros f x k i s c h a F R FE MA BG X.
      destruct k as [| | | | |yc]; destruct x as [| | | | |cb]; try contradiction; cbn [yreadExtensionChunkFields xreadExtensionChunkFields];
        try solve [destruct X as (-> & La & ->); first [apply group_sim; solve [eassumption|cbn; tauto]|apply list_sim; eassumption]].
      - destruct X as (d0 & ->). destruct BG as (ND & T & _ & _ & WU).
        inversion T as [? ? ? i' s' d dc FE' La Ld| | |]; subst.
        cbn [xreadRawChunk IFF_readRawChunk]. unfold yreadRawChunk. apply Sim_left_assoc.
        apply Sim_io_case. intros x (w0 & w1 & E). injection E as <- _.
        eapply Sim_step; [apply (run_chunk e _ _ _ _ La)|]. cbv beta iota zeta. cbn [o_size o_id].
        eapply Sim_step; [apply (run_load e _ _ _ Ld)|]. cbv beta iota. rewrite WU.
        destruct (Z.ltb_spec s s) as [LT|_]; [lia|].
        assert (BG : forall h' c', ylookup h' a = ylookup h a -> ylookup h' d = Some (YData s c') ->
          Started YRAW i s (XRaw i s c') h' a [a; d]).
        { intros h' c' E1 E2. split; [exact ND|]. rewrite La in E1. split; [exact (S_raw _ _ _ ft None a i s d c' FE E1 E2)|].
          split; [reflexivity|]. split; [reflexivity|exact WU]. }
        assert (LV : live h [a; d]) by (intros x [<-|[<-|[]]]; congruence).
        apply Sim_left_assoc. apply Sim_io_bind. intros l. destruct (zlength l <? s).
        + eapply Sim_left_eq with (m' := bind (IFF_error "Error reading raw chunk body of chunk: '" ;;; IFF_errorId i ;;; IFF_error ("'" ++ nl)%string)
            (fun _ => ret (false, XRaw i s d0, 0))).
          { intro w. unfold bind. destruct (IFF_error _ e w) as [[? v1]|?|]; [|reflexivity|reflexivity].
            destruct (IFF_errorId i e v1) as [[? v2]|?|]; [|reflexivity|reflexivity].
            destruct (IFF_error _ e v2) as [[? v3]|?|]; reflexivity. }
          apply Sim_io_bind. intros _. apply Sim_ret. split; [reflexivity|]. split; [reflexivity|]. cbn [fst snd]. exists [a; d].
          split; [apply BG; [reflexivity|exact Ld]|apply Turns_refl; exact LV].
        + destruct (INT_MAX <? 0 + s); [eapply Sim_step; [apply run_put; congruence|]; intro w; reflexivity|].
          eapply Sim_step; [apply run_put; congruence|]. intro w. cbn [bind ret yret]. eexists _, _. split; [reflexivity|].
          split; [reflexivity|]. split; [reflexivity|]. cbn [fst snd]. exists [a; d].
          assert (AD : a <> d) by (intros ->; congruence).
          split; [|apply Turns_store_in; [right; left; reflexivity|exact LV]].
          apply BG; rewrite ?ylookup_store by congruence.
          * destruct (Nat.eqb_spec a d) as [X0|_]; [congruence|reflexivity].
          * rewrite Nat.eqb_refl. reflexivity.
      - destruct X as (u & ->). destruct BG as (ND & T & _ & _ & _). cbn [Matches] in MA.
        inversion T as [|? ? ? i' s' v yc' ? ? FE' La O| |]; subst.
        assert (RETR : forall A (m : Y V A) w, m e w h = ybind m yret e w h)
          by (intros A m w; unfold ybind; destruct (m e w h) as [[[? ?] ?]|?|]; reflexivity).
        eapply Sim_right_eq; [intro w; apply RETR|].
        eapply Sim_bind; [intro w; apply (rf_read _ _ _ MA e w h a F u i s v NS R O La)|].
        intros [[ok u'] bp] [ok' bp'] h' (E1 & E2 & F' & v' & T' & O' & La'). cbn [fst snd] in *. subst ok' bp'.
        apply Sim_ret. split; [reflexivity|]. split; [reflexivity|]. cbn [fst snd]. exists F'. split; [|exact T'].
        split; [exact (proj1 (rf_struct _ _ _ MA _ _ _ _ O'))|].
        split; [exact (S_user _ _ _ ft None a i s v' yc u' F' FE La' O')|]. split; [reflexivity|]. split; [reflexivity|exact I].
    Qed.

    Lemma body_sim : forall f i s h, in_range FLong s ->
      sim (Gives h ft) (xreadChunkBody rx rg f i s ft) (yreadChunkBody ry find f i s ft) h.
    Proof.
      intros f i s h R. unfold yreadChunkBody, xreadChunkBody.
      destruct (RG ft i) as (x & k & EX & FE & MA). rewrite EX.
      assert (MA' : Matches i x k) by (destruct x, k; exact MA).
      eapply Sim_left; [intro w; reflexivity|].
      eapply Sim_step; [intro w; apply (run_find find e ft i k h FE)|].
      eapply Sim_bind; [apply (create_sim x k i s h R FE MA')|].
      intros [c|] [a|] h1 C; try contradiction; [|apply Sim_ret; exact C]. destruct C as (F & T1 & BG & X).
      eapply Sim_bind; [apply (fields_sim f x k i s c h1 a F R FE MA' BG X)|].
      intros [[ok c1] bp] [ok' bp'] h2 (E1 & E2 & F2 & BG2 & T2). cbn [fst snd] in *. subst ok' bp'.
      destruct BG2 as (ND & T & XI & XS & _). destruct (Shows_chunk rep find _ _ _ _ _ _ T) as (b & La).
      eapply Sim_step; [apply (run_chunk e _ _ _ _ La)|]. cbv beta iota. cbn [o_id].
      apply Sim_io_bind. intros [|].
      - apply Sim_ret. exists F2. split; [exact (Turns_trans _ _ _ _ _ _ T1 T2)|]. split; [exact ND|exact T].
      - eapply Sim_left; [intro w; unfold lift; rewrite (proj1 (xfree_done rep rg find RG h2) _ _ _ _ _ T); reflexivity|].
        intro w. destruct (freeTree_quiet rep rg find RG e c1 ft None a F2 h2 T ND w) as (u & h3 & E & T3).
        unfold ybind. rewrite E. exists None, h3. split; [reflexivity|].
        exact (Turns_trans _ _ _ _ _ _ (Turns_trans _ _ _ _ _ _ T1 T2) T3).
    Qed.
  End Loops.

  Theorem readChunk_sim : forall fuel ft h, sim (Gives h ft) (xreadChunk rg fuel ft) (yreadChunk find fuel ft) h.
  Proof.
    induction fuel as [|f IH]; intros ft h; cbn [yreadChunk xreadChunk]; [apply Sim_nofuel|].
    assert (NIL : Turns h [] h []) by (apply Turns_refl; intros x []).
    apply Sim_io_bind. intros [i|]; [|apply Sim_ret; exact NIL].
    apply Sim_io_case. intros [s|] (w & w' & E); [|apply Sim_ret; exact NIL].
    apply body_sim; [exact IH|]. exact (readLong_range _ _ _ _ _ _ E).
  Qed.

  Theorem readFd_sim : forall w h, Mirror (Gives h 0) (xreadFd rg e w) (yIFF_readFd find e w h).
  Proof.
    intros w h. unfold xreadFd, yIFF_readFd.
    assert (S : forall n, sim (Gives h 0)
       (oc <- xreadChunk rg n 0 ;;
        match oc with
        | None => IFF_error ("ERROR: cannot open main chunk!" ++ nl)%string ;;; ret None
        | Some c =>
           ob <- fgetc ;;
           match ob with
           | None => ret (Some c)
           | Some b =>
               IFF_error ("WARNING: Trailing IFF contents found: " ++ dec (b2z b) ++ "!" ++ nl)%string ;;;
               ret (Some c)
           end
        end)
       (p <-y yreadChunk find n 0 ;;
        match p with
        | None => yio (IFF_error ("ERROR: cannot open main chunk!" ++ nl)%string) ;;y yret None
        | Some c =>
           ob <-y yio fgetc ;;
           match ob with
           | None => yret (Some c)
           | Some b =>
               yio (IFF_error ("WARNING: Trailing IFF contents found: " ++ dec (b2z b) ++ "!" ++ nl)%string) ;;y
               yret (Some c)
           end
        end) h).
    { intro n. eapply Sim_bind; [apply readChunk_sim|]. intros [c|] [a|] h1 G; try contradiction.
      - apply Sim_io_bind. intros [b|]; [|apply Sim_ret; exact G]. apply Sim_io_bind. intros _. apply Sim_ret. exact G.
      - apply Sim_io_bind. intros _. apply Sim_ret. exact G. }
    apply S.
  Qed.
End Read.
