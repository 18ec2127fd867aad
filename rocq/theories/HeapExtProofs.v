(** * Memory with application chunk types: freeing *)

From Coq Require Import ZArith List Bool String Lia.
From Coq Require Import Strings.Byte.
From Verif Require Import Machine Io Types Build Read Spec Lemmas IoProofs HeapProofs TermProofs
  Ext ExtSpec ExtReadProofs ExtSafeProofs Heap HeapExt HeapExtSpec.
Import ListNotations.
Open Scope Z_scope.

(** ** Blocks *)

Section Blocks.
  Context {V : Type}.
  Notation heap := (yheap V).

  Lemma ylookup_beyond : forall (h : heap) x, (List.length h <= x)%nat -> ylookup h x = None.
  Proof. intros h x L. unfold ylookup. rewrite (proj2 (nth_error_None h x) L). reflexivity. Qed.

  Lemma ylookup_lt : forall (h : heap) x, ylookup h x <> None -> (x < List.length h)%nat.
  Proof.
    intros h x E. destruct (Nat.lt_ge_cases x (List.length h)) as [L|L]; [exact L|].
    rewrite ylookup_beyond in E by exact L. congruence.
  Qed.

  Lemma ylookup_store : forall (h : heap) a o x, ylookup h a <> None ->
    ylookup (ystore h a o) x = if Nat.eqb x a then Some o else ylookup h x.
  Proof.
    intros h a o x L. apply ylookup_lt, Nat.ltb_lt in L. unfold ylookup, ystore. rewrite nth_error_replace, L.
    destruct (Nat.eqb x a); reflexivity.
  Qed.

  Lemma ylookup_release : forall (h : heap) a x, ylookup (yrelease h a) x = if Nat.eqb x a then None else ylookup h x.
  Proof.
    intros h a x. unfold ylookup, yrelease. rewrite nth_error_replace. destruct (Nat.eqb x a); [|reflexivity].
    destruct (Nat.ltb a (List.length h)); reflexivity.
  Qed.

  (** A block has been allocated *)
  Definition Placed (h : heap) (a : addr) (o : yobject V) (h' : heap) : Prop :=
    ylookup h a = None /\ forall x, ylookup h' x = if Nat.eqb x a then Some o else ylookup h x.

  Lemma placed : forall e w (h : heap) o, Placed h (address e w h) o (fill h (address e w h) o).
  Proof. intros e w h o. split; [exact (address_slot _ e w h)|exact (fill_slot _ e w h o)]. Qed.

  Lemma Placed_at : forall (h : heap) a o h', Placed h a o h' -> ylookup h' a = Some o.
  Proof. intros h a o h' [_ K]. rewrite K, Nat.eqb_refl. reflexivity. Qed.

  Lemma Placed_other : forall (h : heap) a o h' x, Placed h a o h' -> ylookup h x <> None -> x <> a /\ ylookup h' x = ylookup h x.
  Proof. intros h a o h' x [N K] L. assert (D : x <> a) by congruence. split; [exact D|]. rewrite K, (proj2 (Nat.eqb_neq _ _) D). reflexivity. Qed.

  (** ** How memory changes *)

  Definition live (h : heap) (F : list addr) : Prop := forall x, In x F -> ylookup h x <> None.
  Definition apart (F G : list addr) : Prop := forall x, In x F -> ~ In x G.

  Lemma Turns_refl : forall (h : heap) F, live h F -> Turns h F h F.
  Proof. intros h F L. constructor; intros x; [reflexivity|tauto|tauto|apply L]. Qed.

  Lemma Turns_same : forall (h h' : heap), Turns h [] h' [] <-> Same h h'.
  Proof.
    intros h h'. split.
    - intros T x. apply (tu_other _ _ _ _ T); intros [].
    - intros S. constructor; intros x; [intros _ _; apply S|intros []|intros []|intros []].
  Qed.

  Lemma Turns_trans : forall (h h1 h2 : heap) F F1 F2, Turns h F h1 F1 -> Turns h1 F1 h2 F2 -> Turns h F h2 F2.
  Proof.
    intros h h1 h2 F F1 F2 [O1 R1 N1 L1] [O2 R2 N2 L2].
    assert (D : forall x : addr, In x F1 \/ ~ In x F1) by (intro x; destruct (in_dec Nat.eq_dec x F1); tauto).
    assert (D0 : forall x : addr, In x F \/ ~ In x F) by (intro x; destruct (in_dec Nat.eq_dec x F); tauto).
    constructor; intros x.
    - intros A B. destruct (D x) as [I|I].
      + rewrite (R2 x I B). destruct (N1 x I) as [J|J]; [tauto|symmetry; exact J].
      + rewrite (O2 x I B). exact (O1 x A I).
    - intros A B. destruct (D x) as [I|I]; [exact (R2 x I B)|]. rewrite (O2 x I B). exact (R1 x A I).
    - intros A. destruct (D0 x) as [J|J]; [left; exact J|right].
      destruct (N2 x A) as [I|I].
      + destruct (N1 x I) as [K|K]; [tauto|exact K].
      + destruct (D x) as [I1|I1]; [destruct (L1 x I1 I)|]. rewrite <- (O1 x J I1). exact I.
    - exact (L2 x).
  Qed.

  Lemma Turns_frame : forall (h h' : heap) F F' G, Turns h F h' F' -> live h G -> apart G F -> Turns h (G ++ F) h' (G ++ F').
  Proof.
    intros h h' F F' G [O R N L] LG A.
    assert (K : forall x, In x G -> ~ In x F') by (intros x I J; destruct (N x J) as [X|X]; [exact (A x I X)|exact (LG x I X)]).
    constructor; intros x; rewrite ?in_app_iff.
    - intros B C. apply O; tauto.
    - intros [I|I] B; [tauto|]. apply R; tauto.
    - intros [I|I]; [tauto|]. destruct (N x I); tauto.
    - intros [I|I]; [|exact (L x I)]. rewrite (O x (A x I) (K x I)). exact (LG x I).
  Qed.

  Lemma Turns_keeps : forall (h h' : heap) F F' G x, Turns h F h' F' -> live h G -> apart G F -> In x G -> ylookup h' x = ylookup h x.
  Proof.
    intros h h' F F' G x T LG A I. apply (tu_other _ _ _ _ T); [exact (A x I)|].
    intro J. destruct (tu_new _ _ _ _ T x J) as [X|X]; [exact (A x I X)|exact (LG x I X)].
  Qed.

  Lemma Turns_apart : forall (h h' : heap) F F' G, Turns h F h' F' -> live h G -> apart G F -> apart G F'.
  Proof. intros h h' F F' G T LG A x I J. destruct (tu_new _ _ _ _ T x J) as [X|X]; [exact (A x I X)|exact (LG x I X)]. Qed.

  Lemma Turns_equiv : forall (h h' : heap) F F' G G', Turns h F h' F' ->
    (forall x, In x F <-> In x G) -> (forall x, In x F' <-> In x G') -> Turns h G h' G'.
  Proof.
    intros h h' F F' G G' [O R N L] E E'. constructor; intros x.
    - rewrite <- E, <- E'. exact (O x).
    - rewrite <- E, <- E'. exact (R x).
    - rewrite <- E, <- E'. exact (N x).
    - rewrite <- E'. exact (L x).
  Qed.

  (** In a larger part of memory *)
  Lemma Turns_within : forall (h h' : heap) F F' G H1 H2, Turns h F h' F' -> live h G -> apart G F ->
    (forall x, In x H1 <-> In x G \/ In x F) -> (forall x, In x H2 <-> In x G \/ In x F') -> Turns h H1 h' H2.
  Proof.
    intros h h' F F' G H1 H2 T L A E1 E2. apply (Turns_equiv _ _ _ _ _ _ (Turns_frame _ _ _ _ G T L A)); intro x.
    - rewrite in_app_iff, E1. tauto.
    - rewrite in_app_iff, E2. tauto.
  Qed.

  Lemma Turns_gone : forall (h h1 h2 : heap) F1 F2, Turns h F1 h1 [] -> Turns h1 F2 h2 [] -> live h F2 -> apart F2 F1 ->
    Turns h (F1 ++ F2) h2 [].
  Proof.
    intros h h1 h2 F1 F2 T1 T2 L A. eapply Turns_trans; [|exact T2].
    eapply (Turns_within _ _ _ _ F2); [exact T1|exact L|exact A|..]; intro x; rewrite ?in_app_iff; cbn; tauto.
  Qed.

  Lemma Turns_store : forall (h : heap) a o, ylookup h a <> None -> Turns h [a] (ystore h a o) [a].
  Proof.
    intros h a o L. constructor; intros x; rewrite ?ylookup_store by exact L; cbn.
    - intros N _. destruct (Nat.eqb_spec x a) as [->|_]; [tauto|reflexivity].
    - tauto.
    - tauto.
    - intros [<-|[]]. rewrite Nat.eqb_refl. discriminate.
  Qed.

  Lemma Turns_new : forall (h : heap) a o h', Placed h a o h' -> Turns h [] h' [a].
  Proof.
    intros h a o h' [F K]. constructor; intros x; rewrite ?K; cbn.
    - intros _ N. destruct (Nat.eqb_spec x a) as [->|_]; [tauto|reflexivity].
    - intros [].
    - intros [<-|[]]. right. exact F.
    - intros [<-|[]]. rewrite Nat.eqb_refl. discriminate.
  Qed.

  (** a second block beside [a] *)
  Lemma Turns_beside : forall (h : heap) F h1 a b o h2, Turns h F h1 [a] -> Placed h1 b o h2 -> Turns h F h2 [a; b].
  Proof.
    intros h F h1 a b o h2 T P. eapply Turns_trans; [exact T|].
    apply (Turns_within _ _ _ _ [a] _ _ (Turns_new _ _ _ _ P)); [exact (tu_live _ _ _ _ T)|intros x _ []|..]; intro x; cbn; tauto.
  Qed.

  Lemma Turns_release : forall (h : heap) a, Turns h [a] (yrelease h a) [].
  Proof.
    intros h a. constructor; intros x; rewrite ?ylookup_release; cbn.
    - intros N _. destruct (Nat.eqb_spec x a) as [->|_]; [tauto|reflexivity].
    - intros [<-|[]] _. rewrite Nat.eqb_refl. reflexivity.
    - tauto.
    - tauto.
  Qed.

  Lemma live_count : forall (h : heap) F, NoDup F -> live h F -> (List.length F <= List.length h)%nat.
  Proof.
    intros h F N L. rewrite <- (seq_length (List.length h) 0). apply NoDup_incl_length; [exact N|].
    intros x I. apply in_seq. specialize (ylookup_lt h x (L x I)). lia.
  Qed.

  Lemma NoDup_parts : forall (F G : list addr), NoDup (F ++ G) <-> NoDup F /\ NoDup G /\ apart F G.
  Proof.
    induction F as [|x F IH]; intro G; cbn [app].
    - split; [intro N; split; [constructor|split; [exact N|intros x []]]|tauto].
    - rewrite !NoDup_cons_iff, IH, in_app_iff. unfold apart. split.
      + intros (N & NF & NG & A). split; [tauto|]. split; [exact NG|]. intros y [<-|I]; [tauto|exact (A y I)].
      + intros ((N & NF) & NG & A). split; [|split; [exact NF|split; [exact NG|intros y I; apply A; right; exact I]]].
        intros [I|I]; [tauto|]. exact (A x (or_introl eq_refl) I).
  Qed.

  Lemma Consumes_refl : forall w, Consumes w w.
  Proof. intro w. exists []. reflexivity. Qed.
  Lemma Consumes_trans : forall w w1 w2, Consumes w w1 -> Consumes w1 w2 -> Consumes w w2.
  Proof. intros w w1 w2 [l E] [l2 E2]. exists (l ++ l2). rewrite E, E2, app_assoc. reflexivity. Qed.
End Blocks.

(** ** Trees *)

Scheme Tree_mut := Minimality for Tree Sort Prop
  with Trees_mut := Minimality for Trees Sort Prop.
Combined Scheme Tree_Trees_ind from Tree_mut, Trees_mut.

Section Trees.
  Context {V : Type}.
  Notation heap := (yheap V).
  Variable own : Z -> Z -> heap -> addr -> list addr -> Prop.
  Variable find : yfind V.
  Variable whole : Prop.
  Hypothesis OW : Owners own find.

  Lemma owner_at : forall ft i cb, find ft i = Done (YCALL cb) -> Owner (own ft i) cb.
  Proof. intros ft i cb E. destruct (OW ft i) as (k & E' & K). rewrite E in E'. injection E' as <-. exact K. Qed.

  Lemma array_live : forall (h : heap) p l F, yarray_at h p l F -> live h F.
  Proof. intros h p l F [(_ & _ & ->)|(d & _ & E & ->)] x I; [destruct I|destruct I as [<-|[]]; congruence]. Qed.

  Lemma array_same : forall (h h' : heap) p l F, yarray_at h p l F ->
    (forall x, In x F -> ylookup h' x = ylookup h x) -> yarray_at h' p l F.
  Proof.
    intros h h' p l F [E|(d & E1 & E2 & ->)] K; [left; exact E|right]. exists d.
    rewrite K by (left; reflexivity). auto.
  Qed.

  Lemma Tree_live : forall h,
    (forall ft p a F, Tree own find whole h ft p a F -> live h F /\ In a F) /\
    (forall g p la F, Trees own find whole h g p la F -> live h F).
  Proof.
    intro h. apply Tree_Trees_ind.
    - intros ft p a i s d c E La Ld WH. split; [|left; reflexivity]. intros x [<-|[<-|[]]]; congruence.
    - intros ft p a i s v cb F E La O. destruct (ow_struct _ _ (owner_at _ _ _ E) _ _ _ O) as (_ & I & L & _). split; [exact L|exact I].
    - intros ft p a i s k g arr la Fa Fl E K La AR _ LL. split; [|left; reflexivity].
      intros x [<-|I]; [congruence|]. apply in_app_iff in I. destruct I as [I|I]; [exact (array_live _ _ _ _ AR x I)|exact (LL x I)].
    - intros ft p a i s g arr la Fa Fl parr pa Fb Fp E La AR _ LL BR _ LP PI. split; [|left; reflexivity].
      intros x [<-|I]; [congruence|]. rewrite !in_app_iff in I.
      destruct I as [I|[I|[I|I]]]; [exact (array_live _ _ _ _ AR x I)|exact (LL x I)|exact (array_live _ _ _ _ BR x I)|exact (LP x I)].
    - intros g p x [].
    - intros g p a la F1 F2 _ [L1 _] _ L2 x I. apply in_app_iff in I. destruct I as [I|I]; [exact (L1 x I)|exact (L2 x I)].
  Qed.

  Lemma Trees_roots : forall h g p la F, Trees own find whole h g p la F -> forall x, In x la -> In x F.
  Proof.
    intros h g p. induction la as [|a la IH]; intros F T x I; [destruct I|]. inversion T as [|? ? ? ? F1 F2 T1 T2]; subst.
    apply in_or_app. destruct I as [<-|I]; [left; exact (proj2 (proj1 (Tree_live h) _ _ _ _ T1))|right; exact (IH _ T2 x I)].
  Qed.

  Lemma id_same : forall (h h' : heap) x i, id_at h x i -> ylookup h' x = ylookup h x -> id_at h' x i.
  Proof. intros h h' x i (hd & b & L & E) K. exists hd, b. rewrite K. auto. Qed.

  Lemma Tree_same : forall h h',
    (forall ft p a F, Tree own find whole h ft p a F -> (forall x, In x F -> ylookup h' x = ylookup h x) -> Tree own find whole h' ft p a F) /\
    (forall g p la F, Trees own find whole h g p la F -> (forall x, In x F -> ylookup h' x = ylookup h x) -> Trees own find whole h' g p la F).
  Proof.
    intros h h'. apply Tree_Trees_ind.
    - intros ft p a i s d c E La Ld WH K. apply (T_raw _ _ _ _ ft p a i s d c E); [rewrite K by (cbn; tauto); assumption|rewrite K by (cbn; tauto); assumption|exact WH].
    - intros ft p a i s v cb F E La O K. destruct (ow_struct _ _ (owner_at _ _ _ E) _ _ _ O) as (_ & I & _ & _).
      apply (T_user _ _ _ _ ft p a i s v cb F E); [rewrite (K a I); exact La|].
      exact (ow_local _ _ (owner_at _ _ _ E) h h' a F O K).
    - intros ft p a i s k g arr la Fa Fl E KK La AR _ LL K.
      apply (T_group _ _ _ _ ft p a i s k g arr la Fa Fl E KK); [rewrite K by (left; reflexivity); exact La| |].
      + apply (array_same h); [exact AR|]. intros x I. apply K. right. apply in_or_app. tauto.
      + apply LL. intros x I. apply K. right. apply in_or_app. tauto.
    - intros ft p a i s g arr la Fa Fl parr pa Fb Fp E La AR _ LL BR TP LP PI K.
      apply (T_list _ _ _ _ ft p a i s g arr la Fa Fl parr pa Fb Fp E); [rewrite K by (left; reflexivity); exact La|..].
      + apply (array_same h); [exact AR|]. intros x I. apply K. right. rewrite !in_app_iff. tauto.
      + apply LL. intros x I. apply K. right. rewrite !in_app_iff. tauto.
      + apply (array_same h); [exact BR|]. intros x I. apply K. right. rewrite !in_app_iff. tauto.
      + apply LP. intros x I. apply K. right. rewrite !in_app_iff. tauto.
      + intros x I. apply (id_same h); [exact (PI x I)|]. apply K. right. rewrite !in_app_iff.
        pose proof (Trees_roots _ _ _ _ _ TP x I). tauto.
    - intros g p _. constructor.
    - intros g p a la F1 F2 _ I1 _ I2 K. constructor.
      + apply I1. intros x I. apply K. apply in_or_app. tauto.
      + apply I2. intros x I. apply K. apply in_or_app. tauto.
  Qed.

  Lemma Trees_same : forall h h' g p la F, Trees own find whole h g p la F ->
    (forall x, In x F -> ylookup h' x = ylookup h x) -> Trees own find whole h' g p la F.
  Proof. intros h h'. exact (proj2 (Tree_same h h')). Qed.

  Lemma Trees_snoc : forall h g p la F a F1, Trees own find whole h g p la F -> Tree own find whole h g p a F1 ->
    Trees own find whole h g p (la ++ [a]) (F ++ F1).
  Proof.
    intros h g p. induction la as [|b la IH]; intros F a F1 T T1; inversion T as [|? ? ? ? G1 G2 TB TL]; subst; cbn [app].
    - rewrite <- (app_nil_r F1). constructor; [exact T1|constructor].
    - rewrite <- app_assoc. constructor; [exact TB|]. apply IH; assumption.
  Qed.

  Lemma Tree_chunk : forall h ft p a F, Tree own find whole h ft p a F -> exists i s b, ylookup h a = Some (YChunk (mkHeader p i s) b).
  Proof. intros h ft p a F T. inversion T; subst; eauto. Qed.

  (** Another parent pointer *)
  Lemma Tree_parent : forall h ft p a F hd b q, Tree own find whole h ft p a F -> NoDup F ->
    ylookup h a = Some (YChunk hd b) -> Tree own find whole (ystore h a (YChunk (set_parent hd q) b)) ft q a F.
  Proof.
    intros h ft p a F hd b q T N E.
    assert (LV : ylookup h a <> None) by congruence.
    assert (K : forall x, x <> a -> ylookup (ystore h a (YChunk (set_parent hd q) b)) x = ylookup h x).
    { intros x X. rewrite ylookup_store by exact LV. destruct (Nat.eqb_spec x a) as [->|_]; [congruence|reflexivity]. }
    assert (KA : ylookup (ystore h a (YChunk (set_parent hd q) b)) a = Some (YChunk (set_parent hd q) b)).
    { rewrite ylookup_store by exact LV. rewrite Nat.eqb_refl. reflexivity. }
    inversion T as [? ? ? i s d c FE La Ld WH|? ? ? i s v cb ? FE La O|? ? ? i s k g arr la Fa Fl FE KK La AR LL|
      ? ? ? i s g arr la Fa Fl parr pa Fb Fp FE La AR LL BR LP PI]; subst; rewrite E in La; injection La as -> ->;
      cbn [set_parent o_id o_size] in *.
    - apply (T_raw _ _ _ _ ft q a i s d c FE KA). rewrite K; [exact Ld|]. intros ->. rewrite E in Ld. discriminate. exact WH.
    - apply (T_user _ _ _ _ ft q a i s v cb F FE KA).
      exact (ow_parent _ _ (owner_at _ _ _ FE) h a F (mkHeader p i s) v q O E).
    - apply NoDup_cons_iff in N. destruct N as [NA N].
      assert (KX : forall x, In x (Fa ++ Fl) -> ylookup (ystore h a (YChunk (mkHeader q i s) (YGroup g (List.length la) arr))) x = ylookup h x)
        by (intros x I; apply K; intros ->; tauto).
      apply (T_group _ _ _ _ ft q a i s k g arr la Fa Fl FE KK KA).
      + apply (array_same h); [exact AR|]. intros x I. apply KX, in_or_app. tauto.
      + apply (Trees_same h); [exact LL|]. intros x I. apply KX, in_or_app. tauto.
    - apply NoDup_cons_iff in N. destruct N as [NA N].
      assert (KX : forall x, In x (Fa ++ Fl ++ Fb ++ Fp) ->
        ylookup (ystore h a (YChunk (mkHeader q i s) (YList g (List.length la) arr (List.length pa) parr))) x = ylookup h x)
        by (intros x I; apply K; intros ->; tauto).
      apply (T_list _ _ _ _ ft q a i s g arr la Fa Fl parr pa Fb Fp FE KA).
      + apply (array_same h); [exact AR|]. intros x I. apply KX. rewrite !in_app_iff. tauto.
      + apply (Trees_same h); [exact LL|]. intros x I. apply KX. rewrite !in_app_iff. tauto.
      + apply (array_same h); [exact BR|]. intros x I. apply KX. rewrite !in_app_iff. tauto.
      + apply (Trees_same h); [exact LP|]. intros x I. apply KX. rewrite !in_app_iff. tauto.
      + intros x I. apply (id_same h); [exact (PI x I)|]. apply KX. rewrite !in_app_iff.
        pose proof (Trees_roots _ _ _ _ _ LP x I). tauto.
  Qed.

  (** ** Freeing *)

  Variable e : env.
  Hypothesis NS : strict_c e = false.

  (** [m] comes to an end, as [Q] says *)
  Definition Ends {A} (m : Y V A) (h : heap) (Q : A -> heap -> Prop) : Prop := forall w,
    exists a w' h', m e w h = Done (a, w', h') /\ Consumes w w' /\ Q a h'.

  Lemma Ends_ret : forall A (a : A) h (Q : A -> heap -> Prop), Q a h -> Ends (yret a) h Q.
  Proof. intros A a h Q H w. exists a, w, h. split; [reflexivity|]. split; [apply Consumes_refl|exact H]. Qed.

  Lemma Ends_bind : forall A B (m : Y V A) (f : A -> Y V B) h P Q, Ends m h P ->
    (forall a h', P a h' -> Ends (f a) h' Q) -> Ends (ybind m f) h Q.
  Proof.
    intros A B m f h P Q H F w. destruct (H w) as (a & w1 & h1 & E & C & PA). destruct (F a h1 PA w1) as (b & w2 & h2 & E2 & C2 & QB).
    exists b, w2, h2. unfold ybind. rewrite E. split; [exact E2|]. split; [exact (Consumes_trans _ _ _ C C2)|exact QB].
  Qed.

  (** A step whose outcome is known *)
  Lemma Ends_step : forall A B (m : Y V A) (f : A -> Y V B) h a h' Q, (forall w, m e w h = Done (a, w, h')) ->
    Ends (f a) h' Q -> Ends (ybind m f) h Q.
  Proof.
    intros A B m f h a h' Q E F. apply (Ends_bind _ _ m f h (fun x y => x = a /\ y = h')).
    - intro w. exists a, w, h'. split; [apply E|]. split; [apply Consumes_refl|auto].
    - intros x y [-> ->]. exact F.
  Qed.

  Lemma run_chunk : forall (h : heap) a hd b, ylookup h a = Some (YChunk hd b) -> forall w, ychunk a e w h = Done ((hd, b), w, h).
  Proof. intros h a hd b E w. unfold ychunk, ybind, yload. rewrite E. reflexivity. Qed.

  Lemma run_load : forall (h : heap) a o, ylookup h a = Some o -> forall w, yload a e w h = Done (o, w, h).
  Proof. intros h a o E w. unfold yload. rewrite E. reflexivity. Qed.

  Lemma run_put : forall (h : heap) a o, ylookup h a <> None -> forall w, yput a o e w h = Done (tt, w, ystore h a o).
  Proof. intros h a o E w. unfold yput. destruct (ylookup h a); [reflexivity|congruence]. Qed.

  Lemma run_free : forall (h : heap) a, ylookup h a <> None -> forall w, yfree (Some a) e w h = Done (tt, w, yrelease h a).
  Proof. intros h a E w. unfold yfree. destruct (ylookup h a); [reflexivity|congruence]. Qed.

  Lemma run_elements : forall (h : heap) p l F, yarray_at h p l F -> forall w,
    yelements p (List.length l) e w h = Done (l, w, h).
  Proof.
    intros h p l F [(-> & -> & _)|(d & -> & E & _)] w; [reflexivity|].
    unfold yelements. destruct (List.length l) as [|n] eqn:N; [destruct l; [reflexivity|discriminate]|]. rewrite <- N.
    cbn [yarray]. unfold ybind, yload. rewrite E. cbn. rewrite Nat.leb_refl, firstn_all. reflexivity.
  Qed.

  Lemma free_array : forall (h : heap) p l F, yarray_at h p l F -> Ends (yfree p) h (fun _ h' => Turns h F h' []).
  Proof.
    intros h p l F [(-> & -> & ->)|(d & -> & E & ->)].
    - apply Ends_ret, Turns_refl. intros x [].
    - intro w. exists tt, w, (yrelease h d). split; [apply run_free; congruence|]. split; [apply Consumes_refl|apply Turns_release].
  Qed.

  Lemma run_find : forall ft i k (h : heap), find ft i = Done k -> forall w, ylift (find ft i) e w h = Done (k, w, h).
  Proof. intros ft i k h E w. unfold ylift, yio, lift. rewrite E. reflexivity. Qed.

  Section FreeAll.
    Variable fuel : nat.
    Hypothesis IH : forall ft p a F h, Tree own find whole h ft p a F -> NoDup F -> (List.length F <= fuel)%nat ->
      Ends (yfreeChunk find fuel a ft) h (fun _ h' => Turns h F h' []).

    Lemma free_trees : forall la g p F h, Trees own find whole h g p la F -> NoDup F -> (List.length F <= fuel)%nat ->
      Ends (yfree_all (yfreeChunk find fuel) la g) h (fun _ h' => Turns h F h' []).
    Proof.
      induction la as [|a la IHl]; intros g p F h T N L; inversion T as [|? ? ? ? F1 F2 T1 T2]; subst; cbn [yfree_all].
      - apply Ends_ret, Turns_refl. intros x [].
      - apply NoDup_parts in N. destruct N as (N1 & N2 & A). rewrite app_length in L.
        pose proof (proj2 (Tree_live h) _ _ _ _ T2) as L2.
        assert (A' : apart F2 F1) by (intros x I J; exact (A x J I)).
        eapply Ends_bind; [apply (IH g p a F1 h T1 N1); lia|]. intros [] h1 C1. cbv beta in C1.
        assert (T2' : Trees own find whole h1 g p la F2).
        { apply (Trees_same h); [exact T2|]. intros x I. exact (Turns_keeps _ _ _ _ _ x C1 L2 A' I). }
        intro w. destruct (IHl g p F2 h1 T2' N2 ltac:(lia) w) as (u & w' & h2 & E & C & C2).
        exists u, w', h2. split; [exact E|]. split; [exact C|]. exact (Turns_gone _ _ _ _ _ C1 C2 L2 A').
    Qed.

    (** The members of a group and their array *)
    Lemma free_members : forall la g p F arr Fa h, Trees own find whole h g p la F -> yarray_at h arr la Fa -> NoDup (Fa ++ F) ->
      (List.length F <= fuel)%nat ->
      Ends (l <-y yelements arr (List.length la) ;; yfree_all (yfreeChunk find fuel) l g ;;y yfree arr) h
        (fun _ h' => Turns h (Fa ++ F) h' []).
    Proof.
      intros la g p F arr Fa h T AR N L. apply NoDup_parts in N. destruct N as (N1 & N2 & A).
      eapply Ends_step; [apply (run_elements h arr la Fa AR)|].
      eapply Ends_bind; [apply (free_trees la g p F h T N2 L)|]. intros [] h1 C1. cbv beta in C1.
      pose proof (array_live _ _ _ _ AR) as LA.
      assert (AR' : yarray_at h1 arr la Fa).
      { apply (array_same h); [exact AR|]. intros x I. exact (Turns_keeps _ _ _ _ _ x C1 LA A I). }
      intro w. destruct (free_array h1 arr la Fa AR' w) as (u & w' & h2 & E & C & C2).
      exists u, w', h2. split; [exact E|]. split; [exact C|].
      apply (Turns_equiv _ _ _ _ _ _ (Turns_gone _ _ _ _ _ C1 C2 LA A)); intro x; rewrite ?in_app_iff; tauto.
    Qed.
  End FreeAll.

  Lemma free_struct : forall (h : heap) a F h', Turns h F h' [a] -> Ends (yfree (Some a)) h' (fun _ h2 => Turns h F h2 []).
  Proof.
    intros h a F h' T w. exists tt, w, (yrelease h' a).
    split; [apply run_free; apply (tu_live _ _ _ _ T); left; reflexivity|]. split; [apply Consumes_refl|].
    exact (Turns_trans _ _ _ _ _ _ T (Turns_release h' a)).
  Qed.

  Lemma free_tree : forall fuel ft p a F h, Tree own find whole h ft p a F -> NoDup F -> (List.length F <= fuel)%nat ->
    Ends (yfreeChunk find fuel a ft) h (fun _ h' => Turns h F h' []).
  Proof.
    induction fuel as [|fuel IH]; intros ft p a F h T N L.
    - destruct F; [|cbn in L; lia]. destruct (proj2 (proj1 (Tree_live h) _ _ _ _ T)).
    - pose proof (proj1 (proj1 (Tree_live h) _ _ _ _ T)) as LV. cbn [yfreeChunk].
      inversion T as [? ? ? i s d c FE La Ld WH|? ? ? i s v cb ? FE La O|? ? ? i s k g arr la Fa Fl FE KK La AR LL|
        ? ? ? i s g arr la Fa Fl parr pa Fb Fp FE La AR LL BR LP PI]; subst;
        (eapply Ends_step; [apply (run_chunk _ _ _ _ La)|]); cbn [o_id];
        (eapply Ends_step; [apply (run_find _ _ _ _ FE)|]).
      + cbn [yfreeExtensionChunk]. unfold yfreeRawChunk.
        eapply Ends_bind with (P := fun _ h' => Turns h [d] h' []); [eapply Ends_step; [apply (run_chunk _ _ _ _ La)|]; intro w; exists tt, w, (yrelease h d);
          split; [apply run_free; congruence|split; [apply Consumes_refl|apply Turns_release]]|].
        intros [] h1 C1. cbv beta in C1. apply free_struct.
        eapply (Turns_within _ _ _ _ [a]); [exact C1|intros x [<-|[]]; congruence|intros x [<-|[]] [<-|[]]; congruence|..]; intro x; cbn; tauto.
      + cbn [yfreeExtensionChunk].
        eapply Ends_bind with (P := fun _ h' => Turns h F h' [a]).
        * intro w. destruct (ow_free _ _ (owner_at _ _ _ FE) e w h a F NS O) as (w' & h' & E & C & TT).
          exists tt, w', h'. auto.
        * intros [] h1 C1. apply free_struct. exact C1.
      + apply NoDup_cons_iff in N. destruct N as [NA N]. cbn [List.length] in L. rewrite app_length in L.
        assert (KE : yfreeExtensionChunk (yfreeChunk find fuel) k a = yfreeGroup (yfreeChunk find fuel) a)
          by (destruct KK as [<-|[<-|[<-|[]]]]; reflexivity).
        rewrite KE. unfold yfreeGroup.
        eapply Ends_bind; [eapply Ends_step; [apply (run_chunk _ _ _ _ La)|]; cbv beta iota;
          apply (free_members fuel IH la g (Some a) Fl arr Fa h LL AR N); lia|].
        intros [] h1 C1. cbv beta in C1. apply free_struct.
        eapply (Turns_within _ _ _ _ [a]); [exact C1|intros x [<-|[]]; congruence|intros x [<-|[]]; exact NA|..];
          intro x; cbn; rewrite ?in_app_iff; tauto.
      + apply NoDup_cons_iff in N. destruct N as [NA N]. cbn [List.length] in L. rewrite !app_length in L.
        rewrite app_assoc in N. apply NoDup_parts in N. destruct N as (N1 & N2 & A12).
        cbn [yfreeExtensionChunk]. unfold yfreeList.
        assert (LB : live h (Fb ++ Fp)) by (intros x I; apply LV; right; rewrite !in_app_iff in *; tauto).
        assert (A21 : apart (Fb ++ Fp) (Fa ++ Fl)) by (intros x I J; exact (A12 x J I)).
        eapply Ends_bind with (P := fun _ h' => Turns h ((Fa ++ Fl) ++ Fb ++ Fp) h' []).
        * eapply Ends_bind; [unfold yfreeGroup; eapply Ends_step; [apply (run_chunk _ _ _ _ La)|]; cbv beta iota;
            apply (free_members fuel IH la g (Some a) Fl arr Fa h LL AR N1); lia|].
          intros [] h1 C1. cbv beta in C1.
          assert (La1 : ylookup h1 a = Some (YChunk (mkHeader p i s) (YList g (List.length la) arr (List.length pa) parr))).
          { rewrite (tu_other _ _ _ _ C1 a); [exact La| |intros []]. intro I. apply NA. rewrite !in_app_iff in *. tauto. }
          eapply Ends_step; [apply (run_chunk _ _ _ _ La1)|]. cbv beta iota.
          assert (K : forall x, In x (Fb ++ Fp) -> ylookup h1 x = ylookup h x)
            by (intros x I; exact (Turns_keeps _ _ _ _ _ x C1 LB A21 I)).
          intro w. destruct (free_members fuel IH pa g (Some a) Fp parr Fb h1
            (Trees_same _ _ _ _ _ _ LP (fun x I => K x (in_or_app _ _ _ (or_intror I))))
            (array_same _ _ _ _ _ BR (fun x I => K x (in_or_app _ _ _ (or_introl I)))) N2 ltac:(lia) w)
            as (u & w' & h2 & E & C & C2).
          exists u, w', h2. split; [exact E|]. split; [exact C|]. exact (Turns_gone _ _ _ _ _ C1 C2 LB A21).
        * intros [] h1 C1. cbv beta in C1. apply free_struct.
          eapply (Turns_within _ _ _ _ [a]); [exact C1|intros x [<-|[]]; congruence| |..].
          -- intros x [<-|[]] I. apply NA. rewrite !in_app_iff in *. tauto.
          -- intro x. cbn. rewrite ?in_app_iff. tauto.
          -- intro x. cbn. tauto.
  Qed.

  Theorem freeTree_ends : forall ft p a F h, Tree own find whole h ft p a F -> NoDup F ->
    Ends (yfreeTree find a ft) h (fun _ h' => Turns h F h' []).
  Proof.
    intros ft p a F h T N w. unfold yfreeTree.
    apply (free_tree (S (List.length h)) ft p a F h T N).
    pose proof (live_count h F N (proj1 (proj1 (Tree_live h) _ _ _ _ T))). lia.
  Qed.
End Trees.

(** Less is asked of the raw chunks. *)
Lemma Tree_weaken : forall V own (find : yfind V) (W W' : Prop) h, (W' -> W) ->
  (forall ft p a F, Tree own find W h ft p a F -> Tree own find W' h ft p a F) /\
  (forall g p la F, Trees own find W h g p la F -> Trees own find W' h g p la F).
Proof.
  intros V own find W W' h I. apply Tree_Trees_ind.
  - intros ft p a i s d c E La Ld WH. apply (T_raw _ _ _ _ ft p a i s d c E La Ld). intro X. exact (WH (I X)).
  - intros ft p a i s v cb F E La O. exact (T_user _ _ _ _ ft p a i s v cb F E La O).
  - intros ft p a i s k g arr la Fa Fl E K La AR _ LL. exact (T_group _ _ _ _ ft p a i s k g arr la Fa Fl E K La AR LL).
  - intros ft p a i s g arr la Fa Fl parr pa Fb Fp E La AR _ LL BR _ LP PI.
    exact (T_list _ _ _ _ ft p a i s g arr la Fa Fl parr pa Fb Fp E La AR LL BR LP PI).
  - intros g p. constructor.
  - intros g p a la F1 F2 _ I1 _ I2. constructor; assumption.
Qed.
