(** * Releasing any tree in memory, whether its structs fit the registry or not *)

From Coq Require Import ZArith List Bool String Lia.
From Coq Require Import Strings.Byte.
From Verif Require Import Machine Io Types Build Read Spec Lemmas IoProofs Heap HeapSpec HeapProofs HeapBuildProofs HeapReadProofs.
Import ListNotations.
Open Scope Z_scope.

(** Only blocks of [F] are affected. *)
Definition touches (h h' : heap) (F : list addr) : Prop :=
  (List.length h <= List.length h')%nat /\ forall x, ~ In x F -> lookup h' x = lookup h x.

Definition is_live (h : heap) (x : addr) : bool := match lookup h x with Some _ => true | None => false end.

Lemma touches_becomes : forall h h' F, touches h h' F -> becomes h h' F (filter (is_live h') F).
Proof.
  intros h h' F (L & K). split; [exact L|]. split; [intros x N _; exact (K x N)|]. split.
  - intros x I N. destruct (lookup h' x) as [o|] eqn:E; [|reflexivity]. exfalso. apply N. apply filter_In. split; [exact I|]. unfold is_live. rewrite E. reflexivity.
  - intros x I. left. apply filter_In in I. exact (proj1 I).
Qed.
Lemma touches_refl : forall h F, touches h h F.
Proof. intros h F. split; [lia|reflexivity]. Qed.
Lemma touches_trans : forall h1 h2 h3 F G, touches h1 h2 F -> touches h2 h3 G -> touches h1 h3 (F ++ G).
Proof.
  intros h1 h2 h3 F G (L1 & K1) (L2 & K2). split; [lia|]. intros x N. rewrite K2, K1; [reflexivity| |]; intro I; apply N; apply in_or_app; [left|right]; exact I.
Qed.
Lemma touches_incl : forall h h' F G, touches h h' F -> (forall x, In x F -> In x G) -> touches h h' G.
Proof. intros h h' F G (L & K) I. split; [exact L|]. intros x N. apply K. intro J. exact (N (I x J)). Qed.
Lemma touches_release : forall h a, touches h (release h a) [a].
Proof.
  intros h a. split; [rewrite length_release; lia|]. intros x N. rewrite lookup_release. destruct (Nat.eqb_spec x a) as [->|_]; [exfalso; apply N; left; reflexivity|reflexivity].
Qed.

Section Any.
  Variable rg : option registry.
  Variable app : apps.
  Hypothesis RG : Realises rg app.

  (** What happens in memory when [o] happens on the tree *)
  Definition goes (o : outcome unit) (hm : H unit) (F : list addr) (e : env) (w : world) (h : heap) : Prop :=
    match o with
    | Done tt => exists h', hm e w h = Done (tt, w, h') /\ touches h h' F
    | Undefined u => u = UB_type_confusion /\ hm e w h = Undefined u
    | OutOfFuel => False
    end.

  Definition frees_any (c : chunk) : Prop := forall ft p a F h fuel e w, tree_at h c p a F -> NoDup F -> (height c <= fuel)%nat ->
    goes (IFF_freeChunk rg c ft) (hfreeChunk rg fuel a ft) F e w h.

  Lemma all_any : forall l ft p la F h fuel e w, (forall c, In c l -> frees_any c) -> trees_at (tree_at h) l p la F -> NoDup F ->
    (fold_right (fun x m => Nat.max (height x) m) 0 l <= fuel)%nat ->
    goes (free_all (IFF_freeChunk rg) l ft) (hfree_all (hfreeChunk rg fuel) la ft) F e w h.
  Proof.
    induction l as [|c l IH]; intros ft p la F h fuel e w FR T ND HT; destruct la as [|a la]; cbn [trees_at] in T; try contradiction.
    - cbn [free_all hfree_all goes]. exists h. split; [reflexivity|apply touches_refl].
    - destruct T as (F1 & F2 & T1 & T2 & ->). cbn [free_all hfree_all]. cbn [fold_right] in HT.
      pose proof (FR c (or_introl eq_refl) ft p a F1 h fuel e w T1 (NoDup_app_l _ _ _ ND) ltac:(lia)) as X. unfold goes in X |- *.
      destruct (IFF_freeChunk rg c ft) as [[]|u|]; cbn [obind]; [|destruct X as (-> & X); split; [reflexivity|]; rewrite hbind_eq, X; reflexivity|contradiction].
      destruct X as (h1 & E1 & B1). rewrite hbind_eq, E1.
      assert (T2' : trees_at (tree_at h1) l p la F2) by (apply (trees_frame h); [exact T2|]; intros x I; apply (proj2 B1); intro J; exact (NoDup_app_disjoint _ _ _ x ND J I)).
      pose proof (IH ft p la F2 h1 fuel e w (fun c' I => FR c' (or_intror I)) T2' (NoDup_app_r _ _ _ ND) ltac:(lia)) as Y. unfold goes in Y.
      destruct (free_all (IFF_freeChunk rg) l ft) as [[]|u|]; [|exact Y|contradiction]. destruct Y as (h2 & E2 & B2). exists h2. split; [exact E2|exact (touches_trans _ _ _ _ _ B1 B2)].
  Qed.

  Lemma members_any : forall l g p arr la Fa Fl h fuel e w, (forall c, In c l -> frees_any c) -> array_at h arr la Fa -> trees_at (tree_at h) l p la Fl -> NoDup (Fa ++ Fl) ->
    (fold_right (fun x m => Nat.max (height x) m) 0 l <= fuel)%nat ->
    goes (free_all (IFF_freeChunk rg) l g) (l <-h helements arr (List.length la) ;; hfree_all (hfreeChunk rg fuel) l g ;;h hfree arr) (Fa ++ Fl) e w h.
  Proof.
    intros l g p arr la Fa Fl h fuel e w FR A T ND HT. pose proof (all_any l g p la Fl h fuel e w FR T (NoDup_app_r _ _ _ ND) HT) as X. unfold goes in *.
    rewrite hbind_eq, (helements_at h arr la Fa e w A), hbind_eq.
    destruct (free_all (IFF_freeChunk rg) l g) as [[]|u|]; [|destruct X as (-> & X); rewrite X; split; reflexivity|contradiction]. destruct X as (h1 & E1 & B1). rewrite E1.
    assert (A1 : array_at h1 arr la Fa) by (apply (array_frame h); [exact A|]; intros x I; apply (proj2 B1); intro J; exact (NoDup_app_disjoint _ _ _ x ND I J)).
    destruct A1 as [(-> & -> & ->)|(d & -> & L & ->)].
    - exists h1. split; [reflexivity|]. exact B1.
    - exists (release h1 d). split; [apply hfree_at; congruence|]. apply (touches_incl h _ (Fl ++ [d])); [exact (touches_trans _ _ _ _ _ B1 (touches_release h1 d))|]. intros x I. rewrite in_app_iff in *. cbn in *. tauto.
  Qed.

  (** Then the struct itself is released. *)
  Lemma root_any : forall o hm F e w h a G, goes o hm F e w h -> ~ In a F -> lookup h a <> None -> (forall x, In x F -> In x G) -> In a G -> goes o (hm ;;h hfree (Some a)) G e w h.
  Proof.
    intros o hm F e w h a G X NI LV IN IA. unfold goes in *. rewrite hbind_eq. destruct o as [[]|u|]; [|destruct X as (-> & X); rewrite X; split; reflexivity|contradiction].
    destruct X as (h1 & E & B). rewrite E. exists (release h1 a). split; [apply hfree_at; rewrite (proj2 B a NI); exact LV|].
    apply (touches_incl h _ (F ++ [a])); [exact (touches_trans _ _ _ _ _ B (touches_release h1 a))|]. intros x I. apply in_app_or in I. destruct I as [I|[<-|[]]]; auto.
  Qed.

  Lemma confusion : forall F e w h (hm : H unit), hm e w h = Undefined UB_type_confusion -> goes (Undefined UB_type_confusion) hm F e w h.
  Proof. intros F e w h hm E. split; [reflexivity|exact E]. Qed.

  (** Entering IFF_freeChunk *)
  Lemma enter_any : forall c ft p a s b F h fuel e w, lookup h a = Some (OChunk (mkHeader p (chunkId c) s) b) ->
    goes (freeExtensionChunk (IFF_freeChunk rg) (expected_handler app ft (chunkId c)) c) (hfreeExtensionChunk (hfreeChunk rg fuel) (expected_handler app ft (chunkId c)) a ;;h hfree (Some a)) F e w h ->
    goes (IFF_freeChunk rg c ft) (hfreeChunk rg (S fuel) a ft) F e w h.
  Proof.
    intros c ft p a s b F h fuel e w L G.
    assert (X : IFF_freeChunk rg c ft = freeExtensionChunk (IFF_freeChunk rg) (expected_handler app ft (chunkId c)) c) by (destruct c; cbn [IFF_freeChunk]; rewrite RG; reflexivity).
    rewrite X. unfold goes in *. cbn [hfreeChunk]. rewrite (hbind_done _ _ _ _ _ _ _ _ _ _ (hchunk_at _ _ _ _ e w L)). cbn [o_id].
    assert (Y : hlift (find_handler rg ft (chunkId c)) e w h = Done (expected_handler app ft (chunkId c), w, h)) by (unfold hlift, io, lift; rewrite RG; reflexivity).
    rewrite (hbind_done _ _ _ _ _ _ _ _ _ _ Y). exact G.
  Qed.

  Lemma free_any : forall c, frees_any c.
  Proof.
    induction c as [i s d|i s g subs IH|i s g props subs IHp IHs|i s v] using chunk_tree_ind; intros ft p a F h fuel e w T ND HT;
      (destruct fuel as [|fuel]; [cbn in HT; lia|]); cbn [tree_at] in T; cbn [height] in HT.
    - destruct T as (b & size & L1 & L2 & D & ->). apply (enter_any (CRaw i s d) ft p a s _ _ h fuel e w L1).
      inversion ND as [|? ? NI _]; subst. destruct (expected_handler app ft _) as [| | | | |sp]; cbn [freeExtensionChunk hfreeExtensionChunk IFF_freeGroup IFF_freeList];
          try (apply confusion; unfold hfreeList, hfreeGroup; rewrite !hbind_eq, (hchunk_at _ _ _ _ e w L1); reflexivity).
      + apply (root_any _ _ [b]); [|exact NI|congruence|intros x [<-|[]]; right; left; reflexivity|left; reflexivity].
        cbn [goes]. exists (release h b). split; [|apply touches_release]. unfold hfreeRawChunk. rewrite hbind_eq, (hchunk_at _ _ _ _ e w L1). apply hfree_at. congruence.
      + apply (root_any _ _ []); [exists h; split; [reflexivity|apply touches_refl]|intros []|congruence|intros x []|left; reflexivity].
    - destruct T as (arr & la & Fa & Fl & L & A & T & ->). apply (enter_any (CGroup i s g subs) ft p a s _ _ h fuel e w L). inversion ND as [|? ? NI ND1]; subst.
      assert (G : goes (free_all (IFF_freeChunk rg) subs g) (hfreeGroup (hfreeChunk rg fuel) a) (Fa ++ Fl) e w h).
      { pose proof (members_any subs g (Some a) arr la Fa Fl h fuel e w (fun c I => IH c I) A T ND1 ltac:(lia)) as X. unfold goes in *. unfold hfreeGroup. rewrite (hbind_done _ _ _ _ _ _ _ _ _ _ (hchunk_at _ _ _ _ e w L)). exact X. }
      assert (R : goes (free_all (IFF_freeChunk rg) subs g) (hfreeGroup (hfreeChunk rg fuel) a ;;h hfree (Some a)) (a :: Fa ++ Fl) e w h)
        by (apply (root_any _ _ (Fa ++ Fl)); [exact G|exact NI|congruence|intros x I; right; exact I|left; reflexivity]).
      destruct (expected_handler app ft _) as [| | | | |sp]; cbn [freeExtensionChunk hfreeExtensionChunk IFF_freeGroup IFF_freeList]; try exact R.
      + apply confusion. unfold hfreeList. rewrite !hbind_eq. unfold goes in G. destruct (free_all (IFF_freeChunk rg) subs g) as [[]|u|]; [|destruct G as (-> & ->); reflexivity|contradiction].
        destruct G as (h1 & -> & B). rewrite hbind_eq, (hchunk_at h1 a _ _ e w (eq_trans (proj2 B a NI) L)). reflexivity.
      + apply confusion. unfold hfreeRawChunk. rewrite !hbind_eq, (hchunk_at _ _ _ _ e w L). reflexivity.
      + apply (root_any _ _ []); [exists h; split; [reflexivity|apply touches_refl]|intros []|congruence|intros x []|left; reflexivity].
    - destruct T as (arr & la & Fa & Fl & parr & pa & Fb & Fp & L & A & T & B & Q & ->). apply (enter_any (CList i s g props subs) ft p a s _ _ h fuel e w L). inversion ND as [|? ? NI ND1]; subst.
      assert (NI1 : ~ In a (Fa ++ Fl)) by (intro I; apply NI; apply in_or_app; left; exact I).
      assert (G : goes (free_all (IFF_freeChunk rg) subs g) (hfreeGroup (hfreeChunk rg fuel) a) (Fa ++ Fl) e w h).
      { pose proof (members_any subs g (Some a) arr la Fa Fl h fuel e w (fun c I => IHs c I) A T (NoDup_app_l _ _ _ ND1) ltac:(lia)) as X. unfold goes in *. unfold hfreeGroup. rewrite (hbind_done _ _ _ _ _ _ _ _ _ _ (hchunk_at _ _ _ _ e w L)). exact X. }
      assert (R : goes (free_all (IFF_freeChunk rg) subs g) (hfreeGroup (hfreeChunk rg fuel) a ;;h hfree (Some a)) (a :: (Fa ++ Fl) ++ Fb ++ Fp) e w h)
        by (apply (root_any _ _ (Fa ++ Fl)); [exact G|exact NI1|congruence|intros x I; right; apply in_or_app; left; exact I|left; reflexivity]).
      destruct (expected_handler app ft _) as [| | | | |sp]; cbn [freeExtensionChunk hfreeExtensionChunk IFF_freeGroup IFF_freeList]; try exact R.
      + apply (root_any _ _ ((Fa ++ Fl) ++ Fb ++ Fp)); [|exact NI|congruence|intros x I; right; exact I|left; reflexivity].
        unfold goes in *. unfold hfreeList. rewrite hbind_eq. destruct (free_all (IFF_freeChunk rg) subs g) as [[]|u|]; cbn [obind]; [|destruct G as (-> & ->); split; reflexivity|contradiction].
        destruct G as (h1 & -> & B1). rewrite hbind_eq, (hchunk_at h1 a _ _ e w (eq_trans (proj2 B1 a NI1) L)).
        assert (K : forall x, In x (Fb ++ Fp) -> lookup h1 x = lookup h x) by (intros x I; apply (proj2 B1); intro J; exact (NoDup_app_disjoint _ _ _ x ND1 J I)).
        pose proof (members_any props g (Some a) parr pa Fb Fp h1 fuel e w (fun c I => IHp c I)) as X. unfold goes in X.
        specialize (X ltac:(apply (array_frame h); [exact B|intros x I; apply K; apply in_or_app; left; exact I]) ltac:(apply (trees_frame h); [exact Q|intros x I; apply K; apply in_or_app; right; exact I]) (NoDup_app_r _ _ _ ND1) ltac:(lia)).
        destruct (free_all (IFF_freeChunk rg) props g) as [[]|u|]; [|exact X|contradiction]. destruct X as (h2 & E2 & B2). exists h2. split; [exact E2|exact (touches_trans _ _ _ _ _ B1 B2)].
      + apply confusion. unfold hfreeRawChunk. rewrite !hbind_eq, (hchunk_at _ _ _ _ e w L). reflexivity.
      + apply (root_any _ _ []); [exists h; split; [reflexivity|apply touches_refl]|intros []|congruence|intros x []|left; reflexivity].
    - destruct T as (L & ->). apply (enter_any (CFields i s v) ft p a s _ _ h fuel e w L).
      destruct (expected_handler app ft _) as [| | | | |sp]; cbn [freeExtensionChunk hfreeExtensionChunk IFF_freeGroup IFF_freeList];
          try (apply confusion; unfold hfreeList, hfreeGroup, hfreeRawChunk; rewrite !hbind_eq, (hchunk_at _ _ _ _ e w L); reflexivity).
      apply (root_any _ _ []); [exists h; split; [reflexivity|apply touches_refl]|intros []|congruence|intros x []|left; reflexivity].
  Qed.

  (** Releasing a tree does in memory what it does on the tree, whatever the
      structs in it are: it ends, or it takes a struct for one of another type.
      Other blocks stay. *)
  Lemma freeTree_any : forall c ft p a F h e w, tree_at h c p a F -> NoDup F ->
    match IFF_freeChunk rg c ft with
    | Done _ => exists h' L, hfreeTree rg a ft e w h = Done (tt, w, h') /\ becomes h h' F L
    | Undefined u => hfreeTree rg a ft e w h = Undefined u
    | OutOfFuel => False
    end.
  Proof.
    intros c ft p a F h e w T ND. pose proof (tree_depth h c p a F T ND) as HD. pose proof (free_any c ft p a F h (S (List.length h)) e w T ND ltac:(lia)) as X. unfold goes in X. unfold hfreeTree.
    destruct (IFF_freeChunk rg c ft) as [[]|u|]; [|exact (proj2 X)|contradiction]. destruct X as (h' & E & B). exists h', (filter (is_live h') F). split; [exact E|exact (touches_becomes _ _ _ B)].
  Qed.
End Any.
