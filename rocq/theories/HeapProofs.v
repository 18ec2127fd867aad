(** * The heap program computes what the tree model computes, and its memory is
    exactly the tree *)

From Coq Require Import ZArith List Bool String Lia.
From Coq Require Import Strings.Byte.
From Verif Require Import Machine Io Types Build Read Iff Heap HeapSpec Spec Lemmas IoProofs RegProofs WriteProofs EncodeProofs ReadProofs SoundProofs UpdateProofs.
Import ListNotations.
Open Scope Z_scope.

(** ** Blocks *)

Lemma length_replace_nth : forall A n (x : A) l, List.length (replace_nth n x l) = List.length l.
Proof. induction n as [|n IH]; destruct l; cbn; congruence. Qed.

Lemma nth_error_replace : forall A n (x : A) l m,
  nth_error (replace_nth n x l) m =
  if Nat.eqb m n then (if Nat.ltb n (List.length l) then Some x else None) else nth_error l m.
Proof.
  induction n as [|n IH]; destruct l as [|y l]; intro m; cbn.
  - destruct m; reflexivity.
  - destruct m; reflexivity.
  - destruct (Nat.eqb m (S n)); destruct m; reflexivity.
  - destruct m as [|m]; cbn; [reflexivity|]. rewrite IH. destruct (Nat.eqb m n); [|reflexivity].
    change (Nat.ltb (S n) (S (List.length l))) with (Nat.ltb n (List.length l)). reflexivity.
Qed.

Lemma lookup_beyond : forall h x, (List.length h <= x)%nat -> lookup h x = None.
Proof. intros h x L. unfold lookup. rewrite (proj2 (nth_error_None h x) L). reflexivity. Qed.

Lemma lookup_lt : forall h x o, lookup h x = Some o -> (x < List.length h)%nat.
Proof.
  intros h x o E. destruct (Nat.lt_ge_cases x (List.length h)) as [L|L]; [exact L|].
  rewrite lookup_beyond in E by exact L. discriminate.
Qed.

Lemma lookup_store : forall h a o x, lookup h a <> None ->
  lookup (store h a o) x = if Nat.eqb x a then Some o else lookup h x.
Proof.
  intros h a o x L. unfold lookup, store. rewrite nth_error_replace. destruct (Nat.eqb x a) eqn:E; [|reflexivity].
  destruct (lookup h a) as [o'|] eqn:K; [|congruence]. apply lookup_lt in K. apply Nat.ltb_lt in K. rewrite K. reflexivity.
Qed.

Lemma lookup_release : forall h a x, lookup (release h a) x = if Nat.eqb x a then None else lookup h x.
Proof.
  intros h a x. unfold lookup, release. rewrite nth_error_replace. destruct (Nat.eqb x a); [|reflexivity].
  destruct (Nat.ltb a (List.length h)); reflexivity.
Qed.

(** The allocator *)
Lemma address_slot : forall A e w (h : list (option A)), match nth_error h (address e w h) with Some o => o | None => None end = None.
Proof.
  intros A e w h. unfold address. destruct (nth_error h (place e (w_allocs w))) as [[o|]|] eqn:E; [|rewrite E; reflexivity|]; rewrite (proj2 (nth_error_None h (List.length h))) by lia; reflexivity.
Qed.
Lemma fill_slot : forall A e w (h : list (option A)) o x, match nth_error (fill h (address e w h) o) x with Some v => v | None => None end =
  if Nat.eqb x (address e w h) then Some o else match nth_error h x with Some v => v | None => None end.
Proof.
  intros A e w h o x. unfold fill. destruct (Nat.ltb_spec (address e w h) (List.length h)) as [LT|GE].
  - rewrite nth_error_replace. rewrite (proj2 (Nat.ltb_lt _ _) LT). destruct (Nat.eqb x (address e w h)); reflexivity.
  - assert (EL : address e w h = List.length h).
    { unfold address in *. destruct (nth_error h (place e (w_allocs w))) as [[v|]|] eqn:E; [reflexivity| |reflexivity]. assert (Q : nth_error h (place e (w_allocs w)) <> None) by congruence. apply nth_error_Some in Q. lia. }
    rewrite EL. destruct (Nat.eqb_spec x (List.length h)) as [->|N].
    + rewrite nth_error_app2 by lia. rewrite Nat.sub_diag. reflexivity.
    + destruct (Nat.lt_ge_cases x (List.length h)) as [L|L].
      * rewrite nth_error_app1 by exact L. reflexivity.
      * rewrite (proj2 (nth_error_None (h ++ [Some o]) x)) by (rewrite app_length; cbn; lia).
        rewrite (proj2 (nth_error_None h x)) by lia. reflexivity.
Qed.
Lemma length_fill : forall A (h : list (option A)) a o, (List.length h <= List.length (fill h a o))%nat.
Proof. intros A h a o. unfold fill. destruct (Nat.ltb a (List.length h)); [rewrite length_replace_nth; lia|rewrite app_length; lia]. Qed.

Lemma address_free : forall e w h, lookup h (address e w h) = None.
Proof. intros e w h. exact (address_slot _ e w h). Qed.
Lemma lookup_new : forall e w h o x, lookup (fill h (address e w h) o) x = if Nat.eqb x (address e w h) then Some o else lookup h x.
Proof. intros e w h o x. exact (fill_slot _ e w h o x). Qed.

Lemma length_store : forall h a o, List.length (store h a o) = List.length h.
Proof. intros. apply length_replace_nth. Qed.
Lemma length_release : forall h a, List.length (release h a) = List.length h.
Proof. intros. apply length_replace_nth. Qed.
(** ** Trees in memory *)

Lemma trees_mono : forall (one one' : chunk -> ptr -> addr -> list addr -> Prop) l p la F,
  (forall c a F1, In c l -> incl F1 F -> one c p a F1 -> one' c p a F1) ->
  trees_at one l p la F -> trees_at one' l p la F.
Proof.
  intros one one'. induction l as [|c l IH]; intros p la F E T; destruct la as [|a la]; cbn in *; try exact T; try contradiction.
  destruct T as (F1 & F2 & T1 & T2 & ->). exists F1, F2. split; [|split; [|reflexivity]].
  - apply E; [left; reflexivity|intros x I; apply in_or_app; left; exact I|exact T1].
  - apply IH; [|exact T2]. intros c' a' F' I L. apply E; [right; exact I|]. intros x J. apply in_or_app. right. exact (L x J).
Qed.

Lemma array_frame : forall h h' p l F, array_at h p l F ->
  (forall x, In x F -> lookup h' x = lookup h x) -> array_at h' p l F.
Proof.
  intros h h' p l F [E|(d & -> & L & ->)] K; [left; exact E|]. right. exists d. split; [reflexivity|].
  split; [|reflexivity]. rewrite K by (left; reflexivity). exact L.
Qed.

Lemma tree_frame : forall h h' c p a F, tree_at h c p a F ->
  (forall x, In x F -> lookup h' x = lookup h x) -> tree_at h' c p a F.
Proof.
  intros h h'. induction c as [i s d|i s g subs IH|i s g props subs IHp IHs|i s v] using chunk_tree_ind; intros p a F T K; cbn in *.
  - destruct T as (b & size & L1 & L2 & D & ->). exists b, size.
    rewrite !K by (cbn; tauto). auto.
  - destruct T as (arr & la & Fa & Fl & L & A & T & ->). exists arr, la, Fa, Fl. split; [|split; [|split; [|reflexivity]]].
    + rewrite K by (left; reflexivity). exact L.
    + apply (array_frame h); [exact A|]. intros x I. apply K. right. apply in_or_app. left. exact I.
    + apply (trees_mono (tree_at h)); [|exact T]. intros c a' F1 I L1 T1. apply IH; [exact I|exact T1|].
      intros x J. apply K. right. apply in_or_app. right. exact (L1 x J).
  - destruct T as (arr & la & Fa & Fl & parr & pa & Fb & Fp & L & A & T & B & Q & ->).
    exists arr, la, Fa, Fl, parr, pa, Fb, Fp. split; [|split; [|split; [|split; [|split; [|reflexivity]]]]].
    + rewrite K by (left; reflexivity). exact L.
    + apply (array_frame h); [exact A|]. intros x I. apply K. right. rewrite !in_app_iff. tauto.
    + apply (trees_mono (tree_at h)); [|exact T]. intros c a' F1 I L1 T1. apply IHs; [exact I|exact T1|].
      intros x J. apply K. right. rewrite !in_app_iff. specialize (L1 x J). tauto.
    + apply (array_frame h); [exact B|]. intros x I. apply K. right. rewrite !in_app_iff. tauto.
    + apply (trees_mono (tree_at h)); [|exact Q]. intros c a' F1 I L1 T1. apply IHp; [exact I|exact T1|].
      intros x J. apply K. right. rewrite !in_app_iff. specialize (L1 x J). tauto.
  - destruct T as [L ->]. split; [|reflexivity]. rewrite K by (left; reflexivity). exact L.
Qed.

Lemma trees_frame : forall h h' l p la F, trees_at (tree_at h) l p la F ->
  (forall x, In x F -> lookup h' x = lookup h x) -> trees_at (tree_at h') l p la F.
Proof.
  intros h h' l p la F T K. apply (trees_mono (tree_at h)); [|exact T]. intros c a F1 I L T1.
  apply (tree_frame h); [exact T1|]. intros x J. apply K. exact (L x J).
Qed.

Lemma array_live : forall h p l F x, array_at h p l F -> In x F -> lookup h x <> None.
Proof.
  intros h p l F x [(-> & -> & ->)|(d & -> & L & ->)] I; [contradiction|]. destruct I as [<-|[]]. rewrite L. discriminate.
Qed.

Lemma trees_each : forall one l p la F x, trees_at one l p la F -> In x F ->
  exists c a F1, In c l /\ In a la /\ one c p a F1 /\ In x F1 /\ incl F1 F.
Proof.
  intros one. induction l as [|c l IH]; intros p la F x T I; destruct la as [|a la]; cbn in T; try contradiction.
  - subst F. contradiction.
  - destruct T as (F1 & F2 & T1 & T2 & ->). apply in_app_or in I. destruct I as [I|I].
    + exists c, a, F1. repeat split; try (left; reflexivity); try assumption. intros y J. apply in_or_app. left. exact J.
    + destruct (IH p la F2 x T2 I) as (c' & a' & F' & Ic & Ia & T' & Ix & L).
      exists c', a', F'. repeat split; try (right; assumption); try assumption. intros y J. apply in_or_app. right. exact (L y J).
Qed.

Lemma tree_live : forall h c p a F x, tree_at h c p a F -> In x F -> lookup h x <> None.
Proof.
  intros h. induction c as [i s d|i s g subs IH|i s g props subs IHp IHs|i s v] using chunk_tree_ind; intros p a F x T I; cbn in *.
  - destruct T as (b & size & L1 & L2 & D & ->). destruct I as [<-|[<-|[]]]; congruence.
  - destruct T as (arr & la & Fa & Fl & L & A & T & ->). destruct I as [<-|I]; [congruence|].
    apply in_app_or in I. destruct I as [I|I]; [exact (array_live h _ _ _ x A I)|].
    destruct (trees_each _ _ _ _ _ _ T I) as (c & a' & F1 & Ic & _ & T1 & Ix & _). exact (IH c Ic _ _ _ x T1 Ix).
  - destruct T as (arr & la & Fa & Fl & parr & pa & Fb & Fp & L & A & T & B & Q & ->). destruct I as [<-|I]; [congruence|].
    apply in_app_or in I. destruct I as [I|I]; apply in_app_or in I; destruct I as [I|I].
    + exact (array_live h _ _ _ x A I).
    + destruct (trees_each _ _ _ _ _ _ T I) as (c & a' & F1 & Ic & _ & T1 & Ix & _). exact (IHs c Ic _ _ _ x T1 Ix).
    + exact (array_live h _ _ _ x B I).
    + destruct (trees_each _ _ _ _ _ _ Q I) as (c & a' & F1 & Ic & _ & T1 & Ix & _). exact (IHp c Ic _ _ _ x T1 Ix).
  - destruct T as [L ->]. destruct I as [<-|[]]. congruence.
Qed.

Lemma trees_live : forall h l p la F x, trees_at (tree_at h) l p la F -> In x F -> lookup h x <> None.
Proof.
  intros h l p la F x T I. destruct (trees_each _ _ _ _ _ _ T I) as (c & a & F1 & _ & _ & T1 & Ix & _).
  exact (tree_live h c _ _ _ x T1 Ix).
Qed.

Lemma tree_below : forall h c p a F x, tree_at h c p a F -> In x F -> (x < List.length h)%nat.
Proof.
  intros h c p a F x T I. pose proof (tree_live h c p a F x T I). destruct (lookup h x) eqn:E; [|congruence].
  exact (lookup_lt h x _ E).
Qed.

Lemma tree_root : forall h c p a F, tree_at h c p a F -> exists F', F = a :: F'.
Proof.
  intros h c p a F T. destruct c; cbn in T.
  - destruct T as (b & size & _ & _ & _ & ->). eexists; reflexivity.
  - destruct T as (arr & la & Fa & Fl & _ & _ & _ & ->). eexists; reflexivity.
  - destruct T as (arr & la & Fa & Fl & parr & pa & Fb & Fp & _ & _ & _ & _ & _ & ->). eexists; reflexivity.
  - destruct T as [_ ->]. eexists; reflexivity.
Qed.

Lemma tree_header : forall h c p a F, tree_at h c p a F ->
  exists b, lookup h a = Some (OChunk (mkHeader p (chunkId c) (chunkSize c)) b).
Proof.
  intros h c p a F T. destruct c; cbn in *.
  - destruct T as (b & size & L & _). eexists; exact L.
  - destruct T as (arr & la & Fa & Fl & L & _). eexists; exact L.
  - destruct T as (arr & la & Fa & Fl & parr & pa & Fb & Fp & L & _). eexists; exact L.
  - destruct T as [L _]. eexists; exact L.
Qed.

Lemma trees_length : forall one l p la F, trees_at one l p la F -> List.length la = List.length l.
Proof.
  intros one. induction l as [|c l IH]; intros p la F T; destruct la as [|a la]; cbn in *; try contradiction; [reflexivity|].
  destruct T as (F1 & F2 & _ & T2 & _). f_equal. exact (IH _ _ _ T2).
Qed.

Lemma trees_app : forall one l p la F c a F1, trees_at one l p la F -> one c p a F1 ->
  trees_at one (l ++ [c]) p (la ++ [a]) (F ++ F1).
Proof.
  intros one. induction l as [|c' l IH]; intros p la F c a F1 T T1; destruct la as [|a' la]; cbn in T; try contradiction.
  - subst F. cbn. exists F1, []. rewrite app_nil_r. auto.
  - destruct T as (G1 & G2 & U1 & U2 & ->). cbn. exists G1, (G2 ++ F1). split; [exact U1|].
    split; [apply IH; assumption|]. symmetry. apply app_assoc.
Qed.

(** ** Steps between heaps *)

Lemma becomes_refl : forall h F, becomes h h F F.
Proof. intros h F. split; [lia|]. split; [reflexivity|]. split; [intros; contradiction|]. intros x I. left. exact I. Qed.

Lemma becomes_trans : forall h1 h2 h3 F1 F2 F3, becomes h1 h2 F1 F2 -> becomes h2 h3 F2 F3 -> becomes h1 h3 F1 F3.
Proof.
  intros h1 h2 h3 F1 F2 F3 (L1 & K1 & D1 & N1) (L2 & K2 & D2 & N2). split; [lia|].
  assert (DEC : forall x, {In x F2} + {~ In x F2}) by (intro; apply in_dec; apply Nat.eq_dec).
  split; [|split].
  - intros x A C. destruct (DEC x) as [B|B].
    + rewrite D2 by assumption. destruct (N1 x B) as [I|I]; [contradiction|]. symmetry. exact I.
    + rewrite K2, K1 by assumption. reflexivity.
  - intros x A C. destruct (DEC x) as [B|B]; [exact (D2 x B C)|]. rewrite K2 by assumption. exact (D1 x A B).
  - intros x C. destruct (N2 x C) as [B|B]; [exact (N1 x B)|]. destruct (DEC x) as [I|I]; [exact (N1 x I)|].
    destruct (in_dec Nat.eq_dec x F1) as [J|J]; [left; exact J|]. right. rewrite <- (K1 x J I). exact B.
Qed.

Lemma becomes_frame : forall h h' F F' G, becomes h h' F F' -> becomes h h' (G ++ F) (G ++ F').
Proof.
  intros h h' F F' G (L & K & D & N). split; [exact L|]. split; [|split].
  - intros x A B. apply K; intro I; [apply A|apply B]; apply in_or_app; right; exact I.
  - intros x A B. apply in_app_or in A. destruct A as [A|A]; [exfalso; apply B; apply in_or_app; left; exact A|].
    apply D; [exact A|]. intro I. apply B. apply in_or_app. right. exact I.
  - intros x A. apply in_app_or in A. destruct A as [A|A]; [left; apply in_or_app; left; exact A|].
    destruct (N x A) as [I|I]; [left; apply in_or_app; right; exact I|right; exact I].
Qed.

Lemma becomes_equiv : forall h h' F F' G G', becomes h h' F F' ->
  (forall x, In x F <-> In x G) -> (forall x, In x F' <-> In x G') -> becomes h h' G G'.
Proof.
  intros h h' F F' G G' (L & K & D & N) E E'. split; [exact L|]. split; [|split].
  - intros x A B. apply K; intro I; [apply A; apply E; exact I|apply B; apply E'; exact I].
  - intros x A B. apply D; [apply E; exact A|]. intro I. apply B. apply E'. exact I.
  - intros x A. apply E' in A. destruct (N x A) as [I|I]; [left; apply E; exact I|right; exact I].
Qed.

(** Blocks that are live, and not among the ones that change, keep their contents *)
Lemma becomes_kept : forall h h' F F' x, becomes h h' F F' -> lookup h x <> None -> ~ In x F -> lookup h' x = lookup h x.
Proof.
  intros h h' F F' x (L & K & D & N) LV NI. apply K; [exact NI|]. intro I. destruct (N x I) as [J|J]; [contradiction|].
  apply LV. exact J.
Qed.

Lemma becomes_new : forall h h' F F' x, becomes h h' F F' -> In x F' -> ~ In x F -> lookup h x = None.
Proof.
  intros h h' F F' x (L & K & D & N) I NI. destruct (N x I) as [J|J]; [contradiction|]. exact J.
Qed.

Lemma becomes_released : forall h h' F, becomes h h' F [] -> forall x, lookup h' x = if existsb (Nat.eqb x) F then None else lookup h x.
Proof.
  intros h h' F (L & K & D & N) x. destruct (existsb (Nat.eqb x) F) eqn:E.
  - apply existsb_exists in E. destruct E as (y & I & EQ). apply Nat.eqb_eq in EQ. subst y. apply D; [exact I|intros []].
  - apply K; [|intros []]. intro I. assert (existsb (Nat.eqb x) F = true); [|congruence].
    apply existsb_exists. exists x. split; [exact I|apply Nat.eqb_refl].
Qed.

(** ** Operations on blocks *)

Lemma hbind_done : forall A B (m : H A) (k : A -> H B) e w h a w' h', m e w h = Done (a, w', h') ->
  hbind m k e w h = k a e w' h'.
Proof. intros A B m k e w h a w' h' E. unfold hbind. rewrite E. reflexivity. Qed.

Lemma hbind_undefined : forall A B (m : H A) (k : A -> H B) e w h u, m e w h = Undefined u ->
  hbind m k e w h = Undefined u.
Proof. intros A B m k e w h u E. unfold hbind. rewrite E. reflexivity. Qed.

Lemma hbind_nofuel : forall A B (m : H A) (k : A -> H B) e w h, m e w h = OutOfFuel ->
  hbind m k e w h = OutOfFuel.
Proof. intros A B m k e w h E. unfold hbind. rewrite E. reflexivity. Qed.

Lemma io_done : forall A (m : M A) e w h a w', m e w = Done (a, w') -> io m e w h = Done (a, w', h).
Proof. intros A m e w h a w' E. unfold io. rewrite E. reflexivity. Qed.

Lemma hchunk_at : forall h a hd b e w, lookup h a = Some (OChunk hd b) -> hchunk a e w h = Done ((hd, b), w, h).
Proof. intros h a hd b e w L. unfold hchunk, hbind, hload. rewrite L. reflexivity. Qed.

Lemma hstore_at : forall h a o e w, lookup h a <> None -> hstore a o e w h = Done (tt, w, store h a o).
Proof. intros h a o e w L. unfold hstore. destruct (lookup h a); [reflexivity|congruence]. Qed.

Lemma hfree_at : forall h a e w, lookup h a <> None -> hfree (Some a) e w h = Done (tt, w, release h a).
Proof. intros h a e w L. unfold hfree. destruct (lookup h a); [reflexivity|congruence]. Qed.

Lemma helements_at : forall h p l F e w, array_at h p l F -> helements p (List.length l) e w h = Done (l, w, h).
Proof.
  intros h p l F e w [(-> & -> & ->)|(d & -> & L & ->)]; [reflexivity|].
  destruct l as [|x l]; [reflexivity|]. cbn [List.length helements]. unfold hbind at 1. cbn [harray]. unfold hbind, hload. rewrite L.
  unfold hret at 1. cbn [List.length]. rewrite (proj2 (Nat.leb_le _ _)) by lia. unfold hret.
  rewrite (firstn_all2 (x :: l)) by (cbn; lia). reflexivity.
Qed.

Lemma hfree_array : forall h p l F e w, array_at h p l F ->
  exists h', hfree p e w h = Done (tt, w, h') /\ becomes h h' F [].
Proof.
  intros h p l F e w [(-> & -> & ->)|(d & -> & L & ->)].
  - exists h. split; [reflexivity|apply becomes_refl].
  - exists (release h d). split; [apply hfree_at; congruence|]. split; [rewrite length_release; lia|]. split; [|split].
    + intros x A _. rewrite lookup_release. destruct (Nat.eqb_spec x d) as [->|N]; [exfalso; apply A; left; reflexivity|reflexivity].
    + intros x [<-|[]] _. rewrite lookup_release, Nat.eqb_refl. reflexivity.
    + intros x [].
Qed.

(** ** Freeing *)

Fixpoint height (c : chunk) : nat :=
  match c with
  | CRaw _ _ _ | CFields _ _ _ => 1
  | CGroup _ _ _ l => S (fold_right (fun x m => Nat.max (height x) m) 0 l)%nat
  | CList _ _ _ p l => S (Nat.max (fold_right (fun x m => Nat.max (height x) m) 0 p)
                                  (fold_right (fun x m => Nat.max (height x) m) 0 l))%nat
  end.

Lemma height_member : forall c l, In c l -> (height c <= fold_right (fun x m => Nat.max (height x) m) 0 l)%nat.
Proof.
  intros c. induction l as [|x l IH]; intros I; [contradiction|]. cbn. destruct I as [->|I]; [lia|]. specialize (IH I). lia.
Qed.

Lemma trees_height : forall h l p la F, trees_at (tree_at h) l p la F ->
  (forall c p a F, In c l -> tree_at h c p a F -> (height c <= List.length F)%nat) ->
  (fold_right (fun x m => Nat.max (height x) m) 0 l <= List.length F)%nat.
Proof.
  intros h. induction l as [|c l IH]; intros p la F T E; destruct la as [|a la]; cbn in T; try contradiction; [cbn; lia|].
  destruct T as (F1 & F2 & T1 & T2 & ->). cbn. rewrite app_length.
  pose proof (E c _ _ _ (or_introl eq_refl) T1).
  assert (E2 : forall c p a F, In c l -> tree_at h c p a F -> (height c <= List.length F)%nat) by (intros; eapply E; [right; eassumption|eassumption]).
  specialize (IH _ _ _ T2 E2). lia.
Qed.

Lemma tree_height : forall h c p a F, tree_at h c p a F -> (height c <= List.length F)%nat.
Proof.
  intros h. induction c as [i s d|i s g subs IH|i s g props subs IHp IHs|i s v] using chunk_tree_ind; intros p a F T; cbn in T.
  - destruct T as (b & size & _ & _ & _ & ->). cbn. lia.
  - destruct T as (arr & la & Fa & Fl & L & A & T & ->). cbn [height]. cbn [List.length]. rewrite app_length.
    pose proof (trees_height h _ _ _ _ T (fun c p a F I => IH c I p a F)). lia.
  - destruct T as (arr & la & Fa & Fl & parr & pa & Fb & Fp & L & A & T & B & Q & ->). cbn [height List.length]. rewrite !app_length.
    pose proof (trees_height h _ _ _ _ T (fun c p a F I => IHs c I p a F)).
    pose proof (trees_height h _ _ _ _ Q (fun c p a F I => IHp c I p a F)). lia.
  - destruct T as [_ ->]. cbn. lia.
Qed.

Lemma blocks_bounded : forall (h : heap) (F : list addr), NoDup F -> (forall x, In x F -> (x < List.length h)%nat) -> (List.length F <= List.length h)%nat.
Proof.
  intros h F ND B. assert (I : incl F (seq 0 (List.length h))) by (intros x I; apply in_seq; specialize (B x I); lia).
  pose proof (NoDup_incl_length ND I) as L. rewrite seq_length in L. exact L.
Qed.

Lemma tree_depth : forall h c p a F, tree_at h c p a F -> NoDup F -> (height c <= List.length h)%nat.
Proof.
  intros h c p a F T ND. pose proof (tree_height h c p a F T).
  pose proof (blocks_bounded h F ND (fun x I => tree_below h c p a F x T I)). lia.
Qed.

Lemma NoDup_app_l : forall (A : Type) (l1 l2 : list A), NoDup (l1 ++ l2) -> NoDup l1.
Proof.
  induction l1 as [|x l1 IH]; intros l2 N; [constructor|]. cbn in N. inversion N; subst. constructor.
  - intro I. match goal with K : ~ In x (l1 ++ l2) |- _ => apply K end. apply in_or_app. left. exact I.
  - apply (IH l2). assumption.
Qed.
Lemma NoDup_app_r : forall (A : Type) (l1 l2 : list A), NoDup (l1 ++ l2) -> NoDup l2.
Proof. induction l1 as [|x l1 IH]; intros l2 N; [exact N|]. cbn in N. inversion N; subst. apply IH. assumption. Qed.
Lemma NoDup_app_disjoint : forall (A : Type) (l1 l2 : list A) x, NoDup (l1 ++ l2) -> In x l1 -> In x l2 -> False.
Proof.
  induction l1 as [|y l1 IH]; intros l2 x N I J; [contradiction|]. cbn in N. inversion N; subst. destruct I as [->|I].
  - match goal with K : ~ In x (l1 ++ l2) |- _ => apply K end. apply in_or_app. right. exact J.
  - exact (IH l2 x ltac:(assumption) I J).
Qed.
Lemma NoDup_app : forall (A : Type) (l1 l2 : list A), NoDup l1 -> NoDup l2 -> (forall x, In x l1 -> In x l2 -> False) -> NoDup (l1 ++ l2).
Proof.
  induction l1 as [|x l1 IH]; intros l2 N1 N2 D; [exact N2|]. inversion N1; subst. cbn. constructor.
  - intro I. apply in_app_or in I. destruct I as [I|I]; [contradiction|]. exact (D x (or_introl eq_refl) I).
  - apply IH; [assumption|assumption|]. intros y I J. exact (D y (or_intror I) J).
Qed.

Section Freeing.
  Variable rg : option registry.
  Variable app : apps.
  Hypothesis RG : Realises rg app.

  Definition frees (c : chunk) : Prop := forall ft p a F h fuel e w,
    Typed app ft c -> tree_at h c p a F -> NoDup F -> (height c <= fuel)%nat ->
    exists h', hfreeChunk rg fuel a ft e w h = Done (tt, w, h') /\ becomes h h' F [].

  Lemma free_all_at : forall l ft p la F h fuel e w,
    (forall c, In c l -> frees c) -> (forall c, In c l -> Typed app ft c) ->
    trees_at (tree_at h) l p la F -> NoDup F ->
    (fold_right (fun x m => Nat.max (height x) m) 0 l <= fuel)%nat ->
    exists h', hfree_all (hfreeChunk rg fuel) la ft e w h = Done (tt, w, h') /\ becomes h h' F [].
  Proof.
    induction l as [|c l IH]; intros ft p la F h fuel e w FR TY T ND HT; destruct la as [|a la]; cbn in T; try contradiction.
    - subst F. exists h. split; [reflexivity|apply becomes_refl].
    - destruct T as (F1 & F2 & T1 & T2 & ->). cbn [hfree_all]. unfold hbind at 1. cbn [fold_right] in HT.
      destruct (FR c (or_introl eq_refl) ft p a F1 h fuel e w) as (h1 & E1 & B1);
        [apply TY; left; reflexivity|exact T1|exact (NoDup_app_l _ _ _ ND)|lia|].
      rewrite E1.
      destruct (IH ft p la F2 h1 fuel e w) as (h2 & E2 & B2).
      + intros c' I. apply FR. right. exact I.
      + intros c' I. apply TY. right. exact I.
      + apply (trees_frame h); [exact T2|]. intros x I. apply (becomes_kept _ _ _ _ _ B1); [exact (trees_live _ _ _ _ _ _ T2 I)|].
        intro J. exact (NoDup_app_disjoint _ _ _ x ND J I).
      + exact (NoDup_app_r _ _ _ ND).
      + lia.
      + exists h2. split; [exact E2|]. apply (becomes_trans h h1 h2 _ F2); [|exact B2].
        apply (becomes_equiv h h1 (F2 ++ F1) (F2 ++ [])); [apply becomes_frame; exact B1|intro; rewrite !in_app_iff; tauto|intro; rewrite in_app_iff; cbn; tauto].
  Qed.

  (** The body of IFF_freeGroup after the struct was read *)
  Lemma free_members : forall l g p arr la Fa Fl h fuel e w,
    (forall c, In c l -> frees c) -> (forall c, In c l -> Typed app g c) ->
    array_at h arr la Fa -> trees_at (tree_at h) l p la Fl -> NoDup (Fa ++ Fl) ->
    (fold_right (fun x m => Nat.max (height x) m) 0 l <= fuel)%nat ->
    exists h', (l <-h helements arr (List.length la) ;; hfree_all (hfreeChunk rg fuel) l g ;;h hfree arr) e w h
      = Done (tt, w, h') /\ becomes h h' (Fa ++ Fl) [].
  Proof.
    intros l g p arr la Fa Fl h fuel e w FR TY A T ND HT. unfold hbind at 1. rewrite (helements_at h arr la Fa) by exact A.
    unfold hbind. destruct (free_all_at l g p la Fl h fuel e w FR TY T (NoDup_app_r _ _ _ ND) HT) as (h1 & E1 & B1). rewrite E1.
    assert (A1 : array_at h1 arr la Fa).
    { apply (array_frame h); [exact A|]. intros x I. apply (becomes_kept _ _ _ _ _ B1); [exact (array_live _ _ _ _ _ A I)|].
      intro J. exact (NoDup_app_disjoint _ _ _ x ND I J). }
    destruct (hfree_array h1 arr la Fa e w A1) as (h2 & E2 & B2). exists h2. split; [exact E2|].
    apply (becomes_trans h h1 h2 _ Fa); [|exact B2].
    apply (becomes_equiv h h1 (Fa ++ Fl) (Fa ++ [])); [apply becomes_frame; exact B1|tauto|intro; rewrite in_app_iff; cbn; tauto].
  Qed.

  Lemma release_root : forall h h1 a F, becomes h h1 F [] -> ~ In a F -> lookup h a <> None ->
    exists h', (forall e w, hfree (Some a) e w h1 = Done (tt, w, h')) /\ becomes h h' (a :: F) [].
  Proof.
    intros h h1 a F B NI LV. pose proof (becomes_kept _ _ _ _ _ B LV NI) as K.
    exists (release h1 a). split; [intros; apply hfree_at; congruence|]. apply (becomes_trans h h1 _ _ [a]).
    - apply (becomes_equiv h h1 ([a] ++ F) ([a] ++ [])); [apply becomes_frame; exact B| |]; intro; rewrite in_app_iff; cbn; tauto.
    - split; [rewrite length_release; lia|]. split; [|split].
      + intros x A _. rewrite lookup_release. destruct (Nat.eqb_spec x a) as [->|N]; [exfalso; apply A; left; reflexivity|reflexivity].
      + intros x [<-|[]] _. rewrite lookup_release, Nat.eqb_refl. reflexivity.
      + intros x [].
  Qed.

  Lemma free_tree : forall c, frees c.
  Proof.
    induction c as [i s d|i s g subs IH|i s g props subs IHp IHs|i s v] using chunk_tree_ind; intros ft p a F h fuel e w TY T ND HT;
      (destruct fuel as [|fuel]; [cbn in HT; lia|]); cbn [hfreeChunk]; inversion TY; subst; cbn [tree_at] in T.
    - destruct T as (b & size & L1 & L2 & D & ->). unfold hbind at 1. rewrite (hchunk_at _ _ _ _ _ _ L1).
      unfold hbind at 1. unfold hlift, io at 1, lift. cbn [o_id]. rewrite RG, handler_data by assumption.
      match goal with A : app ft _ = None |- _ => rewrite A end.
      cbn [hfreeExtensionChunk]. unfold hfreeRawChunk. unfold hbind at 1. unfold hbind at 1. rewrite (hchunk_at _ _ _ _ _ _ L1).
      inversion ND as [|? ? NI ND1]; subst.
      assert (B1 : becomes h (release h b) [b] []).
      { split; [rewrite length_release; lia|]. split; [|split].
        - intros x A _. rewrite lookup_release. destruct (Nat.eqb_spec x b) as [->|N]; [exfalso; apply A; left; reflexivity|reflexivity].
        - intros x [<-|[]] _. rewrite lookup_release, Nat.eqb_refl. reflexivity.
        - intros x []. }
      rewrite hfree_at by congruence.
      destruct (release_root h _ a [b] B1 NI) as (h' & E & B); [congruence|]. exists h'. rewrite E. split; [reflexivity|exact B].
    - destruct T as (arr & la & Fa & Fl & L & A & T & ->). inversion ND as [|? ? NI ND1]; subst.
      unfold hbind at 1. rewrite (hchunk_at _ _ _ _ _ _ L). unfold hbind at 1. unfold hlift, io at 1, lift. cbn [o_id]. rewrite RG.
      destruct (WriteProofs.group_handler app ft i) as (k & E & HI); [assumption|]. rewrite E.
      assert (X : hfreeExtensionChunk (hfreeChunk rg fuel) k a = hfreeGroup (hfreeChunk rg fuel) a) by (destruct HI as [<-|[<-|[<-|[]]]]; reflexivity).
      rewrite X. unfold hfreeGroup. unfold hbind at 1. unfold hbind at 1. rewrite (hchunk_at _ _ _ _ _ _ L). cbn [height] in HT.
      destruct (free_members subs g (Some a) arr la Fa Fl h fuel e w) as (h1 & E1 & B1); [intros; apply IH; assumption|assumption|exact A|exact T|exact ND1|lia|].
      rewrite E1. destruct (release_root h h1 a (Fa ++ Fl) B1 NI) as (h' & E2 & B); [congruence|]. exists h'. rewrite E2. split; [reflexivity|exact B].
    - destruct T as (arr & la & Fa & Fl & parr & pa & Fb & Fp & L & A & T & B & Q & ->). inversion ND as [|? ? NI ND1]; subst.
      unfold hbind at 1. rewrite (hchunk_at _ _ _ _ _ _ L). unfold hbind at 1. unfold hlift, io at 1, lift. cbn [o_id]. rewrite RG, handler_LIST.
      cbn [hfreeExtensionChunk]. unfold hfreeList, hfreeGroup. do 3 (unfold hbind at 1). rewrite (hchunk_at _ _ _ _ _ _ L). cbn [height] in HT.
      destruct (free_members subs g (Some a) arr la Fa Fl h fuel e w) as (h1 & E1 & B1); [intros; apply IHs; assumption|assumption|exact A|exact T|exact (NoDup_app_l _ _ _ ND1)|lia|].
      rewrite E1.
      assert (K : forall x, lookup h x <> None -> ~ In x (Fa ++ Fl) -> lookup h1 x = lookup h x) by (intros; apply (becomes_kept _ _ _ _ _ B1); assumption).
      assert (DJ : forall x, In x (Fb ++ Fp) -> ~ In x (Fa ++ Fl)) by (intros x I J; exact (NoDup_app_disjoint _ _ _ x ND1 J I)).
      assert (L1 : lookup h1 a = lookup h a) by (apply K; [congruence|intro I; apply NI; apply in_or_app; left; exact I]).
      unfold hbind at 1. rewrite (hchunk_at h1 a _ _ _ _ (eq_trans L1 L)).
      destruct (free_members props g (Some a) parr pa Fb Fp h1 fuel e w) as (h2 & E2 & B2).
      + intros; apply IHp; assumption.
      + intros c I. match goal with X : forall c, In c props -> _ |- _ => apply (X c I) end.
      + apply (array_frame h); [exact B|]. intros x I. apply K; [exact (array_live _ _ _ _ _ B I)|apply DJ; apply in_or_app; left; exact I].
      + apply (trees_frame h); [exact Q|]. intros x I. apply K; [exact (trees_live _ _ _ _ _ _ Q I)|apply DJ; apply in_or_app; right; exact I].
      + exact (NoDup_app_r _ _ _ ND1).
      + lia.
      + rewrite E2.
        assert (B12 : becomes h h2 ((Fa ++ Fl) ++ Fb ++ Fp) []).
        { apply (becomes_trans h h1 h2 _ (Fb ++ Fp)); [|exact B2].
          apply (becomes_equiv h h1 ((Fb ++ Fp) ++ (Fa ++ Fl)) ((Fb ++ Fp) ++ [])); [apply becomes_frame; exact B1| |]; intro; rewrite !in_app_iff; cbn; tauto. }
        destruct (release_root h h2 a _ B12 NI) as (h' & E3 & B3); [congruence|]. exists h'. rewrite E3. split; [reflexivity|exact B3].
    - destruct T as [L ->]. unfold hbind at 1. rewrite (hchunk_at _ _ _ _ _ _ L).
      unfold hbind at 1. unfold hlift, io at 1, lift. cbn [o_id]. rewrite RG, handler_data by assumption.
      match goal with A : app ft _ = Some _ |- _ => rewrite A end. cbn [hfreeExtensionChunk]. unfold hbind at 1. unfold hret.
      destruct (release_root h h a [] (becomes_refl h [])) as (h' & E & B); [intros []|congruence|]. exists h'. rewrite E. split; [reflexivity|exact B].
  Qed.

  Lemma freeTree_at : forall c ft p a F h e w, Typed app ft c -> tree_at h c p a F -> NoDup F ->
    exists h', hfreeTree rg a ft e w h = Done (tt, w, h') /\ becomes h h' F [].
  Proof.
    intros c ft p a F h e w TY T ND. unfold hfreeTree. apply (free_tree c ft p a F h); try assumption.
    pose proof (tree_depth h c p a F T ND). lia.
  Qed.
End Freeing.
