(** * Updating sizes through parent pointers: pointers against trees *)

From Coq Require Import ZArith List Bool String Lia.
From Coq Require Import Strings.Byte.
From Verif Require Import Machine Io Types Build Read Iff Spec Lemmas IoProofs SoundProofs
  Heap HeapSpec HeapProofs HeapBuildProofs HeapReadProofs HeapAddProofs HeapReachProofs HeapPathProofs HeapSearch.
Import ListNotations.
Open Scope Z_scope.

(** What a change of one tree in place means *)
Definition changes (o : outcome chunk) (hm : H unit) (e : env) (w : world) (h : heap) (p : ptr) (a : addr) (F : list addr) : Prop :=
  match o with
  | Done c' => exists h', hm e w h = Done (tt, w, h') /\ tree_at h' c' p a F /\ becomes h h' F F /\
      (forall x, x <> a -> lookup h' x = lookup h x)
  | Undefined u => hm e w h = Undefined u
  | OutOfFuel => hm e w h = OutOfFuel
  end.

Lemma set_size_twice : forall c s s', set_chunkSize (set_chunkSize c s) s' = set_chunkSize c s'.
Proof. intros [i z d|i z g l|i z g ps l|i z v] s s'; reflexivity. Qed.
Lemma set_size_same : forall c, set_chunkSize c (chunkSize c) = c.
Proof. intros [i z d|i z g l|i z g ps l|i z v]; reflexivity. Qed.
Lemma size_set : forall c s, chunkSize (set_chunkSize c s) = s.
Proof. intros [i z d|i z g l|i z g ps l|i z v] s; reflexivity. Qed.
Lemma set_size_group : forall c s, as_group c <> None -> as_group (set_chunkSize c s) <> None.
Proof. intros [i z d|i z g l|i z g ps l|i z v] s; cbn; congruence. Qed.

Lemma sum_at : forall l la Fl c p a F h e w, trees_at (tree_at h) l (Some a) la Fl -> ~ In a Fl ->
  tree_at h c p a F -> NoDup F -> as_group c <> None ->
  changes (s <-o sum_sizes (chunkSize c) l ;; Done (set_chunkSize c s)) (hsum_sizes a la) e w h p a F.
Proof.
  induction l as [|y l IH]; intros la Fl c p a F h e w TL NI T ND AG; destruct la as [|b la]; cbn [trees_at] in TL; try contradiction.
  - cbn [sum_sizes obind hsum_sizes changes]. rewrite set_size_same. exists h. split; [reflexivity|]. split; [exact T|]. split; [apply becomes_refl|reflexivity].
  - destruct TL as (F1 & F2 & T1 & T2 & ->). cbn [sum_sizes hsum_sizes].
    destruct (tree_header _ _ _ _ _ T) as (bd & LA). unfold changes. rewrite (hbind_done _ _ _ _ _ _ _ _ _ _ (hchunk_at _ _ _ _ _ _ LA)). cbn [o_size].
    rewrite hbind_eq, (increment_at h y (Some a) b F1) by exact T1.
    destruct (IFF_incrementChunkSize (chunkSize c) y) as [s|u|]; cbn [of_outcome obind]; [|reflexivity|reflexivity].
    destruct (resize_at h c p a F s e w AG T ND) as (h1 & E1 & T3 & B1 & K1). rewrite (hbind_done _ _ _ _ _ _ _ _ _ _ E1).
    assert (NI2 : ~ In a F2) by (intro I; apply NI, in_or_app; right; exact I).
    pose proof (IH la F2 (set_chunkSize c s) p a F h1 e w) as R. rewrite size_set in R.
    specialize (R ltac:(apply (trees_frame h); [exact T2|]; intros x I; apply K1; intros ->; contradiction) NI2 T3 ND (set_size_group _ _ AG)).
    unfold changes in R. destruct (sum_sizes s l) as [s2|u|]; cbn [obind] in *; [|exact R|exact R].
    rewrite set_size_twice in R. destruct R as (h2 & E2 & T4 & B2 & K2). exists h2. split; [exact E2|]. split; [exact T4|].
    split; [exact (becomes_trans _ _ _ _ _ _ B1 B2)|]. intros x N. rewrite K2 by exact N. apply K1. exact N.
Qed.

Lemma root_apart : forall h c p a F x, tree_at h c p a F -> NoDup F -> (exists G, F = a :: G /\ In x G) -> x <> a.
Proof. intros h c p a F x T ND (G & -> & I) ->. inversion ND. contradiction. Qed.

Lemma updateGroup_at : forall c p a F h e w, tree_at h c p a F -> NoDup F ->
  changes (IFF_updateGroupChunkSizes c) (hupdateGroupChunkSizes a) e w h p a F.
Proof.
  intros c p a F h e w T ND. unfold changes, IFF_updateGroupChunkSizes, hupdateGroupChunkSizes.
  destruct c as [i s d|i s g l|i s g ps l|i s v]; cbn [as_group].
  - cbn [tree_at] in T. destruct T as (b & size & L & _). rewrite (hbind_done _ _ _ _ _ _ _ _ _ _ (hchunk_at _ _ _ _ _ _ L)). reflexivity.
  - pose proof T as T0. cbn [tree_at] in T0. destruct T0 as (arr & la & Fa & Fl & L & A & TT & EF).
    rewrite (hbind_done _ _ _ _ _ _ _ _ _ _ (hchunk_at _ _ _ _ _ _ L)).
    edestruct (resize_at h (CGroup i s g l) p a F IFF_ID_SIZE e w) as (h1 & E1 & T1 & B1 & K1); [|exact T|exact ND|]; [cbn; discriminate|].  rewrite (hbind_done _ _ _ _ _ _ _ _ _ _ E1).
    assert (NI : ~ In a (Fa ++ Fl)) by (rewrite EF in ND; inversion ND; assumption).
    assert (A1 : array_at h1 arr la Fa) by (apply (array_frame h); [exact A|]; intros x I; apply K1; intros ->; apply NI, in_or_app; left; exact I).
    assert (TT1 : trees_at (tree_at h1) l (Some a) la Fl) by (apply (trees_frame h); [exact TT|]; intros x I; apply K1; intros ->; apply NI, in_or_app; right; exact I).
    rewrite (hbind_done _ _ _ _ _ _ _ _ _ _ (helements_at _ _ _ _ _ _ A1)).
    pose proof (fun X => sum_at l la Fl _ p a F h1 e w TT1 X T1 ND ltac:(cbn; discriminate)) as R. specialize (R ltac:(intro I; apply NI, in_or_app; right; exact I)).
    cbn [set_chunkSize chunkSize] in R. unfold changes in R. destruct (sum_sizes IFF_ID_SIZE l) as [s2|u|]; cbn [obind] in *; [|exact R|exact R].
    destruct R as (h2 & E2 & T2 & B2 & K2). exists h2. split; [exact E2|]. split; [exact T2|]. split; [exact (becomes_trans _ _ _ _ _ _ B1 B2)|].
    intros x N. rewrite K2 by exact N. apply K1. exact N.
  - pose proof T as T0. cbn [tree_at] in T0. destruct T0 as (arr & la & Fa & Fl & parr & pa & Fb & Fp & L & A & TT & PA & TP & EF).
    rewrite (hbind_done _ _ _ _ _ _ _ _ _ _ (hchunk_at _ _ _ _ _ _ L)).
    edestruct (resize_at h (CList i s g ps l) p a F IFF_ID_SIZE e w) as (h1 & E1 & T1 & B1 & K1); [|exact T|exact ND|]; [cbn; discriminate|].  rewrite (hbind_done _ _ _ _ _ _ _ _ _ _ E1).
    assert (NI : ~ In a ((Fa ++ Fl) ++ (Fb ++ Fp))) by (rewrite EF in ND; inversion ND; assumption).
    assert (A1 : array_at h1 arr la Fa) by (apply (array_frame h); [exact A|]; intros x I; apply K1; intros ->; apply NI; rewrite !in_app_iff; tauto).
    assert (TT1 : trees_at (tree_at h1) l (Some a) la Fl) by (apply (trees_frame h); [exact TT|]; intros x I; apply K1; intros ->; apply NI; rewrite !in_app_iff; tauto).
    rewrite (hbind_done _ _ _ _ _ _ _ _ _ _ (helements_at _ _ _ _ _ _ A1)).
    pose proof (fun X => sum_at l la Fl _ p a F h1 e w TT1 X T1 ND ltac:(cbn; discriminate)) as R. specialize (R ltac:(intro I; apply NI; rewrite !in_app_iff; tauto)).
    cbn [set_chunkSize chunkSize] in R. unfold changes in R. destruct (sum_sizes IFF_ID_SIZE l) as [s2|u|]; cbn [obind] in *; [|exact R|exact R].
    destruct R as (h2 & E2 & T2 & B2 & K2). exists h2. split; [exact E2|]. split; [exact T2|]. split; [exact (becomes_trans _ _ _ _ _ _ B1 B2)|].
    intros x N. rewrite K2 by exact N. apply K1. exact N.
  - cbn [tree_at] in T. destruct T as (L & _). rewrite (hbind_done _ _ _ _ _ _ _ _ _ _ (hchunk_at _ _ _ _ _ _ L)). reflexivity.
Qed.

Lemma update_shape : forall c c', IFF_updateGroupChunkSizes c = Done c' -> exists s, c' = set_chunkSize c s.
Proof.
  intros c c' E. unfold IFF_updateGroupChunkSizes in E. destruct (as_group c) as [[g l]|]; [|discriminate].
  destruct (sum_sizes IFF_ID_SIZE l) as [s|u|]; try discriminate. injection E as <-. exists s. reflexivity.
Qed.

Lemma updateList_at : forall c p a F h e w, tree_at h c p a F -> NoDup F ->
  changes (IFF_updateListChunkSizes c) (hupdateListChunkSizes a) e w h p a F.
Proof.
  intros c p a F h e w T ND. unfold IFF_updateListChunkSizes, hupdateListChunkSizes.
  pose proof (updateGroup_at c p a F h e w T ND) as U. unfold changes in *. rewrite hbind_eq.
  destruct (IFF_updateGroupChunkSizes c) as [c1|u|] eqn:EU; cbn [obind]; [|rewrite U; reflexivity|rewrite U; reflexivity].
  destruct U as (h1 & -> & T1 & B1 & K1). destruct c1 as [i s d|i s g l|i s g ps l|i s v].
  - cbn [tree_at] in T1. destruct T1 as (b & size & L & _). rewrite (hbind_done _ _ _ _ _ _ _ _ _ _ (hchunk_at _ _ _ _ _ _ L)). reflexivity.
  - cbn [tree_at] in T1. destruct T1 as (arr & la & Fa & Fl & L & _). rewrite (hbind_done _ _ _ _ _ _ _ _ _ _ (hchunk_at _ _ _ _ _ _ L)). reflexivity.
  - pose proof T1 as T0. cbn [tree_at] in T0. destruct T0 as (arr & la & Fa & Fl & parr & pa & Fb & Fp & L & A & TT & PA & TP & EF).
    rewrite (hbind_done _ _ _ _ _ _ _ _ _ _ (hchunk_at _ _ _ _ _ _ L)). rewrite (hbind_done _ _ _ _ _ _ _ _ _ _ (helements_at _ _ _ _ _ _ PA)).
    assert (NI : ~ In a ((Fa ++ Fl) ++ (Fb ++ Fp))) by (rewrite EF in ND; inversion ND; assumption).
    pose proof (fun X => sum_at ps pa Fp _ p a F h1 e w TP X T1 ND ltac:(cbn; discriminate)) as R. specialize (R ltac:(intro I; apply NI; rewrite !in_app_iff; tauto)).
    cbn [set_chunkSize chunkSize] in R. unfold changes in R. destruct (sum_sizes s ps) as [s2|u|]; cbn [obind] in *; [|exact R|exact R].
    destruct R as (h2 & E2 & T2 & B2 & K2). exists h2. split; [exact E2|]. split; [exact T2|]. split; [exact (becomes_trans _ _ _ _ _ _ B1 B2)|].
    intros x N. rewrite K2 by exact N. apply K1. exact N.
  - cbn [tree_at] in T1. destruct T1 as (L & _). rewrite (hbind_done _ _ _ _ _ _ _ _ _ _ (hchunk_at _ _ _ _ _ _ L)). reflexivity.
Qed.

Lemma own_at : forall c p a F h e w, tree_at h c p a F -> NoDup F ->
  changes (update_own_size c) (hupdate_own_size a) e w h p a F.
Proof.
  intros c p a F h e w T ND. unfold update_own_size, hupdate_own_size. destruct (tree_header _ _ _ _ _ T) as (b & L).
  pose proof (updateGroup_at c p a F h e w T ND) as U1. pose proof (updateList_at c p a F h e w T ND) as U2.
  unfold changes in *. rewrite (hbind_done _ _ _ _ _ _ _ _ _ _ (hchunk_at _ _ _ _ _ _ L)). cbn [o_id].
  destruct ((chunkId c =? IFF_ID_FORM) || (chunkId c =? IFF_ID_PROP) || (chunkId c =? IFF_ID_CAT)); [exact U1|].
  destruct (chunkId c =? IFF_ID_LIST); [exact U2|].
  exists h. split; [reflexivity|]. split; [exact T|]. split; [apply becomes_refl|reflexivity].
Qed.

(** Going up *)
Definition climb (fuel : nat) (p : ptr) : H unit :=
  match p with None => hret tt | Some g => hupdateChunkSizes fuel g end.

Lemma update_step : forall c p a F h e w f, tree_at h c p a F -> NoDup F ->
  match update_own_size c with
  | Done c' => exists h', tree_at h' c' p a F /\ becomes h h' F F /\
      hupdateChunkSizes (S f) a e w h = climb f p e w h'
  | Undefined u => hupdateChunkSizes (S f) a e w h = Undefined u
  | OutOfFuel => hupdateChunkSizes (S f) a e w h = OutOfFuel
  end.
Proof.
  intros c p a F h e w f T ND. cbn [hupdateChunkSizes]. rewrite hbind_eq.
  pose proof (own_at c p a F h e w T ND) as U. unfold changes in U.
  destruct (update_own_size c) as [c'|u|]; [|rewrite U; reflexivity|rewrite U; reflexivity].
  destruct U as (h1 & -> & T1 & B1 & _). exists h1. split; [exact T1|]. split; [exact B1|].
  destruct (tree_header _ _ _ _ _ T1) as (b & L). rewrite (hbind_done _ _ _ _ _ _ _ _ _ _ (hchunk_at _ _ _ _ _ _ L)). cbn [o_parent].
  destruct p; reflexivity.
Qed.

Theorem update_climbs : forall q c p a F h e w f b, tree_at h c p a F -> NoDup F -> Leads h a q b ->
  match IFF_updateChunkSizes c q with
  | Done (Some c') => exists h' F', tree_at h' c' p a F' /\ same_blocks F' F /\ becomes h h' F F' /\
      hupdateChunkSizes (S (List.length q + f)) b e w h = climb f p e w h'
  | Done None => False
  | Undefined u => hupdateChunkSizes (S (List.length q + f)) b e w h = Undefined u
  | OutOfFuel => hupdateChunkSizes (S (List.length q + f)) b e w h = OutOfFuel
  end.
Proof.
  induction q as [|s q IH]; intros c p a F h e w f b T ND L.
  - inversion L; subst b. cbn [IFF_updateChunkSizes List.length plus].
    pose proof (update_step c p a F h e w f T ND) as U. destruct (update_own_size c) as [c'|u|]; cbn [obind]; [|exact U|exact U].
    destruct U as (h' & T' & B & E). exists h', F. split; [exact T'|]. split; [apply same_refl|]. split; [exact B|exact E].
  - inversion L as [|a' s' b1 q' c' CI L1]; subst. cbn [IFF_updateChunkSizes].
    destruct (Leads_path [s] h c p a F b1 T) as (y & AP); [econstructor; [exact CI|constructor]|]. cbn [at_path] in AP.
    destruct (get_child c s) as [y'|] eqn:GC; [|discriminate AP]. clear AP y.
    destruct (child_split _ _ _ _ _ _ _ T GC) as (b2 & F1 & G & CI2 & T1 & S1 & IA & K). rewrite <- (child_det _ _ _ _ _ CI CI2) in *.
    assert (ND1G : NoDup (F1 ++ G)) by (apply (same_nodup F); assumption).
    specialize (IH y' (Some a) b1 F1 h e w (S f) b T1 (NoDup_app_l _ _ _ ND1G) L1).
    replace (S (List.length (s :: q) + f)) with (S (List.length q + S f)) by (cbn [List.length]; lia).
    destruct (IFF_updateChunkSizes y' q) as [[y2|]|u|]; cbn [obind]; [|exact IH|exact IH|exact IH].
    destruct IH as (h1 & F1' & T2 & S2 & B1 & E1).
    assert (KG : forall x, In x G -> lookup h1 x = lookup h x).
    { intros x I. apply (becomes_kept _ _ F1 F1'); [exact B1| |].
      - apply (tree_live _ _ _ _ _ _ T). apply (same_in _ _ x S1), in_or_app. right. exact I.
      - intro J. exact (NoDup_app_disjoint _ _ _ _ ND1G J I). }
    destruct (K h1 y2 F1' T2 KG) as (F2 & T3 & S3).
    assert (SF : same_blocks F2 F) by same.
    assert (ND2 : NoDup F2) by (apply (same_nodup F2 F); assumption).
    assert (B2 : becomes h h1 F F2).
    { apply (same_becomes _ _ (G ++ F1) (G ++ F1')); [apply becomes_frame; exact B1|same|same]. }
    pose proof (update_step (set_child c s y2) p a F2 h1 e w f T3 ND2) as U. cbn [climb] in E1. rewrite E1.
    destruct (update_own_size (set_child c s y2)) as [c2|u|]; cbn [obind]; [|exact U|exact U].
    destruct U as (h2 & T4 & B3 & E2). exists h2, F2. split; [exact T4|]. split; [exact SF|]. split; [exact (becomes_trans _ _ _ _ _ _ B2 B3)|exact E2].
Qed.

Lemma path_height : forall q c y, at_path c q = Some y -> (List.length q < height c)%nat.
Proof.
  induction q as [|s q IH]; intros c y E; cbn [at_path] in E.
  - destruct c; cbn; lia.
  - destruct (get_child c s) as [x|] eqn:GC; [|discriminate]. specialize (IH x y E). cbn [List.length].
    destruct s as [n|n]; destruct c as [i z d|i z g l|i z g ps l|i z v]; try discriminate GC; cbn [get_child] in GC; apply nth_error_In in GC;
    pose proof (height_member _ _ GC); cbn [height]; lia.
Qed.

(** IFF_updateChunkSizes on a chunk of a tree whose root has no parent *)
Theorem updateChunkSizes_at : forall q c a F h e w b, tree_at h c None a F -> NoDup F -> Leads h a q b ->
  match IFF_updateChunkSizes c q with
  | Done (Some c') => exists h' F', hIFF_updateChunkSizes b e w h = Done (tt, w, h') /\
      tree_at h' c' None a F' /\ same_blocks F' F /\ becomes h h' F F'
  | Done None => False
  | Undefined u => hIFF_updateChunkSizes b e w h = Undefined u
  | OutOfFuel => hIFF_updateChunkSizes b e w h = OutOfFuel
  end.
Proof.
  intros q c a F h e w b T ND L. destruct (Leads_path _ _ _ _ _ _ _ T L) as (y & AP).
  pose proof (path_height _ _ _ AP). pose proof (tree_depth _ _ _ _ _ T ND).
  pose proof (update_climbs q c None a F h e w (List.length h - List.length q)%nat b T ND L) as U.
  unfold hIFF_updateChunkSizes. replace (List.length q + (List.length h - List.length q))%nat with (List.length h) in U by lia.
  destruct (IFF_updateChunkSizes c q) as [[c'|]|u|]; [|exact U|exact U|exact U].
  destruct U as (h' & F' & T' & S & B & E). exists h', F'. split; [exact E|]. split; [exact T'|]. split; [exact S|exact B].
Qed.

(** ** On any heap: only sizes change, and only those on the way up *)

Lemma resized_refl : forall S h, resized_only S h h.
Proof. intros S h x. left. reflexivity. Qed.

Lemma resized_trans : forall S h1 h2 h3, resized_only S h1 h2 -> resized_only S h2 h3 -> resized_only S h1 h3.
Proof.
  intros S h1 h2 h3 R1 R2 x. destruct (R1 x) as [E1|(I1 & hd & b & s & L1 & L2)].
  - destruct (R2 x) as [E2|(I2 & hd & b & s & L2 & L3)]; [left; congruence|right]. split; [exact I2|]. exists hd, b, s. rewrite <- E1. split; assumption.
  - right. split; [exact I1|]. destruct (R2 x) as [E2|(I2 & hd' & b' & s' & L2' & L3)]; [exists hd, b, s; split; [exact L1|congruence]|].
    exists hd, b, s'. split; [exact L1|]. rewrite L2 in L2'. injection L2' as <- <-. exact L3.
Qed.

Lemma resized_mono : forall (S S' : addr -> Prop) h h', (forall x, S x -> S' x) -> resized_only S h h' -> resized_only S' h h'.
Proof. intros S S' h h' I R x. destruct (R x) as [E|(X & Y)]; [left; exact E|right; split; [exact (I x X)|exact Y]]. Qed.

Lemma resized_parent : forall S h h' x p, resized_only S h h' -> parent_is h x p <-> parent_is h' x p.
Proof.
  intros S h h' x p R. destruct (R x) as [E|(_ & hd & b & s & L1 & L2)]; unfold parent_is.
  - rewrite E. reflexivity.
  - rewrite L1, L2. split; intros (hd' & b' & X & <-); injection X as <- <-; do 2 eexists; (split; [reflexivity|]); reflexivity.
Qed.

Definition resizes {A} (S : addr -> Prop) (m : H A) : Prop := forall e w h r w' h', m e w h = Done (r, w', h') -> resized_only S h h'.

Lemma rz_bind : forall A B S (m : H A) (k : A -> H B), resizes S m -> (forall a, resizes S (k a)) -> resizes S (hbind m k).
Proof.
  intros A B S m k Rm Rk e w h r w' h' E. rewrite hbind_eq in E. destruct (m e w h) as [[[a v] h1]|u|] eqn:E1; [|discriminate|discriminate].
  exact (resized_trans _ _ _ _ (Rm _ _ _ _ _ _ E1) (Rk a _ _ _ _ _ _ E)).
Qed.
Lemma rz_same : forall A S (m : H A), (forall e w h r w' h', m e w h = Done (r, w', h') -> h' = h) -> resizes S m.
Proof. intros A S m L e w h r w' h' E. rewrite (L _ _ _ _ _ _ E). apply resized_refl. Qed.
Lemma rz_ret : forall A S (a : A), resizes S (hret a).
Proof. intros A S a. apply rz_same. intros e w h r w' h' E. injection E as _ _ <-. reflexivity. Qed.
Lemma rz_undefined : forall A S u, resizes S (@hundefined A u).
Proof. intros A S u e w h r w' h' E. discriminate. Qed.
Lemma rz_load : forall S a, resizes S (hload a).
Proof. intros S a. apply rz_same. intros e w h r w' h' E. unfold hload in E. destruct (lookup h a); [|discriminate]. injection E as _ _ <-. reflexivity. Qed.
Lemma rz_chunk : forall S a, resizes S (hchunk a).
Proof. intros S a. unfold hchunk. apply rz_bind; [apply rz_load|]. intros [hd b|z d|l]; first [apply rz_ret|apply rz_undefined]. Qed.
Lemma rz_elements : forall S p n, resizes S (helements p n).
Proof.
  intros S p n. unfold helements. destruct n; [apply rz_ret|]. destruct p as [a|]; [|apply rz_undefined]. apply rz_bind.
  - cbn [harray]. apply rz_bind; [apply rz_load|]. intros [hd b|z d|l]; first [apply rz_ret|apply rz_undefined].
  - intro l. destruct (Nat.leb _ _); first [apply rz_ret|apply rz_undefined].
Qed.
Lemma rz_increment : forall S s c, resizes S (hincrementChunkSize s c).
Proof.
  intros S s c. unfold hincrementChunkSize. apply rz_bind; [apply rz_chunk|]. intros [hd b]. destruct (_ <? _); [apply rz_undefined|].
  destruct (c_odd _); [|apply rz_ret]. destruct (_ =? _); [apply rz_undefined|apply rz_ret].
Qed.
Lemma rz_set_size : forall (S : addr -> Prop) a s, S a -> resizes S (hset_size a s).
Proof.
  intros S a s IA e w h r w' h' E. destruct (resize_inv _ _ _ _ _ _ _ _ E) as (hd & b & L & ->). intro x.
  rewrite lookup_store by congruence. destruct (Nat.eqb_spec x a) as [->|]; [|left; reflexivity]. right. split; [exact IA|]. exists hd, b, s. split; [exact L|reflexivity].
Qed.
Lemma rz_sum : forall (S : addr -> Prop) a l, S a -> resizes S (hsum_sizes a l).
Proof.
  intros S a l IA. induction l as [|c l IH]; cbn [hsum_sizes]; [apply rz_ret|]. apply rz_bind; [apply rz_chunk|]. intros [hd b].
  apply rz_bind; [apply rz_increment|]. intro s. apply rz_bind; [apply rz_set_size; exact IA|]. intro u. exact IH.
Qed.
Lemma rz_own : forall (S : addr -> Prop) a, S a -> resizes S (hupdate_own_size a).
Proof.
  intros S a IA. assert (G : resizes S (hupdateGroupChunkSizes a)).
  { unfold hupdateGroupChunkSizes. apply rz_bind; [apply rz_chunk|]. intros [hd b]. destruct b; try apply rz_undefined;
    (apply rz_bind; [apply rz_set_size; exact IA|]; intro u; apply rz_bind; [apply rz_elements|]; intro l; apply rz_sum; exact IA). }
  unfold hupdate_own_size. apply rz_bind; [apply rz_chunk|]. intros [hd b]. destruct (_ || _); [exact G|]. destruct (_ =? _); [|apply rz_ret].
  unfold hupdateListChunkSizes. apply rz_bind; [exact G|]. intro u. apply rz_bind; [apply rz_chunk|]. intros [hd' b']. destruct b'; try apply rz_undefined.
  apply rz_bind; [apply rz_elements|]. intro l. apply rz_sum. exact IA.
Qed.

Lemma Up_trans : forall h a b c, Up h a b -> Up h b c -> Up h a c.
Proof. intros h a b c U V. induction V as [|x p V IH P]; [exact U|]. econstructor; [exact IH|exact P]. Qed.

Lemma Up_resized : forall S h h' c x, resized_only S h h' -> Up h' c x -> Up h c x.
Proof. intros S h h' c x R U. induction U as [|x p U IH P]; [constructor|]. econstructor; [exact IH|]. apply (resized_parent _ _ _ x (Some p) R). exact P. Qed.

Theorem update_resizes : forall fuel c e w h r w' h', hupdateChunkSizes fuel c e w h = Done (r, w', h') ->
  resized_only (Up h c) h h' /\ exists top, Up h c top /\ parent_is h top None.
Proof.
  induction fuel as [|fuel IH]; intros c e w h r w' h' E; [discriminate|]. cbn [hupdateChunkSizes] in E. rewrite hbind_eq in E.
  destruct (hupdate_own_size c e w h) as [[[[] w1] h1]|u|] eqn:E1; [|discriminate|discriminate].
  pose proof (rz_own (Up h c) c (Up_self _ _) _ _ _ _ _ _ E1) as R1. rewrite hbind_eq in E.
  destruct (hchunk c e w1 h1) as [[[[hd b] w2] h2]|u|] eqn:E2; [|discriminate|discriminate]. destruct (hchunk_inv _ _ _ _ _ _ _ _ E2) as (L & -> & ->).
  assert (P1 : parent_is h c (o_parent hd)) by (apply (resized_parent _ _ _ c (o_parent hd) R1); exists hd, b; split; [exact L|reflexivity]).
  destruct (o_parent hd) as [p|].
  - destruct (IH p e w1 h1 r w' h' E) as (R2 & top & UT & PT). assert (UP : Up h c p) by (econstructor; [constructor|exact P1]).
    assert (INC : forall x, Up h1 p x -> Up h c x) by (intros x U; apply (Up_trans _ _ p); [exact UP|exact (Up_resized _ _ _ _ _ R1 U)]).
    split; [exact (resized_trans _ _ _ _ R1 (resized_mono _ _ _ _ INC R2))|]. exists top. split; [exact (INC top UT)|]. apply (resized_parent _ _ _ top None R1). exact PT.
  - injection E as _ _ <-. split; [exact R1|]. exists c. split; [constructor|exact P1].
Qed.
