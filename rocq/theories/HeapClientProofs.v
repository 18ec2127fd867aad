(** * Programs that use the library: invariant *)

From Coq Require Import ZArith List Bool String Lia Permutation.
From Coq Require Import Strings.Byte.
From Verif Require Import Machine Io Types Build Read Write Search Iff Spec Lemmas IoProofs RegProofs SoundProofs ApiProofs PropRead CompareProofs
  Heap HeapSpec HeapProofs HeapBuildProofs HeapReadProofs HeapAddProofs HeapReachProofs HeapPathProofs HeapSearch HeapUpdateProofs HeapLookupProofs HeapFormsProofs
  HeapToolsProofs PropHeapSearch HeapClient.
Import ListNotations.
Open Scope Z_scope.

(** ** Types *)

Lemma Ty_any : forall ft ft' c, Typed no_apps ft c -> Typed no_apps ft' c.
Proof. intros ft ft' c T. inversion T; subst; [constructor; assumption|discriminate|constructor; assumption|constructor; assumption]. Qed.

Lemma in_replaced : forall A n (x y : A) l, In y (replace_nth n x l) -> y = x \/ In y l.
Proof. induction n as [|n IH]; intros x y [|z l] I; cbn in I; [destruct I|destruct I as [<-|I]; [left; reflexivity|right; right; exact I]|destruct I|]. destruct I as [->|I]; [right; left; reflexivity|]. destruct (IH _ _ _ I) as [->|J]; [left; reflexivity|right; right; exact J]. Qed.

Lemma Ty_child : forall ft c s x, Typed no_apps ft c -> get_child c s = Some x -> Typed no_apps 0 x.
Proof.
  intros ft c s x T G. destruct s as [n|n]; inversion T as [? ? ? ? NG AP|? ? ? ? ? NG AP KM|? ? ? ? ? IG MB|? ? ? ? ? PB MB]; subst; try discriminate G; cbn [get_child] in G; apply nth_error_In in G.
  - exact (Ty_any _ _ _ (proj1 (PB _ G))).
  - exact (Ty_any _ _ _ (MB _ G)).
  - exact (Ty_any _ _ _ (MB _ G)).
Qed.

Lemma Ty_at : forall q ft c y, Typed no_apps ft c -> at_path c q = Some y -> Typed no_apps 0 y.
Proof.
  induction q as [|s q IH]; intros ft c y T E; cbn [at_path] in E; [injection E as <-; exact (Ty_any _ _ _ T)|].
  destruct (get_child c s) as [x|] eqn:G; [|discriminate]. exact (IH 0 x y (Ty_child _ _ _ _ T G) E).
Qed.

Lemma Ty_set : forall ft c s x x', Typed no_apps ft c -> get_child c s = Some x -> Typed no_apps 0 x' -> chunkId x' = chunkId x -> Typed no_apps ft (set_child c s x').
Proof.
  intros ft c s x x' T G T' I. destruct s as [n|n]; inversion T as [? ? ? ? NG AP|? ? ? ? ? NG AP KM|? ? ? ? ? IG MB|? ? ? ? ? PB MB]; subst; try discriminate G; cbn [get_child set_child] in *.
  - constructor; [|exact MB]. intros y J. destruct (in_replaced _ _ _ _ _ J) as [->|K]; [|exact (PB _ K)]. split; [exact (Ty_any _ _ _ T')|].
    rewrite I. exact (proj2 (PB _ (nth_error_In _ _ G))).
  - constructor; [exact IG|]. intros y J. destruct (in_replaced _ _ _ _ _ J) as [->|K]; [exact (Ty_any _ _ _ T')|exact (MB _ K)].
  - constructor; [exact PB|]. intros y J. destruct (in_replaced _ _ _ _ _ J) as [->|K]; [exact (Ty_any _ _ _ T')|exact (MB _ K)].
Qed.

Lemma replaced_id : forall q c y y', at_path c q = Some y -> chunkId y' = chunkId y -> chunkId (replace_at c q y') = chunkId c.
Proof.
  intros [|s q] c y y' E I; cbn [at_path replace_at] in *; [injection E as ->; exact I|]. destruct (get_child c s) as [x|] eqn:G; [|discriminate].
  destruct s as [n|n]; destruct c; try discriminate G; reflexivity.
Qed.

Lemma Ty_replace : forall q ft c y y', Typed no_apps ft c -> at_path c q = Some y -> Typed no_apps 0 y' -> chunkId y' = chunkId y -> Typed no_apps ft (replace_at c q y').
Proof.
  induction q as [|s q IH]; intros ft c y y' T E T' I; cbn [at_path replace_at] in *; [injection E as ->; exact (Ty_any _ _ _ T')|].
  destruct (get_child c s) as [x|] eqn:G; [|discriminate]. eapply Ty_set; [exact T|exact G|exact (IH 0 x y y' (Ty_child _ _ _ _ T G) E T' I)|exact (replaced_id _ _ _ _ E I)].
Qed.

Lemma own_size : forall c c', update_own_size c = Done c' -> exists s, c' = set_chunkSize c s.
Proof.
  intros c c' E.
  assert (G : forall c', IFF_updateGroupChunkSizes c = Done c' -> exists s, c' = set_chunkSize c s).
  { intros d X. unfold IFF_updateGroupChunkSizes in X. destruct (as_group c) as [[g subs]|]; [|discriminate].
    destruct (sum_sizes IFF_ID_SIZE subs) as [z|u|]; [|discriminate|discriminate]. injection X as <-. exists z. reflexivity. }
  unfold update_own_size in E. destruct (_ || _); [exact (G _ E)|]. destruct (_ =? _).
  - unfold IFF_updateListChunkSizes in E. destruct (IFF_updateGroupChunkSizes c) as [d|u|] eqn:X; [|discriminate|discriminate]. cbn [obind] in E.
    destruct (G _ eq_refl) as (s & ->). destruct c as [i s' x|i s' g l|i s' g ps l|i s' v]; try discriminate; cbn [set_chunkSize] in E.
    destruct (sum_sizes s ps) as [z|u|]; [|discriminate|discriminate]. injection E as <-. exists z. reflexivity.
  - injection E as <-. exists (chunkSize c). destruct c; reflexivity.
Qed.

Lemma Ty_size : forall ft c s, Typed no_apps ft c -> Typed no_apps ft (set_chunkSize c s).
Proof. intros ft c s T. inversion T; subst; [constructor; assumption|discriminate|constructor; assumption|constructor; assumption]. Qed.

Lemma Ty_update : forall q ft c c', Typed no_apps ft c -> IFF_updateChunkSizes c q = Done (Some c') -> Typed no_apps ft c' /\ chunkId c' = chunkId c.
Proof.
  induction q as [|s q IH]; intros ft c c' T E; cbn [IFF_updateChunkSizes] in E.
  - destruct (update_own_size c) as [d|u|] eqn:X; [|discriminate|discriminate]. injection E as <-. destruct (own_size _ _ X) as (z & ->). split; [exact (Ty_size _ _ _ T)|destruct c; reflexivity].
  - destruct (get_child c s) as [x|] eqn:G; [|discriminate]. destruct (IFF_updateChunkSizes x q) as [[x'|]|u|] eqn:X; try discriminate. cbn [obind] in E.
    destruct (IH 0 x x' (Ty_child _ _ _ _ T G) X) as (TX & IX).
    destruct (update_own_size (set_child c s x')) as [d|u|] eqn:Y; [|discriminate|discriminate]. injection E as <-. destruct (own_size _ _ Y) as (z & ->).
    split; [apply Ty_size; exact (Ty_set _ _ _ _ _ T G TX IX)|]. destruct s as [n|n]; destruct c; try discriminate G; reflexivity.
Qed.

(** ** The invariant *)

Record own := mkOwn { o_root : addr; o_tree : chunk; o_blocks : list addr }.
Definition blocks (l : list own) : list addr := flat_map o_blocks l.
Definition holds (h : heap) (o : own) : Prop := tree_at h (o_tree o) None (o_root o) (o_blocks o) /\ Typed no_apps 0 (o_tree o).

Definition Inv (h0 h : heap) (l : list own) (L : list addr) : Prop :=
  Forall (holds h) l /\ NoDup (blocks l ++ L) /\ (forall x, In x L -> lookup h x <> None) /\ becomes h0 h [] (blocks l ++ L).

Lemma blocks_app : forall l m, blocks (l ++ m) = blocks l ++ blocks m.
Proof. intros l m. apply flat_map_app. Qed.

Lemma blocks_perm : forall l m, Permutation l m -> same_blocks (blocks l) (blocks m).
Proof. intros l m P. unfold blocks. induction P; cbn [flat_map]; same. Qed.

Lemma perm_same : forall F G : list addr, Permutation F G -> same_blocks F G.
Proof. intros F G P. induction P; same. Qed.

Lemma Inv_perm : forall h0 h l l' L L', Permutation l l' -> Permutation L L' -> Inv h0 h l L -> Inv h0 h l' L'.
Proof.
  intros h0 h l l' L L' P PL (A & ND & LV & B). pose proof (blocks_perm _ _ P) as S. pose proof (perm_same _ _ PL) as S2. assert (SS : same_blocks (blocks l ++ L) (blocks l' ++ L')) by same.
  split; [exact (Permutation_Forall P A)|]. split; [exact (proj1 (same_nodup _ _ SS) ND)|]. split; [intros x I; apply LV, (Permutation_in _ (Permutation_sym PL) I)|].
  exact (same_becomes _ _ _ _ _ _ B (same_refl _) SS).
Qed.

Lemma blocks_live : forall h l x, Forall (holds h) l -> In x (blocks l) -> lookup h x <> None.
Proof.
  intros h l x A I. apply in_flat_map in I. destruct I as (o & IO & IX). rewrite Forall_forall in A. destruct (A o IO) as (T & _). exact (tree_live _ _ _ _ _ _ T IX).
Qed.

Lemma holds_frame : forall h h' o, holds h o -> (forall x, In x (o_blocks o) -> lookup h' x = lookup h x) -> holds h' o.
Proof. intros h h' o (T & Y) K. split; [exact (tree_frame _ _ _ _ _ _ T K)|exact Y]. Qed.

(** One step: the trees [X] and the loose blocks [LX] become [X'] and [LX'];
    all others are untouched. *)
Theorem Inv_step : forall h0 h h' X X' rest LX LX' Lrest, Inv h0 h (X ++ rest) (LX ++ Lrest) ->
  becomes h h' (blocks X ++ LX) (blocks X' ++ LX') -> NoDup (blocks X' ++ LX') -> Forall (holds h') X' -> (forall x, In x LX' -> lookup h' x <> None) ->
  Inv h0 h' (X' ++ rest) (LX' ++ Lrest).
Proof.
  intros h0 h h' X X' rest LX LX' Lrest (A & ND & LV & B) BC ND' A' LV'. rewrite Forall_app in A. destruct A as (AX & AR).
  rewrite blocks_app in ND, B. set (R := blocks rest ++ Lrest).
  assert (S1 : same_blocks ((blocks X ++ blocks rest) ++ LX ++ Lrest) (R ++ blocks X ++ LX)) by (unfold R; same).
  assert (S2 : same_blocks (blocks (X' ++ rest) ++ LX' ++ Lrest) (R ++ blocks X' ++ LX')) by (rewrite blocks_app; unfold R; same).
  pose proof (proj1 (same_nodup _ _ S1) ND) as ND1. 
  assert (LR : forall x, In x R -> lookup h x <> None).
  { intros x I. apply in_app_or in I. destruct I as [I|I]; [exact (blocks_live _ _ _ AR I)|]. apply LV, in_or_app. right. exact I. }
  assert (NR : forall x, In x R -> ~ In x (blocks X ++ LX)) by (intros x I J; exact (NoDup_app_disjoint _ _ _ _ ND1 I J)).
  assert (NR' : forall x, In x R -> ~ In x (blocks X' ++ LX')).
  { intros x I J. destruct (proj2 (proj2 (proj2 BC)) x J) as [K|K]; [exact (NR x I K)|]. exact (LR x I K). }
  assert (KR : forall x, In x R -> lookup h' x = lookup h x) by (intros x I; apply (proj1 (proj2 BC)); [exact (NR x I)|exact (NR' x I)]).
  split; [|split; [|split]].
  - apply Forall_app. split; [exact A'|]. rewrite Forall_forall in AR |- *. intros o IO. apply (holds_frame h); [exact (AR o IO)|]. intros x I. apply KR. unfold R. apply in_or_app. left. apply in_flat_map. exists o. split; assumption.
  - apply (same_nodup _ _ S2). apply NoDup_app; [exact (NoDup_app_l _ _ _ ND1)|exact ND'|intros x I J; exact (NR' x I J)].
  - intros x I. apply in_app_or in I. destruct I as [I|I]; [exact (LV' x I)|]. assert (IR : In x R) by (unfold R; apply in_or_app; right; exact I). rewrite (KR x IR). exact (LR x IR).
  - apply (becomes_trans _ h _ _ (R ++ blocks X ++ LX)).
    + exact (same_becomes _ _ _ _ _ _ B (same_refl _) S1).
    + apply (same_becomes h h' (R ++ blocks X ++ LX) (R ++ blocks X' ++ LX')); [apply becomes_frame; exact BC|apply same_refl|intro x; symmetry; apply S2].
Qed.

(** ** Finding the client's chunks in the invariant *)

Lemma drop_notin : forall x l, ~ In x l -> drop x l = l.
Proof. intros x l N. apply notin_remove. exact N. Qed.

Lemma drop_cong : forall x l m, Permutation l m -> Permutation (drop x l) (drop x m).
Proof.
  intros x l m P. unfold drop. induction P as [|a l m P IH|a b l|l m n P1 IH1 P2 IH2]; cbn [remove].
  - constructor.
  - destruct (Nat.eq_dec x a); [exact IH|constructor; exact IH].
  - destruct (Nat.eq_dec x a), (Nat.eq_dec x b); try apply Permutation_refl. apply perm_swap.
  - exact (Permutation_trans IH1 IH2).
Qed.

Lemma drop_perm : forall x l m, Permutation l (x :: m) -> NoDup l -> Permutation (drop x l) m.
Proof.
  intros x l m P ND. pose proof (Permutation_NoDup P ND) as ND2. inversion ND2 as [|y r NI ND3]; subst.
  apply (Permutation_trans (drop_cong x _ _ P)). cbn [drop remove]. unfold drop. cbn [remove]. destruct (Nat.eq_dec x x) as [_|N]; [|congruence]. rewrite notin_remove by exact NI. apply Permutation_refl.
Qed.

Lemma roots_nodup : forall h l L, Forall (holds h) l -> NoDup (blocks l ++ L) -> NoDup (map o_root l).
Proof.
  intros h l L A ND. apply NoDup_app_l in ND. induction A as [|o l (T & TY) A IH]; [constructor|]. cbn [map blocks flat_map] in *. constructor.
  - intro I. apply in_map_iff in I. destruct I as (o' & E & I). rewrite Forall_forall in A. destruct (A o' I) as (T' & _).
    apply (NoDup_app_disjoint _ _ _ (o_root o) ND); [exact (tree_root_in _ _ _ _ _ T)|]. apply in_flat_map. exists o'. split; [exact I|]. rewrite <- E. exact (tree_root_in _ _ _ _ _ T').
  - exact (IH (NoDup_app_r _ _ _ ND)).
Qed.

Lemma pick : forall r l, In r (map o_root l) -> exists o l', Permutation l (o :: l') /\ o_root o = r.
Proof.
  intros r l I. apply in_map_iff in I. destruct I as (o & E & I). apply in_split in I. destruct I as (l1 & l2 & ->). exists o, (l1 ++ l2).
  split; [apply Permutation_sym, Permutation_middle|exact E].
Qed.

Lemma pick_loose : forall (x : addr) L, In x L -> exists L', Permutation L (x :: L').
Proof. intros x L I. apply in_split in I. destruct I as (l1 & l2 & ->). exists (l1 ++ l2). apply Permutation_sym, Permutation_middle. Qed.

Lemma member_child : forall h g c, has_member h g c -> exists s, child_is h g s c.
Proof.
  intros h g c (hd & b & L & M). destruct b as [d|t n arr|t n arr pn parr|v]; try contradiction.
  - destruct M as (d & l & k & -> & LD & K & N). exists (InSub k). exists hd. eexists. split; [exact L|]. exists d, l. repeat split; assumption.
  - destruct M as [M|M]; destruct M as (d & l & k & -> & LD & K & N); [exists (InSub k)|exists (InProp k)]; exists hd; eexists; (split; [exact L|]); exists d, l; repeat split; assumption.
Qed.

Lemma reaches_path : forall h r c, Reaches h r c -> exists q, Leads h r q c.
Proof.
  intros h r c R. induction R as [|g c R (q & LQ) M]; [exists []; constructor|]. destruct (member_child _ _ _ M) as (s & CI). exists (q ++ [s]).
  apply (Leads_app _ _ _ g); [exact LQ|]. econstructor; [exact CI|constructor].
Qed.

(** the chunk [c] below the root [o]: what it is, and how to replace it *)
Definition located (h : heap) (o : own) (c : addr) (q : path) (y : chunk) (pb : ptr) (F1 G : list addr) : Prop :=
  Leads h (o_root o) q c /\ at_path (o_tree o) q = Some y /\ Typed no_apps 0 y /\ tree_at h y pb c F1 /\ NoDup (F1 ++ G) /\
  same_blocks (o_blocks o) (F1 ++ G) /\
  forall h' y' F1', tree_at h' y' pb c F1' -> (forall x, In x G -> lookup h' x = lookup h x) -> Typed no_apps 0 y' -> chunkId y' = chunkId y ->
    exists o', o_root o' = o_root o /\ holds h' o' /\ same_blocks (o_blocks o') (F1' ++ G).

Lemma locate : forall h0 h o l L c, Inv h0 h (o :: l) L -> Reaches h (o_root o) c -> exists q y pb F1 G, located h o c q y pb F1 G.
Proof.
  intros h0 h o l L c (A & ND & _) R. inversion A as [|o1 l1 (T & TY) AL]; subst. destruct (reaches_path _ _ _ R) as (q & LQ).
  destruct (Leads_path _ _ _ _ _ _ _ T LQ) as (y & AP). destruct (path_split _ _ _ _ _ _ _ T AP) as (b & pb & F1 & G & LB & TB & S & _ & K).
  rewrite (Leads_det _ _ _ _ _ LB LQ) in *. exists q, y, pb, F1, G. split; [exact LQ|]. split; [exact AP|]. split; [exact (Ty_at _ _ _ _ TY AP)|]. split; [exact TB|].
  split; [|split; [exact S|]].
  - apply (same_nodup _ _ S). cbn [blocks flat_map] in ND. exact (NoDup_app_l _ _ _ (NoDup_app_l _ _ _ ND)).
  - intros h' y' F1' T' KG TY' I. destruct (K h' y' F1' T' KG) as (F' & T2 & S2). exists (mkOwn (o_root o) (replace_at (o_tree o) q y') F').
    split; [reflexivity|]. split; [|exact S2]. split; [exact T2|exact (Ty_replace _ _ _ _ _ TY AP TY' I)].
Qed.

(** Changing a chunk in place, using up the trees [X] and the loose blocks [LX]
    and leaving the loose blocks [LX'] *)
Lemma Inv_local : forall h0 h h' o X rest LX LX' Lrest c q y pb F1 G y' F1', Inv h0 h (o :: X ++ rest) (LX ++ Lrest) -> located h o c q y pb F1 G ->
  tree_at h' y' pb c F1' -> Typed no_apps 0 y' -> chunkId y' = chunkId y ->
  becomes h h' (F1 ++ blocks X ++ LX) (F1' ++ LX') -> NoDup (F1' ++ LX') -> (forall x, In x LX' -> lookup h' x <> None) ->
  exists o', o_root o' = o_root o /\ Inv h0 h' (o' :: rest) (LX' ++ Lrest).
Proof.
  intros h0 h h' o X rest LX LX' Lrest c q y pb F1 G y' F1' IV (LQ & AP & TY & TB & NDB & S & K) T' TY' I B ND' LV'.
  pose proof IV as (A & ND & LV & _). inversion A as [|o1 l1 (T & TYO) AL]; subst.
  assert (LG : forall x, In x G -> lookup h x <> None).
  { intros x IX. apply (tree_live _ _ _ _ _ _ T). apply (same_in _ _ _ S). apply in_or_app. right. exact IX. }
  assert (NG : forall x, In x G -> ~ In x (F1 ++ blocks X ++ LX)).
  { intros x IX J. assert (N2 : NoDup (G ++ F1 ++ blocks X ++ LX)).
    { cbn [blocks flat_map] in ND. change (flat_map o_blocks (X ++ rest)) with (blocks (X ++ rest)) in ND. rewrite blocks_app in ND.
      apply nodup_cnt. intro z. pose proof (proj1 (nodup_cnt _) ND z) as Z. specialize (S z). rewrite !cnt_app in *. lia. }
    exact (NoDup_app_disjoint _ _ _ _ N2 IX J). }
  assert (NG' : forall x, In x G -> ~ In x (F1' ++ LX')).
  { intros x IX J. destruct (proj2 (proj2 (proj2 B)) x J) as [J2|J2]; [exact (NG x IX J2)|]. exact (LG x IX J2). }
  assert (KG : forall x, In x G -> lookup h' x = lookup h x) by (intros x IX; apply (proj1 (proj2 B)); [exact (NG x IX)|exact (NG' x IX)]).
  destruct (K h' y' F1' T' KG TY' I) as (o' & RO & HO & SO). exists o'. split; [exact RO|].
  apply (Inv_step h0 h h' (o :: X) [o'] rest LX LX' Lrest); [exact IV| | |constructor; [exact HO|constructor]|exact LV'].
  - apply (same_becomes h h' (G ++ F1 ++ blocks X ++ LX) (G ++ F1' ++ LX')); [apply becomes_frame; exact B| |].
    + intro z. specialize (S z). cbn [blocks flat_map]. change (flat_map o_blocks X) with (blocks X). rewrite !cnt_app in *. lia.
    + intro z. specialize (SO z). cbn [blocks flat_map]. rewrite !cnt_app, ?cnt_nil in *. lia.
  - cbn [blocks flat_map]. rewrite app_nil_r. apply nodup_cnt. intro z. specialize (SO z). rewrite cnt_app in *.
    assert (N3 : NoDup (G ++ F1' ++ LX')) by (apply NoDup_app; [exact (NoDup_app_r _ _ _ NDB)|exact ND'|intros x IX J; exact (NG' x IX J)]).
    pose proof (proj1 (nodup_cnt _) N3 z) as Z. rewrite !cnt_app in Z. lia.
Qed.

Definition Has (h0 h : heap) (s : client) : Prop :=
  exists l, Inv h0 h l (loose s) /\ Permutation (owned s) (map o_root l).

Definition good (e : env) (n : Z) (u : ub) : Prop := u = UB_signed_overflow \/ u = UB_null_deref /\ out_of_memory e n.

(** ** Creating and reading *)

Lemma step_make : forall m (hm : H ptr) h0 h s e w, reads no_apps 0 m hm -> Has h0 h s ->
  match hm e w h with
  | Done (r, w', h') => Has h0 h' (mkClient (opt r ++ owned s) (loose s))
  | Undefined u => m e w = Undefined u
  | OutOfFuel => m e w = OutOfFuel
  end.
Proof.
  intros m hm h0 h s e w RD (l & IV & P). specialize (RD e w h). destruct (m e w) as [[[c|] w']|u|].
  - destruct RD as (a & h' & F & -> & T & ND & B & TY). exists (mkOwn a c F :: l). split; [|cbn; constructor; exact P].
    apply (Inv_step h0 h h' [] [mkOwn a c F] l [] [] (loose s)); [exact IV| | |constructor; [split; [exact T|exact TY]|constructor]|intros x []].
    + cbn [blocks flat_map o_blocks]. rewrite !app_nil_r. exact B.
    + cbn [blocks flat_map o_blocks]. rewrite !app_nil_r. exact ND.
  - destruct RD as (h' & -> & B). exists l. split; [|exact P]. apply (Inv_step h0 h h' [] [] l [] [] (loose s)); [exact IV|exact B|constructor|constructor|intros x []].
  - rewrite RD. reflexivity.
  - rewrite RD. reflexivity.
Qed.

Lemma makes_reads : forall m hm, makes m hm -> (forall e w c w', m e w = Done (Some c, w') -> Typed no_apps 0 c) -> reads no_apps 0 m hm.
Proof.
  intros m hm MK TY e w h. specialize (MK e w h). specialize (TY e w). destruct (m e w) as [[[c|] w']|u|]; [|exact MK|exact MK|exact MK].
  destruct MK as (a & h' & F & E & T & ND & B). exists a, h', F. split; [exact E|]. split; [exact T|]. split; [exact ND|]. split; [exact B|]. exact (TY c w' eq_refl).
Qed.

Lemma step_group : forall h0 h s cid ty e w, Has h0 h s -> In cid [FORM_ID; CAT_ID; PROP_ID] ->
  exists r w' h', hcreateEmptyGroup cid ty e w h = Done (r, w', h') /\ Has h0 h' (mkClient (opt r ++ owned s) (loose s)).
Proof.
  intros h0 h s cid ty e w HS I.
  assert (RD : reads no_apps 0 (IFF_createGroup cid IFF_ID_SIZE ty) (hcreateEmptyGroup cid ty)).
  { apply makes_reads; [apply makes_group|]. intros e' w1 c w2 E. unfold IFF_createGroup in E. rewrite bind_eq in E. destruct (malloc _ e' w1) as [[[] w3]|u|]; try discriminate. injection E as <- <-. constructor; [exact I|intros x []]. }
  pose proof (step_make _ _ h0 h s e w RD HS) as R. destruct (hcreateEmptyGroup cid ty e w h) as [[[r w'] h']|u|]; [exists r, w', h'; split; [reflexivity|exact R]|discriminate R|discriminate R].
Qed.

Lemma step_list : forall h0 h s ty e w, Has h0 h s ->
  exists r w' h', hcreateList IFF_ID_SIZE ty e w h = Done (r, w', h') /\ Has h0 h' (mkClient (opt r ++ owned s) (loose s)).
Proof.
  intros h0 h s ty e w HS.
  assert (RD : reads no_apps 0 (IFF_createList IFF_ID_SIZE ty) (hcreateList IFF_ID_SIZE ty)).
  { apply makes_reads; [apply makes_list|]. intros e' w1 c w2 E. unfold IFF_createList in E. rewrite bind_eq in E. destruct (malloc _ e' w1) as [[[] w3]|u|]; try discriminate. injection E as <- <-. constructor; intros x []. }
  pose proof (step_make _ _ h0 h s e w RD HS) as R. destruct (hcreateList IFF_ID_SIZE ty e w h) as [[[r w'] h']|u|]; [exists r, w', h'; split; [reflexivity|exact R]|discriminate R|discriminate R].
Qed.

Lemma step_raw : forall h0 h s cid size e w, Has h0 h s -> ~ In cid group_ids -> in_range FLong size ->
  exists r w' h', hcreateRawChunk cid size e w h = Done (r, w', h') /\ Has h0 h' (mkClient (opt r ++ owned s) (loose s)).
Proof.
  intros h0 h s cid size e w HS NG RG.
  assert (RD : reads no_apps 0 (IFF_createRawChunk cid size) (hcreateRawChunk cid size)).
  { apply makes_reads; [apply makes_raw; exact RG|]. intros e' w1 c w2 E. unfold IFF_createRawChunk in E. rewrite bind_eq in E. cbn [ask] in E. rewrite bind_eq in E.
    destruct (malloc _ e' w1) as [[[] w3]|u|]; try discriminate. rewrite bind_eq in E. destruct (malloc _ e' w3) as [[[] w4]|u|]; try discriminate. injection E as <- <-. constructor; [exact NG|reflexivity]. }
  assert (TOT : exists oc w', IFF_createRawChunk cid size e w = Done (oc, w')).
  { unfold IFF_createRawChunk. rewrite bind_eq. cbn [ask]. rewrite bind_eq. destruct (malloc_run sizeof_RawChunk e w) as (b1 & w1 & -> & _).
    destruct b1; [|do 2 eexists; reflexivity]. rewrite bind_eq. destruct (malloc_run (wrap_u (size_t_bits e) size) e w1) as (b2 & w2 & -> & _). do 2 eexists. reflexivity. }
  pose proof (step_make _ _ h0 h s e w RD HS) as R. destruct TOT as (oc & w1 & TOT). rewrite TOT in R.
  destruct (hcreateRawChunk cid size e w h) as [[[r w'] h']|u|]; [exists r, w', h'; split; [reflexivity|exact R]|discriminate R|discriminate R].
Qed.

Lemma step_read : forall h0 h s e w, Has h0 h s ->
  match hIFF_readFd None e w h with
  | Done (r, w', h') => Has h0 h' (mkClient (opt r ++ owned s) (loose s))
  | Undefined u => strict_c e = false -> good e (zlength (r_rest (w_in w))) u
  | OutOfFuel => False
  end.
Proof.
  intros h0 h s e w HS. pose proof (step_make _ _ h0 h s e w (readFd_at None no_apps default_none) HS) as R.
  destruct (hIFF_readFd None e w h) as [[[r w'] h']|u|]; [exact R| |].
  - intro NS. destruct (C13_only_overflow_or_null None no_apps e w u default_none no_apps_sane NS R) as [->|(-> & N)]; [left; reflexivity|right; split; [reflexivity|exact N]].
  - exact (C12_reading_terminates None e w R).
Qed.

(** ** Adding *)

Lemma good_mono : forall e n n' u, n <= n' -> good e n u -> good e n' u.
Proof. intros e n n' u L [->|(-> & k & sz & B & M)]; [left; reflexivity|right; split; [reflexivity|exists k, sz; split; [lia|exact M]]]. Qed.

Lemma malloc_short : forall sz e w w', 0 < sz -> malloc sz e w = Done (false, w') -> out_of_memory e sz.
Proof.
  intros sz e w w' P E. injection E as E _. apply Bool.andb_false_iff in E. destruct E as [E|E]; [exists O, sz; split; [lia|right; apply Z.ltb_ge; exact E]|exists (w_allocs w), sz; split; [lia|left; exact E]].
Qed.

Lemma increment_outcome : forall s c, match IFF_incrementChunkSize s c with Done _ => True | Undefined u => u = UB_signed_overflow | OutOfFuel => False end.
Proof. intros s c. unfold IFF_incrementChunkSize. destruct (_ <? _); [reflexivity|]. destruct (c_odd _); [|exact I]. destruct (_ =? _); [reflexivity|exact I]. Qed.

Lemma Ty_subs : forall y tc g subs, Typed no_apps 0 y -> Typed no_apps 0 tc -> as_group y = Some (g, subs) -> Typed no_apps 0 (set_subs y (subs ++ [tc])).
Proof.
  intros y tc g subs T TC AG. inversion T as [? ? ? ? NG AP|? ? ? ? ? NG AP KM|? ? ? ? ? IG MB|? ? ? ? ? PB MB]; subst; try discriminate AG; injection AG as <- <-; cbn [set_subs].
  - constructor; [exact IG|]. intros x I. apply in_app_or in I. destruct I as [I|[<-|[]]]; [exact (MB x I)|exact (Ty_any _ _ _ TC)].
  - constructor; [exact PB|]. intros x I. apply in_app_or in I. destruct I as [I|[<-|[]]]; [exact (MB x I)|exact (Ty_any _ _ _ TC)].
Qed.

Lemma add_outcome : forall y tc g subs e w, Typed no_apps 0 y -> Typed no_apps 0 tc -> as_group y = Some (g, subs) ->
  match IFF_addToGroup y tc e w with
  | Done (y', w') => Typed no_apps 0 y' /\ chunkId y' = chunkId y
  | Undefined u => good e ((zlength subs + 1) * sizeof_pointer) u
  | OutOfFuel => False
  end.
Proof.
  intros y tc g subs e w T TC AG. unfold IFF_addToGroup, IFF_attachToGroup. rewrite AG. rewrite !bind_eq.
  destruct (malloc_run ((zlength subs + 1) * sizeof_pointer) e w) as (b & w1 & E & _). rewrite E. destruct b.
  - unfold ret, lift. rewrite bind_eq. pose proof (increment_outcome (chunkSize (set_subs y (subs ++ [tc]))) tc) as O.
    destruct (IFF_incrementChunkSize _ tc) as [z|u|]; [|left; exact O|exact O]. split; [apply Ty_size; exact (Ty_subs _ _ _ _ T TC AG)|]. destruct y; try discriminate AG; reflexivity.
  - right. split; [reflexivity|]. refine (malloc_short _ _ _ _ _ E). pose proof (zlength_nonneg _ subs). unfold sizeof_pointer. lia.
Qed.

Lemma addProp_outcome : forall i sz g props subs tc e w, Typed no_apps 0 (CList i sz g props subs) -> Typed no_apps 0 tc -> chunkId tc = PROP_ID ->
  match IFF_addPropToList (CList i sz g props subs) tc e w with
  | Done (y', w') => Typed no_apps 0 y' /\ chunkId y' = i
  | Undefined u => good e ((zlength props + 1) * sizeof_pointer) u
  | OutOfFuel => False
  end.
Proof.
  intros i sz g props subs tc e w T TC IP. unfold IFF_addPropToList, addPropToList. rewrite !bind_eq.
  destruct (malloc_run ((zlength props + 1) * sizeof_pointer) e w) as (b & w1 & E & _). rewrite E. destruct b.
  - unfold ret, lift. rewrite bind_eq. pose proof (increment_outcome (chunkSize (CList i sz g (props ++ [tc]) subs)) tc) as O.
    destruct (IFF_incrementChunkSize _ tc) as [z|u|]; [|left; exact O|exact O]. cbn [set_chunkSize]. split; [|reflexivity].
    inversion T as [? ? ? ? NG AP|? ? ? ? ? NG AP KM|? ? ? ? ? IG MB|? ? ? ? ? PB MB]; subst. constructor; [|exact MB].
    intros x I. apply in_app_or in I. destruct I as [I|[<-|[]]]; [exact (PB x I)|]. split; [exact (Ty_any _ _ _ TC)|exact IP].
  - right. split; [reflexivity|]. refine (malloc_short _ _ _ _ _ E). pose proof (zlength_nonneg _ props). unfold sizeof_pointer. lia.
Qed.

Lemma Ty_retype : forall y g, Typed no_apps 0 y -> Typed no_apps 0 (set_groupType y g).
Proof.
  intros y g T. inversion T as [? ? ? ? NG AP|? ? ? ? ? NG AP KM|? ? ? ? ? IG MB|? ? ? ? ? PB MB]; subst; try exact T; cbn [set_groupType].
  - constructor; [exact IG|]. intros x I. exact (Ty_any _ _ _ (MB x I)).
  - constructor; [|intros x I; exact (Ty_any _ _ _ (MB x I))]. intros x I. split; [exact (Ty_any _ _ _ (proj1 (PB x I)))|exact (proj2 (PB x I))].
Qed.

Lemma contents_outcome : forall y tc g subs, Typed no_apps 0 y -> Typed no_apps 0 tc -> as_group y = Some (g, subs) ->
  exists y', updateContentsType y tc = Done y' /\ Typed no_apps 0 y' /\ chunkId y' = chunkId y /\ exists g', as_group y' = Some (g', subs).
Proof.
  intros y tc g subs T TC AG. unfold updateContentsType. rewrite AG.
  assert (R : forall g', exists y', Done (set_groupType y g') = Done y' /\ Typed no_apps 0 y' /\ chunkId y' = chunkId y /\ exists g', as_group y' = Some (g', subs)).
  { intro g'. eexists. split; [reflexivity|]. split; [exact (Ty_retype _ _ T)|]. destruct y; try discriminate AG; injection AG as <- <-; split; try reflexivity; eexists; reflexivity. }
  assert (S : exists y', Done y = Done y' /\ Typed no_apps 0 y' /\ chunkId y' = chunkId y /\ exists g', as_group y' = Some (g', subs)).
  { exists y. split; [reflexivity|]. split; [exact T|]. split; [reflexivity|exists g; exact AG]. }
  destruct (checkValidCATSubChunkId (chunkId tc)) eqn:V; [|exact S].
  assert (GC : exists gc l, as_group tc = Some (gc, l)).
  { inversion TC as [? ? ? ? NG AP|? ? ? ? ? NG AP KM|? ? ? ? ? IG MB|? ? ? ? ? PB MB]; subst; try (cbn; do 2 eexists; reflexivity); [|discriminate AP].
    exfalso. apply NG. cbn [chunkId] in V. unfold checkValidCATSubChunkId in V. rewrite !Bool.orb_true_iff, !Z.eqb_eq in V. unfold group_ids. cbn. 
    destruct V as [[->| ->]| ->]; cbn; tauto. }
  destruct GC as (gc & l & ->). destruct (_ =? 0); [apply R|]. destruct (negb _ && negb _); [apply R|exact S].
Qed.

Lemma addCAT_outcome : forall y tc g subs e w, Typed no_apps 0 y -> Typed no_apps 0 tc -> as_group y = Some (g, subs) ->
  match IFF_addToCATAndUpdateContentsType y tc e w with
  | Done (y', w') => Typed no_apps 0 y' /\ chunkId y' = chunkId y
  | Undefined u => good e ((zlength subs + 1) * sizeof_pointer) u
  | OutOfFuel => False
  end.
Proof.
  intros y tc g subs e w T TC AG. destruct (contents_outcome y tc g subs T TC AG) as (y' & E & T' & I & g' & AG'). unfold IFF_addToCATAndUpdateContentsType. rewrite bind_eq. unfold lift. rewrite E.
  pose proof (add_outcome y' tc g' subs e w T' TC AG') as O. destruct (IFF_addToGroup y' tc e w) as [[y2 w2]|u|]; [|exact O|exact O]. destruct O as (O1 & O2). split; [exact O1|congruence].
Qed.

Lemma trees_count : forall h l p la F, trees_at (tree_at h) l p la F -> (List.length l <= List.length F)%nat.
Proof.
  intros h. induction l as [|c l IH]; intros p [|a la] F T; cbn [trees_at] in T; try contradiction; [cbn; lia|].
  destruct T as (F1 & F2 & T1 & T2 & ->). destruct (tree_root _ _ _ _ _ T1) as (F' & ->). specialize (IH _ _ _ T2). cbn [List.length]. rewrite app_length. cbn. lia.
Qed.

Lemma count_heap : forall h c p a F, tree_at h c p a F -> NoDup F -> (List.length F <= List.length h)%nat.
Proof. intros h c p a F T ND. apply blocks_bounded; [exact ND|]. intros x I. exact (tree_below _ _ _ _ _ _ T I). Qed.

Lemma subs_count : forall h y p a F g subs, tree_at h y p a F -> NoDup F -> as_group y = Some (g, subs) -> zlength subs <= Z.of_nat (List.length h).
Proof.
  intros h y p a F g subs T ND AG. pose proof (count_heap _ _ _ _ _ T ND) as C. unfold zlength. destruct y as [i s d|i s t l|i s t ps l|i s v]; try discriminate AG; injection AG as <- <-; cbn [tree_at] in T.
  - destruct T as (arr & la & Fa & Fl & _ & _ & TT & ->). apply trees_count in TT. cbn [List.length] in C. rewrite app_length in C. lia.
  - destruct T as (arr & la & Fa & Fl & parr & pa & Fb & Fp & _ & _ & TT & _ & _ & ->). apply trees_count in TT. cbn [List.length] in C. rewrite !app_length in C. lia.
Qed.

Lemma props_count : forall h i s g props subs p a F, tree_at h (CList i s g props subs) p a F -> NoDup F -> zlength props <= Z.of_nat (List.length h).
Proof.
  intros h i s g props subs p a F T ND. pose proof (count_heap _ _ _ _ _ T ND) as C. unfold zlength. cbn [tree_at] in T.
  destruct T as (arr & la & Fa & Fl & parr & pa & Fb & Fp & _ & _ & _ & _ & TT & ->). apply trees_count in TT. cbn [List.length] in C. rewrite !app_length in C. lia.
Qed.

(** two different roots *)
Lemma pick2 : forall r c l, In r (map o_root l) -> In c (map o_root l) -> r <> c ->
  exists o oc l', Permutation l (o :: oc :: l') /\ o_root o = r /\ o_root oc = c.
Proof.
  intros r c l IR IC NE. destruct (pick r l IR) as (o & l1 & P & EO). 
  assert (IC1 : In c (map o_root (o :: l1))) by (apply (Permutation_in _ (Permutation_map o_root P)); exact IC). destruct IC1 as [E|IC1]; [congruence|].
  destruct (pick c l1 IC1) as (oc & l2 & P2 & EC). exists o, oc, l2. split; [|split; assumption]. apply (Permutation_trans P). constructor. exact P2.
Qed.

Lemma step_add_with : forall (m : chunk -> chunk -> M chunk) (hm : H unit) h0 h s g c e w, Has h0 h s -> may_add h s g c ->
  (forall y tc p pc F Fc, tree_at h y p g F -> tree_at h tc pc c Fc -> NoDup (F ++ Fc) -> Typed no_apps 0 y -> Typed no_apps 0 tc ->
     grows (m y tc) hm h p g F tc c Fc /\
     match m y tc e w with
     | Done (y', w') => Typed no_apps 0 y' /\ chunkId y' = chunkId y
     | Undefined u => good e (8 * (1 + Z.of_nat (List.length h))) u
     | OutOfFuel => False
     end) ->
  match hm e w h with
  | Done (_, w', h') => Has h0 h' (mkClient (drop c (owned s)) (loose s))
  | Undefined u => good e (8 * (1 + Z.of_nat (List.length h))) u
  | OutOfFuel => False
  end.
Proof.
  intros m hm h0 h s g c e w (l & IV & P) (IC & r & IR & NE & RE) STEP.
  destruct (pick2 r c l) as (o & oc & rest & PL & EO & EC); [apply (Permutation_in _ P); exact IR|apply (Permutation_in _ P); exact IC|exact NE|].
  pose proof (roots_nodup _ _ _ (proj1 IV) (proj1 (proj2 IV))) as NDR.
  apply (Inv_perm h0 h _ _ _ _ PL (Permutation_refl _)) in IV. subst r.
  destruct (locate _ _ _ _ _ _ IV RE) as (q & y & pb & F1 & G & LO). pose proof LO as (LQ & AP & TY & TB & NDB & S & K).
  pose proof IV as (A & ND & LV & _). inversion A as [|o1 l1 (T & TYO) AL]; subst. inversion AL as [|o2 l2 (TC & TYC) AL2]; subst.
  assert (ND2 : NoDup (F1 ++ o_blocks oc)).
  { cbn [blocks flat_map] in ND. apply nodup_cnt. intro z. pose proof (proj1 (nodup_cnt _) ND z) as Z. specialize (S z). rewrite !cnt_app in *. lia. }
  destruct (STEP y (o_tree oc) pb None F1 (o_blocks oc) TB TC ND2 TY TYC) as (GR & OUT). specialize (GR e w). destruct (m y (o_tree oc) e w) as [[y' w']|u|]; [| |destruct OUT].
  - destruct GR as (h' & F1' & -> & T' & ND' & B & _). destruct OUT as (TY' & IY).
    destruct (Inv_local h0 h h' o [oc] rest [] [] (loose s) g q y pb F1 G y' F1' IV LO T' TY' IY) as (o' & RO & IV'); [|rewrite app_nil_r; exact ND'|intros x []|].
    + cbn [blocks flat_map]. rewrite !app_nil_r. exact B.
    + exists (o' :: rest). split; [exact IV'|]. cbn [owned map]. rewrite RO. apply drop_perm.
      * apply (Permutation_trans P). apply (Permutation_trans (Permutation_map o_root PL)). cbn [map]. apply perm_swap.
      * apply (Permutation_NoDup (Permutation_sym P)). exact NDR.
  - rewrite GR. exact OUT.
Qed.

Lemma group_of : forall h y p a F, tree_at h y p a F -> is_group h a -> exists g subs, as_group y = Some (g, subs).
Proof.
  intros h y p a F T (hd & b & L & M). destruct y as [i s d|i s t l|i s t ps l|i s v]; cbn [tree_at] in T; try (do 2 eexists; reflexivity).
  - destruct T as (x & z & L' & _). rewrite L in L'. injection L' as -> ->. contradiction.
  - destruct T as (L' & _). rewrite L in L'. injection L' as -> ->. contradiction.
Qed.

Lemma list_of : forall h y p a F, tree_at h y p a F -> is_list h a -> exists i s g ps subs, y = CList i s g ps subs.
Proof.
  intros h y p a F T (hd & g & n & arr & pn & parr & L). destruct y as [i s d|i s t l|i s t ps l|i s v]; cbn [tree_at] in T; try (do 5 eexists; reflexivity).
  - destruct T as (x & z & L' & _). congruence.
  - destruct T as (x & z & Fa & Fl & L' & _). congruence.
  - destruct T as (L' & _). congruence.
Qed.

Lemma id_of : forall h y p a F i, tree_at h y p a F -> has_id h a i -> chunkId y = i.
Proof. intros h y p a F i T (hd & b & L & E). destruct (tree_header _ _ _ _ _ T) as (b' & L'). rewrite L in L'. injection L' as -> ->. exact E. Qed.

Lemma step_add : forall h0 h s g c e w, Has h0 h s -> may_add h s g c -> is_group h g ->
  match haddToGroup g c e w h with
  | Done (_, w', h') => Has h0 h' (mkClient (drop c (owned s)) (loose s))
  | Undefined u => good e (8 * (1 + Z.of_nat (List.length h))) u
  | OutOfFuel => False
  end.
Proof.
  intros h0 h s g c e w HS MA IG. apply (step_add_with IFF_addToGroup _ h0 h s g c e w HS MA). intros y tc p pc F Fc T TC ND TY TYC.
  split; [exact (add_at _ _ _ pc _ _ _ _ _ T TC ND)|]. destruct (group_of _ _ _ _ _ T IG) as (gt & subs & AG).
  pose proof (add_outcome y tc gt subs e w TY TYC AG) as O. destruct (IFF_addToGroup y tc e w) as [[y' w']|u|]; [exact O| |exact O].
  refine (good_mono _ _ _ _ _ O). pose proof (subs_count _ _ _ _ _ _ _ T (NoDup_app_l _ _ _ ND) AG). unfold sizeof_pointer. lia.
Qed.

Lemma step_addCAT : forall h0 h s g c e w, Has h0 h s -> may_add h s g c -> is_group h g ->
  match haddToCATAndUpdateContentsType g c e w h with
  | Done (_, w', h') => Has h0 h' (mkClient (drop c (owned s)) (loose s))
  | Undefined u => good e (8 * (1 + Z.of_nat (List.length h))) u
  | OutOfFuel => False
  end.
Proof.
  intros h0 h s g c e w HS MA IG. apply (step_add_with IFF_addToCATAndUpdateContentsType _ h0 h s g c e w HS MA). intros y tc p pc F Fc T TC ND TY TYC.
  split; [exact (addToCAT_at _ _ _ pc _ _ _ _ _ T TC ND)|]. destruct (group_of _ _ _ _ _ T IG) as (gt & subs & AG).
  pose proof (addCAT_outcome y tc gt subs e w TY TYC AG) as O. destruct (IFF_addToCATAndUpdateContentsType y tc e w) as [[y' w']|u|]; [exact O| |exact O].
  refine (good_mono _ _ _ _ _ O). pose proof (subs_count _ _ _ _ _ _ _ T (NoDup_app_l _ _ _ ND) AG). unfold sizeof_pointer. lia.
Qed.

Lemma step_addProp : forall h0 h s g c e w, Has h0 h s -> may_add h s g c -> is_list h g -> has_id h c PROP_ID ->
  match haddPropToList g c e w h with
  | Done (_, w', h') => Has h0 h' (mkClient (drop c (owned s)) (loose s))
  | Undefined u => good e (8 * (1 + Z.of_nat (List.length h))) u
  | OutOfFuel => False
  end.
Proof.
  intros h0 h s g c e w HS MA IL IP. apply (step_add_with IFF_addPropToList _ h0 h s g c e w HS MA). intros y tc p pc F Fc T TC ND TY TYC.
  split; [exact (addProp_at _ _ _ pc _ _ _ _ _ T TC ND)|]. destruct (list_of _ _ _ _ _ T IL) as (i & z & t & ps & subs & ->).
  pose proof (addProp_outcome i z t ps subs tc e w TY TYC (id_of _ _ _ _ _ _ TC IP)) as O. destruct (IFF_addPropToList _ tc e w) as [[y' w']|u|]; [exact O| |exact O].
  refine (good_mono _ _ _ _ _ O). pose proof (props_count _ _ _ _ _ _ _ _ _ T (NoDup_app_l _ _ _ ND)). unfold sizeof_pointer. lia.
Qed.

(** ** Data *)

Lemma use_located : forall h0 h s c, Has h0 h s -> in_use h s c ->
  exists o rest q y pb F1 G, Inv h0 h (o :: rest) (loose s) /\ Permutation (owned s) (map o_root (o :: rest)) /\ located h o c q y pb F1 G.
Proof.
  intros h0 h s c (l & IV & P) (r & IR & RE). destruct (pick r l (Permutation_in _ P IR)) as (o & rest & PL & EO).
  apply (Inv_perm h0 h _ _ _ _ PL (Permutation_refl _)) in IV. subst r. destruct (locate _ _ _ _ _ _ IV RE) as (q & y & pb & F1 & G & LO).
  exists o, rest, q, y, pb, F1, G. split; [exact IV|]. split; [exact (Permutation_trans P (Permutation_map o_root PL))|exact LO].
Qed.

Lemma raw_of : forall h y p a F hd d, tree_at h y p a F -> lookup h a = Some (OChunk hd (BRaw d)) ->
  exists i s x b z, y = CRaw i s x /\ hd = mkHeader p i s /\ d = Some b /\ F = [a; b] /\ lookup h b = Some (OData z x) /\ data_fits s z x.
Proof.
  intros h y p a F hd d T L. destruct y as [i s x|i s t l|i s t ps l|i s v]; cbn [tree_at] in T.
  - destruct T as (b & z & L' & LB & DF & ->). rewrite L in L'. injection L' as -> ->. exists i, s, x, b, z. repeat split; assumption.
  - destruct T as (x & z & Fa & Fl & L' & _). congruence.
  - destruct T as (arr & la & Fa & Fl & parr & pa & Fb & Fp & L' & _). congruence.
  - destruct T as (L' & _). congruence.
Qed.

(** the heap in which the chunk [c] has the data block [nb] instead of [b] *)
Lemma data_becomes : forall h h1 c b nb o, lookup h1 c <> None -> becomes h h1 [] [nb] -> c <> b -> lookup h c <> None -> lookup h b <> None ->
  becomes h (store h1 c o) [c; b] ([c; nb] ++ [b]).
Proof.
  intros h h1 c b nb o LC B NE LC0 LB. apply (becomes_trans _ h1 _ _ ([c; b] ++ [nb])).
  - change [c; b] with ([c; b] ++ []) at 1. apply becomes_frame. exact B.
  - apply (same_becomes h1 _ ([c; b] ++ [nb]) ([c; b] ++ [nb])); [apply becomes_store; [exact LC|left; reflexivity]|same|same].
Qed.

Lemma step_set : forall h0 h h1 s c nb z x size LX Lrest, Has h0 h s -> in_use h s c -> is_raw h c ->
  Permutation (loose s) (LX ++ Lrest) -> 
  (forall y, lookup h y <> None -> ~ In y LX -> lookup h1 y = lookup h y) -> becomes h h1 LX [nb] -> lookup h1 nb = Some (OData z x) -> data_fits size z x -> (LX = [nb] \/ LX = []) ->
  exists b hd, lookup h c = Some (OChunk hd (BRaw (Some b))) /\ lookup h1 c = lookup h c /\
  Has h0 (store h1 c (OChunk (set_size hd size) (BRaw (Some nb)))) (mkClient (owned s) (b :: Lrest)).
Proof.
  intros h0 h h1 s c nb z x size LX Lrest HS IU (hd & d & L) PL KP B LN DF WH.
  destruct (use_located _ _ _ _ HS IU) as (o & rest & q & y & pb & F1 & G & IV & P & LO). pose proof LO as (LQ & AP & TY & TB & NDB & S & K).
  destruct (raw_of _ _ _ _ _ _ _ TB L) as (i & sz & dt & b & zb & -> & -> & -> & -> & LB & DB).
  apply (Inv_perm h0 h _ _ _ _ (Permutation_refl _) PL) in IV. pose proof IV as (A & ND & LV & _). inversion A as [|o1 l1 (T & TYO) AL]; subst.
  assert (NE : c <> b) by (intros ->; inversion NDB as [|u v NI _]; subst; apply NI; left; reflexivity).
  assert (NLX : forall u, In u [c; b] -> ~ In u LX).
  { intros u IU2 IL. assert (N2 : NoDup (([c; b] ++ G) ++ LX)).
    { apply nodup_cnt. intro v. pose proof (proj1 (nodup_cnt _) ND v) as Z. cbn [blocks flat_map] in Z. specialize (S v). rewrite !cnt_app in *. lia. }
    apply (NoDup_app_disjoint _ _ _ u N2); [apply in_or_app; left; exact IU2|exact IL]. }
  assert (LC1 : lookup h1 c = lookup h c) by (apply KP; [congruence|apply NLX; left; reflexivity]).
  assert (LB1 : lookup h1 b = lookup h b) by (apply KP; [congruence|apply NLX; right; left; reflexivity]).
  assert (NN : nb <> c /\ nb <> b).
  { destruct WH as [->| ->]; [split; intros <-; [apply (NLX nb)|apply (NLX nb)]; cbn; tauto|].
    pose proof (becomes_new _ _ _ _ nb B (or_introl eq_refl) (fun f => f)) as N. split; intros ->; congruence. }
  exists b, (mkHeader pb i sz). split; [exact L|]. split; [exact LC1|]. set (h' := store h1 c _).
  assert (LK : forall u, lookup h' u = if Nat.eqb u c then Some (OChunk (set_size (mkHeader pb i sz) size) (BRaw (Some nb))) else lookup h1 u) by (intro u; unfold h'; apply lookup_store; congruence).
  assert (NDF : NoDup ([c; nb] ++ [b])).
  { cbn. destruct NN. repeat constructor; cbn; intuition congruence. }
  destruct (Inv_local h0 h h' o [] rest LX [b] Lrest c q (CRaw i sz dt) pb [c; b] G (CRaw i size x) [c; nb] IV LO) as (o' & RO & IV').
  - cbn [tree_at]. exists nb, z. rewrite !LK, Nat.eqb_refl. destruct (Nat.eqb_spec nb c) as [X|_]; [destruct NN; contradiction|]. repeat split; assumption.
  - inversion TY; subst; constructor; assumption.
  - reflexivity.
  - cbn [blocks flat_map]. unfold h'. destruct WH as [->| ->].
    + apply (becomes_trans _ h1 _ _ ([c; b] ++ [nb])); [apply becomes_frame; exact B|]. apply (same_becomes h1 _ ([c; b] ++ [nb]) ([c; b] ++ [nb])); [apply becomes_store; [congruence|left; reflexivity]|same|same].
    + apply (data_becomes h h1 c b nb _); [congruence|exact B|exact NE|congruence|congruence].
  - exact NDF.
  - intros u [<-|[]]. rewrite LK. destruct (Nat.eqb_spec b c) as [X|_]; [congruence|]. rewrite LB1. congruence.
  - exists (o' :: rest). split; [exact IV'|]. cbn [owned map]. rewrite RO. exact P.
Qed.

Lemma step_text : forall h0 h s c text e w, Has h0 h s -> in_use h s c -> is_raw h c -> text <> [] ->
  match hsetTextData c text e w h with
  | Done (_, w', h') => Has h0 h' (mkClient (owned s) (data_block h c ++ loose s))
  | Undefined u => good e (zlength text) u
  | OutOfFuel => False
  end.
Proof.
  intros h0 h s c text e w HS IU IR NE. unfold hsetTextData. rewrite hbind_eq. destruct (hmalloc_run (zlength text) (OData (zlength text) (Some text)) e w h) as (b & w1 & M & _ & R). rewrite R.
  destruct b.
  - set (h1 := fill h (address e w1 h) (OData (zlength text) (Some text))). pose proof (becomes_alloc e w1 h (OData (zlength text) (Some text))) as B. fold h1 in B.
    destruct (step_set h0 h h1 s c (address e w1 h) (zlength text) (Some text) (wrap_s 32 (zlength text)) [] (loose s) HS IU IR (Permutation_refl _)) as (d & hd & L & L1 & HS').
    + intros y LY _. apply (becomes_kept _ _ _ _ _ B LY). intros [].
    + exact B.
    + unfold h1. rewrite lookup_new, Nat.eqb_refl. reflexivity.
    + reflexivity.
    + right. reflexivity.
    + unfold hsetRawChunkData. rewrite (hbind_done _ _ _ _ _ _ _ _ _ _ (hchunk_at h1 c hd (BRaw (Some d)) e w1 (eq_trans L1 L))). rewrite hstore_at by congruence.
      unfold data_block. rewrite L. exact HS'.
  - destruct (Z.eqb_spec (zlength text) 0) as [Z0|NZ].
    + destruct text as [|x t]; [congruence|]. unfold zlength in Z0. cbn [List.length] in Z0. lia.
    + right. split; [reflexivity|]. refine (malloc_short _ _ _ _ _ M). pose proof (zlength_nonneg _ text). lia.
Qed.

Lemma step_data : forall h0 h s c d size e w, Has h0 h s -> in_use h s c -> is_raw h c -> In d (loose s) ->
  (exists z l, lookup h d = Some (OData z l) /\ data_fits size z l) ->
  exists h', hsetRawChunkData c (Some d) size e w h = Done (tt, w, h') /\ Has h0 h' (mkClient (owned s) (data_block h c ++ drop d (loose s))).
Proof.
  intros h0 h s c d size e w HS IU IR ID (z & l & LD & DF).
  assert (NDL : NoDup (loose s)) by (destruct HS as (ll & (_ & ND & _) & _); exact (NoDup_app_r _ _ _ ND)).
  destruct (pick_loose d (loose s) ID) as (Lrest & PL). pose proof (drop_perm _ _ _ PL NDL) as PD.
  destruct (step_set h0 h h s c d z l size [d] Lrest HS IU IR PL) as (b & hd & L & L1 & HS').
  - reflexivity.
  - apply becomes_refl.
  - exact LD.
  - exact DF.
  - left. reflexivity.
  - eexists. split; [unfold hsetRawChunkData; rewrite (hbind_done _ _ _ _ _ _ _ _ _ _ (hchunk_at _ _ _ _ _ _ L)); apply hstore_at; congruence|].
    unfold data_block. rewrite L. destruct HS' as (ll & IV & P). exists ll. split; [|exact P]. cbn [loose] in *. cbn [List.app].
    apply (Inv_perm _ _ _ _ _ _ (Permutation_refl _)) with (2 := IV). constructor. apply Permutation_sym. exact PD.
Qed.

Lemma step_copy : forall h0 h s c data e w, Has h0 h s -> in_use h s c ->
  (exists hd d z l, lookup h c = Some (OChunk hd (BRaw (Some d))) /\ lookup h d = Some (OData z l) /\ 0 <= o_size hd <= INT_MAX /\ o_size hd <= z /\ o_size hd <= zlength data) ->
  exists h', hcopyData c data e w h = Done (tt, w, h') /\ Has h0 h' s.
Proof.
  intros h0 h s c data e w HS IU (hd & d & z & l & L & LD & RI & RZ & RD).
  destruct (use_located _ _ _ _ HS IU) as (o & rest & q & y & pb & F1 & G & IV & P & LO). pose proof LO as (LQ & AP & TY & TB & NDB & S & K).
  destruct (raw_of _ _ _ _ _ _ _ TB L) as (i & sz & dt & b & zb & -> & -> & EB & -> & LB & DB). injection EB as <-. rewrite LD in LB. injection LB as -> ->. cbn [o_size] in *.
  assert (NE : c <> d) by (intros ->; inversion NDB as [|u v NI _]; subst; apply NI; left; reflexivity).
  unfold hcopyData. rewrite (hbind_done _ _ _ _ _ _ _ e w h (eq_refl : io ask e w h = Done (e, w, h))). rewrite (hbind_done _ _ _ _ _ _ _ _ _ _ (hchunk_at _ _ _ _ _ _ L)). cbn [o_size].
  rewrite (wrap_u_small e sz RI). rewrite hbind_eq. unfold hload. rewrite LD.
  destruct (Z.ltb_spec (zlength data) sz) as [X|_]; [lia|]. destruct (Z.ltb_spec zb sz) as [X|_]; [lia|]. cbn [orb]. rewrite hstore_at by congruence. eexists. split; [reflexivity|].
  set (nd := ztake sz data ++ _). set (h' := store h d _).
  assert (LK : forall u, lookup h' u = if Nat.eqb u d then Some (OData zb (Some nd)) else lookup h u) by (intro u; unfold h'; apply lookup_store; congruence).
  assert (LEN : zb = zlength nd).
  { unfold nd. rewrite zlength_app, zlength_ztake, zdrop_skipn. unfold zlength at 2. rewrite skipn_length. destruct dt as [x|]; cbn [data_fits] in DB; [unfold zlength in *; lia|]. cbn [List.length]. lia. }
  destruct (Inv_local h0 h h' o [] rest [] [] (loose s) c q (CRaw i sz dt) pb [c; d] G (CRaw i sz (Some nd)) [c; d] IV LO) as (o' & RO & IV').
  - cbn [tree_at]. exists d, zb. rewrite !LK, Nat.eqb_refl. destruct (Nat.eqb_spec c d) as [X|_]; [contradiction|]. split; [exact L|]. split; [reflexivity|]. split; [exact LEN|reflexivity].
  - inversion TY; subst; constructor; assumption.
  - reflexivity.
  - cbn [blocks flat_map List.app]. unfold h'. apply becomes_store; [congruence|right; left; reflexivity].
  - exact (NoDup_app_l _ _ _ NDB).
  - intros u [].
  - exists (o' :: rest). split; [exact IV'|]. cbn [owned map]. rewrite RO. exact P.
Qed.

(** ** The rest *)

Lemma new_blocks_are : forall h h' F, becomes h h' [] F -> NoDup F -> (forall x, In x F -> lookup h' x <> None) -> Permutation (new_blocks h h') F.
Proof.
  intros h h' F (LE & K & _ & NW) ND LV. apply NoDup_Permutation; [apply NoDup_filter, seq_NoDup|exact ND|]. intro x. unfold new_blocks. rewrite filter_In, in_seq. split.
  - intros [R V]. destruct (in_dec Nat.eq_dec x F) as [I|N]; [exact I|]. rewrite (K x (fun f => f) N) in V. destruct (lookup h x); discriminate.
  - intro I. pose proof (LV x I) as V. destruct (lookup h' x) as [o|] eqn:E; [|congruence]. pose proof (lookup_lt _ _ _ E). destruct (NW x I) as [[]|R]. rewrite R. split; [lia|reflexivity].
Qed.

Lemma Has_loose : forall h0 h h' s F, Has h0 h s -> becomes h h' [] F -> NoDup F -> (forall x, In x F -> lookup h' x <> None) -> Has h0 h' (mkClient (owned s) (F ++ loose s)).
Proof.
  intros h0 h h' s F (l & IV & P) B ND LV. exists l. split; [|exact P]. apply (Inv_step h0 h h' [] [] l [] F (loose s)); [exact IV|exact B|exact ND|constructor|exact LV].
Qed.

Lemma Has_perm : forall h0 h s L, Has h0 h s -> Permutation (loose s) L -> Has h0 h (mkClient (owned s) L).
Proof. intros h0 h s L (l & IV & P) PL. exists l. split; [|exact P]. exact (Inv_perm _ _ _ _ _ _ (Permutation_refl _) PL IV). Qed.

Lemma Has_new : forall h0 h h' s F, Has h0 h s -> becomes h h' [] F -> NoDup F -> (forall x, In x F -> lookup h' x <> None) -> Has h0 h' (mkClient (owned s) (new_blocks h h' ++ loose s)).
Proof.
  intros h0 h h' s F HS B ND LV. apply (Has_perm _ _ (mkClient (owned s) (F ++ loose s))); [exact (Has_loose _ _ _ _ _ HS B ND LV)|].
  cbn [loose]. apply Permutation_app_tail. apply Permutation_sym. exact (new_blocks_are _ _ _ B ND LV).
Qed.

Lemma step_buffer : forall h0 h s data e w, Has h0 h s ->
  exists r w' h', hmalloc (zlength data) (OData (zlength data) (Some data)) e w h = Done (r, w', h') /\ Has h0 h' (mkClient (owned s) (opt r ++ loose s)).
Proof.
  intros h0 h s data e w HS. destruct (hmalloc_run (zlength data) (OData (zlength data) (Some data)) e w h) as (b & w1 & M & _ & ->). destruct b.
  - do 3 eexists. split; [reflexivity|]. cbn [opt]. apply (Has_loose h0 h); [exact HS|apply becomes_alloc|apply nodup_one|]. intros x [<-|[]]. rewrite lookup_new, Nat.eqb_refl. discriminate.
  - do 3 eexists. split; [reflexivity|]. destruct s. exact HS.
Qed.

Lemma sum_outcome : forall l s, match sum_sizes s l with Done _ => True | Undefined u => u = UB_signed_overflow | OutOfFuel => False end.
Proof.
  induction l as [|c l IH]; intro s; cbn [sum_sizes]; [exact I|]. pose proof (increment_outcome s c) as O. destruct (IFF_incrementChunkSize s c) as [z|u|]; [apply IH|exact O|exact O].
Qed.

Lemma own_outcome : forall ft c, Typed no_apps ft c -> match update_own_size c with Done _ => True | Undefined u => u = UB_signed_overflow | OutOfFuel => False end.
Proof.
  intros ft c T. unfold update_own_size. inversion T as [? i z d NG AP|? ? ? ? ? NG AP KM|? i z g subs IG MB|? z g ps subs PB MB]; subst; [|discriminate AP| |]; cbn [chunkId].
  - destruct (_ || _) eqn:V.
    { exfalso. apply NG. rewrite !Bool.orb_true_iff, !Z.eqb_eq in V. unfold group_ids. destruct V as [[->| ->]| ->]; cbn; tauto. }
    destruct (Z.eqb_spec i IFF_ID_LIST) as [->|_]; [|exact I]. exfalso. apply NG. unfold group_ids. cbn. tauto.
  - replace (_ || _) with true by (destruct IG as [<-|[<-|[<-|[]]]]; reflexivity). unfold IFF_updateGroupChunkSizes. cbn [as_group].
    pose proof (sum_outcome subs IFF_ID_SIZE) as O. destruct (sum_sizes IFF_ID_SIZE subs); exact O.
  - replace (_ || _) with false by reflexivity. rewrite Z.eqb_refl. unfold IFF_updateListChunkSizes, IFF_updateGroupChunkSizes. cbn [as_group]. pose proof (sum_outcome subs IFF_ID_SIZE) as O.
    destruct (sum_sizes IFF_ID_SIZE subs) as [z1|u|]; [|exact O|exact O]. cbn [obind set_chunkSize]. pose proof (sum_outcome ps z1) as O2. destruct (sum_sizes z1 ps); exact O2.
Qed.

Lemma update_outcome : forall q ft c y, Typed no_apps ft c -> at_path c q = Some y ->
  match IFF_updateChunkSizes c q with Done (Some _) => True | Done None => False | Undefined u => u = UB_signed_overflow | OutOfFuel => False end.
Proof.
  induction q as [|s q IH]; intros ft c y T AP; cbn [IFF_updateChunkSizes at_path] in *.
  - pose proof (own_outcome ft c T) as O. destruct (update_own_size c); exact O.
  - destruct (get_child c s) as [x|] eqn:G; [|discriminate AP]. pose proof (Ty_child _ _ _ _ T G) as TX. specialize (IH 0 x y TX AP).
    destruct (IFF_updateChunkSizes x q) as [[x'|]|u|] eqn:E; [|destruct IH|exact IH|exact IH]. cbn [obind].
    destruct (Ty_update _ _ _ _ TX E) as (TX' & IX). pose proof (own_outcome ft _ (Ty_set _ _ _ _ _ T G TX' IX)) as O. destruct (update_own_size (set_child c s x')); exact O.
Qed.

Lemma step_update : forall h0 h s c e w, Has h0 h s -> in_use h s c ->
  match hIFF_updateChunkSizes c e w h with
  | Done (_, w', h') => Has h0 h' s
  | Undefined u => u = UB_signed_overflow
  | OutOfFuel => False
  end.
Proof.
  intros h0 h s c e w HS IU. destruct (use_located _ _ _ _ HS IU) as (o & rest & q & y & pb & F1 & G & IV & P & LO). pose proof LO as (LQ & AP & TY & TB & NDB & S & K).
  pose proof IV as (A & ND & LV & _). inversion A as [|o1 l1 (T & TYO) AL]; subst.
  assert (NDO : NoDup (o_blocks o)) by (apply (same_nodup _ _ S); exact NDB).
  pose proof (update_outcome q 0 (o_tree o) y TYO AP) as O. pose proof (updateChunkSizes_at q (o_tree o) (o_root o) (o_blocks o) h e w c T NDO LQ) as U.
  destruct (IFF_updateChunkSizes (o_tree o) q) as [[c'|]|u|] eqn:E; [|destruct O|rewrite U; exact O|destruct O].
  destruct U as (h' & F' & -> & T' & S' & B). destruct (Ty_update _ _ _ _ TYO E) as (TY' & _).
  exists (mkOwn (o_root o) c' F' :: rest). split; [|exact P].
  apply (Inv_step h0 h h' [o] [mkOwn (o_root o) c' F'] rest [] [] (loose s)); [exact IV| | |constructor; [split; assumption|constructor]|intros x []].
  - cbn [blocks flat_map o_blocks]. rewrite !app_nil_r. apply (same_becomes _ _ _ _ _ _ B); same.
  - cbn [blocks flat_map o_blocks]. rewrite !app_nil_r. apply (same_nodup _ _ S'). exact NDO.
Qed.

Lemma step_get : forall h0 h s c cid e w, Has h0 h s -> in_use h s c -> is_group h c ->
  exists r, hIFF_getChunkFromForm c cid e w h = Done (r, w, h).
Proof.
  intros h0 h s c cid e w HS IU IG. destruct (use_located _ _ _ _ HS IU) as (o & rest & q & y & pb & F1 & G & IV & P & LO). pose proof LO as (LQ & AP & TY & TB & NDB & S & K).
  pose proof IV as (A & ND & LV & _). inversion A as [|o1 l1 (T & TYO) AL]; subst. assert (NDO : NoDup (o_blocks o)) by (apply (same_nodup _ _ S); exact NDB).
  destruct (group_of _ _ _ _ _ TB IG) as (g & subs & AG).
  destruct (C64_getChunk no_apps (o_tree o) (o_root o) (o_blocks o) h q y c g subs cid e w TYO T NDO AP LQ AG) as (r & E & _). exists r. exact E.
Qed.

Lemma array_live_in : forall h arr la Fa x, array_at h arr la Fa -> In x Fa -> lookup h x <> None.
Proof. intros h arr la Fa x A I. exact (array_live _ _ _ _ _ A I). Qed.

Lemma fails_short : forall e k sz n, 0 < sz <= n -> fails e k sz -> out_of_memory e n.
Proof. intros e k sz n L X. unfold fails in X. apply Bool.andb_false_iff in X. exists k, sz. split; [exact L|]. destruct X as [X|X]; [right; apply Z.ltb_ge; exact X|left; exact X]. Qed.

Lemma step_gets : forall h0 h s c cid e w, Has h0 h s -> in_use h s c -> is_group h c ->
  match hIFF_getChunksFromForm c cid e w h with
  | Done (_, w', h') => Has h0 h' (mkClient (owned s) (new_blocks h h' ++ loose s))
  | Undefined u => good e (8 * (1 + Z.of_nat (List.length h))) u
  | OutOfFuel => False
  end.
Proof.
  intros h0 h s c cid e w HS IU IG. destruct (use_located _ _ _ _ HS IU) as (o & rest & q & y & pb & F1 & G & IV & P & LO). pose proof LO as (LQ & AP & TY & TB & NDB & S & K).
  destruct (group_of _ _ _ _ _ TB IG) as (g & subs & AG).
  destruct (getChunks_at cid y g subs pb c F1 h e w AG TB) as [(h' & w' & arr & la & Fa & -> & AR & NDA & B & _)|(-> & k & n & LE & FK)].
  - apply (Has_new h0 h h' s Fa HS B NDA). intros x I. exact (array_live _ _ _ _ _ AR I).
  - right. split; [reflexivity|]. refine (fails_short e k _ _ _ FK). pose proof (subs_count _ _ _ _ _ _ _ TB (NoDup_app_l _ _ _ NDB) AG) as SC.
    assert (LF : (List.length (filter (fun x => (chunkId x =? cid)%Z) subs) <= List.length subs)%nat) by (clear; induction subs as [|x l IH]; cbn; [lia|]; destruct (_ =? _); cbn; lia).
    unfold zlength in SC. unfold sizeof_pointer. lia.
Qed.

Lemma gets_null : forall h0 h s c cid e w, Has h0 h s -> in_use h s c -> is_group h c ->
  match hIFF_getChunksFromForm c cid e w h with
  | Done (_, w', h') => True
  | Undefined u => u = UB_null_deref
  | OutOfFuel => False
  end.
Proof.
  intros h0 h s c cid e w HS IU IG. destruct (use_located _ _ _ _ HS IU) as (o & rest & q & y & pb & F1 & G & IV & P & LO). pose proof LO as (LQ & AP & TY & TB & NDB & S & K).
  destruct (group_of _ _ _ _ _ TB IG) as (g & subs & AG).
  destruct (getChunks_at cid y g subs pb c F1 h e w AG TB) as [(h' & w' & arr & la & Fa & -> & _)|(-> & _)]; [exact I|reflexivity].
Qed.

(** no more FORMs than blocks *)
Lemma below_count : forall (f : chunk -> list (list nat)) (one : chunk -> ptr -> addr -> list addr -> Prop) l p la F n, trees_at one l p la F ->
  (forall c a F', In c l -> one c p a F' -> (List.length (f c) <= List.length F')%nat) -> (List.length (below f n l) <= List.length F)%nat.
Proof.
  intros f one. induction l as [|c l IH]; intros p [|a la] F n T K; cbn [trees_at] in T; try contradiction; [cbn; lia|].
  destruct T as (F1 & F2 & T1 & T2 & ->). cbn [below]. rewrite !app_length, map_length. specialize (IH p la F2 (Datatypes.S n) T2 (fun c' a' F' I => K c' a' F' (or_intror I))).
  specialize (K c a F1 (or_introl eq_refl) T1). lia.
Qed.

Lemma positions_count : forall h types c p a F, tree_at h c p a F -> (List.length (positions types c) <= List.length F)%nat.
Proof.
  intros h types c. induction c as [i s d|i s g subs IH|i s g props subs IHp IHs|i s vals] using chunk_tree_ind; intros p a F T; cbn [positions tree_at] in *; try (cbn; lia).
  - destruct T as (arr & la & Fa & Fl & _ & _ & TT & ->). destruct (_ && _); [cbn; lia|]. destruct (_ =? _); [cbn; lia|]. cbn [List.length]. rewrite app_length.
    pose proof (below_count (positions types) _ _ _ _ _ 0%nat TT (fun c' a' F' I T' => IH c' I _ a' F' T')). lia.
  - destruct T as (arr & la & Fa & Fl & parr & pa & Fb & Fp & _ & _ & TT & _ & _ & ->). cbn [List.length]. rewrite !app_length.
    pose proof (below_count (positions types) _ _ _ _ _ 0%nat TT (fun c' a' F' I T' => IHs c' I _ a' F' T')). lia.
Qed.

Lemma step_search : forall h0 h s c ty e w, Has h0 h s -> in_use h s c ->
  match hIFF_searchForms c ty e w h with
  | Done (_, w', h') => Has h0 h' (mkClient (owned s) (new_blocks h h' ++ loose s))
  | Undefined u => good e (8 * (1 + Z.of_nat (List.length h))) u
  | OutOfFuel => False
  end.
Proof.
  intros h0 h s c ty e w HS IU. destruct (use_located _ _ _ _ HS IU) as (o & rest & q & y & pb & F1 & G & IV & P & LO). pose proof LO as (LQ & AP & TY & TB & NDB & S & K).
  pose proof (NoDup_app_l _ _ _ NDB) as ND1. unfold hIFF_searchForms.
  pose proof (search_at no_apps [ty] y 0 pb c F1 h e w (Datatypes.S (List.length h)) TY TB ND1 ltac:(pose proof (tree_depth _ _ _ _ _ TB ND1); lia)) as R. unfold searched in R.
  destruct (hsearchFormsFromArray _ _ _ e w h) as [[[[arr n] w'] h']|u|]; [| |exact R].
  - destruct R as (la & Fa & L & -> & AR & _ & B & NDL & LL & _). apply (Has_new h0 h h' s (Fa ++ L) HS B NDL). intros x I. apply in_app_or in I. destruct I as [I|I]; [exact (array_live _ _ _ _ _ AR I)|exact (LL x I)].
  - destruct R as (-> & k & n & LE & FK). right. split; [reflexivity|]. refine (fails_short e k _ _ _ FK). pose proof (positions_count h [ty] y pb c F1 TB). pose proof (count_heap _ _ _ _ _ TB ND1). unfold sizeof_pointer. lia.
Qed.

Lemma search_null : forall h0 h s c ty e w, Has h0 h s -> in_use h s c ->
  match hIFF_searchForms c ty e w h with
  | Done (_, w', h') => True
  | Undefined u => u = UB_null_deref
  | OutOfFuel => False
  end.
Proof.
  intros h0 h s c ty e w HS IU. destruct (use_located _ _ _ _ HS IU) as (o & rest & q & y & pb & F1 & G & IV & P & LO). pose proof LO as (LQ & AP & TY & TB & NDB & S & K).
  pose proof (NoDup_app_l _ _ _ NDB) as ND1. unfold hIFF_searchForms.
  pose proof (search_at no_apps [ty] y 0 pb c F1 h e w (Datatypes.S (List.length h)) TY TB ND1 ltac:(pose proof (tree_depth _ _ _ _ _ TB ND1); lia)) as R. unfold searched in R.
  destruct (hsearchFormsFromArray _ _ _ e w h) as [[[[arr n] w'] h']|u|]; [exact I|exact (proj1 R)|exact R].
Qed.

Lemma step_release : forall h0 h s x e w, Has h0 h s -> In x (loose s) ->
  exists h', hfree (Some x) e w h = Done (tt, w, h') /\ Has h0 h' (mkClient (owned s) (drop x (loose s))).
Proof.
  intros h0 h s x e w (l & IV & P) IX. pose proof IV as (A & ND & LV & _). pose proof (NoDup_app_r _ _ _ ND) as NDL.
  destruct (pick_loose x (loose s) IX) as (Lrest & PL). pose proof (drop_perm _ _ _ PL NDL) as PD.
  exists (release h x). split; [apply hfree_at; exact (LV x IX)|]. apply (Has_perm _ _ (mkClient (owned s) Lrest)); [|cbn [loose]; apply Permutation_sym; exact PD].
  exists l. split; [|exact P]. apply (Inv_perm _ _ _ _ _ _ (Permutation_refl _) PL) in IV.
  apply (Inv_step h0 h _ [] [] l [x] [] Lrest); [exact IV| |constructor|constructor|intros u []].
  cbn [blocks flat_map List.app]. split; [rewrite length_release; lia|]. split; [|split].
  - intros u N _. rewrite lookup_release. destruct (Nat.eqb_spec u x) as [->|]; [exfalso; apply N; left; reflexivity|reflexivity].
  - intros u [<-|[]] _. rewrite lookup_release, Nat.eqb_refl. reflexivity.
  - intros u [].
Qed.

Lemma step_free : forall h0 h s r e w, Has h0 h s -> In r (owned s) ->
  exists h', hIFF_free r None e w h = Done (tt, w, h') /\ Has h0 h' (mkClient (drop r (owned s)) (loose s)).
Proof.
  intros h0 h s r e w (l & IV & P) IR. destruct (pick r l (Permutation_in _ P IR)) as (o & rest & PL & EO).
  pose proof (roots_nodup _ _ _ (proj1 IV) (proj1 (proj2 IV))) as NDR. apply (Inv_perm h0 h _ _ _ _ PL (Permutation_refl _)) in IV. subst r.
  pose proof IV as (A & ND & LV & _). inversion A as [|o1 l1 (T & TYO) AL]; subst. assert (NDO : NoDup (o_blocks o)) by (cbn [blocks flat_map] in ND; exact (NoDup_app_l _ _ _ (NoDup_app_l _ _ _ ND))).
  destruct (freeTree_at _ no_apps default_none (o_tree o) 0 None (o_root o) (o_blocks o) h e w TYO T NDO) as (h' & E & B). exists h'. split; [exact E|].
  exists rest. split.
  - apply (Inv_step h0 h h' [o] [] rest [] [] (loose s)); [exact IV| |constructor|constructor|intros u []]. cbn [blocks flat_map]. rewrite !app_nil_r. exact B.
  - cbn [owned]. apply drop_perm; [exact (Permutation_trans P (Permutation_map o_root PL))|apply (Permutation_NoDup (Permutation_sym P)); exact NDR].
Qed.

(** ** Every call *)

Theorem call_ok : forall h0 h s k e w, Has h0 h s -> allowed h s k ->
  match perform k e w h with
  | Done (r, w', h') => Has h0 h' (after h h' s k r)
  | Undefined u => strict_c e = false -> good e (request h w k) u
  | OutOfFuel => False
  end.
Proof.
  intros h0 h s k e w HS AL. destruct k as [cid ty|ty|cid size| |g c|l p|g c|c text|data|c d size|c data|c|c cid|c cid|c ty|x|r]; cbn [allowed perform request] in *; rewrite ?hbind_eq.
  - destruct (step_group h0 h s cid ty e w HS AL) as (r & w' & h' & -> & R). exact R.
  - destruct (step_list h0 h s ty e w HS) as (r & w' & h' & -> & R). exact R.
  - destruct AL as (NG & RG). destruct (step_raw h0 h s cid size e w HS NG RG) as (r & w' & h' & -> & R). exact R.
  - exact (step_read h0 h s e w HS).
  - destruct AL as (MA & IG). pose proof (step_add h0 h s g c e w HS MA IG) as R. destruct (haddToGroup g c e w h) as [[[[] w'] h']|u|]; [exact R|intros _; exact R|exact R].
  - destruct AL as (MA & IG & IP). pose proof (step_addProp h0 h s l p e w HS MA IG IP) as R. destruct (haddPropToList l p e w h) as [[[[] w'] h']|u|]; [exact R|intros _; exact R|exact R].
  - destruct AL as (MA & IG). pose proof (step_addCAT h0 h s g c e w HS MA IG) as R. destruct (haddToCATAndUpdateContentsType g c e w h) as [[[[] w'] h']|u|]; [exact R|intros _; exact R|exact R].
  - destruct AL as (IU & IR & NE). pose proof (step_text h0 h s c text e w HS IU IR NE) as R. destruct (hsetTextData c text e w h) as [[[[] w'] h']|u|]; [exact R|intros _; exact R|exact R].
  - destruct (step_buffer h0 h s data e w HS) as (r & w' & h' & -> & R). exact R.
  - destruct AL as (IU & IR & ID & DF). destruct (step_data h0 h s c d size e w HS IU IR ID DF) as (h' & -> & R). exact R.
  - destruct AL as (IU & IR). destruct (step_copy h0 h s c data e w HS IU IR) as (h' & -> & R). exact R.
  - pose proof (step_update h0 h s c e w HS AL) as R. destruct (hIFF_updateChunkSizes c e w h) as [[[[] w'] h']|u|]; [exact R|intros _; left; exact R|exact R].
  - destruct AL as (IU & IG). destruct (step_get h0 h s c cid e w HS IU IG) as (r & ->). exact HS.
  - destruct AL as (IU & IG). pose proof (step_gets h0 h s c cid e w HS IU IG) as R. destruct (hIFF_getChunksFromForm c cid e w h) as [[[a w'] h']|u|]; [exact R|intros _; exact R|exact R].
  - pose proof (step_search h0 h s c ty e w HS AL) as R. destruct (hIFF_searchForms c ty e w h) as [[[a w'] h']|u|]; [exact R|intros _; exact R|exact R].
  - destruct (step_release h0 h s x e w HS AL) as (h' & -> & R). exact R.
  - destruct (step_free h0 h s r e w HS AL) as (h' & -> & R). exact R.
Qed.

Theorem run_ok : forall h0 h s, Run h0 h s -> Has h0 h s.
Proof.
  intros h0 h s R. induction R as [|h s k e w r w' h' R IH AL E].
  - exists []. split; [|constructor]. split; [constructor|]. split; [constructor|]. split; [intros x []|apply becomes_refl].
  - pose proof (call_ok h0 h s k e w IH AL) as C. rewrite E in C. exact C.
Qed.

(** Which calls can go wrong how *)
Theorem call_kinds : forall h0 h s k e w, Has h0 h s -> allowed h s k ->
  match perform k e w h with
  | Done _ => True
  | Undefined UB_signed_overflow => match k with ReadFile | Add _ _ | AddProp _ _ | AddToCAT _ _ | Update _ => true | _ => false end = true
  | Undefined UB_null_deref => match k with ReadFile | Add _ _ | AddProp _ _ | AddToCAT _ _ | SetText _ _ | GetChunks _ _ | Search _ _ => true | _ => false end = true
  | _ => True
  end.
Proof.
  intros h0 h s k e w HS AL. destruct k as [cid ty|ty|cid size| |g c|l p|g c|c text|data|c d size|c data|c|c cid|c cid|c ty|x|r]; cbn [allowed perform] in *; rewrite ?hbind_eq.
  - destruct (step_group h0 h s cid ty e w HS AL) as (r & w' & h' & -> & R). exact I.
  - destruct (step_list h0 h s ty e w HS) as (r & w' & h' & -> & R). exact I.
  - destruct AL as (NG & RG). destruct (step_raw h0 h s cid size e w HS NG RG) as (r & w' & h' & -> & R). exact I.
  - destruct (hIFF_readFd None e w h) as [[[? ?] ?]|[]|]; reflexivity || exact I.
  - destruct (haddToGroup g c e w h) as [[[? ?] ?]|[]|]; reflexivity || exact I.
  - destruct (haddPropToList l p e w h) as [[[? ?] ?]|[]|]; reflexivity || exact I.
  - destruct (haddToCATAndUpdateContentsType g c e w h) as [[[? ?] ?]|[]|]; reflexivity || exact I.
  - destruct AL as (IU & IR & NE). unfold hsetTextData. rewrite hbind_eq. destruct (hmalloc_run (zlength text) (OData (zlength text) (Some text)) e w h) as (b & w1 & M & _ & R). rewrite R.
    pose proof (step_text h0 h s c text e w HS IU IR NE) as S. unfold hsetTextData in S. rewrite hbind_eq, R in S.
    destruct b; [|destruct (Z.eqb_spec (zlength text) 0) as [Z0|_]; [destruct text as [|x t]; [congruence|]; unfold zlength in Z0; cbn [List.length] in Z0; lia|reflexivity]].
    destruct (use_located _ _ _ _ HS IU) as (o & rest & q & y & pb & F1 & G & IV & P & LO).
    match goal with |- match match ?X with _ => _ end with _ => _ end => destruct X as [[[? ?] ?]|u|] eqn:EX; [exact I| |exact I] end.
    destruct IR as (hd & d & L). unfold hsetRawChunkData in EX.
    assert (L1 : lookup (fill h (address e w1 h) (OData (zlength text) (Some text))) c = Some (OChunk hd (BRaw d))).
    { rewrite <- L. apply (becomes_kept _ _ _ _ _ (becomes_alloc e w1 h _)); [congruence|intros []]. }
    rewrite (hbind_done _ _ _ _ _ _ _ _ _ _ (hchunk_at _ c hd (BRaw d) e w1 L1)) in EX. rewrite hstore_at in EX by congruence. discriminate EX.
  - destruct (step_buffer h0 h s data e w HS) as (r & w' & h' & -> & R). exact I.
  - destruct AL as (IU & IR & ID & DF). destruct (step_data h0 h s c d size e w HS IU IR ID DF) as (h' & -> & R). exact I.
  - destruct AL as (IU & IR). destruct (step_copy h0 h s c data e w HS IU IR) as (h' & -> & R). exact I.
  - pose proof (step_update h0 h s c e w HS AL) as R. destruct (hIFF_updateChunkSizes c e w h) as [[[? ?] ?]|u|]; [exact I|subst u; reflexivity|exact I].
  - destruct AL as (IU & IG). destruct (step_get h0 h s c cid e w HS IU IG) as (r & ->). exact I.
  - destruct AL as (IU & IG). pose proof (gets_null h0 h s c cid e w HS IU IG) as R. destruct (hIFF_getChunksFromForm c cid e w h) as [[[a w'] h']|u|]; [exact I|subst u; reflexivity|exact I].
  - pose proof (search_null h0 h s c ty e w HS AL) as R. destruct (hIFF_searchForms c ty e w h) as [[[a w'] h']|u|]; [exact I|subst u; reflexivity|exact I].
  - destruct (step_release h0 h s x e w HS AL) as (h' & -> & R). exact I.
  - destruct (step_free h0 h s r e w HS AL) as (h' & -> & R). exact I.
Qed.

(** ** What the invariant says *)

Lemma Has_tree : forall h0 h s r, Has h0 h s -> In r (owned s) -> exists c F, tree_at h c None r F /\ NoDup F /\ Typed no_apps 0 c.
Proof.
  intros h0 h s r (l & IV & P) I. destruct (pick r l (Permutation_in _ P I)) as (o & rest & PL & <-). apply (Inv_perm h0 h _ _ _ _ PL (Permutation_refl _)) in IV.
  destruct IV as (A & ND & _). inversion A as [|o1 l1 (T & TYO) AL]; subst. exists (o_tree o), (o_blocks o). split; [exact T|]. split; [|exact TYO].
  cbn [blocks flat_map] in ND. exact (NoDup_app_l _ _ _ (NoDup_app_l _ _ _ ND)).
Qed.

Lemma in_blocks : forall h l x, Forall (holds h) l -> (In x (blocks l) <-> exists r, In r (map o_root l) /\ Owns h r x).
Proof.
  intros h l x A. unfold blocks. rewrite in_flat_map. split.
  - intros (o & I & X). exists (o_root o). split; [apply in_map; exact I|]. rewrite Forall_forall in A. destruct (A o I) as (T & _). apply (tree_blocks _ _ _ _ _ T). exact X.
  - intros (r & I & X). apply in_map_iff in I. destruct I as (o & <- & I). exists o. split; [exact I|]. rewrite Forall_forall in A. destruct (A o I) as (T & _). apply (tree_blocks _ _ _ _ _ T). exact X.
Qed.

Lemma own_unique : forall h l r r' x, Forall (holds h) l -> NoDup (blocks l) -> In r (map o_root l) -> In r' (map o_root l) -> Owns h r x -> Owns h r' x -> r' = r.
Proof.
  intros h l. induction l as [|o l IH]; intros r r' x A ND I I' X X'; [destruct I|]. inversion A as [|o1 l1 (T & TY) AL]; subst. cbn [blocks flat_map] in ND. fold (blocks l) in ND.
  assert (DIS : forall r'', In r'' (map o_root l) -> Owns h (o_root o) x -> Owns h r'' x -> False).
  { intros r'' J Y Z. apply (tree_blocks _ _ _ _ _ T) in Y. apply (NoDup_app_disjoint _ _ _ x ND Y). apply (in_blocks h l x AL). eauto. }
  cbn [map] in I, I'. destruct I as [<-|I], I' as [<-|I']; [reflexivity|exfalso; eauto|exfalso; eauto|]. apply (IH r r' x AL (NoDup_app_r _ _ _ ND) I I' X X').
Qed.

Theorem Has_accounts : forall h0 h s, Has h0 h s ->
  (forall x, lookup h x <> None <-> lookup h0 x <> None \/ In x (loose s) \/ exists r, In r (owned s) /\ Owns h r x) /\
  (forall x, lookup h0 x <> None -> lookup h x = lookup h0 x /\ ~ In x (loose s) /\ forall r, In r (owned s) -> ~ Owns h r x) /\
  (forall r x, In r (owned s) -> Owns h r x -> ~ In x (loose s) /\ forall r', In r' (owned s) -> Owns h r' x -> r' = r) /\
  NoDup (owned s) /\ NoDup (loose s).
Proof.
  intros h0 h s (l & IV & P). pose proof IV as (A & ND & LV & B). pose proof B as (LE & KK & _ & NEW).
  assert (OW : forall r, In r (owned s) <-> In r (map o_root l)) by (intro r; split; intro J; [exact (Permutation_in _ P J)|exact (Permutation_in _ (Permutation_sym P) J)]).
  assert (IB : forall x, In x (blocks l) <-> exists r, In r (owned s) /\ Owns h r x).
  { intro x. rewrite (in_blocks h l x A). split; intros (r & J & X); exists r; (split; [apply OW; exact J|exact X]). }
  assert (OLD : forall x, lookup h0 x <> None -> ~ In x (blocks l ++ loose s)).
  { intros x N J. destruct (NEW x J) as [[]|G]. exact (N G). }
  split; [|split; [|split; [|split]]].
  - intro x. split.
    + intro N. destruct (in_dec Nat.eq_dec x (blocks l ++ loose s)) as [J|J].
      * apply in_app_or in J. destruct J as [J|J]; [right; right; apply IB; exact J|right; left; exact J].
      * left. rewrite <- (KK x (fun F => F) J). exact N.
    + intros [N|[J|J]].
      * rewrite (KK x (fun F => F) (OLD x N)). exact N.
      * exact (LV x J).
      * destruct J as (r & J & X). destruct (Has_tree h0 h s r (ex_intro _ l (conj IV P)) J) as (c & F & T & _). exact (tree_live _ _ _ _ _ _ T (proj2 (tree_blocks _ _ _ _ _ T x) X)).
  - intros x N. pose proof (OLD x N) as NI. split; [exact (KK x (fun F => F) NI)|]. split; [intro J; apply NI, in_or_app; right; exact J|].
    intros r J X. apply NI, in_or_app. left. apply IB. eauto.
  - intros r x J X. split.
    + intro K. apply (NoDup_app_disjoint _ _ _ x ND); [apply IB; eauto|exact K].
    + intros r' J' X'. exact (own_unique h l r r' x A (NoDup_app_l _ _ _ ND) (proj1 (OW r) J) (proj1 (OW r') J') X X').
  - apply (Permutation_NoDup (Permutation_sym P)). exact (roots_nodup _ _ _ A ND).
  - exact (NoDup_app_r _ _ _ ND).
Qed.

Lemma drop_shorter : forall x l, In x l -> (List.length (drop x l) < List.length l)%nat.
Proof. intros x l I. apply remove_length_lt. exact I. Qed.
