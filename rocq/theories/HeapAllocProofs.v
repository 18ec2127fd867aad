(** * The bytes a tree takes in memory *)

From Coq Require Import ZArith List Bool String Lia Permutation.
From Coq Require Import Strings.Byte.
From Verif Require Import Machine Io Types Build Read Iff Spec Grammar Lemmas ReadProofs SoundProofs ApiProofs ConfProofs
  Heap HeapSpec HeapProofs HeapReadProofs HeapClient HeapClientProofs AllocSpec.
Import ListNotations.
Open Scope Z_scope.

Lemma total_app : forall a b, sum (a ++ b) = sum a + sum b.
Proof. induction a as [|x a IH]; intro b; cbn [List.app sum fold_right]; [reflexivity|]. change (x + sum (a ++ b) = x + sum a + sum b). rewrite IH. lia. Qed.
Lemma total_perm : forall a b, Permutation a b -> sum a = sum b.
Proof. induction 1; cbn [sum fold_right] in *; unfold sum in *; lia. Qed.

Definition bytes_at (h : heap) (x : addr) : Z := match lookup h x with Some o => obj_size o | None => 0 end.

Lemma live_bytes_seq : forall h, live_bytes h = sum (map (bytes_at h) (seq 0 (List.length h))).
Proof.
  intro h. unfold live_bytes. f_equal. induction h as [|x h IH]; [reflexivity|].
  cbn [List.length seq map]. f_equal. rewrite IH, <- seq_shift, map_map. reflexivity.
Qed.
Lemma total_live : forall h l, sum (map (bytes_at h) (filter (fun x => match lookup h x with Some _ => true | None => false end) l)) = sum (map (bytes_at h) l).
Proof.
  intros h l. induction l as [|x l IH]; [reflexivity|]. cbn [filter map].
  assert (Z : lookup h x = None -> bytes_at h x = 0) by (intro E; unfold bytes_at; rewrite E; reflexivity).
  destruct (lookup h x); cbn [map sum fold_right]; unfold sum in *; [lia|]. rewrite (Z eq_refl). lia.
Qed.
Lemma live_bytes_becomes : forall h h' F, becomes h h' [] F -> NoDup F -> (forall x, In x F -> lookup h' x <> None) ->
  live_bytes h' = live_bytes h + sum (map (bytes_at h') F).
Proof.
  intros h h' F B ND LV. pose proof (new_blocks_are _ _ _ B ND LV) as P. destruct B as (LE & K & _ & NW).
  assert (O : live_bytes h = sum (map (bytes_at h) (seq 0 (List.length h')))).
  { rewrite live_bytes_seq. replace (List.length h') with (List.length h + (List.length h' - List.length h))%nat by lia.
    rewrite seq_app, map_app, total_app. assert (Z : forall l, (forall x, In x l -> lookup h x = None) -> sum (map (bytes_at h) l) = 0).
    { induction l as [|x l IH]; intro N; [reflexivity|]. cbn [map]. change (sum (?x :: ?y)) with (x + sum y). rewrite IH by (intros y I; apply N; right; exact I).
      unfold bytes_at. rewrite (N x (or_introl eq_refl)). reflexivity. }
    rewrite (Z (seq (0 + List.length h) _)); [apply eq_sym, Z.add_0_r|]. intros x I. apply in_seq in I. apply lookup_beyond. lia. }
  rewrite O, live_bytes_seq, <- (total_perm _ _ (Permutation_map (bytes_at h') P)). unfold new_blocks. generalize (seq 0 (List.length h')). intro l.
  induction l as [|x l IH]; [reflexivity|]. cbn [map filter]. change (sum (?x :: ?y)) with (x + sum y). rewrite IH.
  assert (X : lookup h x <> None -> bytes_at h' x = bytes_at h x).
  { intro L. unfold bytes_at. rewrite (K x); [reflexivity|intros []|]. intro J. destruct (NW x J) as [[]|G]. contradiction. }
  assert (Y : lookup h x = None -> bytes_at h x = 0) by (intro L; unfold bytes_at; rewrite L; reflexivity).
  assert (Z : lookup h' x = None -> bytes_at h' x = 0) by (intro L; unfold bytes_at; rewrite L; reflexivity).
  destruct (lookup h x); [rewrite X by discriminate; destruct (lookup h' x); lia|]. rewrite (Y eq_refl). destruct (lookup h' x); cbn [map]; [change (sum (?x :: ?y)) with (x + sum y); lia|]. rewrite (Z eq_refl). lia.
Qed.

(** the bytes of a tree *)
Fixpoint footprint (c : chunk) : Z :=
  match c with
  | CRaw _ s d => sizeof_RawChunk + match d with Some l => zlength l | None => s end
  | CFields _ _ _ => 64
  | CGroup _ _ _ l => sizeof_Group + sizeof_pointer * zlength l + sum (map footprint l)
  | CList _ _ _ p l => sizeof_List + sizeof_pointer * zlength p + sizeof_pointer * zlength l + sum (map footprint p) + sum (map footprint l)
  end.

Lemma array_bytes : forall h p la F, array_at h p la F -> sum (map (bytes_at h) F) = sizeof_pointer * zlength la.
Proof.
  intros h p la F [(-> & -> & ->)|(d & -> & L & ->)]; [reflexivity|]. cbn [map sum fold_right]. unfold bytes_at. rewrite L. cbn [obj_size]. lia.
Qed.
Lemma tree_bytes : forall h c p a F, tree_at h c p a F -> sum (map (bytes_at h) F) = footprint c.
Proof.
  intros h c. induction c as [i s d|i s g l IH|i s g ps l IHp IHl|i s v] using chunk_tree_ind; intros p a F T; cbn [tree_at] in T.
  - destruct T as (b & size & LA & LB & DF & ->). cbn [map sum fold_right footprint]. unfold bytes_at. rewrite LA, LB. cbn [obj_size].
    destruct d as [l|]; cbn in DF; lia.
  - destruct T as (arr & la & Fa & Fl & LA & AR & TS & ->). cbn [map footprint]. rewrite map_app. change (sum (?x :: ?y)) with (x + sum y).
    rewrite total_app, (array_bytes _ _ _ _ AR). unfold bytes_at at 1. rewrite LA. cbn [obj_size].
    assert (X : zlength la = zlength l /\ sum (map (bytes_at h) Fl) = sum (map footprint l)).
    { clear AR LA. revert la Fl TS. induction l as [|c l IHl]; intros [|x la] Fl TS; cbn [trees_at] in TS; try contradiction; [subst; split; reflexivity|].
      destruct TS as (F1 & F2 & T1 & T2 & ->). destruct (IHl (fun c0 I => IH c0 (or_intror I)) _ _ T2) as (X1 & X2).
      rewrite map_app, total_app, X2, (IH c (or_introl eq_refl) _ _ _ T1). split; [unfold zlength in *; cbn [List.length]; lia|reflexivity]. }
    destruct X as (X1 & X2). rewrite X1, X2. lia.
  - destruct T as (arr & la & Fa & Fl & parr & pa & Fb & Fp & LA & AR & TS & AP & TP & ->). cbn [map footprint]. rewrite !map_app. change (sum (?x :: ?y)) with (x + sum y).
    rewrite !total_app, (array_bytes _ _ _ _ AR), (array_bytes _ _ _ _ AP). unfold bytes_at at 1. rewrite LA. cbn [obj_size].
    assert (Y : forall m, (forall c, In c m -> forall p a F, tree_at h c p a F -> sum (map (bytes_at h) F) = footprint c) ->
      forall la Fl, trees_at (tree_at h) m (Some a) la Fl -> zlength la = zlength m /\ sum (map (bytes_at h) Fl) = sum (map footprint m)).
    { clear. induction m as [|c l IHl]; intros IH [|x la] Fl TS; cbn [trees_at] in TS; try contradiction; [subst; split; reflexivity|].
      destruct TS as (F1 & F2 & T1 & T2 & ->). destruct (IHl (fun c0 I => IH c0 (or_intror I)) _ _ T2) as (X1 & X2).
      rewrite map_app, total_app, X2, (IH c (or_introl eq_refl) _ _ _ T1). split; [unfold zlength in *; cbn [List.length]; lia|reflexivity]. }
    destruct (Y l IHl _ _ TS) as (X1 & X2). destruct (Y ps IHp _ _ TP) as (X3 & X4). rewrite X1, X2, X3, X4. lia.
  - destruct T as (LA & ->). cbn [map sum fold_right footprint]. unfold bytes_at. rewrite LA. reflexivity.
Qed.

(** ** Compared with the file: [K] bytes of memory per byte read *)
Lemma zlength_be32 : forall z, zlength (be32 z) = 4.
Proof. reflexivity. Qed.
Lemma total_filter : forall (f : chunk -> Z) (b : chunk -> bool) l, sum (map f (filter b l)) + sum (map f (filter (fun c => negb (b c)) l)) = sum (map f l).
Proof. intros f b l. induction l as [|x l IH]; [reflexivity|]. cbn [filter]. destruct (b x); cbn [negb map sum fold_right]; unfold sum in *; lia. Qed.
Lemma zlength_filter : forall (b : chunk -> bool) l, zlength (filter b l) + zlength (filter (fun c => negb (b c)) l) = zlength l.
Proof. intros b l. unfold zlength. induction l as [|x l IH]; [reflexivity|]. cbn [filter]. destruct (b x); cbn [negb List.length]; lia. Qed.
Lemma Parsed_footprint : forall e app K, 5 <= K -> 9 <= K \/ (forall ft i, app ft i = None) ->
  (forall ft l c lg, Parsed e app ft l c lg -> footprint c + 8 <= K * zlength l) /\
  (forall g bp s l cs lg total, Members e app g bp s l cs lg total -> sum (map footprint cs) + 8 * zlength cs <= K * zlength l).
Proof.
  intros e app K K5 K9. apply Parsed_Members_ind.
  - intros ft i data p _ _ _ _ LP. cbn [footprint]. rewrite !zlength_app, !zlength_be32. unfold sizeof_RawChunk.
    pose proof (zlength_nonneg _ data). pose proof (zlength_nonneg _ p). nia.
  - intros ft i s spec vals skipped p _ _ A _ _ _ _ _ _. cbn [footprint]. rewrite !zlength_app, !zlength_be32.
    destruct K9 as [K9|N]; [|rewrite N in A; discriminate A].
    pose proof (zlength_nonneg _ skipped). pose proof (zlength_nonneg _ p). pose proof (zlength_nonneg _ (fields_bytes (present s 0 vals))). nia.
  - intros ft i s g l subs p lg total _ _ _ _ IH _. cbn [footprint]. rewrite !zlength_app, !zlength_be32. unfold sizeof_Group, sizeof_pointer.
    pose proof (zlength_nonneg _ p). nia.
  - intros ft s g l ms p lg total _ _ _ IH _. cbn [footprint]. rewrite !zlength_app, !zlength_be32. unfold sizeof_List, sizeof_pointer.
    pose proof (zlength_nonneg _ p). pose proof (total_filter footprint is_prop ms). pose proof (zlength_filter is_prop ms). nia.
  - intros g bp s _. cbn; lia.
  - intros g bp s l c lg bp' l2 cs lg2 total _ _ IH1 _ _ IH2. cbn [map sum fold_right]. rewrite zlength_app.
    replace (zlength (c :: cs)) with (1 + zlength cs) by (unfold zlength; cbn [List.length]; lia). unfold sum in *. nia.
Qed.

Theorem readFd_memory : forall rg app K e w h a w' h', Realises (selectChunkRegistry rg) app -> strict_c e = false -> SaneApps app -> ExactInput app w ->
  5 <= K -> 9 <= K \/ (forall ft i, app ft i = None) ->
  hIFF_readFd rg e w h = Done (Some a, w', h') -> live_bytes h' <= live_bytes h + K * (zlength (r_rest (w_in w)) - zlength (r_rest (w_in w'))).
Proof.
  intros rg app K e w h a w' h' RG NS SA EX K5 K9 E. pose proof (readFd_at rg app RG e w h) as R.
  destruct (IFF_readFd rg e w) as [[[c|] w1]|u|] eqn:X; [|destruct R as (h1 & Y & _); congruence|congruence|congruence].
  destruct R as (a1 & h1 & F & Y & T & ND & B & TY). rewrite E in Y. injection Y as <- <- <-.
  rewrite (live_bytes_becomes _ _ _ B ND (fun x I => tree_live _ _ _ _ _ _ T I)), (tree_bytes _ _ _ _ _ T).
  destruct (readFd_sound rg app e w c w' RG NS SA EX X) as (l & t & lg & n & P & RW & ->).
  pose proof (proj1 (Parsed_footprint e app K K5 K9) _ _ _ _ P). unfold ReadProofs.after, IoProofs.rest in *. cbn [w_in r_rest]. rewrite RW, zlength_app.
  assert (zlength (tl t) <= zlength t) by (destruct t; cbn [tl]; unfold zlength; cbn [List.length]; lia). nia.
Qed.
