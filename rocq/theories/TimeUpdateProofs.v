(** * What updating sizes costs *)

From Coq Require Import ZArith List Bool String Lia.
From Coq Require Import Strings.Byte.
From Verif Require Import Machine Io Types Build Read Iff Spec Lemmas
  Heap HeapSpec HeapProofs HeapPathProofs HeapSearch HeapReachProofs HeapUpdateProofs
  SessionSpec ThreadSpec ThreadStepProofs TimeSpec TimeProofs TimeSearchProofs.
Import ListNotations.
Open Scope Z_scope.

(** ** How the call is taken apart *)

Definition tset_size (c : addr) (s : Z) : task unit :=
  tbind (tchunk c) (fun '(hd, b) => TStore c (OChunk (set_size hd s) b) (TRet tt)).
Definition tincrement (size : Z) (c : addr) : task Z :=
  tbind (tchunk c) (fun '(hd, _) =>
  if INT_MAX <? size + IFF_ID_SIZE then TUndefined UB_signed_overflow else
  let returnValue := wrap_s 32 (size + IFF_ID_SIZE + 4 + o_size hd) in
  if c_odd (o_size hd) then if returnValue =? INT_MAX then TUndefined UB_signed_overflow else TRet (returnValue + 1) else TRet returnValue).
Fixpoint tsum (group : addr) (l : list addr) : task unit :=
  match l with
  | [] => TRet tt
  | c :: r =>
      tbind (tchunk group) (fun '(hd, _) => tbind (tincrement (o_size hd) c) (fun s => tbind (tset_size group s) (fun _ => tsum group r)))
  end.
Definition tupdateGroup (group : addr) : task unit :=
  tbind (tchunk group) (fun '(_, b) =>
  match b with
  | BGroup _ n arr | BList _ n arr _ _ => tbind (tset_size group IFF_ID_SIZE) (fun _ => tbind (telements arr n) (fun l => tsum group l))
  | _ => TUndefined UB_type_confusion
  end).
Definition tupdateList (l : addr) : task unit :=
  tbind (tupdateGroup l) (fun _ => tbind (tchunk l) (fun '(_, b) =>
  match b with
  | BList _ _ _ pn parr => tbind (telements parr pn) (fun ps => tsum l ps)
  | _ => TUndefined UB_type_confusion
  end)).
Definition town (c : addr) : task unit :=
  tbind (tchunk c) (fun '(hd, _) =>
  if (o_id hd =? IFF_ID_FORM) || (o_id hd =? IFF_ID_PROP) || (o_id hd =? IFF_ID_CAT) then tupdateGroup c
  else if o_id hd =? IFF_ID_LIST then tupdateList c
  else TRet tt).
Fixpoint tupdate (fuel : nat) (c : addr) : task unit :=
  match fuel with
  | O => TNoFuel
  | S f => tbind (town c) (fun _ => tbind (tchunk c) (fun '(hd, _) => match o_parent hd with None => TRet tt | Some p => tupdate f p end))
  end.

Lemma ap_ret : forall A (a : A), takes_apart (TRet a) (hret a).
Proof. intros A a e w h. reflexivity. Qed.
Lemma ap_undefined : forall A u, takes_apart (@TUndefined A u) (hundefined u).
Proof. intros A u e w h. reflexivity. Qed.
Lemma ap_store : forall a o, takes_apart (TStore a o (TRet tt)) (hstore a o).
Proof. intros a o e w h. cbn [perform]. unfold hbind, hstore. destruct (lookup h a); reflexivity. Qed.
Lemma ap_set_size : forall a s, takes_apart (tset_size a s) (hset_size a s).
Proof. intros a s. unfold tset_size, hset_size. apply ap_bind; [apply ap_chunk|]. intros [hd b]. apply ap_store. Qed.
Lemma ap_increment : forall s a, takes_apart (tincrement s a) (hincrementChunkSize s a).
Proof.
  intros s a. unfold tincrement, hincrementChunkSize. apply ap_bind; [apply ap_chunk|]. intros [hd b]. destruct (_ <? _); [apply ap_undefined|].
  cbv zeta. destruct (c_odd _); [|apply ap_ret]. destruct (_ =? _); [apply ap_undefined|apply ap_ret].
Qed.
Lemma ap_sum : forall a l, takes_apart (tsum a l) (hsum_sizes a l).
Proof.
  intros a l. induction l as [|c l IH]; [apply ap_ret|]. cbn [tsum hsum_sizes]. apply ap_bind; [apply ap_chunk|]. intros [hd b].
  apply ap_bind; [apply ap_increment|]. intro s. apply ap_bind; [apply ap_set_size|]. intro u. exact IH.
Qed.
Lemma ap_updateGroup : forall a, takes_apart (tupdateGroup a) (hupdateGroupChunkSizes a).
Proof.
  intro a. unfold tupdateGroup, hupdateGroupChunkSizes. apply ap_bind; [apply ap_chunk|]. intros [hd b]. destruct b; try apply ap_undefined;
    (apply ap_bind; [apply ap_set_size|]; intro u; apply ap_bind; [apply ap_elements|]; intro l; apply ap_sum).
Qed.
Lemma ap_own : forall a, takes_apart (town a) (hupdate_own_size a).
Proof.
  intro a. unfold town, hupdate_own_size. apply ap_bind; [apply ap_chunk|]. intros [hd b]. destruct (_ || _); [apply ap_updateGroup|]. destruct (_ =? _); [|apply ap_ret].
  unfold tupdateList, hupdateListChunkSizes. apply ap_bind; [apply ap_updateGroup|]. intro u. apply ap_bind; [apply ap_chunk|]. intros [hd' b']. destruct b'; try apply ap_undefined.
  apply ap_bind; [apply ap_elements|]. intro l. apply ap_sum.
Qed.
Lemma ap_update : forall f a, takes_apart (tupdate f a) (hupdateChunkSizes f a).
Proof.
  induction f as [|f IH]; intro a; [intros e w h; reflexivity|]. cbn [tupdate hupdateChunkSizes]. apply ap_bind; [apply ap_own|]. intro u.
  apply ap_bind; [apply ap_chunk|]. intros [hd b]. destruct (o_parent hd); [apply IH|apply ap_ret].
Qed.

(** ** Bounds, whatever happens *)

Lemma most_bind : forall A C (t : task A) (k : A -> task C) e w h n m, (effort t e w h <= n)%nat ->
  (forall a w' h', perform t e w h = Done (a, w', h') -> (effort (k a) e w' h' <= m)%nat) -> (effort (tbind t k) e w h <= n + m)%nat.
Proof.
  intros A C t k e w h n m N K. rewrite effort_bind. destruct (perform t e w h) as [[[a w'] h']|u|] eqn:P; [|lia|lia]. specialize (K a w' h' eq_refl). lia.
Qed.
Lemma most_chunk : forall a e w h, (effort (tchunk a) e w h <= 1)%nat.
Proof. intros a e w h. cbn [tchunk effort]. destruct (lookup h a) as [[]|]; cbn; lia. Qed.
Lemma most_elements : forall p n e w h, (effort (telements p n) e w h <= 1)%nat.
Proof.
  intros p n e w h. unfold telements. destruct n; [cbn; lia|]. destruct p as [a|]; [|cbn; lia]. cbn [effort]. destruct (lookup h a) as [[| |l]|]; try (cbn; lia).
  destruct (Nat.leb _ _); cbn; lia.
Qed.
Lemma most_set_size : forall a s e w h, (effort (tset_size a s) e w h <= 2)%nat.
Proof.
  intros a s e w h. unfold tset_size. refine (most_bind _ _ _ _ e w h 1 1 (most_chunk _ _ _ _) _). intros [hd b] w' h' _. cbn [effort]. destruct (lookup h' a); cbn; lia.
Qed.
Lemma most_increment : forall s a e w h, (effort (tincrement s a) e w h <= 1)%nat.
Proof.
  intros s a e w h. unfold tincrement. refine (most_bind _ _ _ _ e w h 1 0 (most_chunk _ _ _ _) _). intros [hd b] w' h' _. destruct (_ <? _); [cbn; lia|].
  cbv zeta. destruct (c_odd _); [|cbn; lia]. destruct (_ =? _); cbn; lia.
Qed.
Lemma most_sum : forall a l e w h, (effort (tsum a l) e w h <= 4 * List.length l)%nat.
Proof.
  intros a l. induction l as [|c l IH]; intros e w h; [cbn; lia|]. cbn [tsum List.length].
  refine (Nat.le_trans _ (1 + (1 + (2 + 4 * List.length l))) _ _ _)%nat; [|lia].
  apply most_bind; [apply most_chunk|]. intros [hd b] w1 h1 _. apply most_bind; [apply most_increment|]. intros s w2 h2 _.
  apply most_bind; [apply most_set_size|]. intros u w3 h3 _. apply IH.
Qed.

Definition members (b : body) : nat :=
  match b with BGroup _ n _ => n | BList _ n _ m _ => n + m | _ => 0 end.
Definition subs (b : body) : nat :=
  match b with BGroup _ n _ | BList _ n _ _ _ => n | _ => 0 end.

Lemma perform_chunk : forall a e w h hd b w' h', perform (tchunk a) e w h = Done ((hd, b), w', h') -> lookup h a = Some (OChunk hd b) /\ w' = w /\ h' = h.
Proof. intros a e w h hd b w' h' P. rewrite (ap_chunk a e w h) in P. exact (hchunk_inv _ _ _ _ _ _ _ _ P). Qed.

Lemma most_updateGroup : forall a e w h hd b, lookup h a = Some (OChunk hd b) -> (effort (tupdateGroup a) e w h <= 4 + 4 * subs b)%nat.
Proof.
  intros a e w h hd b L. unfold tupdateGroup. refine (Nat.le_trans _ (1 + (3 + 4 * subs b)) _ _ _)%nat; [|lia]. apply most_bind; [apply most_chunk|]. intros [hd' b'] w1 h1 P.
  destruct (perform_chunk _ _ _ _ _ _ _ _ P) as (L' & -> & ->). rewrite L in L'. injection L' as <- <-.
  destruct b as [n|g n arr|g n arr m parr|vs]; try (cbn; lia);
    (cbn [subs]; refine (most_bind _ _ _ _ e w h 2 (1 + 4 * n) (most_set_size _ _ _ _ _) _); intros u w1 h1 _;
     refine (most_bind _ _ _ _ e w1 h1 1 (4 * n) (most_elements _ _ _ _ _) _); intros l w2 h2 P2; destruct (elements_length _ _ _ _ _ _ _ _ P2) as (LE & _ & _);
     pose proof (most_sum a l e w2 h2); lia).
Qed.

Lemma rz_updateGroup : forall (S : addr -> Prop) a, S a -> resizes S (hupdateGroupChunkSizes a).
Proof.
  intros S a IA. unfold hupdateGroupChunkSizes. apply rz_bind; [apply rz_chunk|]. intros [hd b]. destruct b; try apply rz_undefined;
    (apply rz_bind; [apply rz_set_size; exact IA|]; intro u; apply rz_bind; [apply rz_elements|]; intro l; apply rz_sum; exact IA).
Qed.
Lemma resized_body : forall S h h' x hd b, resized_only S h h' -> lookup h x = Some (OChunk hd b) ->
  exists hd', lookup h' x = Some (OChunk hd' b) /\ o_parent hd' = o_parent hd.
Proof.
  intros S h h' x hd b R L. destruct (R x) as [E|(_ & hd1 & b1 & s & L1 & L2)]; [exists hd; rewrite E; auto|].
  rewrite L in L1. injection L1 as <- <-. exists (set_size hd s). auto.
Qed.

Lemma most_own : forall a e w h hd b, lookup h a = Some (OChunk hd b) -> (effort (town a) e w h <= 7 + 4 * members b)%nat.
Proof.
  intros a e w h hd b L. unfold town. refine (Nat.le_trans _ (1 + (6 + 4 * members b)) _ _ _)%nat; [|lia]. apply most_bind; [apply most_chunk|]. intros [hd' b'] w1 h1 P.
  destruct (perform_chunk _ _ _ _ _ _ _ _ P) as (L' & -> & ->). rewrite L in L'. injection L' as <- <-.
  assert (SM : (subs b <= members b)%nat) by (destruct b; cbn; lia). pose proof (most_updateGroup a e w h hd b L).
  destruct (_ || _); [lia|]. destruct (_ =? _); [|cbn; lia]. unfold tupdateList.
  refine (Nat.le_trans _ ((4 + 4 * subs b) + (1 + (1 + 4 * (members b - subs b)))) _ _ _)%nat; [|lia]. apply most_bind; [assumption|]. intros [] w1 h1 P1.
  apply most_bind; [apply most_chunk|]. intros [hd2 b2] w2 h2 P2. destruct (perform_chunk _ _ _ _ _ _ _ _ P2) as (L2 & -> & ->).
  rewrite (ap_updateGroup a e w h) in P1. destruct (resized_body _ _ _ _ _ _ (rz_updateGroup (fun x => x = a) a eq_refl _ _ _ _ _ _ P1) L) as (hd3 & L3 & _).
  rewrite L3 in L2. injection L2 as <- <-. destruct b as [n|g n arr|g n arr m parr|vs]; try (cbn; lia). cbn [members subs].
  refine (most_bind _ _ _ _ e w1 h1 1 (4 * (n + m - n)) (most_elements _ _ _ _ _) _). intros l w2 h2 P3. destruct (elements_length _ _ _ _ _ _ _ _ P3) as (LE & _ & _).
  pose proof (most_sum a l e w2 h2). lia.
Qed.

(** The way up, in the heap as it was: 8 accesses for every chunk on it, and 4 for
    every member of these. *)
Fixpoint way_up (fuel : nat) (c : addr) (h : heap) : nat :=
  match fuel with
  | O => 0
  | S f =>
      match lookup h c with
      | Some (OChunk hd b) => 8 + 4 * members b + match o_parent hd with None => 0 | Some p => way_up f p h end
      | _ => 1
      end
  end%nat.

Lemma no_chunk : forall C a (k : header * body -> task C) e w h, (forall hd b, lookup h a <> Some (OChunk hd b)) ->
  (effort (tbind (tchunk a) k) e w h <= 1)%nat /\ forall x, perform (tbind (tchunk a) k) e w h <> Done x.
Proof.
  intros C a k e w h N. unfold tchunk. cbn [tbind effort perform]. unfold hbind, hload. destruct (lookup h a) as [[hd b|z d|l]|]; [exfalso; exact (N hd b eq_refl)| | |];
    (split; [cbn; lia|intros x X; discriminate X]).
Qed.
Lemma most_lost : forall f c e w h, (forall hd b, lookup h c <> Some (OChunk hd b)) -> (effort (tupdate (S f) c) e w h <= 1)%nat.
Proof.
  intros f c e w h N. cbn [tupdate]. rewrite effort_bind. unfold town. destruct (no_chunk _ c (fun '(hd, _) =>
    if (o_id hd =? IFF_ID_FORM) || (o_id hd =? IFF_ID_PROP) || (o_id hd =? IFF_ID_CAT) then tupdateGroup c
    else if o_id hd =? IFF_ID_LIST then tupdateList c else TRet tt) e w h N) as (E & P).
  destruct (perform _ e w h) as [[[a w'] h']|u|]; [exfalso; exact (P _ eq_refl)|exact E|exact E].
Qed.
Lemma most_update : forall f c e w h h0, resized_only (fun _ => True) h0 h -> (effort (tupdate f c) e w h <= way_up f c h0)%nat.
Proof.
  induction f as [|f IH]; intros c e w h h0 R; [cbn; lia|]. destruct (lookup h0 c) as [[hd b|z d|l]|] eqn:L.
  2-4: cbn [way_up]; rewrite L; apply most_lost; intros hd b L1; destruct (R c) as [E|(_ & hd1 & b1 & s & L2 & _)]; congruence.
  cbn [tupdate way_up]. rewrite L. destruct (resized_body _ _ _ _ _ _ R L) as (hd1 & L1 & PA).
  refine (Nat.le_trans _ ((7 + 4 * members b) + (1 + match o_parent hd with None => 0 | Some p => way_up f p h0 end)) _ _ _)%nat; [|lia].
  apply most_bind; [exact (most_own c e w h hd1 b L1)|]. intros [] w1 h1 P1. rewrite (ap_own c e w h) in P1.
  pose proof (rz_own (fun _ => True) c Logic.I _ _ _ _ _ _ P1) as R1. destruct (resized_body _ _ _ _ _ _ R1 L1) as (hd2 & L2 & PA2).
  apply most_bind; [apply most_chunk|]. intros [hd3 b3] w2 h2 P2. destruct (perform_chunk _ _ _ _ _ _ _ _ P2) as (L3 & -> & ->). rewrite L2 in L3. injection L3 as <- <-.
  rewrite PA2, PA. destruct (o_parent hd) as [p|]; [|cbn; lia]. apply IH. exact (resized_trans _ _ _ _ R R1).
Qed.

(** ** In a tree *)

Lemma trees_len : forall P l p la Fl, trees_at P l p la Fl -> List.length l = List.length la.
Proof. intros P l. induction l as [|x l IH]; intros p [|b la] Fl T; cbn [trees_at] in T; try contradiction; [reflexivity|]. destruct T as (F1 & F2 & _ & T & _). cbn [List.length]. f_equal. exact (IH _ _ _ T). Qed.
Lemma members_at : forall h c p a F, tree_at h c p a F -> exists hd b, lookup h a = Some (OChunk hd b) /\ o_parent hd = p /\
  members b = match c with CGroup _ _ _ l => List.length l | CList _ _ _ ps l => (List.length l + List.length ps)%nat | _ => 0%nat end.
Proof.
  intros h [i s d|i s g l|i s g ps l|i s v] p a F T; cbn [tree_at] in T.
  - destruct T as (b & size & L & _). do 2 eexists. split; [exact L|]. split; reflexivity.
  - destruct T as (arr & la & Fa & Fl & L & A & TT & _). do 2 eexists. split; [exact L|]. split; [reflexivity|]. cbn [members]. exact (eq_sym (trees_len _ _ _ _ _ TT)).
  - destruct T as (arr & la & Fa & Fl & parr & pa & Fb & Fp & L & A & TT & PA & TP & _). do 2 eexists. split; [exact L|]. split; [reflexivity|]. cbn [members]. rewrite (trees_len _ _ _ _ _ TT), (trees_len _ _ _ _ _ TP). reflexivity.
  - destruct T as (L & _). do 2 eexists. split; [exact L|]. split; reflexivity.
Qed.
Lemma some_chunk : forall c, (1 <= chunks c)%nat.
Proof. intros []; cbn [chunks]; lia. Qed.
Lemma each_counts : forall l, (List.length l <= list_sum (map chunks l))%nat.
Proof. induction l as [|x l IH]; [cbn; lia|]. cbn [map List.length]. change (list_sum (chunks x :: map chunks l)) with (chunks x + list_sum (map chunks l))%nat. pose proof (some_chunk x). lia. Qed.
Lemma one_counts : forall l n y, nth_error l n = Some y -> (List.length l + chunks y <= list_sum (map chunks l) + 1)%nat.
Proof.
  induction l as [|x l IH]; intros [|n] y E; try discriminate E; cbn [map List.length]; change (list_sum (chunks x :: map chunks l)) with (chunks x + list_sum (map chunks l))%nat.
  - injection E as ->. pose proof (each_counts l). lia.
  - specialize (IH n y E). pose proof (some_chunk x). lia.
Qed.

Lemma way_in_tree : forall q c p a F h f b, tree_at h c p a F -> Leads h a q b ->
  (way_up (S (List.length q + f)) b h + 4 <= 12 * chunks c + match p with None => 0 | Some g => way_up f g h end)%nat.
Proof.
  induction q as [|s q IH]; intros c p a F h f b T L.
  - inversion L; subst b. cbn [List.length plus way_up]. destruct (members_at _ _ _ _ _ T) as (hd & bd & LA & PA & MB). rewrite LA, PA, MB.
    assert (X : (match c with CGroup _ _ _ l => List.length l | CList _ _ _ ps l => List.length l + List.length ps | _ => 0 end < chunks c)%nat).
    { destruct c as [i s d|i s g l|i s g ps l|i s v]; cbn [chunks]; try lia; [pose proof (each_counts l); lia|pose proof (each_counts l); pose proof (each_counts ps); lia]. }
    destruct p; lia.
  - inversion L as [|a' s' b1 q' c' CI L1]; subst.
    destruct (Leads_path [s] h c p a F b1 T) as (y & AP); [econstructor; [exact CI|constructor]|]. cbn [at_path] in AP.
    destruct (get_child c s) as [y'|] eqn:GC; [|discriminate AP]. clear AP y.
    destruct (child_split _ _ _ _ _ _ _ T GC) as (b2 & F1 & G & CI2 & T1 & _). rewrite <- (child_det _ _ _ _ _ CI CI2) in *.
    specialize (IH y' (Some a) b1 F1 h (S f) b T1 L1). replace (S (List.length (s :: q) + f)) with (S (List.length q + S f)) by (cbn [List.length]; lia).
    destruct (members_at _ _ _ _ _ T) as (hd & bd & LA & PA & MB).
    assert (WU : way_up (S f) a h = (8 + 4 * match c with CGroup _ _ _ l => List.length l | CList _ _ _ ps l => List.length l + List.length ps | _ => 0 end
      + match p with None => 0 | Some g => way_up f g h end)%nat) by (cbn [way_up]; rewrite LA, PA, MB; reflexivity).
    cbv beta iota in IH. rewrite WU in IH. clear WU.
    assert (X : (match c with CGroup _ _ _ l => List.length l | CList _ _ _ ps l => List.length l + List.length ps | _ => 0 end + chunks y' <= chunks c)%nat).
    { destruct s as [n|n]; destruct c as [i z d|i z g l|i z g ps l|i z v]; try discriminate GC; cbn [get_child] in GC; cbn [chunks]; pose proof (one_counts _ _ _ GC);
        [pose proof (each_counts l)| |pose proof (each_counts ps)]; lia. }
    pose proof (some_chunk y'). assert (Y : (chunks y' < chunks c)%nat).
    { destruct s as [n|n]; destruct c as [i z d|i z g l|i z g ps l|i z v]; try discriminate GC; cbn [get_child] in GC; cbn [chunks]; pose proof (one_counts _ _ _ GC);
        apply nth_error_In in GC; [destruct ps|destruct l|destruct l]; try (destruct GC; fail); cbn [List.length] in *; lia. }
    destruct p; lia.
Qed.
