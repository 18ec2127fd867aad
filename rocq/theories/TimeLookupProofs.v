(** * What looking up a chunk costs *)

From Coq Require Import ZArith List Bool String Lia.
From Coq Require Import Strings.Byte.
From Verif Require Import Machine Io Types Build Read Iff Spec Lemmas
  Heap HeapSpec HeapProofs HeapPathProofs HeapSearch HeapReachProofs HeapUpdateProofs
  SessionSpec ThreadSpec ThreadStepProofs TimeSpec TimeProofs TimeSearchProofs TimeUpdateProofs.
Import ListNotations.
Open Scope Z_scope.

(** ** How the call is taken apart *)

Fixpoint tfirst_with_id (cid : Z) (l : list addr) : task ptr :=
  match l with
  | [] => TRet None
  | c :: r => tbind (tchunk c) (fun '(hd, _) => if o_id hd =? cid then TRet (Some c) else tfirst_with_id cid r)
  end.
Definition tgetData (form : addr) (cid : Z) : task ptr :=
  tbind (tchunk form) (fun '(_, b) =>
  match b with
  | BGroup _ n arr | BList _ n arr _ _ => tbind (telements arr n) (fun l => tfirst_with_id cid l)
  | _ => TUndefined UB_type_confusion
  end).
Fixpoint tfirst_with_type (formType : Z) (l : list addr) : task ptr :=
  match l with
  | [] => TRet None
  | p :: r => tbind (tchunk p) (fun '(_, b) =>
      match type_of b with
      | None => TUndefined UB_type_confusion
      | Some g => if g =? formType then TRet (Some p) else tfirst_with_type formType r
      end)
  end.
Definition tgetProp (l : addr) (formType : Z) : task ptr :=
  tbind (tchunk l) (fun '(_, b) =>
  match b with
  | BList _ _ _ pn parr => tbind (telements parr pn) (fun ps => tfirst_with_type formType ps)
  | _ => TUndefined UB_type_confusion
  end).
Fixpoint tsearchList (fuel : nat) (c : addr) : task ptr :=
  match fuel with
  | O => TNoFuel
  | S f => tbind (tchunk c) (fun '(hd, _) =>
      match o_parent hd with
      | None => TRet None
      | Some p => tbind (tchunk p) (fun '(hp, _) => if o_id hp =? IFF_ID_LIST then TRet (Some p) else tsearchList f p)
      end)
  end.
Fixpoint tsearchProperty (fuel : nat) (c : addr) (formType cid : Z) : task ptr :=
  match fuel with
  | O => TNoFuel
  | S f => tbind (tsearchList (S f) c) (fun ol =>
      match ol with
      | None => TRet None
      | Some l => tbind (tgetProp l formType) (fun op =>
          match op with
          | None => tsearchProperty f l formType cid
          | Some prop => tbind (tgetData prop cid) (fun oc =>
              match oc with None => tsearchProperty f l formType cid | Some x => TRet (Some x) end)
          end)
      end)
  end.
Definition tgetChunk (form : addr) (cid : Z) : task ptr :=
  tbind (tgetData form cid) (fun oc =>
  match oc with
  | Some c => TRet (Some c)
  | None => tbind (tchunk form) (fun '(_, b) =>
      match type_of b with
      | None => TUndefined UB_type_confusion
      | Some formType => TSize (fun n => tsearchProperty (S n) form formType cid)
      end)
  end).

Lemma ap_first_id : forall cid l, takes_apart (tfirst_with_id cid l) (hfirst_with_id cid l).
Proof. intros cid l. induction l as [|c l IH]; [apply ap_ret|]. cbn [tfirst_with_id hfirst_with_id]. apply ap_bind; [apply ap_chunk|]. intros [hd b]. destruct (_ =? _); [apply ap_ret|exact IH]. Qed.
Lemma ap_getData : forall a cid, takes_apart (tgetData a cid) (hgetDataChunkFromForm a cid).
Proof.
  intros a cid. unfold tgetData, hgetDataChunkFromForm. apply ap_bind; [apply ap_chunk|]. intros [hd b]. destruct b; try apply ap_undefined;
    (apply ap_bind; [apply ap_elements|]; intro l; apply ap_first_id).
Qed.
Lemma ap_first_type : forall ft l, takes_apart (tfirst_with_type ft l) (hfirst_with_type ft l).
Proof.
  intros ft l. induction l as [|c l IH]; [apply ap_ret|]. cbn [tfirst_with_type hfirst_with_type]. apply ap_bind; [apply ap_chunk|]. intros [hd b].
  destruct (type_of b); [|apply ap_undefined]. destruct (_ =? _); [apply ap_ret|exact IH].
Qed.
Lemma ap_getProp : forall a ft, takes_apart (tgetProp a ft) (hgetPropFromList a ft).
Proof.
  intros a ft. unfold tgetProp, hgetPropFromList. apply ap_bind; [apply ap_chunk|]. intros [hd b]. destruct b; try apply ap_undefined.
  apply ap_bind; [apply ap_elements|]; intro l; apply ap_first_type.
Qed.
Lemma ap_searchList : forall f c, takes_apart (tsearchList f c) (hsearchList f c).
Proof.
  induction f as [|f IH]; intro c; [intros e w h; reflexivity|]. cbn [tsearchList hsearchList]. apply ap_bind; [apply ap_chunk|]. intros [hd b].
  destruct (o_parent hd) as [p|]; [|apply ap_ret]. apply ap_bind; [apply ap_chunk|]. intros [hp bp]. destruct (_ =? _); [apply ap_ret|apply IH].
Qed.
Lemma ap_searchProperty : forall f c ft cid, takes_apart (tsearchProperty f c ft cid) (hsearchProperty f c ft cid).
Proof.
  induction f as [|f IH]; intros c ft cid; [intros e w h; reflexivity|]. cbn [tsearchProperty hsearchProperty]. apply ap_bind; [apply ap_searchList|]. intros [l|]; [|apply ap_ret].
  apply ap_bind; [apply ap_getProp|]. intros [prop|]; [|apply IH]. apply ap_bind; [apply ap_getData|]. intros [x|]; [apply ap_ret|apply IH].
Qed.
Lemma ap_getChunk : forall a cid, takes_apart (tgetChunk a cid) (hIFF_getChunkFromForm a cid).
Proof.
  intros a cid. unfold tgetChunk, hIFF_getChunkFromForm. apply ap_bind; [apply ap_getData|]. intros [c|]; [apply ap_ret|]. apply ap_bind; [apply ap_chunk|]. intros [hd b].
  destruct (type_of b); [|apply ap_undefined]. intros e w h. cbn [perform]. apply ap_searchProperty.
Qed.

(** ** None of these changes the heap *)

Definition only_looks {A} (t : task A) : Prop := forall e w h a w' h', perform t e w h = Done (a, w', h') -> w' = w /\ h' = h.
Lemma ol_bind : forall A C (t : task A) (k : A -> task C), only_looks t -> (forall a, only_looks (k a)) -> only_looks (tbind t k).
Proof.
  intros A C t k T K e w h a w' h' P. rewrite perform_bind in P. unfold hbind in P. destruct (perform t e w h) as [[[x w1] h1]|u|] eqn:Q; [|discriminate|discriminate].
  destruct (T _ _ _ _ _ _ Q) as (-> & ->). exact (K x _ _ _ _ _ _ P).
Qed.
Lemma ol_ret : forall A (a : A), only_looks (TRet a).
Proof. intros A a e w h x w' h' P. injection P as _ <- <-. split; reflexivity. Qed.
Lemma ol_undefined : forall A u, only_looks (@TUndefined A u).
Proof. intros A u e w h x w' h' P. discriminate P. Qed.
Lemma ol_chunk : forall a, only_looks (tchunk a).
Proof. intros a e w h [hd b] w' h' P. destruct (perform_chunk _ _ _ _ _ _ _ _ P) as (_ & X). exact X. Qed.
Lemma ol_elements : forall p n, only_looks (telements p n).
Proof. intros p n e w h l w' h' P. exact (proj2 (elements_length _ _ _ _ _ _ _ _ P)). Qed.
Lemma ol_first_id : forall cid l, only_looks (tfirst_with_id cid l).
Proof. intros cid l. induction l as [|c l IH]; [apply ol_ret|]. cbn [tfirst_with_id]. apply ol_bind; [apply ol_chunk|]. intros [hd b]. destruct (_ =? _); [apply ol_ret|exact IH]. Qed.
Lemma ol_getData : forall a cid, only_looks (tgetData a cid).
Proof.
  intros a cid. unfold tgetData. apply ol_bind; [apply ol_chunk|]. intros [hd b]. destruct b; try apply ol_undefined; (apply ol_bind; [apply ol_elements|]; intro l; apply ol_first_id).
Qed.

(** ** Bounds *)

Lemma most_first_id : forall cid l e w h, (effort (tfirst_with_id cid l) e w h <= List.length l)%nat.
Proof.
  intros cid l. induction l as [|c l IH]; intros e w h; [cbn; lia|]. cbn [tfirst_with_id List.length].
  refine (most_bind _ _ _ _ e w h 1 (List.length l) (most_chunk _ _ _ _) _). intros [hd b] w1 h1 _. destruct (_ =? _); [cbn; lia|apply IH].
Qed.
Lemma most_getData : forall a cid e w h hd b, lookup h a = Some (OChunk hd b) -> (effort (tgetData a cid) e w h <= 2 + subs b)%nat.
Proof.
  intros a cid e w h hd b L. unfold tgetData. refine (most_bind _ _ _ _ e w h 1 (1 + subs b) (most_chunk _ _ _ _) _). intros [hd' b'] w1 h1 P.
  destruct (perform_chunk _ _ _ _ _ _ _ _ P) as (L' & -> & ->). rewrite L in L'. injection L' as <- <-.
  destruct b as [n|g n arr|g n arr m parr|vs]; try (cbn; lia);
    (cbn [subs]; refine (most_bind _ _ _ _ e w h 1 n (most_elements _ _ _ _ _) _); intros l w2 h2 P2; destruct (elements_length _ _ _ _ _ _ _ _ P2) as (<- & _ & _); apply most_first_id).
Qed.

(** The members of the block at an address, if it is a chunk *)
Definition subs_at (h : heap) (a : addr) : nat := match lookup h a with Some (OChunk _ b) => subs b | _ => 0 end.
Lemma most_getData_any : forall a cid e w h, (effort (tgetData a cid) e w h <= 2 + subs_at h a)%nat.
Proof.
  intros a cid e w h. unfold subs_at. destruct (lookup h a) as [[hd b|z d|l]|] eqn:L; [exact (most_getData a cid e w h hd b L)| | |];
    (unfold tgetData; refine (Nat.le_trans _ 1 _ (proj1 (no_chunk _ a _ e w h _)) _); [intros hd b; rewrite L; discriminate|lia]).
Qed.
Lemma most_first_type : forall ft l e w h, (effort (tfirst_with_type ft l) e w h <= List.length l)%nat.
Proof.
  intros ft l. induction l as [|c l IH]; intros e w h; [cbn; lia|]. cbn [tfirst_with_type List.length].
  refine (most_bind _ _ _ _ e w h 1 (List.length l) (most_chunk _ _ _ _) _). intros [hd b] w1 h1 _. destruct (type_of b); [|cbn; lia]. destruct (_ =? _); [cbn; lia|apply IH].
Qed.
Lemma first_type_in : forall ft l e w h p w' h', perform (tfirst_with_type ft l) e w h = Done (Some p, w', h') -> In p l /\ w' = w /\ h' = h.
Proof.
  intros ft l. induction l as [|c l IH]; intros e w h p w' h' P; [discriminate P|]. cbn [tfirst_with_type] in P. rewrite perform_bind in P. unfold hbind in P.
  destruct (perform (tchunk c) e w h) as [[[[hd b] w1] h1]|u|] eqn:Q; [|discriminate|discriminate]. destruct (perform_chunk _ _ _ _ _ _ _ _ Q) as (_ & -> & ->).
  destruct (type_of b) as [g|]; [|discriminate P]. destruct (_ =? _); [injection P as <- <- <-; split; [left; reflexivity|auto]|].
  destruct (IH _ _ _ _ _ _ P) as (I & X). split; [right; exact I|exact X].
Qed.
Lemma ol_first_type : forall ft l, only_looks (tfirst_with_type ft l).
Proof.
  intros ft l. induction l as [|c l IH]; [apply ol_ret|]. cbn [tfirst_with_type]. apply ol_bind; [apply ol_chunk|]. intros [hd b].
  destruct (type_of b); [|apply ol_undefined]. destruct (_ =? _); [apply ol_ret|exact IH].
Qed.

(** What a LIST that is asked costs: its PROPs, and the members of one of them *)
Definition elements_at (h : heap) (p : ptr) (n : nat) : list addr :=
  match p with Some d => match lookup h d with Some (OArray l) => firstn n l | _ => [] end | None => [] end.
Definition asked (h : heap) (l : addr) : nat :=
  match lookup h l with
  | Some (OChunk _ (BList _ _ _ pn parr)) => 4 + pn + list_max (map (subs_at h) (elements_at h parr pn))
  | _ => 1
  end.
Lemma elements_are : forall p n e w h l w' h', perform (telements p n) e w h = Done (l, w', h') -> l = elements_at h p n \/ n = 0%nat /\ l = [].
Proof.
  intros p n e w h l w' h' P. unfold telements in P. destruct n as [|n]; [injection P as <- _ _; right; auto|]. left. destruct p as [d|]; [|discriminate P]. cbn [perform] in P.
  unfold hbind, hload in P. unfold elements_at. destruct (lookup h d) as [[| |m]|]; try discriminate P. destruct (Nat.leb _ _); [|discriminate P]. cbn [perform] in P. unfold hret in P. congruence.
Qed.
Lemma below_max : forall (f : addr -> nat) l x, In x l -> (f x <= list_max (map f l))%nat.
Proof.
  intros f l x I. induction l as [|y l IH]; [destruct I|]. cbn [map]. change (list_max (f y :: map f l)) with (Nat.max (f y) (list_max (map f l))).
  destruct I as [->|I]; [lia|]. specialize (IH I). lia.
Qed.
Lemma getProp_in : forall l ft e w h prop w' h', perform (tgetProp l ft) e w h = Done (Some prop, w', h') ->
  exists hd g n arr pn parr, lookup h l = Some (OChunk hd (BList g n arr pn parr)) /\ In prop (elements_at h parr pn).
Proof.
  intros l ft e w h prop w' h' P. unfold tgetProp in P. rewrite perform_bind in P. unfold hbind at 1 in P.
  destruct (perform (tchunk l) e w h) as [[[[hd b] w1] h1]|u|] eqn:Q; [|discriminate|discriminate]. destruct (perform_chunk _ _ _ _ _ _ _ _ Q) as (L & -> & ->).
  destruct b as [n|g n arr|g n arr m parr|vs]; try discriminate P. rewrite perform_bind in P. unfold hbind at 1 in P.
  destruct (perform (telements parr m) e w h) as [[[es w2] h2]|u|] eqn:Q2; [|discriminate|discriminate].
  destruct (first_type_in _ _ _ _ _ _ _ _ P) as (I & _). exists hd, g, n, arr, m, parr. split; [exact L|].
  destruct (elements_are _ _ _ _ _ _ _ _ Q2) as [->|(_ & ->)]; [exact I|destruct I].
Qed.
Lemma most_getProp : forall l ft e w h, (effort (tgetProp l ft) e w h + match lookup h l with Some (OChunk _ (BList _ _ _ pn parr)) => 2 + list_max (map (subs_at h) (elements_at h parr pn)) | _ => 0 end <= asked h l)%nat
  /\ only_looks (tgetProp l ft).
Proof.
  intros l ft e w h. split.
  - unfold asked, tgetProp. destruct (lookup h l) as [[hd b|z d|es]|] eqn:L.
    2-4: (assert (N : (effort (tbind (tchunk l) (fun '(_, b) => match b with BList _ _ _ pn parr => tbind (telements parr pn) (fun ps => tfirst_with_type ft ps) | _ => TUndefined UB_type_confusion end)) e w h <= 1)%nat)
      by (apply no_chunk; intros hd b; rewrite L; discriminate)); lia.
    destruct b as [n|g n arr|g n arr m parr|vs].
    1,2,4: (assert (N : (effort (tbind (tchunk l) (fun '(_, b) => match b with BList _ _ _ pn parr => tbind (telements parr pn) (fun ps => tfirst_with_type ft ps) | _ => TUndefined UB_type_confusion end)) e w h <= 1 + 0)%nat)
      by (apply most_bind; [apply most_chunk|]; intros [hd' b'] w1 h1 P; destruct (perform_chunk _ _ _ _ _ _ _ _ P) as (L' & -> & ->); rewrite L in L'; injection L' as <- <-; cbn; lia)); lia.
    assert (N : (effort (tbind (tchunk l) (fun '(_, b) => match b with BList _ _ _ pn parr => tbind (telements parr pn) (fun ps => tfirst_with_type ft ps) | _ => TUndefined UB_type_confusion end)) e w h <= 1 + (1 + m))%nat).
    { apply most_bind; [apply most_chunk|]; intros [hd' b'] w1 h1 P; destruct (perform_chunk _ _ _ _ _ _ _ _ P) as (L' & -> & ->); rewrite L in L'; injection L' as <- <-.
      apply most_bind; [apply most_elements|]. intros es w2 h2 P2. destruct (elements_length _ _ _ _ _ _ _ _ P2) as (<- & _ & _). apply most_first_type. }
    lia.
  - unfold tgetProp. apply ol_bind; [apply ol_chunk|]. intros [hd b]. destruct b; try apply ol_undefined. apply ol_bind; [apply ol_elements|]. intro es. apply ol_first_type.
Qed.

(** The way up *)
Inductive Chain (h : heap) : nat -> addr -> Prop :=
| Chain_top : forall c, parent_is h c None -> Chain h 0 c
| Chain_up : forall n c p, parent_is h c (Some p) -> Chain h n p -> Chain h (S n) c.
Fixpoint up (n : nat) (c : addr) (h : heap) : nat :=
  match n with
  | O => 0
  | S n => match lookup h c with
      | Some (OChunk hd _) => match o_parent hd with None => 0 | Some p => 2 + asked h p + up n p h end
      | _ => 0
      end
  end%nat.

Lemma up_step : forall n c p h, parent_is h c (Some p) -> up (S n) c h = (2 + asked h p + up n p h)%nat.
Proof. intros n c p h (hd & b & L & E). cbn [up]. rewrite L, E. reflexivity. Qed.
Lemma up_least : forall n c h, Chain h n c -> (2 * n <= up n c h)%nat.
Proof. intros n c h C. induction C as [c P|n c p P C IH]; [lia|]. rewrite (up_step _ _ _ _ P). lia. Qed.

Lemma searchList_cost : forall f c n e w h, Chain h n c ->
  (effort (tsearchList f c) e w h <= 2 * n + 1)%nat /\
  forall r w' h', perform (tsearchList f c) e w h = Done (r, w', h') -> w' = w /\ h' = h /\
    match r with
    | None => True
    | Some l => exists k, Chain h k l /\ (k < n)%nat /\ (effort (tsearchList f c) e w h <= 2 * (n - k))%nat /\ (2 * (n - k) + asked h l + up k l h <= up n c h)%nat
    end.
Proof.
  induction f as [|f IH]; intros c n e w h C; [split; [cbn; lia|intros r w' h' P; discriminate P]|].
  assert (PC : exists hd b, lookup h c = Some (OChunk hd b)) by (destruct C as [c (hd & b & L & _)|n c p (hd & b & L & _) C]; eauto). destruct PC as (hd & b & L).
  assert (PP : perform (tchunk c) e w h = Done ((hd, b), w, h)) by (rewrite (ap_chunk c e w h); exact (hchunk_at _ _ _ _ _ _ L)).
  pose proof (most_chunk c e w h) as MC. cbn [tsearchList]. rewrite effort_bind, perform_bind. unfold hbind at 1. rewrite PP. cbv beta iota.
  destruct C as [c (hd' & b' & L' & E')|n c p (hd' & b' & L' & E') C]; rewrite L in L'; injection L' as <- <-; rewrite E'.
  - split; [cbn [effort]; lia|]. intros r w' h' P. injection P as <- <- <-. auto.
  - assert (PC2 : exists hp bp, lookup h p = Some (OChunk hp bp)) by (destruct C as [c1 (hd1 & b1 & L1 & _)|n c1 p (hd1 & b1 & L1 & _) C]; eauto). destruct PC2 as (hp & bp & L2).
    assert (PP2 : perform (tchunk p) e w h = Done ((hp, bp), w, h)) by (rewrite (ap_chunk p e w h); exact (hchunk_at _ _ _ _ _ _ L2)).
    pose proof (most_chunk p e w h) as MC2. rewrite effort_bind, perform_bind. unfold hbind at 1. rewrite PP2. cbv beta iota.
    assert (PI : parent_is h c (Some p)) by (exists hd, b; split; assumption). destruct (o_id hp =? IFF_ID_LIST).
    + split; [cbn [effort]; lia|]. intros r w' h' P. injection P as <- <- <-. split; [reflexivity|]. split; [reflexivity|]. exists n. split; [exact C|]. split; [lia|].
      split; [cbn [effort]; lia|]. rewrite (up_step _ _ _ _ PI). lia.
    + destruct (IH p n e w h C) as (E1 & E2). split; [refine (Nat.le_trans _ (1 + (1 + (2 * n + 1))) _ (Nat.add_le_mono _ _ _ _ MC (Nat.add_le_mono _ _ _ _ MC2 E1)) _); lia|]. intros r w' h' P. destruct (E2 r w' h' P) as (-> & -> & X). split; [reflexivity|]. split; [reflexivity|].
      destruct r as [l|]; [|exact Logic.I]. destruct X as (k & CK & KN & EK & UK). exists k. split; [exact CK|]. split; [lia|].
      split; [refine (Nat.le_trans _ (1 + (1 + 2 * (n - k))) _ (Nat.add_le_mono _ _ _ _ MC (Nat.add_le_mono _ _ _ _ MC2 EK)) _); lia|]. rewrite (up_step _ _ _ _ PI). lia.
Qed.

Local Ltac li := unfold ptr in *; lia.
Lemma searchProperty_cost : forall n f c ft cid e w h, Chain h n c -> (effort (tsearchProperty f c ft cid) e w h <= up n c h + 1)%nat.
Proof.
  intro n. induction n as [n IH] using lt_wf_ind. intros [|f] c ft cid e w h C; [cbn; li|]. cbn [tsearchProperty].
  destruct (searchList_cost (S f) c n e w h C) as (E1 & E2). pose proof (up_least _ _ _ C) as UL. rewrite effort_bind.
  destruct (perform (tsearchList (S f) c) e w h) as [[[r w1] h1]|u|] eqn:P; [|li|li]. destruct (E2 r w1 h1 eq_refl) as (-> & -> & X).
  destruct r as [l|]; [|cbn [effort]; li]. destruct X as (k & CK & KN & EK & UK).
  destruct (most_getProp l ft e w h) as (GP & OL). rewrite effort_bind. destruct (perform (tgetProp l ft) e w h) as [[[op w2] h2]|u|] eqn:PG; [|li|li].
  destruct (OL _ _ _ _ _ _ PG) as (-> & ->). pose proof (IH k KN f l ft cid e w h CK) as NEXT. destruct op as [prop|]; [|li].
  destruct (getProp_in _ _ _ _ _ _ _ _ PG) as (hd & g & n0 & arr & pn & parr & LL & IN). rewrite LL in GP. pose proof (below_max (subs_at h) _ _ IN) as BM.
  pose proof (most_getData_any prop cid e w h) as GD. unfold asked in *. rewrite LL in *. rewrite effort_bind.
  destruct (perform (tgetData prop cid) e w h) as [[[oc w3] h3]|u|] eqn:PD; [|li|li]. destruct (ol_getData _ _ _ _ _ _ _ _ PD) as (-> & ->).
  destruct oc; [cbn [effort]; li|li].
Qed.

(** ** In a tree *)

(** The direct members of a chunk, and the most a LIST costs that is asked *)
Definition nmem (c : chunk) : nat := match c with CGroup _ _ _ l => List.length l | CList _ _ _ ps l => List.length l + List.length ps | _ => 0 end.
Definition scan (c : chunk) : nat := match c with CList _ _ _ ps _ => 4 + List.length ps + list_max (map nmem ps) | _ => 1 end.
Fixpoint on_the_way (c : chunk) (q : path) : nat :=
  match q with
  | [] => 0
  | s :: r => match get_child c s with Some y => on_the_way y r + (2 + scan c) | None => 0 end
  end%nat.

Lemma subs_nmem : forall h c p a F, tree_at h c p a F -> (subs_at h a <= nmem c)%nat.
Proof.
  intros h c p a F T. destruct (members_at _ _ _ _ _ T) as (hd & b & L & _ & M). unfold subs_at. rewrite L.
  assert (S : (subs b <= members b)%nat) by (destruct b; cbn; lia). unfold nmem. rewrite M in S. exact S.
Qed.
Lemma max_nmem : forall h ps p la Fl, trees_at (tree_at h) ps p la Fl -> (list_max (map (subs_at h) la) <= list_max (map nmem ps))%nat.
Proof.
  intros h ps. induction ps as [|x ps IH]; intros p [|b la] Fl T; cbn [trees_at] in T; try contradiction; [cbn; lia|]. destruct T as (F1 & F2 & T1 & T2 & _). cbn [map].
  change (list_max (subs_at h b :: map (subs_at h) la)) with (Nat.max (subs_at h b) (list_max (map (subs_at h) la))).
  change (list_max (nmem x :: map nmem ps)) with (Nat.max (nmem x) (list_max (map nmem ps))). pose proof (subs_nmem _ _ _ _ _ T1). specialize (IH _ _ _ T2). lia.
Qed.
Lemma asked_at : forall h c p a F, tree_at h c p a F -> (asked h a <= scan c)%nat.
Proof.
  intros h [i s d|i s g l|i s g ps l|i s v] p a F T; cbn [tree_at] in T; unfold asked.
  - destruct T as (b & size & L & _). rewrite L. cbn; lia.
  - destruct T as (arr & la & Fa & Fl & L & A & TT & _). rewrite L. cbn; lia.
  - destruct T as (arr & la & Fa & Fl & parr & pa & Fb & Fp & L & A & TT & PA & TP & _). rewrite L. cbn [scan]. rewrite (trees_len _ _ _ _ _ TP).
    pose proof (max_nmem _ _ _ _ _ TP) as MX. assert (EL : (list_max (map (subs_at h) (elements_at h parr (List.length pa))) <= list_max (map (subs_at h) pa))%nat).
    { unfold elements_at. destruct parr as [d|]; [|cbn; lia]. unfold array_at in PA. destruct (lookup h d) as [[| |m]|] eqn:LD; try (cbn; lia).
      destruct PA as [(X & _)|(d' & X & LM & _)]; [discriminate X|]. injection X as <-. rewrite LD in LM. injection LM as ->. rewrite firstn_all. lia. }
    lia.
  - destruct T as (L & _). rewrite L. cbn; lia.
Qed.

Lemma list_max_sum : forall l, (list_max (map nmem l) <= list_sum (map chunks l))%nat.
Proof.
  induction l as [|x l IH]; [cbn; lia|]. cbn [map]. change (list_max (nmem x :: map nmem l)) with (Nat.max (nmem x) (list_max (map nmem l))).
  change (list_sum (chunks x :: map chunks l)) with (chunks x + list_sum (map chunks l))%nat.
  assert (X : (nmem x < chunks x)%nat) by (destruct x as [i s d|i s g m|i s g ps m|i s v]; cbn [nmem chunks]; try lia; [pose proof (each_counts m); lia|pose proof (each_counts m); pose proof (each_counts ps); lia]). lia.
Qed.
Lemma list_max_with : forall l n y, nth_error l n = Some y -> (list_max (map nmem l) + chunks y <= nmem y + list_sum (map chunks l))%nat.
Proof.
  induction l as [|x l IH]; intros [|n] y E; try discriminate E; cbn [map]; change (list_max (nmem x :: map nmem l)) with (Nat.max (nmem x) (list_max (map nmem l)));
    change (list_sum (chunks x :: map chunks l)) with (chunks x + list_sum (map chunks l))%nat.
  - injection E as ->. pose proof (list_max_sum l). lia.
  - specialize (IH n y E). assert (X : (nmem x < chunks x)%nat) by (destruct x as [i s d|i s g m|i s g ps m|i s v]; cbn [nmem chunks]; try lia; [pose proof (each_counts m); lia|pose proof (each_counts m); pose proof (each_counts ps); lia]).
    pose proof (one_counts l n y E). pose proof (each_counts l). 
    assert (Y : (chunks y <= list_sum (map chunks l))%nat) by (destruct l; [destruct n; discriminate E|cbn [List.length] in *; lia]). lia.
Qed.

Lemma way_cost : forall q c y, at_path c q = Some y -> (on_the_way c q + nmem c + 4 <= 8 * chunks c)%nat.
Proof.
  induction q as [|s q IH]; intros c z AP; cbn [at_path] in AP; cbn [on_the_way].
  - destruct c as [i s d|i s g m|i s g ps m|i s v]; cbn [nmem chunks]; try lia; [pose proof (each_counts m); lia|pose proof (each_counts m); pose proof (each_counts ps); lia].
  - destruct (get_child c s) as [y|] eqn:GC; [|discriminate AP]. specialize (IH y z AP). pose proof (some_chunk y).
    destruct s as [n|n]; destruct c as [i s d|i s g m|i s g ps m|i s v]; try discriminate GC; cbn [get_child] in GC; cbn [chunks nmem scan]; pose proof (one_counts _ _ _ GC);
      assert (Y : forall l : list chunk, nth_error l n = Some y -> (chunks y <= list_sum (map chunks l))%nat) by (intros l E; pose proof (one_counts _ _ _ E); destruct l; [destruct n; discriminate E|cbn [List.length] in *; lia]);
      specialize (Y _ GC).
    + pose proof (list_max_with _ _ _ GC). pose proof (each_counts m). lia.
    + lia.
    + pose proof (list_max_sum ps). pose proof (each_counts ps). lia.
Qed.

Lemma up_in_tree : forall q c p a F h k b, tree_at h c p a F -> Leads h a q b ->
  (up (List.length q + k) b h <= on_the_way c q + up k a h)%nat /\ (Chain h k a -> Chain h (List.length q + k) b).
Proof.
  induction q as [|s q IH]; intros c p a F h k b T L.
  - inversion L; subst b. cbn [List.length plus on_the_way]. split; [lia|auto].
  - inversion L as [|a' s' b1 q' c' CI L1]; subst.
    destruct (Leads_path [s] h c p a F b1 T) as (y & AP); [econstructor; [exact CI|constructor]|]. cbn [at_path] in AP.
    destruct (get_child c s) as [y'|] eqn:GC; [|discriminate AP]. clear AP y.
    destruct (child_split _ _ _ _ _ _ _ T GC) as (b2 & F1 & G & CI2 & T1 & _). rewrite <- (child_det _ _ _ _ _ CI CI2) in *.
    destruct (IH y' (Some a) b1 F1 h (S k) b T1 L1) as (X & C). replace (List.length (s :: q) + k)%nat with (List.length q + S k)%nat by (cbn [List.length]; lia).
    destruct (members_at _ _ _ _ _ T1) as (hd & bd & LA & PA & _). assert (PI : parent_is h b1 (Some a)) by (exists hd, bd; split; assumption).
    split; [|intro CA; apply C; exact (Chain_up _ _ _ _ PI CA)]. cbn [on_the_way]. rewrite GC. rewrite (up_step _ _ _ _ PI) in X. pose proof (asked_at _ _ _ _ _ T). lia.
Qed.

Lemma few_members : forall q c p a F h b, tree_at h c p a F -> Leads h a q b -> (subs_at h b < chunks c)%nat.
Proof.
  induction q as [|s q IH]; intros c p a F h b T L.
  - inversion L; subst b. pose proof (subs_nmem _ _ _ _ _ T). pose proof (way_cost [] c c eq_refl) as W.
    destruct c as [i s d|i s g m|i s g ps m|i s v]; cbn [nmem chunks] in *; try lia; [pose proof (each_counts m); lia|pose proof (each_counts m); pose proof (each_counts ps); lia].
  - inversion L as [|a' s' b1 q' c' CI L1]; subst.
    destruct (Leads_path [s] h c p a F b1 T) as (y & AP); [econstructor; [exact CI|constructor]|]. cbn [at_path] in AP.
    destruct (get_child c s) as [y'|] eqn:GC; [|discriminate AP]. clear AP y.
    destruct (child_split _ _ _ _ _ _ _ T GC) as (b2 & F1 & G & CI2 & T1 & _). rewrite <- (child_det _ _ _ _ _ CI CI2) in *.
    specialize (IH y' (Some a) b1 F1 h b T1 L1).
    assert (Y : (chunks y' < chunks c)%nat).
    { destruct s as [n|n]; destruct c as [i z d|i z g l|i z g ps l|i z v]; try discriminate GC; cbn [get_child] in GC; cbn [chunks]; pose proof (one_counts _ _ _ GC);
        apply nth_error_In in GC; [destruct ps|destruct l|destruct l]; try (destruct GC; fail); cbn [List.length] in *; lia. }
    lia.
Qed.

Lemma getChunk_cost : forall q root a F h b cid e w, tree_at h root None a F -> Leads h a q b ->
  (effort (tgetChunk b cid) e w h <= 9 * chunks root)%nat.
Proof.
  intros q root a F h b cid e w T L. destruct (Leads_path _ _ _ _ _ _ _ T L) as (y & AP). pose proof (way_cost q root y AP) as WC.
  destruct (up_in_tree q root None a F h 0 b T L) as (U & C). destruct (members_at _ _ _ _ _ T) as (hd & bd & LA & PA & _).
  assert (CB : Chain h (List.length q + 0) b) by (apply C; constructor; exists hd, bd; split; assumption). cbn [up] in U.
  assert (M : (subs_at h b < chunks root)%nat) by exact (few_members _ _ _ _ _ _ _ T L).
  unfold tgetChunk. refine (Nat.le_trans _ ((2 + subs_at h b) + (1 + (up (List.length q + 0) b h + 1))) _ _ _)%nat; [|lia].
  apply most_bind; [apply most_getData_any|]. intros oc w1 h1 P1. destruct (ol_getData _ _ _ _ _ _ _ _ P1) as (-> & ->). destruct oc; [cbn [effort]; lia|].
  apply most_bind; [apply most_chunk|]. intros [hd2 b2] w2 h2 P2. destruct (perform_chunk _ _ _ _ _ _ _ _ P2) as (_ & -> & ->).
  destruct (type_of b2); [|cbn [effort]; lia]. cbn [effort]. apply searchProperty_cost. exact CB.
Qed.
