(** * Looking up chunks and shared properties: pointers against trees *)

From Coq Require Import ZArith List Bool String Lia.
From Coq Require Import Strings.Byte.
From Verif Require Import Machine Io Types Build Read Search Iff Spec Lemmas IoProofs SoundProofs
  Heap HeapSpec HeapProofs HeapBuildProofs HeapReadProofs HeapAddProofs HeapReachProofs HeapPathProofs HeapSearch HeapUpdateProofs.
Import ListNotations.
Open Scope Z_scope.

(** ** Paths *)

Lemma Leads_app : forall h a q b r c, Leads h a q b -> Leads h b r c -> Leads h a (q ++ r) c.
Proof. intros h a q b r c L. induction L as [a|a s b q d CI L IH]; intro R; [exact R|]. cbn [app]. econstructor; [exact CI|exact (IH R)]. Qed.

Lemma at_path_app : forall q c y r, at_path c q = Some y -> at_path c (q ++ r) = at_path y r.
Proof.
  induction q as [|s q IH]; intros c y r E; cbn [at_path app] in *; [injection E as ->; reflexivity|].
  destruct (get_child c s) as [x|]; [|discriminate]. exact (IH _ _ _ E).
Qed.

Lemma ancestors_enclosed : forall root q c up y, enclosed root c up -> at_path c q = Some y -> enclosed root y (ancestors c q ++ up).
Proof.
  intros root. induction q as [|s q IH]; intros c up y E A; cbn [at_path ancestors] in *; [injection A as <-; exact E|].
  destruct (get_child c s) as [x|] eqn:GC; [|discriminate]. rewrite <- app_assoc. cbn [app]. apply (IH x); [|exact A].
  destruct s as [n|n]; destruct c as [i z d|i z g l|i z g ps l|i z v]; try discriminate GC; cbn [get_child] in GC; apply nth_error_In in GC.
  - apply enclosed_prop; assumption.
  - apply enclosed_member; assumption.
  - apply enclosed_member; assumption.
Qed.

(** The chain of parent pointers *)
Inductive chain_at (h : heap) (root : chunk) (ra : addr) : ptr -> list chunk -> Prop :=
| chain_top : chain_at h root ra None []
| chain_up : forall g p a F q up, tree_at h g p a F -> at_path root q = Some g -> Leads h ra q a ->
    chain_at h root ra p up -> chain_at h root ra (Some a) (g :: up).

Lemma path_chain : forall h root ra q c p a F q0 up, chain_at h root ra p up -> tree_at h c p a F ->
  at_path root q0 = Some c -> Leads h ra q0 a ->
  forall y b, at_path c q = Some y -> Leads h a q b ->
  exists pb Fb, tree_at h y pb b Fb /\ chain_at h root ra pb (ancestors c q ++ up).
Proof.
  intros h root ra. induction q as [|s q IH]; intros c p a F q0 up CH T AR LR y b AP L; cbn [at_path ancestors] in *.
  - injection AP as <-. inversion L; subst. exists p, F. split; [exact T|exact CH].
  - inversion L as [|a' s' b1 q' c' CI L1]; subst. destruct (get_child c s) as [x|] eqn:GC; [|discriminate].
    destruct (child_split _ _ _ _ _ _ _ T GC) as (b2 & F1 & G & CI2 & T1 & _). rewrite <- (child_det _ _ _ _ _ CI CI2) in *.
    rewrite <- app_assoc. cbn [app]. apply (IH x (Some a) b1 F1 (q0 ++ [s])); [|exact T1| | |exact AP|exact L1].
    + econstructor; eassumption.
    + rewrite (at_path_app _ _ _ _ AR). cbn [at_path]. rewrite GC. reflexivity.
    + apply (Leads_app _ _ _ _ _ _ LR). econstructor; [exact CI|constructor].
Qed.

(** [finds_at h root ra o r]: the pointer [r] designates the chunk [o] found
    in the tree [root] at [ra]; NULL if there is none. *)
Definition finds_at (h : heap) (root : chunk) (ra : addr) (o : option chunk) (r : ptr) : Prop :=
  match o, r with
  | Some c, Some b => exists q, at_path root q = Some c /\ Leads h ra q b
  | None, None => True
  | _, _ => False
  end.

Definition looks_up (o : outcome (option chunk)) (hm : H ptr) (e : env) (w : world) (h : heap) (root : chunk) (ra : addr) : Prop :=
  match o with
  | Done oc => exists r, hm e w h = Done (r, w, h) /\ finds_at h root ra oc r
  | Undefined u => hm e w h = Undefined u
  | OutOfFuel => hm e w h = OutOfFuel
  end.

(** ** Members *)

Lemma first_at : forall cid l p la Fl h e w, trees_at (tree_at h) l p la Fl ->
  exists r, hfirst_with_id cid la e w h = Done (r, w, h) /\
  match first_with_id cid l, r with
  | Some c, Some b => exists n, nth_error l n = Some c /\ nth_error la n = Some b
  | None, None => True
  | _, _ => False
  end.
Proof.
  intro cid. induction l as [|y l IH]; intros p la Fl h e w T; destruct la as [|b la]; cbn [trees_at] in T; try contradiction.
  - exists None. split; reflexivity.
  - destruct T as (F1 & F2 & T1 & T2 & _). destruct (tree_header _ _ _ _ _ T1) as (bd & L). cbn [hfirst_with_id first_with_id].
    rewrite (hbind_done _ _ _ _ _ _ _ _ _ _ (hchunk_at _ _ _ _ _ _ L)). cbn [o_id]. destruct (chunkId y =? cid).
    + exists (Some b). split; [reflexivity|]. exists 0%nat. split; reflexivity.
    + destruct (IH p la F2 h e w T2) as (r & E & M). exists r. split; [exact E|]. destruct (first_with_id cid l), r; try contradiction; [|exact I].
      destruct M as (n & N1 & N2). exists (S n). split; assumption.
Qed.

Lemma getDataChunk_at : forall cid root ra q c p a F h e w, tree_at h c p a F -> at_path root q = Some c -> Leads h ra q a ->
  looks_up (IFF_getDataChunkFromForm c cid) (hgetDataChunkFromForm a cid) e w h root ra.
Proof.
  intros cid root ra q c p a F h e w T AR LR. unfold looks_up, IFF_getDataChunkFromForm, hgetDataChunkFromForm.
  destruct c as [i s d|i s g l|i s g ps l|i s v]; cbn [as_group tree_at] in *.
  - destruct T as (b & size & L & _). rewrite (hbind_done _ _ _ _ _ _ _ _ _ _ (hchunk_at _ _ _ _ _ _ L)). reflexivity.
  - destruct T as (arr & la & Fa & Fl & L & A & TT & _). rewrite (hbind_done _ _ _ _ _ _ _ _ _ _ (hchunk_at _ _ _ _ _ _ L)).
    rewrite (hbind_done _ _ _ _ _ _ _ _ _ _ (helements_at _ _ _ _ _ _ A)). destruct (first_at cid l _ la Fl h e w TT) as (r & -> & M).
    exists r. split; [reflexivity|]. destruct (first_with_id cid l), r; try contradiction; [|exact I].
    destruct M as (n & N1 & N2). exists (q ++ [InSub n]). split; [rewrite (at_path_app _ _ _ _ AR); cbn; rewrite N1; reflexivity|].
    apply (Leads_app _ _ _ _ _ _ LR). econstructor; [|constructor]. eexists. eexists. split; [exact L|]. exact (array_element _ _ _ _ _ _ A N2).
  - destruct T as (arr & la & Fa & Fl & parr & pa & Fb & Fp & L & A & TT & PA & TP & _). rewrite (hbind_done _ _ _ _ _ _ _ _ _ _ (hchunk_at _ _ _ _ _ _ L)).
    rewrite (hbind_done _ _ _ _ _ _ _ _ _ _ (helements_at _ _ _ _ _ _ A)). destruct (first_at cid l _ la Fl h e w TT) as (r & -> & M).
    exists r. split; [reflexivity|]. destruct (first_with_id cid l), r; try contradiction; [|exact I].
    destruct M as (n & N1 & N2). exists (q ++ [InSub n]). split; [rewrite (at_path_app _ _ _ _ AR); cbn; rewrite N1; reflexivity|].
    apply (Leads_app _ _ _ _ _ _ LR). econstructor; [|constructor]. eexists. eexists. split; [exact L|]. exact (array_element _ _ _ _ _ _ A N2).
  - destruct T as (L & _). rewrite (hbind_done _ _ _ _ _ _ _ _ _ _ (hchunk_at _ _ _ _ _ _ L)). reflexivity.
Qed.

Lemma tree_type_of : forall h c p a F hd b, tree_at h c p a F -> lookup h a = Some (OChunk hd b) ->
  type_of b = match as_group c with Some (g, _) => Some g | None => None end.
Proof.
  intros h c p a F hd b T L. destruct c as [i s d|i s g l|i s g ps l|i s v]; cbn [tree_at as_group] in *.
  - destruct T as (x & size & L' & _). rewrite L in L'. injection L' as -> ->. reflexivity.
  - destruct T as (arr & la & Fa & Fl & L' & _). rewrite L in L'. injection L' as -> ->. reflexivity.
  - destruct T as (arr & la & Fa & Fl & parr & pa & Fb & Fp & L' & _). rewrite L in L'. injection L' as -> ->. reflexivity.
  - destruct T as (L' & _). rewrite L in L'. injection L' as -> ->. reflexivity.
Qed.

Lemma firstType_at : forall ft l p la Fl h e w, trees_at (tree_at h) l p la Fl ->
  match getPropFromList l ft with
  | Done o => exists r, hfirst_with_type ft la e w h = Done (r, w, h) /\
      match o, r with
      | Some c, Some b => exists n, nth_error l n = Some c /\ nth_error la n = Some b
      | None, None => True
      | _, _ => False
      end
  | Undefined u => hfirst_with_type ft la e w h = Undefined u
  | OutOfFuel => hfirst_with_type ft la e w h = OutOfFuel
  end.
Proof.
  intro ft. induction l as [|y l IH]; intros p la Fl h e w T; destruct la as [|b la]; cbn [trees_at] in T; try contradiction.
  - exists None. split; reflexivity.
  - destruct T as (F1 & F2 & T1 & T2 & _). destruct (tree_header _ _ _ _ _ T1) as (bd & L). cbn [hfirst_with_type getPropFromList].
    rewrite (hbind_done _ _ _ _ _ _ _ _ _ _ (hchunk_at _ _ _ _ _ _ L)). rewrite (tree_type_of _ _ _ _ _ _ _ T1 L).
    destruct (as_group y) as [[g subs]|]; [|reflexivity]. destruct (g =? ft).
    + exists (Some b). split; [reflexivity|]. exists 0%nat. split; reflexivity.
    + specialize (IH p la F2 h e w T2). destruct (getPropFromList l ft) as [o|u|]; [|exact IH|exact IH]. destruct IH as (r & E & M). exists r. split; [exact E|].
      destruct o, r; try contradiction; [|exact I]. destruct M as (n & N1 & N2). exists (S n). split; assumption.
Qed.

Lemma getProp_at : forall ft root ra q i s g ps l p a F h e w, tree_at h (CList i s g ps l) p a F ->
  at_path root q = Some (CList i s g ps l) -> Leads h ra q a ->
  match getPropFromList ps ft with
  | Done o => exists r, hgetPropFromList a ft e w h = Done (r, w, h) /\
      match o, r with
      | Some c, Some b => exists q pb Fb, at_path root q = Some c /\ Leads h ra q b /\ tree_at h c pb b Fb
      | None, None => True
      | _, _ => False
      end
  | Undefined u => hgetPropFromList a ft e w h = Undefined u
  | OutOfFuel => hgetPropFromList a ft e w h = OutOfFuel
  end.
Proof.
  intros ft root ra q i s g ps l p a F h e w T AR LR. pose proof T as T0. cbn [tree_at] in T. destruct T as (arr & la & Fa & Fl & parr & pa & Fb & Fp & L & A & TT & PA & TP & _).
  unfold hgetPropFromList. rewrite (hbind_done _ _ _ _ _ _ _ _ _ _ (hchunk_at _ _ _ _ _ _ L)). rewrite (hbind_done _ _ _ _ _ _ _ _ _ _ (helements_at _ _ _ _ _ _ PA)).
  pose proof (firstType_at ft ps _ pa Fp h e w TP) as U. destruct (getPropFromList ps ft) as [o|u|]; [|exact U|exact U].
  destruct U as (r & -> & M). exists r. split; [reflexivity|]. destruct o as [c|], r as [b|]; try contradiction; [|exact I].
  destruct M as (n & N1 & N2). assert (CI : child_is h a (InProp n) b) by (eexists; eexists; split; [exact L|]; exact (array_element _ _ _ _ _ _ PA N2)).
  destruct (child_split _ _ _ _ _ (InProp n) c T0 N1) as (b2 & F1 & G & CI2 & T1 & _). rewrite <- (child_det _ _ _ _ _ CI CI2) in *.
  exists (q ++ [InProp n]), (Some a), F1. split; [rewrite (at_path_app _ _ _ _ AR); cbn; rewrite N1; reflexivity|]. split; [|exact T1].
  apply (Leads_app _ _ _ _ _ _ LR). econstructor; [exact CI|constructor].
Qed.

(** ** The nearest enclosing list *)

Fixpoint nearest (up : list chunk) : option (chunk * list chunk) :=
  match up with
  | [] => None
  | g :: r => if chunkId g =? IFF_ID_LIST then Some (g, r) else nearest r
  end.

Lemma nearest_shorter : forall up l r, nearest up = Some (l, r) -> (List.length r < List.length up)%nat.
Proof.
  induction up as [|g up IH]; intros l r E; cbn [nearest] in E; [discriminate|]. cbn [List.length]. destruct (chunkId g =? IFF_ID_LIST).
  - injection E as _ <-. lia.
  - specialize (IH _ _ E). lia.
Qed.

Lemma searchProperty_nearest : forall ft cid up, searchProperty up ft cid =
  match nearest up with
  | None => Done None
  | Some (l, r) =>
      match l with
      | CList _ _ _ props _ =>
          op <-o getPropFromList props ft ;;
          match op with
          | None => searchProperty r ft cid
          | Some prop =>
              oc <-o IFF_getDataChunkFromForm prop cid ;;
              match oc with None => searchProperty r ft cid | Some c => Done (Some c) end
          end
      | _ => Undefined UB_type_confusion
      end
  end.
Proof.
  intros ft cid. induction up as [|g up IH]; [reflexivity|]. cbn [searchProperty nearest].
  destruct (chunkId g =? IFF_ID_LIST); [reflexivity|exact IH].
Qed.

Lemma searchList_at : forall h root ra up p, chain_at h root ra p up -> forall fuel c hd b e w, (List.length up < fuel)%nat ->
  lookup h c = Some (OChunk hd b) -> o_parent hd = p ->
  exists r, hsearchList fuel c e w h = Done (r, w, h) /\
    match nearest up, r with
    | Some (l, rest), Some al => chain_at h root ra (Some al) (l :: rest)
    | None, None => True
    | _, _ => False
    end.
Proof.
  intros h root ra up p CH. induction CH as [|g p a F q up T AR LR CH IH]; intros fuel c hd b e w LT L PE; destruct fuel as [|fuel]; cbn [List.length] in LT; try lia;
    cbn [hsearchList]; rewrite (hbind_done _ _ _ _ _ _ _ _ _ _ (hchunk_at _ _ _ _ _ _ L)); rewrite PE.
  - exists None. split; reflexivity.
  - destruct (tree_header _ _ _ _ _ T) as (bg & LG). rewrite (hbind_done _ _ _ _ _ _ _ _ _ _ (hchunk_at _ _ _ _ _ _ LG)). cbn [o_id nearest].
    destruct (chunkId g =? IFF_ID_LIST).
    + exists (Some a). split; [reflexivity|]. econstructor; eassumption.
    + apply (IH fuel a _ _ e w ltac:(lia) LG). reflexivity.
Qed.

Lemma searchProperty_at : forall h root ra ft cid n up p, (List.length up <= n)%nat -> chain_at h root ra p up -> forall fuel c hd b e w, (List.length up < fuel)%nat ->
  lookup h c = Some (OChunk hd b) -> o_parent hd = p ->
  looks_up (searchProperty up ft cid) (hsearchProperty fuel c ft cid) e w h root ra.
Proof.
  intros h root ra ft cid. induction n as [|n IH]; intros up p LN CH fuel c hd b e w LT L PE; (destruct fuel as [|fuel]; [lia|]);
  unfold looks_up; cbn [hsearchProperty]; rewrite searchProperty_nearest;
  destruct (searchList_at h root ra up p CH (S fuel) c hd b e w LT L PE) as (r & E & M); rewrite (hbind_done _ _ _ _ _ _ _ _ _ _ E).
  - destruct up; cbn [List.length] in LN; [|lia]. cbn [nearest] in *. destruct r; [contradiction|]. exists None. split; reflexivity.
  - destruct (nearest up) as [[l rest]|] eqn:NE; destruct r as [al|]; try contradiction; [|exists None; split; reflexivity].
    pose proof (nearest_shorter _ _ _ NE) as SH. inversion M as [|g p' a' F q up' T AR LR CH']; subst.
    destruct (tree_header _ _ _ _ _ T) as (bl & LL).
    assert (REST : looks_up (searchProperty rest ft cid) (hsearchProperty fuel al ft cid) e w h root ra) by (apply (IH rest p' ltac:(lia) CH' fuel al _ _ e w ltac:(lia) LL); reflexivity).
    destruct l as [i s d|i s g l|i s g ps l|i s v].
    1,2,4: unfold hgetPropFromList; rewrite hbind_assoc.
    + pose proof T as T0. cbn [tree_at] in T0. destruct T0 as (x & size & L' & _). rewrite (hbind_done _ _ _ _ _ _ _ _ _ _ (hchunk_at _ _ _ _ _ _ L')). reflexivity.
    + pose proof T as T0. cbn [tree_at] in T0. destruct T0 as (arr & la & Fa & Fl & L' & _). rewrite (hbind_done _ _ _ _ _ _ _ _ _ _ (hchunk_at _ _ _ _ _ _ L')). reflexivity.
    + pose proof T as T0. cbn [tree_at] in T0. destruct T0 as (L' & _). rewrite (hbind_done _ _ _ _ _ _ _ _ _ _ (hchunk_at _ _ _ _ _ _ L')). reflexivity.
    + rewrite hbind_eq. pose proof (getProp_at ft root ra q i s g ps l p' al F h e w T AR LR) as U.
      destruct (getPropFromList ps ft) as [o|u|]; cbn [obind]; [|rewrite U; reflexivity|rewrite U; reflexivity].
      destruct U as (r & -> & MM). destruct o as [prop|], r as [ap|]; try contradiction; [|exact REST].
      destruct MM as (qp & pp & Fp & AP & LP & TP). rewrite hbind_eq. pose proof (getDataChunk_at cid root ra qp prop pp ap Fp h e w TP AP LP) as D. unfold looks_up in D.
      destruct (IFF_getDataChunkFromForm prop cid) as [oc|u|]; cbn [obind]; [|rewrite D; reflexivity|rewrite D; reflexivity].
      destruct D as (r & -> & FD). destruct oc as [x|], r as [ax|]; try contradiction FD; [|exact REST].
      exists (Some ax). split; [reflexivity|exact FD].
Qed.

Lemma ancestors_length : forall q c y, at_path c q = Some y -> List.length (ancestors c q) = List.length q.
Proof.
  induction q as [|s q IH]; intros c y E; cbn [at_path ancestors] in *; [reflexivity|]. destruct (get_child c s) as [x|]; [|discriminate].
  rewrite app_length, (IH _ _ E). cbn. lia.
Qed.

(** IFF_getChunkFromForm on a form of a tree *)
Theorem getChunk_at : forall cid root ra F q form b h e w, tree_at h root None ra F -> NoDup F ->
  at_path root q = Some form -> Leads h ra q b ->
  looks_up (IFF_getChunkFromForm form (ancestors root q) cid) (hIFF_getChunkFromForm b cid) e w h root ra.
Proof.
  intros cid root ra F q form b h e w T ND AP LD.
  destruct (path_chain h root ra q root None ra F [] [] (chain_top _ _ _) T eq_refl (Leads_here _ _) form b AP LD) as (pb & Fb & TF & CH). rewrite app_nil_r in CH.
  unfold looks_up, IFF_getChunkFromForm, hIFF_getChunkFromForm. rewrite hbind_eq. pose proof (getDataChunk_at cid root ra q form pb b Fb h e w TF AP LD) as D. unfold looks_up in D.
  destruct (IFF_getDataChunkFromForm form cid) as [oc|u|]; cbn [obind]; [|rewrite D; reflexivity|rewrite D; reflexivity].
  destruct D as (r & -> & FD). destruct oc as [x|], r as [ax|]; try contradiction FD; [exists (Some ax); split; [reflexivity|exact FD]|].
  destruct (tree_header _ _ _ _ _ TF) as (bd & L). rewrite (hbind_done _ _ _ _ _ _ _ _ _ _ (hchunk_at _ _ _ _ _ _ L)). rewrite (tree_type_of _ _ _ _ _ _ _ TF L).
  destruct (as_group form) as [[ft subs]|]; [|reflexivity].
  eapply (searchProperty_at h root ra ft cid (List.length (ancestors root q)) (ancestors root q) pb (le_n _) CH (S (List.length h)) b); [|exact L|reflexivity].
  rewrite (ancestors_length _ _ _ AP). pose proof (path_height _ _ _ AP). pose proof (tree_depth _ _ _ _ _ T ND). lia.
Qed.

(** ** IFF_getChunksFromForm *)

Lemma array_fresh : forall h h' arr la Fa, array_at h arr la Fa -> (forall x, In x Fa -> lookup h' x = lookup h x) -> array_at h' arr la Fa.
Proof. intros h h' arr la Fa. exact (array_frame h h' arr la Fa). Qed.

Lemma push_at : forall h arr la Fa x e w, array_at h arr la Fa ->
  (exists h' w' d, hpush arr (List.length la) x e w h = Done (Some d, w', h') /\ array_at h' (Some d) (la ++ [x]) [d] /\ becomes h h' Fa [d]) \/
  (hpush arr (List.length la) x e w h = Undefined UB_null_deref /\ exists k, fails e k ((Z.of_nat (List.length la) + 1) * sizeof_pointer)).
Proof.
  intros h arr la Fa x e w A. rewrite (hpush_at h arr la Fa x e w A). unfold malloc.
  destruct ((_ <? _) && malloc_ok e (w_allocs w) _) eqn:E; [left|right; split; [reflexivity|]; exists (w_allocs w); exact E].
  eexists. eexists. eexists. split; [reflexivity|].
  split; [right; eexists; split; [reflexivity|]; split; [rewrite lookup_new, Nat.eqb_refl; reflexivity|reflexivity]|].
  set (w' := mkWorld _ _ _ _). apply (becomes_trans h (without h arr) _ Fa []); [|apply (becomes_alloc e w')].
  split; [rewrite length_without; lia|]. split; [|split].
  - intros y N1 N2.
    destruct A as [(-> & _ & _)|(d & -> & _ & ->)]; cbn [without]; [reflexivity|]. rewrite lookup_release. destruct (Nat.eqb_spec y d) as [->|]; [|reflexivity]. exfalso. apply N1. left. reflexivity.
  - intros y I1 N2.
    destruct A as [(-> & _ & ->)|(d & -> & _ & ->)]; cbn [without]; [contradiction|]. destruct I1 as [<-|[]]. rewrite lookup_release, Nat.eqb_refl. reflexivity.
  - intros y [].
Qed.

Lemma all_with_id_at : forall cid l p la Fl h e w arr lr Fr, trees_at (tree_at h) l p la Fl -> array_at h arr lr Fr ->
  (forall x, In x Fr -> In x Fl -> False) ->
  (exists h' w' arr' ln Fr', hall_with_id cid la arr (List.length lr) e w h = Done ((arr', List.length (lr ++ ln)), w', h') /\
     array_at h' arr' (lr ++ ln) Fr' /\ NoDup Fr' /\ becomes h h' Fr Fr' /\
     Forall2 (fun c b => exists n, nth_error l n = Some c /\ nth_error la n = Some b) (filter (fun c => chunkId c =? cid) l) ln) \/
  (hall_with_id cid la arr (List.length lr) e w h = Undefined UB_null_deref /\
     exists k n, (0 < n <= List.length lr + List.length (filter (fun c => (chunkId c =? cid)%Z) l))%nat /\ fails e k (Z.of_nat n * sizeof_pointer)).
Proof.
  intro cid. induction l as [|y l IH]; intros p la Fl h e w arr lr Fr T A DJ; destruct la as [|b la]; cbn [trees_at] in T; try contradiction.
  - left. exists h, w, arr, [], Fr. rewrite app_nil_r. split; [reflexivity|]. split; [exact A|]. split; [|split; [apply becomes_refl|constructor]].
    destruct A as [(_ & _ & ->)|(d & _ & _ & ->)]; repeat constructor. intros [].
  - destruct T as (F1 & F2 & T1 & T2 & ->). destruct (tree_header _ _ _ _ _ T1) as (bd & L). cbn [hall_with_id filter].
    rewrite (hbind_done _ _ _ _ _ _ _ _ _ _ (hchunk_at _ _ _ _ _ _ L)). cbn [o_id].
    assert (LIFT : forall l0 l1, Forall2 (fun c b0 => exists n, nth_error l n = Some c /\ nth_error la n = Some b0) l0 l1 -> Forall2 (fun c b0 => exists n, nth_error (y :: l) n = Some c /\ nth_error (b :: la) n = Some b0) l0 l1).
    { intros l0 l1 FA. induction FA as [|c b0 l0 l1 (n & N1 & N2) FA IH2]; constructor; [exists (S n); split; assumption|exact IH2]. }
    destruct (chunkId y =? cid) eqn:EC.
    + destruct (push_at h arr lr Fr b e w A) as [(h1 & w1 & d & E & A1 & B1)|(E & k & FK)].
      * rewrite (hbind_done _ _ _ _ _ _ _ _ _ _ E). replace (S (List.length lr)) with (List.length (lr ++ [b])) by (rewrite app_length; cbn; lia).
        assert (T2' : trees_at (tree_at h1) l p la F2).
        { apply (trees_frame h); [exact T2|]. intros x I. apply (becomes_kept _ _ _ _ _ B1); [exact (trees_live _ _ _ _ _ _ T2 I)|]. intro J. apply (DJ x J). apply in_or_app. right. exact I. }
        destruct (IH p la F2 h1 e w1 (Some d) (lr ++ [b]) [d] T2' A1) as [(h2 & w2 & arr' & ln & Fr' & E2 & A2 & ND2 & B2 & FA)|(E2 & k & n & LE & FK)].
        { intros x [<-|[]] I. destruct (proj2 (proj2 (proj2 B1)) d (or_introl eq_refl)) as [J|N1]; [apply (DJ d J); apply in_or_app; right; exact I|exact (trees_live _ _ _ _ _ _ T2 I N1)]. }
        -- left. exists h2, w2, arr', (b :: ln), Fr'. rewrite <- app_assoc in A2, E2. cbn [app] in *. split; [exact E2|]. split; [exact A2|]. split; [exact ND2|].
           split; [exact (becomes_trans _ _ _ _ _ _ B1 B2)|]. constructor; [exists 0%nat; split; reflexivity|exact (LIFT _ _ FA)].
        -- right. split; [exact E2|]. exists k, n. split; [|exact FK]. rewrite app_length in LE. cbn [List.length] in *. lia.
      * right. rewrite (hbind_undefined _ _ _ _ _ _ _ _ E). split; [reflexivity|]. exists k, (S (List.length lr)). split; [cbn [List.length]; lia|].
        rewrite Nat2Z.inj_succ. exact FK.
    + destruct (IH p la F2 h e w arr lr Fr T2 A) as [(h2 & w2 & arr' & ln & Fr' & E2 & A2 & ND2 & B2 & FA)|(E2 & k & n & LE & FK)].
      { intros x I J. apply (DJ x I), in_or_app. right. exact J. }
      * left. exists h2, w2, arr', ln, Fr'. split; [exact E2|]. split; [exact A2|]. split; [exact ND2|]. split; [exact B2|exact (LIFT _ _ FA)].
      * right. split; [exact E2|]. exists k, n. split; assumption.
Qed.

Theorem getChunks_at : forall cid form g members p a F h e w, as_group form = Some (g, members) -> tree_at h form p a F ->
  (exists h' w' arr la Fa, hIFF_getChunksFromForm a cid e w h = Done ((arr, List.length la), w', h') /\
     array_at h' arr la Fa /\ NoDup Fa /\ becomes h h' [] Fa /\
     Forall2 (fun c b => exists n, nth_error members n = Some c /\ child_is h a (InSub n) b) (filter (fun c => chunkId c =? cid) members) la) \/
  (hIFF_getChunksFromForm a cid e w h = Undefined UB_null_deref /\
     exists k n, (0 < n <= List.length (filter (fun c => (chunkId c =? cid)%Z) members))%nat /\ fails e k (Z.of_nat n * sizeof_pointer)).
Proof.
  intros cid form g members p a F h e w AG T. unfold hIFF_getChunksFromForm.
  assert (X : exists hd b arr la Fa Fl, lookup h a = Some (OChunk hd b) /\
     (match b with BGroup _ n arr | BList _ n arr _ _ => l <-h helements arr n ;; hall_with_id cid l None 0 | _ => hundefined UB_type_confusion end) = (l <-h helements arr (List.length la) ;; hall_with_id cid l None 0) /\
     array_at h arr la Fa /\ trees_at (tree_at h) members (Some a) la Fl /\ forall n b, nth_error la n = Some b -> child_is h a (InSub n) b).
  { destruct form as [i s d|i s t l|i s t ps l|i s v]; try discriminate AG; injection AG as <- <-; cbn [tree_at] in T.
    - destruct T as (arr & la & Fa & Fl & L & A & TT & _). eexists. eexists. exists arr, la, Fa, Fl. split; [exact L|]. split; [reflexivity|]. split; [exact A|]. split; [exact TT|].
      intros n b N. eexists. eexists. split; [exact L|]. exact (array_element _ _ _ _ _ _ A N).
    - destruct T as (arr & la & Fa & Fl & parr & pa & Fb & Fp & L & A & TT & _). eexists. eexists. exists arr, la, Fa, Fl. split; [exact L|]. split; [reflexivity|]. split; [exact A|]. split; [exact TT|].
      intros n b N. eexists. eexists. split; [exact L|]. exact (array_element _ _ _ _ _ _ A N). }
  destruct X as (hd & b & arr & la & Fa & Fl & L & EQ & A & TT & CH). rewrite (hbind_done _ _ _ _ _ _ _ _ _ _ (hchunk_at _ _ _ _ _ _ L)). rewrite EQ.
  rewrite (hbind_done _ _ _ _ _ _ _ _ _ _ (helements_at _ _ _ _ _ _ A)).
  destruct (all_with_id_at cid members (Some a) la Fl h e w None [] [] TT) as [(h2 & w2 & arr' & ln & Fr' & E2 & A2 & ND2 & B2 & FA)|R].
  - left. split; [reflexivity|]. split; reflexivity.
  - intros x [].
  - left. exists h2, w2, arr', ln, Fr'. split; [exact E2|]. split; [exact A2|]. split; [exact ND2|]. split; [exact B2|].
    clear -FA CH. induction FA as [|c x l0 l1 (n & N1 & N2) FA IH]; constructor; [exists n; split; [exact N1|exact (CH _ _ N2)]|exact IH].
  - right. exact R.
Qed.
