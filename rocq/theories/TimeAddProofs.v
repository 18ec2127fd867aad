(** * What adding costs *)

From Coq Require Import ZArith List Bool String Lia.
From Coq Require Import Strings.Byte.
From Verif Require Import Machine Io Types Build Read Iff Spec Lemmas
  Heap HeapSpec HeapProofs HeapPathProofs HeapSearch HeapReachProofs HeapUpdateProofs
  SessionSpec ThreadSpec ThreadStepProofs TimeSpec TimeProofs TimeSearchProofs TimeUpdateProofs.
Import ListNotations.
Open Scope Z_scope.

(** ** How the calls are taken apart *)

Definition tset_parent (c : addr) (p : ptr) : task unit :=
  tbind (tchunk c) (fun '(hd, b) => TStore c (OChunk (set_parent hd p) b) (TRet tt)).
Definition tattach (group c : addr) : task unit :=
  tbind (tchunk group) (fun '(hd, b) =>
  match b with
  | BGroup g n arr => tbind (tpush arr n c) (fun arr' => TStore group (OChunk hd (BGroup g (S n) arr')) (tset_parent c (Some group)))
  | BList g n arr pn parr => tbind (tpush arr n c) (fun arr' => TStore group (OChunk hd (BList g (S n) arr' pn parr)) (tset_parent c (Some group)))
  | _ => TUndefined UB_type_confusion
  end).
Definition tgrow (group c : addr) : task unit :=
  tbind (tchunk group) (fun '(hd, _) => tbind (tincrement (o_size hd) c) (fun s => tset_size group s)).
Definition taddToGroup (group c : addr) : task unit := tbind (tattach group c) (fun _ => tgrow group c).
Definition tattachProp (l prop : addr) : task unit :=
  tbind (tchunk l) (fun '(hd, b) =>
  match b with
  | BList g n arr pn parr => tbind (tpush parr pn prop) (fun parr' => TStore l (OChunk hd (BList g n arr (S pn) parr')) (tset_parent prop (Some l)))
  | _ => TUndefined UB_type_confusion
  end).
Definition taddProp (l prop : addr) : task unit := tbind (tattachProp l prop) (fun _ => tgrow l prop).
Definition tcontents (cat c : addr) : task unit :=
  tbind (tchunk c) (fun '(hc, bc) =>
  if checkValidCATSubChunkId (o_id hc) then
    match bc with
    | BGroup groupType _ _ | BList groupType _ _ _ _ =>
        tbind (tchunk cat) (fun '(hd, b) =>
        match b with
        | BGroup contentsType n arr =>
            if Nat.eqb n 0 then TStore cat (OChunk hd (BGroup groupType n arr)) (TRet tt)
            else if negb (contentsType =? IFF_ID_JJJJ) && negb (contentsType =? groupType)
            then TStore cat (OChunk hd (BGroup IFF_ID_JJJJ n arr)) (TRet tt)
            else TRet tt
        | BList contentsType n arr pn parr =>
            if Nat.eqb n 0 then TStore cat (OChunk hd (BList groupType n arr pn parr)) (TRet tt)
            else if negb (contentsType =? IFF_ID_JJJJ) && negb (contentsType =? groupType)
            then TStore cat (OChunk hd (BList IFF_ID_JJJJ n arr pn parr)) (TRet tt)
            else TRet tt
        | _ => TUndefined UB_type_confusion
        end)
    | _ => TUndefined UB_type_confusion
    end
  else TRet tt).
Definition taddToCAT (cat c : addr) : task unit := tbind (tcontents cat c) (fun _ => taddToGroup cat c).

Lemma ap_set_parent : forall a p, takes_apart (tset_parent a p) (hset_parent a p).
Proof. intros a p. unfold tset_parent, hset_parent. apply ap_bind; [apply ap_chunk|]. intros [hd b]. apply ap_store. Qed.
Lemma ap_store_then : forall A a o (t : task A) m, takes_apart t m -> takes_apart (TStore a o t) (hstore a o ;;h m).
Proof. intros A a o t m E e w h. cbn [perform]. unfold hbind, hstore. destruct (lookup h a); [apply E|reflexivity]. Qed.
Lemma ap_attach : forall a c, takes_apart (tattach a c) (hattachToGroup a c).
Proof.
  intros a c. unfold tattach, hattachToGroup. apply ap_bind; [apply ap_chunk|]. intros [hd b]. destruct b; try apply ap_undefined;
    (apply ap_bind; [apply ap_push|]; intro r; apply ap_store_then; apply ap_set_parent).
Qed.
Lemma ap_grow : forall a c, takes_apart (tgrow a c) ('(hd, _) <-h hchunk a ;; s <-h hincrementChunkSize (o_size hd) c ;; hset_size a s).
Proof. intros a c. unfold tgrow. apply ap_bind; [apply ap_chunk|]. intros [hd b]. apply ap_bind; [apply ap_increment|]. intro s. apply ap_set_size. Qed.
Lemma ap_add : forall a c, takes_apart (taddToGroup a c) (haddToGroup a c).
Proof. intros a c. unfold taddToGroup, haddToGroup. apply ap_bind; [apply ap_attach|]. intro u. apply ap_grow. Qed.
Lemma ap_addProp : forall a c, takes_apart (taddProp a c) (haddPropToList a c).
Proof.
  intros a c. unfold taddProp, haddPropToList. apply ap_bind; [|intro u; apply ap_grow].
  unfold tattachProp, hattachProp. apply ap_bind; [apply ap_chunk|]. intros [hd b]. destruct b; try apply ap_undefined.
  apply ap_bind; [apply ap_push|]. intro r. apply ap_store_then. apply ap_set_parent.
Qed.
Lemma ap_contents : forall a c, takes_apart (tcontents a c) (hupdateContentsType a c).
Proof.
  intros a c. unfold tcontents, hupdateContentsType. apply ap_bind; [apply ap_chunk|]. intros [hc bc]. destruct (checkValidCATSubChunkId _); [|apply ap_ret].
  destruct bc; try apply ap_undefined;
    (apply ap_bind; [apply ap_chunk|]; intros [hd b]; destruct b; try apply ap_undefined;
     (destruct (Nat.eqb _ _); [apply ap_store|]; destruct (_ && _); [apply ap_store|apply ap_ret])).
Qed.
Lemma ap_addToCAT : forall a c, takes_apart (taddToCAT a c) (haddToCATAndUpdateContentsType a c).
Proof. intros a c. unfold taddToCAT, haddToCATAndUpdateContentsType. apply ap_bind; [apply ap_contents|]. intro u. apply ap_add. Qed.

(** ** Bounds, whatever happens *)

Definition within {A} (t : task A) e w h (n m : nat) : Prop := (effort t e w h <= n /\ copied t e w h <= m)%nat.

Lemma within_bind : forall A C (t : task A) (k : A -> task C) e w h n m n' m', within t e w h n m ->
  (forall a w' h', perform t e w h = Done (a, w', h') -> within (k a) e w' h' n' m') -> within (tbind t k) e w h (n + n') (m + m').
Proof.
  intros A C t k e w h n m n' m' [N M] K. unfold within. rewrite effort_bind, copied_bind. destruct (perform t e w h) as [[[a w'] h']|u|] eqn:P; [|lia|lia].
  destruct (K a w' h' eq_refl). lia.
Qed.
Lemma within_ret : forall A (a : A) e w h, within (TRet a) e w h 0 0.
Proof. intros. split; reflexivity. Qed.
Lemma within_undefined : forall A u e w h n m, within (@TUndefined A u) e w h n m.
Proof. intros. split; cbn; lia. Qed.
Lemma within_chunk : forall a e w h, within (tchunk a) e w h 1 0.
Proof. intros a e w h. split; [apply most_chunk|]. cbn [tchunk copied]. destruct (lookup h a) as [[]|]; cbn; lia. Qed.
Lemma within_store : forall A a o (t : task A) e w h n m, (lookup h a <> None -> within t e w (store h a o) n m) -> within (TStore a o t) e w h (S n) m.
Proof. intros A a o t e w h n m W. unfold within. cbn [effort copied]. destruct (lookup h a); [|lia]. destruct (W ltac:(discriminate)). lia. Qed.
Lemma within_more : forall A (t : task A) e w h n m n' m', within t e w h n m -> (n <= n')%nat -> (m <= m')%nat -> within t e w h n' m'.
Proof. unfold within. intros. lia. Qed.
Lemma within_push : forall p n x e w h, within (tpush p n x) e w h 4 (n + 1).
Proof.
  intros p n x e w h. unfold within, tpush. destruct p as [a|].
  - cbn [effort copied]. destruct (lookup h a) as [[| |l]|] eqn:L; try (cbn; lia). cbn [effort copied]. unfold malloc. unfold messages, unread. cbn [w_log w_in]. rewrite !Nat.sub_diag.
    destruct (_ && _); [|cbn; lia]. cbn [effort copied]. rewrite L. cbn [effort copied]. rewrite app_length, firstn_length. cbn [List.length]. lia.
  - cbn [effort copied]. unfold malloc. unfold messages, unread. cbn [w_log w_in]. rewrite !Nat.sub_diag.
    destruct (_ && _); [|cbn; lia]. cbn [effort copied]. rewrite firstn_nil. cbn [List.app List.length]. lia.
Qed.
Lemma within_set_parent : forall a p e w h, within (tset_parent a p) e w h 2 0.
Proof. intros a p e w h. unfold tset_parent. apply (within_bind _ _ _ _ e w h 1 0 1 0 (within_chunk _ _ _ _)). intros [hd b] w' h' _. apply within_store. intros _. apply within_ret. Qed.
Lemma within_set_size : forall a s e w h, within (tset_size a s) e w h 2 0.
Proof. intros a s e w h. unfold tset_size. apply (within_bind _ _ _ _ e w h 1 0 1 0 (within_chunk _ _ _ _)). intros [hd b] w' h' _. apply within_store. intros _. apply within_ret. Qed.
Lemma within_increment : forall s a e w h, within (tincrement s a) e w h 1 0.
Proof.
  intros s a e w h. unfold tincrement. apply (within_bind _ _ _ _ e w h 1 0 0 0 (within_chunk _ _ _ _)). intros [hd b] w' h' _.
  destruct (_ <? _); [apply within_undefined|]. cbv zeta. destruct (c_odd _); [|apply within_ret]. destruct (_ =? _); [apply within_undefined|apply within_ret].
Qed.
Lemma within_grow : forall a c e w h, within (tgrow a c) e w h 4 0.
Proof.
  intros a c e w h. unfold tgrow. apply (within_bind _ _ _ _ e w h 1 0 3 0 (within_chunk _ _ _ _)). intros [hd b] w1 h1 _.
  apply (within_bind _ _ _ _ e w1 h1 1 0 2 0 (within_increment _ _ _ _ _)). intros s w2 h2 _. apply within_set_size.
Qed.

(** How many chunks, and how many PROPs, the group at [a] has in [h] *)
Definition held_by (h : heap) (a : addr) : nat := match lookup h a with Some (OChunk _ b) => subs b | _ => 0 end.
Definition props_of (h : heap) (a : addr) : nat := match lookup h a with Some (OChunk _ (BList _ _ _ m _)) => m | _ => 0 end.

Lemma within_attach : forall a c e w h, within (tattach a c) e w h 8 (held_by h a + 1).
Proof.
  intros a c e w h. unfold tattach. apply (within_bind _ _ _ _ e w h 1 0 7 (held_by h a + 1) (within_chunk _ _ _ _)). intros [hd b] w1 h1 P.
  destruct (perform_chunk _ _ _ _ _ _ _ _ P) as (L & -> & ->). unfold held_by. rewrite L.
  destruct b as [d|g n arr|g n arr m parr|vs]; try apply within_undefined; cbn [subs];
    (replace (n + 1)%nat with (n + 1 + 0)%nat by lia; apply (within_bind _ _ _ _ e w h 4 (n + 1) 3 0 (within_push _ _ _ _ _ _)); intros r w2 h2 _;
     apply within_store; intros _; apply within_set_parent).
Qed.
Lemma within_add : forall a c e w h, within (taddToGroup a c) e w h 12 (held_by h a + 1).
Proof.
  intros a c e w h. unfold taddToGroup. replace (held_by h a + 1)%nat with (held_by h a + 1 + 0)%nat by lia.
  apply (within_bind _ _ _ _ e w h 8 _ 4 0 (within_attach _ _ _ _ _)). intros u w1 h1 _. apply within_grow.
Qed.
Lemma within_addProp : forall a c e w h, within (taddProp a c) e w h 12 (props_of h a + 1).
Proof.
  intros a c e w h. unfold taddProp. replace (props_of h a + 1)%nat with (props_of h a + 1 + 0)%nat by lia.
  apply (within_bind _ _ _ _ e w h 8 _ 4 0); [|intros u w1 h1 _; apply within_grow].
  unfold tattachProp. apply (within_bind _ _ _ _ e w h 1 0 7 (props_of h a + 1) (within_chunk _ _ _ _)). intros [hd b] w1 h1 P.
  destruct (perform_chunk _ _ _ _ _ _ _ _ P) as (L & -> & ->). unfold props_of. rewrite L.
  destruct b as [d|g n arr|g n arr m parr|vs]; try apply within_undefined.
  replace (m + 1)%nat with (m + 1 + 0)%nat by lia. apply (within_bind _ _ _ _ e w h 4 (m + 1) 3 0 (within_push _ _ _ _ _ _)). intros r w2 h2 _.
  apply within_store. intros _. apply within_set_parent.
Qed.

(** What the group holds is what it held before, and one more *)
Lemma hstore_inv : forall a o e w h u w' h', hstore a o e w h = Done (u, w', h') -> lookup h a <> None /\ w' = w /\ h' = store h a o.
Proof. intros a o e w h u w' h' R. unfold hstore in R. destruct (lookup h a); [|discriminate]. injection R as _ <- <-. split; [discriminate|auto]. Qed.
Lemma held_header : forall h a hd b hd' x, lookup h a = Some (OChunk hd b) -> held_by (store h a (OChunk hd' b)) x = held_by h x.
Proof.
  intros h a hd b hd' x L. unfold held_by. rewrite (lookup_store h a _ x) by (rewrite L; discriminate). destruct (Nat.eqb_spec x a) as [->|NE]; [rewrite L|]; reflexivity.
Qed.
Lemma held_set_parent : forall a p e w h u w' h' x, hset_parent a p e w h = Done (u, w', h') -> held_by h' x = held_by h x.
Proof.
  intros a p e w h u w' h' x R. unfold hset_parent in R. unfold hbind in R. destruct (hchunk a e w h) as [[[[hd b] w1] h1]|u1|] eqn:C; [|discriminate|discriminate].
  destruct (hchunk_inv _ _ _ _ _ _ _ _ C) as (L & -> & ->). destruct (hstore_inv _ _ _ _ _ _ _ _ R) as (_ & -> & ->). exact (held_header h a hd b _ x L).
Qed.
Lemma held_set_size : forall a s e w h u w' h' x, hset_size a s e w h = Done (u, w', h') -> held_by h' x = held_by h x.
Proof.
  intros a p e w h u w' h' x R. unfold hset_size in R. unfold hbind in R. destruct (hchunk a e w h) as [[[[hd b] w1] h1]|u1|] eqn:C; [|discriminate|discriminate].
  destruct (hchunk_inv _ _ _ _ _ _ _ _ C) as (L & -> & ->). destruct (hstore_inv _ _ _ _ _ _ _ _ R) as (_ & -> & ->). exact (held_header h a hd b _ x L).
Qed.
Lemma held_increment : forall s a e w h r w' h', hincrementChunkSize s a e w h = Done (r, w', h') -> h' = h.
Proof.
  intros s a e w h r w' h' R. unfold hincrementChunkSize in R. unfold hbind in R. destruct (hchunk a e w h) as [[[[hd b] w1] h1]|u1|] eqn:C; [|discriminate|discriminate].
  destruct (hchunk_inv _ _ _ _ _ _ _ _ C) as (L & -> & ->). destruct (_ <? _); [discriminate|]. cbv zeta in R. destruct (c_odd _); [destruct (_ =? _); [discriminate|]|]; injection R as _ _ <-; reflexivity.
Qed.
Lemma held_add : forall a c e w h u w' h', haddToGroup a c e w h = Done (u, w', h') -> held_by h' a = S (held_by h a).
Proof.
  intros a c e w h u w' h' R. unfold haddToGroup in R. unfold hbind at 1 in R. destruct (hattachToGroup a c e w h) as [[[u1 w1] h1]|u1|] eqn:A; [|discriminate|discriminate].
  assert (E1 : held_by h1 a = S (held_by h a)).
  { unfold hattachToGroup in A. unfold hbind at 1 in A. destruct (hchunk a e w h) as [[[[hd b] w2] h2]|u2|] eqn:C; [|discriminate|discriminate].
    destruct (hchunk_inv _ _ _ _ _ _ _ _ C) as (L & -> & ->). unfold held_by at 2. rewrite L.
    destruct b as [d|g n arr|g n arr m parr|vs]; try discriminate; cbn [subs];
      (unfold hbind at 1 in A; destruct (hpush arr n c e w h) as [[[r w3] h3]|u3|]; [|discriminate|discriminate];
       unfold hbind in A; destruct (hstore a _ e w3 h3) as [[[u4 w4] h4]|u4|] eqn:S4; [|discriminate|discriminate];
       destruct (hstore_inv _ _ _ _ _ _ _ _ S4) as (N & -> & ->); rewrite (held_set_parent _ _ _ _ _ _ _ _ a A);
       unfold held_by; rewrite (lookup_store h3 a _ a N), Nat.eqb_refl; reflexivity). }
  unfold hbind at 1 in R. destruct (hchunk a e w1 h1) as [[[[hd b] w2] h2]|u2|] eqn:C; [|discriminate|discriminate].
  destruct (hchunk_inv _ _ _ _ _ _ _ _ C) as (L & -> & ->). unfold hbind in R. destruct (hincrementChunkSize (o_size hd) c e w1 h1) as [[[r w3] h3]|u3|] eqn:I; [|discriminate|discriminate].
  pose proof (held_increment _ _ _ _ _ _ _ _ I) as ->. rewrite (held_set_size _ _ _ _ _ _ _ _ a R). exact E1.
Qed.

Lemma within_contents : forall a c e w h, within (tcontents a c) e w h 3 0.
Proof.
  intros a c e w h. unfold tcontents. apply (within_bind _ _ _ _ e w h 1 0 2 0 (within_chunk _ _ _ _)). intros [hc bc] w1 h1 _.
  destruct (checkValidCATSubChunkId _); [|split; cbn; lia]. destruct bc; try apply within_undefined;
    (apply (within_bind _ _ _ _ e w1 h1 1 0 1 0 (within_chunk _ _ _ _)); intros [hd b] w2 h2 _; destruct b; try apply within_undefined;
     (destruct (Nat.eqb _ _); [apply within_store; intros _; apply within_ret|]; destruct (_ && _); [apply within_store; intros _; apply within_ret|split; cbn; lia])).
Qed.
Lemma held_contents : forall a c e w h u w' h' x, hupdateContentsType a c e w h = Done (u, w', h') -> held_by h' x = held_by h x.
Proof.
  intros a c e w h u w' h' x R. unfold hupdateContentsType in R. unfold hbind at 1 in R. destruct (hchunk c e w h) as [[[[hc bc] w1] h1]|u1|] eqn:C; [|discriminate|discriminate].
  destruct (hchunk_inv _ _ _ _ _ _ _ _ C) as (LC & -> & ->). destruct (checkValidCATSubChunkId _); [|injection R as _ _ <-; reflexivity].
  assert (K : forall hd b o, lookup h a = Some (OChunk hd b) -> (match o with OChunk _ b' => subs b' = subs b | _ => False end) -> hstore a o e w h = Done (u, w', h') -> held_by h' x = held_by h x).
  { intros hd b o L E S. destruct (hstore_inv _ _ _ _ _ _ _ _ S) as (N & -> & ->). unfold held_by. rewrite (lookup_store h a o x N). destruct (Nat.eqb_spec x a) as [->|NE]; [|reflexivity].
    rewrite L. destruct o; try contradiction. exact E. }
  destruct bc; try discriminate;
    (unfold hbind at 1 in R; destruct (hchunk a e w h) as [[[[hd b] w2] h2]|u2|] eqn:D; [|discriminate|discriminate];
     destruct (hchunk_inv _ _ _ _ _ _ _ _ D) as (LD & -> & ->); destruct b; try discriminate;
     (destruct (Nat.eqb _ _); [refine (K _ _ _ LD _ R); reflexivity|]; destruct (_ && _); [refine (K _ _ _ LD _ R); reflexivity|injection R as _ _ <-; reflexivity])).
Qed.
Lemma within_addToCAT : forall a c e w h, within (taddToCAT a c) e w h 15 (held_by h a + 1).
Proof.
  intros a c e w h. unfold taddToCAT. apply (within_bind _ _ _ _ e w h 3 0 12 (held_by h a + 1) (within_contents _ _ _ _ _)). intros u w1 h1 P.
  rewrite (ap_contents a c e w h) in P. rewrite <- (held_contents _ _ _ _ _ _ _ _ a P). apply within_add.
Qed.

(** ** One chunk after another *)
Fixpoint tadd_each (group : addr) (l : list addr) : task unit :=
  match l with [] => TRet tt | c :: r => tbind (taddToGroup group c) (fun _ => tadd_each group r) end.
Lemma within_each : forall a l e w h, exists m, within (tadd_each a l) e w h (12 * List.length l) m /\
  (2 * m = List.length l * (2 * held_by h a + List.length l + 1))%nat.
Proof.
  intros a l. induction l as [|c l IH]; intros e w h; [exists 0%nat; split; [split; cbn; lia|cbn; lia]|].
  cbn [tadd_each List.length].
  destruct (IH e w h) as (m0 & _ & E0).
  exists ((held_by h a + 1) + (m0 + List.length l))%nat. split; [|nia].
  refine (within_more _ _ _ _ _ (12 + 12 * List.length l) _ _ _ _ _ (Nat.le_refl _)); [|lia].
  apply within_bind; [apply within_add|]. intros u w1 h1 P. rewrite (ap_add a c e w h) in P. pose proof (held_add _ _ _ _ _ _ _ _ P) as E.
  destruct (IH e w1 h1) as (m1 & W1 & E1). rewrite E in E1. refine (within_more _ _ _ _ _ _ _ _ _ W1 (Nat.le_refl _) _). nia.
Qed.

(** ** No fewer pointers: the group at [a] has [n] members, and all of them in its array *)
Definition roomy (h : heap) (a : addr) (n : nat) : Prop :=
  exists hd b, lookup h a = Some (OChunk hd b) /\
    match b with
    | BGroup _ m arr | BList _ m arr _ _ =>
        m = n /\ match arr with None => n = 0%nat | Some d => exists la, lookup h d = Some (OArray la) /\ (n <= List.length la)%nat end
    | _ => False
    end.

Lemma push_exact : forall p n x e w h r w' h', (match p with None => n = 0%nat | Some d => exists la, lookup h d = Some (OArray la) /\ (n <= List.length la)%nat end) ->
  hpush p n x e w h = Done (r, w', h') -> copied (tpush p n x) e w h = (n + 1)%nat /\
    exists d la, r = Some d /\ lookup h' d = Some (OArray la) /\ List.length la = S n /\ forall y hd b, lookup h y = Some (OChunk hd b) -> lookup h' y = Some (OChunk hd b) /\ y <> d.
Proof.
  intros p n x e w h r w' h' A R. unfold hpush, harray in R. unfold tpush. destruct p as [a|].
  - destruct A as (la & L & LE). unfold hbind, hload in R. rewrite L in R. cbn [hret] in R. unfold io, malloc in R. unfold hret in R. cbn [copied]. rewrite L. cbn [copied]. unfold malloc.
    destruct (_ && _); [|discriminate]. unfold hfree in R. rewrite L in R. cbn [copied]. rewrite L. cbn [copied].
    injection R as <- <- <-. split; [rewrite app_length, firstn_length; cbn [List.length]; lia|]. do 2 eexists. split; [reflexivity|].
    match goal with |- context [address e ?v ?g] => pose proof (address_free e v g) as FR end. split; [rewrite lookup_new, Nat.eqb_refl; reflexivity|].
    split; [rewrite app_length, firstn_length; cbn [List.length]; lia|]. intros y hd b Ly.
    assert (NA : y <> a) by congruence. match goal with |- context [address e ?v ?g] => assert (LR : lookup g y = Some (OChunk hd b)) end.
    { rewrite lookup_release. destruct (Nat.eqb_spec y a); [contradiction|exact Ly]. }
    match goal with |- context [address e ?v ?g] => assert (NE : y <> address e v g) by (intro E; rewrite <- E in FR; congruence) end.
    split; [|exact NE]. rewrite lookup_new, (proj2 (Nat.eqb_neq _ _) NE). exact LR.
  - subst n. unfold hbind in R. cbn [hret] in R. unfold io, malloc in R. unfold hret in R. cbn [copied]. unfold malloc.
    destruct (_ && _); [|discriminate]. cbn [hfree] in R. cbn [copied].
    injection R as <- <- <-. split; [reflexivity|]. do 2 eexists. split; [reflexivity|].
    match goal with |- context [address e ?v ?g] => pose proof (address_free e v g) as FR end. split; [rewrite lookup_new, Nat.eqb_refl; reflexivity|].
    split; [reflexivity|]. intros y hd b Ly.
    match goal with |- context [address e ?v ?g] => assert (NE : y <> address e v g) by (intro E; rewrite <- E in FR; congruence) end.
    split; [|exact NE]. rewrite lookup_new, (proj2 (Nat.eqb_neq _ _) NE). exact Ly.
Qed.

Lemma roomy_header : forall h a n y hd b hd', roomy h a n -> lookup h y = Some (OChunk hd b) -> roomy (store h y (OChunk hd' b)) a n.
Proof.
  intros h a n y hd b hd' (hd0 & b0 & L & M) LY.
  assert (K : forall z, lookup (store h y (OChunk hd' b)) z = if Nat.eqb z y then Some (OChunk hd' b) else lookup h z) by (intro z; apply lookup_store; rewrite LY; discriminate).
  assert (AR : forall d la, lookup h d = Some (OArray la) -> lookup (store h y (OChunk hd' b)) d = Some (OArray la)).
  { intros d la D. rewrite K. destruct (Nat.eqb_spec d y) as [->|_]; [congruence|exact D]. }
  assert (B : exists hd1, lookup (store h y (OChunk hd' b)) a = Some (OChunk hd1 b0)).
  { rewrite K. destruct (Nat.eqb_spec a y) as [->|_]; [rewrite L in LY; injection LY as <- <-; eexists; reflexivity|eexists; exact L]. }
  destruct B as (hd1 & B). exists hd1, b0. split; [exact B|]. destruct b0 as [d|g m arr|g m arr pm parr|vs]; try contradiction;
    (destruct M as (-> & M); split; [reflexivity|]; destruct arr as [d|]; [|exact M]; destruct M as (la & D & LE); exists la; split; [exact (AR _ _ D)|exact LE]).
Qed.
Lemma roomy_set_parent : forall y p e w h u w' h' a n, roomy h a n -> hset_parent y p e w h = Done (u, w', h') -> roomy h' a n.
Proof.
  intros y p e w h u w' h' a n RM R. unfold hset_parent in R. unfold hbind in R. destruct (hchunk y e w h) as [[[[hd b] w1] h1]|u1|] eqn:C; [|discriminate|discriminate].
  destruct (hchunk_inv _ _ _ _ _ _ _ _ C) as (L & -> & ->). destruct (hstore_inv _ _ _ _ _ _ _ _ R) as (_ & -> & ->). exact (roomy_header _ _ _ _ _ _ _ RM L).
Qed.
Lemma roomy_set_size : forall y s e w h u w' h' a n, roomy h a n -> hset_size y s e w h = Done (u, w', h') -> roomy h' a n.
Proof.
  intros y p e w h u w' h' a n RM R. unfold hset_size in R. unfold hbind in R. destruct (hchunk y e w h) as [[[[hd b] w1] h1]|u1|] eqn:C; [|discriminate|discriminate].
  destruct (hchunk_inv _ _ _ _ _ _ _ _ C) as (L & -> & ->). destruct (hstore_inv _ _ _ _ _ _ _ _ R) as (_ & -> & ->). exact (roomy_header _ _ _ _ _ _ _ RM L).
Qed.
Lemma copied_none : forall A (t : task A) e w h n, within t e w h n 0 -> copied t e w h = 0%nat.
Proof. intros A t e w h n [_ C]. lia. Qed.

Lemma add_exact : forall a x n e w h u w' h', roomy h a n -> haddToGroup a x e w h = Done (u, w', h') ->
  copied (taddToGroup a x) e w h = (n + 1)%nat /\ roomy h' a (S n).
Proof.
  intros a x n e w h u w' h' (hd & b & L & M) R. unfold haddToGroup in R. unfold hbind at 1 in R. destruct (hattachToGroup a x e w h) as [[[u1 w1] h1]|u1|] eqn:A; [|discriminate|discriminate].
  assert (X : copied (tattach a x) e w h = (n + 1)%nat /\ roomy h1 a (S n)).
  { unfold tattach. rewrite copied_bind, (copied_none _ _ _ _ _ _ (within_chunk a e w h)). rewrite (ap_chunk a e w h).
    unfold hattachToGroup in A. unfold hbind at 1 in A. destruct (hchunk a e w h) as [[[[hd' b'] w2] h2]|u2|] eqn:C; [|discriminate|discriminate].
    destruct (hchunk_inv _ _ _ _ _ _ _ _ C) as (L' & -> & ->). rewrite L in L'. injection L' as <- <-.
    destruct b as [d|g m arr|g m arr pm parr|vs]; try contradiction; destruct M as (-> & M);
      (unfold hbind at 1 in A; destruct (hpush arr n x e w h) as [[[r w3] h3]|u3|] eqn:PU; [|discriminate|discriminate];
       destruct (push_exact _ _ _ _ _ _ _ _ _ M PU) as (CP & d & la & -> & LD & LN & KC);
       destruct (KC _ _ _ L) as (L3 & NE);
       unfold hbind in A; destruct (hstore a _ e w3 h3) as [[[u4 w4] h4]|u4|] eqn:S4; [|discriminate|discriminate];
       destruct (hstore_inv _ _ _ _ _ _ _ _ S4) as (N & -> & ->);
       split;
       [rewrite copied_bind, CP, (ap_push arr n x e w h), PU; cbn [copied]; rewrite L3; rewrite (copied_none _ _ _ _ _ _ (within_set_parent _ _ _ _ _)); lia|];
       refine (roomy_set_parent _ _ _ _ _ _ _ _ _ _ _ A);
       do 2 eexists; split; [rewrite (lookup_store h3 a _ a N), Nat.eqb_refl; reflexivity|]; cbn beta iota; split; [reflexivity|];
       exists la; split; [rewrite (lookup_store h3 a _ d N); destruct (Nat.eqb_spec d a); [congruence|exact LD]|lia]). }
  destruct X as (CX & RX). split.
  - unfold taddToGroup. rewrite copied_bind, CX, (ap_attach a x e w h), A. rewrite (copied_none _ _ _ _ _ _ (within_grow _ _ _ _ _)). lia.
  - unfold hbind at 1 in R. destruct (hchunk a e w1 h1) as [[[[hd2 b2] w2] h2]|u2|] eqn:C; [|discriminate|discriminate].
    destruct (hchunk_inv _ _ _ _ _ _ _ _ C) as (L2 & -> & ->). unfold hbind in R. destruct (hincrementChunkSize (o_size hd2) x e w1 h1) as [[[r w3] h3]|u3|] eqn:I; [|discriminate|discriminate].
    pose proof (held_increment _ _ _ _ _ _ _ _ I) as ->. exact (roomy_set_size _ _ _ _ _ _ _ _ _ _ RX R).
Qed.
