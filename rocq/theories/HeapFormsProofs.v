(** * Searching FORMs: what is found in memory, and what is left behind *)

From Coq Require Import ZArith List Bool String Lia.
From Coq Require Import Strings.Byte.
From Verif Require Import Machine Io Types Build Read Search Iff Spec Lemmas IoProofs SoundProofs PropSearch
  Heap HeapSpec HeapProofs HeapBuildProofs HeapReadProofs HeapAddProofs HeapReachProofs HeapPathProofs HeapSearch HeapUpdateProofs HeapLookupProofs.
Import ListNotations.
Open Scope Z_scope.

(** ** The positions of the FORMs, as a function *)

Section Below.
  Variable one : chunk -> list (list nat).
  Fixpoint below (n : nat) (l : list chunk) : list (list nat) :=
    match l with
    | [] => []
    | x :: r => map (cons n) (one x) ++ below (S n) r
    end.
End Below.

Fixpoint positions (types : list Z) (c : chunk) : list (list nat) :=
  match c with
  | CGroup i s g l =>
      if (i =? IFF_ID_FORM) && existsb (fun t => g =? t) types then [[]]
      else if i =? IFF_ID_PROP then [] else below (positions types) 0 l
  | CList _ _ _ _ l => below (positions types) 0 l
  | _ => []
  end.

Definition right_positions (types : list Z) (c : chunk) (ps : list (list nat)) : Prop :=
  in_order ps /\ forall p, In p ps <-> outermost types c p.

Lemma below_spec : forall types l n, (forall c, In c l -> right_positions types c (positions types c)) ->
  in_order (below (positions types) n l) /\ forall p, In p (below (positions types) n l) <-> outermost_below types l n p.
Proof.
  intro types. induction l as [|c l IH]; intros n R; cbn [below].
  - split; [apply in_order_nil|]. intro p. split; [contradiction|]. intros (k & q & x & _ & E & _). destruct k; discriminate.
  - destruct (R c (or_introl eq_refl)) as (O1 & I1). destruct (IH (S n)) as (O2 & I2); [intros; apply R; right; assumption|]. split.
    + apply in_order_app; [apply in_order_map; exact O1|exact O2|].
      intros p q P Q. apply in_map_iff in P. destruct P as (p' & <- & _). apply I2 in Q. destruct Q as (k & q' & x & -> & _ & _). apply before_left. lia.
    + intro p. rewrite in_app_iff, in_map_iff. split.
      * intros [(q & <- & Q)|Q].
        -- exists 0%nat, q, c. rewrite Nat.add_0_r. split; [reflexivity|]. split; [reflexivity|]. apply I1. exact Q.
        -- apply I2 in Q. destruct Q as (k & q & x & -> & N & O). exists (S k), q, x. split; [f_equal; lia|]. split; assumption.
      * intros (k & q & x & -> & N & O). destruct k as [|k].
        -- cbn in N. injection N as <-. left. exists q. rewrite Nat.add_0_r. split; [reflexivity|]. apply I1. exact O.
        -- right. apply I2. exists k, q, x. split; [f_equal; lia|]. split; assumption.
Qed.

Lemma right_below : forall types c, ~ wanted types c ->
  (forall x, In x (contents c) -> right_positions types x (positions types x)) ->
  right_positions types c (below (positions types) 0 (contents c)).
Proof.
  intros types c NW R. destruct (below_spec types (contents c) 0 R) as (O & I). split; [exact O|].
  intro p. rewrite I. symmetry. apply outermost_not_wanted. exact NW.
Qed.

Lemma right_nothing : forall types c, contents c = [] -> ~ wanted types c -> right_positions types c [].
Proof. intros types c E NW. pose proof (right_below types c NW) as R. rewrite E in R. apply R. contradiction. Qed.

Lemma right_itself : forall types c, wanted types c -> right_positions types c [[]].
Proof.
  intros types c W. destruct (finds_itself types c W) as (ps & O & I & M). destruct ps as [|p [|q ps]]; try discriminate M.
  assert (X : In [] [p]) by (apply I; split; [exists c; split; [reflexivity|exact W]|]; intros q r x E NR; exfalso; apply NR; symmetry in E; apply app_eq_nil in E; tauto).
  destruct X as [->|[]]. split; assumption.
Qed.

Theorem positions_right : forall app types c ft, Typed app ft c -> right_positions types c (positions types c).
Proof.
  intros app types c. induction c as [i s d|i s g subs IH|i s g props subs IHp IHs|i s vals] using chunk_tree_ind; intros ft T.
  - cbn [positions]. apply right_nothing; [reflexivity|]. intros [_ (g & E & _)]. discriminate.
  - inversion T; subst. match goal with X : forall c, In c subs -> Typed _ _ _ |- _ => rename X into TS end.
    match goal with X : In i _ |- _ => rename X into II end. cbn [positions].
    destruct ((i =? IFF_ID_FORM) && existsb (fun t => g =? t) types) eqn:W.
    + apply andb_true_iff in W. destruct W as [E X]. apply Z.eqb_eq in E. apply right_itself. split; [exact E|]. exists g. split; [reflexivity|]. apply wanted_dec, X.
    + assert (NW : ~ wanted types (CGroup i s g subs)).
      { intros [E (t & ET & X)]. cbn in E, ET. injection ET as <-. apply wanted_dec in X. rewrite X, E in W. discriminate W. }
      pose proof (right_below types (CGroup i s g subs) NW) as R. unfold contents in R. change PROP_ID with IFF_ID_PROP in R.
      destruct (i =? IFF_ID_PROP); [apply R; contradiction|]. apply R. intros x I. exact (IH x I g (TS x I)).
  - inversion T; subst. match goal with X : forall c, In c subs -> Typed _ _ _ |- _ => rename X into TS end. cbn [positions].
    apply (right_below types (CList LIST_ID s g props subs)); [intros [E _]; discriminate|]. intros x I. exact (IHs x I g (TS x I)).
  - cbn [positions]. apply right_nothing; [reflexivity|]. intros [_ (g & E & _)]. discriminate.
Qed.

(** ** Paths do not depend on the rest of memory *)

Lemma child_frame : forall h h' c p a F s b, tree_at h c p a F -> (forall x, In x F -> lookup h' x = lookup h x) ->
  child_is h' a s b -> child_is h a s b.
Proof.
  intros h h' c p a F s b T K (hd & bd & L & M). rewrite (K a (tree_root_in _ _ _ _ _ T)) in L. exists hd, bd. split; [exact L|].
  assert (X : forall arr m n, element_is h' arr m n b -> (forall d, arr = Some d -> has_block h a d) -> element_is h arr m n b).
  { intros arr m n (d & l & -> & LD & LT & N) HB. exists d, l. split; [reflexivity|]. split; [|split; assumption]. rewrite <- (K d); [exact LD|]. exact (block_tree _ _ _ _ _ _ T (HB d eq_refl)). }
  destruct s as [n|n]; destruct bd as [d|g m arr|g m arr pm parr|v]; try contradiction; apply (X _ _ _ M); intros d ->; eexists; eexists; (split; [exact L|]); cbn; auto.
Qed.

Lemma Leads_frame : forall q h h' c p a F b, tree_at h c p a F -> (forall x, In x F -> lookup h' x = lookup h x) ->
  Leads h' a q b -> Leads h a q b.
Proof.
  induction q as [|s q IH]; intros h h' c p a F b T K L; [inversion L; constructor|].
  inversion L as [|a' s' b1 q' c' CI L1]; subst. pose proof (child_frame _ _ _ _ _ _ _ _ T K CI) as CI1.
  destruct (Leads_path [s] h c p a F b1 T) as (y & AP); [econstructor; [exact CI1|constructor]|]. cbn [at_path] in AP.
  destruct (get_child c s) as [y'|] eqn:GC; [|discriminate AP].
  destruct (child_split _ _ _ _ _ _ _ T GC) as (b2 & F1 & G & CI2 & T1 & S1 & _). rewrite <- (child_det _ _ _ _ _ CI1 CI2) in *.
  econstructor; [exact CI1|]. apply (IH h h' y' (Some a) b1 F1 b T1); [|exact L1]. intros x I. apply K. apply (same_in _ _ x S1), in_or_app. left. exact I.
Qed.

(** ** Merging *)

Definition zero_ok (e : env) : Prop := forall k, malloc_ok e k 0 = true.

Lemma merge_at : forall h t la Fa s ls Fs e w, array_at h t la Fa -> array_at h s ls Fs -> (forall x, In x Fa -> In x Fs -> False) ->
  (exists h' w' arr Fn, hmergeFormArray t (List.length la) s (List.length ls) e w h = Done ((arr, List.length (la ++ ls)), w', h') /\
     array_at h' arr (la ++ ls) Fn /\ becomes h h' Fa Fn /\ (forall x, In x Fn -> In x Fa \/ lookup h x = None) /\ NoDup Fn /\
     (zero_ok e -> List.length Fn = 1%nat)) \/
  (hmergeFormArray t (List.length la) s (List.length ls) e w h = Undefined UB_null_deref /\
     (0 < List.length la + List.length ls)%nat /\ exists k, fails e k (Z.of_nat (List.length la + List.length ls) * sizeof_pointer)).
Proof.
  intros h t la Fa s ls Fs e w A AS DJ. unfold hmergeFormArray. rewrite (hbind_done _ _ _ _ _ _ _ _ _ _ (helements_at _ _ _ _ _ _ A)).
  rewrite hbind_io. unfold malloc. destruct ((_ <? _) && malloc_ok e (w_allocs w) _) eqn:E.
  - left. destruct (hfree_array h t la Fa e (mkWorld (w_in w) (w_out w) (w_log w) (S (w_allocs w))) A) as (h1 & E1 & B1). rewrite (hbind_done _ _ _ _ _ _ _ _ _ _ E1).
    assert (AS1 : array_at h1 s ls Fs) by (apply (array_frame h); [exact AS|]; intros x I; apply (becomes_kept _ _ _ _ _ B1); [exact (array_live _ _ _ _ _ AS I)|]; intro J; exact (DJ x J I)).
    rewrite (hbind_done _ _ _ _ _ _ _ _ _ _ (helements_at _ _ _ _ _ _ AS1)). set (w1 := mkWorld _ _ _ _). set (q := address e w1 h1). eexists. eexists. exists (Some q), [q].
    rewrite app_length. split; [reflexivity|]. split; [right; exists q; split; [reflexivity|]; split; [unfold q; rewrite lookup_new, Nat.eqb_refl; reflexivity|reflexivity]|].
    assert (B2 : becomes h (fill h1 q (OArray (la ++ ls))) Fa [q]) by (apply (becomes_trans _ h1 _ _ []); [exact B1|apply becomes_alloc]).
    split; [exact B2|]. split; [exact (proj2 (proj2 (proj2 B2)))|]. split; [repeat constructor; intros []|]. reflexivity.
  - destruct (List.length la + List.length ls)%nat as [|m] eqn:EN.
    + left. destruct (hfree_array h t la Fa e (mkWorld (w_in w) (w_out w) (w_log w) (S (w_allocs w))) A) as (h1 & E1 & B1). rewrite (hbind_done _ _ _ _ _ _ _ _ _ _ E1).
      destruct la; [|discriminate EN]. destruct ls; [|discriminate EN]. exists h1. eexists. exists None, []. split; [reflexivity|]. split; [left; split; [reflexivity|]; split; reflexivity|].
      split; [exact B1|]. split; [intros x []|]. split; [constructor|]. intro Z. exfalso. change (Z.of_nat 0 * sizeof_pointer) with 0 in E. rewrite (Z (w_allocs w)), andb_true_r in E.
      unfold size_t_bits in E. destruct (lp64 e); discriminate E.
    + right. split; [reflexivity|]. split; [lia|]. exists (w_allocs w). exact E.
Qed.

(** ** Searching *)

Definition searched (types : list Z) (c : chunk) (a : addr) (h : heap) (e : env) (o : outcome ((ptr * nat) * world * heap)) : Prop :=
  match o with
  | Done ((arr, n), _, h') => exists la Fa L, n = List.length la /\ array_at h' arr la Fa /\
      Forall2 (fun p b => Leads h a (map InSub p) b) (positions types c) la /\
      becomes h h' [] (Fa ++ L) /\ NoDup (Fa ++ L) /\ (forall x, In x L -> lookup h' x <> None) /\
      (is_wanted types c = true -> L = []) /\
      (is_wanted types c = false -> (List.length (positions types c) <= List.length L)%nat) /\
      (zero_ok e -> List.length Fa = arrays_returned types c /\ List.length L = arrays_lost types c)
  | Undefined u => u = UB_null_deref /\
      exists k n, (0 < n <= List.length (positions types c))%nat /\ fails e k (Z.of_nat n * sizeof_pointer)
  | OutOfFuel => False
  end.

Fixpoint lost_all (types : list Z) (l : list chunk) : nat :=
  match l with
  | [] => 0
  | x :: r => arrays_returned types x + arrays_lost types x + lost_all types r
  end%nat.

Lemma F2_length : forall A B (R : A -> B -> Prop) l m, Forall2 R l m -> List.length l = List.length m.
Proof. intros A B R l m F. induction F; cbn; congruence. Qed.

Lemma array_len : forall h arr la Fa, array_at h arr la Fa -> la <> [] -> List.length Fa = 1%nat.
Proof. intros h arr la Fa [(_ & -> & _)|(d & _ & _ & ->)] N; [congruence|reflexivity]. Qed.

Lemma all_at : forall types sc l pg la Fl n0 acc lacc Facc h e w, trees_at (tree_at h) l pg la Fl -> NoDup Fl ->
  array_at h acc lacc Facc -> NoDup Facc -> (forall x, In x Facc -> In x Fl -> False) ->
  (forall x b p Fx h e w, In x l -> tree_at h x p b Fx -> NoDup Fx -> searched types x b h e (sc b e w h)) ->
  match hsearch_all sc la acc (List.length lacc) e w h with
  | Done ((arr, n), _, h') => exists lr Fa L, n = List.length (lacc ++ lr) /\ array_at h' arr (lacc ++ lr) Fa /\
      Forall2 (fun p b => exists k q x, p = (n0 + k)%nat :: q /\ nth_error la k = Some x /\ Leads h x (map InSub q) b) (below (positions types) n0 l) lr /\
      becomes h h' Facc (Fa ++ L) /\ NoDup (Fa ++ L) /\ (forall x, In x L -> lookup h' x <> None) /\
      (List.length (below (positions types) n0 l) <= List.length L)%nat /\
      (zero_ok e -> List.length Fa = (match l with [] => List.length Facc | _ => 1%nat end) /\ List.length L = lost_all types l)
  | Undefined u => u = UB_null_deref /\
      exists k n, (0 < n <= List.length lacc + List.length (below (positions types) n0 l))%nat /\ fails e k (Z.of_nat n * sizeof_pointer)
  | OutOfFuel => False
  end.
Proof.
  intros types sc. induction l as [|y l IH]; intros pg la Fl n0 acc lacc Facc h e w T ND A NDA DJ SC; destruct la as [|b la]; cbn [trees_at] in T; try contradiction.
  - cbn [hsearch_all below]. exists [], Facc, []. rewrite !app_nil_r. split; [reflexivity|]. split; [exact A|]. split; [constructor|]. split; [apply becomes_refl|].
    split; [exact NDA|]. split; [intros x []|]. split; [cbn; lia|]. intros _. split; reflexivity.
  - destruct T as (F1 & F2 & T1 & T2 & ->). cbn [hsearch_all]. rewrite hbind_eq.
    pose proof (SC y b pg F1 h e w (or_introl eq_refl) T1 (NoDup_app_l _ _ _ ND)) as R. unfold searched in R. cbn [below]. rewrite app_length, map_length.
    destruct (sc b e w h) as [[[[arr1 n1] w1] h1]|u|]; [|destruct R as (-> & k & n & LE & FK); split; [reflexivity|]; exists k, n; split; [lia|exact FK]|exact R].
    destruct R as (la1 & Fa1 & L1 & -> & A1 & FA1 & B1 & ND1 & LV1 & W1 & W2 & Z1).
    assert (KEEP1 : forall x, lookup h x <> None -> lookup h1 x = lookup h x) by (intros x LV; apply (becomes_kept _ _ _ _ _ B1 LV); intros []).
    assert (NEW1 : forall x, In x (Fa1 ++ L1) -> lookup h x = None) by (intros x I; apply (becomes_new _ _ _ _ _ B1 I); intros []).
    assert (AA : array_at h1 acc lacc Facc) by (apply (array_frame h); [exact A|]; intros x I; apply KEEP1; exact (array_live _ _ _ _ _ A I)).
    assert (LIVE1 : forall x, In x (Fa1 ++ L1) -> lookup h1 x <> None).
    { intros x I. apply in_app_or in I. destruct I as [I|I]; [exact (array_live _ _ _ _ _ A1 I)|exact (LV1 x I)]. }
    rewrite hbind_eq. destruct (merge_at h1 acc lacc Facc arr1 la1 Fa1 e w1 AA A1) as [(h2 & w2 & arr2 & Fa2 & E2 & A2 & B2 & NEW2 & ND2 & Z2)|(E2 & POS & k & FK)].
    { intros x I J. apply (array_live _ _ _ _ _ A I). apply NEW1, in_or_app. left. exact J. }
    2:{ rewrite E2. split; [reflexivity|]. exists k, (List.length lacc + List.length la1)%nat. split; [|exact FK]. rewrite <- (F2_length _ _ _ _ _ FA1) in *. lia. }
    rewrite E2.
    assert (KEEP2 : forall x, In x F2 -> lookup h2 x = lookup h x).
    { intros x I. rewrite (becomes_kept _ _ _ _ _ B2).
      - apply KEEP1. exact (trees_live _ _ _ _ _ _ T2 I).
      - rewrite KEEP1; exact (trees_live _ _ _ _ _ _ T2 I).
      - intro J. apply (DJ x J), in_or_app. right. exact I. }
    assert (LIVE2 : forall x, In x (Fa1 ++ L1) -> lookup h2 x <> None).
    { intros x I. rewrite (becomes_kept _ _ _ _ _ B2 (LIVE1 x I)); [exact (LIVE1 x I)|]. intro J. apply (array_live _ _ _ _ _ A J). exact (NEW1 x I). }
    assert (DJ2 : forall x, In x Fa2 -> In x (Fa1 ++ L1) -> False)
      by (intros x I J; destruct (NEW2 x I) as [Q|Q]; [exact (array_live _ _ _ _ _ A Q (NEW1 x J))|exact (LIVE1 x J Q)]).
    assert (T2' : trees_at (tree_at h2) l pg la F2) by (apply (trees_frame h); [exact T2|exact KEEP2]).
    pose proof (IH pg la F2 (S n0) arr2 (lacc ++ la1) Fa2 h2 e w2 T2' (NoDup_app_r _ _ _ ND) A2 ND2) as R.
    specialize (R ltac:(intros x I J; destruct (NEW2 x I) as [Q|Q]; [apply (DJ x Q), in_or_app; right; exact J|]; apply (trees_live _ _ _ _ _ _ T2 J); rewrite <- KEEP1; [exact Q|exact (trees_live _ _ _ _ _ _ T2 J)])).
    specialize (R (fun x b p Fx h e w I => SC x b p Fx h e w (or_intror I))).
    destruct (hsearch_all sc la arr2 (List.length (lacc ++ la1)) e w2 h2) as [[[[arr3 n3] w3] h3]|u|]; [| |exact R].
    2:{ destruct R as (-> & k & n & LE & FK). split; [reflexivity|]. exists k, n. split; [|exact FK]. rewrite app_length, <- (F2_length _ _ _ _ _ FA1) in LE. lia. }
    destruct R as (lr & Fa3 & L3 & -> & A3 & FA3 & B3 & ND3 & LV3 & LE3 & Z3).
    assert (DJ3 : forall x, In x (Fa3 ++ L3) -> In x (Fa1 ++ L1) -> False).
    { intros x I J. apply (LIVE2 x J). apply (becomes_new _ _ _ _ _ B3 I). intro K. exact (DJ2 x K J). }
    exists (la1 ++ lr), Fa3, ((Fa1 ++ L1) ++ L3). rewrite <- app_assoc in A3. split; [rewrite <- app_assoc; reflexivity|]. split; [exact A3|]. split; [|split; [|split; [|split; [|split]]]].
    + apply Forall2_app.
      * clear -FA1. induction FA1 as [|p x l0 l1 P FA IH]; cbn [map]; constructor; [|exact IH]. exists 0%nat, p, b. rewrite Nat.add_0_r. split; [reflexivity|]. split; [reflexivity|exact P].
      * clear -FA3 T2 KEEP2. induction FA3 as [|p x l0 l1 P FA IH]; constructor; [|exact IH]. destruct P as (k & q & z & -> & N & L). exists (S k), q, z.
        split; [f_equal; lia|]. split; [exact N|]. apply nth_error_In in N. destruct (trees_in _ _ _ _ _ _ T2 N) as (cz & Fz & _ & TZ & INC).
        apply (Leads_frame _ h h2 cz pg z Fz); [exact TZ| |exact L]. intros u U. apply KEEP2, INC, U.
    + assert (BA : becomes h h1 Facc (Facc ++ (Fa1 ++ L1))).
      { apply (becomes_equiv _ _ (Facc ++ []) (Facc ++ Fa1 ++ L1)); [apply becomes_frame; exact B1| |]; intro x; rewrite ?app_nil_r; reflexivity. }
      assert (BB : becomes h1 h2 (Facc ++ (Fa1 ++ L1)) (Fa2 ++ (Fa1 ++ L1))).
      { apply (becomes_equiv _ _ ((Fa1 ++ L1) ++ Facc) ((Fa1 ++ L1) ++ Fa2)); [apply becomes_frame; exact B2| |]; intro x; rewrite !in_app_iff; tauto. }
      assert (BC : becomes h2 h3 (Fa2 ++ (Fa1 ++ L1)) (Fa3 ++ (Fa1 ++ L1) ++ L3)).
      { apply (becomes_equiv _ _ ((Fa1 ++ L1) ++ Fa2) ((Fa1 ++ L1) ++ (Fa3 ++ L3))); [apply becomes_frame; exact B3| |]; intro x; rewrite !in_app_iff; tauto. }
      exact (becomes_trans _ _ _ _ _ _ (becomes_trans _ _ _ _ _ _ BA BB) BC).
    + apply nodup_cnt. intro x. pose proof (proj1 (nodup_cnt _) ND3 x) as N3. pose proof (proj1 (nodup_cnt _) ND1 x) as N1.
      pose proof (DJ3 x) as D. rewrite !in_cnt in D. rewrite !cnt_app in *. lia.
    + intros x I. apply in_app_or in I. destruct I as [I|I]; [|exact (LV3 x I)].
      rewrite (becomes_kept _ _ _ _ _ B3 (LIVE2 x I)); [exact (LIVE2 x I)|]. intro J. exact (DJ2 x J I).
    + rewrite !app_length. assert (List.length (positions types y) <= List.length Fa1 + List.length L1)%nat; [|lia].
      destruct (is_wanted types y) eqn:W; [|specialize (W2 eq_refl); lia].
      assert (PW : positions types y = [[]]).
      { destruct y as [i s d|i s g ly|i s g ps ly|i s v]; cbn [is_wanted] in W; try discriminate W. cbn [positions]. rewrite W. reflexivity. }
      rewrite PW in FA1 |- *. inversion FA1 as [|? x1 ? l1 _ X]; subst. rewrite (array_len _ _ _ _ A1) by discriminate. cbn. lia.
    + intro Z. destruct (Z1 Z) as [X1 X2]. destruct (Z3 Z) as [X3 X4]. specialize (Z2 Z). split; [destruct l; congruence|]. rewrite !app_length. cbn [lost_all]. lia.
Qed.

Lemma lost_below : forall types c, is_wanted types c = false -> arrays_lost types c = lost_all types (searched_members c).
Proof.
  intros types c W. assert (X : forall l, (fix all (l : list chunk) : nat := match l with [] => 0 | x :: r => arrays_returned types x + arrays_lost types x + all r end)%nat l = lost_all types l).
  { induction l as [|y l IH]; [reflexivity|]. cbn [lost_all]. rewrite <- IH. reflexivity. }
  destruct c as [i s d|i s g l|i s g ps l|i s v]; cbn [arrays_lost searched_members]; rewrite W; try reflexivity; [|apply X].
  destruct (i =? IFF_ID_PROP); [reflexivity|apply X].
Qed.

Lemma positions_below : forall types c, is_wanted types c = false -> positions types c = below (positions types) 0 (searched_members c).
Proof.
  intros types c W. destruct c as [i s d|i s g l|i s g ps l|i s v]; cbn [positions searched_members is_wanted] in *; try reflexivity.
  rewrite W. destruct (i =? IFF_ID_PROP); reflexivity.
Qed.

(** A group that is searched and not wanted itself *)
Lemma group_at : forall types sc c p a F h e w, tree_at h c p a F -> NoDup F -> as_group c <> None ->
  is_wanted types c = false -> searched_members c = group_members c ->
  (forall x b p Fx h e w, In x (searched_members c) -> tree_at h x p b Fx -> NoDup Fx -> searched types x b h e (sc b e w h)) ->
  searched types c a h e (hsearchFormsInGroup sc a e w h).
Proof.
  intros types sc c p a F h e w T ND AG W SM SC. unfold hsearchFormsInGroup.
  assert (X : exists hd b arr la Fa Fl, lookup h a = Some (OChunk hd b) /\
     (match b with BGroup _ n arr | BList _ n arr _ _ => l <-h helements arr n ;; hsearch_all sc l None 0 | _ => hundefined UB_type_confusion end) = (l <-h helements arr (List.length la) ;; hsearch_all sc l None 0) /\
     array_at h arr la Fa /\ trees_at (tree_at h) (searched_members c) (Some a) la Fl /\ NoDup Fl /\ forall n b, nth_error la n = Some b -> child_is h a (InSub n) b).
  { rewrite SM. destruct c as [i s d|i s t l|i s t ps l|i s v]; try (cbn in AG; congruence); cbn [tree_at group_members] in *.
    - destruct T as (arr & la & Fa & Fl & L & A & TT & EF). eexists. eexists. exists arr, la, Fa, Fl. split; [exact L|]. split; [reflexivity|]. split; [exact A|]. split; [exact TT|].
      split; [rewrite EF in ND; inversion ND; eapply NoDup_app_r; eassumption|]. intros n b N. eexists. eexists. split; [exact L|]. exact (array_element _ _ _ _ _ _ A N).
    - destruct T as (arr & la & Fa & Fl & parr & pa & Fb & Fp & L & A & TT & PA & TP & EF). eexists. eexists. exists arr, la, Fa, Fl. split; [exact L|]. split; [reflexivity|]. split; [exact A|]. split; [exact TT|].
      split; [rewrite EF in ND; inversion ND; eapply NoDup_app_r; eapply NoDup_app_l; eassumption|].
      intros n b N. eexists. eexists. split; [exact L|]. exact (array_element _ _ _ _ _ _ A N). }
  destruct X as (hd & b & arr & la & Fa & Fl & L & EQ & A & TT & NDL & CH). rewrite (hbind_done _ _ _ _ _ _ _ _ _ _ (hchunk_at _ _ _ _ _ _ L)). rewrite EQ.
  rewrite (hbind_done _ _ _ _ _ _ _ _ _ _ (helements_at _ _ _ _ _ _ A)).
  pose proof (all_at types sc (searched_members c) (Some a) la Fl 0 None [] [] h e w TT NDL) as R.
  specialize (R (or_introl (conj eq_refl (conj eq_refl eq_refl))) (NoDup_nil _) (fun x I => False_ind _ I) SC). cbn [List.length app] in R.
  unfold searched. rewrite (positions_below types c W), (lost_below types c W). unfold arrays_returned. rewrite W.
  destruct (hsearch_all sc la None 0 e w h) as [[[[arr3 n3] w3] h3]|u|]; [|exact R|exact R].
  destruct R as (lr & Fa3 & L3 & -> & A3 & FA3 & B3 & ND3 & LV3 & LE3 & Z3). exists lr, Fa3, L3. split; [reflexivity|]. split; [exact A3|]. split.
  - clear -FA3 CH. induction FA3 as [|q x l0 l1 P FA IH]; constructor; [|exact IH]. destruct P as (k & r & z & -> & N & LD). cbn [map Nat.add]. econstructor; [exact (CH _ _ N)|exact LD].
  - split; [exact B3|]. split; [exact ND3|]. split; [exact LV3|]. split; [discriminate|]. split; [intros _; exact LE3|]. intro Z. destruct (Z3 Z) as [X1 X2]. split; [|exact X2].
    rewrite X1. destruct (searched_members c); reflexivity.
Qed.

Lemma nothing_at : forall types c a h e w, positions types c = [] -> is_wanted types c = false -> searched_members c = [] ->
  searched types c a h e (hret (None, 0%nat) e w h).
Proof.
  intros types c a h e w P W SM. unfold searched, hret. exists [], [], []. rewrite P. split; [reflexivity|]. split; [left; split; [reflexivity|split; reflexivity]|].
  split; [constructor|]. split; [apply becomes_refl|]. split; [constructor|]. split; [intros x []|]. split; [reflexivity|]. split; [intros _; cbn; lia|].
  intros _. rewrite (lost_below types c W), SM. unfold arrays_returned. rewrite W, SM. split; reflexivity.
Qed.

Theorem search_at : forall ap types c ft p a F h e w fuel, Typed ap ft c -> tree_at h c p a F -> NoDup F -> (height c <= fuel)%nat ->
  searched types c a h e (hsearchFormsFromArray fuel types a e w h).
Proof.
  intros ap types c. induction c as [i s d|i s g subs IH|i s g props subs IHp IHs|i s vals] using chunk_tree_ind; intros ft p a F h e w fuel TY T ND HF;
    (destruct fuel as [|fuel]; [cbn [height] in HF; lia|]); cbn [hsearchFormsFromArray]; destruct (tree_header _ _ _ _ _ T) as (b & L);
    rewrite (hbind_done _ _ _ _ _ _ _ _ _ _ (hchunk_at _ _ _ _ _ _ L)); cbn [o_id chunkId].
  - inversion TY; subst. match goal with X : ~ In i group_ids |- _ => rename X into NG end.
    assert (i <> IFF_ID_FORM /\ i <> IFF_ID_CAT /\ i <> IFF_ID_LIST) as (N1 & N2 & N3) by (unfold group_ids in NG; simpl in NG; repeat split; intro; apply NG; subst; auto).
    rewrite !(proj2 (Z.eqb_neq _ _)) by assumption. apply nothing_at; reflexivity.
  - assert (II : In i [FORM_ID; CAT_ID; PROP_ID] /\ forall c, In c subs -> Typed ap g c) by (inversion TY; subst; split; assumption). destruct II as [II TS].
    assert (SUB : forall x b p Fx h e w, In x subs -> tree_at h x p b Fx -> NoDup Fx -> searched types x b h e (hsearchFormsFromArray fuel types b e w h)).
    { intros x b0 p0 Fx h0 e0 w0 I TX NX. apply (IH x I g p0 b0 Fx); [exact (TS x I)|exact TX|exact NX|]. cbn [height] in HF. pose proof (height_member _ _ I). lia. }
    destruct II as [<-|[<-|[<-|[]]]].
    + change (FORM_ID =? IFF_ID_FORM) with true. cbn iota. unfold hsearchFormsInForm. rewrite (hbind_done _ _ _ _ _ _ _ _ _ _ (hchunk_at _ _ _ _ _ _ L)).
      rewrite (tree_type_of _ _ _ _ _ _ _ T L). cbn [as_group]. destruct (existsb (fun formType => g =? formType) types) eqn:X.
      * assert (W : is_wanted types (CGroup FORM_ID s g subs) = true) by (cbn [is_wanted]; rewrite X; reflexivity).
        assert (P : positions types (CGroup FORM_ID s g subs) = [[]]) by (cbn [positions]; rewrite X; reflexivity).
        rewrite hbind_eq. unfold hmalloc. rewrite hbind_io. unfold malloc. destruct ((_ <? _) && malloc_ok e (w_allocs w) _) eqn:E.
        -- unfold searched, hret. eexists [a], [_], []. rewrite P. split; [reflexivity|]. split; [right; eexists; split; [reflexivity|]; split; [rewrite lookup_new, Nat.eqb_refl; reflexivity|reflexivity]|].
           split; [constructor; [constructor|constructor]|]. cbn [List.app]. split; [apply becomes_alloc|]. split; [repeat constructor; intros []|]. split; [intros x []|].
           split; [reflexivity|]. split; [rewrite W; discriminate|]. intros _. unfold arrays_returned. rewrite W. split; [reflexivity|]. cbn [arrays_lost]. rewrite W. reflexivity.
        -- unfold searched, hret. cbn beta iota. rewrite P. split; [reflexivity|]. exists (w_allocs w), 1%nat. split; [cbn; lia|exact E].
      * apply (group_at types _ _ p a F); [exact T|exact ND|discriminate| |reflexivity|exact SUB]. cbn [is_wanted]. rewrite X, andb_false_r. reflexivity.
    + change (CAT_ID =? IFF_ID_FORM) with false. change (CAT_ID =? IFF_ID_CAT) with true. cbn iota.
      apply (group_at types _ _ p a F); [exact T|exact ND|discriminate|reflexivity|reflexivity|exact SUB].
    + change (PROP_ID =? IFF_ID_FORM) with false. change (PROP_ID =? IFF_ID_CAT) with false. change (PROP_ID =? IFF_ID_LIST) with false. cbn iota.
      apply nothing_at; reflexivity.
  - assert (II : i = LIST_ID /\ forall c, In c subs -> Typed ap g c) by (inversion TY; subst; split; [reflexivity|assumption]). destruct II as [-> TS].
    change (LIST_ID =? IFF_ID_FORM) with false. change (LIST_ID =? IFF_ID_CAT) with false. change (LIST_ID =? IFF_ID_LIST) with true. cbn iota.
    apply (group_at types _ _ p a F); [exact T|exact ND|discriminate|reflexivity|reflexivity|].
    intros x b0 p0 Fx h0 e0 w0 I TX NX. apply (IHs x I g p0 b0 Fx); [exact (TS x I)|exact TX|exact NX|]. cbn [height] in HF. cbn [searched_members] in I. pose proof (height_member _ _ I). lia.
  - inversion TY; subst. match goal with X : ~ In i group_ids |- _ => rename X into NG end.
    assert (i <> IFF_ID_FORM /\ i <> IFF_ID_CAT /\ i <> IFF_ID_LIST) as (N1 & N2 & N3) by (unfold group_ids in NG; simpl in NG; repeat split; intro; apply NG; subst; auto).
    rewrite !(proj2 (Z.eqb_neq _ _)) by assumption. apply nothing_at; reflexivity.
Qed.
