(** * Properties C39-C43: size bookkeeping and CAT contents types *)

From Coq Require Import ZArith List Bool String Lia.
From Coq Require Import Strings.Byte.
From Verif Require Import Machine Io Types Build Spec Lemmas WriteProofs Examples CheckProofs ConfProofs BuiltProofs UpdateProofs PropRead PropCheck.
Import ListNotations.
Open Scope Z_scope.

(** ** C39.  Whatever was changed below the chunk at [p]: if all sizes off the
    path from the root to it are right, IFF_updateChunkSizes makes all sizes
    right and changes nothing else. *)
Theorem C39_path_repaired : forall app ft tree p x, Typed app ft tree -> LeafSizes tree -> encoded_size tree <= INT_MAX ->
  at_path tree p = Some x ->
  (forall q y, at_path tree q = Some y -> declares y \/ exists r, p = q ++ r) ->
  exists tree', IFF_updateChunkSizes tree p = Done (Some tree') /\ Sized tree' /\ unsized tree' = unsized tree.
Proof.
  intros app ft tree p x T L B A O. destruct (update_repairs app p tree ft x T L B A O) as (t & E & S & U & _). eauto.
Qed.
Print Assumptions C39_path_repaired.

Lemma at_replaced : forall P c x q y, at_path (replace_at c P x) q = Some y ->
  (exists r, q = P ++ r /\ at_path x r = Some y) \/ (exists r, r <> [] /\ P = q ++ r) \/ at_path c q = Some y.
Proof.
  induction P as [|s P IH]; intros c x q y H; cbn [replace_at] in H.
  - left. exists q. auto.
  - destruct (get_child c s) as [z|] eqn:G; [|auto]. destruct q as [|t q].
    + right. left. exists (s :: P). split; [discriminate|reflexivity].
    + cbn [at_path] in H. assert (DEC : t = s \/ t <> s) by (destruct t as [a|a], s as [b|b]; try (right; congruence);
        destruct (Nat.eq_dec a b); [left|right|left|right]; congruence).
      destruct DEC as [->|N].
      * rewrite (get_set_child _ _ _ _ G) in H. apply IH in H. destruct H as [(r & -> & H)|[(r & N & ->)|H]].
        -- left. exists r. auto.
        -- right. left. exists r. auto.
        -- right. right. cbn [at_path]. rewrite G. exact H.
      * rewrite (get_set_other _ _ _ _ N) in H. right. right. exact H.
Qed.
Lemma at_path_prefix : forall p q c x, at_path c (p ++ q) = Some x -> exists y, at_path c p = Some y.
Proof.
  induction p as [|s p IH]; intros q c x H; [exists c; reflexivity|]. cbn [Datatypes.app at_path] in *.
  destruct (get_child c s); [eauto|discriminate].
Qed.
Lemma at_replaced_here : forall P c x y, at_path c P = Some y -> at_path (replace_at c P x) P = Some x.
Proof.
  induction P as [|s P IH]; intros c x y H; [reflexivity|]. cbn [at_path replace_at] in *.
  destruct (get_child c s) as [z|] eqn:G; [|discriminate]. rewrite (get_set_child _ _ _ _ G). eauto.
Qed.

(** Replacing the chunk at [p ++ [s]] by another one and updating its parent. *)
Theorem C39_replacement : forall app ft root p s old new, Sized root -> at_path root (p ++ [s]) = Some old -> Sized new ->
  Typed app ft (replace_at root (p ++ [s]) new) -> LeafSizes (replace_at root (p ++ [s]) new) ->
  encoded_size (replace_at root (p ++ [s]) new) <= INT_MAX ->
  exists tree', IFF_updateChunkSizes (replace_at root (p ++ [s]) new) p = Done (Some tree') /\
    Sized tree' /\ unsized tree' = unsized (replace_at root (p ++ [s]) new).
Proof.
  intros app ft root p s old new S A SN T L B.
  destruct (at_path_prefix p [s] _ _ (at_replaced_here _ _ new _ A)) as [x X].
  apply (C39_path_repaired app ft _ p x T L B X).
  intros q y Q. apply at_replaced in Q. destruct Q as [(r & -> & Q)|[(r & N & E)|Q]].
  - left. apply SN. apply InTree_at_path. eauto.
  - right. destruct (exists_last N) as (r' & z & ->). rewrite app_assoc in E. apply app_inj_tail in E. destruct E as [-> _]. eauto.
  - left. apply S. apply InTree_at_path. eauto.
Qed.
Print Assumptions C39_replacement.

Definition new_chunk : chunk := group "FORM" "TEST" [raw "BODY" "0123456789"; raw "ODD " "abc"].
Example C39_example :
  let root := listc "TEST" [group "PROP" "TEST" [raw "XY  " "2"]] [group "FORM" "TEST" [group "FORM" "TEST" []]] in
  let tree := replace_at root [InSub 0; InSub 0] new_chunk in
  at_path root ([InSub 0] ++ [InSub 0]) = Some (group "FORM" "TEST" []) /\
  IFF_updateChunkSizes tree [InSub 0] =
    Done (Some (listc "TEST" [group "PROP" "TEST" [raw "XY  " "2"]] [group "FORM" "TEST" [new_chunk]])) /\
  chunkSize tree = 50 /\ chunkSize (listc "TEST" [group "PROP" "TEST" [raw "XY  " "2"]] [group "FORM" "TEST" [new_chunk]]) = 80.
Proof. cbv zeta. repeat split; vm_compute; reflexivity. Qed.

(** ** C40. *)
Theorem C40_right_sizes_kept : forall app ft tree p x, Typed app ft tree -> LeafSizes tree -> encoded_size tree <= INT_MAX ->
  Sized tree -> at_path tree p = Some x -> IFF_updateChunkSizes tree p = Done (Some tree).
Proof.
  intros app ft tree p x T L B S A. destruct (C39_path_repaired app ft tree p x T L B A) as (t & E & S' & U).
  - intros q y Q. left. apply S. apply InTree_at_path. eauto.
  - rewrite E. do 2 f_equal. apply Sized_unique; assumption.
Qed.
Print Assumptions C40_right_sizes_kept.

(** In particular trees that pass IFF_check are left alone. *)
Theorem C40_valid_trees_kept : forall app ft tree p x, Typed app ft tree -> LeafSizes tree -> encoded_size tree <= INT_MAX ->
  Conforms app ft tree -> at_path tree p = Some x -> IFF_updateChunkSizes tree p = Done (Some tree).
Proof. intros. eapply C40_right_sizes_kept; eauto using Conforms_Sized. Qed.
Print Assumptions C40_valid_trees_kept.

Lemma update_own_kind : forall c c', update_own_size c = Done c' -> exists s, c' = set_chunkSize c s /\ update_own_size c' = Done c'.
Proof.
  intros c c' H.
  assert (GROUP : forall d, IFF_updateGroupChunkSizes c = Done d -> exists s, d = set_chunkSize c s /\ IFF_updateGroupChunkSizes d = Done d).
  { intros d E. unfold IFF_updateGroupChunkSizes in *. destruct (as_group c) as [[g l]|] eqn:A; [|discriminate].
    destruct (sum_sizes IFF_ID_SIZE l) as [s| |] eqn:SS; cbn [obind] in E; try discriminate. injection E as <-. exists s. split; [reflexivity|].
    assert (A2 : as_group (set_chunkSize c s) = Some (g, l)) by (destruct c; exact A). rewrite A2, SS. cbn [obind].
    destruct c; reflexivity. }
  assert (ID : forall s, chunkId (set_chunkSize c s) = chunkId c) by (intro s; destruct c; reflexivity).
  unfold update_own_size in *. destruct ((chunkId c =? IFF_ID_FORM) || (chunkId c =? IFF_ID_PROP) || (chunkId c =? IFF_ID_CAT)) eqn:B.
  - destruct (GROUP _ H) as (s & -> & E). exists s. split; [reflexivity|]. rewrite ID, B. exact E.
  - destruct (chunkId c =? IFF_ID_LIST) eqn:LI.
    + unfold IFF_updateListChunkSizes in *. destruct (IFF_updateGroupChunkSizes c) as [d| |] eqn:U; cbn [obind] in H; try discriminate.
      destruct (GROUP d eq_refl) as (s & -> & E). destruct c as [i z y|i z g l|i z g pp l|i z v]; cbn [set_chunkSize] in H; try discriminate.
      destruct (sum_sizes s pp) as [s'| |] eqn:SP; cbn [obind] in H; try discriminate. injection H as <-. exists s'. split; [reflexivity|].
      cbn [chunkId] in *. rewrite B, LI. unfold IFF_updateGroupChunkSizes in *. cbn [as_group] in *.
      destruct (sum_sizes IFF_ID_SIZE l) as [t| |] eqn:SL; cbn [obind set_chunkSize] in *; try discriminate.
      injection U as ->. rewrite SP. reflexivity.
    + injection H as <-. exists (chunkSize c). split; [destruct c; reflexivity|]. rewrite B, LI. reflexivity.
Qed.
(** Updating twice is updating once, for all trees. *)
Theorem C40_idempotent : forall p tree tree', IFF_updateChunkSizes tree p = Done (Some tree') ->
  IFF_updateChunkSizes tree' p = Done (Some tree').
Proof.
  induction p as [|s p IH]; intros c c' H; cbn [IFF_updateChunkSizes] in *.
  - destruct (update_own_size c) as [d| |] eqn:U; cbn [obind] in H; try discriminate. injection H as <-.
    destruct (update_own_kind _ _ U) as (z & _ & E). rewrite E. reflexivity.
  - destruct (get_child c s) as [y|] eqn:G; [|discriminate].
    destruct (IFF_updateChunkSizes y p) as [[y'|]| |] eqn:UY; cbn [obind] in H; try discriminate.
    destruct (update_own_size (set_child c s y')) as [d| |] eqn:U; cbn [obind] in H; try discriminate. injection H as <-.
    destruct (update_own_kind _ _ U) as (z & -> & E).
    assert (G2 : get_child (set_chunkSize (set_child c s y') z) s = Some y').
    { pose proof (get_set_child _ _ y' _ G) as X. destruct (set_child c s y'), s; exact X. }
    rewrite G2, (IH _ _ UY). cbn [obind]. rewrite (set_same_child _ _ _ G2), E. reflexivity.
Qed.
Print Assumptions C40_idempotent.

Example C40_example : at_path ex_list [InSub 0] <> None /\ IFF_updateChunkSizes ex_list [InSub 0] = Done (Some ex_list) /\
  IFF_updateChunkSizes (set_chunkSize ex_list 0) [] = Done (Some ex_list).
Proof. repeat split; vm_compute; congruence. Qed.

(** ** C41.  Adding a chunk. *)
Theorem C41_addToGroup : forall group g subs c e w group' w', as_group group = Some (g, subs) ->
  0 <= chunkSize group -> 0 <= chunkSize c -> chunkSize group + physical (chunkSize c) <= INT_MAX ->
  IFF_addToGroup group c e w = Done (group', w') ->
  as_group group' = Some (g, subs ++ [c]) /\ chunkId group' = chunkId group /\
  chunkSize group' = chunkSize group + physical (chunkSize c) /\
  (declares group -> declares group') /\
  (match group, group' with CList _ _ _ p _, CList _ _ _ p' _ => p' = p | CGroup _ _ _ _, CGroup _ _ _ _ => True | _, _ => False end).
Proof.
  intros f g subs c e w f' w' A P1 P2 B H. apply addToGroup_inv in H. destruct H as (g2 & l & s & A2 & I & ->).
  rewrite A in A2. injection A2 as <- <-. pose proof (physical_range (chunkSize c)).
  rewrite increment_ok in I by (unfold INT_MIN; lia). injection I as <-.
  destruct f as [i z d|i z h l|i z h pp l|i z v]; cbn in A; try discriminate; injection A as -> ->;
    cbn [set_subs set_chunkSize as_group chunkId chunkSize declares]; rewrite body_snoc; repeat split; try lia.
Qed.
Print Assumptions C41_addToGroup.

Theorem C41_addPropToList : forall i s g props subs c e w list' w',
  0 <= s -> 0 <= chunkSize c -> s + physical (chunkSize c) <= INT_MAX ->
  IFF_addPropToList (CList i s g props subs) c e w = Done (list', w') ->
  list' = CList i (s + physical (chunkSize c)) g (props ++ [c]) subs /\
  (declares (CList i s g props subs) -> declares list').
Proof.
  intros i s g props subs c e w f' w' P1 P2 B H. apply addPropToList_inv in H.
  destruct H as (i2 & z & h & pp & l & s2 & E & I & ->). injection E as <- <- <- <- <-. pose proof (physical_range (chunkSize c)).
  rewrite increment_ok in I by (unfold INT_MIN; lia). injection I as <-. split; [reflexivity|]. cbn [declares]. rewrite body_snoc. lia.
Qed.
Print Assumptions C41_addPropToList.

(** They do succeed, as long as memory lasts. *)
Theorem C41_succeeds : forall app ft ft' group g subs c e w, usual e -> Conforms app ft group -> Conforms app ft' c ->
  LeafSizes group -> LeafSizes c -> as_group group = Some (g, subs) -> encoded_size group + encoded_size c <= INT_MAX ->
  exists group' w', IFF_addToGroup group c e w = Done (group', w') /\ as_group group' = Some (g, subs ++ [c]).
Proof.
  intros app ft ft' f g subs c e w U CF CC LF LC A B.
  destruct (addToGroup_succeeds app ft ft' f g subs c e w U CF CC LF LC A B) as (w' & E & _). eexists _, w'. split; [exact E|].
  destruct f; cbn in *; try discriminate; injection A as <- <-; reflexivity.
Qed.
Print Assumptions C41_succeeds.

Example C41_example :
  runs (IFF_addToGroup (group "FORM" "TEST" [raw "A   " "x"]) (raw "B   " "yz")) = Done (group "FORM" "TEST" [raw "A   " "x"; raw "B   " "yz"]) /\
  runs (IFF_addPropToList (listc "TEST" [] [ex_form]) (group "PROP" "TEST" [])) = Done (listc "TEST" [group "PROP" "TEST" []] [ex_form]).
Proof. split; vm_compute; reflexivity. Qed.

(** ** C42.  Where the size arithmetic ends. *)
Theorem C42_exact_iff_fits : forall group g subs c e w group' w', as_group group = Some (g, subs) ->
  4 <= chunkSize group <= INT_MAX -> 0 <= chunkSize c <= INT_MAX ->
  IFF_addToGroup group c e w = Done (group', w') ->
  if chunkSize group + physical (chunkSize c) <=? INT_MAX
  then chunkSize group' = chunkSize group + physical (chunkSize c)
  else chunkSize group' < 4.
Proof.
  intros f g subs c e w f' w' A P1 P2 H. destruct (Z.leb_spec (chunkSize f + physical (chunkSize c)) INT_MAX) as [F|F].
  - eapply C41_addToGroup; try eassumption; lia.
  - apply addToGroup_inv in H. destruct H as (g2 & l & s & _ & I & ->).
    assert (E : chunkSize (set_chunkSize (set_subs f (l ++ [c])) s) = s) by (destruct f; try discriminate; reflexivity). rewrite E. clear E.
    unfold IFF_incrementChunkSize, IFF_ID_SIZE in I. unfold physical, round_even in F. rewrite c_odd_odd in I.
    pose proof (mod2_odd (chunkSize c)) as O.
    destruct (Z.ltb_spec INT_MAX (chunkSize f + 4)); [discriminate|].
    assert (W : wrap_s 32 (chunkSize f + 4 + 4 + chunkSize c) = chunkSize f + 8 + chunkSize c /\
        chunkSize f + 8 + chunkSize c <= INT_MAX \/ wrap_s 32 (chunkSize f + 4 + 4 + chunkSize c) < 3).
    { unfold INT_MAX in *. destruct (Z.le_gt_cases (chunkSize f + 8 + chunkSize c) 2147483647).
      - left. rewrite wrap_s_id by (simpl Z.sub; lia). lia.
      - right. unfold wrap_s. replace (chunkSize f + 4 + 4 + chunkSize c) with (chunkSize f + 8 + chunkSize c) by lia.
        set (v := chunkSize f + 8 + chunkSize c) in *.
        change (2 ^ 32) with 4294967296. change (2 ^ (32 - 1)) with 2147483648.
        rewrite <- (Z.mod_unique (v + 2147483648) 4294967296 1 (v - 2147483648)); lia. }
    destruct (Z.odd (chunkSize c)).
    + destruct (Z.eqb_spec (wrap_s 32 (chunkSize f + 4 + 4 + chunkSize c)) INT_MAX); [discriminate|]. injection I as <-. lia.
    + injection I as <-. lia.
Qed.
Print Assumptions C42_exact_iff_fits.

Lemma add_computed : forall f g subs c e w, usual e -> as_group f = Some (g, subs) -> (zlength subs + 1) * 8 < 2 ^ 31 ->
  exists w', IFF_addToGroup f c e w =
    match IFF_incrementChunkSize (chunkSize f) c with
    | Done s => Done (set_chunkSize (set_subs f (subs ++ [c])) s, w')
    | Undefined u => Undefined u
    | OutOfFuel => OutOfFuel
    end.
Proof.
  intros f g subs c e w U A N. unfold IFF_addToGroup, IFF_attachToGroup. rewrite A. unfold bind, malloc. rewrite (memory _ U).
  replace ((zlength subs + 1) * sizeof_pointer <? 2 ^ (size_t_bits e - 1)) with true.
  2:{ symmetry. apply Z.ltb_lt. unfold sizeof_pointer, size_t_bits. change (2 ^ 31) with 2147483648 in N.
      destruct (lp64 e); [|]; change (2 ^ (64 - 1)) with 9223372036854775808; change (2 ^ (32 - 1)) with 2147483648; lia. }
  cbn [andb]. unfold ret, lift. replace (chunkSize (set_subs f (subs ++ [c]))) with (chunkSize f) by (destruct f; reflexivity).
  eexists. destruct (IFF_incrementChunkSize (chunkSize f) c); reflexivity.
Qed.

(** Two chunks of 2^30 bytes: the FORM declares a negative size. *)
Definition gigabyte : chunk := CRaw (ID_of "BODY") (2 ^ 30) None.
Theorem C42_overflow_refuted : forall e w, usual e -> exists f1 w1 f2 w2,
  IFF_addToGroup (group "FORM" "TEST" []) gigabyte e w = Done (f1, w1) /\ IFF_addToGroup f1 gigabyte e w1 = Done (f2, w2) /\
  chunkSize f1 = 4 + physical (2 ^ 30) /\ chunkSize f2 = -2147483628.
Proof.
  intros e w U. destruct (add_computed (group "FORM" "TEST" []) (ID_of "TEST") [] gigabyte e w U eq_refl eq_refl) as [w1 E1].
  destruct (add_computed (CGroup FORM_ID (4 + physical (2 ^ 30)) (ID_of "TEST") [gigabyte]) (ID_of "TEST") [gigabyte] gigabyte e w1 U eq_refl eq_refl) as [w2 E2].
  exists (CGroup FORM_ID (4 + physical (2 ^ 30)) (ID_of "TEST") [gigabyte]), w1, (CGroup FORM_ID (-2147483628) (ID_of "TEST") [gigabyte; gigabyte]), w2.
  replace (IFF_incrementChunkSize (chunkSize (group "FORM" "TEST" [])) gigabyte) with (Done (4 + physical (2 ^ 30))) in E1 by (vm_compute; reflexivity).
  replace (IFF_incrementChunkSize (chunkSize (CGroup FORM_ID (4 + physical (2 ^ 30)) (ID_of "TEST") [gigabyte])) gigabyte) with (Done (-2147483628)) in E2
    by (vm_compute; reflexivity).
  split; [exact E1|]. split; [exact E2|]. split; reflexivity.
Qed.
Print Assumptions C42_overflow_refuted.

(** One more chunk on a FORM of almost 2 GiB: signed overflow. *)
Theorem C42_undefined_refuted : forall e w, usual e ->
  IFF_addToGroup (CGroup FORM_ID (2 ^ 31 - 2) (ID_of "TEST") []) (raw "BODY" "x") e w = Undefined UB_signed_overflow.
Proof.
  intros e w U. destruct (add_computed (CGroup FORM_ID (2 ^ 31 - 2) (ID_of "TEST") []) (ID_of "TEST") [] (raw "BODY" "x") e w U eq_refl eq_refl) as [w1 E1].
  rewrite E1.
  replace (IFF_incrementChunkSize (chunkSize (CGroup FORM_ID (2 ^ 31 - 2) (ID_of "TEST") [])) (raw "BODY" "x")) with (@Undefined Z UB_signed_overflow)
    by (vm_compute; reflexivity).
  reflexivity.
Qed.
Print Assumptions C42_undefined_refuted.

(** ** C43.  CAT contents types *)
Fixpoint add_all (cat : chunk) (l : list chunk) : M chunk :=
  match l with
  | [] => ret cat
  | c :: r => cat' <- IFF_addToCATAndUpdateContentsType cat c ;; add_all cat' r
  end.

(** The type of the members: their common type, JJJJ when they differ. *)
Definition common_type (l : list chunk) (g : Z) : Prop :=
  (forall c, In c l -> group_type_of c = Some g) \/
  g = JJJJ_ID /\ exists c1 c2, In c1 l /\ In c2 l /\ group_type_of c1 <> group_type_of c2.

Lemma addUpdate_type : forall f c e w f' w' g subs gc, In (chunkId c) [FORM_ID; CAT_ID; LIST_ID] ->
  as_group f = Some (g, subs) -> group_type_of c = Some gc ->
  IFF_addToCATAndUpdateContentsType f c e w = Done (f', w') ->
  as_group f' = Some (match subs with [] => gc | _ => if negb (g =? JJJJ_ID) && negb (g =? gc) then JJJJ_ID else g end, subs ++ [c]).
Proof.
  intros f c e w f' w' g subs gc V A GC H.
  assert (AC : exists lc, as_group c = Some (gc, lc)) by (apply group_type_as; exact GC). destruct AC as [lc AC].
  unfold IFF_addToCATAndUpdateContentsType, bind, lift, updateContentsType in H.
  rewrite (proj2 (valid_cat_id _) V), A, AC in H. change IFF_ID_JJJJ with JJJJ_ID in H.
  assert (SG : forall h, as_group (set_groupType f h) = Some (h, subs)) by (intro h; destruct f; cbn in *; try discriminate; injection A as <- <-; reflexivity).
  assert (K : forall h d, as_group d = Some (h, subs) -> IFF_addToGroup d c e w = Done (f', w') -> as_group f' = Some (h, subs ++ [c])).
  { intros h d D X. apply addToGroup_inv in X. destruct X as (g2 & l2 & s & E1 & _ & ->). rewrite D in E1. injection E1 as <- <-.
    destruct d; cbn in *; try discriminate; injection D as <- <-; reflexivity. }
  destruct subs as [|a r].
  - eapply K; [|exact H]. apply SG.
  - replace (zlength (a :: r) =? 0) with false in H by (symmetry; apply Z.eqb_neq; unfold zlength; cbn; lia).
    destruct (negb (g =? JJJJ_ID) && negb (g =? gc)); (eapply K; [|exact H]); [apply SG|exact A].
Qed.

Theorem C43_contents_type : forall l cat g0 e w cat' w', as_group cat = Some (g0, []) -> l <> [] ->
  (forall c, In c l -> In (chunkId c) [FORM_ID; CAT_ID; LIST_ID] /\ exists g, group_type_of c = Some g) ->
  add_all cat l e w = Done (cat', w') ->
  exists g, as_group cat' = Some (g, l) /\ common_type l g.
Proof.
  assert (STEP : forall l cat g subs e w cat' w', as_group cat = Some (g, subs) -> subs <> [] -> common_type subs g ->
    (forall c, In c l -> In (chunkId c) [FORM_ID; CAT_ID; LIST_ID] /\ exists g, group_type_of c = Some g) ->
    (forall c, In c subs -> exists g, group_type_of c = Some g) ->
    add_all cat l e w = Done (cat', w') -> exists g', as_group cat' = Some (g', subs ++ l) /\ common_type (subs ++ l) g').
  { induction l as [|c l IH]; intros cat g subs e w cat' w' A N CT H HS R; cbn [add_all] in R.
    - injection R as <- <-. exists g. rewrite app_nil_r. auto.
    - unfold bind in R. destruct (IFF_addToCATAndUpdateContentsType cat c e w) as [[cat1 w1]| |] eqn:U; try discriminate.
      destruct (H c (or_introl eq_refl)) as [V [gc GC]]. pose proof (addUpdate_type _ _ _ _ _ _ _ _ _ V A GC U) as A1.
      replace (subs ++ c :: l) with ((subs ++ [c]) ++ l) by (rewrite <- app_assoc; reflexivity).
      eapply IH; [exact A1| | |intros; apply H; right; assumption| |exact R].
      + destruct subs; discriminate.
      + destruct subs as [|a r]; [congruence|]. set (subs := a :: r) in *.
        destruct CT as [ALL|[J (c1 & c2 & I1 & I2 & D)]].
        * destruct (Z.eqb_spec g gc) as [->|NG].
          -- rewrite andb_false_r. left. intros x X. apply in_app_or in X. destruct X as [X|[<-|[]]]; auto.
          -- assert (DIF : exists c1 c2, In c1 (subs ++ [c]) /\ In c2 (subs ++ [c]) /\ group_type_of c1 <> group_type_of c2).
             { exists a, c. split; [left; reflexivity|]. split; [apply in_or_app; right; left; reflexivity|].
               rewrite (ALL a (or_introl eq_refl)), GC. congruence. }
             right. split; [|exact DIF]. destruct (Z.eqb_spec g JJJJ_ID); cbn; [assumption|reflexivity].
        * right. split; [|exists c1, c2; repeat split; auto using in_or_app]. rewrite J, Z.eqb_refl. reflexivity.
      + apply in_snoc; [exact HS|]. eauto. }
  intros [|c l] cat g0 e w cat' w' A N H R; [congruence|]. cbn [add_all] in R. unfold bind in R.
  destruct (IFF_addToCATAndUpdateContentsType cat c e w) as [[cat1 w1]| |] eqn:U; try discriminate.
  destruct (H c (or_introl eq_refl)) as [V [gc GC]]. pose proof (addUpdate_type _ _ _ _ _ _ _ _ _ V A GC U) as A1.
  change (c :: l) with ([c] ++ l). eapply STEP; [exact A1|discriminate| |intros; apply H; right; assumption| |exact R].
  - left. intros x [<-|[]]. exact GC.
  - intros x [<-|[]]. eauto.
Qed.
Print Assumptions C43_contents_type.

Example C43_example :
  let f (t : string) := group "FORM" t [] in
  runs (add_all (group "CAT " "JJJJ" []) [f "TEST"%string; group "CAT " "TEST" []; listc "TEST" [] []]) =
    Done (group "CAT " "TEST" [f "TEST"%string; group "CAT " "TEST" []; listc "TEST" [] []]) /\
  runs (add_all (group "CAT " "JJJJ" []) [f "TEST"%string; f "ABCD"%string; f "TEST"%string]) = Done (group "CAT " "JJJJ" [f "TEST"%string; f "ABCD"%string; f "TEST"%string]).
Proof. split; vm_compute; reflexivity. Qed.

(** A data chunk added first keeps the type from being updated later. *)
Theorem C43_data_first_refuted : exists l g, runs (add_all (group "CAT " "JJJJ" []) l) = Done (group "CAT " g l) /\
  ID_of g <> ID_of "TEST" /\ forall c, In c l -> group_type_of c = None \/ group_type_of c = Some (ID_of "TEST").
Proof.
  exists [raw "DATA" "x"; group "FORM" "TEST" []], "JJJJ"%string. split; [vm_compute; reflexivity|]. split; [vm_compute; congruence|].
  intros c [<-|[<-|[]]]; auto.
Qed.
Print Assumptions C43_data_first_refuted.
