(** * IDs: id.c and the form type check of form.c *)

From Coq Require Import ZArith List Bool String Lia.
From Coq Require Import Strings.Byte.
From Verif Require Import Machine Io Types Build Spec Lemmas IoProofs RegProofs.
Import ListNotations.
Open Scope Z_scope.

Definition byte_val (x : Z) : Prop := 0 <= x < 256.

Lemma id4_div : forall a b c d, byte_val a -> byte_val b -> byte_val c -> byte_val d ->
  id4 a b c d / 2 ^ 24 = a /\ (id4 a b c d / 2 ^ 16) mod 256 = b /\
  (id4 a b c d / 2 ^ 8) mod 256 = c /\ id4 a b c d mod 256 = d.
Proof.
  unfold byte_val, id4. intros a b c d A B C D.
  change (2 ^ 24) with 16777216. change (2 ^ 16) with 65536. change (2 ^ 8) with 256.
  repeat split.
  - symmetry. apply Z.div_unique with (r := b * 65536 + c * 256 + d); lia.
  - replace ((a * 16777216 + b * 65536 + c * 256 + d) / 65536) with (a * 256 + b)
      by (apply Z.div_unique with (r := c * 256 + d); lia).
    symmetry. apply Z.mod_unique with (q := a); lia.
  - replace ((a * 16777216 + b * 65536 + c * 256 + d) / 256) with (a * 65536 + b * 256 + c)
      by (apply Z.div_unique with (r := d); lia).
    symmetry. apply Z.mod_unique with (q := a * 256 + b); lia.
  - symmetry. apply Z.mod_unique with (q := a * 65536 + b * 256 + c); lia.
Qed.

Lemma id4_inj : forall a b c d a' b' c' d', byte_val a -> byte_val b -> byte_val c -> byte_val d ->
  byte_val a' -> byte_val b' -> byte_val c' -> byte_val d' ->
  id4 a b c d = id4 a' b' c' d' -> a = a' /\ b = b' /\ c = c' /\ d = d'.
Proof.
  intros a b c d a' b' c' d' A B C D A' B' C' D' E.
  destruct (id4_div a b c d A B C D) as (E1 & E2 & E3 & E4).
  destruct (id4_div a' b' c' d' A' B' C' D') as (F1 & F2 & F3 & F4).
  rewrite E in *. repeat split; congruence.
Qed.

Lemma id4_range : forall a b c d, byte_val a -> byte_val b -> byte_val c -> byte_val d -> in_range FId (id4 a b c d).
Proof. unfold byte_val, id4, in_range. intros. lia. Qed.

Lemma id4_surj : forall i, in_range FId i -> exists a b c d,
  byte_val a /\ byte_val b /\ byte_val c /\ byte_val d /\ i = id4 a b c d.
Proof.
  intros i R. exists (i / 2 ^ 24), ((i / 2 ^ 16) mod 256), ((i / 2 ^ 8) mod 256), (i mod 256).
  unfold in_range, byte_val in *. split; [|split; [|split; [|split]]]; try (apply Z.mod_pos_bound; lia).
  - split; [apply Z.div_pos; lia|apply Z.div_lt_upper_bound; lia].
  - unfold id4. pose proof (bytes4_value i) as H.
    rewrite (Z.mod_small i (2 ^ 32)) in H by lia.
    rewrite (Z.mod_small (i / 2 ^ 24) 256) in H; [symmetry; exact H|].
    split; [apply Z.div_pos; lia|apply Z.div_lt_upper_bound; lia].
Qed.

Lemma land_field : forall i k, 0 <= k -> Z.shiftr (Z.land i (255 * 2 ^ k)) k = (i / 2 ^ k) mod 256.
Proof.
  intros i k K. replace (255 * 2 ^ k) with (Z.shiftl 255 k) by (rewrite Z.shiftl_mul_pow2; lia).
  rewrite Z.shiftr_land, Z.shiftr_shiftl_l, Z.sub_diag, Z.shiftl_0_r by lia.
  rewrite Z.shiftr_div_pow2 by lia. change 255 with (Z.ones 8). rewrite Z.land_ones by lia. reflexivity.
Qed.

Lemma idToString_bytes : forall e a b c d, byte_val a -> byte_val b -> byte_val c -> byte_val d ->
  IFF_idToString e (id4 a b c d) = [to_char e a; to_char e b; to_char e c; to_char e d].
Proof.
  intros e a b c d A B C D. destruct (id4_div a b c d A B C D) as (E1 & E2 & E3 & E4).
  unfold IFF_idToString. rewrite Z.shiftr_div_pow2 by lia. rewrite E1.
  change 0xff0000 with (255 * 2 ^ 16). rewrite land_field, E2 by lia.
  change 0xff00 with (255 * 2 ^ 8). rewrite land_field, E3 by lia.
  change 0xff with (Z.ones 8). rewrite Z.land_ones by lia. change (2 ^ 8) with 256. rewrite E4. reflexivity.
Qed.

Lemma MAKEID_id4 : forall a b c d, byte_val a -> byte_val b -> byte_val c -> byte_val d ->
  IFF_MAKEID a b c d = id4 a b c d.
Proof.
  unfold byte_val, IFF_MAKEID, id4. intros a b c d A B C D. rewrite !Z.shiftl_mul_pow2 by lia.
  rewrite (lor_add a (b * 2 ^ 16) 24) by lia.
  replace (a * 2 ^ 24 + b * 2 ^ 16) with ((a * 256 + b) * 2 ^ 16) by lia.
  rewrite lor_add by lia.
  replace ((a * 256 + b) * 2 ^ 16 + c * 2 ^ 8) with ((a * 65536 + b * 256 + c) * 2 ^ 8) by lia.
  rewrite lor_add by lia. lia.
Qed.

Lemma to_char_cases : forall e x, byte_val x ->
  (x < 128 /\ to_char e x = x) \/ (128 <= x /\ (to_char e x = x \/ to_char e x = x - 256)).
Proof.
  intros e x X. unfold byte_val in X. unfold to_char. destruct (char_signed e).
  - destruct (Z.lt_ge_cases x 128).
    + left. split; [assumption|]. apply wrap_s_id; simpl; lia.
    + right. split; [assumption|]. right. unfold wrap_s. change (2 ^ (8 - 1)) with 128. change (2 ^ 8) with 256.
      assert ((x + 128) mod 256 = x - 128) by (symmetry; apply Z.mod_unique with (q := 1); lia). lia.
  - rewrite wrap_u_id by (simpl; lia). lia.
Qed.

Definition printable (x : Z) : bool := (0x20 <=? x) && (x <=? 0x7e).

Lemma bad_char : forall e x, byte_val x ->
  ((to_char e x <? 0x20) || (0x7e <? to_char e x)) = negb (printable x).
Proof.
  intros e x X. unfold printable. destruct (to_char_cases e x X) as [[L ->]|[L [->| ->]]]; unfold byte_val in X;
    destruct (Z.ltb_spec x 32), (Z.ltb_spec 126 x), (Z.leb_spec 32 x), (Z.leb_spec x 126); try lia; try reflexivity;
    destruct (Z.ltb_spec (x - 256) 32); try lia; reflexivity.
Qed.

Lemma checkIdChars_run : forall e e2 l w, (forall x, In x l -> byte_val x) ->
  exists lg, checkIdChars (map (to_char e) l) e2 w = Done (forallb printable l, add_log lg w) /\
    (lg = [] <-> forallb printable l = true).
Proof.
  intros e e2 l w. revert w. induction l as [|x l IH]; intros w H.
  - exists []. simpl. rewrite add_log_nil. split; [reflexivity|tauto].
  - cbn [map checkIdChars forallb]. rewrite bad_char by (apply H; left; reflexivity).
    destruct (printable x); cbn [negb andb].
    + apply IH. intros; apply H; right; assumption.
    + eexists [_]. split; [reflexivity|]. split; discriminate.
Qed.

Definition valid_chars (a b c d : Z) : bool := forallb printable [a; b; c; d] && negb (a =? 0x20).

Lemma ValidId_chars : forall a b c d, byte_val a -> byte_val b -> byte_val c -> byte_val d ->
  (ValidId (id4 a b c d) <-> valid_chars a b c d = true).
Proof.
  intros a b c d A B C D. unfold ValidId, valid_chars. rewrite andb_true_iff, forallb_forall, negb_true_iff, Z.eqb_neq. split.
  - intros (a' & b' & c' & d' & E & R & N).
    assert (BV : forall x, In x [a'; b'; c'; d'] -> byte_val x).
    { intros x I. specialize (R x I). unfold byte_val. lia. }
    destruct (id4_inj a b c d a' b' c' d') as (-> & -> & -> & ->); try assumption; try (apply BV; simpl; tauto).
    split; [|assumption]. intros x I. unfold printable. apply andb_true_iff. rewrite !Z.leb_le. apply R. assumption.
  - intros [R N]. exists a, b, c, d. split; [reflexivity|]. split; [|assumption].
    intros x I. specialize (R x I). unfold printable in R. apply andb_true_iff in R. rewrite !Z.leb_le in R. lia.
Qed.

Lemma first_space : forall e a, byte_val a -> (to_char e a =? 0x20) = (a =? 0x20).
Proof.
  intros e a A. unfold byte_val in A. destruct (to_char_cases e a A) as [[L ->]|[L [->| ->]]]; try reflexivity.
  destruct (Z.eqb_spec (a - 256) 32), (Z.eqb_spec a 32); try lia; reflexivity.
Qed.

Lemma checkId_bytes : forall a b c d e w, byte_val a -> byte_val b -> byte_val c -> byte_val d ->
  exists lg, IFF_checkId (id4 a b c d) e w = Done (valid_chars a b c d, add_log lg w) /\
    (lg = [] <-> valid_chars a b c d = true).
Proof.
  intros a b c d e w A B C D. unfold IFF_checkId, bind, ask. rewrite idToString_bytes by assumption.
  change [to_char e a; to_char e b; to_char e c; to_char e d] with (map (to_char e) [a; b; c; d]).
  destruct (checkIdChars_run e e [a; b; c; d] w) as (lg & E & L).
  { intros x I. simpl in I. repeat destruct I as [<-|I]; assumption || contradiction. }
  rewrite E. unfold valid_chars. destruct (forallb printable [a; b; c; d]); cbn [negb andb].
  - cbn [map hd]. rewrite first_space by assumption.
    assert (lg = []) by (apply L; reflexivity). subst lg. rewrite add_log_nil.
    destruct (a =? 32); cbn [negb].
    + eexists [_]. split; [reflexivity|]. split; discriminate.
    + exists []. rewrite add_log_nil. split; [reflexivity|tauto].
  - exists lg. split; [reflexivity|]. exact L.
Qed.

(** The check of an ID: the verdict, and whether something was reported. *)
Definition decides (m : M bool) (P : Prop) : Prop :=
  forall e w, (P /\ m e w = Done (true, w)) \/ (~ P /\ exists w', m e w = Done (false, w') /\ reported w w' /\
    w_in w' = w_in w /\ w_out w' = w_out w /\ w_allocs w' = w_allocs w).

Lemma checkId_decides : forall i, in_range FId i -> decides (IFF_checkId i) (ValidId i).
Proof.
  intros i R e w. destruct (id4_surj i R) as (a & b & c & d & A & B & C & D & ->).
  destruct (checkId_bytes a b c d e w A B C D) as (lg & E & L). rewrite ValidId_chars by assumption.
  destruct (valid_chars a b c d).
  - left. split; [reflexivity|]. rewrite E. assert (lg = []) by (apply L; reflexivity). subst. rewrite add_log_nil. reflexivity.
  - right. split; [discriminate|]. exists (add_log lg w). split; [assumption|]. split; [|repeat split].
    exists lg. split; [|reflexivity]. intro X. apply L in X. discriminate.
Qed.

(** ** Form types *)

Definition form_char (x : Z) : bool := negb (((0x61 <=? x) && (x <=? 0x7a)) || (x =? 0x2e)).

Lemma form_char_to_char : forall e x, byte_val x ->
  (((0x61 <=? to_char e x) && (to_char e x <=? 0x7a)) || (to_char e x =? 0x2e)) = negb (form_char x).
Proof.
  intros e x X. unfold form_char. rewrite negb_involutive. unfold byte_val in X.
  destruct (to_char_cases e x X) as [[L ->]|[L [->| ->]]]; try reflexivity.
  destruct (Z.leb_spec 97 (x - 256)), (Z.leb_spec (x - 256) 122), (Z.eqb_spec (x - 256) 46),
    (Z.leb_spec 97 x), (Z.leb_spec x 122), (Z.eqb_spec x 46); try lia; reflexivity.
Qed.

Lemma formChars_run : forall e e2 l w, (forall x, In x l -> byte_val x) ->
  exists lg, checkFormTypeChars (map (to_char e) l) e2 w = Done (forallb form_char l, add_log lg w) /\
    (lg = [] <-> forallb form_char l = true).
Proof.
  intros e e2 l w. revert w. induction l as [|x l IH]; intros w H.
  - exists []. simpl. rewrite add_log_nil. split; [reflexivity|tauto].
  - cbn [map checkFormTypeChars forallb]. rewrite form_char_to_char by (apply H; left; reflexivity).
    destruct (form_char x); cbn [negb andb].
    + apply IH. intros; apply H; right; assumption.
    + eexists [_]. split; [reflexivity|]. split; discriminate.
Qed.

Lemma reserved_iff : forall i, is_reserved_form_type i = true <-> In i reserved_ids.
Proof.
  intro i. unfold is_reserved_form_type.
  set (L := [IFF_ID_LIST; IFF_ID_FORM; IFF_ID_PROP; IFF_ID_CAT; IFF_ID_JJJJ] ++ reserved_versions).
  assert (A : forallb (fun x => existsb (Z.eqb x) reserved_ids) L = true) by (vm_compute; reflexivity).
  assert (B : forallb (fun x => existsb (Z.eqb x) L) reserved_ids = true) by (vm_compute; reflexivity).
  rewrite forallb_forall in A, B. rewrite existsb_exists. split.
  - intros (x & I & E). apply Z.eqb_eq in E. subst x. apply A in I. apply existsb_exists in I.
    destruct I as (y & I & E). apply Z.eqb_eq in E. subst. assumption.
  - intro I. apply B in I. apply existsb_exists in I. exact I.
Qed.

Definition valid_form_type (a b c d : Z) : bool :=
  valid_chars a b c d && forallb form_char [a; b; c; d] && negb (is_reserved_form_type (id4 a b c d)).

Lemma ValidFormType_chars : forall a b c d, byte_val a -> byte_val b -> byte_val c -> byte_val d ->
  (ValidFormType (id4 a b c d) <-> valid_form_type a b c d = true).
Proof.
  intros a b c d A B C D. unfold ValidFormType, valid_form_type.
  rewrite ValidId_chars by assumption. rewrite !andb_true_iff, negb_true_iff, <- not_true_iff_false, reserved_iff.
  assert (X : forall x, form_char x = true <-> ~ (97 <= x <= 122) /\ x <> 46).
  { intro x. unfold form_char. rewrite negb_true_iff, orb_false_iff, andb_false_iff, !Z.leb_gt, Z.eqb_neq. lia. }
  split.
  - intros (V & F & N). split; [split; [assumption|]|assumption].
    apply forallb_forall. intros x I. apply X. apply (F a b c d); [reflexivity| |assumption].
    intros y J. simpl in J. repeat destruct J as [<-|J]; assumption || contradiction.
  - intros ((V & F) & N). split; [assumption|]. split; [|assumption].
    intros a' b' c' d' E R x I.
    destruct (id4_inj a b c d a' b' c' d') as (-> & -> & -> & ->); try assumption; try (apply R; simpl; tauto).
    apply X. rewrite forallb_forall in F. apply F. assumption.
Qed.

Lemma checkFormType_decides : forall i, in_range FId i -> decides (IFF_checkFormType i) (ValidFormType i).
Proof.
  intros i R e w. destruct (id4_surj i R) as (a & b & c & d & A & B & C & D & ->).
  rewrite ValidFormType_chars by assumption. unfold valid_form_type, IFF_checkFormType, bind.
  destruct (checkId_bytes a b c d e w A B C D) as (lg & E & L). rewrite E.
  destruct (valid_chars a b c d); cbn [negb andb].
  2: { right. split; [discriminate|]. exists (add_log lg w). split; [reflexivity|]. split; [|repeat split].
       exists lg. split; [|reflexivity]. intro X. apply L in X. discriminate. }
  assert (lg = []) by (apply L; reflexivity). subst lg. rewrite add_log_nil. unfold ask.
  rewrite idToString_bytes by assumption.
  change [to_char e a; to_char e b; to_char e c; to_char e d] with (map (to_char e) [a; b; c; d]).
  destruct (formChars_run e e [a; b; c; d] w) as (lg2 & E2 & L2).
  { intros x I. simpl in I. repeat destruct I as [<-|I]; assumption || contradiction. }
  rewrite E2. destruct (forallb form_char [a; b; c; d]); cbn [negb andb].
  2: { right. split; [discriminate|]. exists (add_log lg2 w). split; [reflexivity|]. split; [|repeat split].
       exists lg2. split; [|reflexivity]. intro X. apply L2 in X. discriminate. }
  assert (lg2 = []) by (apply L2; reflexivity). subst lg2. rewrite add_log_nil.
  destruct (is_reserved_form_type (id4 a b c d)); cbn [negb].
  - right. split; [discriminate|]. eexists. split.
    + change (IFF_error "Form type: '" e w) with (Done (tt, add_log ["Form type: '"%string] w)). cbv iota beta.
      rewrite run_errorId. reflexivity.
    + split; [|repeat split]. eexists (_ :: id_log (id4 a b c d) ++ ["Form type: '"%string]). split; [discriminate|].
      cbn. reflexivity.
  - left. split; reflexivity.
Qed.
