(** * Basic lemmas: bytes, integer lists, byte order, streams. *)

From Coq Require Import ZArith List Bool String Lia.
From Coq Require Import Strings.Byte.
From Verif Require Import Machine Io Types Build Spec.
Import ListNotations.
Open Scope Z_scope.

(** ** Induction on chunk trees *)

Section ChunkInd.
  Variable P : chunk -> Prop.
  Hypothesis Hraw : forall i s d, P (CRaw i s d).
  Hypothesis Hgroup : forall i s g subs, (forall c, In c subs -> P c) -> P (CGroup i s g subs).
  Hypothesis Hlist : forall i s g props subs,
    (forall c, In c props -> P c) -> (forall c, In c subs -> P c) -> P (CList i s g props subs).
  Hypothesis Hfields : forall i s v, P (CFields i s v).

  Fixpoint chunk_tree_ind (c : chunk) : P c :=
    let fix all (l : list chunk) : forall c, In c l -> P c :=
      match l with
      | [] => fun c H => match H with end
      | x :: r => fun c H => match H with
                             | or_introl E => eq_ind x P (chunk_tree_ind x) c E
                             | or_intror H' => all r c H'
                             end
      end in
    match c with
    | CRaw i s d => Hraw i s d
    | CGroup i s g l => Hgroup i s g l (all l)
    | CList i s g p l => Hlist i s g p l (all p) (all l)
    | CFields i s v => Hfields i s v
    end.
End ChunkInd.

(** ** Bytes *)

Lemma b2z_range : forall b, 0 <= b2z b < 256.
Proof. intro b. unfold b2z. pose proof (Byte.to_N_bounded b). lia. Qed.

Lemma z2b_b2z : forall b, z2b (b2z b) = b.
Proof. intro b; destruct b; reflexivity. Qed.

Lemma b2z_z2b : forall z, b2z (z2b z) = z mod 256.
Proof.
  intro z. unfold z2b, b2z.
  assert (R : 0 <= z mod 256 < 256) by (apply Z.mod_pos_bound; lia).
  destruct (Byte.of_N (Z.to_N (z mod 256))) as [b|] eqn:E.
  - apply Byte.to_of_N in E. rewrite E. rewrite Z2N.id; lia.
  - apply Byte.of_N_None_iff in E. lia.
Qed.

Lemma b2z_inj : forall a b, b2z a = b2z b -> a = b.
Proof. intros a b H. rewrite <- (z2b_b2z a), <- (z2b_b2z b), H. reflexivity. Qed.

Lemma z2b_eq : forall x y, x mod 256 = y mod 256 -> z2b x = z2b y.
Proof. intros x y H. apply b2z_inj. rewrite !b2z_z2b. exact H. Qed.

(** ** Lists *)

Lemma zlength_nonneg : forall A (l : list A), 0 <= zlength l.
Proof. intros; unfold zlength; lia. Qed.
Lemma zlength_nil : forall A, zlength (@nil A) = 0.
Proof. reflexivity. Qed.
Lemma zlength_cons : forall A (x : A) l, zlength (x :: l) = 1 + zlength l.
Proof. intros; unfold zlength; simpl List.length; lia. Qed.
Lemma zlength_app : forall A (a b : list A), zlength (a ++ b) = zlength a + zlength b.
Proof. intros; unfold zlength; rewrite app_length; lia. Qed.
Lemma zlength_repeat : forall A (x : A) n, 0 <= n -> zlength (repeat x (Z.to_nat n)) = n.
Proof. intros; unfold zlength; rewrite repeat_length; lia. Qed.
Lemma zlength_0 : forall A (l : list A), zlength l = 0 -> l = [].
Proof. intros A [|x l]; [reflexivity|]. rewrite zlength_cons. pose proof (zlength_nonneg _ l). lia. Qed.

Lemma ztake_firstn : forall A (l : list A) n, ztake n l = firstn (Z.to_nat n) l.
Proof.
  induction l as [|x l IH]; intros n; simpl.
  - destruct (Z.to_nat n); reflexivity.
  - destruct (Z.leb_spec n 0).
    + replace (Z.to_nat n) with O by lia. reflexivity.
    + replace (Z.to_nat n) with (S (Z.to_nat (n - 1))) by lia. simpl. rewrite IH. reflexivity.
Qed.

Lemma zdrop_skipn : forall A (l : list A) n, zdrop n l = skipn (Z.to_nat n) l.
Proof.
  induction l as [|x l IH]; intros n; simpl.
  - destruct (Z.to_nat n); reflexivity.
  - destruct (Z.leb_spec n 0).
    + replace (Z.to_nat n) with O by lia. reflexivity.
    + replace (Z.to_nat n) with (S (Z.to_nat (n - 1))) by lia. simpl. rewrite IH. reflexivity.
Qed.

Lemma ztake_zdrop : forall A n (l : list A), ztake n l ++ zdrop n l = l.
Proof. intros. rewrite ztake_firstn, zdrop_skipn. apply firstn_skipn. Qed.

Lemma zlength_ztake : forall A n (l : list A),
  zlength (ztake n l) = Z.max 0 (Z.min n (zlength l)).
Proof. intros. rewrite ztake_firstn. unfold zlength. rewrite firstn_length. lia. Qed.

Lemma ztake_app : forall A (a b : list A), ztake (zlength a) (a ++ b) = a.
Proof.
  intros. rewrite ztake_firstn. unfold zlength. rewrite Nat2Z.id.
  rewrite firstn_app, Nat.sub_diag, firstn_O, app_nil_r, firstn_all. reflexivity.
Qed.

Lemma zdrop_app : forall A (a b : list A), zdrop (zlength a) (a ++ b) = b.
Proof.
  intros. rewrite zdrop_skipn. unfold zlength. rewrite Nat2Z.id.
  rewrite skipn_app, Nat.sub_diag, skipn_all. reflexivity.
Qed.

Lemma ztake_app_eq : forall A n (a b : list A), n = zlength a -> ztake n (a ++ b) = a.
Proof. intros; subst; apply ztake_app. Qed.
Lemma zdrop_app_eq : forall A n (a b : list A), n = zlength a -> zdrop n (a ++ b) = b.
Proof. intros; subst; apply zdrop_app. Qed.

Lemma ztake_all : forall A n (l : list A), zlength l <= n -> ztake n l = l.
Proof. intros. rewrite ztake_firstn. apply firstn_all2. unfold zlength in *. lia. Qed.

Lemma ztake_0 : forall A n (l : list A), n <= 0 -> ztake n l = [].
Proof. intros. rewrite ztake_firstn. replace (Z.to_nat n) with O by lia. reflexivity. Qed.
Lemma zdrop_0 : forall A n (l : list A), n <= 0 -> zdrop n l = l.
Proof. intros. rewrite zdrop_skipn. replace (Z.to_nat n) with O by lia. reflexivity. Qed.

(** ** Machine integers *)

Lemma wrap_u_id : forall k z, 0 <= z < 2 ^ k -> wrap_u k z = z.
Proof. intros. unfold wrap_u. apply Z.mod_small. assumption. Qed.

Lemma wrap_s_id : forall k z, 0 < k -> - 2 ^ (k - 1) <= z < 2 ^ (k - 1) -> wrap_s k z = z.
Proof.
  intros k z K H. unfold wrap_s. rewrite Z.mod_small; [lia|].
  replace (2 ^ k) with (2 * 2 ^ (k - 1)).
  - lia.
  - rewrite <- Z.pow_succ_r by lia. f_equal. lia.
Qed.

Lemma wrap_s_range : forall k z, 0 < k -> - 2 ^ (k - 1) <= wrap_s k z < 2 ^ (k - 1).
Proof.
  intros k z K. unfold wrap_s.
  assert (E : 2 ^ k = 2 * 2 ^ (k - 1)).
  { rewrite <- Z.pow_succ_r by lia. f_equal. lia. }
  assert (0 < 2 ^ (k - 1)) by (apply Z.pow_pos_nonneg; lia).
  pose proof (Z.mod_pos_bound (z + 2 ^ (k - 1)) (2 ^ k)). lia.
Qed.

Lemma wrap_s_mod : forall k z, 0 < k -> wrap_s k z mod 2 ^ k = z mod 2 ^ k.
Proof.
  intros k z K. unfold wrap_s.
  rewrite Zminus_mod_idemp_l. f_equal. lia.
Qed.

Lemma wrap_s_congr : forall k x y, 0 < k -> x mod 2 ^ k = y mod 2 ^ k -> wrap_s k x = wrap_s k y.
Proof.
  intros k x y K H. unfold wrap_s. f_equal.
  rewrite <- (Z.add_mod_idemp_l x), <- (Z.add_mod_idemp_l y), H; [reflexivity| |];
  apply Z.pow_nonzero; lia.
Qed.

(** ** Byte swapping *)

Lemma land_byte : forall v k, 0 <= k ->
  Z.land v (Z.shiftl 255 k) = ((v / 2 ^ k) mod 2 ^ 8) * 2 ^ k.
Proof.
  intros v k K.
  apply Z.bits_inj'. intros n Hn.
  rewrite Z.land_spec, Z.shiftl_spec by lia.
  rewrite <- Z.shiftl_mul_pow2, Z.shiftl_spec by lia.
  destruct (Z.ltb_spec n k).
  - rewrite (Z.testbit_neg_r 255), andb_false_r by lia.
    rewrite Z.testbit_neg_r by lia. reflexivity.
  - change 255 with (Z.ones 8).
    rewrite <- Z.land_ones by lia. rewrite Z.land_spec.
    rewrite Z.div_pow2_bits by lia. f_equal. f_equal. lia.
Qed.

Lemma lor_add : forall a b k, 0 <= k -> 0 <= b < 2 ^ k -> Z.lor (a * 2 ^ k) b = a * 2 ^ k + b.
Proof.
  intros a b k K B.
  rewrite <- Z.lxor_lor.
  - symmetry. apply Z.add_nocarry_lxor.
    apply Z.bits_inj'. intros n Hn. rewrite Z.land_spec, Z.bits_0.
    rewrite <- Z.shiftl_mul_pow2, Z.shiftl_spec by lia.
    destruct (Z.ltb_spec n k).
    + rewrite Z.testbit_neg_r by lia. reflexivity.
    + replace (Z.testbit b n) with false; [apply andb_false_r|].
      symmetry. rewrite <- (Z.mod_small b (2 ^ k)) by lia.
      apply Z.mod_pow2_bits_high. lia.
  - apply Z.bits_inj'. intros n Hn. rewrite Z.land_spec, Z.bits_0.
    rewrite <- Z.shiftl_mul_pow2, Z.shiftl_spec by lia.
    destruct (Z.ltb_spec n k).
    + rewrite Z.testbit_neg_r by lia. reflexivity.
    + replace (Z.testbit b n) with false; [apply andb_false_r|].
      symmetry. rewrite <- (Z.mod_small b (2 ^ k)) by lia.
      apply Z.mod_pow2_bits_high. lia.
Qed.

Lemma swap16_arith : forall v,
  swap16 v = (v mod 2 ^ 8) * 2 ^ 8 + (v / 2 ^ 8) mod 2 ^ 8.
Proof.
  intro v. unfold swap16.
  change 0xff with (Z.shiftl 255 0). change 0xff00 with (Z.shiftl 255 8).
  rewrite !land_byte by lia.
  rewrite Z.shiftl_mul_pow2, Z.shiftr_div_pow2 by lia.
  rewrite Z.pow_0_r, Z.mul_1_r, Z.div_1_r.
  rewrite Z.div_mul by lia.
  apply lor_add; [lia|]. apply Z.mod_pos_bound. lia.
Qed.

Lemma swap32_arith : forall v,
  swap32 v = (v mod 2 ^ 8) * 2 ^ 24 + ((v / 2 ^ 8) mod 2 ^ 8) * 2 ^ 16
             + ((v / 2 ^ 16) mod 2 ^ 8) * 2 ^ 8 + (v / 2 ^ 24) mod 2 ^ 8.
Proof.
  intro v. unfold swap32.
  change 0xff with (Z.shiftl 255 0). change 0xff00 with (Z.shiftl 255 8).
  change 0xff0000 with (Z.shiftl 255 16). change 0xff000000 with (Z.shiftl 255 24).
  rewrite !land_byte by lia.
  rewrite !Z.shiftl_mul_pow2, !Z.shiftr_div_pow2 by lia.
  rewrite Z.pow_0_r, Z.mul_1_r, Z.div_1_r.
  set (A := v mod 2 ^ 8). set (B := (v / 2 ^ 8) mod 2 ^ 8).
  set (C := (v / 2 ^ 16) mod 2 ^ 8). set (D := (v / 2 ^ 24) mod 2 ^ 8).
  assert (0 <= A < 256) by (apply Z.mod_pos_bound; lia).
  assert (0 <= B < 256) by (apply Z.mod_pos_bound; lia).
  assert (0 <= C < 256) by (apply Z.mod_pos_bound; lia).
  assert (0 <= D < 256) by (apply Z.mod_pos_bound; lia).
  rewrite Z.div_mul by lia.
  replace (C * 2 ^ 16 / 2 ^ 8) with (C * 2 ^ 8)
    by (change (2 ^ 16) with (2 ^ 8 * 2 ^ 8); rewrite Z.mul_assoc, Z.div_mul; lia).
  replace (B * 2 ^ 8 * 2 ^ 8) with (B * 2 ^ 16) by lia.
  rewrite (lor_add A (B * 2 ^ 16) 24) by lia.
  replace (A * 2 ^ 24 + B * 2 ^ 16) with ((A * 2 ^ 8 + B) * 2 ^ 16) by lia.
  rewrite (lor_add (A * 2 ^ 8 + B) (C * 2 ^ 8) 16) by lia.
  replace ((A * 2 ^ 8 + B) * 2 ^ 16 + C * 2 ^ 8)
    with ((A * 2 ^ 16 + B * 2 ^ 8 + C) * 2 ^ 8) by lia.
  rewrite lor_add by lia. lia.
Qed.

Lemma swap32_mod : forall v, swap32 (v mod 2 ^ 32) = swap32 v.
Proof.
  intro v. rewrite !swap32_arith.
  assert (E : forall k, 0 <= k <= 24 -> (v mod 2 ^ 32 / 2 ^ k) mod 2 ^ 8 = (v / 2 ^ k) mod 2 ^ 8).
  { intros k K. rewrite <- !Z.shiftr_div_pow2, <- !Z.land_ones by lia.
    apply Z.bits_inj'. intros n Hn. rewrite !Z.land_spec.
    destruct (Z.ltb_spec n 8).
    - f_equal. rewrite !Z.shiftr_spec, Z.land_spec, Z.ones_spec_low by lia.
      apply andb_true_r.
    - rewrite Z.ones_spec_high by lia. rewrite !andb_false_r. reflexivity. }
  rewrite (E 8), (E 16), (E 24) by lia.
  replace (v mod 2 ^ 32) with (v mod 2 ^ 32 / 2 ^ 0) by (rewrite Z.pow_0_r, Z.div_1_r; reflexivity).
  rewrite (E 0), Z.pow_0_r, Z.div_1_r by lia. reflexivity.
Qed.

Lemma swap16_mod : forall v, swap16 (v mod 2 ^ 16) = swap16 v.
Proof.
  intro v. rewrite !swap16_arith.
  assert (E : forall k, 0 <= k <= 8 -> (v mod 2 ^ 16 / 2 ^ k) mod 2 ^ 8 = (v / 2 ^ k) mod 2 ^ 8).
  { intros k K. rewrite <- !Z.shiftr_div_pow2, <- !Z.land_ones by lia.
    apply Z.bits_inj'. intros n Hn. rewrite !Z.land_spec.
    destruct (Z.ltb_spec n 8).
    - f_equal. rewrite !Z.shiftr_spec, Z.land_spec, Z.ones_spec_low by lia.
      apply andb_true_r.
    - rewrite Z.ones_spec_high by lia. rewrite !andb_false_r. reflexivity. }
  rewrite (E 8) by lia.
  replace (v mod 2 ^ 16) with (v mod 2 ^ 16 / 2 ^ 0) by (rewrite Z.pow_0_r, Z.div_1_r; reflexivity).
  rewrite (E 0), Z.pow_0_r, Z.div_1_r by lia. reflexivity.
Qed.

Lemma byte_step : forall a r, 0 <= a < 256 ->
  (a + 256 * r) mod 256 = a /\ (a + 256 * r) / 256 = r.
Proof.
  intros a r H. split.
  - replace (a + 256 * r) with (a + r * 256) by lia. rewrite Z.mod_add by lia. apply Z.mod_small; lia.
  - replace (a + 256 * r) with (r * 256 + a) by lia. rewrite Z.div_add_l by lia.
    rewrite Z.div_small by lia. lia.
Qed.

Lemma swap32_bytes : forall a b c d,
  0 <= a < 256 -> 0 <= b < 256 -> 0 <= c < 256 -> 0 <= d < 256 ->
  swap32 (a + 256 * (b + 256 * (c + 256 * d))) = a * 2 ^ 24 + b * 2 ^ 16 + c * 2 ^ 8 + d.
Proof.
  intros a b c d A B C D. rewrite swap32_arith.
  change (2 ^ 24) with (256 * (256 * 256)). change (2 ^ 16) with (256 * 256). change (2 ^ 8) with 256.
  rewrite <- !Z.div_div by lia.
  destruct (byte_step a (b + 256 * (c + 256 * d)) A) as [-> ->].
  destruct (byte_step b (c + 256 * d) B) as [-> ->].
  destruct (byte_step c d C) as [-> ->].
  rewrite (Z.mod_small d) by lia. lia.
Qed.

Lemma swap16_bytes : forall a b, 0 <= a < 256 -> 0 <= b < 256 ->
  swap16 (a + 256 * b) = a * 2 ^ 8 + b.
Proof.
  intros a b A B. rewrite swap16_arith. change (2 ^ 8) with 256.
  destruct (byte_step a b A) as [-> ->].
  rewrite (Z.mod_small b) by lia. lia.
Qed.

Lemma mod_split : forall v m, 0 < m -> v mod (256 * m) = v mod 256 + 256 * ((v / 256) mod m).
Proof. intros. rewrite Z.rem_mul_r by lia. reflexivity. Qed.

Lemma bytes4_value : forall v,
  ((v / 2 ^ 24) mod 256) * 2 ^ 24 + ((v / 2 ^ 16) mod 256) * 2 ^ 16
  + ((v / 2 ^ 8) mod 256) * 2 ^ 8 + v mod 256 = v mod 2 ^ 32.
Proof.
  intro v.
  change (2 ^ 24) with (256 * (256 * 256)). change (2 ^ 16) with (256 * 256). change (2 ^ 8) with 256.
  change (2 ^ 32) with (256 * (256 * (256 * 256))).
  rewrite <- !Z.div_div by lia.
  rewrite !mod_split by lia. lia.
Qed.

Lemma bytes2_value : forall v, ((v / 2 ^ 8) mod 256) * 2 ^ 8 + v mod 256 = v mod 2 ^ 16.
Proof.
  intro v. change (2 ^ 16) with (256 * 256). change (2 ^ 8) with 256.
  rewrite mod_split by lia. lia.
Qed.
