(** * Primitive values on the wire *)

From Coq Require Import ZArith List Bool String Lia.
From Coq Require Import Strings.Byte.
From Verif Require Import Machine Io Types Build Spec Lemmas IoProofs WriteProofs EncodeProofs ReadProofs ApiProofs.
Import ListNotations.
Open Scope Z_scope.

Lemma be_field_Wire : forall k v, in_range k v -> Wire k v (be_field k v).
Proof.
  intros k v R. split; [assumption|]. split; [apply be_field_length|].
  destruct k; cbn [be_field fieldSize]; unfold be_value, be16, be32; cbn [fold_left]; rewrite !b2z_z2b.
  - simpl Z.mul. reflexivity.
  - change (8 * 2) with 16. rewrite <- bytes2_value. lia.
  - change (8 * 2) with 16. rewrite <- bytes2_value. lia.
  - change (8 * 4) with 32. rewrite <- bytes4_value. change (2 ^ 24) with (256 * 256 * 256). change (2 ^ 16) with (256 * 256). lia.
  - change (8 * 4) with 32. rewrite <- bytes4_value. change (2 ^ 24) with (256 * 256 * 256). change (2 ^ 16) with (256 * 256). lia.
  - change (8 * 4) with 32. rewrite <- bytes4_value. change (2 ^ 24) with (256 * 256 * 256). change (2 ^ 16) with (256 * 256). lia.
Qed.

Lemma in_range_mod_inj : forall k v1 v2, in_range k v1 -> in_range k v2 ->
  v1 mod 2 ^ (8 * fieldSize k) = v2 mod 2 ^ (8 * fieldSize k) -> v1 = v2.
Proof.
  intros k v1 v2 R1 R2 E. destruct k; cbn [in_range fieldSize] in *;
    [change (8 * 1) with 8 in E|change (8 * 2) with 16 in E|change (8 * 2) with 16 in E|
     change (8 * 4) with 32 in E|change (8 * 4) with 32 in E|change (8 * 4) with 32 in E];
    try (rewrite !Z.mod_small in E by lia; assumption).
  - transitivity (wrap_s 16 v1); [symmetry; apply wrap_s_id; simpl; lia|].
    transitivity (wrap_s 16 v2); [apply wrap_s_congr; (lia || assumption)|apply wrap_s_id; simpl; lia].
  - transitivity (wrap_s 32 v1); [symmetry; apply wrap_s_id; simpl; lia|].
    transitivity (wrap_s 32 v2); [apply wrap_s_congr; (lia || assumption)|apply wrap_s_id; simpl; lia].
Qed.

Lemma Wire_be_field : forall k v l, Wire k v l -> l = be_field k v.
Proof.
  intros k v l (R & L & V). destruct (be_field_surj k l L) as (v' & R' & E). subst l.
  destruct (be_field_Wire k v' R') as (_ & _ & V'). f_equal.
  apply (in_range_mod_inj k); try assumption. congruence.
Qed.

Lemma Wire_total : forall k l, zlength l = fieldSize k -> exists v, Wire k v l.
Proof.
  intros k l L. destruct (be_field_surj k l L) as (v & R & E). exists v. subst l. apply be_field_Wire. assumption.
Qed.

Lemma write_prim_handed : forall k v e w id name, strict_c e = false -> o_room (w_out w) = None -> in_range k v ->
  exists l w', Wire k v l /\ write_prim k v id name e w = Done (true, w') /\
    handed (w_out w') = handed (w_out w) ++ l /\ w_log w' = w_log w /\ w_in w' = w_in w.
Proof.
  intros k v e w id name NS RM R. destruct (emits_write_prim e k v id name NS w) as (lg & n & E & L).
  destruct (put_bytes_device (be_field k v) (w_out w)) as [A B]. destruct (B RM) as [B1 _].
  exists (be_field k v). eexists. split; [apply be_field_Wire; assumption|]. rewrite B1 in E. split; [exact E|].
  cbn [w_out w_log w_in]. apply L in B1. subst lg. split; [|split; reflexivity].
  destruct A as [[_ A]|(X & _)]; [|rewrite (proj1 (B RM)) in X; discriminate].
  unfold handed. rewrite A, app_assoc. reflexivity.
Qed.

Lemma write_prim_fails : forall k v e w id name w', strict_c e = false ->
  write_prim k v id name e w = Done (false, w') -> reported w w'.
Proof.
  intros k v e w id name w' NS H. destruct (emits_write_prim e k v id name NS w) as (lg & n & E & L).
  rewrite E in H. injection H as B <-. exists lg. split; [|reflexivity]. intro X. apply L in X. congruence.
Qed.

Lemma read_prim_wire : forall k v l r e w id name, strict_c e = false -> Wire k v l -> rest w = l ++ r ->
  read_prim k id name e w = Done (Some v, with_input r w).
Proof.
  intros k v l r e w id name NS W R. pose proof (Wire_be_field _ _ _ W) as ->.
  rewrite (read_prim_ok k e w v r); [reflexivity|left; assumption|apply W|assumption].
Qed.

Lemma read_prim_fails : forall k e w id name, zlength (rest w) < fieldSize k ->
  exists w', read_prim k id name e w = Done (None, w') /\ reported w w'.
Proof.
  intros k e w id name L. rewrite read_prim_short by assumption. eexists. split; [reflexivity|].
  eexists. split; [|reflexivity]. discriminate.
Qed.

Lemma read_field_fits : forall k e w cid size name bp, strict_c e = false ->
  fieldSize k <= size <= INT_MAX -> 0 <= bp <= INT_MAX ->
  (bp + fieldSize k <= size -> fieldSize k <= zlength (rest w) ->
     exists v l, rest w = l ++ zdrop (fieldSize k) (rest w) /\ Wire k v l /\
       IFF_readField k cid size name bp e w
       = Done ((FIELD_MORE, Some v, bp + fieldSize k), with_input (zdrop (fieldSize k) (rest w)) w)) /\
  (bp + fieldSize k <= size -> zlength (rest w) < fieldSize k ->
     exists w', IFF_readField k cid size name bp e w = Done ((FIELD_FAILURE, None, bp), w') /\ reported w w') /\
  (size < bp + fieldSize k -> IFF_readField k cid size name bp e w = Done ((FIELD_LAST, None, bp), w)).
Proof.
  intros k e w cid size name bp NS S B. unfold IFF_readField, bind, ask.
  rewrite fit_normal by assumption. pose proof (fieldSize_range k) as FR. split; [|split].
  - intros F L. rewrite (proj2 (Z.ltb_ge _ _)) by assumption.
    destruct (Wire_total k (ztake (fieldSize k) (rest w))) as [v W].
    { rewrite zlength_ztake. lia. }
    exists v, (ztake (fieldSize k) (rest w)).
    assert (E : rest w = ztake (fieldSize k) (rest w) ++ zdrop (fieldSize k) (rest w))
      by (symmetry; apply ztake_zdrop).
    split; [exact E|]. split; [exact W|].
    rewrite (read_prim_wire k v _ _ e w cid name NS W E). unfold ret, increaseBytesProcessed.
    rewrite wrap_s_id by (unfold INT_MAX in *; simpl; lia). reflexivity.
  - intros F L. rewrite (proj2 (Z.ltb_ge _ _)) by assumption.
    destruct (read_prim_fails k e w cid name L) as (w' & E & RP). rewrite E. exists w'. split; [reflexivity|assumption].
  - intros F. rewrite (proj2 (Z.ltb_lt _ _)) by assumption. reflexivity.
Qed.
