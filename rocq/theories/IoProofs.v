(** * Proofs about io.c, id.c and field.c *)

From Coq Require Import ZArith Znumtheory List Bool String Lia.
From Coq Require Import Strings.Byte.
From Verif Require Import Machine Io Types Build Spec Lemmas.
Import ListNotations.
Open Scope Z_scope.

Global Arguments Z.mul : simpl never.
Global Arguments Z.add : simpl never.
Global Arguments Z.sub : simpl never.
Global Arguments Z.pow : simpl never.
Global Arguments Z.pow_pos : simpl never.
Global Arguments Z.div : simpl never.
Global Arguments Z.modulo : simpl never.
Global Arguments Z.leb : simpl never.
Global Arguments Z.ltb : simpl never.
Global Arguments Z.eqb : simpl never.
Global Arguments Z.rem : simpl never.
Global Arguments z2b : simpl never.
Global Arguments b2z : simpl never.

(** ** Running diagnostics *)

Definition add_log (lg : list string) (w : world) : world :=
  mkWorld (w_in w) (w_out w) (lg ++ w_log w) (w_allocs w).
Definition set_rest (r : list byte) (w : world) : world :=
  mkWorld (mkRfile r (r_seekable (w_in w))) (w_out w) (w_log w) (w_allocs w).
Definition set_allocs (n : nat) (w : world) : world :=
  mkWorld (w_in w) (w_out w) (w_log w) n.
Notation rest w := (r_rest (w_in w)).

Lemma set_rest_self : forall w, set_rest (rest w) w = w.
Proof. intros [[r s] o l n]; reflexivity. Qed.
Lemma add_log_nil : forall w, add_log [] w = w.
Proof. intros []; reflexivity. Qed.
Lemma add_log_app : forall a b w, add_log a (add_log b w) = add_log (a ++ b) w.
Proof. intros a b []; unfold add_log; simpl; rewrite app_assoc; reflexivity. Qed.

(** The callback calls of IFF_errorId, newest first. *)
Definition id_log (id : Z) : list string :=
  [chr (Z.land id 0xff); chr (Z.shiftr (Z.land id 0xff00) 8);
   chr (Z.shiftr (Z.land id 0xff0000) 16); chr (Z.shiftr id 24)].

Lemma to_char_mod : forall e z, to_char e z mod 256 = z mod 256.
Proof.
  intros e z. unfold to_char. change 256 with (2 ^ 8). destruct (char_signed e).
  - apply wrap_s_mod. lia.
  - unfold wrap_u. apply Z.mod_mod. lia.
Qed.

Lemma chr_to_char : forall e z, chr (to_char e z) = chr z.
Proof. intros. unfold chr. rewrite (z2b_eq (to_char e z) z); [reflexivity|]. apply to_char_mod. Qed.

Lemma run_errorId : forall id e w, IFF_errorId id e w = Done (tt, add_log (id_log id) w).
Proof.
  intros id e [i o l n]. unfold IFF_errorId, bind, ask, IFF_error, add_log, id_log, IFF_idToString, ret.
  rewrite !chr_to_char. reflexivity.
Qed.

Definition framed_log (pre : string) (id : Z) (post : string) : list string :=
  post :: id_log id ++ [pre].

Lemma run_framed : forall pre id post e w,
  (IFF_error pre ;;; IFF_errorId id ;;; IFF_error post) e w
  = Done (tt, add_log (framed_log pre id post) w).
Proof.
  intros. unfold bind. unfold IFF_error at 1. rewrite run_errorId. reflexivity.
Qed.

Lemma run_framed_ret : forall A pre id post (x : A) e w,
  (IFF_error pre ;;; IFF_errorId id ;;; IFF_error post ;;; ret x) e w
  = Done (x, add_log (framed_log pre id post) w).
Proof.
  intros. unfold bind. unfold IFF_error at 1. rewrite run_errorId. reflexivity.
Qed.

Definition readError_log (id : Z) (name : string) := framed_log "Error reading '" id ("'." ++ name ++ nl)%string.
Definition writeError_log (id : Z) (name : string) := framed_log "Error writing '" id ("'." ++ name ++ nl)%string.

Lemma run_readError : forall id name e w,
  IFF_readError id name e w = Done (tt, add_log (readError_log id name) w).
Proof. intros. apply run_framed. Qed.
Lemma run_writeError : forall id name e w,
  IFF_writeError id name e w = Done (tt, add_log (writeError_log id name) w).
Proof. intros. apply run_framed. Qed.

(** ** Primitive reads *)

Lemma be_field_length : forall k v, zlength (be_field k v) = fieldSize k.
Proof. intros [] v; reflexivity. Qed.

Lemma fread_app : forall n a r e w, n = zlength a -> rest w = a ++ r ->
  fread n e w = Done (a, set_rest r w).
Proof.
  intros n a r e w -> H. unfold fread. rewrite H, ztake_app, zdrop_app. reflexivity.
Qed.

Lemma fread_short : forall n e w, zlength (rest w) < n ->
  fread n e w = Done (rest w, set_rest [] w).
Proof.
  intros n e w H. unfold fread. rewrite ztake_all by lia.
  replace (zdrop n (rest w)) with (@nil byte); [reflexivity|].
  rewrite zdrop_skipn, skipn_all2; [reflexivity|]. unfold zlength in H. lia.
Qed.

Definition signed_ok (e : env) (k : fkind) (v : Z) : Prop :=
  strict_c e = false \/ big_endian e = true \/ k <> FLong.

Lemma native_load_be16 : forall e v,
  (if big_endian e then native_load e (be16 v) else wrap_u 16 (swap16 (native_load e (be16 v))))
  = v mod 2 ^ 16.
Proof.
  intros e v. unfold native_load. destruct (big_endian e); simpl le_load; rewrite !b2z_z2b.
  - rewrite <- (bytes2_value v). change (2 ^ 8) with 256. lia.
  - rewrite Z.mul_0_r, Z.add_0_r.
    rewrite swap16_bytes by (apply Z.mod_pos_bound; lia).
    rewrite bytes2_value. apply wrap_u_id. apply Z.mod_pos_bound. lia.
Qed.

Lemma native_load_be32 : forall e v,
  (if big_endian e then native_load e (be32 v) else swap32 (native_load e (be32 v)))
  = v mod 2 ^ 32.
Proof.
  intros e v. unfold native_load. destruct (big_endian e); simpl le_load; rewrite !b2z_z2b.
  - rewrite <- (bytes4_value v).
    change (2 ^ 24) with (256 * (256 * 256)). change (2 ^ 16) with (256 * 256). change (2 ^ 8) with 256. lia.
  - rewrite Z.mul_0_r, Z.add_0_r.
    rewrite swap32_bytes by (apply Z.mod_pos_bound; lia).
    apply bytes4_value.
Qed.

Ltac run_fread4 := rewrite (fread_app 4 _ _ _ _ eq_refl) by eassumption.

Lemma read_prim_ok : forall k e w v r id name,
  signed_ok e k v -> in_range k v -> rest w = be_field k v ++ r ->
  read_prim k id name e w = Done (Some v, set_rest r w).
Proof.
  intros k e w v r id name S R H.
  destruct k; simpl in R, H; unfold read_prim, IFF_readId, IFF_readUByte, IFF_readUWord,
    IFF_readWord, IFF_readULong, IFF_readLong, bind, ask, fgetc.
  - rewrite H. unfold ret. rewrite b2z_z2b, Z.mod_small by (change 256 with (2 ^ 8); lia). reflexivity.
  - rewrite (fread_app 2 (be16 v) r) by (reflexivity || assumption).
    change (zlength (be16 v) =? 2) with true. cbv iota zeta. unfold ret.
    rewrite native_load_be16, Z.mod_small by lia. reflexivity.
  - rewrite (fread_app 2 (be16 v) r) by (reflexivity || assumption).
    change (zlength (be16 v) =? 2) with true. cbv iota zeta. unfold ret.
    assert (E : (if big_endian e then wrap_s 16 (native_load e (be16 v))
                 else wrap_s 16 (swap16 (wrap_s 16 (native_load e (be16 v))))) = v).
    { pose proof (native_load_be16 e v) as L. destruct (big_endian e) eqn:B.
      - rewrite L. rewrite (wrap_s_congr 16 _ v) by (lia || apply Z.mod_mod; lia).
        apply wrap_s_id; simpl; lia.
      - rewrite <- swap16_mod, wrap_s_mod, swap16_mod by lia.
        transitivity (wrap_s 16 v); [|apply wrap_s_id; simpl; lia].
        apply wrap_s_congr; [lia|]. exact L. }
    rewrite E. reflexivity.
  - rewrite (fread_app 4 (be32 v) r) by (reflexivity || assumption).
    change (zlength (be32 v) =? 4) with true. cbv iota zeta. unfold ret.
    pose proof (native_load_be32 e v) as L. rewrite Z.mod_small in L by lia.
    destruct (big_endian e); rewrite L; [reflexivity|].
    rewrite wrap_u_id by lia. reflexivity.
  - rewrite (fread_app 4 (be32 v) r) by (reflexivity || assumption).
    change (zlength (be32 v) =? 4) with true. cbv iota zeta. unfold ret.
    pose proof (native_load_be32 e v) as L.
    destruct (big_endian e) eqn:B.
    + rewrite L. rewrite (wrap_s_congr 32 _ v) by (lia || apply Z.mod_mod; lia).
      rewrite wrap_s_id by (simpl; lia). reflexivity.
    + unfold swap_long.
      destruct S as [S|[S|S]]; [|congruence|congruence]. rewrite S. cbn [andb]. cbv iota zeta. unfold ret.
      rewrite <- swap32_mod, wrap_s_mod, swap32_mod by lia. rewrite L.
      rewrite (wrap_s_congr 32 _ v) by (lia || apply Z.mod_mod; lia).
      rewrite wrap_s_id by (simpl; lia). reflexivity.
  - rewrite (fread_app 4 (be32 v) r) by (reflexivity || assumption).
    change (zlength (be32 v) =? 4) with true. cbv iota zeta. unfold ret.
    pose proof (native_load_be32 e v) as L. rewrite Z.mod_small in L by lia.
    destruct (big_endian e); rewrite L; [reflexivity|].
    rewrite wrap_u_id by lia. reflexivity.
Qed.

Lemma read_prim_short : forall k e w id name,
  zlength (rest w) < fieldSize k ->
  read_prim k id name e w = Done (None, add_log (readError_log id name) (set_rest [] w)).
Proof.
  intros k e w id name H.
  assert (P : 0 <= zlength (rest w)) by apply zlength_nonneg.
  destruct k; simpl in H; unfold read_prim, IFF_readId, IFF_readUByte, IFF_readUWord,
    IFF_readWord, IFF_readULong, IFF_readLong, bind, ask, fgetc.
  - assert (E : rest w = []) by (apply zlength_0; lia). rewrite E, run_readError.
    unfold ret, set_rest, add_log. destruct w as [[rr s] o l n]; simpl in *. subst. reflexivity.
  - rewrite fread_short by assumption. rewrite (proj2 (Z.eqb_neq _ _)) by lia. rewrite run_readError. reflexivity.
  - rewrite fread_short by assumption. rewrite (proj2 (Z.eqb_neq _ _)) by lia. rewrite run_readError. reflexivity.
  - rewrite fread_short by assumption. rewrite (proj2 (Z.eqb_neq _ _)) by lia. rewrite run_readError. reflexivity.
  - rewrite fread_short by assumption. rewrite (proj2 (Z.eqb_neq _ _)) by lia. rewrite run_readError. reflexivity.
  - rewrite fread_short by assumption. rewrite (proj2 (Z.eqb_neq _ _)) by lia. rewrite run_readError. reflexivity.
Qed.

(** Every byte string of the right length is the encoding of one value. *)
Definition be_decode (k : fkind) (l : list byte) : Z :=
  let u := fold_left (fun acc b => acc * 256 + b2z b) l 0 in
  match k with
  | FUByte | FUWord | FULong | FId => u
  | FWord => wrap_s 16 u
  | FLong => wrap_s 32 u
  end.

Lemma be32_of_bytes : forall a b c d,
  be32 (b2z a * 2 ^ 24 + b2z b * 2 ^ 16 + b2z c * 2 ^ 8 + b2z d) = [a; b; c; d].
Proof.
  intros a b c d.
  pose proof (b2z_range a). pose proof (b2z_range b). pose proof (b2z_range c). pose proof (b2z_range d).
  unfold be32.
  replace ((b2z a * 2 ^ 24 + b2z b * 2 ^ 16 + b2z c * 2 ^ 8 + b2z d) / 2 ^ 24) with (b2z a)
    by (apply Z.div_unique with (b2z b * 2 ^ 16 + b2z c * 2 ^ 8 + b2z d); lia).
  replace ((b2z a * 2 ^ 24 + b2z b * 2 ^ 16 + b2z c * 2 ^ 8 + b2z d) / 2 ^ 16) with (b2z a * 2 ^ 8 + b2z b)
    by (apply Z.div_unique with (b2z c * 2 ^ 8 + b2z d); lia).
  replace ((b2z a * 2 ^ 24 + b2z b * 2 ^ 16 + b2z c * 2 ^ 8 + b2z d) / 2 ^ 8)
    with (b2z a * 2 ^ 16 + b2z b * 2 ^ 8 + b2z c)
    by (apply Z.div_unique with (b2z d); lia).
  rewrite (z2b_b2z a).
  assert (forall x y, z2b (x * 256 + b2z y) = y) as E.
  { intros x y. rewrite <- (z2b_b2z y) at 2. apply z2b_eq.
    rewrite Z.add_comm, Z.mod_add by lia. reflexivity. }
  replace (b2z a * 2 ^ 8 + b2z b) with (b2z a * 256 + b2z b) by lia.
  rewrite (E (b2z a) b).
  replace (b2z a * 2 ^ 16 + b2z b * 2 ^ 8 + b2z c) with ((b2z a * 2 ^ 8 + b2z b) * 256 + b2z c) by lia.
  rewrite E.
  replace (b2z a * 2 ^ 24 + b2z b * 2 ^ 16 + b2z c * 2 ^ 8 + b2z d)
    with ((b2z a * 2 ^ 16 + b2z b * 2 ^ 8 + b2z c) * 256 + b2z d) by lia.
  rewrite E. reflexivity.
Qed.

Lemma be16_of_bytes : forall a b, be16 (b2z a * 2 ^ 8 + b2z b) = [a; b].
Proof.
  intros a b. pose proof (b2z_range a). pose proof (b2z_range b). unfold be16.
  replace ((b2z a * 2 ^ 8 + b2z b) / 2 ^ 8) with (b2z a) by (apply Z.div_unique with (b2z b); lia).
  rewrite z2b_b2z. f_equal. f_equal. rewrite <- (z2b_b2z b) at 2. apply z2b_eq.
  rewrite Z.add_comm, Z.mod_add by lia. reflexivity.
Qed.

Lemma mod_weaken : forall x y a b, 0 < a -> 0 < b -> x mod (a * b) = y mod (a * b) -> x mod a = y mod a.
Proof.
  intros x y a b A B H.
  rewrite (Zmod_div_mod a (a * b) x), (Zmod_div_mod a (a * b) y), H;
    try lia; try nia; try (exists b; lia).
Qed.

Lemma div_pow_mod : forall x y m k, 0 <= k -> 0 < m -> x mod (2 ^ k * m) = y mod (2 ^ k * m) ->
  (x / 2 ^ k) mod m = (y / 2 ^ k) mod m.
Proof.
  intros x y m k K Hm H.
  assert (P : 0 < 2 ^ k) by (apply Z.pow_pos_nonneg; lia).
  assert (E : x mod 2 ^ k = y mod 2 ^ k) by (apply (mod_weaken _ _ _ m); assumption).
  rewrite !Z.rem_mul_r in H by lia. nia.
Qed.

Lemma be32_mod : forall x y, x mod 2 ^ 32 = y mod 2 ^ 32 -> be32 x = be32 y.
Proof.
  intros x y H. unfold be32.
  assert (E : forall k, 0 <= k <= 24 -> z2b (x / 2 ^ k) = z2b (y / 2 ^ k)).
  { intros k K. apply z2b_eq. apply div_pow_mod; [lia|lia|].
    replace (2 ^ 32) with (2 ^ k * 256 * 2 ^ (24 - k)) in H.
    2:{ change 256 with (2 ^ 8). rewrite <- !Z.pow_add_r by lia. f_equal; lia. }
    assert (0 < 2 ^ k) by (apply Z.pow_pos_nonneg; lia).
    assert (0 < 2 ^ (24 - k)) by (apply Z.pow_pos_nonneg; lia).
    apply (mod_weaken _ _ _ (2 ^ (24 - k))); [nia|lia|exact H]. }
  rewrite (E 24), (E 16), (E 8) by lia.
  pose proof (E 0 ltac:(lia)) as E0. rewrite Z.pow_0_r, !Z.div_1_r in E0. rewrite E0. reflexivity.
Qed.

Lemma be16_mod : forall x y, x mod 2 ^ 16 = y mod 2 ^ 16 -> be16 x = be16 y.
Proof.
  intros x y H. unfold be16.
  assert (E : z2b (x / 2 ^ 8) = z2b (y / 2 ^ 8)).
  { apply z2b_eq. apply div_pow_mod; [lia|lia|]. exact H. }
  rewrite E. f_equal. f_equal. apply z2b_eq.
  apply (mod_weaken _ _ 256 256); [lia|lia|exact H].
Qed.

Lemma list_len2 : forall (l : list byte), zlength l = 2 -> exists a b, l = [a; b].
Proof.
  intros [|a [|b [|c l]]] H; unfold zlength in H; simpl in H; try lia. exists a, b; reflexivity.
Qed.
Lemma list_len4 : forall (l : list byte), zlength l = 4 -> exists a b c d, l = [a; b; c; d].
Proof.
  intros [|a [|b [|c [|d [|x l]]]]] H; unfold zlength in H; simpl in H; try lia. exists a, b, c, d; reflexivity.
Qed.

Lemma be_field_surj : forall k l, zlength l = fieldSize k ->
  exists v, in_range k v /\ be_field k v = l.
Proof.
  intros k l H. destruct k; simpl in H.
  - destruct l as [|a [|b l]]; unfold zlength in H; simpl in H; try lia.
    exists (b2z a). simpl. rewrite z2b_b2z. split; [apply b2z_range|reflexivity].
  - destruct (list_len2 _ H) as (a & b & ->).
    exists (b2z a * 2 ^ 8 + b2z b). simpl be_field. rewrite be16_of_bytes. split; [|reflexivity].
    pose proof (b2z_range a). pose proof (b2z_range b). simpl. lia.
  - destruct (list_len2 _ H) as (a & b & ->).
    exists (wrap_s 16 (b2z a * 2 ^ 8 + b2z b)). simpl be_field.
    rewrite (be16_mod _ (b2z a * 2 ^ 8 + b2z b)) by (apply wrap_s_mod; lia).
    rewrite be16_of_bytes. split; [|reflexivity].
    apply (wrap_s_range 16). lia.
  - destruct (list_len4 _ H) as (a & b & c & d & ->).
    exists (b2z a * 2 ^ 24 + b2z b * 2 ^ 16 + b2z c * 2 ^ 8 + b2z d). simpl be_field.
    rewrite be32_of_bytes. split; [|reflexivity].
    pose proof (b2z_range a). pose proof (b2z_range b). pose proof (b2z_range c). pose proof (b2z_range d).
    simpl. lia.
  - destruct (list_len4 _ H) as (a & b & c & d & ->).
    exists (wrap_s 32 (b2z a * 2 ^ 24 + b2z b * 2 ^ 16 + b2z c * 2 ^ 8 + b2z d)). simpl be_field.
    rewrite (be32_mod _ (b2z a * 2 ^ 24 + b2z b * 2 ^ 16 + b2z c * 2 ^ 8 + b2z d)) by (apply wrap_s_mod; lia).
    rewrite be32_of_bytes. split; [|reflexivity].
    apply (wrap_s_range 32). lia.
  - destruct (list_len4 _ H) as (a & b & c & d & ->).
    exists (b2z a * 2 ^ 24 + b2z b * 2 ^ 16 + b2z c * 2 ^ 8 + b2z d). simpl be_field.
    rewrite be32_of_bytes. split; [|reflexivity].
    pose proof (b2z_range a). pose proof (b2z_range b). pose proof (b2z_range c). pose proof (b2z_range d).
    simpl. lia.
Qed.

(** Encodings are injective on the range. *)
Lemma be_field_inj : forall k v1 v2, in_range k v1 -> in_range k v2 ->
  be_field k v1 = be_field k v2 -> v1 = v2.
Proof.
  intros k v1 v2 R1 R2 H.
  set (e := mkEnv true true true false (fun _ _ => true) 0 (fun _ => 0%nat)).
  set (w := fun l => mkWorld (mkRfile l true) (mkWfile [] [] 0 None) [] 0%nat).
  assert (E1 := read_prim_ok k e (w (be_field k v1 ++ [])) v1 [] 0 "" ltac:(left; reflexivity) R1 eq_refl).
  assert (E2 := read_prim_ok k e (w (be_field k v2 ++ [])) v2 [] 0 "" ltac:(left; reflexivity) R2 eq_refl).
  rewrite H in E1. rewrite E1 in E2. injection E2. auto.
Qed.

(** ** Output streams *)

Lemma put_bytes_app : forall a b f,
  put_bytes (a ++ b) f =
  (let '(ok, f1) := put_bytes a f in if ok then put_bytes b f1 else (false, f1)).
Proof.
  induction a as [|x a IH]; intros b f; simpl.
  - reflexivity.
  - destruct (put_byte x f) as [ok f1]. destruct ok; [apply IH|reflexivity].
Qed.

(** ** Primitive writes *)

Lemma native_store_be32 : forall e v,
  native_store e 4 (if big_endian e then v else swap32 v) = be32 v.
Proof.
  intros e v. unfold native_store. destruct (big_endian e).
  - simpl. unfold be32. rewrite !Z.div_div by lia. reflexivity.
  - simpl le_store. unfold be32. rewrite swap32_arith.
    set (A := v mod 2 ^ 8). set (B := (v / 2 ^ 8) mod 2 ^ 8).
    set (C := (v / 2 ^ 16) mod 2 ^ 8). set (D := (v / 2 ^ 24) mod 2 ^ 8).
    assert (RA : 0 <= A < 256) by (apply Z.mod_pos_bound; lia).
    assert (RB : 0 <= B < 256) by (apply Z.mod_pos_bound; lia).
    assert (RC : 0 <= C < 256) by (apply Z.mod_pos_bound; lia).
    assert (RD : 0 <= D < 256) by (apply Z.mod_pos_bound; lia).
    replace (A * 2 ^ 24 + B * 2 ^ 16 + C * 2 ^ 8 + D) with (D + 256 * (C + 256 * (B + 256 * A))) by lia.
    destruct (byte_step D (C + 256 * (B + 256 * A)) RD) as [M1 ->].
    destruct (byte_step C (B + 256 * A) RC) as [M2 ->].
    destruct (byte_step B A RB) as [M3 ->].
    f_equal; [|f_equal; [|f_equal; [|f_equal]]].
    + apply z2b_eq. rewrite M1. reflexivity.
    + apply z2b_eq. rewrite M2. reflexivity.
    + apply z2b_eq. rewrite M3. reflexivity.
    + apply z2b_eq. unfold A. change (2 ^ 8) with 256. apply Z.mod_mod. lia.
Qed.

Lemma le_store_mod : forall n x y, x mod 2 ^ (8 * Z.of_nat n) = y mod 2 ^ (8 * Z.of_nat n) ->
  le_store n x = le_store n y.
Proof.
  induction n as [|n IH]; intros x y H; [reflexivity|].
  cbn [le_store].
  replace (2 ^ (8 * Z.of_nat (S n))) with (2 ^ 8 * 2 ^ (8 * Z.of_nat n)) in H
    by (rewrite <- Z.pow_add_r by lia; f_equal; lia).
  assert (P : 0 < 2 ^ (8 * Z.of_nat n)) by (apply Z.pow_pos_nonneg; lia).
  f_equal.
  - apply z2b_eq. apply (mod_weaken _ _ 256 (2 ^ (8 * Z.of_nat n))); [lia|lia|exact H].
  - apply IH. change 256 with (2 ^ 8). apply div_pow_mod; lia.
Qed.

Lemma native_store_mod : forall e n x y, x mod 2 ^ (8 * Z.of_nat n) = y mod 2 ^ (8 * Z.of_nat n) ->
  native_store e n x = native_store e n y.
Proof. intros. unfold native_store. rewrite (le_store_mod n x y) by assumption. reflexivity. Qed.

Lemma native_store_be16 : forall e v,
  native_store e 2 (if big_endian e then v else swap16 v) = be16 v.
Proof.
  intros e v. unfold native_store. destruct (big_endian e).
  - simpl. unfold be16. reflexivity.
  - simpl le_store. unfold be16. rewrite swap16_arith.
    set (A := v mod 2 ^ 8). set (B := (v / 2 ^ 8) mod 2 ^ 8).
    assert (RA : 0 <= A < 256) by (apply Z.mod_pos_bound; lia).
    assert (RB : 0 <= B < 256) by (apply Z.mod_pos_bound; lia).
    replace (A * 2 ^ 8 + B) with (B + 256 * A) by lia.
    destruct (byte_step B A RB) as [M1 ->].
    f_equal; [|f_equal].
    + apply z2b_eq. rewrite M1. reflexivity.
    + apply z2b_eq. unfold A. change (2 ^ 8) with 256. apply Z.mod_mod. lia.
Qed.

(** What a write of the bytes [l] does to the world, and whether it succeeds. *)
Definition put (l : list byte) (w : world) : bool * world :=
  let '(ok, f) := put_bytes l (w_out w) in (ok, set_out f w).

Lemma fwrite_put : forall l e w, fwrite l e w = Done (put l w).
Proof. intros. unfold fwrite, put. destruct (put_bytes l (w_out w)); reflexivity. Qed.

Lemma put_app : forall a b w,
  put (a ++ b) w = (let '(ok, w1) := put a w in if ok then put b w1 else (false, w1)).
Proof.
  intros a b w. unfold put. rewrite put_bytes_app.
  destruct (put_bytes a (w_out w)) as [ok f]. destruct ok; [|reflexivity].
  simpl. destruct (put_bytes b f). reflexivity.
Qed.

Lemma write_prim_ok : forall k e w v id name,
  strict_c e = false \/ big_endian e = true \/ k <> FLong ->
  write_prim k v id name e w =
  (let '(ok, w1) := put (be_field k v) w in
   if ok then Done (true, w1) else Done (false, add_log (writeError_log id name) w1)).
Proof.
  intros k e w v id name S.
  destruct k; unfold write_prim, IFF_writeId, IFF_writeUByte, IFF_writeUWord,
    IFF_writeWord, IFF_writeULong, IFF_writeLong, bind, ask, fputc.
  - rewrite fwrite_put. simpl be_field. destruct (put [z2b v] w) as [[] w1]; [reflexivity|].
    rewrite run_writeError. reflexivity.
  - assert (E : native_store e 2 (if big_endian e then v else wrap_u 16 (swap16 v)) = be16 v).
    { rewrite <- (native_store_be16 e v). apply native_store_mod.
      destruct (big_endian e); [reflexivity|]. unfold wrap_u. apply Z.mod_mod. lia. }
    rewrite E, fwrite_put. simpl be_field. destruct (put (be16 v) w) as [[] w1]; [reflexivity|].
    rewrite run_writeError. reflexivity.
  - assert (E : native_store e 2 (if big_endian e then v else wrap_s 16 (swap16 v)) = be16 v).
    { rewrite <- (native_store_be16 e v). apply native_store_mod.
      destruct (big_endian e); [reflexivity|]. apply (wrap_s_mod 16). lia. }
    rewrite E, fwrite_put. simpl be_field. destruct (put (be16 v) w) as [[] w1]; [reflexivity|].
    rewrite run_writeError. reflexivity.
  - assert (E : native_store e 4 (if big_endian e then v else wrap_u 32 (swap32 v)) = be32 v).
    { rewrite <- (native_store_be32 e v). apply native_store_mod.
      destruct (big_endian e); [reflexivity|]. unfold wrap_u. apply Z.mod_mod. lia. }
    rewrite E, fwrite_put. simpl be_field. destruct (put (be32 v) w) as [[] w1]; [reflexivity|].
    rewrite run_writeError. reflexivity.
  - assert (E : native_store e 4 (if big_endian e then v else wrap_s 32 (swap32 v)) = be32 v).
    { rewrite <- (native_store_be32 e v). apply native_store_mod.
      destruct (big_endian e); [reflexivity|]. apply (wrap_s_mod 32). lia. }
    destruct (big_endian e) eqn:B.
    + unfold ret. rewrite E, fwrite_put. simpl be_field. destruct (put (be32 v) w) as [[] w1]; [reflexivity|].
      rewrite run_writeError. reflexivity.
    + unfold swap_long. destruct S as [S|[S|S]]; [|congruence|congruence].
      rewrite S. cbn [andb]. cbv iota zeta. unfold ret.
      rewrite E, fwrite_put. simpl be_field. destruct (put (be32 v) w) as [[] w1]; [reflexivity|].
      rewrite run_writeError. reflexivity.
  - assert (E : native_store e 4 (if big_endian e then v else wrap_u 32 (swap32 v)) = be32 v).
    { rewrite <- (native_store_be32 e v). apply native_store_mod.
      destruct (big_endian e); [reflexivity|]. unfold wrap_u. apply Z.mod_mod. lia. }
    rewrite E, fwrite_put. simpl be_field. destruct (put (be32 v) w) as [[] w1]; [reflexivity|].
    rewrite run_writeError. reflexivity.
Qed.
