(** * C58: reliance on behaviour ISO C leaves undefined *)

From Coq Require Import ZArith List Bool String Lia.
From Coq Require Import Strings.Byte.
From Verif Require Import Machine Io Types Build Read Write Iff Spec Lemmas IoProofs Examples TestExt StrictProofs.
Import ListNotations.
Open Scope Z_scope.

(** On any host, reading and writing do what they do on a host with two's
    complement shifts and a lenient printf, or run into exactly one of the two
    violations: a signed shift into the sign bit, or a printf conversion that
    does not match its argument. *)
Theorem C58_only_these_violations : forall e,
  (forall rg w, IFF_readFd rg e w = IFF_readFd rg (lenient e) w \/
     IFF_readFd rg e w = Undefined UB_signed_shift \/ IFF_readFd rg e w = Undefined UB_printf_type) /\
  (forall c rg w, IFF_writeFd c rg e w = IFF_writeFd c rg (lenient e) w \/
     IFF_writeFd c rg e w = Undefined UB_signed_shift \/ IFF_writeFd c rg e w = Undefined UB_printf_type).
Proof. intro e. split; [intros rg w; apply st_readFd|intros c rg w; apply st_writeChunk]. Qed.
Print Assumptions C58_only_these_violations.

Lemma low_byte : forall a b c d, Z.land (wrap_s 32 (native_load (host false) [a; b; c; d])) 255 = b2z a.
Proof.
  intros a b c d. unfold native_load. cbn [big_endian host le_load]. change 255 with (Z.ones 8). rewrite Z.land_ones by lia. change (2 ^ 8) with 256.
  unfold wrap_s. change (2 ^ (32 - 1)) with (8388608 * 256). change (2 ^ 32) with (16777216 * 256).
  pose proof (b2z_range a). pose proof (b2z_range b). pose proof (b2z_range c). pose proof (b2z_range d).
  rewrite Zminus_mod, Z_mod_mult, Z.sub_0_r, Z.mod_mod by lia.
  rewrite <- (Znumtheory.Zmod_div_mod 256 (16777216 * 256)); [|lia|lia|exists 16777216; lia].
  symmetry. apply Z.mod_unique with (q := b2z b + 256 * (b2z c + 256 * (b2z d + 256 * 0)) + 8388608); lia.
Qed.

(** Reading a Long on a little-endian host: undefined exactly when the number
    is negative. *)
Theorem C58_read_long_refuted : forall e a b c d r id name w,
  strict_c e = true -> big_endian e = false -> r_rest (w_in w) = a :: b :: c :: d :: r ->
  (128 <= b2z a -> IFF_readLong id name e w = Undefined UB_signed_shift) /\
  (b2z a < 128 -> IFF_readLong id name e w = IFF_readLong id name (lenient e) w).
Proof.
  intros e a b c d r id name w S B R. unfold IFF_readLong, bind, ask, fread. rewrite R.
  change (ztake 4 (a :: b :: c :: d :: r)) with (a :: b :: c :: d :: ztake 0 r). rewrite (ztake_0 _ 0 r) by lia.
  change (zlength [a; b; c; d] =? 4) with true. cbn iota. change (big_endian (lenient e)) with (big_endian e). rewrite B.
  assert (N : forall l, native_load e l = native_load (host false) l) by (intro; unfold native_load; rewrite B; reflexivity).
  assert (N2 : forall l, native_load (lenient e) l = native_load (host false) l) by (intro; unfold native_load; change (big_endian (lenient e)) with (big_endian e); rewrite B; reflexivity).
  rewrite N, N2. unfold swap_long. change (strict_c (lenient e)) with false. rewrite S, low_byte. cbn [andb].
  split; intro H.
  - replace (128 <=? b2z a) with true by (symmetry; apply Z.leb_le; lia). reflexivity.
  - replace (128 <=? b2z a) with false by (symmetry; apply Z.leb_gt; lia). reflexivity.
Qed.
Print Assumptions C58_read_long_refuted.

(** Writing a Long on a little-endian host: undefined exactly when its lowest
    byte is 128 or more, so already for chunks of 128 bytes. *)
Theorem C58_write_long_refuted : forall e v id name w, strict_c e = true -> big_endian e = false ->
  (128 <= v mod 256 -> IFF_writeLong v id name e w = Undefined UB_signed_shift) /\
  (v mod 256 < 128 -> IFF_writeLong v id name e w = IFF_writeLong v id name (lenient e) w).
Proof.
  intros e v id name w S B. unfold IFF_writeLong, bind, ask. change (big_endian (lenient e)) with (big_endian e). rewrite B.
  assert (L : Z.land v 255 = v mod 256) by (change 255 with (Z.ones 8); rewrite Z.land_ones by lia; reflexivity).
  unfold swap_long. change (strict_c (lenient e)) with false. rewrite S, L. cbn [andb]. split; intro H.
  - replace (128 <=? v mod 256) with true by (symmetry; apply Z.leb_le; lia). reflexivity.
  - replace (128 <=? v mod 256) with false by (symmetry; apply Z.leb_gt; lia). unfold ret, fwrite.
    change (native_store (lenient e)) with (native_store e). destruct (put_bytes _ _) as [[] f]; reflexivity.
Qed.
Print Assumptions C58_write_long_refuted.

(** Every other primitive, and every primitive on a big-endian host, is free of
    both. *)
Theorem C58_other_primitives : forall e k w, big_endian e = true \/ k <> FLong ->
  (forall id name, read_prim k id name e w = read_prim k id name (lenient e) w) /\
  (forall v id name, write_prim k v id name e w = write_prim k v id name (lenient e) w).
Proof.
  intros e k w H.
  assert (H' : big_endian (lenient e) = true \/ k <> FLong) by exact H. split.
  - intros id name. destruct (Z_lt_le_dec (zlength (rest w)) (fieldSize k)) as [L|L]; [rewrite !read_prim_short by exact L; reflexivity|].
    destruct (be_field_surj k (ztake (fieldSize k) (rest w))) as (v & RV & E).
    { rewrite ztake_firstn. unfold zlength in *. rewrite firstn_length. destruct k; cbn in *; lia. }
    assert (RR : rest w = be_field k v ++ zdrop (fieldSize k) (rest w)).
    { rewrite E, ztake_firstn, zdrop_skipn. symmetry. apply firstn_skipn. }
    rewrite (read_prim_ok k e w v _ id name (or_intror H) RV RR), (read_prim_ok k (lenient e) w v _ id name (or_intror H') RV RR). reflexivity.
  - intros v id name. rewrite !write_prim_ok by (right; assumption). reflexivity.
Qed.
Print Assumptions C58_other_primitives.

(** *** Whole files *)

(** A host that keeps to the letter of ISO C. *)
Definition iso (be : bool) : env := mkEnv be true true true (fun _ _ => true) 0 (fun _ => 0%nat).

(** The library cannot write a 128-byte chunk without undefined behaviour. *)
Theorem C58_write_128_refuted :
  let c := CGroup FORM_ID 140 (ID_of "TEST") [CRaw (ID_of "DATA") 128 (Some (repeat x41 128))] in
  WF no_apps 0 c /\ IFF_writeFd c None (iso false) (start []) = Undefined UB_signed_shift /\
  (exists w, IFF_writeFd c None (iso true) (start []) = Done (true, w)) /\
  (exists w, IFF_writeFd c None (host false) (start []) = Done (true, w)).
Proof.
  cbv zeta. split; [|split; [vm_compute; reflexivity|split; eexists; vm_compute; reflexivity]].
  apply WF_group; [simpl; tauto|wf_num| |reflexivity|vm_compute; discriminate].
  intros c [<-|[]]. apply (WF_raw no_apps _ (ID_of "DATA") (repeat x41 128)); [wf_num|wf_id|reflexivity|vm_compute; discriminate].
Qed.
Print Assumptions C58_write_128_refuted.

(** A group that is shorter than its members: group.c 92 and list.c 105 print a
    pointer as a number. *)
Theorem C58_truncated_warning_refuted : forall be,
  let l i := be32 (ID_of i) ++ be32 6 ++ be32 (ID_of "TEST") ++ be32 (ID_of "FORM") ++ be32 4 ++ be32 (ID_of "ABCD") in
  IFF_readFd None (iso be) (start (l "FORM"%string)) = Undefined UB_printf_type /\
  IFF_readFd None (iso be) (start (l "LIST"%string)) = Undefined UB_printf_type /\
  match IFF_readFd None (host be) (start (l "FORM"%string)) with Done (Some _, _) => True | _ => False end.
Proof. intros []; vm_compute; repeat split. Qed.
Print Assumptions C58_truncated_warning_refuted.

(** Skipping unknown bytes (io.c 217): a long printed with %d. *)
Theorem C58_skip_refuted : forall be,
  let l := be32 FORM_ID ++ be32 22 ++ be32 TEST_ID_TEST ++ be32 TEST_ID_BYE ++ be32 10 ++ be32 1 ++ be32 2 ++ bytes "xy" in
  IFF_readFd (Some TEST_scopedRegistry) (iso be) (start l) = Undefined UB_printf_type /\
  match IFF_readFd (Some TEST_scopedRegistry) (host be) (start l) with Done (Some _, _) => True | _ => False end.
Proof. intros []; vm_compute; repeat split. Qed.
Print Assumptions C58_skip_refuted.

(** Filling up with zeros on a full device (io.c 239): a size_t printed with %u. *)
Theorem C58_filler_refuted : forall be,
  let c := CGroup FORM_ID 20 (ID_of "TEST") [] in
  IFF_writeFd c None (iso be) (start_full [] 8) = Undefined UB_printf_type /\
  match IFF_writeFd c None (host be) (start_full [] 8) with Done (false, _) => True | _ => False end.
Proof. intros []; vm_compute; repeat split. Qed.
Print Assumptions C58_filler_refuted.

(** Without these, ISO hosts agree with the others. *)
Example C58_example : 
  IFF_readFd None (iso false) (start (encode ex_cat)) = IFF_readFd None (host false) (start (encode ex_cat)) /\
  IFF_writeFd ex_cat None (iso false) (start []) = IFF_writeFd ex_cat None (host false) (start []).
Proof. split; vm_compute; reflexivity. Qed.
