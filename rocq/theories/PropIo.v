(** * Properties C01, C02, C03, C05: primitive values and fields *)

From Coq Require Import ZArith List Bool String Lia.
From Coq Require Import Strings.Byte.
From Verif Require Import Machine Io Types Build Spec Lemmas IoProofs ApiProofs PrimProofs Examples.
Import ListNotations.
Open Scope Z_scope.

(** ** C01.  [Wire k v l]: [l] is the big-endian two's-complement form of [v].
    [write_prim] / [read_prim] are IFF_write<T> / IFF_read<T> for the type [k]. *)

Theorem C01_written_big_endian : forall k v e w id name,
  strict_c e = false -> o_room (w_out w) = None -> in_range k v ->
  exists l w', Wire k v l /\ write_prim k v id name e w = Done (true, w') /\
    handed (w_out w') = handed (w_out w) ++ l /\ w_log w' = w_log w /\ w_in w' = w_in w.
Proof. exact write_prim_handed. Qed.
Print Assumptions C01_written_big_endian.

Theorem C01_read_big_endian : forall k v l r e w id name,
  strict_c e = false -> Wire k v l -> r_rest (w_in w) = l ++ r ->
  read_prim k id name e w = Done (Some v, with_input r w).
Proof. exact read_prim_wire. Qed.
Print Assumptions C01_read_big_endian.

(** Every byte string of the right length denotes exactly one value. *)
Theorem C01_wire_bijective : forall k,
  (forall l, zlength l = fieldSize k -> exists v, Wire k v l) /\
  (forall v, in_range k v -> exists l, Wire k v l) /\
  (forall v1 v2 l, Wire k v1 l -> Wire k v2 l -> v1 = v2) /\
  (forall v l1 l2, Wire k v l1 -> Wire k v l2 -> l1 = l2).
Proof.
  intro k. split; [exact (Wire_total k)|]. split; [|split].
  - intros v R. exists (be_field k v). exact (be_field_Wire k v R).
  - intros v1 v2 l (R1 & _ & V1) (R2 & _ & V2). apply (in_range_mod_inj k); congruence || assumption.
  - intros v l1 l2 W1 W2. rewrite (Wire_be_field _ _ _ W1), (Wire_be_field _ _ _ W2). reflexivity.
Qed.
Print Assumptions C01_wire_bijective.

Example C01_example_word : Wire FWord (-2) [xff; xfe] /\ Wire FULong 305419896 [x12; x34; x56; x78].
Proof. repeat split; vm_compute; congruence. Qed.

Example C01_example_run :
  IFF_writeWord (-2) 0 "x" (host false) (start [])
  = Done (true, mkWorld (mkRfile [] true) (mkWfile [] [xff; xfe] 16 None) [] 0)
  /\ IFF_writeWord (-2) 0 "x" (host true) (start []) = IFF_writeWord (-2) 0 "x" (host false) (start []).
Proof. split; vm_compute; reflexivity. Qed.

(** ** C02 *)

Theorem C02_integer_round_trip : forall k v e1 e2 w1 w2 id1 name1 id2 name2 r,
  strict_c e1 = false -> strict_c e2 = false -> o_room (w_out w1) = None -> in_range k v ->
  exists l w1', write_prim k v id1 name1 e1 w1 = Done (true, w1') /\
    handed (w_out w1') = handed (w_out w1) ++ l /\
    (r_rest (w_in w2) = l ++ r ->
     read_prim k id2 name2 e2 w2 = Done (Some v, with_input r w2)).
Proof.
  intros k v e1 e2 w1 w2 id1 name1 id2 name2 r N1 N2 RM R.
  destruct (write_prim_handed k v e1 w1 id1 name1 N1 RM R) as (l & w1' & W & E & H & _).
  exists l, w1'. split; [exact E|]. split; [exact H|].
  intro RR. exact (read_prim_wire k v l r e2 w2 id2 name2 N2 W RR).
Qed.
Print Assumptions C02_integer_round_trip.

Example C02_example : in_range FLong (-123456789) /\
  IFF_readLong 0 "x" (host true)
    (start (o_buf (w_out (match IFF_writeLong (-123456789) 0 "x" (host false) (start []) with
                          | Done (_, w) => w | _ => start [] end)) ++ [x01]))
  = Done (Some (-123456789), start [x01]).
Proof. split; [vm_compute; split; congruence|vm_compute; reflexivity]. Qed.

(** ** C03 *)

Theorem C03_short_read_fails : forall k e w id name,
  zlength (r_rest (w_in w)) < fieldSize k ->
  exists w', read_prim k id name e w = Done (None, w') /\ reported w w'.
Proof. exact read_prim_fails. Qed.
Print Assumptions C03_short_read_fails.

(** With enough bytes it succeeds, consuming exactly the width of the type and
    reporting nothing: failure happens only on short input. *)
Theorem C03_full_read_succeeds : forall k e w id name,
  strict_c e = false -> fieldSize k <= zlength (r_rest (w_in w)) ->
  exists v, read_prim k id name e w = Done (Some v, with_input (zdrop (fieldSize k) (r_rest (w_in w))) w).
Proof.
  intros k e w id name NS L.
  destruct (Wire_total k (ztake (fieldSize k) (rest w))) as [v W].
  { rewrite zlength_ztake. pose proof (WriteProofs.fieldSize_range k). lia. }
  exists v. apply (read_prim_wire k v _ _ e w id name NS W). symmetry. apply ztake_zdrop.
Qed.
Print Assumptions C03_full_read_succeeds.

Example C03_example : exists w',
  IFF_readULong 0 "x" (host false) (start [x01; x02; x03]) = Done (None, w') /\ w_log w' <> [].
Proof. eexists. split; [vm_compute; reflexivity|discriminate]. Qed.

(** ** C05 *)

Theorem C05_field_virtual_eof : forall k e w cid size name bp,
  strict_c e = false -> fieldSize k <= size <= INT_MAX -> 0 <= bp <= INT_MAX ->
  (bp + fieldSize k <= size -> fieldSize k <= zlength (r_rest (w_in w)) ->
     exists v l, r_rest (w_in w) = l ++ zdrop (fieldSize k) (r_rest (w_in w)) /\ Wire k v l /\
       IFF_readField k cid size name bp e w
       = Done ((FIELD_MORE, Some v, bp + fieldSize k),
               with_input (zdrop (fieldSize k) (r_rest (w_in w))) w)) /\
  (bp + fieldSize k <= size -> zlength (r_rest (w_in w)) < fieldSize k ->
     exists w', IFF_readField k cid size name bp e w = Done ((FIELD_FAILURE, None, bp), w') /\ reported w w') /\
  (size < bp + fieldSize k ->
     IFF_readField k cid size name bp e w = Done ((FIELD_LAST, None, bp), w)).
Proof. exact read_field_fits. Qed.
Print Assumptions C05_field_virtual_eof.

Example C05_example :
  IFF_readField FUWord 0 3 "x" 2 (host false) (start [x01; x02; x03])
  = Done ((FIELD_LAST, None, 2), start [x01; x02; x03])
  /\ IFF_readField FUWord 0 4 "x" 2 (host false) (start [x01; x02; x03])
     = Done ((FIELD_MORE, Some 258, 4), start [x03]).
Proof. split; vm_compute; reflexivity. Qed.

(** Without the precondition [fieldSize k <= size] the claim is false: a field
    wider than the whole chunk is read although it does not fit. *)
Theorem C05_small_chunk_refuted : exists k e w cid size name bp,
  usual e /\ 0 <= size /\ bp = 0 /\ size < bp + fieldSize k /\
  exists v w', IFF_readField k cid size name bp e w = Done ((FIELD_MORE, Some v, bp + fieldSize k), w')
    /\ zlength (r_rest (w_in w')) < zlength (r_rest (w_in w)) - size.
Proof.
  exists FId, (host false), (start [x41; x42; x43; x44]), 0, 1, ""%string, 0.
  split; [apply usual_host|]. split; [lia|]. split; [reflexivity|]. split; [vm_compute; reflexivity|].
  eexists. eexists. split; vm_compute; reflexivity.
Qed.
Print Assumptions C05_small_chunk_refuted.

(** It is read even at an advanced position. *)
Theorem C05_small_chunk_overrun : forall e k cid size name bp w,
  strict_c e = false -> 0 <= size < fieldSize k -> 0 <= bp <= INT_MAX ->
  fieldSize k <= zlength (r_rest (w_in w)) ->
  exists v, IFF_readField k cid size name bp e w
    = Done ((FIELD_MORE, Some v, increaseBytesProcessed bp (fieldSize k)),
            with_input (zdrop (fieldSize k) (r_rest (w_in w))) w).
Proof.
  intros e k cid size name bp w NS S B L. unfold IFF_readField, bind, ask.
  assert (F : fieldDoesNotFitInChunk e (fieldSize k) size bp = false).
  { pose proof (WriteProofs.fieldSize_range k). unfold fieldDoesNotFitInChunk.
    pose proof (WriteProofs.size_t_pow e). rewrite (WriteProofs.wrap_size_id e size) by lia.
    unfold INT_MAX in *. rewrite (WriteProofs.wrap_size_id e bp) by lia.
    assert (E : wrap_u (size_t_bits e) (size - fieldSize k) = 2 ^ size_t_bits e + (size - fieldSize k)).
    { unfold wrap_u. symmetry. apply Z.mod_unique with (q := -1); lia. }
    rewrite E. apply Z.ltb_ge. lia. }
  rewrite F.
  destruct (C03_full_read_succeeds k e w cid name NS L) as [v E]. exists v. rewrite E. reflexivity.
Qed.
Print Assumptions C05_small_chunk_overrun.
