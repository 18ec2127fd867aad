(** * Properties C12-C15, C18-C20, C34, C56, C57, C60: reading *)

From Coq Require Import ZArith List Bool String Lia.
From Coq Require Import Strings.Byte.
From Verif Require Import Machine Io Types Build Read Write Iff TestExt Spec Lemmas IoProofs RegProofs Grammar
  ReadProofs DetProofs SoundProofs RoundProofs ApiProofs TermProofs FileProofs PrimProofs Examples.
Import ListNotations.
Open Scope Z_scope.

Lemma default_registry : Realises (selectChunkRegistry None) no_apps.
Proof. exact (default_realises _ eq_refl). Qed.
Lemma no_apps_sane : SaneApps no_apps.
Proof. intros ft i s H. discriminate. Qed.
Lemma no_apps_none : forall ft i, no_apps ft i = None.
Proof. reflexivity. Qed.

(** ** C12.  Reading ends, for every registry, host, stream and content; a
    larger step bound gives the same result, and the tree has at most one
    chunk per eight bytes of input. *)

Theorem C12_reading_terminates : forall rg e w, IFF_readFd rg e w <> OutOfFuel.
Proof. exact readFd_terminates. Qed.
Print Assumptions C12_reading_terminates.

Theorem C12_bound_irrelevant : forall rg ft e w fuel, (List.length (r_rest (w_in w)) < fuel)%nat ->
  IFF_readChunk rg fuel ft e w = IFF_readChunk rg (S (List.length (r_rest (w_in w)))) ft e w.
Proof.
  intros rg ft e w fuel L.
  destruct (readChunk_more rg (S (List.length (r_rest (w_in w)))) fuel ft L e w) as [E|E]; [|exact E].
  pose proof (readChunk_eats rg (S (List.length (r_rest (w_in w)))) ft e w) as H. rewrite E in H.
  unfold left in H. lia.
Qed.
Print Assumptions C12_bound_irrelevant.

Theorem C12_tree_bounded : forall rg app e w c w',
  Realises (selectChunkRegistry rg) app -> strict_c e = false -> SaneApps app -> ExactInput app w ->
  IFF_readFd rg e w = Done (Some c, w') -> 8 * chunks c <= zlength (r_rest (w_in w)).
Proof.
  intros rg app e w c w' RG NS SA K H.
  destruct (readFd_sound rg app e w c w' RG NS SA K H) as (l & t & lg & n & P & R & _).
  rewrite R, zlength_app. pose proof (proj1 (Parsed_chunks e app) _ _ _ _ P). pose proof (zlength_nonneg _ t). lia.
Qed.
Print Assumptions C12_tree_bounded.

Example C12_example : match IFF_readFd None (host false) (start (encode ex_cat)) with
  | Done (Some c, _) => chunks c = 10 /\ zlength (encode ex_cat) = 114 | _ => False end.
Proof. vm_compute. split; reflexivity. Qed.

(** ** C13.  No undefined behaviour on inputs of less than 2 GiB in which no
    group header declares a negative size, given memory. *)

Theorem C13_no_undefined_behaviour : forall e w u,
  usual e -> Benign no_apps (r_rest (w_in w)) -> zlength (r_rest (w_in w)) <= INT_MAX ->
  zlength (r_rest (w_in w)) < 2 ^ (size_t_bits e - 1) ->
  IFF_readFd None e w <> Undefined u.
Proof.
  intros e w u U B L LM H. pose proof (readFd_outcome None no_apps e w default_registry (not_strict _ U) no_apps_sane) as O.
  rewrite H in O. destruct O as [[_ N]|[_ N]].
  - apply N. split; [exact B|]. split; [exact L|]. right. reflexivity.
  - destruct N as (n & sz & BB & [M|M]); [rewrite (memory _ U) in M; discriminate|lia].
Qed.
Print Assumptions C13_no_undefined_behaviour.

(** The same for extension registries, on streams that cannot seek. *)
Theorem C13_no_undefined_behaviour_extension : forall rg app e w u,
  Realises (selectChunkRegistry rg) app -> SaneApps app -> ExactInput app w ->
  usual e -> Benign app (r_rest (w_in w)) -> zlength (r_rest (w_in w)) <= INT_MAX ->
  zlength (r_rest (w_in w)) < 2 ^ (size_t_bits e - 1) ->
  IFF_readFd rg e w <> Undefined u.
Proof.
  intros rg app e w u RG SA K U B L LM H. pose proof (readFd_outcome rg app e w RG (not_strict _ U) SA) as O.
  rewrite H in O. destruct O as [[_ N]|[_ N]].
  - apply N. split; [exact B|]. split; [exact L|exact K].
  - destruct N as (n & sz & BB & [M|M]); [rewrite (memory _ U) in M; discriminate|lia].
Qed.
Print Assumptions C13_no_undefined_behaviour_extension.

(** Whatever the input and whether or not memory runs out: the only undefined
    behaviours are the overflow of the running size, and the use of the NULL
    that an unchecked allocation, of no more bytes than the input has, returned. *)
Theorem C13_only_overflow_or_null : forall rg app e w u,
  Realises (selectChunkRegistry rg) app -> SaneApps app -> strict_c e = false ->
  IFF_readFd rg e w = Undefined u ->
  u = UB_signed_overflow \/
  (u = UB_null_deref /\ exists n sz, 0 < sz <= zlength (r_rest (w_in w)) /\ (malloc_ok e n sz = false \/ 2 ^ (size_t_bits e - 1) <= sz)).
Proof.
  intros rg app e w u RG SA NS H. pose proof (readFd_outcome rg app e w RG NS SA) as O.
  rewrite H in O. destruct O as [[-> _]|[-> N]]; [left; reflexivity|right; split; [reflexivity|exact N]].
Qed.
Print Assumptions C13_only_overflow_or_null.

(** 48 bytes with negative group sizes: bytesProcessed reaches INT_MAX - 1 and
    the next addition overflows. *)
Definition hostile : list byte :=
  be32 FORM_ID ++ be32 INT_MAX ++ be32 (ID_of "TEST")
  ++ flat_map (fun s => be32 FORM_ID ++ be32 s ++ be32 (ID_of "TEST")) [-2147483648; -22; -2].

Theorem C13_negative_sizes_refuted :
  zlength hostile = 48 /\ usual (host false) /\
  IFF_readFd None (host false) (start hostile) = Undefined UB_signed_overflow.
Proof. split; [reflexivity|]. split; [apply usual_host|]. vm_compute. reflexivity. Qed.
Print Assumptions C13_negative_sizes_refuted.

(** A sufficient condition that can be computed: no group ID anywhere is
    followed by a byte of 0x80 or more. *)
Definition benign_at (l : list byte) : bool :=
  match l with
  | a :: b :: c :: d :: s :: _ =>
      negb (existsb (Z.eqb (be_value [a; b; c; d])) group_ids && (128 <=? b2z s))
  | _ => true
  end.
Fixpoint benign (l : list byte) : bool :=
  benign_at l && match l with [] => true | _ :: r => benign r end.

Lemma benign_sound : forall l, benign l = true -> Benign no_apps l.
Proof.
  intros l H pre i s post E RI RS [G|(ft & spec & X)]; [|discriminate].
  revert l H E. induction pre as [|x pre IH]; intros l H E.
  - simpl in E. subst l. cbn [benign] in H. apply andb_prop in H. destruct H as [H _].
    cbn [be32 Datatypes.app benign_at] in H.
    assert (V : be_value (be32 i) = i).
    { destruct (PrimProofs.be_field_Wire FId i RI) as (_ & _ & V). cbn [be_field fieldSize] in V.
      rewrite V. cbn [in_range] in RI. rewrite Z.mod_small; [reflexivity|]. exact RI. }
    unfold be32 in V. rewrite V in H.
    assert (EX : existsb (Z.eqb i) group_ids = true).
    { apply existsb_exists. exists i. split; [exact G|apply Z.eqb_refl]. }
    rewrite EX in H. cbn [andb] in H. apply negb_true_iff, Z.leb_gt in H.
    cbn [in_range] in RS. destruct (Z.lt_ge_cases s 0) as [N|N]; [|exact N]. exfalso.
    rewrite b2z_z2b in H.
    assert (s / 2 ^ 24 = s / 2 ^ 24) by reflexivity.
    assert (-128 <= s / 2 ^ 24 < 0).
    { split; [apply Z.div_le_lower_bound; lia|apply Z.div_lt_upper_bound; lia]. }
    rewrite <- (Z.mod_add _ 1 256) in H by lia. rewrite Z.mod_small in H; lia.
  - destruct l as [|y l]; [discriminate|]. injection E as -> E. cbn [benign] in H.
    apply andb_prop in H. apply (IH l); [apply H|exact E].
Qed.

Example C13_example : Benign no_apps (encode ex_cat) /\ zlength (encode ex_cat) <= INT_MAX.
Proof. split; [apply benign_sound; vm_compute; reflexivity|vm_compute; discriminate]. Qed.

(** ** C14.  A successful read: the input is a file holding the returned tree,
    followed by what is left; one byte of that is consumed to see whether
    there is any. *)

Theorem C14_read_is_exact : forall e w c w', strict_c e = false ->
  IFF_readFd None e w = Done (Some c, w') ->
  exists l t, r_rest (w_in w) = l ++ t /\ Stored c l /\ r_rest (w_in w') = tl t /\ w_out w' = w_out w.
Proof.
  intros e w c w' NS H.
  destruct (readFd_sound None no_apps e w c w' default_registry NS no_apps_sane (or_intror no_apps_none) H)
    as (l & t & lg & n & P & R & ->).
  exists l, t. split; [exact R|]. split; [exact (proj1 (Parsed_Stored e no_apps no_apps_none) _ _ _ _ P)|].
  split; reflexivity.
Qed.
Print Assumptions C14_read_is_exact.

(** For every registry that scopes its tables properly: the reader accepts
    exactly the grammar of Grammar.v, and returns the tree and the diagnostics
    it says. *)
Theorem C14_reader_decides_grammar : forall rg app e w c w',
  Realises (selectChunkRegistry rg) app -> SaneApps app -> ExactInput app w -> strict_c e = false ->
  IFF_readFd rg e w = Done (Some c, w') ->
  exists l t lg n, Parsed e app 0 l c lg /\ r_rest (w_in w) = l ++ t /\
    w' = after (tl t) (trailing_warning t ++ lg) n w.
Proof. intros. eapply readFd_sound; eauto. Qed.
Print Assumptions C14_reader_decides_grammar.

Theorem C14_grammar_is_read : forall rg app e w l t c lg,
  Realises (selectChunkRegistry rg) app -> SaneApps app -> usual e ->
  zlength l < 2 ^ (size_t_bits e - 1) -> SkipOk app (r_seekable (w_in w)) lg ->
  Parsed e app 0 l c lg -> r_rest (w_in w) = l ++ t ->
  exists n, IFF_readFd rg e w = Done (Some c, after (tl t) (trailing_warning t ++ lg) n w).
Proof. intros. eapply readFd_complete; eauto. Qed.
Print Assumptions C14_grammar_is_read.

Example C14_example : exists c w', IFF_readFd None (host true) (start (encode ex_cat ++ bytes "xy")) = Done (Some c, w')
  /\ c = ex_cat /\ r_rest (w_in w') = bytes "y".
Proof.
  destruct (IFF_readFd None (host true) (start (encode ex_cat ++ bytes "xy"))) as [[[c|] w']| |] eqn:E; vm_compute in E; try discriminate.
  exists c, w'. injection E as <- <-. repeat split; reflexivity.
Qed.

(** ** C15.  Every strict prefix of the bytes consumed is rejected, loudly. *)

Theorem C15_truncation_rejected : forall e w c w', usual e ->
  zlength (r_rest (w_in w)) < 2 ^ (size_t_bits e - 1) ->
  IFF_readFd None e w = Done (Some c, w') ->
  exists l t, r_rest (w_in w) = l ++ t /\ r_rest (w_in w') = tl t /\ Stored c l /\
    forall pre suf, pre ++ suf = l -> suf <> [] ->
      exists w2, IFF_readFd None e (with_input pre w) = Done (None, w2) /\ reported w w2.
Proof.
  intros e w c w' U L H.
  destruct (readFd_sound None no_apps e w c w' default_registry (not_strict _ U) no_apps_sane (or_intror no_apps_none) H)
    as (l & t & lg & n & P & R & ->).
  exists l, t. split; [exact R|]. split; [reflexivity|].
  split; [exact (proj1 (Parsed_Stored e no_apps no_apps_none) _ _ _ _ P)|]. intros pre suf E NE.
  assert (LL : zlength l < 2 ^ (size_t_bits e - 1)).
  { rewrite R, zlength_app in L. pose proof (zlength_nonneg _ t). lia. }
  destruct (readFd_prefix None no_apps e (with_input pre w) l c lg pre suf default_registry U no_apps_sane
             (or_intror no_apps_none) P LL E NE eq_refl) as (lg' & NL & w2 & H2 & LG).
  exists w2. split; [exact H2|]. exists lg'. split; [exact NL|exact LG].
Qed.
Print Assumptions C15_truncation_rejected.

Example C15_example :
  forallb (fun n => match IFF_readFd None (host false) (start (firstn n (encode ex_cat))) with
                    | Done (None, w) => negb (Nat.eqb (List.length (w_log w)) 0) | _ => false end) (seq 0 114) = true.
Proof. vm_compute. reflexivity. Qed.

(** ** C56.  With an extension registry this needs a stream that cannot seek:
    skipping unknown bytes of a seekable file runs past its end unnoticed. *)

Theorem C56_truncation_rejected_unseekable : forall rg app e w c w',
  Realises (selectChunkRegistry rg) app -> SaneApps app -> usual e -> r_seekable (w_in w) = false ->
  zlength (r_rest (w_in w)) < 2 ^ (size_t_bits e - 1) ->
  IFF_readFd rg e w = Done (Some c, w') ->
  exists l t, r_rest (w_in w) = l ++ t /\ r_rest (w_in w') = tl t /\
    forall pre suf, pre ++ suf = l -> suf <> [] ->
      exists w2, IFF_readFd rg e (with_input pre w) = Done (None, w2) /\ reported w w2.
Proof.
  intros rg app e w c w' RG SA U K L H.
  destruct (readFd_sound rg app e w c w' RG (not_strict _ U) SA (or_introl K) H)
    as (l & t & lg & n & P & R & ->).
  exists l, t. split; [exact R|]. split; [reflexivity|]. intros pre suf E NE.
  assert (LL : zlength l < 2 ^ (size_t_bits e - 1)).
  { rewrite R, zlength_app in L. pose proof (zlength_nonneg _ t). lia. }
  destruct (readFd_prefix rg app e (with_input pre w) l c lg pre suf RG U SA
             (or_introl K) P LL E NE eq_refl) as (lg' & NL & w2 & H2 & LG).
  exists w2. split; [exact H2|]. exists lg'. split; [exact NL|exact LG].
Qed.
Print Assumptions C56_truncation_rejected_unseekable.

(** A HELO chunk of 100 bytes of which only the 4 known ones are there. *)
Definition cut_hello : list byte :=
  be32 FORM_ID ++ be32 112 ++ be32 TEST_ID_TEST ++ be32 TEST_ID_HELO ++ be32 100 ++ bytes "ab" ++ be16 7.

Theorem C56_seek_past_end_refuted :
  exists w', IFF_readFd (Some TEST_scopedRegistry) (host false) (start cut_hello)
    = Done (Some (CGroup FORM_ID 112 TEST_ID_TEST
                    [CFields TEST_ID_HELO 100 [(FUByte, 97); (FUByte, 98); (FUWord, 7)]]), w')
    /\ zlength cut_hello = 24.
Proof.
  destruct (IFF_readFd (Some TEST_scopedRegistry) (host false) (start cut_hello)) as [[oc w']| |] eqn:E;
    vm_compute in E; try discriminate.
  exists w'. injection E as <- <-. split; reflexivity.
Qed.
Print Assumptions C56_seek_past_end_refuted.

Example C56_example : 
  match IFF_readFd (Some TEST_scopedRegistry) (host false) (start_pipe cut_hello) with Done (None, _) => True | _ => False end.
Proof. vm_compute. exact I. Qed.

(** ** C18.  What follows the main chunk changes neither the tree nor the
    other diagnostics; there is a warning exactly when something follows. *)

Theorem C18_trailing_data_ignored : forall e w c w', usual e ->
  zlength (r_rest (w_in w)) < 2 ^ (size_t_bits e - 1) ->
  IFF_readFd None e w = Done (Some c, w') ->
  exists l t lg, r_rest (w_in w) = l ++ t /\
    forall t2, exists w2, IFF_readFd None e (with_input (l ++ t2) w) = Done (Some c, w2) /\
      w_log w2 = match t2 with [] => [] | _ => trailing_warning t2 end ++ lg ++ w_log w /\
      (t2 <> [] -> List.length (trailing_warning t2) = 1%nat).
Proof.
  intros e w c w' U L H.
  destruct (readFd_sound None no_apps e w c w' default_registry (not_strict _ U) no_apps_sane (or_intror no_apps_none) H)
    as (l & t & lg & n & P & R & ->).
  exists l, t, lg. split; [exact R|]. intros t2.
  assert (LL : zlength l < 2 ^ (size_t_bits e - 1)).
  { rewrite R, zlength_app in L. pose proof (zlength_nonneg _ t). lia. }
  destruct (readFd_complete None no_apps e (with_input (l ++ t2) w) l t2 c lg default_registry U no_apps_sane P eq_refl LL)
    as [m E]; [right; right; apply no_apps_none|].
  eexists. split; [exact E|]. split.
  - cbn [after w_log]. destruct t2; simpl; reflexivity.
  - intro NE. destruct t2; [congruence|reflexivity].
Qed.
Print Assumptions C18_trailing_data_ignored.

Example C18_example : match IFF_readFd None (host false) (start (encode ex_form ++ bytes "A")) with
  | Done (Some c, w) => c = ex_form /\ w_log w = [("WARNING: Trailing IFF contents found: 65!" ++ nl)%string]
  | _ => False end.
Proof. vm_compute. split; reflexivity. Qed.

(** ** C19.  NULL is never returned silently; for every registry and host. *)

Theorem C19_failures_reported : forall rg e w w',
  IFF_readFd rg e w = Done (None, w') -> reported w w' /\ w_out w' = w_out w.
Proof.
  intros rg e w w' H. pose proof (readFd_framed rg e w) as F. rewrite H in F.
  destruct F as [(lg & E & N) O]. split; [|exact O]. exists lg. split; [apply N; reflexivity|exact E].
Qed.
Print Assumptions C19_failures_reported.

Example C19_example : exists w', IFF_readFd None (host false) (start (bytes "FORM")) = Done (None, w').
Proof. eexists. vm_compute. reflexivity. Qed.

(** ** C20.  All data in the result was initialised from the input, and every
    struct has the type its ID demands. *)

Theorem C20_all_data_from_input : forall rg app e w c w',
  Realises (selectChunkRegistry rg) app -> SaneApps app -> ExactInput app w -> strict_c e = false ->
  IFF_readFd rg e w = Done (Some c, w') ->
  Typed app 0 c /\
  forall i s d, InTree (CRaw i s d) c ->
    exists data a b, d = Some data /\ zlength data = s /\
      r_rest (w_in w) = a ++ be32 i ++ be32 s ++ data ++ b.
Proof.
  intros rg app e w c w' RG SA K NS H.
  destruct (readFd_sound rg app e w c w' RG NS SA K H) as (l & t & lg & n & P & R & ->).
  split; [exact (proj1 (Parsed_Typed e app) _ _ _ _ P)|]. intros i s d T.
  destruct (proj1 (Parsed_raw_data e app) _ _ _ _ P i s d T) as (data & a & b & E1 & E2 & E3).
  exists data, a, (b ++ t). split; [exact E1|]. split; [exact E2|]. rewrite R, E3, <- !app_assoc. reflexivity.
Qed.
Print Assumptions C20_all_data_from_input.

Example C20_example : InTree (raw "HELO" "abc") ex_cat /\
  exists w', IFF_readFd None (host false) (start (encode ex_cat)) = Done (Some ex_cat, w').
Proof.
  split; [|eexists; vm_compute; reflexivity].
  apply (In_group _ _ _ _ _ ex_list); [left; reflexivity|]. apply (In_list_sub _ _ _ _ _ _ ex_form); [left; reflexivity|].
  apply (In_group _ _ _ _ _ (raw "HELO" "abc")); [left; reflexivity|constructor].
Qed.

(** ** C34.  Encodings with other pad bytes (and, for application chunks, any
    bytes behind the known fields) are read as the same tree.  Without
    application chunks, nothing but warnings about the pads is reported. *)

Theorem C34_pads_do_not_matter : forall rg app e w c l,
  Realises (selectChunkRegistry rg) app -> SaneApps app -> usual e ->
  WF app 0 c -> Encoding c l -> r_rest (w_in w) = l -> r_seekable (w_in w) = true ->
  zlength l < 2 ^ (size_t_bits e - 1) ->
  exists w', IFF_readFd rg e w = Done (Some c, w') /\
    (Covered c -> l = encode c -> w_log w' = w_log w) /\
    (w_log w' = w_log w -> l = encode c).
Proof.
  intros rg app e w c l RG SA U W E R K L.
  destruct (WF_reads e app c 0 l W E) as (lg & P & _ & N1 & N2 & _).
  destruct (readFd_complete rg app e w l [] c lg RG U SA P ltac:(rewrite app_nil_r; exact R) L (or_introl K)) as [n H].
  eexists. split; [exact H|]. cbn [after w_log trailing_warning Datatypes.app]. split.
  - intros CV EQ. rewrite (N2 CV EQ). reflexivity.
  - intro X. apply N1. apply (f_equal (@List.length string)) in X. rewrite app_length in X.
    destruct lg; [reflexivity|simpl in X; lia].
Qed.
Print Assumptions C34_pads_do_not_matter.

Example C34_example :
  match IFF_readFd None (host false)
     (start (be32 FORM_ID ++ be32 16 ++ be32 (ID_of "TEST") ++ be32 (ID_of "HELO") ++ be32 3 ++ bytes "abc!")) with
  | Done (Some c, w) => c = group "FORM" "TEST" [raw "HELO" "abc"] /\
      w_log w = [("WARNING: Padding byte is non-zero!" ++ nl)%string]
  | _ => False end.
Proof. vm_compute. split; reflexivity. Qed.

(** ** C57.  A failing allocation of a chunk makes reading return NULL; a
    failing allocation of a group's member array is undefined behaviour. *)

Theorem C57_create_failure_is_null : forall rg e w fuel ft i s r,
  r_rest (w_in w) = be32 i ++ be32 s ++ r -> in_range FId i -> in_range FLong s -> strict_c e = false ->
  (exists h, find_handler rg ft i = Done h) ->
  (forall sz, malloc_ok e (w_allocs w) sz = false) ->
  exists w', IFF_readChunk rg (S fuel) ft e w = Done (None, w') /\ r_rest (w_in w') = r /\ w_out w' = w_out w.
Proof.
  intros rg e w fuel ft i s r R RI RS NS [h HH] M. cbn [IFF_readChunk].
  change (IFF_readId ID_EMPTY "") with (read_prim FId ID_EMPTY "").
  unfold bind at 1.
  rewrite (read_prim_ok FId e w i (be32 s ++ r) _ _ ltac:(left; assumption) RI R).
  change (IFF_readLong i "chunkSize") with (read_prim FLong i "chunkSize").
  unfold bind at 1.
  match goal with |- context [read_prim FLong i "chunkSize" e ?x] => set (w1 := x) end.
  rewrite (read_prim_ok FLong e w1 s r _ _ ltac:(left; assumption) RS eq_refl).
  unfold readChunkBody. unfold bind at 1, lift at 1. rewrite HH.
  assert (A : w_allocs w1 = w_allocs w) by reflexivity.
  destruct h; cbn [createExtensionChunk];
    unfold IFF_createUnparsedGroup, IFF_createGroup, IFF_createUnparsedList, IFF_createList, IFF_createRawChunk,
      create_fields, bind, malloc, ask; simpl; rewrite ?A, ?M, ?andb_false_r; simpl;
    eexists; (split; [reflexivity|split; reflexivity]).
Qed.
Print Assumptions C57_create_failure_is_null.

(** Allocation number 3 (0: FORM, 1 and 2: the data chunk) is the array of the
    FORM's chunks. *)
Definition no_array : env := mkEnv false true true false (fun n _ => negb (Nat.eqb n 3)) 0 (fun _ => 0%nat).

Theorem C57_array_failure_refuted :
  IFF_readFd None no_array (start (encode ex_form)) = Undefined UB_null_deref.
Proof. vm_compute. reflexivity. Qed.
Print Assumptions C57_array_failure_refuted.

Example C57_example :
  let e := mkEnv false true true false (fun n _ => negb (Nat.eqb n 1)) 0 (fun _ => 0%nat) in
  match IFF_readFd None e (start (encode ex_form)) with Done (None, w) => w_log w <> [] | _ => False end.
Proof. vm_compute. discriminate. Qed.

(** ** C60.  Serialisation is unambiguous and prefix free. *)

Theorem C60_serialisation_unambiguous : forall app ft c1 c2 t1 t2,
  WF app ft c1 -> WF app ft c2 -> encode c1 ++ t1 = encode c2 ++ t2 -> c1 = c2 /\ t1 = t2.
Proof. exact encode_unambiguous. Qed.
Print Assumptions C60_serialisation_unambiguous.

Example C60_example : WF no_apps 0 ex_form /\ WF no_apps 0 ex_cat /\ encode ex_form <> encode ex_cat.
Proof. split; [apply ex_form_wf|]. split; [apply ex_cat_wf|]. vm_compute. discriminate. Qed.
