(** * C55: shorter and longer versions of an application chunk *)

From Coq Require Import ZArith List Bool String Lia.
From Coq Require Import Strings.Byte.
From Verif Require Import Machine Io Types Build Read Write Iff Spec Lemmas IoProofs WriteProofs EncodeProofs Grammar
  ReadProofs SoundProofs RoundProofs ApiProofs Examples TestExt PropRegistry PropRead PropWrite.
Import ListNotations.
Open Scope Z_scope.

(** A chunk of [s] bytes holding the values [known] and [extra] more bytes,
    where the application's layout goes on with the fields [absent], the first
    of which does not fit in [extra]. *)
Record version (spec : fspec) (known : list (fkind * Z)) (absent : list fkind) (extra s : Z) : Prop := mkVersion {
  v_layout : map fst known ++ absent = map fd_kind (fs_fields spec);
  v_values : Forall (fun kv => in_range (fst kv) (snd kv)) known;
  v_size : s = zlength (fields_bytes known) + extra;
  v_extra : 0 <= extra;
  v_fits : match absent with [] => True | k :: _ => extra < fieldSize k end;
  v_int : s <= INT_MAX;
  (* no field is wider than the whole chunk *)
  v_wide : Forall (fun k => fieldSize k <= s) absent }.

(** The fields a chunk made by the application starts with. *)
Definition zeros (l : list fkind) : list (fkind * Z) := map (fun k => (k, 0)) l.

Lemma fields_bytes_cons : forall k v l, zlength (fields_bytes ((k, v) :: l)) = fieldSize k + zlength (fields_bytes l).
Proof. intros. unfold fields_bytes. cbn [flat_map fst snd]. rewrite zlength_app. destruct k; reflexivity. Qed.

Lemma fitting_version : forall known absent extra, 0 <= extra ->
  match absent with [] => True | k :: _ => extra < fieldSize k end ->
  fitting (zlength (fields_bytes known) + extra) (known ++ zeros absent) = known.
Proof.
  induction known as [|[k v] known IH]; intros absent extra E F.
  - destruct absent as [|k absent]; [reflexivity|]. cbn [Datatypes.app zeros map fitting].
    replace (fieldSize k <=? zlength (fields_bytes []) + extra) with false; [reflexivity|].
    symmetry. apply Z.leb_gt. change (zlength (fields_bytes [])) with 0. lia.
  - cbn [Datatypes.app fitting]. rewrite fields_bytes_cons. pose proof (zlength_nonneg _ (fields_bytes known)).
    replace (fieldSize k <=? fieldSize k + zlength (fields_bytes known) + extra) with true by (symmetry; apply Z.leb_le; lia).
    f_equal. replace (fieldSize k + zlength (fields_bytes known) + extra - fieldSize k) with (zlength (fields_bytes known) + extra) by lia.
    apply IH; assumption.
Qed.

Lemma known_narrow : forall known s, zlength (fields_bytes known) <= s -> Forall (fun kv => fieldSize (fst kv) <= s) known.
Proof.
  induction known as [|[k v] known IH]; intros s L; constructor; rewrite fields_bytes_cons in L.
  - cbn. pose proof (zlength_nonneg _ (fields_bytes known)). lia.
  - apply IH. pose proof (fieldSize_range k). lia.
Qed.

Lemma version_wide : forall spec known absent extra s, version spec known absent extra s ->
  Forall (fun kv => fieldSize (fst kv) <= s) (known ++ zeros absent).
Proof.
  intros spec known absent extra s [L V S E F I W]. apply Forall_app. split; [apply known_narrow; lia|].
  unfold zeros. apply Forall_map. exact W.
Qed.

Lemma version_fitting : forall spec known absent extra s, version spec known absent extra s ->
  fitting s (known ++ zeros absent) = known.
Proof. intros spec known absent extra s [L V S E F I W]. subst s. apply fitting_version; assumption. Qed.

Lemma version_kinds : forall spec known absent extra s, version spec known absent extra s ->
  kinds_match spec (known ++ zeros absent) /\ Forall (fun kv => in_range (fst kv) (snd kv)) (known ++ zeros absent) /\
  forall n kv, nth_error (known ++ zeros absent) n = Some kv -> (List.length known <= n)%nat -> snd kv = 0.
Proof.
  intros spec known absent extra s [L V S E F I W]. split; [|split].
  - unfold kinds_match. rewrite map_app, <- L. f_equal. unfold zeros. rewrite map_map. apply map_id.
  - apply Forall_app. split; [exact V|]. unfold zeros. apply Forall_map. apply Forall_forall. intros k _. destruct k; cbn; lia.
  - intros n kv N G. rewrite nth_error_app2 in N by exact G. unfold zeros in N. apply nth_error_In, in_map_iff in N.
    destruct N as (k & <- & _). reflexivity.
Qed.

(** ** Reading takes exactly the fields that are there, leaves the others at
    their initial value, and skips the bytes behind the known ones. *)
Theorem C55_read_versions : forall rg app e w ft i spec known absent extra s p t fuel,
  Realises rg app -> SaneApps app -> usual e -> in_range FId i -> ~ In i group_ids -> app ft i = Some spec ->
  version spec known absent (zlength extra) s -> zlength p = s mod 2 ->
  r_rest (w_in w) = be32 i ++ be32 s ++ fields_bytes known ++ extra ++ p ++ t ->
  r_seekable (w_in w) = true \/ (extra = [] /\ Forall (fun b => b = x00) p) ->
  (List.length (r_rest (w_in w)) < fuel)%nat -> zlength (r_rest (w_in w)) < 2 ^ (size_t_bits e - 1) ->
  exists w', IFF_readChunk rg fuel ft e w = Done (Some (CFields i s (known ++ zeros absent)), w') /\
    r_rest (w_in w') = t /\ w_out w' = w_out w /\
    (w_log w' = w_log w <-> extra = [] /\ Forall (fun b => b = x00) p).
Proof.
  intros rg app e w ft i spec known absent extra s p t fuel RG SA U RI NG A V LP R SK FU SZ.
  destruct (version_kinds _ _ _ _ _ V) as (KM & VR & ZR). pose proof (version_wide _ _ _ _ _ V) as WD. pose proof (version_fitting _ _ _ _ _ V) as FT.
  assert (PF : present s 0 (known ++ zeros absent) = known) by (rewrite present_fitting, Z.sub_0_r by exact WD; exact FT).
  destruct V as [VL VV VS VE VF VI VW]. pose proof (zlength_nonneg _ (fields_bytes known)).
  assert (P : Parsed e app ft (be32 i ++ be32 s ++ fields_bytes known ++ extra ++ p) (CFields i s (known ++ zeros absent))
                (pad_warning p ++ skip_warning i (zlength extra))).
  { rewrite <- PF at 1. eapply P_fields; try eassumption.
    - cbn. unfold INT_MAX in VI. lia.
    - intros n kv N G. rewrite PF in G. apply (ZR n kv N G).
    - rewrite PF. lia. }
  set (l := be32 i ++ be32 s ++ fields_bytes known ++ extra ++ p) in *.
  assert (R' : r_rest (w_in w) = l ++ t) by (rewrite R; unfold l; rewrite <- !app_assoc; reflexivity).
  assert (NW : pad_warning p = [] <-> Forall (fun b => b = x00) p).
  { rewrite (pad_warning_zero s p LP). unfold pad_for. rewrite mod2_odd in LP. destruct (Z.odd s).
    - destruct p as [|b [|b2 p]]; rewrite ?zlength_cons, ?zlength_nil in LP; [lia| |pose proof (zlength_nonneg _ p); lia].
      split; [intros [= ->]; repeat constructor|]. intro X. inversion X; subst. reflexivity.
    - apply zlength_0 in LP. subst p. split; [constructor|reflexivity]. }
  assert (NK : skip_warning i (zlength extra) = [] <-> extra = []).
  { unfold skip_warning. destruct (Z.ltb_spec 0 (zlength extra)).
    - split; [discriminate|]. intros ->. rewrite zlength_nil in *. lia.
    - split; [|reflexivity]. intros _. apply zlength_0. lia. }
  destruct (proj1 (read_complete rg app e RG U SA) _ _ _ _ P fuel w t) as [n E].
  - rewrite R', app_length in FU. lia.
  - rewrite R', zlength_app in SZ. pose proof (zlength_nonneg _ t). lia.
  - destruct SK as [SK|[X Y]]; [left; exact SK|right; left]. rewrite (proj2 NW Y), (proj2 NK X). reflexivity.
  - exact R'.
  - eexists. split; [exact E|]. split; [reflexivity|]. split; [reflexivity|]. unfold after. cbn [w_log]. split.
    + intro X. assert (Y : pad_warning p ++ skip_warning i (zlength extra) = []).
      { apply (app_inv_tail (w_log w)). rewrite X. reflexivity. }
      apply app_eq_nil in Y. tauto.
    + intros [X Y]. rewrite (proj2 NW Y), (proj2 NK X). reflexivity.
Qed.
Print Assumptions C55_read_versions.

(** ** Writing keeps the declared length: the known fields, then zeros. *)
Theorem C55_write_versions : forall rg app e w ft i spec known absent extra s,
  Realises rg app -> usual e -> in_range FId i -> ~ In i group_ids -> app ft i = Some spec ->
  version spec known absent extra s -> o_room (w_out w) = None ->
  exists w', IFF_writeChunk rg (CFields i s (known ++ zeros absent)) ft e w = Done (true, w') /\ w_log w' = w_log w /\
    handed (w_out w') = handed (w_out w) ++ be32 i ++ be32 s ++ fields_bytes known
      ++ repeat x00 (Z.to_nat extra) ++ repeat x00 (Z.to_nat (s mod 2)).
Proof.
  intros rg app e w ft i spec known absent extra s RG U RI NG A V RM.
  destruct (version_kinds _ _ _ _ _ V) as (KM & VR & ZR). pose proof (version_wide _ _ _ _ _ V) as WD. pose proof (version_fitting _ _ _ _ _ V) as FT.
  destruct V as [VL VV VS VE VF VI VW]. pose proof (zlength_nonneg _ (fields_bytes known)).
  assert (W : WF app ft (CFields i s (known ++ zeros absent))).
  { eapply WF_fields; try eassumption; [|lia]. intros n kv N G. rewrite FT in G. apply (ZR n kv N G). }
  destruct (write_encode rg app e _ ft RG U W w) as (lg & n & E & L).
  destruct (put_bytes_device (encode (CFields i s (known ++ zeros absent))) (w_out w)) as [[[OK D]|[F _]] T].
  2:{ rewrite (proj1 (T RM)) in F. discriminate F. }
  rewrite OK in E. eexists. split; [exact E|]. cbn [w_log w_out]. rewrite (proj1 L OK). split; [reflexivity|].
  unfold handed. rewrite D. rewrite <- app_assoc. do 2 f_equal. cbn [encode]. unfold frame, fields_body. rewrite FT.
  replace (s - zlength (fields_bytes known)) with extra by lia.
  rewrite <- app_assoc. do 4 f_equal. unfold pad. rewrite zlength_app, zlength_repeat by exact VE. rewrite <- VS. rewrite mod2_odd.
  destruct (Z.odd s); reflexivity.
Qed.
Print Assumptions C55_write_versions.

(** ** Hence reading and writing such a chunk keeps its place in the file: the
    bytes of the known fields come back unchanged, the unknown ones as zeros. *)
Theorem C55_rewritten : forall rg app e1 e2 w1 w2 ft i spec known absent extra s p t fuel,
  Realises rg app -> SaneApps app -> usual e1 -> usual e2 -> in_range FId i -> ~ In i group_ids -> app ft i = Some spec ->
  version spec known absent (zlength extra) s -> zlength p = s mod 2 ->
  r_rest (w_in w1) = be32 i ++ be32 s ++ fields_bytes known ++ extra ++ p ++ t -> r_seekable (w_in w1) = true ->
  (List.length (r_rest (w_in w1)) < fuel)%nat -> zlength (r_rest (w_in w1)) < 2 ^ (size_t_bits e1 - 1) ->
  o_room (w_out w2) = None ->
  exists c w1' w2' out, IFF_readChunk rg fuel ft e1 w1 = Done (Some c, w1') /\ r_rest (w_in w1') = t /\
    IFF_writeChunk rg c ft e2 w2 = Done (true, w2') /\ handed (w_out w2') = handed (w_out w2) ++ out /\
    zlength out = zlength (be32 i ++ be32 s ++ fields_bytes known ++ extra ++ p) /\
    ztake (8 + zlength (fields_bytes known)) out = be32 i ++ be32 s ++ fields_bytes known /\
    Forall (fun b => b = x00) (zdrop (8 + zlength (fields_bytes known)) out).
Proof.
  intros rg app e1 e2 w1 w2 ft i spec known absent extra s p t fuel RG SA U1 U2 RI NG A V LP R SK FU SZ RM.
  destruct (C55_read_versions rg app e1 w1 ft i spec known absent extra s p t fuel RG SA U1 RI NG A V LP R (or_introl SK) FU SZ)
    as (w1' & E1 & R1 & _).
  destruct (C55_write_versions rg app e2 w2 ft i spec known absent (zlength extra) s RG U2 RI NG A V RM) as (w2' & E2 & _ & H2).
  do 4 eexists. split; [exact E1|]. split; [exact R1|]. split; [exact E2|]. split; [exact H2|].
  pose proof (zlength_nonneg _ extra). pose proof (Z.mod_pos_bound s 2 ltac:(lia)).
  split; [rewrite !zlength_app, !zlength_repeat by lia; rewrite LP; lia|].
  assert (L8 : 8 + zlength (fields_bytes known) = zlength (be32 i ++ be32 s ++ fields_bytes known)).
  { rewrite !zlength_app. change (zlength (be32 i)) with 4. change (zlength (be32 s)) with 4. lia. }
  rewrite L8.
  replace (be32 i ++ be32 s ++ fields_bytes known ++ repeat x00 (Z.to_nat (zlength extra)) ++ repeat x00 (Z.to_nat (s mod 2)))
    with ((be32 i ++ be32 s ++ fields_bytes known) ++ repeat x00 (Z.to_nat (zlength extra)) ++ repeat x00 (Z.to_nat (s mod 2)))
    by (rewrite <- !app_assoc; reflexivity).
  split.
  - rewrite ztake_app. reflexivity.
  - rewrite zdrop_app. apply Forall_app. split; apply Forall_forall; intros b I; apply (repeat_spec _ _ _ I).
Qed.
Print Assumptions C55_rewritten.

(** ** The hypotheses are met: BYE chunks of 8, 5 and 20 bytes in a TEST form. *)
Lemma scoped_realises : Realises (Some TEST_scopedRegistry) (RegProofs.app_of TEST_scopedRegistry).
Proof.
  apply RegProofs.extension_realises.
  - exact C09_test_registry_sorted.
  - exact (proj1 C11_example).
Qed.

Example C55_example :
  RegProofs.app_of TEST_scopedRegistry TEST_ID_TEST TEST_ID_BYE = Some TEST_Bye /\
  version TEST_Bye [(FLong, 1); (FLong, -2)] [] 0 8 /\
  version TEST_Bye [(FLong, 1)] [FLong] 1 5 /\
  version TEST_Bye [(FLong, 1); (FLong, -2)] [] 12 20 /\
  match IFF_readFd (Some TEST_scopedRegistry) (host false)
          (start (be32 FORM_ID ++ be32 18 ++ be32 TEST_ID_TEST ++ be32 TEST_ID_BYE ++ be32 5 ++ be32 1 ++ [x77; x00])) with
  | Done (Some c, w) => c = CGroup FORM_ID 18 TEST_ID_TEST [CFields TEST_ID_BYE 5 [(FLong, 1); (FLong, 0)]]
  | _ => False
  end.
Proof.
  split; [reflexivity|].
  split; [constructor; [reflexivity|repeat constructor; cbn; lia|reflexivity|lia|exact Logic.I|vm_compute; discriminate|constructor]|].
  split; [constructor; [reflexivity|repeat constructor; cbn; lia|reflexivity|lia|reflexivity|vm_compute; discriminate|repeat constructor; cbn; lia]|].
  split; [constructor; [reflexivity|repeat constructor; cbn; lia|reflexivity|lia|exact Logic.I|vm_compute; discriminate|constructor]|].
  vm_compute. reflexivity.
Qed.

(** ** Without the condition on wide fields the claim is false: a BYE chunk of
    2 bytes swallows the chunk that follows it. *)
Definition tiny_bye : list byte :=
  be32 FORM_ID ++ be32 24 ++ be32 TEST_ID_TEST ++ be32 TEST_ID_BYE ++ be32 2 ++ bytes "ab" ++ be32 (ID_of "NEXT") ++ be32 2 ++ bytes "xy".

Theorem C55_wide_field_refuted :
  match IFF_readFd None (host false) (start tiny_bye) with
  | Done (Some (CGroup _ _ _ [CRaw _ 2 (Some [x61; x62]); CRaw i 2 (Some [x78; x79])]), w) => i = ID_of "NEXT" /\ w_log w = []
  | _ => False
  end /\
  match IFF_readFd (Some TEST_scopedRegistry) (host false) (start tiny_bye) with
  | Done (None, w) => w_log w <> []
  | _ => False
  end.
Proof. vm_compute. split; [split; reflexivity|discriminate]. Qed.
Print Assumptions C55_wide_field_refuted.
