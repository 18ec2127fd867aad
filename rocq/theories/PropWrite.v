(** * Properties C16, C17, C21-C25: writing, and reading back what was written *)

From Coq Require Import ZArith List Bool String Lia.
From Coq Require Import Strings.Byte.
From Verif Require Import Machine Io Types Build Read Write Iff TestExt Spec Lemmas IoProofs RegProofs WriteProofs EncodeProofs
  Grammar ReadProofs DetProofs SoundProofs RoundProofs ApiProofs TermProofs FileProofs PrimProofs Examples CanonProofs
  LoudProofs PropRegistry PropRead.
Import ListNotations.
Open Scope Z_scope.

(** What is on the device when the output stream is closed. *)
Definition closed (w : world) : list byte := o_dev (snd (flush (w_out w))).
(** What is on the device if the process dies before that. *)
Definition on_device (w : world) : list byte := o_dev (w_out w).

(** A state whose output stream is new. *)
Definition new_output (w : world) : Prop := o_dev (w_out w) = [] /\ o_buf (w_out w) = [].

Lemma new_output_fresh : forall w, new_output w -> w_out w = fresh (o_bufsize (w_out w)) (o_room (w_out w)).
Proof. intros [i [d b z r] lg n] [D B]. simpl in *. subst. reflexivity. Qed.

Lemma write_result : forall rg app e c w, Realises (selectChunkRegistry rg) app -> usual e -> WF app 0 c ->
  exists lg n, IFF_writeFd c rg e w =
    Done (fst (put_bytes (encode c) (w_out w)),
          mkWorld (w_in w) (snd (put_bytes (encode c) (w_out w))) (lg ++ w_log w) n) /\
    (fst (put_bytes (encode c) (w_out w)) = true <-> lg = []).
Proof. intros rg app e c w RG U W. exact (write_encode _ app e c 0 RG U W w). Qed.

(** ** C21.  Writing succeeds when the device has room, and what is handed to
    the stream is the encoding of Spec.v. *)

Theorem C21_written_is_the_encoding : forall rg app e c w w',
  Realises (selectChunkRegistry rg) app -> usual e -> WF app 0 c ->
  IFF_writeFd c rg e w = Done (true, w') ->
  handed (w_out w') = handed (w_out w) ++ encode c /\ w_in w' = w_in w /\ w_log w' = w_log w.
Proof.
  intros rg app e c w w' RG U W H. destruct (write_result rg app e c w RG U W) as (lg & n & R & L).
  rewrite R in H. injection H as OK <-. cbn [w_in w_out w_log].
  destruct (put_bytes_device (encode c) (w_out w)) as [[[_ D]|[F _]] _]; [|congruence].
  split; [unfold handed; rewrite D, app_assoc; reflexivity|]. split; [reflexivity|]. rewrite (proj1 L OK). reflexivity.
Qed.
Print Assumptions C21_written_is_the_encoding.

Theorem C21_writing_succeeds : forall rg app e c w,
  Realises (selectChunkRegistry rg) app -> usual e -> WF app 0 c -> o_room (w_out w) = None ->
  exists w', IFF_writeFd c rg e w = Done (true, w').
Proof.
  intros rg app e c w RG U W N. destruct (write_result rg app e c w RG U W) as (lg & n & R & L).
  destruct (put_bytes_device (encode c) (w_out w)) as [_ T]. rewrite (proj1 (T N)) in R. eauto.
Qed.
Print Assumptions C21_writing_succeeds.

(** The encoding of a form with an odd-sized chunk, byte for byte. *)
Example C21_example :
  match IFF_writeFd ex_form None (host false) (start []) with
  | Done (true, w') => handed (w_out w')
      = bytes "FORM" ++ [x00; x00; x00; x1c] ++ bytes "TEST"
        ++ bytes "HELO" ++ [x00; x00; x00; x03] ++ bytes "abc" ++ [x00]
        ++ bytes "BYE " ++ [x00; x00; x00; x04] ++ bytes "wxyz"
  | _ => False
  end /\ WF no_apps 0 ex_form.
Proof. split; [vm_compute; reflexivity|apply ex_form_wf]. Qed.

(** Without application chunks there is nothing to skip. *)
Lemma no_apps_covered : forall ft c, WF no_apps ft c -> Covered c.
Proof.
  intros ft c W i s vals T. exfalso.
  assert (X : exists ft, WF no_apps ft (CFields i s vals)).
  { revert ft W. induction T; intros ft W; eauto; inversion W; subst; eauto.
    - match goal with H : forall c, In c props -> _ |- _ => destruct (H c) as [? _]; [assumption|] end. eauto.
    - match goal with H : forall c, In c subs -> _ |- _ => destruct (H c) as [? _]; [assumption|] end. eauto. }
  destruct X as [f X]. inversion X. discriminate.
Qed.

(** ** C16.  What one host writes, any host reads back as the same tree,
    whatever follows it.  (IFF_readFd looks at one byte behind the chunk.) *)

Theorem C16_write_then_read : forall rg app c e1 e2 w1 w2,
  Realises (selectChunkRegistry rg) app -> SaneApps app -> usual e1 -> usual e2 -> WF app 0 c ->
  zlength (encode c) < 2 ^ (size_t_bits e2 - 1) ->
  new_output w1 -> IFF_writeFd c rg e1 w1 = Done (true, w2) ->
  forall w3 t, r_rest (w_in w3) = handed (w_out w2) ++ t -> r_seekable (w_in w3) = true \/ Covered c ->
  exists w4, IFF_readFd rg e2 w3 = Done (Some c, w4) /\ r_rest (w_in w4) = tl t /\ w_out w4 = w_out w3 /\
    (Covered c -> t = [] -> w_log w4 = w_log w3).
Proof.
  intros rg app c e1 e2 w1 w2 RG SA U1 U2 W L NO H w3 t R SK.
  destruct (C21_written_is_the_encoding rg app e1 c w1 w2 RG U1 W H) as (HD & _ & _).
  rewrite HD in R. unfold handed in R. destruct NO as [D B]. rewrite D, B in R. cbn [Datatypes.app] in R.
  destruct (WF_parsed e2 app 0 c W) as (lg & P & CV).
  destruct (readFd_complete rg app e2 w3 (encode c) t c lg RG U2 SA P R L) as [n E].
  - destruct SK as [SK|SK]; [left; exact SK|right; left; exact (CV SK)].
  - eexists. split; [exact E|]. split; [reflexivity|]. split; [reflexivity|]. intros CC ->. rewrite (CV CC). reflexivity.
Qed.
Print Assumptions C16_write_then_read.

(** The same through files: IFF_writeFile, then IFF_readFile. *)
Theorem C16_write_file_then_read : forall rg app c e1 e2 s name,
  Realises (selectChunkRegistry rg) app -> SaneApps app -> usual e1 -> usual e2 -> WF app 0 c ->
  zlength (encode c) < 2 ^ (size_t_bits e2 - 1) ->
  sy_writable s name = true -> sy_room s name = None ->
  exists s2, IFF_writeFile name c rg e1 s = Done (true, s2) /\ sy_files s2 name = Some (encode c) /\
    (forall other, other <> name -> sy_files s2 other = sy_files s other) /\
    exists s3, IFF_readFile name rg e2 s2 = Done (Some c, s3) /\ (Covered c -> sy_log s3 = sy_log s).
Proof.
  intros rg app c e1 e2 s name RG SA U1 U2 W L OW NR.
  unfold IFF_writeFile. rewrite OW. unfold with_streams.
  destruct (write_result rg app e1 c (mkWorld no_in (mkWfile [] [] (sy_bufsize s) (sy_room s name)) (sy_log s) (sy_allocs s)) RG U1 W)
    as (lg & n & R & LG).
  cbn [w_out w_in w_log] in *. rewrite NR in *. change (mkWfile [] [] (sy_bufsize s) None) with (fresh (sy_bufsize s) None) in *.
  destruct (fresh_device (encode c) (sy_bufsize s) None) as (_ & _ & _ & FD). destruct (FD eq_refl) as [OK DV].
  rewrite R, OK. eexists. split; [reflexivity|]. cbn [w_out set_file sy_files]. rewrite String.eqb_refl, DV. split; [reflexivity|].
  split.
  { intros other N. cbn. apply String.eqb_neq in N. rewrite N. reflexivity. }
  unfold IFF_readFile. cbn [sy_files set_file]. rewrite String.eqb_refl. unfold bindS, with_streams.
  cbn [sy_log sy_allocs w_log w_allocs set_file]. rewrite (proj1 LG OK). cbn [Datatypes.app].
  match goal with |- context [IFF_readFd rg e2 ?w] => set (w3 := w) end.
  destruct (WF_parsed e2 app 0 c W) as (lg2 & P & CV).
  destruct (readFd_complete rg app e2 w3 (encode c) [] c lg2 RG U2 SA P) as [m E].
  - unfold w3. cbn. rewrite app_nil_r, ?DV. reflexivity.
  - exact L.
  - left. reflexivity.
  - rewrite E. eexists. split; [reflexivity|]. intro CC. cbn. rewrite (CV CC). reflexivity.
Qed.
Print Assumptions C16_write_file_then_read.

Example C16_example : WF no_apps 0 ex_cat /\ Covered ex_cat /\
  match IFF_writeFd ex_cat None (host true) (start []) with
  | Done (true, w) => match IFF_readFd None (host false) (start (handed (w_out w))) with
      | Done (Some c, w2) => c = ex_cat /\ w_log w2 = [] | _ => False end
  | _ => False end.
Proof.
  split; [apply ex_cat_wf|]. split.
  - exact (no_apps_covered _ _ ex_cat_wf).
  - vm_compute. split; reflexivity.
Qed.

(** ** C17.  Reading a canonical file and writing the tree reproduces it. *)

Theorem C17_canonical_reproduced : forall l e1 e2 w1 w2,
  Canonical l -> usual e1 -> usual e2 -> zlength l < 2 ^ (size_t_bits e1 - 1) ->
  r_rest (w_in w1) = l -> o_room (w_out w2) = None ->
  exists c w1' w2', IFF_readFd None e1 w1 = Done (Some c, w1') /\ w_log w1' = w_log w1 /\
    IFF_writeFd c None e2 w2 = Done (true, w2') /\ handed (w_out w2') = handed (w_out w2) ++ l.
Proof.
  intros l e1 e2 w1 w2 CN U1 U2 L R NR. destruct (Canonical_tree l CN) as (c & W & E).
  destruct (WF_parsed e1 no_apps 0 c (W 0)) as (lg & P & CV).
  pose proof (no_apps_covered _ _ (W 0)) as CC.
  destruct (readFd_complete None no_apps e1 w1 (encode c) [] c lg default_registry U1 no_apps_sane P) as [n H].
  - rewrite app_nil_r, E. exact R.
  - rewrite E. exact L.
  - right; left; apply CV; exact CC.
  - destruct (C21_writing_succeeds None no_apps e2 c w2 default_registry U2 (W 0) NR) as [w2' H2].
    exists c. eexists. exists w2'. split; [exact H|]. split; [cbn; rewrite (CV CC); reflexivity|].
    split; [exact H2|]. rewrite <- E. apply (C21_written_is_the_encoding None no_apps e2 c w2 w2' default_registry U2 (W 0) H2).
Qed.
Print Assumptions C17_canonical_reproduced.

(** The same, with the conditions observed on the reader: it reports nothing,
    there is nothing behind the tree, and no LIST mixes PROPs and others. *)
Theorem C17_silent_read_reproduced : forall e1 e2 w1 c w1' w2,
  usual e1 -> usual e2 -> Benign no_apps (r_rest (w_in w1)) -> zlength (r_rest (w_in w1)) <= INT_MAX ->
  IFF_readFd None e1 w1 = Done (Some c, w1') -> w_log w1' = w_log w1 -> NoMixedList c ->
  o_room (w_out w2) = None ->
  exists w2', IFF_writeFd c None e2 w2 = Done (true, w2') /\ handed (w_out w2') = handed (w_out w2) ++ r_rest (w_in w1).
Proof.
  intros e1 e2 w1 c w1' w2 U1 U2 B L H LG NM NR.
  destruct (readFd_sound None no_apps e1 w1 c w1' default_registry (not_strict _ U1) no_apps_sane (or_intror no_apps_none) H)
    as (l & t & lg & n & P & R & E).
  subst w1'. cbn in LG. assert (X : trailing_warning t ++ lg = []).
  { apply (f_equal (@List.length string)) in LG. rewrite !app_length in LG.
    destruct (trailing_warning t ++ lg) as [|y q] eqn:Q; [reflexivity|].
    apply (f_equal (@List.length string)) in Q. rewrite app_length in Q. simpl in Q. lia. }
  apply app_eq_nil in X. destruct X as [T ->]. destruct t as [|b t]; [|discriminate]. rewrite app_nil_r in R.
  destruct (proj1 (silent_WF e1 no_apps no_apps_none) 0 l c [] P eq_refl) as (W & _ & EN).
  - rewrite <- R. exact B.
  - rewrite <- R. lia.
  - destruct (C21_writing_succeeds None no_apps e2 c w2 default_registry U2 W NR) as [w2' H2].
    exists w2'. split; [exact H2|]. rewrite R, (EN NM).
    apply (C21_written_is_the_encoding None no_apps e2 c w2 w2' default_registry U2 W H2).
Qed.
Print Assumptions C17_silent_read_reproduced.

(** The characterisation is exact: canonical files are the encodings of the
    well-formed trees. *)
Theorem C17_canonical_files : forall l, Canonical l <-> exists c, WF no_apps 0 c /\ encode c = l.
Proof.
  intro l. split.
  - intro H. destruct (Canonical_tree l H) as (c & W & E). exists c. split; [apply W|exact E].
  - intros (c & W & <-). exact (WF_Canonical c 0 W).
Qed.
Print Assumptions C17_canonical_files.

(** Read [l] and write the result on a fresh stream. *)
Definition rewritten (l : list byte) : option (list byte) :=
  match IFF_readFd None (host false) (start l) with
  | Done (Some c, _) => match IFF_writeFd c None (host false) (start []) with
      | Done (true, w) => Some (handed (w_out w)) | _ => None end
  | _ => None
  end.

Theorem C17_nonzero_pad_refuted : exists l l2, rewritten l = Some l2 /\ l2 <> l /\ zlength l2 = zlength l.
Proof.
  exists (be32 FORM_ID ++ be32 14 ++ be32 (ID_of "TEST") ++ be32 (ID_of "HELO") ++ be32 1 ++ [x61; xff]).
  eexists. split; [vm_compute; reflexivity|]. split; [vm_compute; discriminate|reflexivity].
Qed.
Print Assumptions C17_nonzero_pad_refuted.

Theorem C17_prop_order_refuted : exists l l2, rewritten l = Some l2 /\ l2 <> l /\ zlength l2 = zlength l /\
  match IFF_readFd None (host false) (start l) with Done (Some c, w) => w_log w = [] | _ => False end.
Proof.
  exists (be32 LIST_ID ++ be32 28 ++ be32 (ID_of "TEST") ++ encode (group "FORM" "TEST" []) ++ encode (group "PROP" "TEST" [])).
  eexists. split; [vm_compute; reflexivity|]. split; [vm_compute; discriminate|]. split; [reflexivity|vm_compute; reflexivity].
Qed.
Print Assumptions C17_prop_order_refuted.

Example C17_example : Canonical (encode ex_cat) /\ rewritten (encode ex_cat) = Some (encode ex_cat).
Proof. split; [apply WF_Canonical with 0; apply ex_cat_wf|vm_compute; reflexivity]. Qed.

(** ** C22.  Everything written for a chunk has even length, 8 plus the
    declared size rounded up; so every member of a group starts at an even
    offset. *)

Theorem C22_word_aligned : forall rg app e c w w',
  Realises (selectChunkRegistry rg) app -> usual e -> WF app 0 c ->
  IFF_writeFd c rg e w = Done (true, w') ->
  exists l, handed (w_out w') = handed (w_out w) ++ l /\
    zlength l = physical (chunkSize c) /\ zlength l mod 2 = 0.
Proof.
  intros rg app e c w w' RG U W H. exists (encode c).
  split; [apply (C21_written_is_the_encoding rg app e c w w' RG U W H)|].
  rewrite (WF_encode_length app 0 c W). split; [reflexivity|].
  unfold physical, round_even. pose proof (Z.mod_pos_bound (chunkSize c) 2 ltac:(lia)).
  replace (8 + (chunkSize c + chunkSize c mod 2)) with ((4 + chunkSize c / 2 + chunkSize c mod 2) * 2)
    by (pose proof (Z.div_mod (chunkSize c) 2 ltac:(lia)); lia).
  apply Z.mod_mul. lia.
Qed.
Print Assumptions C22_word_aligned.

Lemma physical_even : forall n, physical n mod 2 = 0.
Proof.
  intro n. unfold physical, round_even. pose proof (Z.mod_pos_bound n 2 ltac:(lia)).
  replace (8 + (n + n mod 2)) with ((4 + n / 2 + n mod 2) * 2) by (pose proof (Z.div_mod n 2 ltac:(lia)); lia).
  apply Z.mod_mul. lia.
Qed.

(** [At x c n]: the encoding of the member [x] starts at offset [n] of the
    encoding of [c]. *)
Inductive At (x : chunk) : chunk -> Z -> Prop :=
| At_here : At x x 0
| At_group : forall i s g l1 c l2 n, At x c n -> At x (CGroup i s g (l1 ++ c :: l2)) (12 + zlength (flat_map encode l1) + n)
| At_prop : forall i s g l1 c l2 subs n, At x c n -> At x (CList i s g (l1 ++ c :: l2) subs) (12 + zlength (flat_map encode l1) + n)
| At_sub : forall i s g props l1 c l2 n, At x c n ->
    At x (CList i s g props (l1 ++ c :: l2)) (12 + zlength (flat_map encode props) + zlength (flat_map encode l1) + n).

Lemma flat_even : forall app g l, (forall c, In c l -> WF app g c) -> zlength (flat_map encode l) mod 2 = 0.
Proof.
  intros app g l. induction l as [|c l IH]; intro W; [reflexivity|]. cbn [flat_map]. rewrite zlength_app.
  rewrite Z.add_mod, IH by (try lia; intros; apply W; right; assumption).
  rewrite (WF_encode_length app g c) by (apply W; left; reflexivity). rewrite physical_even. reflexivity.
Qed.

Lemma even_sum : forall a b, a mod 2 = 0 -> b mod 2 = 0 -> (a + b) mod 2 = 0.
Proof. intros a b A B. rewrite Z.add_mod, A, B by lia. reflexivity. Qed.

(** [At] is right: the bytes of [x] are found there.  And [n] is even. *)
Theorem C22_members_aligned : forall app ft c x n, WF app ft c -> At x c n ->
  n mod 2 = 0 /\ exists a b, encode c = a ++ encode x ++ b /\ zlength a = n.
Proof.
  intros app ft c x n W A. revert ft W. induction A as [|i s g l1 c l2 n A IH|i s g l1 c l2 subs n A IH|i s g props l1 c l2 n A IH]; intros ft W.
  - split; [reflexivity|]. exists [], []. rewrite app_nil_r. split; reflexivity.
  - inversion W; subst. match goal with H : forall c, In c _ -> WF _ _ _ |- _ => rename H into WS end.
    destruct (IH g) as (EV & a & b & E & L); [apply WS, in_or_app; right; left; reflexivity|]. split.
    + repeat apply even_sum; try assumption; try reflexivity. apply (flat_even app g). intros; apply WS, in_or_app; left; assumption.
    + cbn [encode]. unfold frame. rewrite flat_map_app. cbn [flat_map]. rewrite E.
      eexists (be32 i ++ be32 _ ++ be32 g ++ flat_map encode l1 ++ a).
      eexists. split; [rewrite <- !app_assoc; reflexivity|]. rewrite !zlength_app, !EncodeProofs.be32_length. lia.
  - inversion W; subst. match goal with H : forall c, In c (l1 ++ _) -> _ |- _ => rename H into WS end.
    destruct (IH g) as (EV & a & b & E & L); [apply WS, in_or_app; right; left; reflexivity|]. split.
    + repeat apply even_sum; try assumption; try reflexivity. apply (flat_even app g). intros; apply WS, in_or_app; left; assumption.
    + cbn [encode]. unfold frame. rewrite !flat_map_app. cbn [flat_map]. rewrite E.
      eexists (be32 LIST_ID ++ be32 _ ++ be32 g ++ flat_map encode l1 ++ a).
      eexists. split; [rewrite <- !app_assoc; reflexivity|]. rewrite !zlength_app, !EncodeProofs.be32_length. lia.
  - inversion W; subst. match goal with H : forall c, In c (l1 ++ _) -> _ |- _ => rename H into WS end.
    match goal with H : forall c, In c props -> _ |- _ => rename H into WP end.
    destruct (IH g) as (EV & a & b & E & L); [apply WS, in_or_app; right; left; reflexivity|]. split.
    + repeat apply even_sum; try assumption; try reflexivity; apply (flat_even app g); intros; [apply WP; assumption|].
      apply WS, in_or_app; left; assumption.
    + cbn [encode]. unfold frame. rewrite !flat_map_app. cbn [flat_map]. rewrite E.
      eexists (be32 LIST_ID ++ be32 _ ++ be32 g ++ flat_map encode props ++ flat_map encode l1 ++ a).
      eexists. split; [rewrite <- !app_assoc; reflexivity|]. rewrite !zlength_app, !EncodeProofs.be32_length. lia.
Qed.
Print Assumptions C22_members_aligned.

Example C22_example : At (raw "BYE " "wxyz") ex_form 24 /\ zlength (encode ex_form) = 36.
Proof.
  split; [|reflexivity].
  exact (At_group (raw "BYE " "wxyz") FORM_ID _ (ID_of "TEST") [raw "HELO" "abc"] (raw "BYE " "wxyz") [] 0 (At_here _)).
Qed.

(** ** C23.  TRUE: everything was handed to the stream.  FALSE: reported.
    For every device capacity and buffer size; the second for every tree,
    registry and host. *)

Theorem C23_true_means_complete : forall rg app e c w w',
  Realises (selectChunkRegistry rg) app -> usual e -> Writable app 0 c ->
  IFF_writeFd c rg e w = Done (true, w') -> handed (w_out w') = handed (w_out w) ++ emitted c.
Proof.
  intros rg app e c w w' RG U W H. destruct (write_emits _ app e RG U c 0 W w) as (lg & n & R & L).
  unfold IFF_writeFd in H. rewrite R in H. injection H as OK <-.
  destruct (put_bytes_device (emitted c) (w_out w)) as [[[_ D]|[F _]] _]; [|congruence].
  unfold handed. cbn [w_out]. rewrite D, app_assoc. reflexivity.
Qed.
Print Assumptions C23_true_means_complete.

Theorem C23_false_means_reported : forall rg e c w w',
  IFF_writeFd c rg e w = Done (false, w') -> reported w w'.
Proof.
  intros rg e c w w' H. pose proof (write_loud (selectChunkRegistry rg) c 0 e w) as L. unfold IFF_writeFd in H.
  rewrite H in L. destruct L as [(lg & E & N) _]. exists lg. split; [apply N; reflexivity|exact E].
Qed.
Print Assumptions C23_false_means_reported.

(** TRUE also means silence; FALSE is returned only when the device is full. *)
Theorem C23_false_only_when_full : forall rg app e c w,
  Realises (selectChunkRegistry rg) app -> usual e -> WF app 0 c -> new_output w -> (0 < o_bufsize (w_out w))%nat ->
  exists ok w', IFF_writeFd c rg e w = Done (ok, w') /\ (ok = true -> w_log w' = w_log w) /\
    (ok = false -> exists room, o_room (w_out w) = Some room /\ Z.of_nat room < zlength (encode c)).
Proof.
  intros rg app e c w RG U W NO BZ. destruct (write_result rg app e c w RG U W) as (lg & n & R & L).
  eexists _, _. split; [exact R|]. split; [intro OK; cbn; rewrite (proj1 L OK); reflexivity|].
  intro F. clear R L. rewrite (new_output_fresh w NO) in *. cbn [o_room fresh].
  destruct (o_room (w_out w)) as [room|] eqn:ER.
  2:{ destruct (put_bytes_device (encode c) (fresh (o_bufsize (w_out w)) None)) as [_ T]. destruct (T eq_refl). congruence. }
  exists room. split; [reflexivity|]. unfold fresh in *.
  assert (GEN : forall l d b z r, fst (put_bytes l (mkWfile d b z (Some r))) = false -> (List.length b < z)%nat ->
     (r < List.length b + List.length l)%nat).
  { clear. induction l as [|x l IH]; intros d b z r F B; [discriminate F|]. cbn [put_bytes] in F. unfold put_byte in F.
    cbn [o_dev o_buf o_bufsize o_room] in F. cbn [List.length] in *.
    destruct (Nat.ltb_spec (List.length (b ++ [x])) z) as [LT|GE]; rewrite app_length in *; cbn [List.length] in *.
    - apply IH in F; rewrite app_length in *; cbn [List.length] in *; lia.
    - unfold flush in F. cbn [o_dev o_buf o_bufsize o_room] in F. rewrite app_length in F. cbn [List.length] in F.
      destruct (Nat.leb_spec (List.length b + 1) r) as [LE|GT]; [|lia].
      apply IH in F; cbn [List.length] in *; lia. }
  apply GEN in F; [|exact BZ]. unfold zlength. simpl in F. lia.
Qed.
Print Assumptions C23_false_only_when_full.

(** IFF_writeFile ignores what fclose says: with a full disk it returns TRUE,
    reports nothing, and leaves an empty file. *)
Definition full_disk : sys :=
  mkSys (fun _ => None) (fun _ => true) (fun _ => Some 0%nat) 4096 no_in no_out [] 0.

Theorem C23_write_file_refuted : exists s', 
  IFF_writeFile "out.iff" ex_form None (host false) full_disk = Done (true, s') /\
  sy_files s' "out.iff" = Some [] /\ sy_log s' = [].
Proof. eexists. split; [vm_compute; reflexivity|]. split; reflexivity. Qed.
Print Assumptions C23_write_file_refuted.

(** With a file that takes everything handed over, the claim holds. *)
Theorem C23_write_file_complete : forall rg app c e s name,
  Realises (selectChunkRegistry rg) app -> usual e -> WF app 0 c -> sy_room s name = None ->
  match IFF_writeFile name c rg e s with
  | Done (true, s') => sy_files s' name = Some (encode c)
  | Done (false, s') => sy_writable s name = false /\ sy_log s' <> sy_log s /\ sy_files s' name = sy_files s name
  | _ => False
  end.
Proof.
  intros rg app c e s name RG U W NR. unfold IFF_writeFile. destruct (sy_writable s name).
  - unfold with_streams. rewrite NR.
    destruct (write_result rg app e c (mkWorld no_in (mkWfile [] [] (sy_bufsize s) None) (sy_log s) (sy_allocs s)) RG U W)
      as (lg & n & R & LG).
    cbn [w_out w_in w_log] in *. change (mkWfile [] [] (sy_bufsize s) None) with (fresh (sy_bufsize s) None) in *.
    destruct (fresh_device (encode c) (sy_bufsize s) None) as (_ & _ & _ & FD). destruct (FD eq_refl) as [OK DV].
    rewrite R, OK. cbn. rewrite String.eqb_refl, DV. reflexivity.
  - cbn. split; [reflexivity|]. split; [|reflexivity]. intro X. apply (f_equal (@List.length string)) in X. simpl in X. lia.
Qed.
Print Assumptions C23_write_file_complete.

Example C23_example :
  match IFF_writeFd ex_form None (host false) (start_full [] 20) with
  | Done (false, w) => handed (w_out w) = firstn 20 (encode ex_form) /\ w_log w <> []
  | _ => False end.
Proof. vm_compute. split; [reflexivity|discriminate]. Qed.

(** ** C24.  Whenever output stops - the device is full, the process dies, or
    the file is cut at any byte - the device holds a prefix of the encoding,
    and reading it either gives the tree (nothing missing) or fails loudly. *)

Theorem C24_device_holds_a_prefix : forall rg app e c w ok w',
  Realises (selectChunkRegistry rg) app -> usual e -> WF app 0 c -> new_output w ->
  IFF_writeFd c rg e w = Done (ok, w') ->
  Prefix (on_device w') (encode c) /\ Prefix (closed w') (encode c).
Proof.
  intros rg app e c w ok w' RG U W NO H. destruct (write_result rg app e c w RG U W) as (lg & n & R & L).
  rewrite R in H. injection H as _ <-. unfold on_device, closed. cbn [w_out].
  rewrite (new_output_fresh w NO). destruct (fresh_device (encode c) (o_bufsize (w_out w)) (o_room (w_out w))) as (A & B & _).
  split; assumption.
Qed.
Print Assumptions C24_device_holds_a_prefix.

Theorem C24_no_wrong_tree : forall c e1 e2 w w' ok w2 file,
  usual e1 -> usual e2 -> WF no_apps 0 c -> zlength (encode c) < 2 ^ (size_t_bits e2 - 1) ->
  new_output w -> IFF_writeFd c None e1 w = Done (ok, w') ->
  Prefix file (on_device w') \/ Prefix file (closed w') ->
  r_rest (w_in w2) = file ->
  exists r w3, IFF_readFd None e2 w2 = Done (r, w3) /\
    (r = Some c /\ file = encode c \/ r = None /\ file <> encode c /\ reported w2 w3).
Proof.
  intros c e1 e2 w w' ok w2 file U1 U2 W L NO H PF R.
  destruct (C24_device_holds_a_prefix None no_apps e1 c w ok w' default_registry U1 W NO H) as [D C].
  assert (X : Prefix file (encode c)).
  { destruct PF as [[q1 E1]|[q1 E1]]; [destruct D as [q2 E2]|destruct C as [q2 E2]]; exists (q1 ++ q2);
      rewrite app_assoc, E1; exact E2. }
  destruct X as [q X]. destruct (WF_parsed e2 no_apps 0 c W) as (lg & P & _). destruct q as [|b q].
  - rewrite app_nil_r in X. subst file.
    destruct (readFd_complete None no_apps e2 w2 (encode c) [] c lg default_registry U2 no_apps_sane P) as [n E].
    + rewrite app_nil_r, <- X. reflexivity.
    + exact L.
    + right; right; apply no_apps_none.
    + exists (Some c). eexists. split; [exact E|]. left. split; [reflexivity|exact X].
  - destruct (readFd_prefix None no_apps e2 w2 (encode c) c lg file (b :: q) default_registry U2 no_apps_sane
                (or_intror no_apps_none) P L X ltac:(discriminate) R) as (lg' & NL & w3 & E & LG).
    exists None, w3. split; [exact E|]. right. split; [reflexivity|]. split.
    + intro Y. rewrite <- X in Y. apply (f_equal (@List.length byte)) in Y. rewrite app_length in Y. simpl in Y. lia.
    + exists lg'. split; [exact NL|exact LG].
Qed.
Print Assumptions C24_no_wrong_tree.

Example C24_example :
  match IFF_writeFd ex_cat None (host false) (start_full [] 70) with
  | Done (false, w) => zlength (closed w) = 70 /\
      match IFF_readFd None (host false) (start (closed w)) with Done (None, w2) => w_log w2 <> [] | _ => False end
  | _ => False end.
Proof. vm_compute. split; [reflexivity|discriminate]. Qed.

(** ** C25.  Inconsistent sizes are not detected when writing.  The bytes are
    those of [emitted]: a short body is filled with zero bytes up to the
    declared size, a long body is written in full. *)

Theorem C25_sizes_not_checked : forall rg app e c w,
  Realises (selectChunkRegistry rg) app -> usual e -> Writable app 0 c -> o_room (w_out w) = None ->
  exists w', IFF_writeFd c rg e w = Done (true, w') /\
    handed (w_out w') = handed (w_out w) ++ emitted c /\ w_log w' = w_log w.
Proof.
  intros rg app e c w RG U W N. destruct (write_emits _ app e RG U c 0 W w) as (lg & n & R & L).
  destruct (put_bytes_device (emitted c) (w_out w)) as [_ T]. destruct (T N) as [OK _].
  unfold IFF_writeFd. rewrite OK in R. eexists. split; [exact R|].
  split; [|cbn; rewrite (proj1 L OK); reflexivity].
  eapply C23_true_means_complete; try eassumption.
Qed.
Print Assumptions C25_sizes_not_checked.

(** Groups whose members are written with their declared lengths: *)
Theorem C25_too_large_is_filled : forall app i s g subs, Writable app 0 (CGroup i s g subs) ->
  (forall c, In c subs -> zlength (emitted c) = physical (chunkSize c)) ->
  4 + body_size subs <= s ->
  zlength (emitted (CGroup i s g subs)) = physical s.
Proof.
  intros app i s g subs W H LE. cbn [emitted].
  assert (B : zlength (flat_map emitted subs) = body_size subs).
  { clear -H. induction subs as [|c l IH]; [reflexivity|]. cbn [flat_map]. rewrite zlength_app, (H c) by (left; reflexivity).
    unfold body_size in *. cbn [map sum fold_right]. change (fold_right Z.add 0) with sum. rewrite IH by (intros; apply H; right; assumption). reflexivity. }
  rewrite !zlength_app, !EncodeProofs.be32_length, B. unfold zeros, zlength at 1. rewrite repeat_length.
  unfold physical, round_even, pad_for. rewrite mod2_odd. destruct (Z.odd s); rewrite ?zlength_cons, zlength_nil; lia.
Qed.
Print Assumptions C25_too_large_is_filled.

Theorem C25_too_small_overruns : forall app i s g subs, Writable app 0 (CGroup i s g subs) ->
  (forall c, In c subs -> zlength (emitted c) = physical (chunkSize c)) ->
  s < 4 + body_size subs ->
  zlength (emitted (CGroup i s g subs)) = 8 + 4 + body_size subs + s mod 2.
Proof.
  intros app i s g subs W H LE. cbn [emitted].
  assert (B : zlength (flat_map emitted subs) = body_size subs).
  { clear -H. induction subs as [|c l IH]; [reflexivity|]. cbn [flat_map]. rewrite zlength_app, (H c) by (left; reflexivity).
    unfold body_size in *. cbn [map sum fold_right]. change (fold_right Z.add 0) with sum. rewrite IH by (intros; apply H; right; assumption). reflexivity. }
  rewrite !zlength_app, !EncodeProofs.be32_length, B. unfold zeros, zlength at 1. rewrite repeat_length.
  unfold pad_for. rewrite mod2_odd. destruct (Z.odd s); rewrite ?zlength_cons, zlength_nil; lia.
Qed.
Print Assumptions C25_too_small_overruns.

(** A FORM declared 2 bytes too large and one 4 bytes too small, each with a
    sibling behind it, are written without complaint; the file of the second
    does not read back. *)
Definition short_form : chunk := CGroup FORM_ID 10 (ID_of "TEST") [raw "HELO" "ab"].
Definition long_form : chunk := CGroup FORM_ID 16 (ID_of "TEST") [raw "HELO" "ab"].
Example C25_example :
  match IFF_writeFd long_form None (host false) (start []) with
  | Done (true, w) => zlength (handed (w_out w)) = 24 /\ w_log w = [] | _ => False end /\
  match IFF_writeFd short_form None (host false) (start []) with
  | Done (true, w) => zlength (handed (w_out w)) = 22 /\ w_log w = [] | _ => False end /\
  Writable no_apps 0 long_form /\ Writable no_apps 0 short_form.
Proof.
  assert (X : forall s, 0 <= s <= INT_MAX -> Writable no_apps 0 (CGroup FORM_ID s (ID_of "TEST") [raw "HELO" "ab"])).
  { intros s S. apply Wr_group; [left; reflexivity|exact S|vm_compute; discriminate|]. intros c [<-|[]].
    apply Wr_raw; [wf_id|reflexivity|vm_compute; split; discriminate|vm_compute; discriminate]. }
  split; [vm_compute; split; reflexivity|]. split; [vm_compute; split; reflexivity|].
  split; apply X; vm_compute; split; discriminate.
Qed.
