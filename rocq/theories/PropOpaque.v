(** * C103: programs that do not know an application's chunk types *)

From Coq Require Import ZArith List Bool String Lia.
From Coq Require Import Strings.Byte.
From Verif Require Import Machine Io Types Build Read Write Check Iff Search Spec Lemmas EncodeProofs WriteProofs RegProofs RoundProofs ReadProofs SoundProofs ApiProofs CheckProofs ConfProofs UpdateProofs BuiltProofs Grammar OpaqueSpec Examples CanonProofs TestExt PropRegistry PropRead PropWrite PropCheck PropBuild PropTools PropEdit PropParts PropPartsExt PropFields PropAsked.
Import ListNotations.
Open Scope Z_scope.

Lemma opaque_bytes : forall c, encode (as_data c) = encode c.
Proof.
  assert (L : forall l, (forall c, In c l -> encode (as_data c) = encode c) -> flat_map encode (map as_data l) = flat_map encode l).
  { induction l as [|c l IH]; intro E; [reflexivity|]. cbn [map flat_map]. rewrite (E c (or_introl eq_refl)), IH; [reflexivity|]. intros x X. apply E. right. exact X. }
  induction c as [i s d|i s g l IH|i s g ps l IHp IHl|i s v] using chunk_tree_ind; cbn [as_data encode]; [reflexivity| | |reflexivity].
  - rewrite (L l IH). reflexivity.
  - rewrite (L ps IHp), (L l IHl). reflexivity.
Qed.
Lemma opaque_id : forall c, chunkId (as_data c) = chunkId c.
Proof. intros []; reflexivity. Qed.
Lemma opaque_size : forall c, chunkSize (as_data c) = chunkSize c.
Proof. intros []; reflexivity. Qed.
Lemma opaque_flat : forall l, flat_map encode (map as_data l) = flat_map encode l.
Proof. induction l as [|c l IH]; [reflexivity|]. cbn [map flat_map]. rewrite opaque_bytes, IH. reflexivity. Qed.
Lemma opaque_body : forall l, body_size (map as_data l) = body_size l.
Proof. intro l. unfold body_size. rewrite map_map. f_equal. apply map_ext. intro c. rewrite opaque_size. reflexivity. Qed.

Lemma opaque_WF : forall app c ft, WF app ft c -> WF no_apps ft (as_data c).
Proof.
  intros app. induction c as [i s d|i s g l IH|i s g ps l IHp IHl|i s v] using chunk_tree_ind; intros ft W; inversion W; subst; cbn [as_data].
  - apply WF_raw; [assumption|assumption|reflexivity|assumption].
  - apply WF_group; [assumption|assumption| |rewrite opaque_flat; reflexivity|assumption].
    intros c I. apply in_map_iff in I. destruct I as (x & <- & I). apply (IH x I). match goal with K : forall c, In c l -> _ |- _ => exact (K x I) end.
  - apply WF_list; [assumption| | |rewrite !opaque_flat; reflexivity|assumption].
    + intros c I. apply in_map_iff in I. destruct I as (x & <- & I). rewrite opaque_id. match goal with K : forall c, In c ps -> _ |- _ => destruct (K x I) as (A & B) end. split; [exact (IHp x I _ A)|exact B].
    + intros c I. apply in_map_iff in I. destruct I as (x & <- & I). rewrite opaque_id. match goal with K : forall c, In c l -> _ |- _ => destruct (K x I) as (A & B) end. split; [exact (IHl x I _ A)|exact B].
  - assert (LN : zlength (fields_body s v) = s) by (apply fields_body_length; lia).
    rewrite <- LN at 1. apply WF_raw; [assumption|assumption|reflexivity|lia].
Qed.

Lemma opaque_member : forall g c, cat_member g c -> cat_member g (as_data c).
Proof. intros g c (A & B). split; [rewrite opaque_id; exact A|]. destruct B as [B|B]; [left; exact B|right]. destruct c; try discriminate B; exact B. Qed.
Lemma opaque_Conforms : forall app c ft, Conforms app ft c -> Conforms no_apps ft (as_data c).
Proof.
  intros app. induction c as [i s d|i s g l IH|i s g ps l IHp IHl|i s v] using chunk_tree_ind; intros ft C; inversion C; subst; cbn [as_data].
  - apply Conf_raw; [assumption|assumption|reflexivity].
  - apply Conf_form; [assumption| |rewrite opaque_body; reflexivity]. intros c I. apply in_map_iff in I. destruct I as (x & <- & I). rewrite opaque_id.
    match goal with K : forall c, In c l -> _ |- _ => destruct (K x I) as (A & B) end. split; [exact A|exact (IH x I _ B)].
  - apply Conf_cat; [assumption| |rewrite opaque_body; reflexivity]. intros c I. apply in_map_iff in I. destruct I as (x & <- & I).
    match goal with K : forall c, In c l -> _ |- _ => destruct (K x I) as (A & B) end. split; [exact (opaque_member _ _ A)|exact (IH x I _ B)].
  - apply Conf_prop; [assumption| |rewrite opaque_body; reflexivity]. intros c I. apply in_map_iff in I. destruct I as (x & <- & I). rewrite opaque_id.
    match goal with K : forall c, In c l -> _ |- _ => destruct (K x I) as (A & B) end. split; [exact A|exact (IH x I _ B)].
  - apply Conf_list; [assumption| | |rewrite !opaque_body; reflexivity].
    + intros c I. apply in_map_iff in I. destruct I as (x & <- & I). apply (IHp x I). match goal with K : forall c, In c ps -> _ |- _ => exact (K x I) end.
    + intros c I. apply in_map_iff in I. destruct I as (x & <- & I). match goal with K : forall c, In c l -> _ |- _ => destruct (K x I) as (A & B) end. split; [exact (opaque_member _ _ A)|exact (IHl x I _ B)].
  - apply Conf_raw; [assumption|assumption|reflexivity].
Qed.

(** ** C103.  What an application wrote with its own chunk types, a program without
    them reads: the same tree, with data for the application's chunks, and
    without a message.  It is valid if the application's tree is. *)
Theorem C103_reading : forall rg app c e1 e2 w1 w2, Realises (selectChunkRegistry rg) app -> usual e1 -> usual e2 -> WF app 0 c ->
  zlength (encode c) <= INT_MAX -> new_output w1 -> IFF_writeFd c rg e1 w1 = Done (true, w2) ->
  forall w3, r_rest (w_in w3) = handed (w_out w2) ->
  exists w4, IFF_readFd None e2 w3 = Done (Some (as_data c), w4) /\ w_out w4 = w_out w3 /\ w_log w4 = w_log w3 /\
    (Conforms app 0 c -> top_level c -> IFF_check (as_data c) None e2 w4 = Done (true, w4)).
Proof.
  intros rg app c e1 e2 w1 w2 RG U1 U2 W L NO R w3 IN. destruct (C21_written_is_the_encoding rg app e1 c w1 w2 RG U1 W R) as (HD & _).
  assert (H0 : handed (w_out w1) = []) by (destruct NO as [D B]; unfold handed; rewrite D, B; reflexivity). rewrite H0 in HD. cbn [Datatypes.app] in HD. rewrite HD in IN.
  pose proof (opaque_WF _ _ _ W) as WO.
  assert (S2 : INT_MAX < 2 ^ (size_t_bits e2 - 1)) by (unfold size_t_bits; destruct (lp64 e2); reflexivity).
  destruct (WF_parsed e2 no_apps 0 _ WO) as (lg & P & CV). rewrite (CV (no_apps_covered _ _ WO)) in P.
  destruct (readFd_complete None no_apps e2 w3 (encode (as_data c)) [] (as_data c) [] default_registry U2 no_apps_sane P) as [m E].
  { rewrite app_nil_r, opaque_bytes. exact IN. } { rewrite opaque_bytes. lia. } { right. left. reflexivity. }
  eexists. split; [exact E|]. split; [reflexivity|]. split; [reflexivity|]. intros C TL.
  assert (TO : top_level (as_data c)) by (unfold top_level in *; rewrite opaque_id; exact TL).
  pose proof (opaque_Conforms _ _ _ C) as CO. destruct (WF_properties _ _ _ WO) as (_ & _ & LD).
  apply (fits_checked None no_apps _ _ _ default_registry WO CO TO). pose proof (Conforms_size _ _ _ CO (LeafData_sizes _ LD)) as CS. pose proof (WF_encode_length _ _ _ WO) as WL. rewrite opaque_bytes in WL. lia.
Qed.
Print Assumptions C103_reading.

(** ** C103.  If it writes the tree again, every byte is as the application left it,
    and the application reads its own tree. *)
Theorem C103_passing_on : forall rg app c e1 e2 e3 w1 w2, Realises (selectChunkRegistry rg) app -> SaneApps app -> usual e1 -> usual e2 -> usual e3 -> WF app 0 c ->
  zlength (encode c) <= INT_MAX -> new_output w1 -> IFF_writeFd c rg e1 w1 = Done (true, w2) ->
  forall w3 w4 t, r_rest (w_in w3) = handed (w_out w2) -> new_output w3 -> IFF_readFd None e2 w3 = Done (Some t, w4) ->
  forall w5, IFF_writeFd t None e2 w4 = Done (true, w5) ->
  handed (w_out w5) = handed (w_out w2) /\
  forall w6, r_rest (w_in w6) = handed (w_out w5) -> r_seekable (w_in w6) = true \/ Covered c ->
  exists w7, IFF_readFd rg e3 w6 = Done (Some c, w7) /\ (Covered c -> w_log w7 = w_log w6).
Proof.
  intros rg app c e1 e2 e3 w1 w2 RG SA U1 U2 U3 W L NO R w3 w4 t IN NO3 RD w5 WR.
  destruct (C103_reading rg app c e1 e2 w1 w2 RG U1 U2 W L NO R w3 IN) as (w4' & RD' & O4 & _). rewrite RD in RD'. injection RD' as -> ->.
  destruct (C21_written_is_the_encoding rg app e1 c w1 w2 RG U1 W R) as (HD & _).
  destruct (C21_written_is_the_encoding None no_apps e2 _ _ w5 default_registry U2 (opaque_WF _ _ _ W) WR) as (HD5 & _).
  assert (H0 : handed (w_out w1) = []) by (destruct NO as [D B]; unfold handed; rewrite D, B; reflexivity).
  assert (H3 : handed (w_out w4') = []) by (rewrite O4; destruct NO3 as [D B]; unfold handed; rewrite D, B; reflexivity).
  rewrite H0 in HD. rewrite H3, opaque_bytes in HD5. cbn [Datatypes.app] in HD, HD5. assert (SM : handed (w_out w5) = handed (w_out w2)) by congruence. split; [exact SM|].
  intros w6 IN6 SK. assert (S3 : INT_MAX < 2 ^ (size_t_bits e3 - 1)) by (unfold size_t_bits; destruct (lp64 e3); reflexivity).
  destruct (C16_write_then_read rg app c e1 e3 w1 w2 RG SA U1 U3 W ltac:(lia) NO R w6 [] ltac:(rewrite app_nil_r, <- SM; exact IN6) SK) as (w7 & E & _ & _ & LG).
  exists w7. split; [exact E|]. intro CV. exact (LG CV eq_refl).
Qed.
Print Assumptions C103_passing_on.

(** ** C103.  iffjoin, which knows no application, joins their documents without
    changing a byte of them. *)
Theorem C103_join : forall app e inputs out trees s, usual e ->
  Forall2 (fun f c => sy_files s f = Some (encode c)) inputs trees ->
  (forall c, In c trees -> WF app 0 c /\ Conforms app 0 c /\ top_level c) ->
  12 + total_size s inputs <= INT_MAX -> sy_room s out = None -> sy_writable s out = true ->
  exists s' g, IFF_join inputs (Some out) e s = Done (0, s') /\
    sy_files s' out = Some (be32 CAT_ID ++ be32 (4 + total_size s inputs) ++ be32 g ++ flat_map encode trees) /\
    (forall other, other <> out -> sy_files s' other = sy_files s other).
Proof.
  intros app e inputs out trees s U F OK SZ NR OW.
  destruct (C101_join e inputs out (map as_data trees) s U) as (s' & g & J & FO & _ & OT); [| |exact SZ|exact NR|exact OW|].
  - clear - F. induction F as [|f c fs cs X F IH]; cbn [map]; constructor; [rewrite opaque_bytes; exact X|exact IH].
  - intros c I. apply in_map_iff in I. destruct I as (x & <- & I). destruct (OK x I) as (W & C & TL).
    split; [exact (opaque_WF _ _ _ W)|]. split; [exact (opaque_Conforms _ _ _ C)|]. unfold top_level in *. rewrite opaque_id. exact TL.
  - exists s', g. split; [exact J|]. split; [|exact OT]. rewrite FO, opaque_flat. reflexivity.
Qed.
Print Assumptions C103_join.

(** ** C103.  And the application finds them in the result: reading it with the
    application's chunk types gives a CAT of the trees that were joined. *)
Theorem C103_joined_reads : forall rg app e1 e2 inputs out trees s w, Realises (selectChunkRegistry rg) app -> SaneApps app -> usual e1 -> usual e2 -> trees <> [] ->
  Forall2 (fun f c => sy_files s f = Some (encode c)) inputs trees ->
  (forall c, In c trees -> WF app 0 c /\ Conforms app 0 c /\ Covered c /\ top_level c) ->
  12 + total_size s inputs <= INT_MAX -> sy_room s out = None -> sy_writable s out = true ->
  exists s' bytes g, IFF_join inputs (Some out) e1 s = Done (0, s') /\ sy_files s' out = Some bytes /\
    (r_rest (w_in w) = bytes -> exists w', IFF_readFd rg e2 w = Done (Some (CGroup CAT_ID (4 + total_size s inputs) g trees), w') /\ w_log w' = w_log w).
Proof.
  intros rg app e1 e2 inputs out trees s w RG SA U1 U2 NE F OK SZ NR OW.
  destruct (C101_join e1 inputs out (map as_data trees) s U1) as (s' & g & J & FO & CT & OT); [| |exact SZ|exact NR|exact OW|].
  { clear - F. induction F as [|f c fs cs X F IH]; cbn [map]; constructor; [rewrite opaque_bytes; exact X|exact IH]. }
  { intros c I. apply in_map_iff in I. destruct I as (x & <- & I). destruct (OK x I) as (W & C & _ & TL).
    split; [exact (opaque_WF _ _ _ W)|]. split; [exact (opaque_Conforms _ _ _ C)|]. unfold top_level in *. rewrite opaque_id. exact TL. }
  assert (TS : total_size s inputs = zlength (flat_map encode trees)).
  { unfold total_size. clear - F. induction F as [|f c fs cs X F IH]; [reflexivity|]. cbn [map sum fold_right flat_map]. rewrite zlength_app.
    unfold input_size at 1. rewrite X. fold (sum (map (input_size s) fs)). rewrite IH. reflexivity. }
  assert (GR : in_range FId g).
  { destruct (CT ltac:(destruct trees; [contradiction|discriminate])) as [A|(-> & _)]; [|vm_compute; split; congruence].
    destruct trees as [|c trees]; [contradiction|]. specialize (A (as_data c) (or_introl eq_refl)). destruct (OK c (or_introl eq_refl)) as (W & _).
    inversion W; subst; cbn [as_data group_type_of] in A; try discriminate A; injection A as <-; assumption. }
  assert (WT : forall ft c, In c trees -> WF app ft c).
  { intros ft c I. destruct (OK c I) as (W & _ & _ & TL). inversion W; subst.
    1-2: exfalso; match goal with N : ~ In _ group_ids |- _ => apply N, cat_ids_group; exact TL end.
    - apply WF_group; auto.
    - apply WF_list; auto. }
  set (cat := CGroup CAT_ID (4 + total_size s inputs) g trees).
  assert (WC : WF app 0 cat) by (apply WF_group; [right; left; reflexivity|exact GR|intros c I; exact (WT g c I)|rewrite TS; reflexivity|lia]).
  assert (CV : Covered cat).
  { intros i z v I. inversion I as [|? ? ? ? c IC IT| |]; subst. exact (proj1 (proj2 (proj2 (OK c IC))) i z v IT). }
  assert (EC : encode cat = be32 CAT_ID ++ be32 (4 + total_size s inputs) ++ be32 g ++ flat_map encode (map as_data trees)).
  { unfold cat. cbn [encode]. unfold frame. rewrite opaque_flat. assert (PD : pad (be32 g ++ flat_map encode trees) = []); [|rewrite PD, app_nil_r; reflexivity].
    unfold pad. rewrite zlength_app. assert (EV : Z.even (zlength (flat_map encode trees)) = true).
    { assert (EE : forall c, In c trees -> Z.even (zlength (encode c)) = true) by (intros c I; rewrite (WF_encode_length _ _ _ (WT 0 c I)); unfold physical, round_even; rewrite Zmod_even, !Z.even_add; destruct (Z.even (chunkSize c)); reflexivity).
      clear - EE. induction trees as [|c l IH]; [reflexivity|]. cbn [flat_map]. rewrite zlength_app, Z.even_add, (EE c (or_introl eq_refl)), IH; [reflexivity|]. intros x X. apply EE. right. exact X. }
    change (zlength (be32 g)) with 4. rewrite <- Z.negb_even, Z.even_add, EV. reflexivity. }
  exists s', (encode cat), g. split; [exact J|]. split; [rewrite FO, EC; reflexivity|]. intro IN.
  assert (S2 : INT_MAX < 2 ^ (size_t_bits e2 - 1)) by (unfold size_t_bits; destruct (lp64 e2); reflexivity).
  destruct (WF_parsed e2 app 0 cat WC) as (lg & P & K). rewrite (K CV) in P.
  destruct (readFd_complete rg app e2 w (encode cat) [] cat [] RG U2 SA P) as [m E].
  { rewrite app_nil_r. exact IN. } { rewrite EC, opaque_flat, !zlength_app, <- TS. change (zlength (be32 CAT_ID)) with 4. change (zlength (be32 (4 + total_size s inputs))) with 4. change (zlength (be32 g)) with 4. lia. } { right. left. reflexivity. }
  eexists. split; [exact E|]. reflexivity.
Qed.
Print Assumptions C103_joined_reads.

(** The CAT of C102 as iffpp and iffjoin see it *)
Example C103_example :
  WF (app_of TEST_scopedRegistry) 0 mixed /\ as_data mixed <> mixed /\
  (exists w, IFF_writeFd mixed (Some TEST_scopedRegistry) (host false) (start []) = Done (true, w) /\ handed (w_out w) = encode mixed) /\
  exists w, IFF_readFd None (host false) (start (encode mixed)) = Done (Some (as_data mixed), w) /\ w_log w = [].
Proof.
  split; [exact mixed_WF|]. split; [discriminate|]. split; eexists; (split; vm_compute; reflexivity).
Qed.
