(** * C101: taking files apart and putting them together *)

From Coq Require Import ZArith List Bool String Lia.
From Coq Require Import Strings.Byte.
From Verif Require Import Machine Io Types Build Read Write Check Iff Search Spec Lemmas HeapClientProofs EncodeProofs WriteProofs RegProofs RoundProofs ReadProofs SoundProofs ApiProofs CheckProofs ConfProofs UpdateProofs BuiltProofs Heap HeapSpec HeapSearch HeapPass HeapPathProofs EditSpec EditProofs Examples CanonProofs PropRegistry PropRead PropWrite PropCheck PropBuild PropSearch PropTools PropHeapTools PropHeapSearch PropEdit.
Import ListNotations.
Open Scope Z_scope.

(** A FORM, CAT or LIST of a valid file is a valid file of its own. *)
Lemma part_good : forall root q part, WF no_apps 0 root -> Conforms no_apps 0 root -> zlength (encode root) <= INT_MAX ->
  at_path root q = Some part -> top_level part ->
  WF no_apps 0 part /\ good part /\ Represented part /\ encoded_size part <= INT_MAX /\ zlength (encode part) <= zlength (encode root).
Proof.
  intros root q part W C L A TL. destruct (WF_properties _ _ _ W) as (T & RP & LD). pose proof (LeafData_sizes _ LD) as LS.
  assert (GI : In (chunkId part) group_ids) by (apply cat_ids_group; exact TL).
  destruct (Conforms_at q root part 0 C A) as (fo & CO). pose proof (Conforms_any _ fo 0 part GI CO) as C0.
  assert (IO : forall y, InTree y part -> InTree y root) by (intros y Y; apply InTree_at_path in Y; destruct Y as (r & Y); apply InTree_at_path; exists (q ++ r); rewrite (HeapLookupProofs.at_path_app _ _ _ _ A); exact Y).
  assert (LDP : LeafData part) by (intros y Y; exact (LD y (IO y Y))).
  pose proof (encoded_at q root part LS A) as EP.
  assert (ER : encoded_size root = zlength (encode root)) by (rewrite (WF_encode_length _ _ _ W); symmetry; exact (Conforms_size _ _ _ C LS)).
  pose proof (Conforms_size _ _ _ C0 (LeafData_sizes _ LDP)) as CS. pose proof (physical_range (chunkSize part)) as PR.
  assert (TP : Typed no_apps 0 part) by exact (Ty_at q 0 root part T A).
  assert (WP : WF no_apps 0 part) by (apply Conforms_WF; [exact TP|exact C0|exact LDP|lia]).
  split; [exact WP|]. split; [constructor; assumption|]. split; [exact (Conforms_Represented _ _ _ C0)|]. split; [lia|].
  rewrite (WF_encode_length _ _ _ WP). lia.
Qed.

Lemma good_checked : forall c e w, good c -> Represented c -> encoded_size c <= INT_MAX -> IFF_check c None e w = Done (true, w).
Proof.
  intros c e w [T LD C TL] RP SZ. rewrite check_root by exact TL.
  destruct (check_decides _ _ default_registry c 0 T RP (LeafData_sizes _ LD) SZ e w) as [[_ X]|[X _]]; [exact X|contradiction].
Qed.

Lemma slice_middle : forall a b c : list byte, slice (a ++ b ++ c) (List.length a) (List.length b) = b.
Proof.
  intros a b c. unfold slice. rewrite skipn_app, skipn_all, Nat.sub_diag. cbn [Datatypes.app skipn].
  rewrite firstn_app, firstn_all, Nat.sub_diag. cbn [firstn]. apply app_nil_r.
Qed.

(** ** C101.  A FORM, CAT or LIST inside a file, at any depth, is stored as it would
    be in a file of its own: cut out, it is a file that reads back as that chunk,
    and it is valid. *)
Theorem C101_part : forall e w root q part, usual e -> WF no_apps 0 root -> Conforms no_apps 0 root -> zlength (encode root) <= INT_MAX ->
  at_path root q = Some part -> top_level part ->
  slice (encode root) (position root q) (List.length (encode part)) = encode part /\
  (position root q + List.length (encode part) <= List.length (encode root))%nat /\
  forall seekable, exists w', IFF_readFd None e (mkWorld (mkRfile (encode part) seekable) (w_out w) (w_log w) (w_allocs w)) = Done (Some part, w') /\
    w_log w' = w_log w /\ IFF_check part None e w' = Done (true, w').
Proof.
  intros e w root q part U W C L A TL. destruct (part_good root q part W C L A TL) as (WP & G & RP & SZ & LE).
  destruct (edited_bytes part part q root root) as (pre & _ & post & E1 & _ & L1 & _).
  { apply edit_found; try (apply (Conforms_Sized _ _ _ C)); [apply (Conforms_Sized _ _ _ (good_conforms _ G))|exact A|rewrite (replace_same _ _ _ A); reflexivity]. }
  split; [rewrite E1, <- L1; apply slice_middle|]. split; [rewrite E1, !app_length; lia|]. intro k.
  assert (S2 : INT_MAX < 2 ^ (size_t_bits e - 1)) by (unfold size_t_bits; destruct (lp64 e); reflexivity).
  destruct (WF_parsed e no_apps 0 part WP) as (lg & P & CV).
  destruct (readFd_complete None no_apps e (mkWorld (mkRfile (encode part) k) (w_out w) (w_log w) (w_allocs w)) (encode part) [] part lg default_registry U no_apps_sane P) as [m E].
  { rewrite app_nil_r. reflexivity. } { lia. } { right. left. exact (CV (no_apps_covered _ _ WP)). }
  rewrite (CV (no_apps_covered _ _ WP)) in E. cbn [trailing_warning Datatypes.app tl] in E.
  eexists. split; [exact E|]. split; [reflexivity|]. apply good_checked; assumption.
Qed.
Print Assumptions C101_part.

(** Writing it from inside the tree in memory, through a pointer to it, produces just these bytes. *)
Theorem C101_write : forall e w h root p a F q b part, usual e -> WF no_apps 0 root -> Conforms no_apps 0 root -> zlength (encode root) <= INT_MAX ->
  tree_at h root p a F -> NoDup F -> Leads h a q b -> at_path root q = Some part -> top_level part -> o_room (w_out w) = None ->
  hIFF_check b None e w h = Done (true, w, h) /\
  exists w', hIFF_writeFd b None e w h = Done (true, w', h) /\
    handed (w_out w') = handed (w_out w) ++ slice (encode root) (position root q) (List.length (encode part)) /\ w_log w' = w_log w.
Proof.
  intros e w h root p a F q b part U W C L T ND LB A TL NR. destruct (part_good root q part W C L A TL) as (WP & G & RP & SZ & LE).
  destruct (path_split q h root p a F part T A) as (b' & pb & F1 & R & LB' & TB & SB & _).
  rewrite (Leads_det _ _ _ _ _ LB' LB) in TB.
  assert (N1 : NoDup F1) by exact (HeapProofs.NoDup_app_l _ _ _ (proj1 (same_nodup _ _ SB) ND)).
  split; [rewrite (C61_check_refines None e w part pb b F1 h TB N1), good_checked by assumption; reflexivity|].
  destruct (C21_writing_succeeds None no_apps e part w default_registry U WP NR) as (w' & WR).
  destruct (C21_written_is_the_encoding None no_apps e part w w' default_registry U WP WR) as (HD & _ & LG).
  exists w'. split; [rewrite (C61_write_refines None e w part pb b F1 h TB N1), WR; reflexivity|].
  split; [rewrite HD; f_equal; symmetry; exact (proj1 (C101_part e w root q part U W C L A TL))|exact LG].
Qed.
Print Assumptions C101_write.

Lemma position_path : forall p c x, at_position c p = Some x -> at_path c (map InSub p) = Some x.
Proof.
  induction p as [|n p IH]; intros c x A; cbn [at_position at_path map] in *; [exact A|].
  destruct c as [i z d|i z g l|i z g ps l|i z v]; cbn [contents] in A; cbn [get_child]; try (destruct n; discriminate).
  - destruct (i =? PROP_ID); [destruct n; discriminate|]. destruct (nth_error l n) as [y|]; [exact (IH y x A)|discriminate].
  - destruct (nth_error l n) as [y|]; [exact (IH y x A)|discriminate].
Qed.

(** ** The FORMs that a search finds can be written one by one: each is cut out of the file. *)
Theorem C101_search : forall e w h root p a F formType arr n w1 h1, usual e -> WF no_apps 0 root -> Conforms no_apps 0 root -> zlength (encode root) <= INT_MAX ->
  tree_at h root p a F -> NoDup F -> hIFF_searchForms a formType e w h = Done ((arr, n), w1, h1) ->
  exists ps la Fa, in_order ps /\ (forall q, In q ps <-> outermost [formType] root q) /\ array_at h1 arr la Fa /\ n = List.length la /\
    Forall2 (fun q b => exists form, at_position root q = Some form /\
      forall w2, o_room (w_out w2) = None ->
        exists w3, hIFF_writeFd b None e w2 h1 = Done (true, w3, h1) /\ w_log w3 = w_log w2 /\
          handed (w_out w3) = handed (w_out w2) ++ slice (encode root) (position root (map InSub q)) (List.length (encode form))) ps la.
Proof.
  intros e w h root p a F ty arr n w1 h1 U W C L T ND S. destruct (WF_properties _ _ _ W) as (TY & _ & _).
  pose proof (C65_search no_apps 0 root p a F h e w ty TY T ND) as X. rewrite S in X. destruct X as (ps & la & Fa & Lk & O & I & NL & AA & LD & B).
  exists ps, la, Fa. split; [exact O|]. split; [exact I|]. split; [exact AA|]. split; [exact NL|].
  assert (FR : forall x, In x F -> lookup h1 x = lookup h x).
  { intros x X. apply (HeapProofs.becomes_kept _ _ _ _ _ B); [exact (HeapProofs.tree_live _ _ _ _ _ _ T X)|intros []]. }
  pose proof (HeapProofs.tree_frame h h1 root p a F T FR) as T1.
  assert (LD1 : Forall2 (fun q b => (exists c, at_position root q = Some c /\ wanted [ty] c) /\ Leads h1 a (map InSub q) b) ps la).
  { assert (SUB : forall q, In q ps -> exists c, at_position root q = Some c /\ wanted [ty] c) by (intros q Q; exact (proj1 (proj1 (I q) Q))).
    clear - LD SUB T1 FR. induction LD as [|q b ps la X LD IH]; constructor.
    - split; [apply SUB; left; reflexivity|]. exact (HeapFormsProofs.Leads_frame _ h1 h _ _ _ _ _ T1 (fun x I => eq_sym (FR x I)) X).
    - apply IH. intros r R. apply SUB. right. exact R. }
  clear - U W C L T1 ND LD1. induction LD1 as [|q b ps la ((form & A & WT) & LB) _ IH]; constructor; [|exact IH].
  exists form. split; [exact A|]. intros w2 NR.
  destruct (C101_write e w2 h1 root p a F (map InSub q) b form U W C L T1 ND LB (position_path _ _ _ A)) as (_ & w3 & WR & HD & LG); [left; symmetry; exact (proj1 WT)|exact NR|].
  exists w3. auto.
Qed.
Print Assumptions C101_search.

(** ** iffjoin on such files: the output is 12 bytes, and then the files one after the other. *)
Lemma encoded_accepted : forall e s f c, usual e -> WF no_apps 0 c -> good c -> Represented c -> encoded_size c <= INT_MAX ->
  sy_files s f = Some (encode c) -> accepted e s f c.
Proof.
  intros e s f c U W G RP SZ FD.
  assert (S2 : INT_MAX < 2 ^ (size_t_bits e - 1)) by (unfold size_t_bits; destruct (lp64 e); reflexivity).
  assert (LE : zlength (encode c) <= INT_MAX).
  { rewrite (WF_encode_length _ _ _ W). pose proof (Conforms_size _ _ _ (good_conforms _ G) (LeafData_sizes _ (good_data _ G))). lia. }
  destruct (WF_parsed e no_apps 0 c W) as (lg & P & CV).
  destruct (readFd_complete None no_apps e (mkWorld (mkRfile (encode c) true) no_out (sy_log s) (sy_allocs s)) (encode c) [] c lg default_registry U no_apps_sane P) as [m E].
  { rewrite app_nil_r. reflexivity. } { lia. } { left. reflexivity. }
  split.
  - unfold IFF_readFile. rewrite FD. unfold bindS, with_streams. rewrite E. eexists. reflexivity.
  - unfold no_streams, bindS, with_streams. rewrite (good_checked c e _ G RP SZ). eexists. reflexivity.
Qed.

Lemma accepted_one : forall e s f c c', accepted e s f c -> accepted e s f c' -> c = c'.
Proof. intros e s f c c' ((s1 & R1) & _) ((s2 & R2) & _). rewrite R1 in R2. injection R2 as ->. reflexivity. Qed.

Theorem C101_join : forall e inputs out trees s, usual e ->
  Forall2 (fun f c => sy_files s f = Some (encode c)) inputs trees ->
  (forall c, In c trees -> WF no_apps 0 c /\ Conforms no_apps 0 c /\ top_level c) ->
  12 + total_size s inputs <= INT_MAX -> sy_room s out = None -> sy_writable s out = true ->
  exists s' g, IFF_join inputs (Some out) e s = Done (0, s') /\
    sy_files s' out = Some (be32 CAT_ID ++ be32 (4 + total_size s inputs) ++ be32 g ++ flat_map encode trees) /\
    (trees <> [] -> common_type trees g) /\ (forall other, other <> out -> sy_files s' other = sy_files s other).
Proof.
  intros e inputs out trees s U F OK SZ NR OW.
  assert (TS : total_size s inputs = zlength (flat_map encode trees)).
  { unfold total_size. clear - F. induction F as [|f c fs cs X F IH]; [reflexivity|]. cbn [map sum fold_right flat_map]. rewrite zlength_app.
    unfold input_size at 1. rewrite X. fold (sum (map (input_size s) fs)). rewrite IH. reflexivity. }
  assert (EACH : forall c, In c trees -> WF no_apps 0 c /\ good c /\ Represented c /\ encoded_size c <= INT_MAX /\ zlength (encode c) = physical (chunkSize c)).
  { intros c I. destruct (OK c I) as (W & C & TL). destruct (WF_properties _ _ _ W) as (T & RP & LD).
    assert (LE : zlength (encode c) <= zlength (flat_map encode trees)).
    { clear - I. induction trees as [|d l IH]; [destruct I|]. cbn [flat_map]. rewrite zlength_app. pose proof (zlength_nonneg _ (encode d)). pose proof (zlength_nonneg _ (flat_map encode l)).
      destruct I as [->|I]; [lia|]. specialize (IH I). lia. }
    pose proof (Conforms_size _ _ _ C (LeafData_sizes _ LD)) as CS. pose proof (WF_encode_length _ _ _ W) as EL.
    split; [exact W|]. split; [constructor; assumption|]. split; [exact RP|]. split; [lia|exact EL]. }
  assert (AC : Forall2 (accepted e s) inputs trees).
  { clear - F EACH U. induction F as [|f c fs cs X F IH]; constructor.
    - destruct (EACH c (or_introl eq_refl)) as (W & G & RP & SZ & _). apply encoded_accepted; assumption.
    - apply IH. intros d D. apply EACH. right. exact D. }
  destruct (C45_succeeds e inputs trees out s U SZ NR OW AC) as (s' & J).
  destruct (joined_file e inputs out s s' U SZ NR J) as (cs & cat & F' & JD & _ & _ & D & O & CT).
  assert (EC : cs = trees).
  { clear - AC F'. revert cs F'. induction AC as [|f c fs l X AC IH]; intros cs F'; inversion F'; subst; [reflexivity|]. f_equal; [eapply accepted_one; eassumption|apply IH; assumption]. }
  subst cs. destruct JD as [(g & -> & _ & _) _]. exists s', g. split; [exact J|]. split; [|split; [|exact O]].
  - rewrite D. f_equal. cbn [encode]. rewrite frame_even by (rewrite zlength_app, be32_length, Z.odd_add, even_all; reflexivity). do 3 f_equal. rewrite TS.
    clear - EACH. induction trees as [|c l IH]; [reflexivity|]. change (body_size (c :: l)) with (physical (chunkSize c) + body_size l). cbn [flat_map]. rewrite zlength_app. destruct (EACH c (or_introl eq_refl)) as (_ & _ & _ & _ & ->).
    rewrite Z.add_assoc, (Z.add_comm 4), <- Z.add_assoc, IH; [lia|]. intros d I. apply EACH. right. exact I.
  - intro N. destruct (CT N) as (g' & A & X). cbn in A. injection A as ->. exact X.
Qed.
Print Assumptions C101_join.

Lemma common_one : forall l g g', l <> [] -> common_type l g -> common_type l g' -> g = g'.
Proof.
  intros l g g' N A B. destruct A as [A|(A & c1 & c2 & I1 & I2 & A2)]; destruct B as [B|(B & d1 & d2 & J1 & J2 & B2)].
  - destruct l as [|c l]; [contradiction|]. pose proof (A c (or_introl eq_refl)). pose proof (B c (or_introl eq_refl)). congruence.
  - destruct B2. rewrite (A d1 J1), (A d2 J2). reflexivity.
  - destruct A2. rewrite (B c1 I1), (B c2 I2). reflexivity.
  - congruence.
Qed.

(** ** Taking a CAT apart and joining the parts gives the file back; all of it, if the
    contents type was the one that iffjoin chooses, and else all but that. *)
Theorem C101_rejoin : forall e inputs out size g members s, usual e ->
  WF no_apps 0 (CGroup CAT_ID size g members) -> Conforms no_apps 0 (CGroup CAT_ID size g members) ->
  zlength (encode (CGroup CAT_ID size g members)) <= INT_MAX -> members <> [] ->
  Forall2 (fun f c => sy_files s f = Some (encode c)) inputs members -> sy_room s out = None -> sy_writable s out = true ->
  exists s' g', IFF_join inputs (Some out) e s = Done (0, s') /\
    sy_files s' out = Some (encode (CGroup CAT_ID size g' members)) /\
    (common_type members g -> g' = g) /\ (g' <> g -> g = JJJJ_ID).
Proof.
  intros e inputs out z g l s U W C L N F NR OW.
  assert (MB : forall c, In c l -> WF no_apps 0 c /\ Conforms no_apps 0 c /\ top_level c).
  { intros c I. apply In_nth_error in I. destruct I as (n & I).
    assert (A : at_path (CGroup CAT_ID z g l) [InSub n] = Some c) by (cbn; rewrite I; reflexivity).
    assert (TL : top_level c). { apply nth_error_In in I. inversion C; subst; try discriminate. match goal with K : forall c, In c l -> cat_member g c /\ _ |- _ => exact (proj1 (proj1 (K c I))) end. }
    destruct (part_good _ _ _ W C L A TL) as (WP & G & _). split; [exact WP|]. split; [exact (good_conforms _ G)|exact TL]. }
  assert (TS : total_size s inputs = zlength (flat_map encode l)).
  { unfold total_size. clear - F. induction F as [|f c fs cs X F IH]; [reflexivity|]. cbn [map sum fold_right flat_map]. rewrite zlength_app.
    unfold input_size at 1. rewrite X. fold (sum (map (input_size s) fs)). rewrite IH. reflexivity. }
  assert (EN : forall g, encode (CGroup CAT_ID z g l) = be32 CAT_ID ++ be32 z ++ be32 g ++ flat_map encode l).
  { intro g0. cbn [encode]. apply frame_even. rewrite zlength_app, be32_length, Z.odd_add, even_all. reflexivity. }
  assert (LE : zlength (encode (CGroup CAT_ID z g l)) = 12 + total_size s inputs) by (rewrite EN, !zlength_app, !be32_length, TS; lia).
  destruct (C101_join e inputs out l s U F MB) as (s' & g' & J & D & CT & _); [lia|exact NR|exact OW|].
  assert (ZZ : z = 4 + total_size s inputs).
  { pose proof (WF_encode_length _ _ _ W) as X. rewrite LE in X. cbn [chunkSize] in X. pose proof (Conforms_size _ _ _ C (LeafData_sizes _ (proj2 (proj2 (WF_properties _ _ _ W))))) as Y. cbn [encoded_size chunkSize] in Y.
    assert (Z4 : z = 4 + body_size l) by exact (Conforms_Sized _ _ _ C _ (In_here _)).
    rewrite TS. rewrite Z4. f_equal. clear - MB. induction l as [|c l IH]; [reflexivity|]. change (body_size (c :: l)) with (physical (chunkSize c) + body_size l). cbn [flat_map]. rewrite zlength_app.
    rewrite (WF_encode_length _ _ _ (proj1 (MB c (or_introl eq_refl)))), IH; [reflexivity|]. intros d I. apply MB. right. exact I. }
  exists s', g'. split; [exact J|]. split; [rewrite EN, ZZ; exact D|]. split; [intro X; exact (common_one l g' g N (CT N) X)|].
  intro NE. destruct (Z.eq_dec g JJJJ_ID) as [->|NJ]; [reflexivity|]. exfalso. apply NE. apply (common_one l g' g N (CT N)). left.
  intros c I. inversion C; subst; try discriminate. match goal with K : forall c, In c l -> cat_member g c /\ _ |- _ => destruct (proj1 (K c I)) as (_ & [X|X]); [contradiction|exact X] end.
Qed.
Print Assumptions C101_rejoin.

(** ** What may be lost: chunks that a FORM shares with others through the PROPs of a LIST
    are not in it.  Without LISTs around it, all lookups give what they gave before. *)
Theorem C101_lookup : forall form up cid, (forall x, In x up -> chunkId x <> LIST_ID) ->
  IFF_getChunkFromForm form up cid = IFF_getChunkFromForm form [] cid.
Proof.
  assert (S : forall up ty cid, (forall x, In x up -> chunkId x <> LIST_ID) -> searchProperty up ty cid = Done None).
  { induction up as [|x up IH]; intros ty cid N; [reflexivity|]. cbn [searchProperty]. change IFF_ID_LIST with LIST_ID.
    rewrite (proj2 (Z.eqb_neq _ _) (N x (or_introl eq_refl))). apply IH. intros y Y. apply N. right. exact Y. }
  intros form up cid N. unfold IFF_getChunkFromForm. destruct (IFF_getDataChunkFromForm form cid) as [[c|]|u|]; try reflexivity. cbn [obind].
  destruct (as_group form) as [[ty l]|]; [|reflexivity]. rewrite S by exact N. reflexivity.
Qed.
Print Assumptions C101_lookup.

Lemma ex_conforms : forall c, WF no_apps 0 c -> encoded_size c <= INT_MAX -> IFF_check c None (host false) (start []) = Done (true, start []) -> Conforms no_apps 0 c.
Proof.
  intros c W S E. destruct (WF_properties _ _ _ W) as (T & R & D).
  destruct (C26_check_decides_conformance None no_apps c (host false) (start []) default_registry T R (LeafData_sizes _ D) S) as (b & w' & X & B).
  rewrite E in X. injection X as <- _. exact (proj2 (proj1 B eq_refl)).
Qed.

Theorem C101_shared_refuted : exists root q form up cid c, WF no_apps 0 root /\ Conforms no_apps 0 root /\ top_level root /\ zlength (encode root) <= INT_MAX /\
  at_path root q = Some form /\ chunkId form = FORM_ID /\ enclosed root form up /\
  IFF_getChunkFromForm form up cid = Done (Some c) /\
  match IFF_readFd None (host false) (start (slice (encode root) (position root q) (List.length (encode form)))) with
  | Done (Some form', _) => form' = form /\ IFF_getChunkFromForm form' [] cid = Done None
  | _ => False
  end.
Proof.
  exists ex_list, [InSub 0], ex_form, [ex_list], (ID_of "COLR"), (raw "COLR" "r"). split; [exact ex_list_wf|].
  split; [apply ex_conforms; [exact ex_list_wf|vm_compute; discriminate|vm_compute; reflexivity]|].
  split; [right; right; left; reflexivity|]. split; [vm_compute; discriminate|]. split; [reflexivity|]. split; [reflexivity|].
  split; [apply enclosed_member; [constructor|left; reflexivity]|]. split; [vm_compute; reflexivity|]. vm_compute. split; reflexivity.
Qed.
Print Assumptions C101_shared_refuted.

(** A system with a file for each of some trees *)
Definition files_of (l : list (string * list byte)) : sys :=
  mkSys (fun n => match find (fun p => String.eqb (fst p) n) l with Some (_, d) => Some d | None => None end)
    (fun _ => true) (fun _ => None) 16 no_in (mkWfile [] [] 4096 None) [] 0.

(** A CAT of the blank contents type whose members are all alike does not come back unchanged. *)
Theorem C101_contents_type_refuted : exists size members inputs s s' d,
  WF no_apps 0 (CGroup CAT_ID size JJJJ_ID members) /\ Conforms no_apps 0 (CGroup CAT_ID size JJJJ_ID members) /\
  Forall2 (fun f c => sy_files s f = Some (encode c)) inputs members /\
  IFF_join inputs (Some "out.iff"%string) (host false) s = Done (0, s') /\ sy_files s' "out.iff"%string = Some d /\
  d <> encode (CGroup CAT_ID size JJJJ_ID members).
Proof.
  exists (4 + body_size [ex_form; ex_form]), [ex_form; ex_form], ["a.iff"; "b.iff"]%string, (files_of [("a.iff", encode ex_form); ("b.iff", encode ex_form)]%string). eexists. eexists.
  assert (W : WF no_apps 0 (group "CAT " "JJJJ" [ex_form; ex_form])) by prove_wf.
  split; [exact W|]. split; [apply (ex_conforms _ W); [vm_compute; discriminate|vm_compute; reflexivity]|].
  split; [repeat constructor|]. split; [vm_compute; reflexivity|]. split; [vm_compute; reflexivity|]. vm_compute. discriminate.
Qed.
Print Assumptions C101_contents_type_refuted.

(** ** Examples: the LIST and the FORM of [ex_cat], cut out, and joined again *)
Example C101_example : WF no_apps 0 ex_cat /\ Conforms no_apps 0 ex_cat /\ zlength (encode ex_cat) <= INT_MAX /\
  at_path ex_cat [InSub 0] = Some ex_list /\ top_level ex_list /\ at_path ex_cat [InSub 0; InSub 0] = Some ex_form /\ top_level ex_form /\
  position ex_cat [InSub 0; InSub 0] = 46%nat /\
  slice (encode ex_cat) 46 (List.length (encode ex_form)) = encode ex_form /\
  (let s := files_of [("a.iff", encode ex_list); ("b.iff", encode (group "FORM" "ABCD" []))]%string in
   match IFF_join ["a.iff"; "b.iff"]%string (Some "out.iff"%string) (host false) s with
   | Done (0, s') => sy_files s' "out.iff"%string = Some (encode ex_cat)
   | _ => False
   end) /\ common_type [ex_list; group "FORM" "ABCD" []] JJJJ_ID.
Proof.
  split; [exact ex_cat_wf|]. split; [apply ex_conforms; [exact ex_cat_wf|vm_compute; discriminate|vm_compute; reflexivity]|]. split; [vm_compute; discriminate|].
  split; [reflexivity|]. split; [right; right; left; reflexivity|]. split; [reflexivity|]. split; [left; reflexivity|]. split; [vm_compute; reflexivity|]. split; [vm_compute; reflexivity|].
  split; [vm_compute; reflexivity|]. right. split; [reflexivity|]. exists ex_list, (group "FORM" "ABCD" []). split; [left; reflexivity|]. split; [right; left; reflexivity|]. vm_compute. discriminate.
Qed.
