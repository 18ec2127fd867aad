(** * C101, continued: taking files apart that hold an application's own chunks *)

From Coq Require Import ZArith List Bool String Lia.
From Coq Require Import Strings.Byte.
From Verif Require PropId.
From Verif Require Import Machine Io Types Build Read Write Check Iff Search Spec Lemmas EncodeProofs WriteProofs RegProofs RoundProofs ReadProofs SoundProofs ApiProofs CheckProofs ConfProofs UpdateProofs BuiltProofs Heap HeapSpec HeapSearch HeapPass HeapPathProofs EditSpec EditProofs Examples CanonProofs TestExt PropRegistry PropRead PropWrite PropCheck PropBuild PropSearch PropTools PropHeapTools PropHeapSearch PropEdit PropParts Grammar PropFields PropAsked.
Import ListNotations.
Open Scope Z_scope.

Lemma fits_at : forall app q c y ft, Typed app ft c -> Conforms app ft c -> at_path c q = Some y -> exists ft', Typed app ft' y /\ Conforms app ft' y.
Proof.
  intros app q. induction q as [|s q IH]; intros c y ft T C A; cbn [at_path] in A; [injection A as ->; exists ft; auto|].
  destruct (get_child c s) as [x|] eqn:G; [|discriminate].
  assert (X : exists ft', Typed app ft' x /\ Conforms app ft' x).
  { destruct s as [n|n], c as [i z d|i z g l|i z g ps l|i z v]; cbn in G; try discriminate; apply nth_error_In in G; exists g;
      (split; [inversion T; subst|inversion C; subst]);
      match goal with K : forall c, In c ?m -> _ |- _ => match type of G with In _ m => destruct (K _ G); assumption || exact (K _ G) end end. }
  destruct X as (ft' & TX & CX). exact (IH x y ft' TX CX A).
Qed.

Lemma part_fits : forall app root q part, WF app 0 root -> Conforms app 0 root -> zlength (encode root) <= INT_MAX ->
  at_path root q = Some part -> top_level part ->
  WF app 0 part /\ Conforms app 0 part /\ LeafData part /\ Represented part /\ encoded_size part <= INT_MAX /\ zlength (encode part) <= zlength (encode root) /\ (Covered root -> Covered part).
Proof.
  intros app root q part W C L A TL. destruct (WF_properties _ _ _ W) as (T & RP & LD). pose proof (LeafData_sizes _ LD) as LS.
  assert (GI : In (chunkId part) group_ids) by (apply cat_ids_group; exact TL).
  destruct (fits_at app q root part 0 T C A) as (fo & TO & CO). pose proof (Conforms_any _ fo 0 part GI CO) as C0. pose proof (Typed_any _ fo 0 part GI TO) as TP.
  assert (IO : forall y, InTree y part -> InTree y root) by (intros y Y; apply InTree_at_path in Y; destruct Y as (r & Y); apply InTree_at_path; exists (q ++ r); rewrite (HeapLookupProofs.at_path_app _ _ _ _ A); exact Y).
  assert (LDP : LeafData part) by (intros y Y; exact (LD y (IO y Y))).
  pose proof (encoded_at q root part LS A) as EP.
  assert (ER : encoded_size root = zlength (encode root)) by (rewrite (WF_encode_length _ _ _ W); symmetry; exact (Conforms_size _ _ _ C LS)).
  pose proof (Conforms_size _ _ _ C0 (LeafData_sizes _ LDP)) as CS. pose proof (physical_range (chunkSize part)) as PR.
  assert (WP : WF app 0 part) by (apply Conforms_WF; [exact TP|exact C0|exact LDP|lia]).
  split; [exact WP|]. split; [exact C0|]. split; [exact LDP|]. split; [exact (Conforms_Represented _ _ _ C0)|]. split; [lia|].
  split; [rewrite (WF_encode_length _ _ _ WP); lia|]. intros CV i s v I. exact (CV i s v (IO _ I)).
Qed.

Lemma fits_checked : forall rg app c e w, Realises (selectChunkRegistry rg) app -> WF app 0 c -> Conforms app 0 c -> top_level c -> encoded_size c <= INT_MAX ->
  IFF_check c rg e w = Done (true, w).
Proof.
  intros rg app c e w RG W C TL SZ. destruct (WF_properties _ _ _ W) as (T & RP & LD). rewrite check_root by exact TL.
  destruct (check_decides _ _ RG c 0 T RP (LeafData_sizes _ LD) SZ e w) as [[_ X]|[X _]]; [exact X|contradiction].
Qed.

(** ** C101.  With any chunk types the application has registered: a FORM, CAT or
    LIST inside a file, at any depth and whatever it is in, is stored as it would be
    in a file of its own.  Cut out, it reads back, with the same chunk types, as
    that chunk, and it is valid. *)
Theorem C101_part_own_types : forall rg app e w root q part, Realises (selectChunkRegistry rg) app -> SaneApps app -> usual e ->
  WF app 0 root -> Conforms app 0 root -> Covered root -> zlength (encode root) <= INT_MAX ->
  at_path root q = Some part -> top_level part ->
  slice (encode root) (position root q) (List.length (encode part)) = encode part /\
  (position root q + List.length (encode part) <= List.length (encode root))%nat /\
  forall seekable, exists w', IFF_readFd rg e (mkWorld (mkRfile (encode part) seekable) (w_out w) (w_log w) (w_allocs w)) = Done (Some part, w') /\
    w_log w' = w_log w /\ IFF_check part rg e w' = Done (true, w').
Proof.
  intros rg app e w root q part RG SA U W C CV0 L A TL. destruct (part_fits app root q part W C L A TL) as (WP & CP & LDP & RP & SZ & LE & CVP). specialize (CVP CV0).
  destruct (edited_bytes part part q root root) as (pre & _ & post & E1 & _ & L1 & _).
  { apply edit_found; try (apply (Conforms_Sized _ _ _ C)); [apply (Conforms_Sized _ _ _ CP)|exact A|rewrite (replace_same _ _ _ A); reflexivity]. }
  split; [rewrite E1, <- L1; apply slice_middle|]. split; [rewrite E1, !app_length; lia|]. intro k.
  assert (S2 : INT_MAX < 2 ^ (size_t_bits e - 1)) by (unfold size_t_bits; destruct (lp64 e); reflexivity).
  destruct (WF_parsed e app 0 part WP) as (lg & P & CV). rewrite (CV CVP) in *.
  destruct (readFd_complete rg app e (mkWorld (mkRfile (encode part) k) (w_out w) (w_log w) (w_allocs w)) (encode part) [] part [] RG U SA P) as [m E].
  { rewrite app_nil_r. reflexivity. } { lia. } { right. left. reflexivity. }
  cbn [trailing_warning Datatypes.app tl] in E.
  eexists. split; [exact E|]. split; [reflexivity|]. eapply fits_checked; eassumption.
Qed.
Print Assumptions C101_part_own_types.

(** Writing it through a pointer to it produces just these bytes. *)
Theorem C101_write_own_types : forall rg app e w h root p a F q b part, Realises (selectChunkRegistry rg) app -> SaneApps app -> usual e ->
  WF app 0 root -> Conforms app 0 root -> Covered root -> zlength (encode root) <= INT_MAX ->
  tree_at h root p a F -> NoDup F -> Leads h a q b -> at_path root q = Some part -> top_level part -> o_room (w_out w) = None ->
  hIFF_check b rg e w h = Done (true, w, h) /\
  exists w', hIFF_writeFd b rg e w h = Done (true, w', h) /\
    handed (w_out w') = handed (w_out w) ++ slice (encode root) (position root q) (List.length (encode part)) /\ w_log w' = w_log w.
Proof.
  intros rg app e w h root p a F q b part RG SA U W C CV L T ND LB A TL NR. destruct (part_fits app root q part W C L A TL) as (WP & CP & LDP & RP & SZ & LE & _).
  destruct (path_split q h root p a F part T A) as (b' & pb & F1 & R & LB' & TB & SB & _).
  rewrite (Leads_det _ _ _ _ _ LB' LB) in TB.
  assert (N1 : NoDup F1) by exact (HeapProofs.NoDup_app_l _ _ _ (proj1 (same_nodup _ _ SB) ND)).
  split; [rewrite (C61_check_refines rg e w part pb b F1 h TB N1), (fits_checked rg app) by assumption; reflexivity|].
  destruct (C21_writing_succeeds rg app e part w RG U WP NR) as (w' & WR).
  destruct (C21_written_is_the_encoding rg app e part w w' RG U WP WR) as (HD & _ & LG).
  exists w'. split; [rewrite (C61_write_refines rg e w part pb b F1 h TB N1), WR; reflexivity|].
  split; [rewrite HD; f_equal; symmetry; exact (proj1 (C101_part_own_types rg app e w root q part RG SA U W C CV L A TL))|exact LG].
Qed.
Print Assumptions C101_write_own_types.

(** The FORMs that a search finds can be written one by one: each is cut out of the file. *)
Theorem C101_search_own_types : forall rg app e w h root p a F formType arr n w1 h1, Realises (selectChunkRegistry rg) app -> SaneApps app -> usual e ->
  WF app 0 root -> Conforms app 0 root -> Covered root -> zlength (encode root) <= INT_MAX ->
  tree_at h root p a F -> NoDup F -> hIFF_searchForms a formType e w h = Done ((arr, n), w1, h1) ->
  exists ps la Fa, in_order ps /\ (forall q, In q ps <-> outermost [formType] root q) /\ array_at h1 arr la Fa /\ n = List.length la /\
    Forall2 (fun q b => exists form, at_position root q = Some form /\
      forall w2, o_room (w_out w2) = None ->
        exists w3, hIFF_writeFd b rg e w2 h1 = Done (true, w3, h1) /\ w_log w3 = w_log w2 /\
          handed (w_out w3) = handed (w_out w2) ++ slice (encode root) (position root (map InSub q)) (List.length (encode form))) ps la.
Proof.
  intros rg app e w h root p a F ty arr n w1 h1 RG SA U W C CV L T ND S. destruct (WF_properties _ _ _ W) as (TY & _ & _).
  pose proof (C65_search app 0 root p a F h e w ty TY T ND) as X. rewrite S in X. destruct X as (ps & la & Fa & Lk & O & I & NL & AA & LD & B).
  exists ps, la, Fa. split; [exact O|]. split; [exact I|]. split; [exact AA|]. split; [exact NL|].
  assert (FR : forall x, In x F -> lookup h1 x = lookup h x).
  { intros x X. apply (HeapProofs.becomes_kept _ _ _ _ _ B); [exact (HeapProofs.tree_live _ _ _ _ _ _ T X)|intros []]. }
  pose proof (HeapProofs.tree_frame h h1 root p a F T FR) as T1.
  assert (LD1 : Forall2 (fun q b => (exists c, at_position root q = Some c /\ wanted [ty] c) /\ Leads h1 a (map InSub q) b) ps la).
  { assert (SUB : forall q, In q ps -> exists c, at_position root q = Some c /\ wanted [ty] c) by (intros q Q; exact (proj1 (proj1 (I q) Q))).
    clear - LD SUB T1 FR. induction LD as [|q b ps la X LD IH]; constructor.
    - split; [apply SUB; left; reflexivity|]. exact (HeapFormsProofs.Leads_frame _ h1 h _ _ _ _ _ T1 (fun x I => eq_sym (FR x I)) X).
    - apply IH. intros r R. apply SUB. right. exact R. }
  clear - RG SA U W C CV L T1 ND LD1. induction LD1 as [|q b ps la ((form & A & WT) & LB) _ IH]; constructor; [|exact IH].
  exists form. split; [exact A|]. intros w2 NR.
  destruct (C101_write_own_types rg app e w2 h1 root p a F (map InSub q) b form RG SA U W C CV L T1 ND LB (position_path _ _ _ A)) as (_ & w3 & WR & HD & LG); [left; symmetry; exact (proj1 WT)|exact NR|].
  exists w3. auto.
Qed.
Print Assumptions C101_search_own_types.

(** The document of the test application in the CAT of C102 *)
Example C101_own_types_example :
  Realises (selectChunkRegistry (Some TEST_scopedRegistry)) (app_of TEST_scopedRegistry) /\ SaneApps (app_of TEST_scopedRegistry) /\
  WF (app_of TEST_scopedRegistry) 0 mixed /\ Conforms (app_of TEST_scopedRegistry) 0 mixed /\ Covered mixed /\
  match at_path mixed [InSub 0] with
  | Some part => top_level part /\ position mixed [InSub 0] = 12%nat /\ List.length (encode part) = 40%nat /\ slice (encode mixed) 12 40 = encode part
  | None => False
  end.
Proof.
  split; [exact scoped_realises|]. split; [exact readme_sane|]. split; [exact mixed_WF|]. split; [|split].
  - assert (G : forall g, g = ID_of "TEST" \/ g = ID_of "ABCD" -> ValidFormType g) by (intros g G; destruct (PropId.C07_checkFormType_exact g (host false) (start [])) as [[X _]|[_ (w' & X & _)]]; [destruct G as [->| ->]; vm_compute; split; congruence|exact X|exfalso; destruct G as [->| ->]; vm_compute in X; discriminate X]).
    assert (V : forall i, i = ID_of "JJJJ" \/ i = ID_of "HELO" \/ i = ID_of "BYE " -> ValidId i) by (intros i G0; destruct (PropId.C06_checkId_exact i (host false) (start [])) as [[X _]|[_ (w' & X & _)]]; [destruct G0 as [->|[->| ->]]; vm_compute; split; congruence|exact X|exfalso; destruct G0 as [->|[->| ->]]; vm_compute in X; discriminate X]).
    apply Conf_cat; [apply V; auto| |reflexivity]. intros c [<-|[<-|[]]]; (split; [split; [left; reflexivity|left; reflexivity]|]).
    + apply Conf_form; [apply G; auto| |reflexivity]. intros c [<-|[<-|[]]]; (split; [discriminate|]).
      * apply (Conf_fields _ _ _ _ TEST_Hello); [apply V; auto|vm_compute; intuition discriminate|reflexivity|reflexivity].
      * apply (Conf_fields _ _ _ _ TEST_Bye); [apply V; auto|vm_compute; intuition discriminate|reflexivity|reflexivity].
    + apply Conf_form; [apply G; auto| |reflexivity]. intros c [<-|[]]. split; [discriminate|]. apply Conf_form; [apply G; auto| |reflexivity]. intros c [].
  - intros i s v IT. apply InTree_at_path in IT. destruct IT as (q & A).
    destruct q as [|[n|n] q]; cbn in A; [discriminate|discriminate|].
    destruct n as [|[|n]]; cbn in A.
    + destruct q as [|[m|m] q]; cbn in A; [discriminate|discriminate|]. destruct m as [|[|m]]; cbn in A.
      * destruct q as [|[] q]; cbn in A; [|discriminate|discriminate]. injection A as <- <- <-. vm_compute. discriminate.
      * destruct q as [|[] q]; cbn in A; [|discriminate|discriminate]. injection A as <- <- <-. vm_compute. discriminate.
      * destruct m; discriminate.
    + destruct q as [|[m|m] q]; cbn in A; [discriminate|discriminate|]. destruct m as [|m]; cbn in A.
      * destruct q as [|[m|m] q]; cbn in A; [discriminate|discriminate|]. destruct m; discriminate.
      * destruct m; discriminate.
    + destruct n; discriminate.
  - vm_compute. repeat split; auto.
Qed.
