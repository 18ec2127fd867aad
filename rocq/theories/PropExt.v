(** * Properties C73-C75: chunk types an application defines itself *)

From Coq Require Import ZArith List Bool String Lia.
From Coq Require Import Strings.Byte.
From Verif Require Import Machine Io Types Build Read Write Check Compare Print Iff TestExt Spec Lemmas IoProofs RegProofs WriteProofs
  Grammar ReadProofs SoundProofs RoundProofs ApiProofs Examples PropRead PropWrite
  Ext ExtSpec ExtFields ExtReadProofs ExtProofs ExtFieldsProofs ExtRegProofs ExtAgree.
Import ListNotations.
Open Scope Z_scope.

(** ** C73.  Reading with callbacks that honour the contract: what the
    application gets is the tree of raw chunks with the bodies of its chunks
    decoded; if one of them is malformed, the file is rejected. *)

Theorem C73_reading : forall U (rg : xregistry U) ext e w c w',
  XRealises rg ext -> AllHonour ext -> usual e ->
  zlength (r_rest (w_in w)) < 2 ^ (size_t_bits e - 1) -> CanSkip ext w ->
  IFF_readFd None e w = Done (Some c, w') -> Sized ext 0 c ->
  exists w2, xreadFd rg e w = Done (decode ext 0 c, w2) /\ w_out w2 = w_out w /\
    match decode ext 0 c with
    | Some x => w_in w2 = w_in w'
    | None => exists lg, w_log w2 = ("ERROR: cannot open main chunk!" ++ nl)%string :: lg
    end.
Proof.
  intros U rg ext e w c w' RG HO US L CS E SZ.
  destruct (readFd_sound None no_apps e w c w' default_registry (not_strict e US) no_apps_sane (or_intror no_apps_none) E)
    as (l & t & lg & n & P & R & ->).
  assert (LL : zlength l < 2 ^ (size_t_bits e - 1)) by (rewrite R, zlength_app in L; pose proof (zlength_nonneg _ t); lia).
  destruct (proj1 (xread_parsed rg ext e RG HO US) 0 l c lg P SZ (S (List.length (rest w))) w t
              ltac:(rewrite R, app_length; lia) LL CS R) as (w1 & X & O & LA).
  unfold xreadFd. rewrite (bind_done _ _ _ _ _ _ _ _ X).
  destruct (decode ext 0 c) as [x|].
  - destruct (LA ltac:(discriminate)) as [I _].
    destruct w1 as [[r1 sk1] o1 lg1 n1]. cbn [w_in w_out] in I, O. injection I as -> ->.
    destruct t as [|b t]; (eexists; split; [reflexivity|]; split; [exact O|]); reflexivity.
  - eexists. split; [reflexivity|]. split; [exact O|]. eexists. reflexivity.
Qed.
Print Assumptions C73_reading.

(** Which registries give which callbacks: sorted tables for data chunks. *)
Theorem C73_registries : forall U (forms : list (Z * app_table U)), WellMade forms ->
  XRealises (registry_for forms) (exts_for forms).
Proof. intros U forms W. exact (registry_for_realises forms W). Qed.
Print Assumptions C73_registries.

(** Every chunk that is a list of fields (tests/hello.c, tests/bye.c) honours
    the contract. *)
Theorem C73_field_lists : forall spec, zlength (fs_fields spec) <= 2 ^ 28 ->
  Honours (fields_callbacks spec) (fields_codec spec).
Proof. exact fields_honour. Qed.
Print Assumptions C73_field_lists.

(** So do arrays: a colour map with three bytes per colour. *)
Theorem C73_arrays : Honours cmap_callbacks cmap_codec.
Proof. exact cmap_honours. Qed.
Print Assumptions C73_arrays.

(** *** Files with a colour map *)
Definition ILBM_ID : Z := Eval vm_compute in IFF_MAKEID 73 76 66 77.
Definition CMAP_ID : Z := Eval vm_compute in IFF_MAKEID 67 77 65 80.
Definition BODY_ID : Z := Eval vm_compute in IFF_MAKEID 66 79 68 89.

Definition pictures : list (Z * app_table (list colour)) := [(ILBM_ID, [(CMAP_ID, (cmap_callbacks, cmap_codec))])].
Lemma pictures_made : WellMade pictures.
Proof.
  split; [apply increasing_spec; reflexivity|]. intros ft tbl [E|[]]. injection E as <- <-.
  split; [apply increasing_spec; reflexivity|]. intros i t [E|[]]. injection E as <- <-.
  unfold group_ids. cbn [In]. intros [X|[X|[X|[X|[]]]]]; discriminate.
Qed.
Lemma pictures_honour : AllHonour (exts_for pictures).
Proof.
  intros ft i cb cd E. destruct (exts_for_data pictures ft i cb cd pictures_made E) as (tbl & [I|[]] & J).
  injection I as <- <-. destruct J as [J|[]]. injection J as <- <- <-. exact cmap_honours.
Qed.
Lemma pictures_skip : forall w, CanSkip (exts_for pictures) w.
Proof.
  intro w. right. intros ft i cb cd body u E D.
  destruct (exts_for_data pictures ft i cb cd pictures_made E) as (tbl & [I|[]] & J).
  injection I as <- <-. destruct J as [J|[]]. injection J as <- <- <-. reflexivity.
Qed.
Lemma pictures_sized : forall c ft, (forall i s vals, ~ InTree (CFields i s vals) c) -> Sized (exts_for pictures) ft c.
Proof.
  induction c as [i s d|i s g subs IH|i s g props subs IHp IHs|i s vals] using chunk_tree_ind; intros ft N.
  - constructor. intros cb cd E. destruct (exts_for_data pictures ft i cb cd pictures_made E) as (tbl & [I|[]] & J).
    injection I as <- <-. destruct J as [J|[]]. injection J as <- <- <-. exact Logic.I.
  - constructor. intros c I. apply IH; [exact I|]. intros j z v K. apply (N j z v). eapply In_group; eassumption.
  - constructor; intros c I.
    + apply IHp; [exact I|]. intros j z v K. apply (N j z v). eapply In_list_prop; eassumption.
    + apply IHs; [exact I|]. intros j z v K. apply (N j z v). eapply In_list_sub; eassumption.
  - exfalso. apply (N i s vals). constructor.
Qed.

(** Two colours and a pixel; inside a CAT, so that the form type matters. *)
Definition raw_picture (cmap : list byte) : chunk :=
  CGroup FORM_ID (4 + 8 + zlength cmap + zlength cmap mod 2 + 10) ILBM_ID
    [CRaw CMAP_ID (zlength cmap) (Some cmap); CRaw BODY_ID 1 (Some [x07])].
Definition picture (cmap : list colour) : xchunk (list colour) :=
  XGroup FORM_ID (4 + 8 + 3 * zlength cmap + zlength cmap mod 2 + 10) ILBM_ID
    [XUser CMAP_ID (3 * zlength cmap) cmap; XRaw BODY_ID 1 (Some [x07])].
Definition two_colours : list colour := [(255, 0, 1); (2, 3, 4)].

Example C73_example :
  decode (exts_for pictures) 0 (raw_picture [xff; x00; x01; x02; x03; x04]) = Some (picture two_colours) /\
  match xreadFd (registry_for pictures) (host false) (start (encode (raw_picture [xff; x00; x01; x02; x03; x04]))) with
  | Done (Some x, w) => x = picture two_colours /\ r_rest (w_in w) = []
  | _ => False
  end /\
  (* seven bytes are not a colour map *)
  decode (exts_for pictures) 0 (raw_picture [xff; x00; x01; x02; x03; x04; x05]) = None /\
  match xreadFd (registry_for pictures) (host false) (start (encode (raw_picture [xff; x00; x01; x02; x03; x04; x05]))) with
  | Done (None, w) => True | _ => False
  end /\
  (* outside ILBM forms CMAP is a chunk like any other *)
  decode (exts_for pictures) 0 (CRaw CMAP_ID 1 (Some [x00])) = Some (XRaw CMAP_ID 1 (Some [x00])).
Proof. vm_compute. repeat split; reflexivity. Qed.

(** ** C74.  Writing: what ends up in the file is the tree with the
    application's values encoded and padded with zeros; reading it back gives
    the values again. *)

Theorem C74_writing : forall U (rg : xregistry U) ext e w x,
  XRealises rg ext -> AllHonour ext -> usual e -> XTyped ext 0 x ->
  match IFF_writeFd (view ext 0 x) None e w with
  | Done (ok, w1) => exists w2, xwriteChunk rg x 0 e w = Done (ok, w2) /\ w_out w2 = w_out w1 /\ w_in w2 = w_in w1
  | Undefined u => xwriteChunk rg x 0 e w = Undefined u
  | OutOfFuel => xwriteChunk rg x 0 e w = OutOfFuel
  end.
Proof.
  intros U rg ext e w x RG HO US T.
  pose proof (sim_write rg ext e (selectChunkRegistry None) RG HO US default_registry x 0 T w w (conj eq_refl eq_refl)) as H.
  unfold IFF_writeFd.
  destruct (IFF_writeChunk (selectChunkRegistry None) (view ext 0 x) 0 e w) as [[ok w1]|u|] eqn:E;
    destruct (xwriteChunk rg x 0 e w) as [[b w2]|v|]; try contradiction; [|congruence|reflexivity].
  destruct H as [<- [I O]]. exists w2. split; [reflexivity|]. split; congruence.
Qed.
Print Assumptions C74_writing.

Theorem C74_write_then_read : forall U (rg : xregistry U) ext x e1 e2 w1 w2,
  XRealises rg ext -> AllHonour ext -> usual e1 -> usual e2 ->
  XTyped ext 0 x -> WF no_apps 0 (view ext 0 x) -> zlength (encode (view ext 0 x)) < 2 ^ (size_t_bits e2 - 1) ->
  new_output w1 -> xwriteChunk rg x 0 e1 w1 = Done (true, w2) ->
  handed (w_out w2) = encode (view ext 0 x) /\
  forall w3 t, r_rest (w_in w3) = handed (w_out w2) ++ t -> CanSkip ext w3 ->
  exists w4, xreadFd rg e2 w3 = Done (Some x, w4) /\ r_rest (w_in w4) = tl t /\ w_out w4 = w_out w3.
Proof.
  intros U rg ext x e1 e2 w1 w2 RG HO U1 U2 T W L NO E.
  pose proof (C74_writing U rg ext e1 w1 x RG HO U1 T) as H. rewrite E in H.
  destruct (IFF_writeFd (view ext 0 x) None e1 w1) as [[ok v]|u|] eqn:EB; try discriminate.
  destruct H as (w2' & EQ & O & _). injection EQ as <- <-.
  destruct (C21_written_is_the_encoding None no_apps e1 _ w1 v default_registry U1 W EB) as (HD & _ & _).
  assert (HE : handed (w_out w2) = encode (view ext 0 x)).
  { rewrite O, HD. destruct NO as [D B]. unfold handed. rewrite D, B. reflexivity. }
  split; [exact HE|]. intros w3 t R CS. rewrite HE in R.
  destruct (WF_parsed e2 no_apps 0 (view ext 0 x) W) as (lg & P & _).
  destruct (proj1 (xread_parsed rg ext e2 RG HO U2) 0 _ _ lg P (Sized_view ext x 0 T) (S (List.length (rest w3))) w3 t
              ltac:(rewrite R, app_length; lia) L CS R) as (v1 & X & OO & LA).
  rewrite (decode_view ext x 0 T W) in *.
  unfold xreadFd. rewrite (bind_done _ _ _ _ _ _ _ _ X).
  destruct (LA ltac:(discriminate)) as [I _].
  destruct v1 as [[r1 sk1] o1 lg1 n1]. cbn [w_in w_out] in I, OO. injection I as -> ->.
  destruct t as [|b t]; (eexists; split; [reflexivity|]; split; [reflexivity|exact OO]).
Qed.
Print Assumptions C74_write_then_read.

(** A picture with two colours is written as expected. *)
Lemma two_colours_typed : XTyped (exts_for pictures) 0 (picture two_colours).
Proof.
  constructor; [simpl; auto|]. intros c [<-|[<-|[]]].
  - eapply XT_user with (cb := cmap_callbacks) (cd := cmap_codec); [|reflexivity|].
    + unfold group_ids. cbn [In]. intros [X|[X|[X|[X|[]]]]]; discriminate.
    + split; [exact Logic.I|]. split; [vm_compute; split; discriminate|]. split; [vm_compute; discriminate|]. reflexivity.
  - apply XT_raw; [|reflexivity]. unfold group_ids. cbn [In]. intros [X|[X|[X|[X|[]]]]]; discriminate.
Qed.

Lemma two_colours_wf : WF no_apps 0 (view (exts_for pictures) 0 (picture two_colours)).
Proof.
  replace (view (exts_for pictures) 0 (picture two_colours)) with (raw_picture [xff; x00; x01; x02; x03; x04]) by (vm_compute; reflexivity).
  unfold raw_picture. prove_wf.
Qed.

Example C74_example :
  XTyped (exts_for pictures) 0 (picture two_colours) /\ WF no_apps 0 (view (exts_for pictures) 0 (picture two_colours)) /\
  match xwriteChunk (registry_for pictures) (picture two_colours) 0 (host false) (start []) with
  | Done (true, w) => handed (w_out w)
      = bytes "FORM" ++ [x00; x00; x00; x1c] ++ bytes "ILBM"
        ++ bytes "CMAP" ++ [x00; x00; x00; x06] ++ [xff; x00; x01; x02; x03; x04]
        ++ bytes "BODY" ++ [x00; x00; x00; x01; x07; x00]
  | _ => False
  end.
Proof. split; [exact two_colours_typed|]. split; [exact two_colours_wf|]. vm_compute. reflexivity. Qed.

(** ** C75.  Checking, comparing, printing and freeing *)

(** A tree is valid when it is valid with the application's chunks as raw data,
    and the application accepts each of its own. *)
Theorem C75_checking : forall U (rg : xregistry U) ext e w x b w1,
  XRealises rg ext -> AllHonour ext -> usual e -> XTyped ext 0 x ->
  IFF_check (view ext 0 x) None e w = Done (b, w1) ->
  exists w2, xcheck rg x e w = Done (b && all_good ext 0 x, w2) /\ w_in w2 = w_in w /\ w_out w2 = w_out w.
Proof.
  intros U rg ext e w x b w1 RG HO US T E. unfold IFF_check, xcheck in *. rewrite view_id in E.
  destruct (negb (xid x =? IFF_ID_FORM) && negb (xid x =? IFF_ID_CAT) && negb (xid x =? IFF_ID_LIST)).
  - cbn in E. injection E as <- <-. eexists. split; [reflexivity|]. split; reflexivity.
  - destruct (chk_check rg ext e (selectChunkRegistry None) RG HO US default_registry x 0 T w w b w1 (conj eq_refl eq_refl) E)
      as (w2 & X & I & O).
    exists w2. split; [exact X|]. split; congruence.
Qed.
Print Assumptions C75_checking.

(** Two trees are equal when they are equal with the application's chunks as
    raw data. *)
Theorem C75_comparing : forall U (rg : xregistry U) ext e x y,
  XRealises rg ext -> AllHonour ext -> usual e -> XTyped ext 0 x -> XTyped ext 0 y ->
  xcompareChunk e rg x y 0 = IFF_compare e (view ext 0 x) (view ext 0 y) None.
Proof.
  intros U rg ext e x y RG HO US TX TY. exact (compare_view rg ext e (selectChunkRegistry None) RG HO default_registry x 0 y TX TY).
Qed.
Print Assumptions C75_comparing.

(** Every such tree can be freed, and printed whenever its raw form can be. *)
Theorem C75_freeing : forall U (rg : xregistry U) ext x,
  XRealises rg ext -> AllHonour ext -> XTyped ext 0 x -> xfreeChunk rg x 0 = Done tt.
Proof. intros U rg ext x RG HO T. exact (XTyped_frees rg ext RG HO x 0 T). Qed.
Print Assumptions C75_freeing.

Theorem C75_printing : forall U (rg : xregistry U) ext x level t,
  XRealises rg ext -> AllHonour ext -> XTyped ext 0 x ->
  IFF_print (view ext 0 x) level None = Done t -> exists t', xprintChunk rg x level 0 = Done t'.
Proof.
  intros U rg ext x level t RG HO T E. exact (print_view rg ext (selectChunkRegistry None) RG HO default_registry x 0 level t T E).
Qed.
Print Assumptions C75_printing.

(** What was read is such a tree when the application's values can be encoded
    again. *)
Theorem C75_read_trees : forall U (ext : exts U) e w c w' x,
  AllLawful ext -> usual e -> IFF_readFd None e w = Done (Some c, w') -> Sized ext 0 c -> decode ext 0 c = Some x ->
  XTyped ext 0 x.
Proof.
  intros U ext e w c w' x LAW US E SZ D.
  destruct (readFd_sound None no_apps e w c w' default_registry (not_strict e US) no_apps_sane (or_intror no_apps_none) E)
    as (l & t & lg & n & P & _).
  exact (proj1 (decode_typed ext e LAW) 0 l c lg P SZ x D).
Qed.
Print Assumptions C75_read_trees.

Theorem C75_lawful : (forall spec, Lawful (fields_codec spec)) /\ Lawful cmap_codec.
Proof. split; [exact fields_lawful|exact cmap_lawful]. Qed.
Print Assumptions C75_lawful.

Example C75_example :
  (* 257 colours are readable but not valid *)
  match xcheck (registry_for pictures) (picture (repeat (1, 2, 3) 257)) (host false) (start []),
        xcheck (registry_for pictures) (picture two_colours) (host false) (start []) with
  | Done (b1, _), Done (b2, _) => b1 = false /\ b2 = true
  | _, _ => False
  end /\
  xcompareChunk (host false) (registry_for pictures) (picture two_colours) (picture [(255, 0, 1); (2, 3, 5)]) 0 = Done false /\
  xcompareChunk (host false) (registry_for pictures) (picture two_colours) (picture two_colours) 0 = Done true.
Proof. vm_compute. repeat split; reflexivity. Qed.

(** ** Field lists once more: with their callbacks the library does exactly what
    the rest of the development says, in any registry and on any tree, down to
    the messages, the allocations and what is undefined. *)

Theorem C73_field_lists_exact : forall rg e w, ListsAreLists (selectChunkRegistry rg) ->
  xreadFd (conv_reg (selectChunkRegistry rg)) e w =
  match IFF_readFd rg e w with
  | Done (oc, w') => Done (option_map conv oc, w')
  | Undefined u => Undefined u
  | OutOfFuel => OutOfFuel
  end.
Proof. intros rg e w RG. exact (conv_read rg RG e w). Qed.
Print Assumptions C73_field_lists_exact.

Theorem C74_field_lists_exact : forall rg c e w,
  xwriteChunk (conv_reg (selectChunkRegistry rg)) (conv c) 0 e w = IFF_writeFd c rg e w.
Proof. intros rg c e w. exact (conv_write _ c 0 e w). Qed.
Print Assumptions C74_field_lists_exact.

Theorem C75_field_lists_exact : forall rg c c2 e w level,
  xcheck (conv_reg (selectChunkRegistry rg)) (conv c) e w = IFF_check c rg e w /\
  xcompareChunk e (conv_reg (selectChunkRegistry rg)) (conv c) (conv c2) 0 = IFF_compare e c c2 rg /\
  xprintChunk (conv_reg (selectChunkRegistry rg)) (conv c) level 0 = IFF_print c level rg.
Proof.
  intros rg c c2 e w level. split; [|split].
  - unfold xcheck, IFF_check. rewrite conv_id.
    destruct (negb (chunkId c =? IFF_ID_FORM) && negb (chunkId c =? IFF_ID_CAT) && negb (chunkId c =? IFF_ID_LIST));
      [reflexivity|]. apply conv_check.
  - apply conv_compare.
  - apply conv_print.
Qed.
Print Assumptions C75_field_lists_exact.

Theorem C75_field_lists_free : forall rg app c, Realises (selectChunkRegistry rg) app -> Typed app 0 c ->
  xfreeChunk (conv_reg (selectChunkRegistry rg)) (conv c) 0 = Done tt /\ IFF_free c rg = Done tt.
Proof. intros rg app c RG T. destruct (conv_free _ app 0 c RG T) as [A B]. exact (conj B A). Qed.
Print Assumptions C75_field_lists_free.

(** The registry of the project's tests meets the hypotheses, and so does every
    one that dispatches in the usual way. *)
Example C73_field_lists_example :
  ListsAreLists (selectChunkRegistry (Some TEST_chunkRegistry)) /\
  (forall rg app, Realises rg app -> ListsAreLists rg) /\
  match xreadFd (conv_reg (Some TEST_chunkRegistry)) (host false)
          (start (bytes "FORM" ++ [x00; x00; x00; x10] ++ bytes "TEST" ++ bytes "HELO" ++ [x00; x00; x00; x04; x61; x62; x00; x07])) with
  | Done (Some x, w) => x = XGroup FORM_ID 16 TEST_ID_TEST [XUser TEST_ID_HELO 4 [(FUByte, 97); (FUByte, 98); (FUWord, 7)]]
  | _ => False
  end.
Proof.
  split; [|split; [exact Realises_lists|vm_compute; reflexivity]].
  intros ft cid. unfold find_handler, IFF_findChunkType, getFormChunkTypes, bsearch.
  cbn -[Z.ltb TEST_ID_TEST TEST_ID_HELO TEST_ID_BYE IFF_ID_FORM IFF_ID_CAT IFF_ID_LIST IFF_ID_PROP].
  repeat (match goal with |- context [?a <? ?b] => destruct (Z.ltb_spec a b) end;
          cbn -[Z.ltb TEST_ID_TEST TEST_ID_HELO TEST_ID_BYE IFF_ID_FORM IFF_ID_CAT IFF_ID_LIST IFF_ID_PROP]);
    try discriminate; intros _; lia.
Qed.

Example C75_field_lists_example :
  Realises (selectChunkRegistry (Some IFF_defaultChunkRegistry)) no_apps /\
  Typed no_apps 0 (raw_picture [xff; x00; x01; x02; x03; x04]).
Proof.
  split; [exact default_registry|].
  constructor; [simpl; auto|]. intros c [<-|[<-|[]]]; (apply Ty_raw; [|reflexivity]);
    unfold group_ids; cbn [In]; intros [X|[X|[X|[X|[]]]]]; discriminate.
Qed.
