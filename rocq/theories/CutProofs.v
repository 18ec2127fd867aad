(** * What reading says about files that end too early *)

From Coq Require Import ZArith List Bool String Lia.
From Coq Require Import Strings.Byte.
From Verif Require Import Machine Io Types Build Read Iff Spec Lemmas IoProofs RegProofs WriteProofs EncodeProofs Grammar ReadProofs
  SoundProofs RoundProofs IdProofs ConfProofs CheckProofs DiagSpec DiagProofs.
Import ListNotations.
Open Scope Z_scope.

(** ** Texts *)

Lemma concat_cons : forall a l, String.concat "" (a :: l) = (a ++ String.concat "" l)%string.
Proof. intros a [|b l]; cbn [String.concat]; [rewrite append_nil|]; reflexivity. Qed.
Lemma concat_app : forall a b, String.concat "" (a ++ b) = (String.concat "" a ++ String.concat "" b)%string.
Proof. induction a as [|x a IH]; intro b; [reflexivity|]. cbn [app]. rewrite !concat_cons, IH, append_assoc. reflexivity. Qed.
Lemma text_app : forall a b, text (a ++ b) = (text b ++ text a)%string.
Proof. intros a b. unfold text. rewrite rev_app_distr. apply concat_app. Qed.
Lemma text_one : forall a, text [a] = a.
Proof. reflexivity. Qed.

Lemma prefix_cases : forall A (pre suf a b : list A), pre ++ suf = a ++ b ->
  (exists r, pre ++ r = a /\ r <> []) \/ (exists q, pre = a ++ q /\ q ++ suf = b).
Proof.
  intros A pre suf a. revert pre suf. induction a as [|x a IH]; intros pre suf b E.
  - right. exists pre. auto.
  - destruct pre as [|y pre]; cbn [app] in E.
    + left. exists (x :: a). split; [reflexivity|discriminate].
    + injection E as -> E. destruct (IH _ _ _ E) as [(r & R & N)|(q & Q1 & Q2)].
      * left. exists r. split; [cbn; rewrite R; reflexivity|exact N].
      * right. exists q. split; [cbn; rewrite Q1; reflexivity|exact Q2].
Qed.
Lemma strict_length : forall A (q r a : list A), q ++ r = a -> r <> [] -> zlength q < zlength a.
Proof. intros A q r a <- N. rewrite zlength_app. destruct r; [contradiction|]. rewrite zlength_cons. pose proof (zlength_nonneg _ r). lia. Qed.

(** Where a beginning of the encodings of some members ends *)
Lemma members_cases : forall l pre suf, pre ++ suf = flat_map encode l -> suf <> [] ->
  exists before x behind q r, l = before ++ x :: behind /\ pre = flat_map encode before ++ q /\ q ++ r = encode x /\ r <> [].
Proof.
  induction l as [|c l IH]; intros pre suf E N.
  - cbn in E. apply app_eq_nil in E. tauto.
  - cbn [flat_map] in E. destruct (prefix_cases _ _ _ _ _ E) as [(r & R & NR)|(q & -> & Q)].
    + exists [], c, l, pre, r. auto.
    + destruct (IH q suf Q N) as (before & x & behind & q2 & r & -> & -> & R & NR).
      exists (c :: before), x, behind, q2, r. cbn [app flat_map]. rewrite app_assoc. auto.
Qed.

Lemma body_even : forall g l, (forall c, In c l -> WF no_apps g c) -> Z.odd (zlength (flat_map encode l)) = false.
Proof.
  intros g. induction l as [|c l IH]; intro W; [reflexivity|]. cbn [flat_map].
  rewrite zlength_app, Z.odd_add, IH by (intros; apply W; right; assumption).
  rewrite (WF_encode_length no_apps g c) by (apply W; left; reflexivity). unfold physical, round_even.
  rewrite mod2_odd, !Z.odd_add. destruct (Z.odd (chunkSize c)); reflexivity.
Qed.

Section Cut.
  Variables (rg : option registry) (e : env).
  Hypothesis RG : Realises rg no_apps.
  Hypothesis U : usual e.
  Let NS : strict_c e = false := not_strict e U.

  Definition cut_as (ft : Z) (pre : list byte) (lg : list string) : Prop :=
    forall fuel w, (List.length pre < fuel)%nat -> zlength pre < 2 ^ (size_t_bits e - 1) -> rest w = pre ->
      exists r n, IFF_readChunk rg fuel ft e w = Done (None, after r lg n w).

  Lemma add_log_set : forall lg r w, add_log lg (set_rest r w) = after r lg (w_allocs w) w.
  Proof. intros lg r [[? ?] ? ? ?]. reflexivity. Qed.

  Lemma cut_id : forall ft pre, zlength pre < 4 -> cut_as ft pre (readError_log ID_EMPTY "").
  Proof.
    intros ft pre L fuel w F _ R. destruct fuel as [|f]; [lia|]. exists [], (w_allocs w). cbn [IFF_readChunk].
    change (IFF_readId ID_EMPTY "") with (read_prim FId ID_EMPTY ""). unfold bind.
    rewrite read_prim_short by (rewrite R; exact L). rewrite add_log_set. reflexivity.
  Qed.

  Lemma cut_size : forall ft i q, in_range FId i -> zlength q < 4 -> cut_as ft (be32 i ++ q) (readError_log i "chunkSize").
  Proof.
    intros ft i q I L fuel w F _ R. destruct fuel as [|f]; [lia|]. exists [], (w_allocs w). cbn [IFF_readChunk].
    change (IFF_readId ID_EMPTY "") with (read_prim FId ID_EMPTY ""). unfold bind.
    rewrite (read_prim_ok FId e w i q ID_EMPTY "" ltac:(left; exact NS) I R).
    change (IFF_readLong i "chunkSize") with (read_prim FLong i "chunkSize").
    rewrite read_prim_short by exact L. rewrite add_log_set, set_rest_after, after_after, app_nil_r. reflexivity.
  Qed.

  (** What follows the fields, when they could not be read, or the pad byte is missing *)
  Lemma tail_false : forall (m : M (bool * chunk * Z)) c bp w1 w s ft,
    m e w = Done ((false, c, bp), w1) -> Typed no_apps ft c ->
    (r0 <- m ;;
     match r0 with
     | (ok, c1, bp0) =>
         ok3 <- andM (ret ok)
                  (andM (IFF_skipUnknownBytes (chunkId c1) s bp0) (IFF_readPaddingByte s (chunkId c1))) ;;
         if ok3 then ret (Some c1) else lift (IFF_freeChunk rg c1 ft) ;;; ret None
     end) e w = Done (None, w1).
  Proof. intros m c bp w1 w s ft E T. unfold bind at 1. rewrite E. unfold andM, bind, ret, lift. rewrite (free_typed rg no_apps RG c ft T). reflexivity. Qed.

  Lemma tail_padding : forall (m : M (bool * chunk * Z)) c w1 w s ft,
    m e w = Done ((true, c, s), w1) -> Typed no_apps ft c -> Z.odd s = true -> rest w1 = [] ->
    (r0 <- m ;;
     match r0 with
     | (ok, c1, bp0) =>
         ok3 <- andM (ret ok)
                  (andM (IFF_skipUnknownBytes (chunkId c1) s bp0) (IFF_readPaddingByte s (chunkId c1))) ;;
         if ok3 then ret (Some c1) else lift (IFF_freeChunk rg c1 ft) ;;; ret None
     end) e w
    = Done (None, add_log (framed_log "Unexpected end of file, while reading padding byte of '" (chunkId c) ("'" ++ nl)%string) w1).
  Proof.
    intros m c w1 w s ft E T O R. unfold bind at 1. rewrite E. unfold andM. unfold bind at 1. unfold bind at 1, ret at 1.
    unfold bind at 1. unfold IFF_skipUnknownBytes. rewrite Z.ltb_irrefl. unfold ret at 1.
    unfold IFF_readPaddingByte. rewrite c_odd_odd, O. unfold bind at 1. unfold fgetc. rewrite R. rewrite run_framed_ret.
    unfold bind, lift. rewrite (free_typed rg no_apps RG c ft T). reflexivity.
  Qed.

  Lemma raw_start : forall f ft i s q w, in_range FId i -> ~ In i group_ids -> 0 <= s <= INT_MAX -> rest w = be32 i ++ be32 s ++ q ->
    exists n, IFF_readChunk rg (S f) ft e w =
    (r0 <- IFF_readRawChunk (CRaw i s None) 0 ;;
     match r0 with
     | (ok, c1, bp0) =>
         ok3 <- andM (ret ok)
                  (andM (IFF_skipUnknownBytes (chunkId c1) s bp0) (IFF_readPaddingByte s (chunkId c1))) ;;
         if ok3 then ret (Some c1) else lift (IFF_freeChunk rg c1 ft) ;;; ret None
     end) e (after q [] n w).
  Proof.
    intros f ft i s q w I NG S R.
    rewrite (readChunk_header rg f ft e w i s q); try assumption; [|simpl; unfold INT_MAX in S; lia].
    unfold readChunkBody. unfold bind at 1, lift. rewrite RG, handler_data by assumption. change (no_apps ft i) with (@None fspec).
    cbn [createExtensionChunk readExtensionChunkFields]. unfold IFF_createRawChunk.
    unfold bind at 1. unfold bind at 1, ask at 1. unfold bind at 1.
    pose proof (half_size_t e) as HS.
    rewrite malloc_ok_usual by (assumption || unfold sizeof_RawChunk; lia).
    rewrite (wrap_size_id e s) by (unfold INT_MAX in *; lia).
    unfold bind at 1. rewrite malloc_ok_usual by (assumption || unfold INT_MAX in *; lia).
    unfold ret at 1. eexists. rewrite !after_after. reflexivity.
  Qed.

  Lemma cut_data : forall ft i s q, in_range FId i -> ~ In i group_ids -> 0 <= s <= INT_MAX -> zlength q < s ->
    cut_as ft (be32 i ++ be32 s ++ q) (framed_log "Error reading raw chunk body of chunk: '" i ("'" ++ nl)%string).
  Proof.
    intros ft i s q I NG S L fuel w F M R. destruct fuel as [|f]; [lia|].
    destruct (raw_start f ft i s q w I NG S R) as [n E]. rewrite E. eexists _, _.
    rewrite (tail_false _ (CRaw i s None) 0 (after [] (framed_log "Error reading raw chunk body of chunk: '" i ("'" ++ nl)%string) n w)).
    - reflexivity.
    - unfold IFF_readRawChunk. unfold bind at 1, ask. unfold bind at 1. rewrite (wrap_size_id e s) by (unfold INT_MAX in *; lia).
      rewrite fread_short by exact L. change (rest (after q [] n w)) with q. rewrite (proj2 (Z.ltb_lt (zlength q) s)) by exact L.
      rewrite run_framed_ret, add_log_set, after_after, app_nil_r. reflexivity.
    - apply Ty_raw; [exact NG|reflexivity].
  Qed.

  Lemma cut_padding : forall ft i data, in_range FId i -> ~ In i group_ids -> zlength data <= INT_MAX -> Z.odd (zlength data) = true ->
    cut_as ft (be32 i ++ be32 (zlength data) ++ data)
      (framed_log "Unexpected end of file, while reading padding byte of '" i ("'" ++ nl)%string).
  Proof.
    intros ft i data I NG S O fuel w F M R. destruct fuel as [|f]; [lia|]. pose proof (zlength_nonneg _ data) as ZD.
    destruct (raw_start f ft i (zlength data) data w I NG ltac:(lia) R) as [n E]. rewrite E. eexists _, _.
    rewrite (tail_padding _ (CRaw i (zlength data) (Some data)) (after [] [] n w)).
    - rewrite add_log_after, after_after, app_nil_r. reflexivity.
    - unfold IFF_readRawChunk. unfold bind at 1, ask. unfold bind at 1. rewrite (wrap_size_id e (zlength data)) by (unfold INT_MAX in *; lia).
      rewrite (fread_app _ data []) by (try reflexivity; cbn; rewrite app_nil_r; reflexivity).
      rewrite Z.ltb_irrefl. rewrite (proj2 (Z.ltb_ge _ _)) by (unfold INT_MAX in *; lia). rewrite Z.add_0_l.
      rewrite set_rest_after, after_after. reflexivity.
    - apply Ty_raw; [exact NG|reflexivity].
    - exact O.
    - reflexivity.
  Qed.

  (** *** Groups *)

  Lemma member_reads : forall g c, WF no_apps g c -> reads_as rg no_apps e g (encode c) c [].
  Proof.
    intros g c W. destruct (WF_parsed e no_apps g c W) as (lg & P & C). 
    assert (CV : Covered c).
    { destruct (WF_properties _ _ _ W) as (T & _ & _). clear P C lg. intros i s v I.
      assert (X : forall y c, InTree y c -> forall ft, Typed no_apps ft c -> exists ft, Typed no_apps ft y).
      { clear. intros y c I. induction I as [|i s g subs c HC I IH|i s g props subs c HC I IH|i s g props subs c HC I IH]; intros ft T; [eauto| | |];
          inversion T; subst; match goal with H : forall c, In c ?l -> _, J : In c ?l |- _ => destruct (H c J) || pose proof (H c J) end; eauto. }
      destruct (X _ _ I _ T) as [ft T2]. inversion T2. discriminate. }
    rewrite (C CV) in P. apply (proj1 (read_complete rg no_apps e RG U (fun ft i s H => ltac:(discriminate H)))). exact P.
  Qed.

  Definition cut_loop (g bp s : Z) (before : list chunk) (q : list byte) (lg : list string) : Prop :=
    forall f fuel w, (List.length (flat_map encode before ++ q) < f)%nat -> (List.length (flat_map encode before ++ q) < fuel)%nat ->
      rest w = flat_map encode before ++ q ->
      (forall i subs, zlength subs * 8 + zlength (flat_map encode before ++ q) < 2 ^ (size_t_bits e - 1) -> exists r n bp',
         readGroupSubChunks (IFF_readChunk rg f) fuel (CGroup i s g subs) g bp e w
         = Done ((false, CGroup i s g (subs ++ before), bp'), after r lg n w)) /\
      (forall props subs, zlength subs * 8 + zlength (flat_map encode before ++ q) < 2 ^ (size_t_bits e - 1) ->
         zlength props * 8 + zlength (flat_map encode before ++ q) < 2 ^ (size_t_bits e - 1) -> exists r n bp',
         readListSubChunks (IFF_readChunk rg f) fuel (CList LIST_ID s g props subs) g bp e w
         = Done ((false, CList LIST_ID s g (props ++ filter is_prop before) (subs ++ filter (fun c => negb (is_prop c)) before), bp'),
                 after r lg n w)).

  Lemma loop_end : forall g bp s q lg, bp < s -> cut_as g q lg -> cut_loop g bp s [] q lg.
  Proof.
    intros g bp s q lg L CA f fuel w F1 F2 R. cbn [flat_map app] in *. destruct fuel as [|fuel]; [lia|].
    split.
    - intros i subs M. pose proof (zlength_nonneg _ subs). destruct (CA f w F1 ltac:(lia) R) as (r & n & E). exists r, n, bp.
      cbn [readGroupSubChunks chunkSize]. rewrite (proj2 (Z.ltb_lt bp s)) by exact L. unfold bind at 1. rewrite E. rewrite app_nil_r. reflexivity.
    - intros props subs M M2. pose proof (zlength_nonneg _ subs). destruct (CA f w F1 ltac:(lia) R) as (r & n & E). exists r, n, bp.
      cbn [readListSubChunks chunkSize filter]. rewrite (proj2 (Z.ltb_lt bp s)) by exact L. unfold bind at 1. rewrite E. rewrite !app_nil_r. reflexivity.
  Qed.

  Lemma loop_next : forall g bp s c before q lg, WF no_apps g c -> bp < s -> 0 <= bp ->
    bp + physical (chunkSize c) <= INT_MAX -> cut_loop g (bp + physical (chunkSize c)) s before q lg -> cut_loop g bp s (c :: before) q lg.
  Proof.
    intros g bp s c before q lg W L B0 B CL f fuel w F1 F2 R. cbn [flat_map] in *. rewrite <- app_assoc in *.
    pose proof (member_reads g c W) as RC.
    assert (L8 : 8 <= zlength (encode c)).
    { destruct (WF_parsed e no_apps g c W) as (lg0 & P & _). exact (Parsed_length _ _ _ _ _ _ P). }
    pose proof (WF_size _ _ _ W) as SZ.
    rewrite app_length in F1, F2. rewrite !zlength_app in *. pose proof (zlength_nonneg _ (flat_map encode before)). pose proof (zlength_nonneg _ q).
    destruct fuel as [|fuel]; [lia|].
    assert (LN : (8 <= List.length (encode c))%nat) by (unfold zlength in L8; lia).
    assert (INC : IFF_incrementChunkSize bp c = Done (bp + physical (chunkSize c))).
    { apply increment_ok; [unfold INT_MIN; lia| |exact B]. pose proof (physical_range (chunkSize c)). lia. }
    split.
    - intros i subs MS. pose proof (zlength_nonneg _ subs).
      destruct (RC f w (flat_map encode before ++ q)) as [n RCE]; [lia|lia|right; left; reflexivity|exact R|].
      cbn [readGroupSubChunks chunkSize]. rewrite (proj2 (Z.ltb_lt bp s)) by exact L.
      unfold bind at 1. rewrite RCE. unfold bind at 1. unfold IFF_attachToGroup. cbn [as_group].
      unfold bind at 1. rewrite malloc_ok_usual by (assumption || unfold sizeof_pointer; lia).
      unfold ret at 1. cbn [set_subs]. unfold bind at 1, lift. rewrite INC.
      set (w1 := after _ [] _ _). destruct (CL f fuel w1) as [G _]; [lia|lia|reflexivity|].
      destruct (G i (subs ++ [c])) as (r & n2 & bp' & GE).
      { rewrite !zlength_app, zlength_cons, zlength_nil. lia. }
      exists r, n2, bp'. rewrite GE. unfold w1. rewrite !after_after. rewrite <- !app_assoc. cbn [List.app]. rewrite app_nil_r. reflexivity.
    - intros props subs MS MP. pose proof (zlength_nonneg _ subs). pose proof (zlength_nonneg _ props).
      destruct (RC f w (flat_map encode before ++ q)) as [n RCE]; [lia|lia|right; left; reflexivity|exact R|].
      cbn [readListSubChunks chunkSize]. rewrite (proj2 (Z.ltb_lt bp s)) by exact L.
      unfold bind at 1. rewrite RCE. unfold bind at 1. cbn [filter].
      change (chunkId c =? IFF_ID_PROP) with (is_prop c). destruct (is_prop c) eqn:CP; cbn [negb].
      + unfold addPropToList. unfold bind at 1. rewrite malloc_ok_usual by (assumption || unfold sizeof_pointer; lia).
        unfold ret at 1. unfold bind at 1, lift. rewrite INC.
        set (w1 := after _ [] _ _). destruct (CL f fuel w1) as [_ G]; [lia|lia|reflexivity|].
        destruct (G (props ++ [c]) subs) as (r & n2 & bp' & GE).
        { rewrite !zlength_app. lia. }
        { rewrite !zlength_app, zlength_cons, zlength_nil. lia. }
        exists r, n2, bp'. rewrite GE. unfold w1. rewrite !after_after. rewrite <- !app_assoc. cbn [List.app]. rewrite app_nil_r. reflexivity.
      + unfold IFF_attachToGroup. cbn [as_group]. unfold bind at 1. rewrite malloc_ok_usual by (assumption || unfold sizeof_pointer; lia).
        unfold ret at 1. cbn [set_subs]. unfold bind at 1, lift. rewrite INC.
        set (w1 := after _ [] _ _). destruct (CL f fuel w1) as [_ G]; [lia|lia|reflexivity|].
        destruct (G props (subs ++ [c])) as (r & n2 & bp' & GE).
        { rewrite !zlength_app, zlength_cons, zlength_nil. lia. }
        { rewrite !zlength_app. lia. }
        exists r, n2, bp'. rewrite GE. unfold w1. rewrite !after_after. rewrite <- !app_assoc. cbn [List.app]. rewrite app_nil_r. reflexivity.
  Qed.

  Lemma loop_cut : forall g s before bp q lg, (forall c, In c before -> WF no_apps g c) -> 0 <= bp -> s <= INT_MAX ->
    bp + zlength (flat_map encode before) < s -> cut_as g q lg -> cut_loop g bp s before q lg.
  Proof.
    intros g s. induction before as [|c before IH]; intros bp q lg W B S L CA.
    - apply loop_end; [cbn in L; lia|exact CA].
    - cbn [flat_map] in L. rewrite zlength_app in L. pose proof (W c (or_introl eq_refl)) as WC.
      rewrite (WF_encode_length _ _ _ WC) in L. pose proof (zlength_nonneg _ (flat_map encode before)).
      pose proof (physical_range (chunkSize c)). pose proof (WF_size _ _ _ WC).
      apply loop_next; [exact WC|lia|lia|lia|]. apply IH; [intros; apply W; right; assumption|lia|lia|lia|exact CA].
  Qed.

  Definition group_name (i : Z) : string := if i =? CAT_ID then "contentsType" else "formType".

  Lemma group_start : forall f ft i s q w, In i [FORM_ID; CAT_ID; PROP_ID] -> 0 <= s <= INT_MAX -> rest w = be32 i ++ be32 s ++ q ->
    exists n, IFF_readChunk rg (S f) ft e w =
    (r0 <- IFF_readGroup (IFF_readChunk rg f) f (CGroup i s 0 []) (group_name i) 0 ;;
     match r0 with
     | (ok, c1, bp0) =>
         ok3 <- andM (ret ok)
                  (andM (IFF_skipUnknownBytes (chunkId c1) s bp0) (IFF_readPaddingByte s (chunkId c1))) ;;
         if ok3 then ret (Some c1) else lift (IFF_freeChunk rg c1 ft) ;;; ret None
     end) e (after q [] n w).
  Proof.
    intros f ft i s q w GI S R.
    assert (IR : in_range FId i) by (destruct GI as [<-|[<-|[<-|[]]]]; vm_compute; split; congruence).
    rewrite (readChunk_header rg f ft e w i s q); try assumption; [|simpl; unfold INT_MAX in S; lia].
    unfold readChunkBody. unfold bind at 1, lift. rewrite RG. pose proof (half_size_t e) as HS.
    destruct GI as [<-|[<-|[<-|[]]]]; [rewrite handler_FORM|rewrite handler_CAT|rewrite handler_PROP];
      cbn [createExtensionChunk readExtensionChunkFields];
      unfold IFF_createUnparsedGroup, IFF_createGroup;
      unfold bind at 1; unfold bind at 1; rewrite malloc_ok_usual by (assumption || unfold sizeof_Group; lia);
      unfold ret at 1; eexists; rewrite after_after; reflexivity.
  Qed.

  Lemma list_start : forall f ft s q w, 0 <= s <= INT_MAX -> rest w = be32 LIST_ID ++ be32 s ++ q ->
    exists n, IFF_readChunk rg (S f) ft e w =
    (r0 <- IFF_readList (IFF_readChunk rg f) f (CList LIST_ID s 0 [] []) 0 ;;
     match r0 with
     | (ok, c1, bp0) =>
         ok3 <- andM (ret ok)
                  (andM (IFF_skipUnknownBytes (chunkId c1) s bp0) (IFF_readPaddingByte s (chunkId c1))) ;;
         if ok3 then ret (Some c1) else lift (IFF_freeChunk rg c1 ft) ;;; ret None
     end) e (after q [] n w).
  Proof.
    intros f ft s q w S R.
    assert (IR : in_range FId LIST_ID) by (vm_compute; split; congruence).
    rewrite (readChunk_header rg f ft e w LIST_ID s q); try assumption; [|simpl; unfold INT_MAX in S; lia].
    unfold readChunkBody. unfold bind at 1, lift. rewrite RG, handler_LIST. pose proof (half_size_t e) as HS.
    cbn [createExtensionChunk readExtensionChunkFields]. unfold IFF_createUnparsedList, IFF_createList.
    unfold bind at 1. unfold bind at 1. rewrite malloc_ok_usual by (assumption || unfold sizeof_List; lia).
    unfold ret at 1. eexists. rewrite after_after. reflexivity.
  Qed.

  Lemma field_short : forall i s name q w, zlength q < 4 -> rest w = q ->
    IFF_readField FId i s name 0 e w = Done ((FIELD_FAILURE, None, 0), after [] (readError_log i name) (w_allocs w) w).
  Proof.
    intros i s name q w L R. unfold IFF_readField. unfold bind at 1, ask at 1. rewrite fit_start. unfold bind at 1.
    rewrite read_prim_short by (rewrite R; exact L). rewrite add_log_set. reflexivity.
  Qed.

  Lemma cut_group_type : forall ft i s q, In i [FORM_ID; CAT_ID; PROP_ID] -> 0 <= s <= INT_MAX -> zlength q < 4 ->
    cut_as ft (be32 i ++ be32 s ++ q) (readError_log i (group_name i)).
  Proof.
    intros ft i s q GI S L fuel w F M R. destruct fuel as [|f]; [lia|].
    destruct (group_start f ft i s q w GI S R) as [n E]. rewrite E. eexists _, _.
    rewrite (tail_false _ (CGroup i s 0 []) 0 (after [] (readError_log i (group_name i)) n w)).
    - reflexivity.
    - unfold IFF_readGroup. cbn [as_group chunkId chunkSize]. unfold bind at 1. rewrite (field_short i s _ q) by (exact L || reflexivity).
      rewrite after_after, app_nil_r. reflexivity.
    - apply Ty_group; [exact GI|intros c []].
  Qed.

  Lemma cut_list_type : forall ft s q, 0 <= s <= INT_MAX -> zlength q < 4 ->
    cut_as ft (be32 LIST_ID ++ be32 s ++ q) (readError_log LIST_ID "contentsType").
  Proof.
    intros ft s q S L fuel w F M R. destruct fuel as [|f]; [lia|].
    destruct (list_start f ft s q w S R) as [n E]. rewrite E. eexists _, _.
    rewrite (tail_false _ (CList LIST_ID s 0 [] []) 0 (after [] (readError_log LIST_ID "contentsType") n w)).
    - reflexivity.
    - unfold IFF_readList. cbn [chunkId chunkSize]. unfold bind at 1. rewrite (field_short LIST_ID s _ q) by (exact L || reflexivity).
      rewrite after_after, app_nil_r. reflexivity.
    - apply Ty_list; intros c [].
  Qed.

  Lemma cut_group : forall ft i s g before q lg, In i [FORM_ID; CAT_ID; PROP_ID] -> 0 <= s <= INT_MAX -> in_range FId g ->
    (forall c, In c before -> WF no_apps g c) -> 4 + zlength (flat_map encode before) < s -> cut_as g q lg ->
    cut_as ft (be32 i ++ be32 s ++ be32 g ++ flat_map encode before ++ q) lg.
  Proof.
    intros ft i s g before q lg GI S G W L CA fuel w F M R. destruct fuel as [|f]; [lia|].
    destruct (group_start f ft i s _ w GI S R) as [n E]. rewrite E.
    rewrite !app_length in F. change (List.length (be32 _)) with 4%nat in F. rewrite !zlength_app in M. rewrite !be32_length in M.
    pose proof (loop_cut g s before 4 q lg W ltac:(lia) ltac:(lia) L CA) as CL.
    set (w1 := after _ [] n w).
    destruct (CL f f (after (flat_map encode before ++ q) [] (w_allocs w1) w1)) as [X _];
      [rewrite app_length; lia|rewrite app_length; lia|reflexivity|].
    destruct (X i []) as (r & n2 & bp' & XE); [rewrite zlength_nil, zlength_app; lia|].
    eexists _, _. rewrite (tail_false _ (CGroup i s g before) bp' (after r lg n2 w)).
    - reflexivity.
    - unfold IFF_readGroup. cbn [as_group chunkId chunkSize]. unfold IFF_readField.
      unfold bind at 1. unfold bind at 1, ask at 1. rewrite fit_start. unfold bind at 1.
      rewrite (read_prim_ok FId e w1 g (flat_map encode before ++ q) i _ ltac:(left; exact NS) G eq_refl).
      unfold ret at 1. change (increaseBytesProcessed 0 (fieldSize FId)) with 4. cbn [set_groupType].
      rewrite set_rest_after. rewrite XE. unfold w1. rewrite !after_after, !app_nil_r. reflexivity.
    - apply Ty_group; [exact GI|]. intros c I. exact (proj1 (WF_properties _ _ _ (W c I))).
  Qed.

  Lemma cut_list : forall ft s g before q lg, 0 <= s <= INT_MAX -> in_range FId g ->
    (forall c, In c before -> WF no_apps g c) -> 4 + zlength (flat_map encode before) < s -> cut_as g q lg ->
    cut_as ft (be32 LIST_ID ++ be32 s ++ be32 g ++ flat_map encode before ++ q) (["Error reading chunk in list!" ++ nl]%string ++ lg).
  Proof.
    intros ft s g before q lg S G W L CA fuel w F M R. destruct fuel as [|f]; [lia|].
    destruct (list_start f ft s _ w S R) as [n E]. rewrite E.
    rewrite !app_length in F. change (List.length (be32 _)) with 4%nat in F. rewrite !zlength_app in M. rewrite !be32_length in M.
    pose proof (loop_cut g s before 4 q lg W ltac:(lia) ltac:(lia) L CA) as CL.
    set (w1 := after _ [] n w).
    destruct (CL f f (after (flat_map encode before ++ q) [] (w_allocs w1) w1)) as [_ X];
      [rewrite app_length; lia|rewrite app_length; lia|reflexivity|].
    destruct (X [] []) as (r & n2 & bp' & XE); [rewrite zlength_nil, zlength_app; lia|rewrite zlength_nil, zlength_app; lia|].
    eexists _, _.
    rewrite (tail_false _ (CList LIST_ID s g (filter is_prop before) (filter (fun c => negb (is_prop c)) before)) bp'
               (after r (["Error reading chunk in list!" ++ nl]%string ++ lg) n2 w)).
    - reflexivity.
    - unfold IFF_readList. cbn [chunkId chunkSize]. unfold IFF_readField.
      unfold bind at 1. unfold bind at 1, ask at 1. rewrite fit_start. unfold bind at 1.
      rewrite (read_prim_ok FId e w1 g (flat_map encode before ++ q) LIST_ID _ ltac:(left; exact NS) G eq_refl).
      unfold ret at 1. change (increaseBytesProcessed 0 (fieldSize FId)) with 4. cbn [set_groupType].
      rewrite set_rest_after. unfold bind at 1. rewrite XE. unfold w1. rewrite !after_after, !app_nil_r.
      unfold bind, IFF_error, ret. cbn [List.app]. reflexivity.
    - apply Ty_list; intros c I; apply filter_In in I; destruct I as [I P].
      + split; [exact (proj1 (WF_properties _ _ _ (W c I)))|]. unfold is_prop in P. apply Z.eqb_eq in P. exact P.
      + exact (proj1 (WF_properties _ _ _ (W c I))).
  Qed.

  Lemma group_name_cases : forall i, In i [FORM_ID; CAT_ID; PROP_ID] ->
    (i = CAT_ID /\ group_name i = "contentsType"%string) \/ (In i [FORM_ID; PROP_ID] /\ group_name i = "formType"%string).
  Proof. intros i [<-|[<-|[<-|[]]]]; [right|left|right]; (split; [|reflexivity]); cbn; auto. Qed.

  Lemma text_readError : forall i name, text (readError_log i name) = ("Error reading '" ++ id_name i ++ "'." ++ name ++ nl)%string.
  Proof. intros i name. unfold readError_log. apply text_id. Qed.

  (** Every file that ends too early *)
  Theorem cut_anywhere : forall c ft pre suf, WF no_apps ft c -> pre ++ suf = encode c -> suf <> [] ->
    exists lg, cut_as ft pre lg /\ Cut c pre (text lg).
  Proof.
    assert (HEAD : forall c ft pre suf i s body, pre ++ suf = be32 i ++ be32 s ++ body -> in_range FId i -> chunkId c = i ->
      (exists lg, cut_as ft pre lg /\ Cut c pre (text lg)) \/ exists q, pre = be32 i ++ be32 s ++ q /\ q ++ suf = body).
    { intros c ft pre suf i s body E I CI. destruct (prefix_cases _ _ _ _ _ E) as [(r & R & NR)|(q & -> & Q)].
      - left. pose proof (strict_length _ _ _ _ R NR) as SL. rewrite be32_length in SL. exists (readError_log ID_EMPTY "").
        split; [apply cut_id; exact SL|]. apply (Cut_id c pre SL).
      - destruct (prefix_cases _ _ _ _ _ Q) as [(r & R & NR)|(q2 & -> & Q2)]; [left|right; eauto].
        pose proof (strict_length _ _ _ _ R NR) as SL. rewrite be32_length in SL. exists (readError_log i "chunkSize").
        split; [apply cut_size; assumption|]. rewrite text_readError. rewrite <- CI.
        apply Cut_size. rewrite zlength_app, be32_length. pose proof (zlength_nonneg _ q). lia. }
    induction c as [i s d|i s g subs IH|i s g props subs IHp IHs|i s vals] using chunk_tree_ind; intros ft pre suf W E N;
      pose proof (WF_size _ _ _ W) as SZ; cbn [chunkSize] in SZ; inversion W; subst; cbn [encode] in E; unfold frame in E.
    - (* raw *)
      destruct (HEAD (CRaw i (zlength l) (Some l)) ft pre suf i (zlength l) _ E ltac:(assumption) eq_refl) as [X|(q & -> & Q)]; [exact X|].
      cbn [data_of] in Q. destruct (prefix_cases _ _ _ _ _ Q) as [(r & R & NR)|(q2 & -> & Q2)].
      + pose proof (strict_length _ _ _ _ R NR) as SL. eexists. split; [apply cut_data; eassumption|].
        rewrite text_id. apply Cut_data. rewrite !zlength_app, !be32_length. pose proof (zlength_nonneg _ q). lia.
      + unfold pad in Q2. destruct (Z.odd (zlength l)) eqn:O.
        * assert (q2 = []) as ->.
          { destruct q2 as [|b q2]; [reflexivity|]. cbn in Q2. injection Q2 as _ Q2. apply app_eq_nil in Q2. tauto. }
          rewrite app_nil_r. eexists. split; [apply cut_padding; eassumption|].
          rewrite text_id. apply Cut_padding; [apply zlength_nonneg|rewrite !zlength_app, !be32_length; lia|exact O].
        * apply app_eq_nil in Q2. tauto.
    - (* group *)
      assert (IR : in_range FId i) by (match goal with H : In i _ |- _ => destruct H as [<-|[<-|[<-|[]]]]; vm_compute; split; congruence end).
      match goal with H : In i [_; _; _] |- _ => rename H into GI end.
      match goal with H : forall c, In c subs -> WF _ _ _ |- _ => rename H into WS end.
      match goal with H : in_range FId g |- _ => rename H into GR end.
      remember (4 + zlength (flat_map encode subs)) as s eqn:ES.
      destruct (HEAD (CGroup i s g subs) ft pre suf i s _ E IR eq_refl) as [X|(q & -> & Q)]; [exact X|].
      assert (EV : pad (be32 g ++ flat_map encode subs) = []).
      { unfold pad. rewrite zlength_app, be32_length, Z.odd_add, (body_even g subs WS). reflexivity. }
      rewrite EV, app_nil_r in Q. destruct (prefix_cases _ _ _ _ _ Q) as [(r & R & NR)|(q2 & -> & Q2)].
      + pose proof (strict_length _ _ _ _ R NR) as SL. rewrite be32_length in SL. eexists. split; [apply cut_group_type; eassumption|].
        rewrite text_readError. pose proof (zlength_nonneg _ q).
        destruct (group_name_cases i GI) as [[-> ->]|[I ->]]; [apply Cut_contents_type|apply Cut_form_type; [exact I|]];
          rewrite !zlength_app, !be32_length; lia.
      + destruct (members_cases _ _ _ Q2 N) as (before & x & behind & q & r & -> & -> & R & NR).
        destruct (IH x ltac:(apply in_elt) g q r (WS x ltac:(apply in_elt)) R NR) as (lg & CA & CT).
        exists lg. split; [|apply (Cut_member i s g before x behind q r _ R NR CT)].
        apply cut_group; try assumption.
        * intros c I. apply WS. apply in_app_iff. left. exact I.
        * rewrite ES, flat_map_app, zlength_app. cbn [flat_map]. rewrite zlength_app.
          pose proof (strict_length _ _ _ _ R NR). pose proof (zlength_nonneg _ q). pose proof (zlength_nonneg _ (flat_map encode behind)). lia.
    - (* list *)
      assert (IR : in_range FId LIST_ID) by (vm_compute; split; congruence).
      match goal with H : forall c, In c props -> _ |- _ => rename H into WP end.
      match goal with H : forall c, In c subs -> WF _ _ _ /\ _ |- _ => rename H into WS end.
      match goal with H : in_range FId g |- _ => rename H into GR end.
      rewrite <- flat_map_app in E. 
      assert (WM : forall c, In c (props ++ subs) -> WF no_apps g c).
      { intros c I. apply in_app_iff in I. destruct I as [I|I]; [exact (proj1 (WP c I))|exact (proj1 (WS c I))]. }
      remember (4 + zlength (flat_map encode props) + zlength (flat_map encode subs)) as s eqn:ES.
      destruct (HEAD (CList LIST_ID s g props subs) ft pre suf LIST_ID s _ E IR eq_refl) as [X|(q & -> & Q)]; [exact X|].
      assert (EV : pad (be32 g ++ flat_map encode (props ++ subs)) = []).
      { unfold pad. rewrite zlength_app, be32_length, Z.odd_add, (body_even g _ WM). reflexivity. }
      rewrite EV, app_nil_r in Q. destruct (prefix_cases _ _ _ _ _ Q) as [(r & R & NR)|(q2 & -> & Q2)].
      + pose proof (strict_length _ _ _ _ R NR) as SL. rewrite be32_length in SL. eexists. split; [apply cut_list_type; eassumption|].
        rewrite text_readError. pose proof (zlength_nonneg _ q). apply Cut_list_type. rewrite !zlength_app, !be32_length; lia.
      + destruct (members_cases _ _ _ Q2 N) as (before & x & behind & q & r & EM & -> & R & NR).
        assert (IX : In x (props ++ subs)) by (rewrite EM; apply in_elt).
        assert (IHx : exists lg, cut_as g q lg /\ Cut x q (text lg)).
        { pose proof (WM x IX) as WX. apply in_app_iff in IX. destruct IX as [IX|IX]; [apply (IHp x IX g q r WX R NR)|apply (IHs x IX g q r WX R NR)]. }
        destruct IHx as (lg & CA & CT). exists (["Error reading chunk in list!" ++ nl]%string ++ lg).
        split; [|rewrite text_app, text_one; apply (Cut_list_member _ s g props subs before x behind q r _ EM R NR CT)].
        apply cut_list; try assumption.
        * intros c I. apply WM. rewrite EM. apply in_app_iff. left. exact I.
        * assert (EL : zlength (flat_map encode props) + zlength (flat_map encode subs) = zlength (flat_map encode (props ++ subs)))
            by (rewrite flat_map_app, zlength_app; reflexivity).
          rewrite EM, flat_map_app, zlength_app in EL. cbn [flat_map] in EL. rewrite zlength_app in EL.
          pose proof (strict_length _ _ _ _ R NR). pose proof (zlength_nonneg _ q). pose proof (zlength_nonneg _ (flat_map encode behind)). lia.
    - discriminate.
  Qed.
End Cut.
