(** * Canonical files and silently read files are reproduced when written *)

From Coq Require Import ZArith List Bool String Lia.
From Coq Require Import Strings.Byte.
From Verif Require Import Machine Io Types Spec Lemmas IoProofs RegProofs WriteProofs EncodeProofs Grammar
  ReadProofs DetProofs SoundProofs RoundProofs FileProofs.
Import ListNotations.
Open Scope Z_scope.

Section CanonInd.
  Variable P : list byte -> Prop.
  Hypothesis Hdata : forall i data, in_range FId i -> ~ In i group_ids -> zlength data <= INT_MAX ->
    P (frame i (zlength data) data).
  Hypothesis Hgroup : forall i g ls, In i [FORM_ID; CAT_ID; PROP_ID] -> in_range FId g -> Forall P ls ->
    zlength (be32 g ++ List.concat ls) <= INT_MAX ->
    P (frame i (zlength (be32 g ++ List.concat ls)) (be32 g ++ List.concat ls)).
  Hypothesis Hlist : forall g lp ls, in_range FId g -> Forall P lp -> Forall P ls ->
    Forall (StartsWith PROP_ID) lp -> Forall (fun l => ~ StartsWith PROP_ID l) ls ->
    zlength (be32 g ++ List.concat (lp ++ ls)) <= INT_MAX ->
    P (frame LIST_ID (zlength (be32 g ++ List.concat (lp ++ ls))) (be32 g ++ List.concat (lp ++ ls))).

  Fixpoint Canonical_tree_ind (l : list byte) (H : Canonical l) {struct H} : P l :=
    let fix all (ls : list (list byte)) (F : Forall Canonical ls) : Forall P ls :=
      match F with
      | Forall_nil _ => Forall_nil _
      | Forall_cons x Hx Hr => Forall_cons x (Canonical_tree_ind x Hx) (all _ Hr)
      end in
    match H with
    | Can_data i d A B C => Hdata i d A B C
    | Can_group i g ls A B F Z => Hgroup i g ls A B (all ls F) Z
    | Can_list g lp ls A F1 F2 S1 S2 Z => Hlist g lp ls A (all lp F1) (all ls F2) S1 S2 Z
    end.
End CanonInd.

Lemma collect : forall (Q : chunk -> list byte -> Prop) ls,
  Forall (fun l => exists c, Q c l) ls -> exists cs, Forall2 Q cs ls.
Proof.
  intros Q ls F. induction F as [|l ls (c & H) F (cs & IH)]; [exists []; constructor|].
  exists (c :: cs). constructor; assumption.
Qed.

Lemma collected : forall cs ls, Forall2 (fun c l => (forall ft, WF no_apps ft c) /\ encode c = l) cs ls ->
  (forall c, In c cs -> forall ft, WF no_apps ft c) /\ flat_map encode cs = List.concat ls.
Proof.
  intros cs ls F. induction F as [|c l cs ls [W E] F [IH1 IH2]]; [split; [contradiction|reflexivity]|].
  split.
  - intros x [<-|I] ft; [apply W|apply IH1; exact I].
  - cbn [flat_map List.concat]. rewrite E, IH2. reflexivity.
Qed.

Lemma encode_StartsWith : forall ft c, WF no_apps ft c -> (StartsWith PROP_ID (encode c) <-> chunkId c = PROP_ID).
Proof.
  intros ft c W. assert (E : exists r, encode c = be32 (chunkId c) ++ r).
  { destruct c as [a b d|a b g l|a b g pp l|a b v]; cbn [encode chunkId]; unfold frame; eexists; reflexivity. }
  assert (R : in_range FId (chunkId c)).
  { inversion W; subst; cbn [chunkId]; try assumption; [|vm_compute; split; congruence].
    match goal with H : In i _ |- _ => destruct H as [<-|[<-|[<-|[]]]]; vm_compute; split; congruence end. }
  destruct E as [r E]. split.
  - intros [r2 E2]. rewrite E in E2.
    apply (be32_split FId) in E2; [apply E2|exact R|vm_compute; split; congruence|auto].
  - intros P. rewrite <- P. exists r. exact E.
Qed.

Theorem Canonical_tree : forall l, Canonical l -> exists c, (forall ft, WF no_apps ft c) /\ encode c = l.
Proof.
  apply Canonical_tree_ind.
  - intros i data R NG Z. exists (CRaw i (zlength data) (Some data)). split; [|reflexivity].
    intro ft. apply WF_raw; auto.
  - intros i g ls GI R F Z. destruct (collect _ _ F) as [cs F2]. destruct (collected _ _ F2) as [W E].
    exists (CGroup i (zlength (be32 g ++ List.concat ls)) g cs). cbn [encode]. rewrite E. split; [|reflexivity].
    intro ft. apply WF_group; try assumption.
    + intros c I. apply W. exact I.
    + rewrite zlength_app, EncodeProofs.be32_length, E. reflexivity.
  - intros g lp ls R F1 F2 S1 S2 Z. destruct (collect _ _ F1) as [ps G1]. destruct (collect _ _ F2) as [cs G2].
    destruct (collected _ _ G1) as [W1 E1]. destruct (collected _ _ G2) as [W2 E2].
    exists (CList LIST_ID (zlength (be32 g ++ List.concat (lp ++ ls))) g ps cs). cbn [encode].
    rewrite E1, E2, concat_app. split; [|reflexivity].
    assert (X : forall (Q : list byte -> Prop) cs ls,
      Forall2 (fun c l => (forall ft, WF no_apps ft c) /\ encode c = l) cs ls -> Forall Q ls ->
      forall c, In c cs -> Q (encode c)).
    { intros Q cs0 ls0 G. induction G as [|c l cs0 ls0 [_ <-] G IH]; intros FQ x I; [contradiction|].
      inversion FQ; subst. destruct I as [<-|I]; [assumption|apply IH; assumption]. }
    intro ft. apply WF_list; try assumption.
    + intros c I. split; [apply W1; exact I|]. apply (encode_StartsWith 0 c (W1 c I 0)).
      apply (X _ _ _ G1 S1 c I).
    + intros c I. split; [apply W2; exact I|]. intro PC. apply (encode_StartsWith 0 c (W2 c I 0)) in PC.
      exact (X _ _ _ G2 S2 c I PC).
    + rewrite !zlength_app, EncodeProofs.be32_length, E1, E2. lia.
    + rewrite concat_app in Z. exact Z.
Qed.

(** Every well-formed tree that PROPs cannot disorder is canonical. *)
Theorem WF_Canonical : forall c ft, WF no_apps ft c -> Canonical (encode c).
Proof.
  induction c as [i s d|i s g subs IH|i s g props subs IHp IHs|i s vals] using chunk_tree_ind;
    intros ft W; inversion W; subst; cbn [encode data_of].
  - apply Can_data; assumption.
  - rewrite <- (EncodeProofs.be32_length g) at 1. rewrite <- zlength_app, flat_map_concat_map in *.
    apply Can_group; try assumption.
    + apply Forall_forall. intros l I. apply in_map_iff in I. destruct I as (c & <- & I). eapply IH; eauto.
    + rewrite zlength_app, EncodeProofs.be32_length. assumption.
  - rewrite <- (EncodeProofs.be32_length g) at 1.
    match goal with |- Canonical (frame _ ?s _) => replace s with (zlength (be32 g ++ flat_map encode props ++ flat_map encode subs)) by (rewrite !zlength_app; lia) end.
    rewrite !flat_map_concat_map, <- concat_app in *.
    apply Can_list; try assumption.
    + apply Forall_forall. intros l I. apply in_map_iff in I. destruct I as (c & <- & I).
      match goal with H : forall c, In c props -> _ |- _ => destruct (H c I) end. eapply IHp; eauto.
    + apply Forall_forall. intros l I. apply in_map_iff in I. destruct I as (c & <- & I).
      match goal with H : forall c, In c subs -> _ |- _ => destruct (H c I) end. eapply IHs; eauto.
    + apply Forall_forall. intros l I. apply in_map_iff in I. destruct I as (c & <- & I).
      match goal with H : forall c, In c props -> _ |- _ => destruct (H c I) as [WC PC] end.
      apply (encode_StartsWith g c WC). exact PC.
    + apply Forall_forall. intros l I. apply in_map_iff in I. destruct I as (c & <- & I).
      match goal with H : forall c, In c subs -> _ |- _ => destruct (H c I) as [WC PC] end.
      intro SW. apply (encode_StartsWith g c WC) in SW. contradiction.
    + rewrite concat_app, !zlength_app, EncodeProofs.be32_length.
      match goal with H : _ <= INT_MAX |- _ => lia end.
  - discriminate.
Qed.

(** ** Files read without any diagnostic *)

Lemma Members_total : forall e app,
  (forall ft l c lg, Parsed e app ft l c lg -> True) /\
  (forall g bp s l cs lg total, Members e app g bp s l cs lg total -> s <= total).
Proof. intros e app. apply (Parsed_Members_ind e app); intros; auto. Qed.

Lemma size_warning_nil : forall e what s t, size_warning e what s t = [] -> s <= t -> t = s.
Proof. intros e what s t H L. unfold size_warning in H. destruct (Z.ltb_spec s t); [discriminate|lia]. Qed.

Lemma NoMixed_group : forall i s g subs c, NoMixedList (CGroup i s g subs) -> In c subs -> NoMixedList c.
Proof. intros i s g subs c N I i' s' g' p' q' T. eapply N. eapply In_group; eassumption. Qed.

Lemma silent_WF : forall e app, (forall ft i, app ft i = None) ->
  (forall ft l c lg, Parsed e app ft l c lg -> lg = [] -> Benign app l -> zlength l <= INT_MAX + 8 ->
     WF app ft c /\ zlength l = physical (chunkSize c) /\ (NoMixedList c -> l = encode c)) /\
  (forall g bp s l cs lg total, Members e app g bp s l cs lg total -> lg = [] -> Benign app l ->
     0 <= bp -> bp + zlength l <= INT_MAX ->
     (forall c, In c cs -> WF app g c) /\ total = bp + zlength l /\ zlength l = body_size cs /\
     ((forall c, In c cs -> NoMixedList c) -> l = flat_map encode cs)).
Proof.
  intros e app NA. apply (Parsed_Members_ind e app).
  - intros ft i data p R NG A Z ZP LG B L. split; [apply WF_raw; assumption|]. cbn [chunkSize encode data_of]. split.
    + rewrite !zlength_app, !EncodeProofs.be32_length, ZP. unfold physical, round_even. lia.
    + intros _. unfold frame. do 3 f_equal. apply (pad_warning_zero (zlength data)); assumption.
  - intros. rewrite NA in *. discriminate.
  - intros ft i s g l subs p lg total GI SR GR M IH ZP LG B L.
    apply app_eq_nil in LG. destruct LG as [L1 LG]. apply app_eq_nil in LG. destruct LG as [L2 ->].
    assert (B2 : Benign app l).
    { apply (Benign_prefix app l p). apply (Benign_suffix app (be32 i ++ be32 s ++ be32 g)).
      rewrite <- !app_assoc. exact B. }
    rewrite !zlength_app, !EncodeProofs.be32_length in *. pose proof (zlength_nonneg _ p).
    destruct (IH eq_refl B2 ltac:(lia) ltac:(lia)) as (W & T & BS & E).
    pose proof (proj2 (Members_total e app) _ _ _ _ _ _ _ M) as ST.
    apply size_warning_nil in L2; [|assumption]. subst total.
    pose proof (flat_encode_length app g subs W) as FL.
    split; [apply WF_group; try assumption; cbn [in_range] in SR; unfold INT_MAX in *; lia|]. cbn [chunkSize encode].
    split; [rewrite ZP; unfold physical, round_even; lia|]. intros N.
    rewrite <- E by (intros; eapply NoMixed_group; eassumption).
    unfold frame. rewrite <- !app_assoc. do 4 f_equal.
    replace (pad (be32 g ++ l)) with (pad_for s).
    + apply (pad_warning_zero s); assumption.
    + unfold pad, pad_for. replace (zlength (be32 g ++ l)) with s; [reflexivity|]. rewrite zlength_app, EncodeProofs.be32_length. lia.
  - intros ft s g l members p lg total SR GR M IH ZP LG B L.
    apply app_eq_nil in LG. destruct LG as [L1 LG]. apply app_eq_nil in LG. destruct LG as [L2 ->].
    assert (B2 : Benign app l).
    { apply (Benign_prefix app l p). apply (Benign_suffix app (be32 LIST_ID ++ be32 s ++ be32 g)).
      rewrite <- !app_assoc. exact B. }
    rewrite !zlength_app, !EncodeProofs.be32_length in *. pose proof (zlength_nonneg _ p).
    destruct (IH eq_refl B2 ltac:(lia) ltac:(lia)) as (W & T & BS & E).
    pose proof (proj2 (Members_total e app) _ _ _ _ _ _ _ M) as ST.
    apply size_warning_nil in L2; [|assumption]. subst total.
    assert (FP : forall f, zlength (flat_map encode (filter f members)) + zlength (flat_map encode (filter (fun c => negb (f c)) members))
                 = zlength l).
    { intro f. rewrite BS, <- (flat_encode_length app g members W).
      clear. induction members as [|c m IHm]; [reflexivity|]. cbn [filter flat_map]. rewrite zlength_app.
      destruct (f c); cbn [negb flat_map]; rewrite zlength_app; lia. }
    specialize (FP is_prop).
    split.
    { apply WF_list; try assumption.
      - intros c I. apply filter_In in I. destruct I as [I PC]. split; [apply W; exact I|]. apply Z.eqb_eq. exact PC.
      - intros c I. apply filter_In in I. destruct I as [I PC]. split; [apply W; exact I|].
        apply negb_true_iff, Z.eqb_neq in PC. exact PC.
      - lia.
      - cbn [in_range] in SR; unfold INT_MAX in *; lia. }
    cbn [chunkSize encode]. split; [rewrite ZP; unfold physical, round_even; lia|]. intros N.
    assert (ME : flat_map encode (filter is_prop members) ++ flat_map encode (filter (fun c => negb (is_prop c)) members) = l).
    { assert (NM : forall c, In c members -> NoMixedList c).
      { intros c I i' s' g' p' q' TT. eapply N. destruct (is_prop c) eqn:PC.
        - eapply In_list_prop; [apply filter_In; split; eassumption|eassumption].
        - eapply In_list_sub; [apply filter_In; split; [eassumption|rewrite PC; reflexivity]|eassumption]. }
      rewrite (E NM). destruct (N _ _ _ _ _ (In_here _)) as [X|X].
      - rewrite X. cbn [flat_map Datatypes.app]. f_equal. clear - X.
        induction members as [|c m IHm]; [reflexivity|]. cbn [filter] in *. destruct (is_prop c); [discriminate|].
        cbn [negb]. f_equal. auto.
      - rewrite X. cbn [flat_map]. rewrite app_nil_r. f_equal. clear - X.
        induction members as [|c m IHm]; [reflexivity|]. cbn [filter] in *. destruct (is_prop c); [|discriminate].
        cbn [negb] in X. f_equal. auto. }
    rewrite ME. unfold frame. rewrite <- !app_assoc. do 4 f_equal.
    replace (pad (be32 g ++ l)) with (pad_for s).
    + apply (pad_warning_zero s); assumption.
    + unfold pad, pad_for. replace (zlength (be32 g ++ l)) with s; [reflexivity|]. rewrite zlength_app, EncodeProofs.be32_length. lia.
  - intros g bp s L LG B B0 B1. split; [contradiction|]. rewrite zlength_nil. split; [lia|]. split; reflexivity.
  - intros g bp s l c lg bp' l2 cs lg2 total L P IHP AD M IHM LG B B0 B1.
    apply app_eq_nil in LG. destruct LG as [-> ->]. rewrite zlength_app in *.
    pose proof (zlength_nonneg _ l2). pose proof (zlength_nonneg _ l).
    destruct (IHP eq_refl (Benign_prefix _ _ _ B) ltac:(lia)) as (W & LE & E).
    pose proof (WF_size _ _ _ W) as SZ. pose proof (physical_range (chunkSize c)).
    rewrite advance_exact in AD by lia. injection AD as <-.
    destruct (IHM eq_refl (Benign_suffix _ _ _ B) ltac:(lia) ltac:(lia)) as (W2 & T & BS & E2).
    split; [intros x [<-|I]; [exact W|apply W2; exact I]|]. split; [lia|]. split; [rewrite body_size_cons; lia|].
    intros N. cbn [flat_map]. rewrite <- E, <- E2; [reflexivity| |]; intros; apply N; simpl; auto.
Qed.
