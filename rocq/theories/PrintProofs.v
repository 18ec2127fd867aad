(** * Pretty printing: totality, and the text determines the tree *)

From Coq Require Import ZArith List Bool String Ascii Lia DecimalString DecimalZ Decimal.
From Coq Require Import Strings.Byte.
From Verif Require Import Machine Io Types Build Write Print Spec Lemmas RegProofs WriteProofs IdProofs CheckProofs CompareProofs ConfProofs UpdateProofs.
Import ListNotations.
Open Scope Z_scope.

(** ** Totality *)
Definition BlocksOk (c : chunk) : Prop := forall i s d, InTree (CRaw i s d) c -> s <= 0 \/ exists l, d = Some l /\ s <= zlength l.

Lemma print_total : forall rg app, Realises rg app -> forall c ft level, Typed app ft c -> BlocksOk c ->
  exists t, IFF_printChunk rg c level ft = Done t.
Proof.
  intros rg app RG. unfold Realises in RG.
  assert (KE : forall spec vals, kinds_match spec vals -> fkinds_eqb (map fst vals) (map fd_kind (fs_fields spec)) = true).
  { intros spec vals K. apply fkinds_eqb_spec. exact K. }
  assert (ALL : forall l ft level, (forall c, In c l -> forall level, exists t, IFF_printChunk rg c level ft = Done t) ->
    exists t, print_all (IFF_printChunk rg) l level ft = Done t).
  { induction l as [|c l IH]; intros ft level H; cbn [print_all]; [eauto|]. destruct (H c (or_introl eq_refl) level) as [t ->].
    cbn [obind]. destruct (IH ft level) as [t2 ->]; [intros; apply H; right; assumption|]. cbn [obind]. eauto. }
  assert (ARR : forall op l ft level, (forall c, In c l -> forall level, exists t, IFF_printChunk rg c level ft = Done t) ->
    exists t, print_array (IFF_printChunk rg) op l ft level = Done t).
  { intros op l ft level H. unfold print_array. destruct (ALL l ft (S level) H) as [t ->]. cbn [obind]. eauto. }
  assert (BB : forall i s d c, BlocksOk c -> c = CRaw i s d -> exists l, block_bytes d s = Done l).
  { intros i s d c B ->. unfold block_bytes. destruct (Z.leb_spec s 0) as [L|L]; [eauto|].
    destruct (B i s d (In_here _)) as [L0|(l & -> & G)]; [lia|]. rewrite (proj2 (Z.ltb_ge _ _)) by lia. eauto. }
  induction c as [i s d|i s g subs IH|i s g props subs IHp IHs|i s vals] using chunk_tree_ind; intros ft level T B; cbn [IFF_printChunk].
  - inversion T; subst. rewrite (RG ft (chunkId (CRaw i s d))). cbn [chunkId]. rewrite RegProofs.data_handler by assumption.
    match goal with H : app _ _ = None |- _ => rewrite H end. cbn [obind printExtensionChunk IFF_printRawChunk].
    destruct (BB i s d _ B eq_refl) as [l E]. unfold IFF_printText, IFF_printRaw. rewrite E. destruct (i =? IFF_ID_TEXT); cbn [obind]; eauto.
  - inversion T; subst. rewrite (RG ft (chunkId (CGroup i s g subs))). cbn [chunkId].
    match goal with H : In i _ |- _ => rename H into II end.
    assert (IG : In i group_ids) by (destruct II as [<-|[<-|[<-|[]]]]; unfold group_ids; simpl; tauto).
    rewrite RegProofs.group_handler by exact IG.
    assert (P : forall lv, exists t, print_array (IFF_printChunk rg) "[" subs g lv = Done t).
    { intro lv. apply ARR. intros c H level'. apply IH; [exact H|match goal with K : forall c, In c subs -> _ |- _ => apply K; exact H end|].
      intros j z d J. apply (B j z d). eapply In_group; eassumption. }
    destruct (P level) as [t E].
    destruct II as [<-|[<-|[<-|[]]]]; cbn [obind]; match goal with |- context [if ?a =? ?b then _ else _] => idtac | _ => idtac end;
      change (FORM_ID =? FORM_ID) with true; change (CAT_ID =? FORM_ID) with false; change (CAT_ID =? CAT_ID) with true;
      change (PROP_ID =? FORM_ID) with false; change (PROP_ID =? CAT_ID) with false; change (PROP_ID =? LIST_ID) with false;
      cbn [printExtensionChunk IFF_printGroup]; rewrite E; cbn [obind]; eauto.
  - inversion T; subst. rewrite (RG ft (chunkId (CList LIST_ID s g props subs))). cbn [chunkId].
    rewrite RegProofs.group_handler by (unfold group_ids; simpl; tauto).
    change (LIST_ID =? FORM_ID) with false. change (LIST_ID =? CAT_ID) with false. change (LIST_ID =? LIST_ID) with true.
    cbn [obind printExtensionChunk IFF_printList].
    destruct (ARR "prop = ["%string props g level) as [t1 ->].
    { intros c H level'. apply IHp; [exact H|match goal with K : forall c, In c props -> _ |- _ => apply K; exact H end|].
      intros j z d J. apply (B j z d). eapply In_list_prop; eassumption. }
    cbn [obind]. destruct (ARR "["%string subs g level) as [t2 ->].
    { intros c H level'. apply IHs; [exact H|match goal with K : forall c, In c subs -> _ |- _ => apply K; exact H end|].
      intros j z d J. apply (B j z d). eapply In_list_sub; eassumption. }
    cbn [obind]. eauto.
  - inversion T; subst. rewrite (RG ft (chunkId (CFields i s vals))). cbn [chunkId]. rewrite RegProofs.data_handler by assumption.
    match goal with H : app _ _ = Some _ |- _ => rewrite H end. cbn [obind printExtensionChunk print_fields_chunk].
    rewrite KE by assumption. cbn [obind]. eauto.
Qed.

(** ** Strings *)
Lemma str_assoc : forall a b c : string, ((a ++ b) ++ c)%string = (a ++ (b ++ c))%string.
Proof. induction a as [|x a IH]; intros; cbn; [reflexivity|]. rewrite IH. reflexivity. Qed.
Lemma str_cancel : forall a b c : string, (a ++ b)%string = (a ++ c)%string -> b = c.
Proof. induction a as [|x a IH]; cbn; intros b c H; [exact H|]. injection H as H. auto. Qed.
Lemma str_split : forall a1 a2 b1 b2 : string, String.length a1 = String.length a2 -> (a1 ++ b1)%string = (a2 ++ b2)%string -> a1 = a2 /\ b1 = b2.
Proof.
  induction a1 as [|x a1 IH]; intros [|y a2] b1 b2 L H; cbn in *; try discriminate; [auto|].
  injection L as L. injection H as -> H. destruct (IH _ _ _ L H) as [-> ->]. auto.
Qed.

(** Reading up to a semicolon. *)
Fixpoint no_semi (s : string) : Prop :=
  match s with EmptyString => True | String c r => c <> ";"%char /\ no_semi r end.
Lemma semi_split : forall a1 a2 b1 b2, no_semi a1 -> no_semi a2 ->
  (a1 ++ String ";" b1)%string = (a2 ++ String ";" b2)%string -> a1 = a2 /\ b1 = b2.
Proof.
  induction a1 as [|x a1 IH]; intros [|y a2] b1 b2 N1 N2 H; cbn in *.
  - injection H as H. auto.
  - injection H as E H. subst y. destruct N2 as [N2 _]. congruence.
  - injection H as E H. subst x. destruct N1 as [N1 _]. congruence.
  - injection H as E H. subst y. destruct N1 as [_ N1], N2 as [_ N2]. destruct (IH _ _ _ N1 N2 H) as [-> ->]. auto.
Qed.
Lemma uint_no_semi : forall d, no_semi (NilEmpty.string_of_uint d).
Proof. induction d; cbn [NilEmpty.string_of_uint no_semi]; auto; split; auto; discriminate. Qed.
Lemma uint0_no_semi : forall d, no_semi (NilZero.string_of_uint d).
Proof. intro d. unfold NilZero.string_of_uint. destruct d; try (apply uint_no_semi). cbn. split; [discriminate|exact I]. Qed.
Lemma dec_no_semi : forall z, no_semi (dec z).
Proof.
  intro z. unfold dec, NilZero.string_of_int. destruct (Z.to_int z); [apply uint0_no_semi|]. cbn. split; [discriminate|apply uint0_no_semi].
Qed.
Lemma little_nonnil : forall p, Pos.to_little_uint p <> Decimal.Nil.
Proof.
  induction p as [p IH|p IH|]; cbn [Pos.to_little_uint]; [| |discriminate];
    destruct (Pos.to_little_uint p) eqn:E; try contradiction; cbn; discriminate.
Qed.
Lemma to_int_nonnil : forall z, Z.to_int z <> Pos Nil /\ Z.to_int z <> Neg Nil.
Proof.
  intro z. assert (U : forall p, Pos.to_uint p <> Decimal.Nil).
  { intros p H. apply (little_nonnil p). unfold Pos.to_uint in H.
    assert (X : rev (rev (Pos.to_little_uint p)) = rev Nil) by (rewrite H; reflexivity). rewrite DecimalFacts.rev_rev in X. exact X. }
  destruct z; cbn; split; try discriminate; intros [= H]; exact (U _ H).
Qed.
Lemma dec_inj : forall a b, dec a = dec b -> a = b.
Proof.
  intros a b H. unfold dec in H. assert (X : NilZero.int_of_string (NilZero.string_of_int (Z.to_int a)) = NilZero.int_of_string (NilZero.string_of_int (Z.to_int b))) by (rewrite H; reflexivity).
  destruct (to_int_nonnil a), (to_int_nonnil b). rewrite !NilZero.isi in X by assumption. injection X as X.
  rewrite <- (DecimalZ.of_to a), <- (DecimalZ.of_to b), X. reflexivity.
Qed.

(** ** IDs, bytes *)
Lemma chr_eq : forall a b, byte_val a -> byte_val b -> chr a = chr b -> a = b.
Proof.
  intros a b A B H. unfold chr in H. injection H as H.
  assert (X : z2b a = z2b b) by (rewrite <- (byte_of_ascii_of_byte (z2b a)), <- (byte_of_ascii_of_byte (z2b b)), H; reflexivity).
  assert (Y : b2z (z2b a) = b2z (z2b b)) by (rewrite X; reflexivity). unfold byte_val in *. rewrite !b2z_z2b, !Z.mod_small in Y by lia. exact Y.
Qed.

Lemma printId_bytes : forall a b c d, byte_val a -> byte_val b -> byte_val c -> byte_val d ->
  IFF_printId (id4 a b c d) = (chr a ++ chr b ++ chr c ++ chr d)%string.
Proof.
  intros a b c d A B C D. destruct (id4_div a b c d A B C D) as (E1 & E2 & E3 & E4). unfold IFF_printId.
  change 0xff0000 with (255 * 2 ^ 16). change 0xff00 with (255 * 2 ^ 8).
  rewrite !land_field by lia. rewrite Z.shiftr_div_pow2, E1, E2, E3 by lia.
  change 0xff with (Z.ones 8). rewrite Z.land_ones by lia. change (2 ^ 8) with 256. rewrite E4. reflexivity.
Qed.
Lemma printId_length : forall i, String.length (IFF_printId i) = 4%nat.
Proof. reflexivity. Qed.
Lemma printId_inj : forall i j, in_range FId i -> in_range FId j -> IFF_printId i = IFF_printId j -> i = j.
Proof.
  intros i j I J H. destruct (id4_surj i I) as (a & b & c & d & A & B & C & D & ->).
  destruct (id4_surj j J) as (a2 & b2 & c2 & d2 & A2 & B2 & C2 & D2 & ->).
  rewrite !printId_bytes in H by assumption.
  apply str_split in H; [|reflexivity]. destruct H as [E1 H]. apply str_split in H; [|reflexivity]. destruct H as [E2 H].
  apply str_split in H; [|reflexivity]. destruct H as [E3 E4]. apply chr_eq in E1, E2, E3, E4; try assumption. congruence.
Qed.

Lemma text_length : forall l, String.length (text_of l) = List.length l.
Proof. induction l as [|b l IH]; cbn; [reflexivity|]. rewrite IH. reflexivity. Qed.
Lemma byte_string_inj : forall a b, byte_string a = byte_string b -> a = b.
Proof. intros a b H. injection H as H. rewrite <- (byte_of_ascii_of_byte a), <- (byte_of_ascii_of_byte b), H. reflexivity. Qed.
Lemma text_inj : forall a b, text_of a = text_of b -> a = b.
Proof.
  induction a as [|x a IH]; intros [|y b] H; try discriminate; [reflexivity|]. cbn [text_of] in H.
  apply str_split in H; [|reflexivity]. destruct H as [E H]. apply byte_string_inj in E. subst. f_equal. auto.
Qed.

(** Two digits for every byte. *)
Definition two_digits (b : byte) : string := ((if (b2z b <=? 0xf)%Z then "0" else "") ++ hex_byte b)%string.
Lemma two_digits_length : forall b, String.length (two_digits b) = 2%nat.
Proof. intro b. destruct b; reflexivity. Qed.
Definition of_digit (c : ascii) : Z := let n := Z.of_N (N_of_ascii c) in if n <? 58 then n - 48 else n - 87.
Definition of_digits (s : string) : Z := match s with String a (String b EmptyString) => 16 * of_digit a + of_digit b | _ => -1 end.
Lemma of_two_digits : forall b, of_digits (two_digits b) = b2z b.
Proof. intro b. destruct b; reflexivity. Qed.
Lemma two_digits_inj : forall a b, two_digits a = two_digits b -> a = b.
Proof.
  intros a b H. assert (X : of_digits (two_digits a) = of_digits (two_digits b)) by (rewrite H; reflexivity).
  rewrite !of_two_digits in X. apply b2z_inj. exact X.
Qed.

Lemma print_bytes_cons : forall b r i level, print_bytes (b :: r) i level =
  ((if ((0 <? i) && (i mod 10 =? 0))%Z then nl ++ indent (S level) else "") ++ two_digits b ++ " " ++ print_bytes r (i + 1) level)%string.
Proof.
  intros b r i level. cbn [print_bytes]. unfold two_digits, IFF_printIndent. rewrite !str_assoc.
  destruct ((0 <? i) && (i mod 10 =? 0)); [|reflexivity].
  assert (E : (indent (S level) ++ "")%string = indent (S level)) by (generalize (indent (S level)); intro s; induction s as [|c s IH]; cbn; congruence).
  rewrite E. reflexivity.
Qed.

Lemma print_bytes_inj : forall a b i level x y, List.length a = List.length b ->
  (print_bytes a i level ++ x)%string = (print_bytes b i level ++ y)%string -> a = b /\ x = y.
Proof.
  induction a as [|p a IH]; intros [|q b] i level x y L H; try discriminate; [auto|].
  rewrite !print_bytes_cons, !str_assoc in H. apply str_cancel in H. apply str_split in H; [|rewrite !two_digits_length; reflexivity].
  destruct H as [E H]. apply two_digits_inj in E. subst q. apply str_cancel in H. injection L as L.
  destruct (IH b (i + 1) level x y L H) as [-> ->]. auto.
Qed.
Lemma text_of_inj : forall a b x y, List.length a = List.length b -> (text_of a ++ x)%string = (text_of b ++ y)%string -> a = b /\ x = y.
Proof.
  intros a b x y L H. apply str_split in H; [|rewrite !text_length; exact L]. destruct H as [E ->]. apply text_inj in E. auto.
Qed.

(** ** The printed text determines the tree

    What is printed for trees without application chunks. *)
Definition type_name (i : Z) : string := if i =? CAT_ID then "contentsType" else "formType".
Fixpoint shown (c : chunk) (level : nat) {struct c} : string :=
  let all := fix all (l : list chunk) : string := match l with [] => "" | x :: r => shown x (S level) ++ all r end%string in
  (indent level ++ "'" ++ IFF_printId (chunkId c) ++ "' = {" ++ nl
   ++ indent (S level) ++ "chunkSize = " ++ dec (chunkSize c) ++ ";" ++ nl
   ++ match c with
      | CRaw i s d =>
          if (i =? TEXT_ID)%Z then indent level ++ "text = '" ++ nl ++ indent (S level) ++ text_of (data_of d) ++ nl ++ indent level ++ "';" ++ nl
          else indent level ++ "bytes = " ++ nl ++ indent (S level) ++ print_bytes (data_of d) 0 level ++ nl ++ indent level ++ ";" ++ nl
      | CGroup i _ g l =>
          indent level ++ type_name i ++ " = '" ++ IFF_printId g ++ "';" ++ nl ++ indent level ++ "[" ++ nl ++ all l ++ indent level ++ "];" ++ nl
      | CList _ _ g p l =>
          indent level ++ "contentsType = '" ++ IFF_printId g ++ "';" ++ nl ++ indent level ++ "prop = [" ++ nl ++ all p ++ indent level ++ "];" ++ nl
          ++ indent level ++ "[" ++ nl ++ all l ++ indent level ++ "];" ++ nl
      | CFields _ _ _ => ""
      end
   ++ indent level ++ "}" ++ nl ++ nl)%string.
Fixpoint shown_all (l : list chunk) (level : nat) : string :=
  match l with [] => "" | x :: r => shown x level ++ shown_all r level end%string.

Definition heading (c : chunk) (level : nat) : string :=
  ("'" ++ IFF_printId (chunkId c) ++ "' = {" ++ nl ++ indent (S level) ++ "chunkSize = " ++ dec (chunkSize c) ++ ";" ++ nl)%string.
Lemma shown_group : forall i s g l level, shown (CGroup i s g l) level =
  (indent level ++ heading (CGroup i s g l) level ++ indent level ++ type_name i ++ " = '" ++ IFF_printId g ++ "';" ++ nl ++ indent level ++ "[" ++ nl
   ++ shown_all l (S level) ++ indent level ++ "];" ++ nl ++ indent level ++ "}" ++ nl ++ nl)%string.
Proof.
  intros i s g l level. unfold heading. rewrite !str_assoc. cbn [shown].
  assert (E : forall l, (fix all (l : list chunk) : string := match l with [] => ""%string | x :: r => (shown x (S level) ++ all r)%string end) l = shown_all l (S level)).
  { induction l0 as [|x r IH]; [reflexivity|]. cbn [shown_all]. rewrite IH. reflexivity. }
  rewrite E, !str_assoc. reflexivity.
Qed.
Lemma shown_list : forall i s g p l level, shown (CList i s g p l) level =
  (indent level ++ heading (CList i s g p l) level ++ indent level ++ "contentsType = '" ++ IFF_printId g ++ "';" ++ nl ++ indent level ++ "prop = [" ++ nl
   ++ shown_all p (S level) ++ indent level ++ "];" ++ nl ++ indent level ++ "[" ++ nl
   ++ shown_all l (S level) ++ indent level ++ "];" ++ nl ++ indent level ++ "}" ++ nl ++ nl)%string.
Proof.
  intros i s g p l level. unfold heading. rewrite !str_assoc. cbn [shown].
  assert (E : forall l, (fix all (l : list chunk) : string := match l with [] => ""%string | x :: r => (shown x (S level) ++ all r)%string end) l = shown_all l (S level)).
  { induction l0 as [|x r IH]; [reflexivity|]. cbn [shown_all]. rewrite IH. reflexivity. }
  rewrite !E, !str_assoc. reflexivity.
Qed.
Lemma shown_raw : forall i s d level, shown (CRaw i s d) level =
  (indent level ++ heading (CRaw i s d) level
   ++ (if (i =? TEXT_ID)%Z then indent level ++ "text = '" ++ nl ++ indent (S level) ++ text_of (data_of d) ++ nl ++ indent level ++ "';" ++ nl
       else indent level ++ "bytes = " ++ nl ++ indent (S level) ++ print_bytes (data_of d) 0 level ++ nl ++ indent level ++ ";" ++ nl)
   ++ indent level ++ "}" ++ nl ++ nl)%string.
Proof. intros i s d level. unfold heading. rewrite !str_assoc. reflexivity. Qed.

Lemma str_nil : forall a : string, (a ++ "")%string = a.
Proof. induction a as [|x a IH]; cbn; [reflexivity|]. rewrite IH. reflexivity. Qed.

Lemma printed : forall rg, Realises rg no_apps -> forall c ft level, Typed no_apps ft c -> LeafData c ->
  IFF_printChunk rg c level ft = Done (shown c level).
Proof.
  intros rg RG. unfold Realises in RG.
  assert (ALL : forall l ft level, (forall c, In c l -> forall level, IFF_printChunk rg c level ft = Done (shown c level)) ->
    print_all (IFF_printChunk rg) l level ft = Done (shown_all l level)).
  { induction l as [|c l IH]; intros ft level H; cbn [print_all shown_all]; [reflexivity|]. rewrite (H c (or_introl eq_refl) level).
    cbn [obind]. rewrite IH by (intros; apply H; right; assumption). reflexivity. }
  induction c as [i s d|i s g subs IH|i s g props subs IHp IHs|i s vals] using chunk_tree_ind; intros ft level T B; cbn [IFF_printChunk].
  - inversion T; subst. rewrite (RG ft (chunkId (CRaw i s d))). cbn [chunkId]. rewrite RegProofs.data_handler by assumption.
    unfold no_apps. cbn [obind printExtensionChunk IFF_printRawChunk]. destruct (B _ (In_here _)) as (l & -> & <-).
    assert (E : block_bytes (Some l) (zlength l) = Done l).
    { unfold block_bytes. destruct (Z.leb_spec (zlength l) 0) as [L|L].
      - pose proof (zlength_nonneg _ l). destruct l; [reflexivity|]. unfold zlength in *. cbn in *. lia.
      - rewrite Z.ltb_irrefl, ztake_all by lia. reflexivity. }
    rewrite shown_raw. unfold IFF_printText, IFF_printRaw, IFF_printIndent, heading. change IFF_ID_TEXT with TEXT_ID. rewrite E.
    cbn [chunkId chunkSize data_of].
    destruct (i =? TEXT_ID); cbn [obind]; f_equal; rewrite !str_assoc, ?str_nil; reflexivity.
  - inversion T; subst. rewrite (RG ft (chunkId (CGroup i s g subs))). cbn [chunkId].
    match goal with H : In i _ |- _ => rename H into II end.
    assert (IG : In i group_ids) by (destruct II as [<-|[<-|[<-|[]]]]; unfold group_ids; simpl; tauto).
    rewrite RegProofs.group_handler by exact IG.
    assert (P : print_all (IFF_printChunk rg) subs (S level) g = Done (shown_all subs (S level))).
    { apply ALL. intros c H level'. apply IH; [exact H|match goal with K : forall c, In c subs -> _ |- _ => apply K; exact H end|].
      intros x X. apply B. eapply In_group; eassumption. }
    rewrite shown_group. unfold heading.
    destruct II as [<-|[<-|[<-|[]]]];
      change (FORM_ID =? FORM_ID) with true; change (CAT_ID =? FORM_ID) with false; change (CAT_ID =? CAT_ID) with true;
      change (PROP_ID =? FORM_ID) with false; change (PROP_ID =? CAT_ID) with false; change (PROP_ID =? LIST_ID) with false;
      cbn [obind printExtensionChunk IFF_printGroup]; unfold print_array; rewrite P; cbn [obind]; f_equal;
      unfold IFF_printGroupType, IFF_printIndent; cbn [chunkId chunkSize]; rewrite !str_assoc; reflexivity.
  - inversion T; subst. rewrite (RG ft (chunkId (CList LIST_ID s g props subs))). cbn [chunkId].
    rewrite RegProofs.group_handler by (unfold group_ids; simpl; tauto).
    change (LIST_ID =? FORM_ID) with false. change (LIST_ID =? CAT_ID) with false. change (LIST_ID =? LIST_ID) with true.
    cbn [obind printExtensionChunk IFF_printList]. unfold print_array.
    rewrite (ALL props g (S level)).
    2:{ intros c H level'. apply IHp; [exact H|match goal with K : forall c, In c props -> _ |- _ => apply K; exact H end|].
        intros x X. apply B. eapply In_list_prop; eassumption. }
    cbn [obind]. rewrite (ALL subs g (S level)).
    2:{ intros c H level'. apply IHs; [exact H|match goal with K : forall c, In c subs -> _ |- _ => apply K; exact H end|].
        intros x X. apply B. eapply In_list_sub; eassumption. }
    cbn [obind]. f_equal. rewrite shown_list. unfold heading, IFF_printGroupType, IFF_printIndent. cbn [chunkId chunkSize].
    rewrite !str_assoc. reflexivity.
  - inversion T; subst. discriminate.
Qed.

Definition determined (c1 : chunk) : Prop := forall c2 ft level t1 t2,
  Typed no_apps ft c1 -> Typed no_apps ft c2 -> Represented c1 -> Represented c2 -> LeafData c1 -> LeafData c2 ->
  (shown c1 level ++ t1)%string = (shown c2 level ++ t2)%string -> c1 = c2 /\ t1 = t2.

Lemma heading_inj : forall c1 c2 level t1 t2, in_range FId (chunkId c1) -> in_range FId (chunkId c2) ->
  (heading c1 level ++ t1)%string = (heading c2 level ++ t2)%string -> chunkId c1 = chunkId c2 /\ chunkSize c1 = chunkSize c2 /\ t1 = t2.
Proof.
  intros c1 c2 level t1 t2 R1 R2 H. unfold heading in H. rewrite !str_assoc in H. apply str_cancel in H.
  apply str_split in H; [|reflexivity]. destruct H as [E H]. apply printId_inj in E; try assumption. do 4 apply str_cancel in H.
  apply semi_split in H; [|apply dec_no_semi|apply dec_no_semi]. destruct H as [D H]. apply dec_inj in D. apply str_cancel in H. auto.
Qed.

Lemma indent_more : forall level x y, (indent level ++ String "]" x)%string <> (indent (S level) ++ y)%string.
Proof.
  intros level x y H. assert (E : forall n, indent (S n) = (indent n ++ "  ")%string).
  { induction n as [|n IH]; [reflexivity|]. change (indent (S (S n))) with ("  " ++ indent (S n))%string. rewrite IH at 1.
    change (indent (S n)) with ("  " ++ indent n)%string. rewrite str_assoc. reflexivity. }
  rewrite E, str_assoc in H. apply str_cancel in H. discriminate.
Qed.
Lemma shown_starts : forall c level, exists x, shown c level = (indent level ++ x)%string.
Proof. intros c level. destruct c; cbn [shown]; eexists; reflexivity. Qed.

Lemma shown_all_inj : forall l1 l2 ft level t1 t2, (forall c, In c l1 -> determined c) ->
  (forall c, In c l1 -> Typed no_apps ft c /\ Represented c /\ LeafData c) ->
  (forall c, In c l2 -> Typed no_apps ft c /\ Represented c /\ LeafData c) ->
  (shown_all l1 (S level) ++ indent level ++ String "]" t1)%string = (shown_all l2 (S level) ++ indent level ++ String "]" t2)%string ->
  l1 = l2 /\ t1 = t2.
Proof.
  induction l1 as [|a l1 IH]; intros [|b l2] ft level t1 t2 D H1 H2 H; cbn [shown_all] in H; rewrite ?str_assoc in H.
  - cbn [append] in H. apply str_cancel in H. injection H as ->. auto.
  - exfalso. destruct (shown_starts b (S level)) as [x E]. rewrite E, !str_assoc in H. exact (indent_more _ _ _ H).
  - exfalso. destruct (shown_starts a (S level)) as [x E]. rewrite E, !str_assoc in H. symmetry in H. exact (indent_more _ _ _ H).
  - destruct (H1 a (or_introl eq_refl)) as (A1 & A2 & A3). destruct (H2 b (or_introl eq_refl)) as (B1 & B2 & B3).
    destruct (D a (or_introl eq_refl) b ft (S level) _ _ A1 B1 A2 B2 A3 B3 H) as [-> X].
    destruct (IH l2 ft level t1 t2) as [-> ->]; auto; intros; [apply D|apply H1|apply H2]; right; assumption.
Qed.

Theorem shown_determines : forall c, determined c.
Proof.
  assert (LEN : forall l1 l2 : list byte, zlength l1 = zlength l2 -> List.length l1 = List.length l2) by (unfold zlength; intros; lia).
  assert (GID : forall i, In i [FORM_ID; CAT_ID; PROP_ID] -> In i group_ids) by (intros i [<-|[<-|[<-|[]]]]; unfold group_ids; simpl; tauto).
  assert (LID : In LIST_ID group_ids) by (unfold group_ids; simpl; tauto).
  assert (LNG : ~ In LIST_ID [FORM_ID; CAT_ID; PROP_ID]) by (vm_compute; intuition discriminate).
  induction c as [i s d|i s g subs IH|i s g props subs IHp IHs|i s vals] using chunk_tree_ind;
    intros c2 ft level t1 t2 T1 T2 R1 R2 L1 L2 H.
  4:{ inversion T1. discriminate. }
  - assert (HD : exists x y, shown (CRaw i s d) level = (indent level ++ heading (CRaw i s d) level ++ x)%string /\
      shown c2 level = (indent level ++ heading c2 level ++ y)%string).
    { rewrite shown_raw. destruct c2; rewrite ?shown_raw, ?shown_group, ?shown_list; eexists _, _; split; try reflexivity.
      unfold heading. cbn [shown]. rewrite !str_assoc. reflexivity. }
    pose proof H as H0. destruct HD as (x & y & E1 & E2). rewrite E1, E2, !str_assoc in H0. apply str_cancel in H0.
    apply heading_inj in H0; [|apply R1; constructor|apply R2; constructor]. destruct H0 as (EI & ES & _). clear x y E1 E2. cbn [chunkId chunkSize] in *.
    inversion T1; subst. inversion T2; subst; cbn [chunkId chunkSize] in *; subst; try contradiction; [|discriminate|exfalso; auto].
    destruct (L1 _ (In_here _)) as (l1 & -> & Z1). destruct (L2 _ (In_here _)) as (l2 & -> & Z2).
    rewrite !shown_raw, !str_assoc in H. apply str_cancel in H. unfold heading in H. cbn [chunkId chunkSize data_of] in H. apply str_cancel in H.
    assert (LL : List.length l1 = List.length l2) by (apply LEN; congruence).
    match type of H with context [if ?b then _ else _] => destruct b end; rewrite !str_assoc in H; do 4 apply str_cancel in H;
      [apply text_of_inj in H; [|exact LL]|apply print_bytes_inj in H; [|exact LL]]; destruct H as [-> H]; do 8 apply str_cancel in H; subst; auto.
  - assert (HD : exists x y, shown (CGroup i s g subs) level = (indent level ++ heading (CGroup i s g subs) level ++ x)%string /\
      shown c2 level = (indent level ++ heading c2 level ++ y)%string).
    { rewrite shown_group. destruct c2; rewrite ?shown_raw, ?shown_group, ?shown_list; eexists _, _; split; try reflexivity.
      unfold heading. cbn [shown]. rewrite !str_assoc. reflexivity. }
    pose proof H as H0. destruct HD as (x & y & E1 & E2). rewrite E1, E2, !str_assoc in H0. apply str_cancel in H0.
    apply heading_inj in H0; [|apply R1; constructor|apply R2; constructor]. destruct H0 as (EI & ES & _). clear x y E1 E2. cbn [chunkId chunkSize] in *.
    inversion T1; subst. inversion T2; subst; cbn [chunkId chunkSize] in *; subst; try (exfalso; auto; fail).
    rewrite !shown_group, !str_assoc in H. apply str_cancel in H. unfold heading in H. cbn [chunkId chunkSize] in H. do 4 apply str_cancel in H.
    apply str_split in H; [|reflexivity]. destruct H as [EG H]. do 5 apply str_cancel in H.
    apply printId_inj in EG; [|apply (R1 _ (In_here _)); reflexivity|apply (R2 _ (In_here _)); reflexivity]. subst.
    change (("];" ++ nl ++ indent level ++ "}" ++ nl ++ nl ++ t1)%string) with (String "]" (";" ++ nl ++ indent level ++ "}" ++ nl ++ nl ++ t1)) in H.
    change (("];" ++ nl ++ indent level ++ "}" ++ nl ++ nl ++ t2)%string) with (String "]" (";" ++ nl ++ indent level ++ "}" ++ nl ++ nl ++ t2)) in H.
    eapply shown_all_inj in H; [destruct H as [-> X]|exact IH| |].
    + do 6 apply str_cancel in X. auto.
    + intros c HI. split; [match goal with K : forall c, In c subs -> Typed _ _ _ |- _ => apply K; exact HI end|].
      split; intros x X; [apply R1|apply L1]; eapply In_group; eassumption.
    + intros c HI. split; [match goal with K : forall c, In c subs0 -> Typed _ _ _ |- _ => apply K; exact HI end|].
      split; intros x X; [apply R2|apply L2]; eapply In_group; eassumption.
  - assert (HD : exists x y, shown (CList i s g props subs) level = (indent level ++ heading (CList i s g props subs) level ++ x)%string /\
      shown c2 level = (indent level ++ heading c2 level ++ y)%string).
    { rewrite shown_list. destruct c2; rewrite ?shown_raw, ?shown_group, ?shown_list; eexists _, _; split; try reflexivity.
      unfold heading. cbn [shown]. rewrite !str_assoc. reflexivity. }
    pose proof H as H0. destruct HD as (x & y & E1 & E2). rewrite E1, E2, !str_assoc in H0. apply str_cancel in H0.
    apply heading_inj in H0; [|apply R1; constructor|apply R2; constructor]. destruct H0 as (EI & ES & _). clear x y E1 E2. cbn [chunkId chunkSize] in *.
    apply (Typed_list_inv no_apps) in T1. destruct T1 as (-> & P1 & S1).
    destruct c2 as [i2 s2 d2|i2 s2 g2 l2|i2 s2 g2 p2 l2|i2 s2 v2]; cbn [chunkId chunkSize] in *; subst i2 s2;
      try (exfalso; inversion T2; auto; fail).
    apply (Typed_list_inv no_apps) in T2. destruct T2 as (_ & P2 & S2).
    rewrite !shown_list, !str_assoc in H. apply str_cancel in H. unfold heading in H. cbn [chunkId chunkSize] in H. do 3 apply str_cancel in H.
    apply str_split in H; [|reflexivity]. destruct H as [EG H]. do 5 apply str_cancel in H.
    apply printId_inj in EG; [|apply (R1 _ (In_here _)); reflexivity|apply (R2 _ (In_here _)); reflexivity]. subst g2.
    match type of H with (shown_all ?a _ ++ _ ++ "];" ++ ?u)%string = (shown_all ?b _ ++ _ ++ "];" ++ ?v)%string =>
      destruct (shown_all_inj a b g level (";" ++ u) (";" ++ v) IHp) as [-> X] end.
    { intros c HI. split; [apply P1; exact HI|]. split; intros x X; [apply R1|apply L1]; eapply In_list_prop; eassumption. }
    { intros c HI. split; [apply P2; exact HI|]. split; intros x X; [apply R2|apply L2]; eapply In_list_prop; eassumption. }
    { exact H. }
    do 5 apply str_cancel in X.
    match type of X with (shown_all ?a _ ++ _ ++ "];" ++ ?u)%string = (shown_all ?b _ ++ _ ++ "];" ++ ?v)%string =>
      destruct (shown_all_inj a b g level (";" ++ u) (";" ++ v) IHs) as [-> Y] end.
    { intros c HI. split; [apply S1; exact HI|]. split; intros x Q; [apply R1|apply L1]; eapply In_list_sub; eassumption. }
    { intros c HI. split; [apply S2; exact HI|]. split; intros x Q; [apply R2|apply L2]; eapply In_list_sub; eassumption. }
    { exact X. }
    do 6 apply str_cancel in Y. auto.
Qed.
