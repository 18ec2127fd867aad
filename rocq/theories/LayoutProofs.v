(** * Proofs for C87: printing gives the lines of LayoutSpec.v *)

From Coq Require Import ZArith List Bool String Ascii Lia DecimalString DecimalFacts DecimalZ.
From Coq Require Import Strings.Byte.
From Verif Require Import Machine Io Types Build Write Print Spec Lemmas IoProofs RegProofs WriteProofs CheckProofs CompareProofs LayoutSpec PrintProofs.
Import ListNotations.
Open Scope Z_scope.

(** ** Decimal numbers *)
Lemma read_acc : forall u p, read_digits (Zpos p) (NilEmpty.string_of_uint u) = Some (Zpos (Pos.of_uint_acc u p)).
Proof. induction u; intro p; cbn [NilEmpty.string_of_uint Pos.of_uint_acc]; [reflexivity|..]; rewrite <- IHu; cbn [read_digits];
  match goal with |- context [value_of_digit ?a] => let v := eval vm_compute in (value_of_digit a) in change (value_of_digit a) with v end; cbv iota beta; f_equal; lia.
Qed.

Lemma read_uint : forall u, read_digits 0 (NilEmpty.string_of_uint u) = Some (Z.of_uint u).
Proof.
  induction u; [reflexivity|exact IHu|..]; cbn [NilEmpty.string_of_uint]; unfold Z.of_uint; cbn [Pos.of_uint Z.of_N]; rewrite <- read_acc; reflexivity.
Qed.

Lemma digits_uint : forall s acc n, read_digits acc s = Some n -> exists u, s = NilEmpty.string_of_uint u.
Proof.
  induction s as [|a s IH]; intros acc n H; [exists Decimal.Nil; reflexivity|]. cbn [read_digits] in H. destruct (value_of_digit a) as [v|] eqn:V; [|discriminate].
  destruct (IH _ _ H) as [u ->].
  assert (X : (a = "0" \/ a = "1" \/ a = "2" \/ a = "3" \/ a = "4" \/ a = "5" \/ a = "6" \/ a = "7" \/ a = "8" \/ a = "9")%char).
  { clear - V. destruct a as [[] [] [] [] [] [] [] []]; try discriminate V; tauto. }
  decompose [or] X; subst a;
    [exists (Decimal.D0 u)|exists (Decimal.D1 u)|exists (Decimal.D2 u)|exists (Decimal.D3 u)|exists (Decimal.D4 u)|exists (Decimal.D5 u)|exists (Decimal.D6 u)|exists (Decimal.D7 u)|exists (Decimal.D8 u)|exists (Decimal.D9 u)]; reflexivity.
Qed.

Lemma nzhead_not_zero : forall u x, Decimal.nzhead u <> Decimal.D0 x.
Proof. induction u; intro x; cbn [Decimal.nzhead]; try discriminate. apply IHu. Qed.

Lemma zero_string : forall u, NilEmpty.string_of_uint u = EmptyString -> u = Decimal.Nil.
Proof. intros []; intro H; [reflexivity|discriminate..]. Qed.

Lemma not_zero_head : forall u, (forall r, NilEmpty.string_of_uint u <> String "0" r) -> Decimal.nzhead u = u.
Proof. intros []; intro H; try reflexivity. exfalso. exact (H _ eq_refl). Qed.

Lemma of_uint_nonneg : forall u, 0 <= Z.of_uint u.
Proof. intro u. unfold Z.of_uint. destruct (Pos.of_uint u); cbn; lia. Qed.

Lemma dec_decimal : forall n, Decimal (dec n) n.
Proof.
  intro n. unfold dec. pose proof (of_to n) as V. pose proof (to_of (Z.to_int n)) as NM. rewrite V in NM. destruct (Z.to_int n) as [u|u] eqn:D; cbn [Z.of_int] in V; cbn [Decimal.norm] in NM.
  - right. injection NM as NM. unfold NilZero.string_of_int, NilZero.string_of_uint. assert (NN : u <> Decimal.Nil) by (intros ->; discriminate NM).
    assert (E : match u with Decimal.Nil => "0"%string | _ => NilEmpty.string_of_uint u end = NilEmpty.string_of_uint u) by (destruct u; [congruence|reflexivity..]).
    rewrite E. split; [rewrite <- V; apply of_uint_nonneg|]. split; [rewrite read_uint, V; reflexivity|]. split; [intro X; apply NN, zero_string, X|].
    intros r X. destruct u; cbn in X; try discriminate. injection X as <-. unfold Decimal.unorm in NM. cbn [Decimal.nzhead] in NM. destruct (Decimal.nzhead u) eqn:Z0; try discriminate; [injection NM as ->; reflexivity|]. exfalso. exact (nzhead_not_zero _ _ Z0).
  - left. destruct (Decimal.nzhead u) eqn:NZ; try discriminate.
    1: exfalso; exact (nzhead_not_zero _ _ NZ).
    all: injection NM as NM; assert (NN : u <> Decimal.Nil) by (rewrite NM; discriminate); exists (NilEmpty.string_of_uint u);
      (split; [unfold NilZero.string_of_int, NilZero.string_of_uint; rewrite NM; reflexivity|]);
      (assert (NE : Z.of_uint u <> 0); [rewrite NM; discriminate|]); pose proof (of_uint_nonneg u);
      (split; [lia|]); (split; [rewrite read_uint; f_equal; lia|]); intros r X; rewrite NM in X; discriminate X.
Qed.

Lemma decimal_dec : forall s n, Decimal s n -> s = dec n.
Proof.
  intros s n [(t & -> & L & R & Z)|(L & R & N & Z)]; destruct (digits_uint _ _ _ R) as [u ->]; rewrite read_uint in R; injection R as R; unfold dec.
  - assert (E : n = Z.of_int (Decimal.Neg u)) by (cbn; lia). rewrite E, to_of. cbn [Decimal.norm]. rewrite (not_zero_head u Z).
    assert (NN : u <> Decimal.Nil) by (intros ->; cbn in R; lia). destruct u; [congruence|reflexivity..].
  - assert (E : n = Z.of_int (Decimal.Pos u)) by (cbn; lia). rewrite E, to_of. cbn [Decimal.norm].
    assert (U : Decimal.unorm u = u).
    { unfold Decimal.unorm. destruct u; try reflexivity; [exfalso; apply N; reflexivity|]. cbn [NilEmpty.string_of_uint] in Z. specialize (Z _ eq_refl). apply zero_string in Z. subst u. reflexivity. }
    rewrite U. destruct u; [exfalso; apply N; reflexivity|reflexivity..].
Qed.

(** ** IDs, indentation, bytes *)
Lemma id_named : forall id, IFF_printId id = id_name id.
Proof.
  intro id. unfold IFF_printId, id_name, be32. cbn [verbatim].
  assert (E : forall x y, x mod 256 = y mod 256 -> chr x = chr y) by (intros x y H; unfold chr; rewrite (z2b_eq x y H); reflexivity).
  assert (K : forall k m, 0 <= k -> m = Z.shiftl 255 k -> chr (Z.shiftr (Z.land id m) k) = chr (id / 2 ^ k)).
  { intros k m K ->. apply E. rewrite land_byte by assumption. rewrite Z.shiftr_div_pow2 by assumption. rewrite Z.div_mul by (apply Z.pow_nonzero; lia). change (2 ^ 8) with 256. apply Z.mod_mod. lia. }
  rewrite (K 8), (K 16) by (lia || reflexivity). rewrite Z.shiftr_div_pow2 by lia.
  replace (chr (Z.land id 255)) with (chr id); [reflexivity|]. symmetry. apply E. change 255 with (Z.shiftl 255 0). rewrite land_byte by lia.
  rewrite Z.pow_0_r, Z.div_1_r, Z.mul_1_r. change (2 ^ 8) with 256. apply Z.mod_mod. lia.
Qed.

Lemma indent_spaces : forall d, indent d = spaces (2 * d).
Proof. induction d as [|d IH]; [reflexivity|]. replace (2 * S d)%nat with (S (S (2 * d))) by lia. cbn [indent spaces]. rewrite IH. reflexivity. Qed.

Lemma text_verbatim : forall l, text_of l = verbatim l.
Proof. induction l as [|b l IH]; [reflexivity|]. cbn [text_of verbatim]. rewrite IH. reflexivity. Qed.

Lemma two_digits : forall b, ((if (b2z b <=? 0xf)%Z then "0" else "") ++ hex_byte b)%string = (digit (b2z b / 16) ++ digit (b2z b mod 16))%string.
Proof. intros []; reflexivity. Qed.

Definition sep (lv : nat) : string := (nl ++ indent (S lv))%string.

Lemma print_bytes_cons : forall b l i lv, print_bytes (b :: l) i lv =
  ((if ((0 <? i) && (i mod 10 =? 0))%Z then sep lv else "") ++ digit (b2z b / 16) ++ digit (b2z b mod 16) ++ " " ++ print_bytes l (i + 1) lv)%string.
Proof.
  intros b l i lv. cbn [print_bytes]. unfold sep, IFF_printIndent. rewrite <- (str_assoc _ (hex_byte b)), two_digits, !str_assoc.
  destruct ((0 <? i) && (i mod 10 =? 0)); rewrite ?str_assoc; reflexivity.
Qed.

Lemma print_bytes_shift : forall l i lv, 0 < i -> print_bytes l (i + 10) lv = print_bytes l i lv.
Proof.
  induction l as [|b l IH]; intros i lv P; [reflexivity|]. rewrite !print_bytes_cons. replace (i + 10 + 1) with (i + 1 + 10) by lia. rewrite IH by lia.
  replace ((i + 10) mod 10) with (i mod 10) by (replace (i + 10) with (i + 1 * 10) by lia; rewrite Z.mod_add; lia).
  replace (0 <? i + 10) with (0 <? i); [reflexivity|]. destruct (Z.ltb_spec 0 i), (Z.ltb_spec 0 (i + 10)); lia || reflexivity.
Qed.

Lemma print_row : forall r l i lv, 0 <= i < 10 -> i + zlength r <= 10 -> print_bytes (r ++ l) i lv = (dump r ++ print_bytes l (i + zlength r) lv)%string.
Proof.
  induction r as [|b r IH]; intros l i lv I L.
  - cbn [Datatypes.app dump]. unfold zlength. cbn. rewrite Z.add_0_r. reflexivity.
  - change ((b :: r) ++ l) with (b :: (r ++ l)). rewrite print_bytes_cons. assert (Z1 : zlength (b :: r) = 1 + zlength r) by (unfold zlength; cbn [List.length]; lia). rewrite Z1 in *.
    assert (NN : 0 <= zlength r) by (unfold zlength; lia).
    replace ((0 <? i) && (i mod 10 =? 0)) with false.
    2:{ rewrite Z.mod_small by lia. destruct (Z.ltb_spec 0 i), (Z.eqb_spec i 0); lia || reflexivity. }
    cbn [dump]. destruct (Z.eq_dec i 9) as [->|NE].
    + assert (R0 : r = []) by (destruct r; [reflexivity|unfold zlength in L; cbn [List.length] in L; lia]). subst r. cbn [Datatypes.app dump]. change (zlength (@nil byte)) with 0. rewrite !str_assoc. reflexivity.
    + rewrite IH by lia. replace (i + (1 + zlength r)) with (i + 1 + zlength r) by lia. rewrite !str_assoc. reflexivity.
Qed.

Lemma print_bytes_ten : forall l lv, l <> [] -> print_bytes l 10 lv = (sep lv ++ print_bytes l 0 lv)%string.
Proof.
  intros [|b l] lv N; [congruence|]. rewrite !print_bytes_cons. change (10 + 1) with (1 + 10). rewrite print_bytes_shift by lia. reflexivity.
Qed.

Fixpoint joined_rows (lv : nat) (rs : list (list byte)) : string :=
  match rs with [] => EmptyString | r :: more => (dump r ++ match more with [] => "" | _ => sep lv ++ joined_rows lv more end)%string end.

Lemma printed_rows : forall l rs lv, Rows l rs -> print_bytes l 0 lv = joined_rows lv rs.
Proof.
  intros l rs lv R. induction R as [l L|r l rs L N R IH]; cbn [joined_rows].
  - rewrite <- (List.app_nil_r l) at 1. rewrite print_row by (unfold zlength; lia). reflexivity.
  - rewrite print_row by (unfold zlength; lia). replace (0 + zlength r) with 10 by (unfold zlength; lia). rewrite print_bytes_ten by exact N. rewrite IH. destruct R; reflexivity.
Qed.

Lemma rows_exist : forall n l, (List.length l <= n)%nat -> exists rs, Rows l rs.
Proof.
  induction n as [|n IH]; intros l L.
  - exists [l]. constructor. lia.
  - destruct (Nat.leb_spec (List.length l) 10) as [S|S]; [exists [l]; constructor; exact S|].
    destruct (IH (skipn 10 l)) as [rs R]; [rewrite skipn_length; lia|]. exists (firstn 10 l :: rs). rewrite <- (firstn_skipn 10 l) at 1. constructor; [rewrite firstn_length; lia| |exact R].
    intro E. apply (f_equal (@List.length _)) in E. rewrite skipn_length in E. cbn in E. lia.
Qed.

(** ** Lines *)
Lemma lines_app : forall a b, text_of_lines (a ++ b) = (text_of_lines a ++ text_of_lines b)%string.
Proof. induction a as [|[d s] a IH]; intro b; [reflexivity|]. cbn [Datatypes.app text_of_lines]. rewrite IH, !str_assoc. reflexivity. Qed.
Lemma lines_cons : forall d s r, text_of_lines ((d, s) :: r) = (indent d ++ s ++ nl ++ text_of_lines r)%string.
Proof. intros. cbn [text_of_lines]. rewrite indent_spaces. reflexivity. Qed.

Lemma rows_lines : forall d l rs, Rows l rs -> (indent (S d) ++ joined_rows d rs ++ nl)%string = text_of_lines (map (fun r => (S d, dump r)) rs).
Proof.
  intros d l rs R. induction R as [l L|r l rs L N R IH]; cbn [map joined_rows]; rewrite lines_cons.
  - cbn [text_of_lines]. rewrite str_nil. reflexivity.
  - rewrite <- IH. destruct R; unfold sep; rewrite !str_assoc; reflexivity.
Qed.

Lemma fields_lines : forall d ds vals, print_fields ds vals d =
  text_of_lines (map (fun x : fdesc * (fkind * Z) => (d, (fd_name (fst x) ++ " = " ++ fd_print (fst x) (snd (snd x)) ++ ";")%string)) (combine ds vals)).
Proof.
  induction ds as [|f ds IH]; intros [|[k v] vals]; try reflexivity. cbn [print_fields combine map]. rewrite lines_cons, IH. cbn [fst snd]. unfold IFF_printIndent. rewrite !str_assoc. reflexivity.
Qed.

Lemma declared_bytes : forall s d l, Declared s d l -> block_bytes d s = Done l.
Proof.
  intros s d l [[L ->]|(more & -> & <-)]; unfold block_bytes; [rewrite (proj2 (Z.leb_le _ _) L); reflexivity|].
  destruct (Z.leb_spec (zlength l) 0) as [L|L].
  - destruct l; [reflexivity|unfold zlength in L; cbn [List.length] in L; lia].
  - replace (zlength (l ++ more) <? zlength l) with false by (symmetry; apply Z.ltb_ge; unfold zlength; rewrite List.app_length; lia). f_equal.
    clear. induction l as [|b l IH]; [destruct more; reflexivity|]. cbn [Datatypes.app ztake]. destruct (Z.leb_spec (zlength (b :: l)) 0) as [X|X]; [unfold zlength in X; cbn [List.length] in X; lia|].
    f_equal. replace (zlength (b :: l) - 1) with (zlength l) by (unfold zlength; cbn [List.length]; lia). exact IH.
Qed.

Lemma declared_exist : forall s d, (s <= 0 \/ exists l, d = Some l /\ s <= zlength l) -> exists l, Declared s d l.
Proof.
  intros s d [L|(l & -> & L)]; [exists []; left; auto|]. destruct (Z.leb_spec s 0) as [S|S]; [exists []; left; auto|].
  exists (ztake s l). right. exists (zdrop s l). split; [rewrite ztake_zdrop; reflexivity|]. rewrite zlength_ztake; lia.
Qed.

(** ** The printer prints the document *)
Section Printer.
  Variables (rg : option registry) (app : apps).
  Hypothesis RG : Realises rg app.

  Scheme Doc_mut := Induction for Doc Sort Prop
  with Body_mut := Induction for Body Sort Prop
  with Docs_mut := Induction for Docs Sort Prop.

  Lemma group_typed : forall ft i s g l, Typed app ft (CGroup i s g l) -> exists h, find_handler rg ft i = Done h /\
    (forall pr lv, printExtensionChunk pr h (CGroup i s g l) lv = IFF_printGroup pr (CGroup i s g l) lv (type_label i)).
  Proof.
    intros ft i s g l T. inversion T; subst. match goal with H : In i _ |- _ => rename H into II end. eexists. split; [apply RG|]. intros pr lv.
    rewrite RegProofs.group_handler by (destruct II as [<-|[<-|[<-|[]]]]; unfold group_ids; simpl; tauto). destruct II as [<-|[<-|[<-|[]]]]; reflexivity.
  Qed.

  Lemma doc_printed : forall ft d c ls, Doc app ft d c ls -> Typed app ft c -> IFF_printChunk rg c d ft = Done (text_of_lines ls).
  Proof.
    apply (Doc_mut app (fun ft d c ls _ => Typed app ft c -> IFF_printChunk rg c d ft = Done (text_of_lines ls))
      (fun ft d c ls _ => Typed app ft c -> (h <-o find_handler rg ft (chunkId c) ;; printExtensionChunk (IFF_printChunk rg) h c d) = Done (text_of_lines ls))
      (fun ft d l ls _ => (forall c, In c l -> Typed app ft c) -> print_all (IFF_printChunk rg) l d ft = Done (text_of_lines ls))).
    - intros ft d c size body DE B IH T. specialize (IH T). rewrite (decimal_dec _ _ DE). destruct c; cbn [IFF_printChunk];
        (destruct (find_handler rg ft _) as [h|u|]; try discriminate IH; cbn [obind] in IH |- *; rewrite IH; cbn [obind]; f_equal; rewrite !lines_cons, lines_app, !lines_cons, id_named; unfold IFF_printIndent; cbn [text_of_lines indent]; rewrite !str_assoc; reflexivity).
    - intros ft d s data l DE T. inversion T; subst. rewrite RG. cbn [chunkId]. rewrite RegProofs.data_handler by assumption.
      match goal with H : app _ _ = None |- _ => rewrite H end. cbn [obind printExtensionChunk IFF_printRawChunk]. change (TEXT_ID =? IFF_ID_TEXT) with true. cbv iota.
      unfold IFF_printText. rewrite (declared_bytes _ _ _ DE). cbn [obind]. f_equal. rewrite !lines_cons, text_verbatim. unfold IFF_printIndent. cbn [text_of_lines]. rewrite !str_assoc, !str_nil. reflexivity.
    - intros ft d i s data l rows NT DE R T. inversion T; subst. rewrite RG. cbn [chunkId]. rewrite RegProofs.data_handler by assumption.
      match goal with H : app _ _ = None |- _ => rewrite H end. cbn [obind printExtensionChunk IFF_printRawChunk]. change IFF_ID_TEXT with TEXT_ID. rewrite (proj2 (Z.eqb_neq _ _) NT).
      unfold IFF_printRaw. rewrite (declared_bytes _ _ _ DE). cbn [obind]. f_equal. rewrite lines_cons, lines_app, <- (rows_lines d l rows R), (printed_rows l rows d R), lines_cons.
      unfold IFF_printIndent. cbn [text_of_lines]. rewrite !str_assoc, !str_nil. reflexivity.
    - intros ft d i s vals spec AP T. inversion T; subst. rewrite RG. cbn [chunkId]. rewrite RegProofs.data_handler by assumption.
      match goal with H : app ft i = Some ?x, K : kinds_match ?x _ |- _ => rewrite AP in H; injection H as <-; rename K into KM end. rewrite AP. cbn [obind printExtensionChunk print_fields_chunk].
      rewrite (proj2 (fkinds_eqb_spec _ _) KM). f_equal. apply fields_lines.
    - intros ft d i s g l docs DS IH T. destruct (group_typed ft i s g l T) as (h & F & P). cbn [chunkId]. rewrite F. cbn [obind]. rewrite P. cbn [IFF_printGroup]. unfold print_array.
      rewrite IH by (inversion T; subst; assumption). cbn [obind]. f_equal. rewrite !lines_cons, lines_app, lines_cons, <- id_named. unfold IFF_printGroupType, IFF_printIndent. cbn [text_of_lines]. rewrite !str_assoc, str_nil. reflexivity.
    - intros ft d i s g p l pdocs docs DP IHp DL IHl T. inversion T; subst. rewrite RG. cbn [chunkId]. rewrite RegProofs.group_handler by (unfold group_ids; simpl; tauto).
      change (LIST_ID =? FORM_ID) with false. change (LIST_ID =? CAT_ID) with false. change (LIST_ID =? LIST_ID) with true. cbn [obind printExtensionChunk IFF_printList]. unfold print_array.
      rewrite IHp by (intros c I; match goal with H : forall c, In c p -> _ |- _ => apply (H c I) end). cbn [obind].
      rewrite IHl by assumption. cbn [obind]. f_equal. rewrite !lines_cons, lines_app, !lines_cons, lines_app, lines_cons, <- id_named.
      unfold IFF_printGroupType, IFF_printIndent. cbn [text_of_lines]. rewrite !str_assoc, str_nil. reflexivity.
    - reflexivity.
    - intros ft d c l doc docs D IH DS IHs T. cbn [print_all]. rewrite IH by (apply T; left; reflexivity). cbn [obind]. rewrite IHs by (intros; apply T; right; assumption). cbn [obind]. rewrite lines_app. reflexivity.
  Qed.

  Lemma doc_exists : forall c ft d, Typed app ft c -> BlocksOk c -> exists ls, Doc app ft d c ls.
  Proof.
    assert (X : forall ft d c body, Body app ft d c body -> exists ls, Doc app ft d c ls) by (intros ft d c body Y; eexists; econstructor; [apply dec_decimal|exact Y]).
    assert (ALL : forall l ft, (forall c, In c l -> forall d, exists ls, Doc app ft d c ls) -> forall d, exists ls, Docs app ft d l ls).
    { induction l as [|c l IH]; intros ft H d; [eexists; constructor|]. destruct (H c (or_introl eq_refl) d) as [a A]. destruct (IH ft (fun c I => H c (or_intror I)) d) as [b B]. eexists. econstructor; eassumption. }
    induction c as [i s x|i s g subs IH|i s g props subs IHp IHs|i s vals] using chunk_tree_ind; intros ft d T B.
    - destruct (declared_exist s x (B i s x (In_here _))) as [l DE]. destruct (Z.eq_dec i TEXT_ID) as [->|NT]; [eapply X; constructor; exact DE|].
      destruct (rows_exist _ l (le_n _)) as [rs R]. eapply X. eapply B_bytes; eassumption.
    - destruct (ALL subs g) with (d := S d) as [docs DS].
      { intros c I d'. apply IH; [exact I|inversion T; subst; auto|]. intros j z y J. apply (B j z y). eapply In_group; eassumption. }
      eapply X. constructor. exact DS.
    - inversion T; subst. destruct (ALL props g) with (d := S d) as [pd DP].
      { intros c I d'. apply IHp; [exact I|match goal with H : forall c, In c props -> _ |- _ => apply (H c I) end|]. intros j z y J. apply (B j z y). eapply In_list_prop; eassumption. }
      destruct (ALL subs g) with (d := S d) as [docs DS].
      { intros c I d'. apply IHs; [exact I|auto|]. intros j z y J. apply (B j z y). eapply In_list_sub; eassumption. }
      eapply X. constructor; eassumption.
    - inversion T; subst. eapply X. econstructor. eassumption.
  Qed.
End Printer.

(** ** There is only one such document *)
Lemma declared_one : forall s d l1 l2, Declared s d l1 -> Declared s d l2 -> l1 = l2.
Proof. intros s d l1 l2 A B. apply declared_bytes in A, B. congruence. Qed.

Lemma rows_one : forall l r1, Rows l r1 -> forall r2, Rows l r2 -> r1 = r2.
Proof.
  intros l r1 R. induction R as [l L|r l rs L N R IH]; intros r2 Q; inversion Q as [l' L'|r' l' rs' L' N' R']; subst.
  - reflexivity.
  - exfalso. rewrite List.app_length in L. destruct l'; [congruence|cbn in L; lia].
  - exfalso. rewrite List.app_length in L'. destruct l; [congruence|cbn in L'; lia].
  - match goal with H : _ ++ _ = _ ++ _ |- _ => rename H into E end.
    assert (X : forall (a b c d : list byte), List.length a = List.length b -> a ++ c = b ++ d -> a = b /\ c = d).
    { clear. induction a as [|x a IH]; intros [|y b] c d L E; cbn in *; try discriminate; [auto|]. injection E as -> E. injection L as L. destruct (IH _ _ _ L E) as [-> ->]. auto. }
    destruct (X _ _ _ _ (eq_trans L' (eq_sym L)) E) as [-> ->]. f_equal. apply IH. exact R'.
Qed.

Lemma doc_one : forall app ft d c l1, Doc app ft d c l1 -> forall l2, Doc app ft d c l2 -> l1 = l2.
Proof.
  intros app.
  apply (Doc_mut app (fun ft d c l1 _ => forall l2, Doc app ft d c l2 -> l1 = l2) (fun ft d c l1 _ => forall l2, Body app ft d c l2 -> l1 = l2) (fun ft d l l1 _ => forall l2, Docs app ft d l l2 -> l1 = l2)).
  - intros ft d c size body DE B IH l2 D. inversion D; subst. match goal with H : Decimal _ _ |- _ => apply decimal_dec in H; subst end. apply decimal_dec in DE. subst size.
    match goal with H : Body _ _ _ _ _ |- _ => rewrite (IH _ H) end. reflexivity.
  - intros ft d s data l DE l2 B. inversion B; subst; [|congruence]. match goal with H : Declared _ _ ?x |- _ => rewrite (declared_one _ _ _ _ DE H) end. reflexivity.
  - intros ft d i s data l rows NT DE R l2 B. inversion B; subst; [congruence|]. match goal with H : Declared _ _ ?x |- _ => rewrite <- (declared_one _ _ _ _ DE H) in * end.
    match goal with H : Rows _ ?x |- _ => rewrite (rows_one _ _ R _ H) end. reflexivity.
  - intros ft d i s vals spec AP l2 B. inversion B; subst. congruence.
  - intros ft d i s g l docs DS IH l2 B. inversion B; subst. match goal with H : Docs _ _ _ _ _ |- _ => rewrite (IH _ H) end. reflexivity.
  - intros ft d i s g p l pdocs docs DP IHp DL IHl l2 B. inversion B; subst. f_equal. f_equal. f_equal; [|do 3 f_equal]; auto.
  - intros ft d l2 D. inversion D. reflexivity.
  - intros ft d c l doc docs D IH DS IHs l2 X. inversion X; subst. f_equal; auto.
Qed.
