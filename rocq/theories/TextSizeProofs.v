(** * How many characters the text of a tree takes (proofs for C97) *)

From Coq Require Import ZArith List Bool String Ascii Lia.
From Coq Require Import Strings.Byte.
From Verif Require Import Machine Io Types Spec Lemmas EncodeProofs Grammar HeapProofs LayoutSpec TextSizeSpec.
Import ListNotations.
Open Scope Z_scope.

Definition chars (s : string) : Z := Z.of_nat (String.length s).
Lemma chars_app : forall a b, chars (a ++ b) = chars a + chars b.
Proof. intros a b. unfold chars. induction a as [|x a IH]; [reflexivity|]. cbn [append String.length]. lia. Qed.
Lemma chars_nonneg : forall s, 0 <= chars s.
Proof. intro s. unfold chars. lia. Qed.
Lemma chars_spaces : forall n, chars (spaces n) = Z.of_nat n.
Proof. unfold chars. induction n as [|n IH]; [reflexivity|]. cbn [spaces String.length]. lia. Qed.
Lemma chars_verbatim : forall l, chars (verbatim l) = zlength l.
Proof. unfold chars, zlength. induction l as [|b l IH]; [reflexivity|]. cbn [verbatim String.length List.length]. lia. Qed.
Lemma chars_id : forall i, chars (id_name i) = 4.
Proof. intro i. unfold id_name. rewrite chars_verbatim. reflexivity. Qed.

Lemma chars_line : forall d s r, chars (text_of_lines ((d, s) :: r)) = 2 * Z.of_nat d + chars s + 1 + chars (text_of_lines r).
Proof. intros d s r. cbn [text_of_lines]. rewrite !chars_app, chars_spaces. unfold chars. cbn [String.length]. lia. Qed.
Lemma chars_lines : forall a b, chars (text_of_lines (a ++ b)) = chars (text_of_lines a) + chars (text_of_lines b).
Proof. induction a as [|[d s] a IH]; intro b; [reflexivity|]. rewrite <- app_comm_cons, !chars_line, IH. lia. Qed.
Lemma chars_nil : chars (text_of_lines []) = 0.
Proof. reflexivity. Qed.
Lemma chars_last : chars (text_of_lines (@nil (nat * string))) = 0.
Proof. reflexivity. Qed.

(** ** Numbers *)
Lemma digits_grow : forall s acc n, 0 <= acc -> read_digits acc s = Some n -> acc * 10 ^ chars s <= n.
Proof.
  induction s as [|a s IH]; intros acc n A H; cbn [read_digits] in H.
  - injection H as <-. change (chars "") with 0. lia.
  - unfold value_of_digit in H. cbv zeta in H. destruct ((48 <=? Z.of_nat (nat_of_ascii a)) && (Z.of_nat (nat_of_ascii a) <=? 57)) eqn:E; [|discriminate H].
    apply andb_true_iff in E. destruct E as [E1 E2]. apply IH in H; [|lia].
    change (String a s) with (String a "" ++ s)%string. rewrite chars_app. change (chars (String a "")) with 1. rewrite Z.pow_add_r by (pose proof (chars_nonneg s); lia).
    pose proof (Z.pow_nonneg 10 (chars s) ltac:(lia)). nia.
Qed.
Lemma short_digits : forall s n, n < 10 ^ 10 -> read_digits 0 s = Some n -> (forall r, s = String "0" r -> r = EmptyString) -> chars s <= 10.
Proof.
  intros s n L H Z0. destruct s as [|a s]; [unfold chars; cbn; lia|]. cbn [read_digits] in H. unfold value_of_digit in H. cbv zeta in H.
  destruct ((48 <=? Z.of_nat (nat_of_ascii a)) && (Z.of_nat (nat_of_ascii a) <=? 57)) eqn:E; [|discriminate H]. apply andb_true_iff in E. destruct E as [E1 E2].
  change (String a s) with (String a "" ++ s)%string. rewrite chars_app. change (chars (String a "")) with 1.
  destruct (Z.eq_dec (Z.of_nat (nat_of_ascii a)) 48) as [D|D].
  - assert (a = "0"%char) as -> by (rewrite <- (ascii_nat_embedding a); replace (nat_of_ascii a) with 48%nat by lia; reflexivity).
    rewrite (Z0 s eq_refl). unfold chars. cbn. lia.
  - apply digits_grow in H; [|lia]. assert (10 ^ chars s < 10 ^ 10) by (pose proof (Z.pow_nonneg 10 (chars s) ltac:(lia)); nia).
    pose proof (chars_nonneg s). apply Z.pow_lt_mono_r_iff in H0; lia.
Qed.
Lemma short_number : forall s n, Decimal s n -> in_range FLong n -> chars s <= 11.
Proof.
  intros s n D R. cbv [in_range] in R. cbn in R. destruct D as [(t & -> & N & H & NZ)|(N & H & NE & NZ)].
  - change (String "-" t) with ("-" ++ t)%string. rewrite chars_app. change (chars "-") with 1. enough (chars t <= 10) by lia.
    apply (short_digits t (- n)); [lia|exact H|]. intros r E. destruct (NZ r E).
  - enough (chars s <= 10) by lia. apply (short_digits s n); [lia|exact H|exact NZ].
Qed.

(** ** Bytes *)
Lemma chars_digit : forall n, chars (digit n) <= 1.
Proof. intro n. unfold digit. destruct (String.get _ _); unfold chars; cbn; lia. Qed.
Lemma chars_dump : forall l, chars (dump l) <= 3 * zlength l.
Proof.
  induction l as [|b l IH]; [unfold chars; cbn; lia|]. cbn [dump]. rewrite !chars_app. pose proof (chars_digit (b2z b / 16)). pose proof (chars_digit (b2z b mod 16)).
  change (chars " ") with 1. unfold zlength in *. cbn [List.length]. lia.
Qed.
Lemma chars_rows : forall l rs, Rows l rs -> forall d, chars (text_of_lines (map (fun r => (d, dump r)) rs)) <= (2 * Z.of_nat d + 1) * (1 + zlength l) + 3 * zlength l.
Proof.
  induction 1 as [l L|r l rs L NE R IH]; intro d; cbn [map]; rewrite chars_line.
  - change (chars (text_of_lines [])) with 0. pose proof (chars_dump l). pose proof (zlength_nonneg _ l). nia.
  - specialize (IH d). pose proof (chars_dump r). rewrite zlength_app. assert (zlength r = 10) by (unfold zlength; lia). pose proof (zlength_nonneg _ l). nia.
Qed.

Lemma declared_short : forall s d l, Declared s d l -> zlength l <= zlength (data_of d).
Proof.
  intros s d l [[_ ->]|(more & -> & _)]; [change (zlength (@nil byte)) with 0; apply zlength_nonneg|]. cbn [data_of]. rewrite zlength_app. pose proof (zlength_nonneg _ more). lia.
Qed.

(** ** Trees *)
Lemma bulk_nonneg : forall c, 8 <= bulk c.
Proof.
  fix IH 1. intros [i s d|i s g l|i s g p l|i s v]; cbn [bulk].
  - pose proof (zlength_nonneg _ (data_of d)). lia.
  - enough (0 <= sum (map bulk l)) by lia. induction l as [|x l IHl]; cbn; [lia|]. pose proof (IH x). unfold sum in IHl. lia.
  - assert (0 <= sum (map bulk l)). { induction l as [|x l IHl]; cbn; [lia|]. pose proof (IH x). unfold sum in IHl. lia. }
    assert (0 <= sum (map bulk p)). { induction p as [|x p IHl]; cbn; [lia|]. pose proof (IH x). unfold sum in IHl. lia. } lia.
  - lia.
Qed.
Lemma bulks_nonneg : forall l, 0 <= sum (map bulk l).
Proof. induction l as [|x l IH]; cbn; [lia|]. pose proof (bulk_nonneg x). unfold sum in IH. lia. Qed.

Lemma fit_group : forall i s g l, SizesFit (CGroup i s g l) -> forall x, In x l -> SizesFit x.
Proof. intros i s g l F x I y IY. apply F. eapply In_group; eassumption. Qed.
Lemma fit_prop : forall i s g p l, SizesFit (CList i s g p l) -> forall x, In x p -> SizesFit x.
Proof. intros i s g p l F x I y IY. apply F. eapply In_list_prop; eassumption. Qed.
Lemma fit_sub : forall i s g p l, SizesFit (CList i s g p l) -> forall x, In x l -> SizesFit x.
Proof. intros i s g p l F x I y IY. apply F. eapply In_list_sub; eassumption. Qed.

Scheme Doc_min := Minimality for Doc Sort Prop
  with Body_min := Minimality for Body Sort Prop
  with Docs_min := Minimality for Docs Sort Prop.
Combined Scheme Doc_Body_Docs_ind from Doc_min, Body_min, Docs_min.

Lemma doc_short : forall app, (forall ft i, app ft i = None) ->
  (forall ft d c ls, Doc app ft d c ls -> SizesFit c -> forall D, Z.of_nat d + Z.of_nat (height c) <= D -> chars (text_of_lines ls) <= (8 + 2 * D) * bulk c) /\
  (forall ft d c ls, Body app ft d c ls -> SizesFit c -> forall D, Z.of_nat d + Z.of_nat (height c) <= D -> chars (text_of_lines ls) + 6 * Z.of_nat d + 41 <= (8 + 2 * D) * bulk c) /\
  (forall ft d l ls, Docs app ft d l ls -> (forall x, In x l -> SizesFit x) -> forall D, Z.of_nat d + Z.of_nat (fold_right (fun x m => Nat.max (height x) m) 0%nat l) <= D ->
     chars (text_of_lines ls) <= (8 + 2 * D) * sum (map bulk l)).
Proof.
  intros app NA. apply Doc_Body_Docs_ind.
  - intros ft d c size body DE B IH F D L. specialize (IH F D L). rewrite !chars_line, chars_lines, !chars_line, ?chars_nil, ?chars_last, !chars_app, chars_id.
    pose proof (short_number _ _ DE (F c (In_here c))). change (chars "'") with 1. change (chars "' = {") with 5. change (chars "chunkSize = ") with 12. change (chars ";") with 1. change (chars "}") with 1. change (chars "") with 0. lia.
  - intros ft d s data l DC F D L. rewrite !chars_line, ?chars_nil, ?chars_last, chars_verbatim. change (chars "text = '") with 8. change (chars "';") with 2. cbn [height bulk] in *. pose proof (declared_short _ _ _ DC). pose proof (zlength_nonneg _ l). nia.
  - intros ft d i s data l rows NT DC R F D L. rewrite chars_line, chars_lines, chars_line, ?chars_nil, ?chars_last. change (chars "bytes = ") with 8. change (chars ";") with 1. cbn [height bulk] in *. pose proof (declared_short _ _ _ DC). pose proof (zlength_nonneg _ l).
    pose proof (chars_rows _ _ R (S d)). set (n := zlength (data_of data)) in *. set (m := zlength l) in *.
    assert ((2 * Z.of_nat (S d) + 4) * m <= (8 + 2 * D) * n) by nia. nia.
  - intros ft d i s vals spec A. rewrite NA in A. discriminate A.
  - intros ft d i s g l docs DS IH F D L. cbn [height bulk] in *. specialize (IH (fit_group _ _ _ _ F) D ltac:(lia)). rewrite !chars_line, chars_lines, chars_line, ?chars_nil, ?chars_last, !chars_app, chars_id.
    assert (chars (type_label i) <= 12) by (unfold type_label; destruct (i =? CAT_ID); unfold chars; cbn; lia). change (chars " = '") with 4. change (chars "';") with 2. change (chars "[") with 1. change (chars "];") with 2. nia.
  - intros ft d i s g p l pdocs docs DP IHP DS IH F D L. cbn [height bulk] in *. specialize (IHP (fit_prop _ _ _ _ _ F) D ltac:(lia)). specialize (IH (fit_sub _ _ _ _ _ F) D ltac:(lia)).
    rewrite !chars_line, chars_lines, !chars_line, chars_lines, chars_line, ?chars_nil, ?chars_last, !chars_app, chars_id.
    change (chars "contentsType = '") with 16. change (chars "';") with 2. change (chars "[") with 1. change (chars "];") with 2. change (chars "prop = [") with 8. nia.
  - intros ft d F D L. rewrite chars_nil. cbn. lia.
  - intros ft d c l doc docs DC IHC DS IH F D L. cbn [map] in *. rewrite chars_lines. cbn [fold_right] in L.
    specialize (IHC (F c (or_introl eq_refl)) D ltac:(lia)). specialize (IH (fun x I => F x (or_intror I)) D ltac:(lia)). change (sum (bulk c :: map bulk l)) with (bulk c + sum (map bulk l)). nia.
Qed.

(** ** How deep a tree can be *)
Lemma deep_bulk : forall c, 12 * Z.of_nat (height c) <= bulk c + 4.
Proof.
  fix IH 1. intros [i s d|i s g l|i s g p l|i s v]; cbn [bulk height].
  - pose proof (zlength_nonneg _ (data_of d)). lia.
  - enough (12 * Z.of_nat (fold_right (fun x m => Nat.max (height x) m) 0%nat l) <= sum (map bulk l) + 4) by lia.
    induction l as [|x l IHl]; cbn [map fold_right]; [cbn; lia|]. change (sum (bulk x :: map bulk l)) with (bulk x + sum (map bulk l)). pose proof (IH x). pose proof (bulk_nonneg x). pose proof (bulks_nonneg l). lia.
  - assert (12 * Z.of_nat (fold_right (fun x m => Nat.max (height x) m) 0%nat l) <= sum (map bulk l) + 4).
    { induction l as [|x l IHl]; cbn [map fold_right]; [cbn; lia|]. change (sum (bulk x :: map bulk l)) with (bulk x + sum (map bulk l)). pose proof (IH x). pose proof (bulk_nonneg x). pose proof (bulks_nonneg l). lia. }
    assert (12 * Z.of_nat (fold_right (fun x m => Nat.max (height x) m) 0%nat p) <= sum (map bulk p) + 4).
    { induction p as [|x p IHl]; cbn [map fold_right]; [cbn; lia|]. change (sum (bulk x :: map bulk p)) with (bulk x + sum (map bulk p)). pose proof (IH x). pose proof (bulk_nonneg x). pose proof (bulks_nonneg p). lia. }
    pose proof (bulks_nonneg l). pose proof (bulks_nonneg p). lia.
  - lia.
Qed.

(** ** Trees that were read *)
Lemma filter_bulk : forall f l, sum (map bulk (filter f l)) + sum (map bulk (filter (fun c => negb (f c)) l)) = sum (map bulk l).
Proof.
  intros f l. induction l as [|x l IH]; [reflexivity|]. cbn [filter map]. change (sum (bulk x :: map bulk l)) with (bulk x + sum (map bulk l)). destruct (f x); cbn [negb map].
  - change (sum (bulk x :: map bulk (filter f l))) with (bulk x + sum (map bulk (filter f l))). lia.
  - change (sum (bulk x :: map bulk (filter (fun c => negb (f c)) l))) with (bulk x + sum (map bulk (filter (fun c => negb (f c)) l))). lia.
Qed.

Lemma parsed_bulk : forall e app, (forall ft i, app ft i = None) ->
  (forall ft l c lg, Parsed e app ft l c lg -> SizesFit c /\ bulk c <= zlength l) /\
  (forall g bp s l cs lg total, Members e app g bp s l cs lg total -> (forall c, In c cs -> SizesFit c) /\ sum (map bulk cs) <= zlength l).
Proof.
  intros e app NA. apply Parsed_Members_ind.
  - intros ft i data p _ _ _ L _. split.
    + intros x I. inversion I; subst. cbn [chunkSize]. pose proof (zlength_nonneg _ data). cbv [in_range INT_MAX] in *. cbn. lia.
    + cbn [bulk data_of]. rewrite !zlength_app. change (zlength (be32 i)) with 4. change (zlength (be32 (zlength data))) with 4. pose proof (zlength_nonneg _ p). lia.
  - intros ft i s spec vals sk p _ _ A. rewrite NA in A. discriminate A.
  - intros ft i s g l subs p lg total _ R _ M (IF & IL) _. split.
    + intros x I. inversion I; subst; [exact R|eapply IF; eassumption].
    + cbn [bulk]. rewrite !zlength_app. change (zlength (be32 i)) with 4. change (zlength (be32 s)) with 4. change (zlength (be32 g)) with 4. pose proof (zlength_nonneg _ p). lia.
  - intros ft s g l members p lg total R _ M (IF & IL) _. split.
    + intros x I. inversion I as [|? ? ? ? ? ? ?|i' s' g' p' l' c' IN IX|i' s' g' p' l' c' IN IX]; subst; [exact R| |]; apply filter_In in IN; destruct IN as (IN & _); eapply IF; eassumption.
    + cbn [bulk]. pose proof (filter_bulk is_prop members). rewrite !zlength_app. change (zlength (be32 LIST_ID)) with 4. change (zlength (be32 s)) with 4. change (zlength (be32 g)) with 4. pose proof (zlength_nonneg _ p). lia.
  - intros g bp s _. split; [intros c []|cbn; lia].
  - intros g bp s l c lg bp' l2 cs lg2 total _ P (F & L) _ M (FS & LS). split.
    + intros x [<-|I]; [exact F|exact (FS x I)].
    + rewrite zlength_app. cbn [map]. change (sum (bulk c :: map bulk cs)) with (bulk c + sum (map bulk cs)). lia.
Qed.
