(** * Command lines: proofs *)

From Coq Require Import ZArith List Bool String Ascii Lia Wf_nat.
From Verif Require Import Machine Io Types Build Read Write Check Iff Main LineSpec.
Import ListNotations.
Open Scope string_scope.
Open Scope list_scope.

(** ** Abbreviations *)

Fixpoint prefixes (s : string) : list string :=
  match s with EmptyString => [] | String c r => String c EmptyString :: map (String c) (prefixes r) end.

Lemma abbreviates_in : forall p name, abbreviates p name <-> In p (prefixes name).
Proof.
  intros p name. revert p. induction name as [|c r IH]; intro p; cbn [prefixes].
  - split; [|intros []]. intros (N & x & E). destruct p; [congruence|discriminate E].
  - split.
    + intros (N & x & E). destruct p as [|d p]; [congruence|]. cbn in E. injection E as <- E. destruct p as [|d p]; [left; reflexivity|right; apply in_map, IH; split; [discriminate|exists x; exact E]].
    + intros [<-|I]; [split; [discriminate|exists r; reflexivity]|]. apply in_map_iff in I. destruct I as (q & <- & I). apply IH in I. destruct I as (N & x & ->). split; [discriminate|exists x; reflexivity].
Qed.

Lemma abbreviates_dec : forall p name, {abbreviates p name} + {~ abbreviates p name}.
Proof. intros p name. destruct (in_dec string_dec p (prefixes name)) as [I|N]; [left|right]; rewrite abbreviates_in; assumption. Qed.

Lemma prefix_app : forall p s, String.prefix p s = true -> exists r, s = (p ++ r)%string.
Proof.
  induction p as [|c p IH]; intros s P; [exists s; reflexivity|]. destruct s as [|d s]; [discriminate P|]. cbn in P. destruct (ascii_dec c d) as [->|]; [|discriminate P].
  destruct (IH s P) as (r & ->). exists r. reflexivity.
Qed.

Lemma split_none : forall s n, split_eq s = (n, None) -> s = n.
Proof.
  induction s as [|c s IH]; intros n E; cbn in E; [injection E as <-; reflexivity|]. destruct (Ascii.eqb c "="); [discriminate E|]. destruct (split_eq s) as [m v]. injection E as <- ->.
  rewrite (IH m eq_refl). reflexivity.
Qed.

Lemma split_some : forall s n v, split_eq s = (n, Some v) -> s = (n ++ "=" ++ v)%string.
Proof.
  induction s as [|c s IH]; intros n v E; cbn in E; [discriminate E|]. destruct (Ascii.eqb_spec c "=") as [->|]; [injection E as <- <-; reflexivity|]. destruct (split_eq s) as [m u]. injection E as <- ->.
  rewrite (IH m v eq_refl). reflexivity.
Qed.

Fixpoint no_eq (s : string) : bool := match s with EmptyString => true | String c r => negb (Ascii.eqb c "=") && no_eq r end.

Lemma split_plain : forall s, no_eq s = true -> split_eq s = (s, None).
Proof. induction s as [|c s IH]; cbn; intro N; [reflexivity|]. apply andb_prop in N. destruct N as [N1 N2]. destruct (Ascii.eqb c "="); [discriminate|]. rewrite (IH N2). reflexivity. Qed.

Lemma split_value : forall s v, no_eq s = true -> split_eq (s ++ "=" ++ v) = (s, Some v).
Proof. induction s as [|c s IH]; cbn; intros v N; [reflexivity|]. apply andb_prop in N. destruct N as [N1 N2]. destruct (Ascii.eqb c "="); [discriminate|]. cbn in IH. rewrite (IH v N2). reflexivity. Qed.

Lemma no_eq_app : forall p r, no_eq (p ++ r) = true -> no_eq p = true.
Proof. induction p as [|c p IH]; cbn; intros r N; [reflexivity|]. apply andb_prop in N. destruct N as [N1 N2]. rewrite N1, (IH r N2). reflexivity. Qed.

Lemma abbreviates_plain : forall p name, abbreviates p name -> no_eq name = true -> no_eq p = true.
Proof. intros p name (_ & r & ->) N. exact (no_eq_app _ _ N). Qed.

Lemma find_long_abbr : forall ls n o, ls <> [] -> (2 <= List.length ls)%nat -> (forall x, In x ls -> l_name x <> EmptyString) -> find_long ls n = Some o -> In o ls /\ abbreviates n (l_name o).
Proof.
  intros ls n o NE L2 NN F. unfold find_long in F. destruct (find _ ls) as [x|] eqn:E.
  - injection F as ->. apply find_some in E. destruct E as (I & E). apply String.eqb_eq in E. split; [exact I|]. rewrite <- E. split; [exact (NN o I)|exists EmptyString].
    clear. induction (l_name o) as [|c s IH]; [reflexivity|]. cbn. f_equal. exact IH.
  - destruct (filter _ ls) as [|x [|? ?]] eqn:FI; try discriminate F. injection F as ->. assert (I : In o (filter (fun o => String.prefix n (l_name o)) ls)) by (rewrite FI; left; reflexivity).
    apply filter_In in I. destruct I as (I & P). split; [exact I|]. split; [|exact (prefix_app _ _ P)]. intros ->. assert (X : filter (fun o => String.prefix "" (l_name o)) ls = ls).
    { clear. induction ls as [|x l IH]; [reflexivity|]. cbn [filter]. rewrite IH. destruct (l_name x); reflexivity. }
    rewrite X in FI. rewrite FI in L2. cbn in L2. lia.
Qed.

(** ** Words *)

Lemma operand_word : forall sh ls a, operand a -> a <> "--" /\ option_word sh ls a = None.
Proof.
  intros sh ls a [->|N]; [split; [discriminate|reflexivity]|]. destruct a as [|c s]; [split; [discriminate|reflexivity]|]. split; [intros E; injection E as -> ->; exact (N _ eq_refl)|].
  unfold option_word. destruct (ascii_dec c "-") as [->|X]; [exfalso; exact (N _ eq_refl)|]. destruct c as [[] [] [] [] [] [] [] []]; try reflexivity. exfalso. apply X. reflexivity.
Qed.

Lemma word_shape : forall a, operand a \/ exists c s, a = String "-" (String c s).
Proof.
  intros [|c s]; [left; right; discriminate|]. destruct (ascii_dec c "-") as [->|X]; [|left; right; intros r E; injection E as E _; exact (X E)]. destruct s as [|d s]; [left; left; reflexivity|]. right. eauto.
Qed.

Lemma times_split : forall s, (exists n, s = times n "c") \/ exists n x r, x <> "c"%char /\ s = (times n "c" ++ String x r)%string.
Proof.
  induction s as [|x s IH]; [left; exists O; reflexivity|]. destruct (ascii_dec x "c") as [->|X].
  - destruct IH as [(n & ->)|(n & y & r & Y & ->)]; [left; exists (S n); reflexivity|right; exists (S n), y, r; split; [exact Y|reflexivity]].
  - right. exists O, x, s. split; [exact X|reflexivity].
Qed.

Lemma word_eq : forall a, a <> "--" -> String.eqb a "--" = false.
Proof. intros a N. apply String.eqb_neq. exact N. Qed.

(** *** iffpp *)

Section Pp.
  Variables (long reorder : bool) (version command : string).
  Let ls := if long then Some pp_longs else None.
  Let b := Getopt long reorder.

  Definition stop_status (x : stop) : Z := match x with Invalid => 1 | _ => 0 end.
  Definition pp_text (x : stop) : string := match x with Version => print_version version command | _ => pp_usage b command end.

  Lemma pp_long_named : forall p name c, In (mkLong name false c) pp_longs -> abbreviates p name -> long_word pp_longs p = ([Opt c None], None).
  Proof.
    intros p name c I A. apply abbreviates_in in A. destruct I as [E|[E|[E|[]]]]; injection E as <- <-; cbn in A;
      repeat (destruct A as [<-|A]; [vm_compute; reflexivity|]); destruct A.
  Qed.

  Lemma pp_long_other : forall s, ~ abbreviates s "disable-check" -> ~ abbreviates s "help" -> ~ abbreviates s "version" -> long_word pp_longs s = ([Unknown], None).
  Proof.
    intros s N1 N2 N3. unfold long_word. destruct (split_eq s) as [n v] eqn:E. destruct (find_long pp_longs n) as [o|] eqn:F; [|reflexivity].
    apply find_long_abbr in F; [|discriminate|cbn; lia|intros x [<-|[<-|[<-|[]]]]; discriminate]. destruct F as (I & A).
    destruct v as [v|]; [destruct I as [<-|[<-|[<-|[]]]]; reflexivity|]. apply split_none in E. subst n. exfalso. destruct I as [<-|[<-|[<-|[]]]]; cbn in A; auto.
  Qed.

  Lemma pp_times : forall n s, short_word pp_shorts (times n "c" ++ s) = (repeat (Opt "c" None) n ++ fst (short_word pp_shorts s), snd (short_word pp_shorts s)).
  Proof.
    induction n as [|n IH]; intro s; [cbn; destruct (short_word pp_shorts s); reflexivity|]. cbn [times append short_word find pp_shorts fst]. replace (Ascii.eqb "c" "c") with true by reflexivity.
    rewrite IH. reflexivity.
  Qed.

  Lemma pp_loop_times : forall n evs o, pp_loop version command b (repeat (Opt "c" None) n ++ evs) o = pp_loop version command b evs (o || negb (Nat.eqb n 0)).
  Proof. induction n as [|n IH]; intros evs o; [cbn; rewrite orb_false_r; reflexivity|]. cbn. fold b. rewrite IH. destruct o; cbn; destruct (Nat.eqb n 0); reflexivity. Qed.

  (** a flag *)
  Lemma pp_flag : forall a, CheckFlag long a -> a <> "--" /\ exists n, option_word pp_shorts ls a = Some (repeat (Opt "c" None) (S n), None).
  Proof.
    intros a [n|p L A].
    - split; [discriminate|]. exists n. unfold option_word, ls. cbn [append times]. pose proof (pp_times (S n) "") as T. assert (X : forall m, (times m "c" ++ "")%string = times m "c") by (induction m; cbn; congruence).
      rewrite X in T. replace (fst (short_word pp_shorts "")) with (@nil event) in T by reflexivity. rewrite app_nil_r in T. change (String "c" (times n "c")) with (times (S n) "c"). destruct long; [replace (Ascii.eqb "c" "-") with false by reflexivity|]; rewrite T; reflexivity.
    - split; [destruct A as (N & _); intro E; apply N; injection E as E; exact E|]. exists O. unfold option_word, ls. rewrite L. cbn [append]. replace (Ascii.eqb "-" "-") with true by reflexivity.
      rewrite (pp_long_named p "disable-check" "c"); [reflexivity|left; reflexivity|exact A].
  Qed.

  (** a word to stop at *)
  Lemma pp_stop : forall a x, PpStop long a x -> a <> "--" /\ exists evs p, option_word pp_shorts ls a = Some (evs, p) /\
    forall more o, pp_loop version command b (evs ++ more) o = Quit (stop_status x) (pp_text x).
  Proof.
    assert (SH : forall n c r, (n = O -> c = "-"%char -> long = false) -> option_word pp_shorts ls ("-" ++ times n "c" ++ String c r) = Some (short_word pp_shorts (times n "c" ++ String c r))).
    { intros n c r K. unfold option_word, ls. destruct n as [|n]; cbn [times append]; [|destruct long; reflexivity]. destruct long; [|reflexivity].
      destruct (Ascii.eqb_spec c "-") as [->|]; [discriminate (K eq_refl eq_refl)|reflexivity]. }
    assert (LG : forall p name c, In (mkLong name false c) pp_longs -> long = true -> abbreviates p name -> ("--" ++ p)%string <> "--" /\ option_word pp_shorts ls ("--" ++ p) = Some ([Opt c None], None)).
    { intros p name c I L A. split; [destruct A as (N & _); intro E; apply N; injection E as E; exact E|]. unfold option_word, ls. rewrite L. cbn [append]. replace (Ascii.eqb "-" "-") with true by reflexivity. rewrite (pp_long_named p name c I A). reflexivity. }
    intros a x [n r|n r|n c r C1 C2 C3 K|p L A|p L A|s L NE N1 N2 N3].
    - split; [destruct n; discriminate|]. do 2 eexists. split; [change ("h" ++ r)%string with (String "h" r); rewrite (SH n "h"%char r ltac:(discriminate)), pp_times; reflexivity|]. intros more o. rewrite <- app_assoc, pp_loop_times. cbn [short_word find pp_shorts fst].
      destruct (short_word pp_shorts r); reflexivity.
    - split; [destruct n; discriminate|]. do 2 eexists. split; [change ("v" ++ r)%string with (String "v" r); rewrite (SH n "v"%char r ltac:(discriminate)), pp_times; reflexivity|]. intros more o. rewrite <- app_assoc, pp_loop_times. cbn [short_word find pp_shorts fst].
      destruct (short_word pp_shorts r); reflexivity.
    - split. { destruct n; cbn [times append]; [|discriminate]. intro E. injection E as -> ->. destruct (K eq_refl eq_refl) as [_ X]. apply X. reflexivity. }
      do 2 eexists. split; [rewrite (SH n c r (fun A B => proj1 (K A B))), pp_times; reflexivity|]. intros more o. rewrite <- app_assoc, pp_loop_times.
      cbn [short_word find pp_shorts fst]. destruct (Ascii.eqb_spec "c" c); [congruence|]. destruct (Ascii.eqb_spec "h" c); [congruence|]. destruct (Ascii.eqb_spec "v" c); [congruence|].
      destruct (short_word pp_shorts r); reflexivity.
    - destruct (LG p "help" "h"%char ltac:(right; left; reflexivity) L A) as (N & E). split; [exact N|]. do 2 eexists. split; [exact E|]. reflexivity.
    - destruct (LG p "version" "v"%char ltac:(right; right; left; reflexivity) L A) as (N & E). split; [exact N|]. do 2 eexists. split; [exact E|]. reflexivity.
    - split; [intro E; apply NE; injection E as E; exact E|]. do 2 eexists. split; [unfold option_word, ls; rewrite L; cbn [append]; replace (Ascii.eqb "-" "-") with true by reflexivity; rewrite (pp_long_other s N1 N2 N3); reflexivity|]. reflexivity.
  Qed.

  Lemma pp_line : forall args c ops, PpLine long reorder args c ops ->
    exists evs, getopt reorder pp_shorts ls args None = (evs, ops) /\ forall o, pp_loop version command b evs o = Go (o || c).
  Proof.
    intros args c ops L. induction L as [|r|f r c ops OP R L (evs & E & G)|f r OP R|a r c ops FL L (evs & E & G)]; cbn [getopt].
    - exists []. split; [reflexivity|]. intro o. cbn. rewrite orb_false_r. reflexivity.
    - exists []. split; [reflexivity|]. intro o. cbn. rewrite orb_false_r. reflexivity.
    - destruct (operand_word pp_shorts ls f OP) as (N & W). rewrite (word_eq _ N), W, R. rewrite R in E. exists evs. split; [rewrite E; reflexivity|exact G].
    - destruct (operand_word pp_shorts ls f OP) as (N & W). rewrite (word_eq _ N), W, R. exists []. split; [reflexivity|]. intro o. cbn. rewrite orb_false_r. reflexivity.
    - destruct (pp_flag a FL) as (N & n & W). rewrite (word_eq _ N), W, E. eexists. split; [reflexivity|]. intro o. rewrite pp_loop_times, G. cbn. rewrite orb_true_r. reflexivity.
  Qed.

  Lemma pp_stops : forall args x, PpStops long reorder args x ->
    exists evs ops, getopt reorder pp_shorts ls args None = (evs, ops) /\ forall o, pp_loop version command b evs o = Quit (stop_status x) (pp_text x).
  Proof.
    intros args x L. induction L as [a r x ST|f r x OP R L (evs & ops & E & G)|a r x FL L (evs & ops & E & G)]; cbn [getopt].
    - destruct (pp_stop a x ST) as (N & evs & p & W & G). rewrite (word_eq _ N), W. destruct (getopt reorder pp_shorts ls r p) as [more ops]. exists (evs ++ more), ops. split; [reflexivity|]. intro o. apply G.
    - destruct (operand_word pp_shorts ls f OP) as (N & W). rewrite (word_eq _ N), W, R. rewrite R in E. rewrite E. exists evs, (f :: ops). split; [reflexivity|exact G].
    - destruct (pp_flag a FL) as (N & n & W). rewrite (word_eq _ N), W, E. do 2 eexists. split; [reflexivity|]. intro o. rewrite pp_loop_times. apply G.
  Qed.

  Lemma pp_word_cases : forall a, a = "--" \/ operand a \/ CheckFlag long a \/ exists x, PpStop long a x.
  Proof.
    intro a. destruct (word_shape a) as [O|(c & s & ->)]; [right; left; exact O|]. destruct (ascii_dec c "-") as [->|NC]; [destruct (string_dec s "") as [->|NS]; [left; reflexivity|]|].
    - right. right. destruct (bool_dec long true) as [L|L].
      + destruct (abbreviates_dec s "disable-check") as [A|N1]; [left; exact (CF_long _ s L A)|]. right.
        destruct (abbreviates_dec s "help") as [A|N2]; [exists Help; exact (PS_long_help _ s L A)|]. destruct (abbreviates_dec s "version") as [A|N3]; [exists Version; exact (PS_long_version _ s L A)|].
        exists Invalid. exact (PS_long _ s L NS N1 N2 N3).
      + right. exists Invalid. apply (PS_letter long 0 "-" s); try discriminate. intros _ _. split; [destruct long; [congruence|reflexivity]|exact NS].
    - right. right. destruct (times_split (String c s)) as [(n & E)|(n & x & r & X & E)].
      + left. destruct n as [|n]; [discriminate E|]. rewrite E. exact (CF_short _ n).
      + right. destruct (ascii_dec x "h") as [->|X2]; [exists Help; rewrite E; exact (PS_help _ n r)|]. destruct (ascii_dec x "v") as [->|X3]; [exists Version; rewrite E; exact (PS_version _ n r)|].
        exists Invalid. rewrite E. apply (PS_letter long n x r X X2 X3). intros -> ->. cbn in E. injection E as E _. congruence.
  Qed.

  Lemma pp_total : forall args, (exists c ops, PpLine long reorder args c ops) \/ exists x, PpStops long reorder args x.
  Proof.
    induction args as [|a r IH]; [left; do 2 eexists; constructor|]. destruct (pp_word_cases a) as [->|[O|[F|(x & S)]]].
    - left. do 2 eexists. constructor.
    - destruct (bool_dec reorder true) as [R|R].
      + destruct IH as [(c & ops & L)|(x & L)]; [left; do 2 eexists; apply PL_operand; eassumption|right; exists x; apply PT_operand; assumption].
      + left. do 2 eexists. apply PL_first; [exact O|destruct reorder; [congruence|reflexivity]].
    - destruct IH as [(c & ops & L)|(x & L)]; [left; do 2 eexists; eapply PL_flag; eassumption|right; exists x; apply PT_flag; assumption].
    - right. exists x. apply PT_here. exact S.
  Qed.
End Pp.

(** *** iffjoin *)

Section Join.
  Variables (long reorder : bool) (version command : string).
  Let ls := if long then Some join_longs else None.
  Let b := Getopt long reorder.

  Definition join_text (x : stop) : string := match x with Version => print_version version command | _ => join_usage b command end.

  Lemma join_long_named : forall p name c, In (mkLong name false c) join_longs -> abbreviates p name -> long_word join_longs p = ([Opt c None], None).
  Proof.
    intros p name c I A. apply abbreviates_in in A. destruct I as [E|[E|[E|[]]]]; [discriminate E| |]; injection E as <- <-; cbn in A;
      repeat (destruct A as [<-|A]; [vm_compute; reflexivity|]); destruct A.
  Qed.

  Lemma join_find_output : forall p, abbreviates p "output-file" -> find_long join_longs p = Some (mkLong "output-file" true "o").
  Proof. intros p A. apply abbreviates_in in A. cbn in A. repeat (destruct A as [<-|A]; [vm_compute; reflexivity|]). destruct A. Qed.

  Lemma join_long_output : forall p, abbreviates p "output-file" -> long_word join_longs p = ([], Some "o"%char).
  Proof. intros p A. unfold long_word. rewrite (split_plain p (abbreviates_plain _ _ A eq_refl)), (join_find_output p A). reflexivity. Qed.

  Lemma join_long_value : forall p f, abbreviates p "output-file" -> long_word join_longs (p ++ "=" ++ f) = ([Opt "o" (Some f)], None).
  Proof. intros p f A. unfold long_word. rewrite (split_value p f (abbreviates_plain _ _ A eq_refl)), (join_find_output p A). reflexivity. Qed.

  Lemma join_long_other : forall s, ~ abbreviates s "output-file" -> (forall p f, abbreviates p "output-file" -> s <> (p ++ "=" ++ f)%string) ->
    ~ abbreviates s "help" -> ~ abbreviates s "version" -> long_word join_longs s = ([Unknown], None).
  Proof.
    intros s N1 N4 N2 N3. unfold long_word. destruct (split_eq s) as [n v] eqn:E. destruct (find_long join_longs n) as [o|] eqn:F; [|reflexivity].
    apply find_long_abbr in F; [|discriminate|cbn; lia|intros x [<-|[<-|[<-|[]]]]; discriminate]. destruct F as (I & A).
    destruct v as [v|]; [|apply split_none in E; subst n; exfalso; destruct I as [<-|[<-|[<-|[]]]]; cbn in A; auto].
    destruct I as [<-|[<-|[<-|[]]]]; [|reflexivity|reflexivity]. exfalso. exact (N4 n v A (split_some _ _ _ E)).
  Qed.

  Lemma join_next : forall a, OutputNext long a -> a <> "--" /\ option_word join_shorts ls a = Some ([], Some "o"%char).
  Proof.
    intros a [|p L A]; [split; [discriminate|unfold ls; destruct long; reflexivity]|]. split; [destruct A as (N & _); intro E; apply N; injection E as E; exact E|].
    unfold option_word, ls. rewrite L. cbn [append]. replace (Ascii.eqb "-" "-") with true by reflexivity. rewrite (join_long_output p A). reflexivity.
  Qed.

  Lemma join_same : forall a f, OutputSame long a f -> a <> "--" /\ option_word join_shorts ls a = Some ([Opt "o" (Some f)], None).
  Proof.
    intros a f [g N|p g L A].
    - split; [discriminate|]. destruct g as [|c g]; [congruence|]. unfold ls. destruct long; reflexivity.
    - split; [destruct A as (N & _); intro E; injection E as E; destruct p; [congruence|discriminate E]|].
      unfold option_word, ls. rewrite L. cbn [append]. replace (Ascii.eqb "-" "-") with true by reflexivity. rewrite <- (join_long_value p g A). reflexivity.
  Qed.

  Lemma join_stop : forall a x, JoinStop long a x -> a <> "--" /\ exists evs p, option_word join_shorts ls a = Some (evs, p) /\
    forall more o, join_options_loop version command b (evs ++ more) o = Quit (stop_status x) (join_text x).
  Proof.
    assert (SH : forall c r, (c = "-"%char -> long = false) -> option_word join_shorts ls ("-" ++ String c r) = Some (short_word join_shorts (String c r))).
    { intros c r K. unfold option_word, ls. cbn [append]. destruct long; [|reflexivity]. destruct (Ascii.eqb_spec c "-") as [->|]; [discriminate (K eq_refl)|reflexivity]. }
    assert (LG : forall p name c, In (mkLong name false c) join_longs -> long = true -> abbreviates p name -> ("--" ++ p)%string <> "--" /\ option_word join_shorts ls ("--" ++ p) = Some ([Opt c None], None)).
    { intros p name c I L A. split; [destruct A as (N & _); intro E; apply N; injection E as E; exact E|]. unfold option_word, ls. rewrite L. cbn [append]. replace (Ascii.eqb "-" "-") with true by reflexivity. rewrite (join_long_named p name c I A). reflexivity. }
    intros a x [r|r|c r C1 C2 C3 K|p L A|p L A|s L NE N1 N4 N2 N3].
    - split; [discriminate|]. exists (fst (short_word join_shorts (String "h" r))), (snd (short_word join_shorts (String "h" r))). split; [rewrite <- surjective_pairing; exact (SH "h"%char r ltac:(discriminate))|]. intros more o. cbn. destruct (short_word join_shorts r); reflexivity.
    - split; [discriminate|]. exists (fst (short_word join_shorts (String "v" r))), (snd (short_word join_shorts (String "v" r))). split; [rewrite <- surjective_pairing; exact (SH "v"%char r ltac:(discriminate))|]. intros more o. cbn. destruct (short_word join_shorts r); reflexivity.
    - split. { cbn [append]. intro E. injection E as -> ->. destruct (K eq_refl) as [_ X]. apply X. reflexivity. }
      exists (fst (short_word join_shorts (String c r))), (snd (short_word join_shorts (String c r))). split; [rewrite (SH c r (fun A => proj1 (K A))); destruct (short_word join_shorts (String c r)); reflexivity|]. intros more o.
      cbn [short_word find join_shorts fst]. destruct (Ascii.eqb_spec "o" c); [congruence|]. destruct (Ascii.eqb_spec "h" c); [congruence|]. destruct (Ascii.eqb_spec "v" c); [congruence|].
      destruct (short_word join_shorts r); reflexivity.
    - destruct (LG p "help" "h"%char ltac:(right; left; reflexivity) L A) as (N & E). split; [exact N|]. do 2 eexists. split; [exact E|]. reflexivity.
    - destruct (LG p "version" "v"%char ltac:(right; right; left; reflexivity) L A) as (N & E). split; [exact N|]. do 2 eexists. split; [exact E|]. reflexivity.
    - split; [intro E; apply NE; injection E as E; exact E|]. do 2 eexists. split; [unfold option_word, ls; rewrite L; cbn [append]; replace (Ascii.eqb "-" "-") with true by reflexivity; rewrite (join_long_other s N1 N4 N2 N3); reflexivity|]. reflexivity.
  Qed.

  Lemma last_cons : forall outs f (o : option string), last (map Some (f :: outs)) o = last (map Some outs) (Some f).
  Proof. induction outs as [|g outs IH]; intros f o; [reflexivity|]. cbn [map last] in *. destruct (map Some outs) eqn:E; [reflexivity|]. rewrite <- E in *. specialize (IH f o). cbn [map last] in IH.
    destruct outs as [|x outs]; [discriminate E|]. cbn [map] in *. rewrite IH. reflexivity. Qed.

  Lemma join_line : forall args outs ins, JoinLine long reorder args outs ins ->
    exists evs, getopt reorder join_shorts ls args None = (evs, ins) /\ forall o, join_options_loop version command b evs o = Go (last (map Some outs) o).
  Proof.
    intros args outs ins L. induction L as [|r|f r outs ins OP R L (evs & E & G)|f r OP R|a f r outs ins NX L (evs & E & G)|a f r outs ins SM L (evs & E & G)]; cbn [getopt].
    - exists []. split; [reflexivity|]. reflexivity.
    - exists []. split; [reflexivity|]. reflexivity.
    - destruct (operand_word join_shorts ls f OP) as (N & W). rewrite (word_eq _ N), W, R. rewrite R in E. exists evs. split; [rewrite E; reflexivity|exact G].
    - destruct (operand_word join_shorts ls f OP) as (N & W). rewrite (word_eq _ N), W, R. exists []. split; [reflexivity|]. reflexivity.
    - destruct (join_next a NX) as (N & W). rewrite (word_eq _ N), W, E. eexists. split; [reflexivity|]. intro o. rewrite last_cons. cbn. apply G.
    - destruct (join_same a f SM) as (N & W). rewrite (word_eq _ N), W, E. eexists. split; [reflexivity|]. intro o. rewrite last_cons. cbn. apply G.
  Qed.

  Lemma join_stops : forall args x, JoinStops long reorder args x ->
    exists evs ops, getopt reorder join_shorts ls args None = (evs, ops) /\ forall o, join_options_loop version command b evs o = Quit (stop_status x) (join_text x).
  Proof.
    intros args x L. induction L as [a r x ST|a NX|f r x OP R L (evs & ops & E & G)|a f r x NX L (evs & ops & E & G)|a f r x SM L (evs & ops & E & G)]; cbn [getopt].
    - destruct (join_stop a x ST) as (N & evs & p & W & G). rewrite (word_eq _ N), W. destruct (getopt reorder join_shorts ls r p) as [more ops]. exists (evs ++ more), ops. split; [reflexivity|]. intro o. apply G.
    - destruct (join_next a NX) as (N & W). rewrite (word_eq _ N), W. do 2 eexists. split; [reflexivity|]. reflexivity.
    - destruct (operand_word join_shorts ls f OP) as (N & W). rewrite (word_eq _ N), W, R. rewrite R in E. rewrite E. exists evs, (f :: ops). split; [reflexivity|exact G].
    - destruct (join_next a NX) as (N & W). rewrite (word_eq _ N), W, E. do 2 eexists. split; [reflexivity|]. intro o. cbn. apply G.
    - destruct (join_same a f SM) as (N & W). rewrite (word_eq _ N), W, E. do 2 eexists. split; [reflexivity|]. intro o. cbn. apply G.
  Qed.

  Lemma join_word_cases : forall a, a = "--" \/ operand a \/ OutputNext long a \/ (exists f, OutputSame long a f) \/ exists x, JoinStop long a x.
  Proof.
    intro a. destruct (word_shape a) as [O|(c & s & ->)]; [right; left; exact O|]. destruct (ascii_dec c "-") as [->|NC]; [destruct (string_dec s "") as [->|NS]; [left; reflexivity|]|]; right; right.
    - destruct (bool_dec long true) as [L|L].
      + destruct (abbreviates_dec s "output-file") as [A|N1]; [left; exact (ON_long _ s L A)|]. right.
        destruct (abbreviates_dec s "help") as [A|N2]; [right; exists Help; exact (JS_long_help _ s L A)|]. destruct (abbreviates_dec s "version") as [A|N3]; [right; exists Version; exact (JS_long_version _ s L A)|].
        destruct (split_eq s) as [n [v|]] eqn:E.
        * destruct (abbreviates_dec n "output-file") as [A|N4]; [left; exists v; rewrite (split_some _ _ _ E); exact (OS_long _ n v L A)|].
          right. exists Invalid. apply (JS_long _ s L NS N1); [|exact N2|exact N3]. intros p f A ->. rewrite (split_value p f (abbreviates_plain _ _ A eq_refl)) in E. injection E as <- <-. exact (N4 A).
        * right. exists Invalid. apply (JS_long _ s L NS N1); [|exact N2|exact N3]. intros p f A ->. rewrite (split_value p f (abbreviates_plain _ _ A eq_refl)) in E. discriminate E.
      + right. right. exists Invalid. apply (JS_letter long "-" s); try discriminate. intros _. split; [destruct long; [congruence|reflexivity]|exact NS].
    - destruct (ascii_dec c "o") as [->|X1]; [destruct (string_dec s "") as [->|NS]; [left; exact (ON_short _)|right; left; exists s; exact (OS_short _ s NS)]|]. right. right.
      destruct (ascii_dec c "h") as [->|X2]; [exists Help; exact (JS_help _ s)|]. destruct (ascii_dec c "v") as [->|X3]; [exists Version; exact (JS_version _ s)|].
      exists Invalid. apply (JS_letter long c s X1 X2 X3). intros ->. congruence.
  Qed.

  Lemma join_total : forall args, (exists outs ins, JoinLine long reorder args outs ins) \/ exists x, JoinStops long reorder args x.
  Proof.
    assert (W : forall n args, (List.length args <= n)%nat -> (exists outs ins, JoinLine long reorder args outs ins) \/ exists x, JoinStops long reorder args x).
    { induction n as [|n IH]; intros [|a r] LE; cbn in LE; try lia; [left; do 2 eexists; constructor|left; do 2 eexists; constructor|].
      destruct (join_word_cases a) as [->|[O|[X|[(f & X)|(x & X)]]]].
      - left. do 2 eexists. constructor.
      - destruct (bool_dec reorder true) as [R|R].
        + destruct (IH r ltac:(lia)) as [(c & ops & L)|(x & L)]; [left; do 2 eexists; apply JL_operand; eassumption|right; exists x; apply JT_operand; assumption].
        + left. do 2 eexists. apply JL_first; [exact O|destruct reorder; [congruence|reflexivity]].
      - destruct r as [|f r]; [right; exists Invalid; apply JT_missing; exact X|]. cbn in LE.
        destruct (IH r ltac:(lia)) as [(c & ops & L)|(x & L)]; [left; do 2 eexists; eapply JL_next; eassumption|right; exists x; eapply JT_next; eassumption].
      - destruct (IH r ltac:(lia)) as [(c & ops & L)|(x & L)]; [left; do 2 eexists; eapply JL_same; eassumption|right; exists x; eapply JT_same; eassumption].
      - right. exists x. apply JT_here. exact X. }
    intro args. exact (W _ args (le_n _)).
  Qed.
End Join.
