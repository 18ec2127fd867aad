(** * Properties C67, C68: the command lines of iffpp and iffjoin *)

From Coq Require Import ZArith List Bool String Ascii Lia.
From Coq Require Import Strings.Byte.
From Verif Require Import Machine Io Types Build Read Write Check Print Iff Main LineSpec Spec Lemmas IoProofs RegProofs Examples PropBuild PropTools MainProofs.
Import ListNotations.
Open Scope Z_scope.

(** ** C67.  iffpp *)

(** With options in any spelling, and operands: the first operand, or standard
    input if there is none, is printed; the check is skipped exactly if one of
    the options says so. *)
Theorem C67_line : forall version command long reorder args c ops e s, PpLine long reorder args c ops ->
  pp_main version command (Getopt long reorder) args e s = IFF_prettyPrint (hd_error ops) c e s.
Proof.
  intros version command long reorder args c ops e s L. unfold pp_main, pp_options. destruct (pp_line long reorder version command args c ops L) as (evs & -> & G). rewrite G. cbn [orb].
  destruct ops; reflexivity.
Qed.
Print Assumptions C67_line.

(** Help, the version and invalid options: nothing is read, the text is
    printed, and the status says whether the command line was valid. *)
Theorem C67_stops : forall version command long reorder args x e s, PpStops long reorder args x ->
  pp_main version command (Getopt long reorder) args e s =
  Done (match x with
        | Help => (0, pp_usage (Getopt long reorder) command)
        | Version => (0, print_version version command)
        | Invalid => (1, pp_usage (Getopt long reorder) command)
        end, s).
Proof.
  intros version command long reorder args x e s L. unfold pp_main, pp_options. destruct (pp_stops long reorder version command args x L) as (evs & ops & -> & G). rewrite G. destruct x; reflexivity.
Qed.
Print Assumptions C67_stops.

(** Every command line is of one of these kinds, and not of both; and it can be
    read in one way only. *)
Theorem C67_every_line : forall long reorder args,
  ((exists c ops, PpLine long reorder args c ops) \/ exists x, PpStops long reorder args x) /\
  (forall c ops x, PpLine long reorder args c ops -> ~ PpStops long reorder args x) /\
  (forall c ops c' ops', PpLine long reorder args c ops -> PpLine long reorder args c' ops' -> c' = c /\ ops' = ops).
Proof.
  intros long reorder args. split; [exact (pp_total long reorder args)|]. split.
  - intros c ops x L S. destruct (pp_line long reorder "" "" args c ops L) as (evs & E & G). destruct (pp_stops long reorder "" "" args x S) as (evs' & ops' & E' & G').
    rewrite E in E'. injection E' as <- <-. specialize (G false). rewrite G' in G. discriminate G.
  - intros c ops c' ops' L L'. destruct (pp_line long reorder "" "" args c ops L) as (evs & E & G). destruct (pp_line long reorder "" "" args c' ops' L') as (evs' & E' & G').
    rewrite E in E'. injection E' as <- <-. specialize (G false). rewrite G' in G. injection G as ->. split; reflexivity.
Qed.
Print Assumptions C67_every_line.

(** Microsoft's compiler: fine if the options come first ... *)
Lemma pp_msvc_rest : forall version command rest o n, ~ In "/c"%string rest -> ~ In "/?"%string rest -> ~ In "/v"%string rest ->
  pp_loop_msvc version command rest o n = Go (o, n).
Proof.
  intros version command rest o n. induction rest as [|a r IH]; intros N1 N2 N3; [reflexivity|]. cbn [pp_loop_msvc].
  destruct (String.eqb_spec a "/c") as [->|]; [exfalso; apply N1; left; reflexivity|]. destruct (String.eqb_spec a "/?") as [->|]; [exfalso; apply N2; left; reflexivity|].
  destruct (String.eqb_spec a "/v") as [->|]; [exfalso; apply N3; left; reflexivity|]. apply IH; intro I; [apply N1|apply N2|apply N3]; right; exact I.
Qed.
Lemma pp_msvc_first : forall version command n rest o k,
  pp_loop_msvc version command (repeat "/c"%string n ++ rest) o k = pp_loop_msvc version command rest (o || negb (Nat.eqb n 0)) (n + k).
Proof.
  intros version command n rest. induction n as [|n IH]; intros o k; [cbn; rewrite orb_false_r; reflexivity|]. cbn [repeat Datatypes.app pp_loop_msvc String.eqb Ascii.eqb]. cbn. rewrite IH.
  replace (n + S k)%nat with (S (n + k)) by lia. destruct o; cbn; destruct (Nat.eqb n 0); reflexivity.
Qed.
Theorem C67_msvc_options_first : forall version command n rest e s, ~ In "/c"%string rest -> ~ In "/?"%string rest -> ~ In "/v"%string rest ->
  pp_main version command Msvc (repeat "/c"%string n ++ rest) e s = IFF_prettyPrint (hd_error rest) (negb (Nat.eqb n 0)) e s.
Proof.
  intros version command n rest e s N1 N2 N3. unfold pp_main, pp_options. rewrite pp_msvc_first, pp_msvc_rest by assumption. cbn [orb]. rewrite Nat.add_0_r.
  replace (nth_error (repeat "/c"%string n ++ rest) n) with (hd_error rest); [reflexivity|]. induction n as [|n IH]; [destruct rest; reflexivity|exact IH].
Qed.
Print Assumptions C67_msvc_options_first.

(** ... but an option behind the file name replaces it. *)
Theorem C67_msvc_option_last_refuted : forall version command e s,
  pp_main version command Msvc ["file.iff"; "/c"]%string e s = IFF_prettyPrint (Some "/c"%string) true e s.
Proof. reflexivity. Qed.
Print Assumptions C67_msvc_option_last_refuted.

(** Help and the version there: the first of the two decides, wherever it is. *)
Theorem C67_msvc_stops : forall version command pre rest e s, ~ In "/?"%string pre -> ~ In "/v"%string pre ->
  pp_main version command Msvc (pre ++ "/?"%string :: rest) e s = Done ((0, pp_usage Msvc command), s) /\
  pp_main version command Msvc (pre ++ "/v"%string :: rest) e s = Done ((0, print_version version command), s).
Proof.
  intros version command pre rest e s N1 N2.
  assert (X : forall x, x = "/?"%string \/ x = "/v"%string -> forall o n, pp_loop_msvc version command (pre ++ x :: rest) o n =
    Quit 0 (if String.eqb x "/?" then pp_usage Msvc command else print_version version command)).
  { intros x K. induction pre as [|a r IH]; intros o n; [destruct K as [-> | ->]; reflexivity|]. cbn [Datatypes.app pp_loop_msvc].
    rewrite (proj2 (String.eqb_neq a "/?")), (proj2 (String.eqb_neq a "/v")) by (intros ->; (apply N1 + apply N2); left; reflexivity).
    rewrite !IH by (intro I; (apply N1 + apply N2); right; exact I). destruct (String.eqb a "/c"); reflexivity. }
  unfold pp_main, pp_options. rewrite !X by auto. split; reflexivity.
Qed.
Print Assumptions C67_msvc_stops.

(** The help text.  Where long options are understood, it lists exactly the
    options there are: a letter or a long option is not turned down if and only
    if it is listed (a long one may be abbreviated). *)
Lemma lines_some : forall s, lines s <> [].
Proof. destruct s as [|c s]; cbn [lines]; [discriminate|]. destruct (Ascii.eqb c newline); [discriminate|]. destruct (lines s); discriminate. Qed.
Lemma one_line_lines : forall s, one_line s -> lines s = [s].
Proof.
  induction s as [|c s IH]; intro O; [reflexivity|]. cbn [lines]. destruct (Ascii.eqb_spec c newline) as [->|N].
  - exfalso. exact (O EmptyString s eq_refl).
  - rewrite IH; [reflexivity|]. intros a b ->. exact (O (String c a) b eq_refl).
Qed.
Lemma lines_line : forall a r, lines a = [a] -> lines (a ++ String newline r)%string = a :: lines r.
Proof.
  induction a as [|c a IH]; intros r L; [reflexivity|]. cbn [lines append] in *. destruct (Ascii.eqb c newline); [discriminate|].
  destruct (lines a) as [|l ls] eqn:E; [exfalso; exact (lines_some _ E)|].
  injection L as -> ->. rewrite (IH r eq_refl). reflexivity.
Qed.
Lemma lines_join : forall a b, lines a = [a] -> lines b = [b] -> lines (a ++ b)%string = [(a ++ b)%string].
Proof.
  induction a as [|c a IH]; intros b L M; [exact M|]. cbn [lines append] in *. destruct (Ascii.eqb c newline); [discriminate|].
  destruct (lines a) as [|l ls] eqn:E; [exfalso; exact (lines_some _ E)|].
  injection L as -> ->. rewrite (IH b eq_refl M). reflexivity.
Qed.
Lemma append_assoc : forall a b c, ((a ++ b) ++ c)%string = (a ++ b ++ c)%string.
Proof. induction a as [|x a IH]; intros b c; [reflexivity|]. cbn. f_equal. apply IH. Qed.
Lemma documented_usage : forall command tail rest, one_line command -> lines tail = [tail] ->
  documented ("Usage: " ++ command ++ tail ++ String newline rest) = documented rest.
Proof.
  intros command tail rest O T. unfold documented. rewrite <- (append_assoc command), <- append_assoc.
  rewrite lines_line by (apply lines_join; [reflexivity|apply lines_join; [apply one_line_lines; exact O|exact T]]). reflexivity.
Qed.
Lemma pp_documented : forall long reorder command, one_line command -> documented (pp_usage (Getopt long reorder) command) =
  ["-c"; "--disable-check"; "-h"; "--help"; "-v"; "--version"]%string.
Proof. intros long reorder command O. unfold pp_usage. etransitivity; [apply documented_usage; [exact O|reflexivity]|vm_compute; reflexivity]. Qed.

Lemma pp_not_invalid : forall long reorder args x, PpStops long reorder args x -> x <> Invalid -> ~ PpStops long reorder args Invalid.
Proof.
  intros long reorder args x S N I. destruct (pp_stops long reorder "" "" args x S) as (evs & ops & E & G). destruct (pp_stops long reorder "" "" args Invalid I) as (evs' & ops' & E' & G').
  rewrite E in E'. injection E' as <- <-. specialize (G false). specialize (G' false). rewrite G' in G. destruct x; [discriminate G|discriminate G|congruence].
Qed.
Lemma prefix_app : forall p r, prefix p (p ++ r) = true.
Proof. induction p as [|x p IH]; intro r; [destruct r; reflexivity|]. cbn. destruct (Ascii.ascii_dec x x); [apply IH|congruence]. Qed.
Lemma abbreviates_dec : forall s name, abbreviates s name \/ ~ abbreviates s name.
Proof.
  intros s name. destruct s as [|c s]; [right; intros [N _]; apply N; reflexivity|]. destruct (prefix (String c s) name) eqn:E.
  - left. split; [discriminate|]. revert E. generalize (String c s). intro p. revert name. induction p as [|x p IH]; intros name E; [exists name; reflexivity|].
    destruct name as [|y name]; [discriminate|]. cbn in E. destruct (Ascii.ascii_dec x y) as [->|]; [|discriminate]. destruct (IH name E) as [r ->]. exists r. reflexivity.
  - right. intros [_ [r ->]]. rewrite prefix_app in E. discriminate E.
Qed.

Theorem C67_help_lists_the_options : forall reorder command, one_line command ->
  (forall x, x <> "-"%char ->
    (~ PpStops true reorder [String "-" (String x "")] Invalid <-> In (String "-" (String x "")) (documented (pp_usage (Getopt true reorder) command)))) /\
  (forall s, s <> EmptyString ->
    (~ PpStops true reorder ["--" ++ s]%string Invalid <->
     exists name, abbreviates s name /\ In ("--" ++ name)%string (documented (pp_usage (Getopt true reorder) command)))).
Proof.
  intros reorder command O. rewrite (pp_documented true reorder command O). split.
  - intros x D. split.
    + intro N. destruct (Ascii.ascii_dec x "c") as [->|NC]; [left; reflexivity|]. destruct (Ascii.ascii_dec x "h") as [->|NH]; [right; right; left; reflexivity|].
      destruct (Ascii.ascii_dec x "v") as [->|NV]; [do 4 right; left; reflexivity|]. exfalso. apply N. apply PT_here.
      apply (PS_letter _ 0 x ""); try assumption. intros _ E. contradiction.
    + intros [E|[E|[E|[E|[E|[E|[]]]]]]]; try discriminate E; injection E as <-.
      * intro I. refine (proj1 (proj2 (C67_every_line true reorder _)) _ _ _ _ I). eapply PL_flag; [exact (CF_short _ 0)|apply PL_nil].
      * apply (pp_not_invalid _ _ _ Help); [apply PT_here; exact (PS_help _ 0 "")|discriminate].
      * apply (pp_not_invalid _ _ _ Version); [apply PT_here; exact (PS_version _ 0 "")|discriminate].
  - intros s NE. split.
    + intro N. destruct (abbreviates_dec s "disable-check") as [A|NC]; [eexists; split; [exact A|right; left; reflexivity]|].
      destruct (abbreviates_dec s "help") as [A|NH]; [eexists; split; [exact A|do 3 right; left; reflexivity]|].
      destruct (abbreviates_dec s "version") as [A|NV]; [eexists; split; [exact A|do 5 right; left; reflexivity]|].
      exfalso. apply N. apply PT_here. apply PS_long; auto.
    + intros (name & A & [E|[E|[E|[E|[E|[E|[]]]]]]]); try discriminate E; injection E as <-.
      * intro I. refine (proj1 (proj2 (C67_every_line true reorder _)) _ _ _ _ I). eapply PL_flag; [apply CF_long; [reflexivity|exact A]|apply PL_nil].
      * apply (pp_not_invalid _ _ _ Help); [apply PT_here; apply PS_long_help; [reflexivity|exact A]|discriminate].
      * apply (pp_not_invalid _ _ _ Version); [apply PT_here; apply PS_long_version; [reflexivity|exact A]|discriminate].
Qed.
Print Assumptions C67_help_lists_the_options.

(** What [-v] shows: the first line names the command, the package and the
    version of the package, in this order; then there is an empty line, and the
    copyright. *)
Theorem C67_version_shows_the_version : forall version command, one_line command -> one_line version ->
  exists copyright, lines (print_version version command) = [(command ++ " (libiff) " ++ version)%string; EmptyString; copyright; EmptyString].
Proof.
  intros version command C V. eexists. unfold print_version.
  transitivity (lines ((command ++ " (libiff) " ++ version) ++ String newline (nl ++ "Copyright (C) 2012-2015 Sander van der Burg" ++ nl))%string).
  { f_equal. rewrite !append_assoc. reflexivity. }
  rewrite lines_line by (repeat apply lines_join; first [apply one_line_lines; assumption|reflexivity]). vm_compute. reflexivity.
Qed.
Print Assumptions C67_version_shows_the_version.

(** Built without getopt_long, iffpp lists long options in its help text, and
    turns them down. *)
Theorem C67_help_lists_the_options_refuted : forall reorder command s, one_line command -> s <> EmptyString ->
  PpStops false reorder ["--" ++ s]%string Invalid /\ In "--help"%string (documented (pp_usage (Getopt false reorder) command)).
Proof.
  intros reorder command s O N. split; [|rewrite pp_documented by exact O; do 3 right; left; reflexivity].
  apply PT_here. apply (PS_letter _ 0 "-" s); try discriminate. auto.
Qed.
Print Assumptions C67_help_lists_the_options_refuted.

Example C67_example :
  PpLine true true ["a.iff"; "--dis"; "-"; "-cc"; "--"; "-h"]%string true ["a.iff"; "-"; "-h"]%string /\
  PpLine false false ["-c"; "a.iff"; "-h"]%string true ["a.iff"; "-h"]%string /\
  PpStops true true ["a.iff"; "-cvx"; "--nonsense"]%string Version /\ PpStops true true ["--help=all"]%string Invalid /\
  one_line "/usr/bin/iffpp" /\ ~ one_line ("a" ++ nl ++ "b")%string.
Proof.
  assert (OP : operand "a.iff") by (right; intros r E; discriminate E).
  split; [|split; [|split]].
  - apply PL_operand; [exact OP|reflexivity|]. eapply PL_flag; [apply (CF_long _ "dis"); [reflexivity|split; [discriminate|exists "able-check"%string; reflexivity]]|].
    apply PL_operand; [left; reflexivity|reflexivity|]. eapply PL_flag; [exact (CF_short _ 1)|]. apply PL_dashes.
  - eapply PL_flag; [exact (CF_short _ 0)|]. apply PL_first; [exact OP|reflexivity].
  - apply PT_operand; [exact OP|reflexivity|]. apply PT_here. exact (PS_version _ 1 "x").
  - split; [apply PT_here; apply (PS_long _ "help=all"); [reflexivity|discriminate| | |]; intros (_ & r & E); discriminate E|]. split.
    + intros a b E. assert (L : lines "/usr/bin/iffpp" = ["/usr/bin/iffpp"%string]) by reflexivity. rewrite E in L. clear E.
      assert (X : forall a, lines (a ++ String newline b)%string <> [(a ++ String newline b)%string]); [|exact (X _ L)]. clear.
      induction a as [|c a IH]; cbn [append lines].
      * cbn. intro E. injection E as E. discriminate E.
      * destruct (Ascii.eqb c newline); [discriminate|]. intro E. apply IH. destruct (lines (a ++ String newline b)) as [|l ls] eqn:EL; [injection E as E; destruct a; discriminate E|]. injection E as -> ->. reflexivity.
    + intro O. exact (O "a"%string "b"%string eq_refl).
Qed.

(** ** C68.  iffjoin *)

Lemma join_rest : forall e s output inputs, usual e -> Z.of_nat (List.length inputs) * sizeof_pointer < 2 ^ (size_t_bits e - 1) ->
  exists s1, untouched s s1 /\ sy_log s1 = sy_log s /\
  (ok <-s no_streams (malloc (Z.of_nat (List.length inputs) * sizeof_pointer)) ;;
   if ok : bool then status <-s IFF_join inputs output ;; retS (status, EmptyString) else liftS (Undefined UB_null_deref)) e s =
  match IFF_join inputs output e s1 with Done (z, s') => Done ((z, EmptyString), s') | Undefined u => Undefined u | OutOfFuel => OutOfFuel end.
Proof.
  intros e s output inputs U L. eexists (mkSys _ _ _ _ _ _ _ _). split; [|split]; [| |unfold no_streams, bindS at 1 2, with_streams, malloc; rewrite (proj2 (Z.ltb_lt _ _) L), (memory _ U); unfold retS at 1; cbn [andb fst w_log w_allocs]; unfold bindS; reflexivity]; [repeat split|reflexivity].
Qed.

(** The operands, in order, are joined into the file named last, or to standard
    output if none is named. *)
Theorem C68_line : forall version command long reorder args outs ins e s, JoinLine long reorder args outs ins -> ins <> [] ->
  usual e -> Z.of_nat (List.length ins) * sizeof_pointer < 2 ^ (size_t_bits e - 1) ->
  exists s1, untouched s s1 /\ sy_log s1 = sy_log s /\
  join_main version command (Getopt long reorder) args e s =
  match IFF_join ins (last_name outs) e s1 with Done (z, s') => Done ((z, EmptyString), s') | Undefined u => Undefined u | OutOfFuel => OutOfFuel end.
Proof.
  intros version command long reorder args outs ins e s L N U M. unfold join_main, join_options. destruct (join_line long reorder version command args outs ins L) as (evs & -> & G). rewrite G. fold (last_name outs).
  destruct (join_rest e s (last_name outs) ins U M) as (s1 & T & LG & E). exists s1. split; [exact T|]. split; [exact LG|]. rewrite <- E. destruct ins; [congruence|reflexivity].
Qed.
Print Assumptions C68_line.

(** End to end: with readable, valid inputs and a writable output, iffjoin
    exits with 0 and leaves a CAT of the inputs' trees. *)
Theorem C68_joins : forall version command long reorder args outs ins out trees e e2 s, JoinLine long reorder args outs ins -> ins <> [] ->
  last_name outs = Some out -> usual e -> usual e2 -> Z.of_nat (List.length ins) * sizeof_pointer < 2 ^ (size_t_bits e - 1) ->
  12 + total_size s ins <= INT_MAX -> sy_room s out = None -> sy_writable s out = true -> Forall2 (accepted e s) ins trees ->
  exists s' cat g s2, join_main version command (Getopt long reorder) args e s = Done ((0, EmptyString), s') /\
    IFF_readFile out None e2 s' = Done (Some cat, s2) /\ chunkId cat = CAT_ID /\ as_group cat = Some (g, trees) /\ common_type trees g /\
    (forall other, other <> out -> sy_files s' other = sy_files s other).
Proof.
  intros version command long reorder args outs ins out trees e e2 s L N LN U U2 M S NR WR F. destruct (C68_line version command long reorder args outs ins e s L N U M) as (s1 & T & _ & ->). rewrite LN.
  pose proof T as (E1 & E2 & E3 & _).
  assert (F1 : forall f c, accepted e s f c -> accepted e s1 f c) by (intros f c A; apply (accepted_frame e s); [exact U|rewrite E1; reflexivity|exact A]).
  assert (FF : Forall2 (accepted e s1) ins trees) by (clear - F F1; induction F; constructor; auto).
  assert (S1 : 12 + total_size s1 ins <= INT_MAX) by (unfold total_size, input_size in *; rewrite E1; exact S). rewrite <- E3 in NR. rewrite <- E2 in WR.
  destruct (C45_succeeds e ins trees out s1 U S1 NR WR FF) as (s' & J). rewrite J.
  destruct (C45_members_in_order e e2 ins out s1 s' U U2 S1 NR J) as (cat & g & trees' & s2 & R & AG & F' & CT & OT).
  destruct (C44_output_valid e e2 ins out s1 s' U U2 S1 NR J) as (cat' & s2' & R' & _ & CI & _). rewrite R in R'. injection R' as <- <-.
  assert (trees' = trees).
  { clear - FF F'. revert trees' F'. induction FF as [|f c fs cs A FF IH]; intros trees' F'; inversion F' as [|f1 c' fs1 cs' A' FF']; subst; [reflexivity|]. rewrite (IH _ FF'). f_equal.
    destruct A as [(sa & Ra) _], A' as [(sb & Rb) _]. rewrite Ra in Rb. injection Rb as -> _. reflexivity. }
  subst trees'. exists s', cat, g, s2. split; [reflexivity|]. split; [exact R|]. split; [exact CI|]. split; [exact AG|]. split; [exact (CT N)|]. intros other NE. rewrite (OT other NE), E1. reflexivity.
Qed.
Print Assumptions C68_joins.

(** Without operands: a message and status 1; no file is touched. *)
Theorem C68_no_inputs : forall version command long reorder args outs e s, JoinLine long reorder args outs [] ->
  exists s', join_main version command (Getopt long reorder) args e s = Done ((1, EmptyString), s') /\ untouched s s' /\
  sy_log s' = ("ERROR: No IFF input files given!" ++ nl)%string :: sy_log s.
Proof.
  intros version command long reorder args outs e s L. unfold join_main, join_options. destruct (join_line long reorder version command args outs [] L) as (evs & -> & G). rewrite G.
  eexists. split; [reflexivity|]. split; [repeat split|reflexivity].
Qed.
Print Assumptions C68_no_inputs.

Theorem C68_stops : forall version command long reorder args x e s, JoinStops long reorder args x ->
  join_main version command (Getopt long reorder) args e s =
  Done (match x with
        | Help => (0, join_usage (Getopt long reorder) command)
        | Version => (0, print_version version command)
        | Invalid => (1, join_usage (Getopt long reorder) command)
        end, s).
Proof.
  intros version command long reorder args x e s L. unfold join_main, join_options. destruct (join_stops long reorder version command args x L) as (evs & ops & -> & G). rewrite G. destruct x; reflexivity.
Qed.
Print Assumptions C68_stops.

Theorem C68_every_line : forall long reorder args,
  ((exists outs ins, JoinLine long reorder args outs ins) \/ exists x, JoinStops long reorder args x) /\
  (forall outs ins x, JoinLine long reorder args outs ins -> ~ JoinStops long reorder args x) /\
  (forall outs ins outs' ins', JoinLine long reorder args outs ins -> JoinLine long reorder args outs' ins' -> last_name outs' = last_name outs /\ ins' = ins).
Proof.
  intros long reorder args. split; [exact (join_total long reorder args)|]. split.
  - intros c ops x L S. destruct (join_line long reorder "" "" args c ops L) as (evs & E & G). destruct (join_stops long reorder "" "" args x S) as (evs' & ops' & E' & G').
    rewrite E in E'. injection E' as <- <-. specialize (G None). rewrite G' in G. discriminate G.
  - intros c ops c' ops' L L'. destruct (join_line long reorder "" "" args c ops L) as (evs & E & G). destruct (join_line long reorder "" "" args c' ops' L') as (evs' & E' & G').
    rewrite E in E'. injection E' as <- <-. specialize (G None). rewrite G' in G. injection G as G. split; [exact G|reflexivity].
Qed.
Print Assumptions C68_every_line.

(** Microsoft's compiler: without options all is well ... *)
Theorem C68_msvc_no_options : forall version command ins e s, ins <> [] -> ~ In "/o"%string ins -> ~ In "/?"%string ins -> ~ In "/v"%string ins ->
  usual e -> Z.of_nat (List.length ins) * sizeof_pointer < 2 ^ (size_t_bits e - 1) ->
  exists s1, untouched s s1 /\ sy_log s1 = sy_log s /\
  join_main version command Msvc ins e s =
  match IFF_join ins None e s1 with Done (z, s') => Done ((z, EmptyString), s') | Undefined u => Undefined u | OutOfFuel => OutOfFuel end.
Proof.
  intros version command ins e s N N1 N2 N3 U M. assert (X : forall l, ~ In "/o"%string l -> ~ In "/?"%string l -> ~ In "/v"%string l -> join_loop_msvc version command l None 0 = Go (None, O)).
  { clear. induction l as [|a r IH]; intros N1 N2 N3; [reflexivity|]. cbn [join_loop_msvc].
    destruct (String.eqb_spec a "/o") as [->|]; [exfalso; apply N1; left; reflexivity|]. destruct (String.eqb_spec a "/?") as [->|]; [exfalso; apply N2; left; reflexivity|].
    destruct (String.eqb_spec a "/v") as [->|]; [exfalso; apply N3; left; reflexivity|]. apply IH; intro I; [apply N1|apply N2|apply N3]; right; exact I. }
  unfold join_main, join_options. rewrite (X ins N1 N2 N3). cbn [skipn]. destruct (join_rest e s None ins U M) as (s1 & T & LG & E). exists s1. split; [exact T|]. split; [exact LG|]. rewrite <- E. destruct ins; [congruence|reflexivity].
Qed.
Print Assumptions C68_msvc_no_options.

(** ... but the documented "/o FILE" writes to a file called "/o", and takes
    FILE as the first input. *)
Theorem C68_msvc_output_refuted : forall version command e s, usual e ->
  exists s1, untouched s s1 /\
  join_main version command Msvc ["/o"; "out.iff"; "a.iff"]%string e s =
  match IFF_join ["out.iff"; "a.iff"]%string (Some "/o"%string) e s1 with Done (z, s') => Done ((z, EmptyString), s') | Undefined u => Undefined u | OutOfFuel => OutOfFuel end.
Proof.
  intros version command e s U. destruct (join_rest e s (Some "/o"%string) ["out.iff"; "a.iff"]%string U) as (s1 & T & _ & E).
  - unfold size_t_bits. destruct (lp64 e); reflexivity.
  - exists s1. split; [exact T|]. exact E.
Qed.
Print Assumptions C68_msvc_output_refuted.

Theorem C68_msvc_stops : forall version command pre rest e s, ~ In "/?"%string pre -> ~ In "/v"%string pre ->
  join_main version command Msvc (pre ++ "/?"%string :: rest) e s = Done ((0, join_usage Msvc command), s) /\
  join_main version command Msvc (pre ++ "/v"%string :: rest) e s = Done ((0, print_version version command), s).
Proof.
  intros version command pre rest e s N1 N2.
  assert (X : forall x, x = "/?"%string \/ x = "/v"%string -> forall o n, join_loop_msvc version command (pre ++ x :: rest) o n =
    Quit 0 (if String.eqb x "/?" then join_usage Msvc command else print_version version command)).
  { intros x K. induction pre as [|a r IH]; intros o n; [destruct K as [-> | ->]; reflexivity|]. cbn [Datatypes.app join_loop_msvc].
    rewrite (proj2 (String.eqb_neq a "/?")), (proj2 (String.eqb_neq a "/v")) by (intros ->; (apply N1 + apply N2); left; reflexivity).
    rewrite !IH by (intro I; (apply N1 + apply N2); right; exact I). destruct (String.eqb a "/o"); reflexivity. }
  unfold join_main, join_options. rewrite !X by auto. split; reflexivity.
Qed.
Print Assumptions C68_msvc_stops.

(** The help text, as for iffpp; the output option needs a file name, and the
    long one is listed with it. *)
Lemma join_documented : forall long reorder command, one_line command -> documented (join_usage (Getopt long reorder) command) =
  ["-o"; "--output-file=FILE"; "-h"; "--help"; "-v"; "--version"]%string.
Proof. intros long reorder command O. unfold join_usage. etransitivity; [apply documented_usage; [exact O|reflexivity]|vm_compute; reflexivity]. Qed.
Lemma join_not_invalid : forall long reorder args x, JoinStops long reorder args x -> x <> Invalid -> ~ JoinStops long reorder args Invalid.
Proof.
  intros long reorder args x S N I. destruct (join_stops long reorder "" "" args x S) as (evs & ops & E & G). destruct (join_stops long reorder "" "" args Invalid I) as (evs' & ops' & E' & G').
  rewrite E in E'. injection E' as <- <-. specialize (G None). specialize (G' None). rewrite G' in G. destruct x; [discriminate G|discriminate G|congruence].
Qed.

Theorem C68_help_lists_the_options : forall reorder command file, one_line command ->
  (forall x, x <> "-"%char ->
    (~ JoinStops true reorder [String "-" (String x ""); file] Invalid -> In (String "-" (String x "")) (documented (join_usage (Getopt true reorder) command)))) /\
  (forall x, operand file -> In x (documented (join_usage (Getopt true reorder) command)) -> ~ JoinStops true reorder [x; file] Invalid).
Proof.
  intros reorder command file O. rewrite (join_documented true reorder command O). split.
  - intros x D N. destruct (Ascii.ascii_dec x "o") as [->|NC]; [left; reflexivity|]. destruct (Ascii.ascii_dec x "h") as [->|NH]; [right; right; left; reflexivity|].
    destruct (Ascii.ascii_dec x "v") as [->|NV]; [do 4 right; left; reflexivity|]. exfalso. apply N. apply JT_here.
    apply (JS_letter _ x ""); try assumption. intros E. contradiction.
  - intros x F I. assert (LINE : exists outs ins, JoinLine true reorder [file] outs ins).
    { destruct reorder; [exists [], [file]; apply JL_operand; [exact F|reflexivity|apply JL_nil]|exists [], [file]; apply JL_first; [exact F|reflexivity]]. }
    destruct LINE as (outs & ins & L). destruct I as [<-|[<-|[<-|[<-|[<-|[<-|[]]]]]]].
    + intro I. refine (proj1 (proj2 (C68_every_line true reorder _)) _ _ _ _ I). eapply JL_next; [apply ON_short|apply JL_nil].
    + intro I. refine (proj1 (proj2 (C68_every_line true reorder _)) _ _ _ _ I). eapply JL_same; [|exact L]. apply (OS_long _ "output-file" "FILE"); [reflexivity|].
      split; [discriminate|exists EmptyString; reflexivity].
    + apply (join_not_invalid _ _ _ Help); [apply JT_here; exact (JS_help _ "")|discriminate].
    + apply (join_not_invalid _ _ _ Help); [apply JT_here; apply (JS_long_help _ "help"); [reflexivity|]; split; [discriminate|exists EmptyString; reflexivity]|discriminate].
    + apply (join_not_invalid _ _ _ Version); [apply JT_here; exact (JS_version _ "")|discriminate].
    + apply (join_not_invalid _ _ _ Version); [apply JT_here; apply (JS_long_version _ "version"); [reflexivity|]; split; [discriminate|exists EmptyString; reflexivity]|discriminate].
Qed.
Print Assumptions C68_help_lists_the_options.

Theorem C68_help_lists_the_options_refuted : forall reorder command s rest, one_line command -> s <> EmptyString ->
  JoinStops false reorder (("--" ++ s)%string :: rest) Invalid /\ In "--help"%string (documented (join_usage (Getopt false reorder) command)).
Proof.
  intros reorder command s rest O N. split; [|rewrite join_documented by exact O; do 3 right; left; reflexivity].
  apply JT_here. apply (JS_letter _ "-" s); try discriminate. auto.
Qed.
Print Assumptions C68_help_lists_the_options_refuted.

(** If the array of names cannot be allocated, NULL is written to. *)
Theorem C68_no_memory_refuted : forall version command long reorder args outs ins e s, JoinLine long reorder args outs ins -> ins <> [] ->
  malloc_ok e (sy_allocs s) (Z.of_nat (List.length ins) * sizeof_pointer) = false ->
  join_main version command (Getopt long reorder) args e s = Undefined UB_null_deref.
Proof.
  intros version command long reorder args outs ins e s L N M. unfold join_main, join_options. destruct (join_line long reorder version command args outs ins L) as (evs & -> & G). rewrite G.
  destruct ins as [|f ins]; [congruence|]. unfold no_streams, bindS, with_streams, malloc. cbn [w_allocs]. rewrite M, andb_false_r. reflexivity.
Qed.
Print Assumptions C68_no_memory_refuted.

Example C68_example :
  JoinLine true true ["a.iff"; "-ox"; "b.iff"; "--out=b.iff"; "--"; "a.iff"]%string ["x"; "b.iff"]%string ["a.iff"; "b.iff"; "a.iff"]%string /\
  JoinLine true true ["-o"; "-h"; "a.iff"]%string ["-h"]%string ["a.iff"]%string /\
  JoinStops true true ["a.iff"; "--output-file"]%string Invalid /\ JoinStops true true ["-o"; "x"; "-vh"]%string Version /\
  match join_main "1.0" "iffjoin" (Getopt true true) ["a.iff"; "-ox"; "b.iff"; "--out=b.iff"; "--"; "a.iff"]%string (host false) (two_files (encode ex_list)) with
  | Done ((z, _), s') => z = 0 /\ match IFF_readFile "b.iff" None (host false) s' with
      | Done (Some c, _) => as_group c = Some (ID_of "TEST", [ex_form; ex_list; ex_form]) | _ => False end
  | _ => False end.
Proof.
  assert (OP : forall c s, c <> "-"%char -> operand (String c s)) by (intros c s N; right; intros r E; injection E as E _; exact (N E)).
  split; [|split; [|split; [|split]]].
  - apply JL_operand; [apply OP; discriminate|reflexivity|]. eapply JL_same; [exact (OS_short _ "x" ltac:(discriminate))|]. apply JL_operand; [apply OP; discriminate|reflexivity|].
    eapply JL_same; [apply (OS_long _ "out" "b.iff"); [reflexivity|split; [discriminate|exists "put-file"%string; reflexivity]]|]. apply JL_dashes.
  - eapply JL_next; [apply ON_short|]. apply JL_operand; [apply OP; discriminate|reflexivity|apply JL_nil].
  - apply JT_operand; [apply OP; discriminate|reflexivity|]. apply JT_missing. apply (ON_long _ "output-file"); [reflexivity|split; [discriminate|exists EmptyString; reflexivity]].
  - eapply JT_next; [apply ON_short|]. apply JT_here. exact (JS_version _ "h").
  - vm_compute. split; reflexivity.
Qed.
