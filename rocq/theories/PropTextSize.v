(** * Property C97: how much text printing takes *)

From Coq Require Import ZArith List Bool String Ascii Lia.
From Coq Require Import Strings.Byte.
From Verif Require Import Machine Io Types Build Read Write Check Print Iff Main Process TestExt LineSpec Spec Lemmas IoProofs RegProofs WriteProofs EncodeProofs
  Grammar SoundProofs RoundProofs ApiProofs FileProofs CheckProofs ConfProofs BuiltProofs PrintProofs LayoutSpec LayoutProofs Examples PropRegistry PropRead PropFields PropPrint PropTools PropMain PropProcess
  HeapProofs PropLayout TextSizeSpec TextSizeProofs.
Import ListNotations.
Open Scope Z_scope.

(** A tree as deep as [height c] that was read from [n] bytes takes at most
    n * (8 + 2 * (level + height)) characters; and it takes 12 bytes to make a
    tree deeper by one. *)
Theorem C97_text : forall e w c w' level t, strict_c e = false ->
  IFF_readFd None e w = Done (Some c, w') -> IFF_print c level None = Done t ->
  let n := zlength (r_rest (w_in w)) - zlength (r_rest (w_in w')) in
  Z.of_nat (String.length t) <= n * (8 + 2 * (Z.of_nat level + Z.of_nat (height c))) /\ 12 * Z.of_nat (height c) <= n + 4.
Proof.
  intros e w c w' level t NS R P n. destruct (C87_read None no_apps e w c w' level default_registry NS no_apps_sane (or_intror no_apps_none) R) as (ls & D & E). rewrite P in E. injection E as ->.
  destruct (readFd_sound None no_apps e w c w' default_registry NS no_apps_sane (or_intror no_apps_none) R) as (l & tl' & lg & m & PA & RW & ->).
  destruct (proj1 (parsed_bulk e no_apps no_apps_none) _ _ _ _ PA) as (F & B).
  assert (N : bulk c <= n).
  { unfold n. change (r_rest (w_in w)) with (rest w). rewrite RW, zlength_app. cbn. destruct tl' as [|x tl']; cbn [tl]; unfold zlength in *; cbn [List.length] in *; lia. }
  pose proof (proj1 (doc_short no_apps no_apps_none) _ _ _ _ D F (Z.of_nat level + Z.of_nat (height c)) ltac:(lia)) as X. unfold chars in X.
  pose proof (deep_bulk c). split; [nia|lia].
Qed.
Print Assumptions C97_text.

(** The same for any tree, read or built, in terms of the bytes it has in its
    headers, types and data. *)
Theorem C97_any_tree : forall c level t, Typed no_apps 0 c -> HasData c -> SizesFit c -> IFF_print c level None = Done t ->
  Z.of_nat (String.length t) <= bulk c * (8 + 2 * (Z.of_nat level + Z.of_nat (height c))).
Proof.
  intros c level t T H F P. destruct (C87_layout None no_apps c level default_registry T H) as (ls & D & _ & E). rewrite P in E. injection E as ->.
  pose proof (proj1 (doc_short no_apps no_apps_none) _ _ _ _ D F (Z.of_nat level + Z.of_nat (height c)) ltac:(lia)) as X. unfold chars in X. lia.
Qed.
Print Assumptions C97_any_tree.

(** What iffpp is given: the file it is asked to print, or its standard input *)
Definition given (s : sys) (ops : list string) : list byte :=
  match ops with
  | f :: _ => match sy_files s f with Some l => l | None => [] end
  | [] => r_rest (sy_stdin s)
  end.
Lemma text_bytes_length : forall s, zlength (text_bytes s) = chars s.
Proof. unfold zlength, chars. induction s as [|a s IH]; [reflexivity|]. cbn [text_bytes List.length String.length]. lia. Qed.
Lemma room_shorter : forall r l, zlength (room_for r l) <= zlength l.
Proof. intros [n|] l; unfold room_for, zlength; [rewrite firstn_length|]; lia. Qed.

(** Of n bytes iffpp makes at most n * (n + 52) / 6 characters. *)
Theorem C97_iffpp : forall version command long reorder args check ops e s x, PpLine long reorder args check ops -> starting s -> strict_c e = false ->
  iffpp version command (Getopt long reorder) args e s = Done x -> en_status x = 0 ->
  6 * zlength (en_stdout x) <= zlength (given s ops) * (zlength (given s ops) + 52).
Proof.
  intros version command long reorder args ck ops e s x L ST NS H Z. destruct (C87_iffpp version command long reorder args ck ops e s x L ST NS H Z) as (c & s1 & ls & R & D & ->).
  assert (X : exists w w', IFF_readFd None e w = Done (Some c, w') /\ r_rest (w_in w) = given s ops).
  { destruct ops as [|f ops]; cbn [hd_error IFF_read] in R.
    - unfold with_streams in R. destruct (IFF_readFd None e _) as [[oc w]|u|] eqn:E; try discriminate R. injection R as -> _. eexists _, _. split; [exact E|reflexivity].
    - unfold IFF_readFile in R. unfold given. destruct (sy_files s f) as [data|]; [|discriminate R]. unfold bindS, with_streams in R. destruct (IFF_readFd None e _) as [[oc w]|u|] eqn:E; try discriminate R. injection R as -> _. eexists _, _. split; [exact E|reflexivity]. }
  destruct X as (w & w' & X & G). destruct (C87_read None no_apps e w c w' 0%nat default_registry NS no_apps_sane (or_intror no_apps_none) X) as (ls' & D' & E).
  rewrite (doc_one _ _ _ _ _ D' _ D) in E. destruct (C97_text e w c w' 0%nat _ NS X E) as (A & B). rewrite <- G.
  pose proof (room_shorter (o_room (sy_stdout s)) (text_bytes (text_of_lines ls))). rewrite text_bytes_length in H0. unfold chars in H0.
  pose proof (zlength_nonneg _ (r_rest (w_in w'))). set (n := zlength (r_rest (w_in w))) in *. set (m := n - zlength (r_rest (w_in w'))) in *.
  assert (m <= n) by lia. assert (0 <= m) by lia. nia.
Qed.
Print Assumptions C97_iffpp.

(** ** Not in proportion to the file

    CATs nested in each other: the indentation alone grows with the square. *)
Fixpoint tower (k : nat) : chunk :=
  match k with
  | O => CGroup CAT_ID 4 (ID_of "JJJJ") []
  | S k => CGroup CAT_ID (4 + 12 * (Z.of_nat k + 1)) (ID_of "JJJJ") [tower k]
  end.
Lemma tower_wf : forall k ft, 12 * (Z.of_nat k + 1) <= INT_MAX -> WF no_apps ft (tower k) /\ zlength (encode (tower k)) = 12 * (Z.of_nat k + 1).
Proof.
  assert (J : in_range FId (ID_of "JJJJ")) by (vm_compute; split; congruence).
  induction k as [|k IH]; intros ft L.
  - split; [|reflexivity]. cbn [tower]. constructor; [right; left; reflexivity|exact J|intros c []|reflexivity|vm_compute; congruence].
  - destruct (IH (ID_of "JJJJ")) as (W & E); [lia|]. assert (W1 : WF no_apps ft (tower (S k))).
    { cbn [tower]. constructor; [right; left; reflexivity|exact J|intros c [<-|[]]; exact W| |lia]. cbn [flat_map]. rewrite zlength_app, E. change (zlength (@nil byte)) with 0. lia. }
    split; [exact W1|]. rewrite (WF_encode_length _ _ _ W1). cbn [tower chunkSize]. unfold physical, round_even.
    replace (4 + 12 * (Z.of_nat k + 1)) with (2 * (8 + 6 * Z.of_nat k)) by lia. rewrite Z.mul_comm, Z.mod_mul by lia. lia.
Qed.
Lemma tower_text : forall k ft d ls, Doc no_apps ft d (tower k) ls -> 12 * Z.of_nat d * (Z.of_nat k + 1) + 6 * Z.of_nat k * Z.of_nat k <= chars (text_of_lines ls).
Proof.
  induction k as [|k IH]; intros ft d ls D; cbn [tower] in D; inversion D as [ft' d' c' size body DE B]; subst; inversion B as [| | |ft' d' i s g l docs DS|]; subst;
    rewrite !chars_line, chars_lines, !chars_line, chars_lines, !chars_line.
  - pose proof (chars_nonneg ("'" ++ id_name (chunkId (CGroup CAT_ID 4 (ID_of "JJJJ") [])) ++ "' = {")). pose proof (chars_nonneg ("chunkSize = " ++ size ++ ";")). pose proof (chars_nonneg (type_label CAT_ID ++ " = '" ++ id_name (ID_of "JJJJ") ++ "';")).
    pose proof (chars_nonneg (text_of_lines docs)). change (chars "[") with 1. change (chars "];") with 2. change (chars "}") with 1. change (chars "") with 0. rewrite ?chars_nil, ?chars_last. lia.
  - inversion DS as [|ft' d' c' l' doc docs' DC DS']; subst. inversion DS'; subst. apply IH in DC. rewrite chars_lines, ?chars_nil, ?chars_last.
    set (hd := ("'" ++ _)%string) in *. set (sz := ("chunkSize = " ++ _)%string) in *. set (ty := (type_label _ ++ _)%string) in *.
    pose proof (chars_nonneg hd). pose proof (chars_nonneg sz). pose proof (chars_nonneg ty).
    change (chars "[") with 1. change (chars "];") with 2. change (chars "}") with 1. change (chars "") with 0. nia.
Qed.

(** So no factor will do: 12 (k + 1) bytes can take 6 k^2 characters, for every k
    for which such a file exists. *)
Theorem C97_proportion_refuted : forall k, 12 * (Z.of_nat k + 1) <= INT_MAX ->
  exists c w' t, zlength (encode c) = 12 * (Z.of_nat k + 1) /\
    IFF_readFd None (host false) (start (encode c)) = Done (Some c, w') /\ IFF_print c 0 None = Done t /\
    6 * Z.of_nat k * Z.of_nat k <= Z.of_nat (String.length t).
Proof.
  intros k L. destruct (tower_wf k 0 L) as (W & E). destruct (WF_parsed (host false) no_apps 0 _ W) as (lg & P & _).
  destruct (readFd_complete None no_apps (host false) (start (encode (tower k))) (encode (tower k)) [] (tower k) lg default_registry) as (n & R);
    [split; reflexivity|exact no_apps_sane|exact P|rewrite List.app_nil_r; reflexivity|rewrite E; unfold INT_MAX in L; cbn; lia|right; right; exact no_apps_none|].
  destruct (C87_read None no_apps (host false) _ _ _ 0%nat default_registry eq_refl no_apps_sane (or_intror no_apps_none) R) as (ls & D & PR).
  eexists (tower k), _, _. split; [exact E|]. split; [exact R|]. split; [exact PR|]. pose proof (tower_text k 0 0%nat ls D) as X. unfold chars in X. lia.
Qed.
Print Assumptions C97_proportion_refuted.

(** The hypotheses are met: a file of 90 bytes and its text *)
Example C97_example : exists w' t, IFF_readFd None (host false) (start (encode ex_list)) = Done (Some ex_list, w') /\ IFF_print ex_list 0 None = Done t /\
  zlength (encode ex_list) = 90 /\ height ex_list = 3%nat /\ String.length t = 577%nat.
Proof. eexists _, _. split; [vm_compute; reflexivity|]. split; [vm_compute; reflexivity|]. vm_compute. repeat split; reflexivity. Qed.
