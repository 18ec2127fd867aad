(** * Properties C48, C49: pretty printing *)

From Coq Require Import ZArith List Bool String Ascii Lia.
From Coq Require Import Strings.Byte.
From Verif Require Import Machine Io Types Build Read Write Check Print Iff TestExt Spec Lemmas RegProofs Grammar SoundProofs ApiProofs FileProofs Examples
  CheckProofs ConfProofs PrintProofs PropRegistry PropRead.
Import ListNotations.
Open Scope Z_scope.

(** ** C48.  Nothing is lost: trees without application chunks that print the
    same text are the same, IDs, types, sizes and data included. *)
Theorem C48_text_determines_tree : forall c1 c2 level t,
  Typed no_apps 0 c1 -> Typed no_apps 0 c2 -> Represented c1 -> Represented c2 -> LeafData c1 -> LeafData c2 ->
  IFF_print c1 level None = Done t -> IFF_print c2 level None = Done t -> c1 = c2.
Proof.
  intros c1 c2 level t T1 T2 R1 R2 L1 L2 P1 P2. unfold IFF_print in *.
  rewrite (printed _ default_registry c1 0 level T1 L1) in P1. rewrite (printed _ default_registry c2 0 level T2 L2) in P2.
  injection P1 as P1. injection P2 as P2.
  apply (shown_determines c1 c2 0 level ""%string ""%string T1 T2 R1 R2 L1 L2). rewrite P1, P2. reflexivity.
Qed.
Print Assumptions C48_text_determines_tree.

(** So do any two trees read from files. *)
Theorem C48_read_trees : forall e1 e2 w1 w2 c1 c2 w1' w2' level t, usual e1 -> usual e2 ->
  IFF_readFd None e1 w1 = Done (Some c1, w1') -> IFF_readFd None e2 w2 = Done (Some c2, w2') ->
  IFF_print c1 level None = Done t -> IFF_print c2 level None = Done t -> c1 = c2.
Proof.
  intros e1 e2 w1 w2 c1 c2 w1' w2' level t U1 U2 H1 H2.
  destruct (readFd_sound None no_apps e1 w1 c1 w1' default_registry (not_strict _ U1) no_apps_sane (or_intror no_apps_none) H1) as (l1 & t1 & g1 & n1 & P1 & _).
  destruct (readFd_sound None no_apps e2 w2 c2 w2' default_registry (not_strict _ U2) no_apps_sane (or_intror no_apps_none) H2) as (l2 & t2 & g2 & n2 & P2 & _).
  destruct (proj1 (Parsed_properties e1 no_apps no_apps_none) _ _ _ _ P1) as (A1 & A2 & _). destruct (proj1 (Parsed_properties e2 no_apps no_apps_none) _ _ _ _ P2) as (B1 & B2 & _).
  apply C48_text_determines_tree; auto; eapply (proj1 (Parsed_Typed _ _)); eassumption.
Qed.
Print Assumptions C48_read_trees.

(** The text of a TEXT chunk appears as it is. *)
Theorem C48_text_verbatim : forall size level, exists before after, forall text, zlength text = size ->
  IFF_print (CRaw TEXT_ID size (Some text)) level None = Done (before ++ text_of text ++ after)%string.
Proof.
  intros size level.
  exists (indent level ++ "'" ++ IFF_printId TEXT_ID ++ "' = {" ++ nl ++ indent (S level) ++ "chunkSize = " ++ dec size ++ ";" ++ nl ++
      indent level ++ "text = '" ++ nl ++ indent (S level))%string, (nl ++ indent level ++ "';" ++ nl ++ indent level ++ "}" ++ nl ++ nl)%string.
  intros text L. unfold IFF_print. rewrite (printed _ default_registry _ 0 level).
  - rewrite shown_raw. change (TEXT_ID =? TEXT_ID) with true. cbn [data_of]. unfold heading. cbn [chunkId chunkSize]. rewrite !str_assoc. reflexivity.
  - constructor; [|reflexivity]. vm_compute. intuition discriminate.
  - intros x I. inversion I; subst; eauto.
Qed.
Print Assumptions C48_text_verbatim.

(** Other data: two hexadecimal digits for each byte, in order; only blanks
    and line ends in between. *)
Definition hex_char (n : Z) : ascii := match String.get (Z.to_nat n) "0123456789abcdef" with Some c => c | None => "?"%char end.
Definition hex (b : byte) : string := String (hex_char (b2z b / 16)) (String (hex_char (b2z b mod 16)) "").
Fixpoint squeeze (s : string) : string :=
  match s with
  | EmptyString => EmptyString
  | String c r => if Ascii.eqb c " " || Ascii.eqb c "010" then squeeze r else String c (squeeze r)
  end.
Lemma squeeze_app : forall a b, squeeze (a ++ b) = (squeeze a ++ squeeze b)%string.
Proof. induction a as [|c a IH]; intro b; cbn [squeeze append]; [reflexivity|]. rewrite IH. destruct (_ || _); reflexivity. Qed.
Lemma squeeze_indent : forall n, squeeze (indent n) = ""%string.
Proof. induction n as [|n IH]; [reflexivity|]. cbn [indent]. rewrite squeeze_app, IH. reflexivity. Qed.
Lemma squeeze_hex : forall b, squeeze (two_digits b) = hex b.
Proof. destruct b; reflexivity. Qed.
Fixpoint hex_all (l : list byte) : string := match l with [] => "" | b :: r => hex b ++ hex_all r end%string.

Theorem C48_hex_dump : forall cid size level, ~ In cid group_ids -> cid <> TEXT_ID ->
  exists before after, forall data, zlength data = size -> exists dump,
    IFF_print (CRaw cid size (Some data)) level None = Done (before ++ dump ++ after)%string /\ squeeze dump = hex_all data.
Proof.
  intros cid size level NG NT.
  exists (indent level ++ "'" ++ IFF_printId cid ++ "' = {" ++ nl ++ indent (S level) ++ "chunkSize = " ++ dec size ++ ";" ++ nl ++
      indent level ++ "bytes = " ++ nl ++ indent (S level))%string, (nl ++ indent level ++ ";" ++ nl ++ indent level ++ "}" ++ nl ++ nl)%string.
  intros data L. exists (print_bytes data 0 level). split.
  - unfold IFF_print. rewrite (printed _ default_registry _ 0 level).
    + rewrite shown_raw. rewrite (proj2 (Z.eqb_neq _ _) NT). cbn [data_of]. unfold heading. cbn [chunkId chunkSize]. rewrite !str_assoc. reflexivity.
    + constructor; [exact NG|reflexivity].
    + intros x I. inversion I; subst; eauto.
  - generalize 0. clear. induction data as [|b data IH]; intro i; [reflexivity|]. rewrite print_bytes_cons, !squeeze_app, squeeze_hex, IH.
    cbn [hex_all]. destruct (_ && _); [rewrite squeeze_app, squeeze_indent|]; reflexivity.
Qed.
Print Assumptions C48_hex_dump.

Example C48_example :
  IFF_print (raw "TEXT" "It's") 0 None = Done ("'TEXT' = {" ++ nl ++ "  chunkSize = 4;" ++ nl ++ "text = '" ++ nl ++ "  It's" ++ nl ++ "';" ++ nl ++ "}" ++ nl ++ nl)%string /\
  IFF_print (raw "BODY" "0123456789J") 0 None =
    Done ("'BODY' = {" ++ nl ++ "  chunkSize = 11;" ++ nl ++ "bytes = " ++ nl ++ "  30 31 32 33 34 35 36 37 38 39 " ++ nl ++ "  4a " ++ nl ++ ";" ++ nl ++ "}" ++ nl ++ nl)%string.
Proof. split; vm_compute; reflexivity. Qed.

(** ** C49.  What was read can be printed. *)
Theorem C49_printing_total : forall rg app e w c w' level,
  Realises (selectChunkRegistry rg) app -> strict_c e = false -> SaneApps app -> ExactInput app w ->
  IFF_readFd rg e w = Done (Some c, w') -> exists t, IFF_print c level rg = Done t.
Proof.
  intros rg app e w c w' level RG NS SA K H. destruct (readFd_sound rg app e w c w' RG NS SA K H) as (l & t & g & n & P & _).
  apply (print_total _ app RG); [eapply (proj1 (Parsed_Typed _ _)); eassumption|].
  intros i s d I. destruct (proj1 (Parsed_raw_data e app) _ _ _ _ P i s d I) as (data & a & b & -> & L & _). right. exists data. split; [reflexivity|lia].
Qed.
Print Assumptions C49_printing_total.

(** With the built-in registry, for any file. *)
Theorem C49_printing_total_default : forall e w c w' level, strict_c e = false ->
  IFF_readFd None e w = Done (Some c, w') -> exists t, IFF_print c level None = Done t.
Proof. intros e w c w' level NS H. exact (C49_printing_total None no_apps e w c w' level default_registry NS no_apps_sane (or_intror no_apps_none) H). Qed.
Print Assumptions C49_printing_total_default.

Example C49_example : exists w', IFF_readFd None (host false) (start (encode ex_list)) = Done (Some ex_list, w') /\
  match IFF_print ex_list 0 None with Done t => (100 < String.length t)%nat | _ => False end.
Proof. eexists. split; [vm_compute; reflexivity|]. vm_compute. lia. Qed.
