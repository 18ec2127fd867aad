(** * Property C99: damaged files *)

From Coq Require Import ZArith List Bool String Lia.
From Coq Require Import Strings.Byte.
From Verif Require Import Machine Io Types Build Read Write Check Compare Iff Spec Lemmas IoProofs RegProofs WriteProofs EncodeProofs Grammar ReadProofs SoundProofs RoundProofs ApiProofs ConfProofs CheckProofs Examples
  DamageSpec DamageProofs PropRegistry PropRead PropWrite PropCheck PropCompare.
Import ListNotations.
Open Scope Z_scope.

(** Bytes of the data of data chunks are damaged, any number of them, in any
    way: the file is read without a message, as the same tree but for the damaged
    bytes themselves.  Nothing else is affected, and nobody is told. *)
Theorem C99_data : forall e w c f, usual e -> WF no_apps 0 c -> zlength (encode c) < 2 ^ (size_t_bits e - 1) ->
  agree (data_bytes c) (encode c) f -> r_rest (w_in w) = f ->
  exists c' w', IFF_readFd None e w = Done (Some c', w') /\ w_log w' = w_log w /\ Alike c c' /\ WF no_apps 0 c' /\ encode c' = f.
Proof.
  intros e w c f U W L A R. destruct (damaged no_apps no_apps_none c 0 f W A) as (c' & -> & W' & AL).
  destruct (WF_parsed e no_apps 0 c' W') as (lg & P & C). rewrite (C (no_apps_covered _ _ W')) in P.
  destruct (readFd_complete None no_apps e w (encode c') [] c' [] default_registry U no_apps_sane P) as (n & X); [rewrite app_nil_r; exact R| |right; right; exact no_apps_none|].
  - rewrite (WF_encode_length _ _ _ W'), (proj2 (alike_header _ _ AL)), <- (WF_encode_length _ _ _ W). exact L.
  - exists c'. eexists. split; [exact X|]. split; [reflexivity|]. split; [exact AL|]. split; [exact W'|reflexivity].
Qed.
Print Assumptions C99_data.

(** IFF_check says the same of it as of the original; IFF_compare tells them
    apart whenever there is any damage. *)
Lemma wf_checkable : forall (e : env) c, WF no_apps 0 c -> zlength (encode c) <= INT_MAX -> Typed no_apps 0 c /\ Represented c /\ LeafSizes c /\ encoded_size c <= INT_MAX.
Proof.
  intros e c W L. destruct (WF_properties _ _ _ W) as (T & R & D). destruct (WF_parsed e no_apps 0 c W) as (lg & P & _).
  destruct (proj1 (Parsed_properties e no_apps no_apps_none) _ _ _ _ P) as (_ & _ & S). split; [exact T|]. split; [exact R|]. split; [|lia].
  intros x I LF. specialize (D x I). destruct x; cbn in *; try contradiction; [destruct D as (l & _ & <-); apply zlength_nonneg|exact (proj1 D)].
Qed.
Theorem C99_afterwards : forall e w c c', WF no_apps 0 c -> WF no_apps 0 c' -> Alike c c' -> zlength (encode c) <= INT_MAX ->
  (exists b w1 w2, IFF_check c None e w = Done (b, w1) /\ IFF_check c' None e w = Done (b, w2)) /\
  (exists b, IFF_compare e c c' None = Done b /\ (b = false <-> encode c <> encode c')).
Proof.
  intros e w c c' W W' A L. assert (L' : zlength (encode c') <= INT_MAX) by (rewrite (WF_encode_length _ _ _ W'), (proj2 (alike_header _ _ A)), <- (WF_encode_length _ _ _ W); exact L). split.
  - destruct (wf_checkable e c W L) as (T & R & LS & S). destruct (wf_checkable e c' W' L') as (T' & R' & LS' & S').
    destruct (C26_check_decides_conformance None no_apps c e w default_registry T R LS S) as (b & w1 & E & B).
    destruct (C26_check_decides_conformance None no_apps c' e w default_registry T' R' LS' S') as (b' & w2 & E' & B').
    assert (b = b'); [|subst b'; exists b, w1, w2; split; assumption].
    assert (TL : top_level c <-> top_level c') by (unfold top_level; rewrite (proj1 (alike_header _ _ A)); reflexivity).
    assert (CF : Conforms no_apps 0 c <-> Conforms no_apps 0 c') by (split; apply alike_conforms; [exact A|apply alike_sym; exact A]).
    destruct b, b'; try reflexivity; intuition congruence.
  - destruct (C33_true_means_identical None no_apps e c c' default_registry W W') as (b & E & _ & B). exists b. split; [exact E|]. destruct b; split; intro H; try discriminate; [destruct (H (proj1 B eq_refl))| |reflexivity].
    intro Q. discriminate (proj2 B Q).
Qed.
Print Assumptions C99_afterwards.

(** ** Damage to a size is another matter

    One bit of the size of a data chunk is enough: the file is read without a
    message as a tree with other chunks, and IFF_check has no objections. *)
Definition ex_before : chunk := group "FORM" "TEST" [CRaw (ID_of "BODY") 8 (Some (bytes "HIDN" ++ repeat x00 4))].
Definition ex_after : chunk := group "FORM" "TEST" [CRaw (ID_of "BODY") 0 (Some []); CRaw (ID_of "HIDN") 0 (Some [])].
Definition ex_damaged : list byte := firstn 19 (encode ex_before) ++ [x00] ++ skipn 20 (encode ex_before).
Theorem C99_size_refuted :
  nth 19 (encode ex_before) x00 = x08 /\ WF no_apps 0 ex_before /\
  (exists w, IFF_readFd None (host false) (start (encode ex_before)) = Done (Some ex_before, w) /\ w_log w = []) /\
  (exists w, IFF_readFd None (host false) (start ex_damaged) = Done (Some ex_after, w) /\ w_log w = []) /\
  (exists w, IFF_check ex_after None (host false) (start []) = Done (true, w) /\ w_log w = []) /\ ~ Alike ex_before ex_after.
Proof.
  split; [vm_compute; reflexivity|]. split; [unfold ex_before; prove_wf|]. split; [eexists; split; vm_compute; reflexivity|]. split; [eexists; split; vm_compute; reflexivity|]. split; [eexists; split; vm_compute; reflexivity|].
  intro A. inversion A as [|? ? ? ? ? F|]. inversion F as [|? ? ? ? ? F']. inversion F'.
Qed.
Print Assumptions C99_size_refuted.

(** The hypotheses are met: 3 of the 8 data bytes of a tree are damaged. *)
Definition ex_hurt : list byte := firstn 32 (encode ex_list) ++ [z2b 1] ++ firstn 22 (skipn 33 (encode ex_list)) ++ [z2b 2; z2b 3] ++ skipn 57 (encode ex_list).
Example C99_example : usual (host false) /\ WF no_apps 0 ex_list /\ agree (data_bytes ex_list) (encode ex_list) ex_hurt /\ ex_hurt <> encode ex_list /\
  match IFF_readFd None (host false) (start ex_hurt) with Done (Some c, w) => c <> ex_list /\ encode c = ex_hurt /\ w_log w = [] | _ => False end /\
  IFF_check ex_list None (host false) (start []) = Done (true, start []).
Proof. split; [split; reflexivity|]. split; [exact ex_list_wf|]. split; [vm_compute; repeat split; intro; congruence|]. split; [vm_compute; discriminate|]. split; [vm_compute; repeat split; discriminate|vm_compute; reflexivity]. Qed.
