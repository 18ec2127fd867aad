(** * C88: hosts on which malloc(0) returns NULL *)

From Coq Require Import ZArith List Bool Lia.
From Coq Require Import Strings.Byte Strings.String.
From Verif Require Import Machine Io Types Build Read Write Check Compare Print Iff Spec Grammar Examples Lemmas SoundProofs RegProofs RoundProofs ApiProofs FileProofs
  PropRead PropWrite PropTools MemoryProofs PropMemory ZeroSpec ZeroProofs.
Import ListNotations.
Open Scope Z_scope.

(** ** C88.  C leaves it to the host whether malloc(0) returns NULL.
    [no_zero e] is the host [e] with a malloc that does. *)

(** A tree without empty chunks is read all the same. *)
Theorem C88_others_unaffected : forall rg e w c w', strict_c e = false ->
  IFF_readFd rg e w = Done (Some c, w') -> ~ HasEmpty c -> IFF_readFd rg (no_zero e) w = Done (Some c, w').
Proof.
  intros rg e w c w' NS E NE. apply (proj1 (zero_readFd e NS rg w c w')); [exact E|]. destruct (plain c) eqn:P; [reflexivity|]. destruct NE. apply plain_HasEmpty, P.
Qed.
Print Assumptions C88_others_unaffected.

(** A tree with an empty chunk anywhere is not read at all: NULL, and a report. *)
Theorem C88_empty_rejected : forall rg app e w c w',
  Realises (selectChunkRegistry rg) app -> SaneApps app -> usual e -> zlength (r_rest (w_in w)) < 2 ^ (size_t_bits e - 1) ->
  IFF_readFd rg e w = Done (Some c, w') -> HasEmpty c ->
  exists w2, IFF_readFd rg (no_zero e) w = Done (None, w2) /\ reported w w2.
Proof.
  intros rg app e w c w' RG SA U L E HE. pose proof (not_strict _ U) as NS.
  destruct (C69_reading rg app (no_zero e) w RG SA NS) as [X | [X | X]].
  - exfalso. change (plenty (no_zero e)) with (plenty e) in X. rewrite (C69_no_other_tree rg app e w c w' RG SA NS E) in X.
    apply (proj2 (zero_readFd e NS rg w c w')) in X. apply plain_HasEmpty in HE. rewrite X in HE. discriminate HE.
  - exact X.
  - exfalso. destruct (C13_only_overflow_or_null rg app (no_zero e) w _ RG SA NS X) as [Y|(_ & n & sz & B & [Y|Y])]; [discriminate Y| |].
    + cbn [no_zero malloc_ok] in Y. rewrite (memory _ U) in Y. destruct (Z.eqb_spec sz 0); [lia|discriminate Y].
    + change (size_t_bits (no_zero e)) with (size_t_bits e) in Y. lia.
Qed.
Print Assumptions C88_empty_rejected.

(** So a file that was written is read back on such a host exactly when it has
    no empty chunk. *)
Theorem C88_files : forall e w c, usual e -> WF no_apps 0 c -> zlength (encode c) < 2 ^ (size_t_bits e - 1) -> r_rest (w_in w) = encode c ->
  exists r w', IFF_readFd None (no_zero e) w = Done (r, w') /\ (r = Some c \/ r = None /\ reported w w') /\ (r = Some c <-> ~ HasEmpty c).
Proof.
  intros e w c U W L R. destruct (WF_parsed e no_apps 0 c W) as (lg & P & _).
  destruct (readFd_complete None no_apps e w (encode c) [] c lg default_registry U no_apps_sane P) as [n E].
  - rewrite app_nil_r. exact R.
  - exact L.
  - right; right; apply no_apps_none.
  - destruct (plain c) eqn:PL.
    + assert (NE : ~ HasEmpty c) by (intro X; apply plain_HasEmpty in X; congruence).
      exists (Some c). eexists. split; [exact (C88_others_unaffected _ _ _ _ _ (not_strict _ U) E NE)|]. split; [left; reflexivity|tauto].
    + apply plain_HasEmpty in PL. rewrite <- R in L.
      destruct (C88_empty_rejected None no_apps e w _ _ default_registry no_apps_sane U L E PL) as (w2 & X & Y).
      exists None, w2. split; [exact X|]. split; [right; split; [reflexivity|exact Y]|]. split; [discriminate|tauto].
Qed.
Print Assumptions C88_files.

(** Nor can an empty chunk be created there. *)
Theorem C88_creating : forall e w i s, in_range FLong s ->
  (s = 0 -> exists w', IFF_createRawChunk i s (no_zero e) w = Done (None, w')) /\
  (s <> 0 -> IFF_createRawChunk i s (no_zero e) w = IFF_createRawChunk i s e w).
Proof.
  intros e w i s IR. unfold IFF_createRawChunk, bind, ask, malloc, ret. cbv beta iota. change (size_t_bits (no_zero e)) with (size_t_bits e). cbn [no_zero malloc_ok w_allocs].
  change (sizeof_RawChunk =? 0) with false. cbn [negb]. rewrite andb_true_r. split.
  - intros ->. match goal with |- exists _, (if ?b then _ else _) _ _ = _ => destruct b end; [|eexists; reflexivity]. replace (wrap_u (size_t_bits e) 0) with 0 by (unfold wrap_u; rewrite Z.mod_0_l; [reflexivity|unfold size_t_bits; destruct (lp64 e); discriminate]).
    cbv beta iota. cbn [no_zero malloc_ok]. change (0 =? 0) with true. cbn [negb]. rewrite !andb_false_r. eexists. reflexivity.
  - intro NZ. assert (NP : wrap_u (size_t_bits e) s <> 0).
    { unfold wrap_u. cbn [in_range] in IR. intro Z0. apply Z.mod_divide in Z0; [|unfold size_t_bits; destruct (lp64 e); discriminate]. destruct Z0 as [q Q].
      unfold size_t_bits, INT_MIN, INT_MAX in *. destruct (lp64 e); [change (2 ^ 64) with 18446744073709551616 in Q|change (2 ^ 32) with 4294967296 in Q]; lia. }
    match goal with |- (if ?b then _ else _) _ _ = _ => destruct b end; [|reflexivity]. cbv beta iota. change (size_t_bits (no_zero e)) with (size_t_bits e).
    cbn [no_zero malloc_ok]. rewrite (proj2 (Z.eqb_neq _ _) NP). cbn [negb]. rewrite !andb_true_r. reflexivity.
Qed.
Print Assumptions C88_creating.

(** iffpp prints nothing of such a file, checked or not, and ends with 1. *)
Theorem C88_iffpp : forall e f disable_check s c s1, usual e -> read_size f s < 2 ^ (size_t_bits e - 1) ->
  IFF_read f None e s = Done (Some c, s1) -> HasEmpty c ->
  exists s2, IFF_prettyPrint f disable_check (no_zero e) s = Done ((1, ""%string), s2).
Proof.
  intros e f d s c s1 U L R HE.
  enough (X : exists s2, IFF_read f None (no_zero e) s = Done (None, s2)).
  { destruct X as [s2 X]. unfold IFF_prettyPrint, bindS. rewrite X. eexists. reflexivity. }
  destruct f as [f|]; cbn [IFF_read read_size] in *.
  - unfold IFF_readFile, input_size in *. destruct (sy_files s f) as [data|]; [|discriminate R].
    unfold bindS, with_streams, retS in *.
    destruct (IFF_readFd None e (mkWorld (mkRfile data true) no_out (sy_log s) (sy_allocs s))) as [[a v]|u|] eqn:E; try discriminate R. injection R as -> _.
    destruct (fun x => C88_empty_rejected None no_apps e _ _ _ default_registry no_apps_sane U x E HE) as (w2 & -> & _); [exact L|]. eexists. reflexivity.
  - unfold bindS, with_streams, retS in *.
    destruct (IFF_readFd None e (mkWorld (sy_stdin s) no_out (sy_log s) (sy_allocs s))) as [[a v]|u|] eqn:E; try discriminate R. injection R as -> _.
    destruct (fun x => C88_empty_rejected None no_apps e _ _ _ default_registry no_apps_sane U x E HE) as (w2 & -> & _); [exact L|]. eexists. reflexivity.
Qed.
Print Assumptions C88_iffpp.

(** Hence whether a valid file can be read depends on the host. *)
Definition with_empty : chunk := group "FORM" "TEST" [raw "NAME" "x"; raw "BODY" ""].
Theorem C88_portable_refuted :
  WF no_apps 0 with_empty /\ usual (host false) /\
  (exists w, IFF_readFd None (host false) (start (encode with_empty)) = Done (Some with_empty, w)) /\
  (exists w, IFF_readFd None (no_zero (host false)) (start (encode with_empty)) = Done (None, w)).
Proof.
  split; [prove_wf|]. split; [apply usual_host|]. split; eexists; vm_compute; reflexivity.
Qed.
Print Assumptions C88_portable_refuted.

Example C88_example :
  HasEmpty with_empty /\ ~ HasEmpty (group "FORM" "TEST" [raw "NAME" "x"; group "CAT " "TEST" []]) /\
  match IFF_readFd None (no_zero (host false)) (start (encode (group "FORM" "TEST" [raw "NAME" "x"]))) with
  | Done (Some c, _) => c = group "FORM" "TEST" [raw "NAME" "x"] | _ => False end.
Proof.
  split; [apply plain_HasEmpty; reflexivity|]. split; [intro H; apply plain_HasEmpty in H; discriminate H|]. vm_compute. reflexivity.
Qed.
