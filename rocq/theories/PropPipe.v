(** * Property C85: reading from a pipe and reading from a file *)

From Coq Require Import ZArith List Bool String Lia.
From Coq Require Import Strings.Byte.
From Verif Require Import Machine Io Types Build Read Write Check Print Iff TestExt Spec Lemmas RegProofs Examples PropRead PipeSpec PipeProofs.
Import ListNotations.
Open Scope Z_scope.

(** What is read does not depend on whether the input can be sought, unless
    bytes of a chunk have to be skipped: a read from a pipe that succeeds gives
    the same tree, the same messages and the same position in a file. *)
Theorem C85_pipe_then_file : forall rg e w c w',
  IFF_readFd rg e (from_pipe w) = Done (Some c, w') -> IFF_readFd rg e (from_file w) = Done (Some c, from_file w').
Proof.
  intros rg e w c w' H. destruct (proj2 (twin_readFd e true rg (or_introl eq_refl)) (from_file w) (from_pipe w) (conj eq_refl eq_refl)) as [L|(_ & L & _)]; rewrite H in L.
  - destruct (IFF_readFd rg e (from_file w)) as [[a v]|u|]; try contradiction. destruct L as [-> [S ->]]. f_equal. f_equal. destruct v as [[r k] o l n]. cbn in S. subst k. reflexivity.
  - discriminate L.
Qed.
Print Assumptions C85_pipe_then_file.

(** The other way round that holds if nothing is reported to be skipped. *)
Theorem C85_file_then_pipe : forall rg e w r w',
  IFF_readFd rg e (from_file w) = Done (r, w') -> ~ skip_reported w w' -> IFF_readFd rg e (from_pipe w) = Done (r, from_pipe w').
Proof.
  intros rg e w r w' H N. destruct (proj2 (twin_readFd e true rg (or_introl eq_refl)) (from_file w) (from_pipe w) (conj eq_refl eq_refl)) as [L|(_ & _ & L)]; rewrite H in L.
  - destruct (IFF_readFd rg e (from_pipe w)) as [[a v]|u|]; try contradiction. destruct L as [-> [_ ->]]. reflexivity.
  - contradiction (N L).
Qed.
Print Assumptions C85_file_then_pipe.

(** When bytes are skipped, the pipe is refused. *)
Theorem C85_skipping_needs_a_file : forall rg e w r w', IFF_readFd rg e (from_pipe w) = Done (r, w') ->
  IFF_readFd rg e (from_file w) = Done (r, from_file w') \/
  (r = None /\ reported w w' /\ forall r2 w2, IFF_readFd rg e (from_file w) = Done (r2, w2) -> skip_reported w w2).
Proof.
  intros rg e w r w' H. destruct (proj2 (twin_readFd e true rg (or_introl eq_refl)) (from_file w) (from_pipe w) (conj eq_refl eq_refl)) as [L|(_ & L2 & L1)].
  - left. rewrite H in L. destruct (IFF_readFd rg e (from_file w)) as [[a v]|u|]; try contradiction. destruct L as [-> [S ->]]. f_equal. f_equal. destruct v as [[r0 k] o l n]. cbn in S. subst k. reflexivity.
  - right. rewrite H in L2. unfold missing in L2. subst r. split; [reflexivity|]. split; [exact (proj1 (C19_failures_reported rg e _ w' H))|].
    intros r2 w2 E. rewrite E in L1. exact L1.
Qed.
Print Assumptions C85_skipping_needs_a_file.

(** Without callbacks of the application nothing is ever skipped: a pipe is as
    good as a file, whatever it contains. *)
Lemma default_groups_only : groups_and_data_only (selectChunkRegistry None).
Proof.
  intros ft i h E s. pose proof (default_realises _ eq_refl ft i) as D. cbn [selectChunkRegistry] in E. rewrite E in D. clear E. rename D into E. injection E as ->. unfold expected_handler, no_apps.
  repeat (destruct (_ =? _); [discriminate|]). discriminate.
Qed.

Theorem C85_default : forall e w,
  IFF_readFd None e (from_pipe w) =
  match IFF_readFd None e (from_file w) with Done (r, w') => Done (r, from_pipe w') | Undefined u => Undefined u | OutOfFuel => OutOfFuel end.
Proof.
  intros e w. destruct (proj2 (twin_readFd e false None (or_intror default_groups_only)) (from_file w) (from_pipe w) (conj eq_refl eq_refl)) as [L|(X & _)]; [|discriminate X].
  destruct (IFF_readFd None e (from_file w)) as [[a v]|u|]; destruct (IFF_readFd None e (from_pipe w)) as [[b v2]|u2|]; try contradiction.
  - destruct L as [-> [_ ->]]. reflexivity.
  - subst. reflexivity.
  - reflexivity.
Qed.
Print Assumptions C85_default.

(** Hence iffpp says the same about a file and about standard input with the
    same contents: exit status, text, messages. *)
Theorem C85_iffpp : forall e s f data disable_check, sy_files s f = Some data -> r_rest (sy_stdin s) = data ->
  match IFF_prettyPrint (Some f) disable_check e s, IFF_prettyPrint None disable_check e s with
  | Done (x, s1), Done (y, s2) => x = y /\ sy_log s1 = sy_log s2 /\ sy_files s1 = sy_files s2 /\ sy_stdout s1 = sy_stdout s2
  | Undefined u, Undefined v => u = v
  | OutOfFuel, OutOfFuel => True
  | _, _ => False
  end.
Proof.
  intros e s f data d F S.
  assert (RD : match IFF_read (Some f) None e s, IFF_read None None e s with
    | Done (x, s1), Done (y, s2) => x = y /\ s1 = mkSys (sy_files s2) (sy_writable s2) (sy_room s2) (sy_bufsize s2) (sy_stdin s1) (sy_stdout s2) (sy_log s2) (sy_allocs s2)
    | Undefined u, Undefined v => u = v | OutOfFuel, OutOfFuel => True | _, _ => False end).
  { cbn [IFF_read]. unfold IFF_readFile. rewrite F. unfold bindS, with_streams, retS.
    pose proof (C85_default e (mkWorld (mkRfile data true) no_out (sy_log s) (sy_allocs s))) as P. change (from_file (mkWorld (mkRfile data true) no_out (sy_log s) (sy_allocs s))) with (mkWorld (mkRfile data true) no_out (sy_log s) (sy_allocs s)) in P.
    unfold from_pipe at 1 in P. cbn [w_in r_rest w_out w_log w_allocs] in P.
    destruct (sy_stdin s) as [r k]. cbn in S. subst r. destruct k.
    - destruct (IFF_readFd None e (mkWorld (mkRfile data true) no_out (sy_log s) (sy_allocs s))) as [[a v]|u|]; auto.
    - rewrite P. destruct (IFF_readFd None e (mkWorld (mkRfile data true) no_out (sy_log s) (sy_allocs s))) as [[a v]|u|]; auto. }
  unfold IFF_prettyPrint, bindS. destruct (IFF_read (Some f) None e s) as [[x s1]|u|]; destruct (IFF_read None None e s) as [[y s2]|u2|]; try contradiction; try exact RD.
  destruct RD as [<- E]. destruct s2 as [f2 w2 r2 b2 i2 o2 l2 n2]. cbn in E. rewrite E. clear E. destruct x as [c|].
  - destruct d; cbn [retS].
    + unfold liftS. destruct (IFF_print c 0 None); auto. unfold retS. destruct (IFF_free c None); cbn; auto.
    + unfold no_streams, bindS, with_streams. cbn [sy_log sy_allocs]. destruct (IFF_check c None e (mkWorld no_in no_out l2 n2)) as [[[] v]|u|]; auto; cbn [fst retS].
      * unfold liftS. destruct (IFF_print c 0 None); auto. unfold retS. destruct (IFF_free c None); cbn; auto.
      * unfold liftS, retS. destruct (IFF_free c None); cbn; auto.
  - cbn. auto.
Qed.
Print Assumptions C85_iffpp.

(** A chunk with two bytes more than the application knows is read from a file
    but not from a pipe. *)
Definition longer_hello : list byte :=
  be32 FORM_ID ++ be32 18 ++ be32 TEST_ID_TEST ++ be32 TEST_ID_HELO ++ be32 6 ++ bytes "ab" ++ be16 7 ++ bytes "??".

Theorem C85_skipping_refuted : exists c w1 w2,
  IFF_readFd (Some TEST_scopedRegistry) (host false) (from_file (start longer_hello)) = Done (Some c, w1) /\
  IFF_readFd (Some TEST_scopedRegistry) (host false) (from_pipe (start longer_hello)) = Done (None, w2) /\ r_rest (w_in w1) = [].
Proof.
  eexists _, _, _. split; [vm_compute; reflexivity|]. split; [vm_compute; reflexivity|]. reflexivity.
Qed.
Print Assumptions C85_skipping_refuted.

Example C85_example :
  (exists w', IFF_readFd None (host false) (from_pipe (start (encode ex_list))) = Done (Some ex_list, w')) /\
  (exists w', IFF_readFd (Some TEST_scopedRegistry) (host false) (from_file (start longer_hello)) = Done (Some (CGroup FORM_ID 18 TEST_ID_TEST [CFields TEST_ID_HELO 6 [(FUByte, 97); (FUByte, 98); (FUWord, 7)]]), w') /\ skip_reported (start longer_hello) w') /\
  (exists w', IFF_readFd None (host false) (from_file (start longer_hello)) = Done (Some (CGroup FORM_ID 18 TEST_ID_TEST [CRaw TEST_ID_HELO 6 (Some (bytes "ab" ++ be16 7 ++ bytes "??"))]), w') /\ w_log w' = []).
Proof.
  split; [eexists; vm_compute; reflexivity|]. split.
  - eexists. split; [vm_compute; reflexivity|]. eexists _, 2. split; [cbn [w_log start]; rewrite app_nil_r; reflexivity|]. do 5 right. left. reflexivity.
  - eexists. split; [vm_compute; reflexivity|reflexivity].
Qed.
