(** * Property C04: files are host independent *)

From Coq Require Import ZArith List Bool String Lia.
From Coq Require Import Strings.Byte.
From Verif Require Import Machine Io Types Build Read Write Check Compare Print Iff Spec HostProofs Examples.
Import ListNotations.
Open Scope Z_scope.

(** Two hosts, whatever their byte orders and whether char is signed: the same
    results, the same bytes taken from the input and given to the output, the
    same diagnostics.  The remaining differences a C implementation may have
    (size of long, when memory runs out) are kept fixed; see [alike]. *)
Theorem C04_reading : forall e1 e2 rg w, alike e1 e2 -> IFF_readFd rg e1 w = IFF_readFd rg e2 w.
Proof. intros e1 e2 rg w A. apply same_equal. apply same_readFd. exact A. Qed.
Print Assumptions C04_reading.

Theorem C04_writing : forall e1 e2 rg c w, alike e1 e2 -> IFF_writeFd c rg e1 w = IFF_writeFd c rg e2 w.
Proof. intros e1 e2 rg c w A. apply same_equal. apply same_writeChunk. exact A. Qed.
Print Assumptions C04_writing.

Theorem C04_checking : forall e1 e2 rg c w, alike e1 e2 -> IFF_check c rg e1 w = IFF_check c rg e2 w.
Proof. intros e1 e2 rg c w A. apply same_equal. apply same_check. Qed.
Print Assumptions C04_checking.

Theorem C04_comparing : forall e1 e2 rg c1 c2, alike e1 e2 -> IFF_compare e1 c1 c2 rg = IFF_compare e2 c1 c2 rg.
Proof. intros e1 e2 rg c1 c2 A. apply (same_compare_both e1 e2 A). Qed.
Print Assumptions C04_comparing.

(** Hence the tools behave the same too. *)
Lemma streams_equal : forall e1 e2 A (m : M A) i o s, (forall w, m e1 w = m e2 w) -> with_streams m i o e1 s = with_streams m i o e2 s.
Proof. intros e1 e2 A m i o s H. unfold with_streams. rewrite H. reflexivity. Qed.
Lemma bindS_equal : forall e1 e2 A B (m : MS A) (k : A -> MS B) s, m e1 s = m e2 s -> (forall a s, k a e1 s = k a e2 s) -> bindS m k e1 s = bindS m k e2 s.
Proof. intros e1 e2 A B m k s H K. unfold bindS. rewrite H. destruct (m e2 s) as [[a s']|u|]; auto. Qed.
Lemma no_streams_equal : forall e1 e2 A (m : M A) s, (forall w, m e1 w = m e2 w) -> no_streams m e1 s = no_streams m e2 s.
Proof. intros e1 e2 A m s H. unfold no_streams. apply bindS_equal; [apply streams_equal; exact H|reflexivity]. Qed.
Lemma read_equal : forall e1 e2 f rg s, alike e1 e2 -> IFF_read f rg e1 s = IFF_read f rg e2 s.
Proof.
  intros e1 e2 [f|] rg s A; cbn [IFF_read].
  - unfold IFF_readFile. destruct (sy_files s f).
    + apply bindS_equal; [|reflexivity]. apply streams_equal. intro. apply C04_reading; exact A.
    + apply bindS_equal; reflexivity.
  - rewrite (streams_equal e1 e2); [reflexivity|]. intro. apply C04_reading; exact A.
Qed.
Lemma write_equal : forall e1 e2 f c rg s, alike e1 e2 -> IFF_write f c rg e1 s = IFF_write f c rg e2 s.
Proof.
  intros e1 e2 [f|] c rg s A; cbn [IFF_write].
  - unfold IFF_writeFile. destruct (sy_writable s f).
    + rewrite (streams_equal e1 e2); [reflexivity|]. intro. apply C04_writing; exact A.
    + apply bindS_equal; reflexivity.
  - rewrite (streams_equal e1 e2); [reflexivity|]. intro. apply C04_writing; exact A.
Qed.

Theorem C04_iffpp : forall e1 e2 f d s, alike e1 e2 -> IFF_prettyPrint f d e1 s = IFF_prettyPrint f d e2 s.
Proof.
  intros e1 e2 f d s A. unfold IFF_prettyPrint. apply bindS_equal; [apply read_equal; exact A|]. intros [c|] s1; [|reflexivity].
  apply bindS_equal.
  - destruct d; [reflexivity|]. apply no_streams_equal. intro. apply C04_checking; exact A.
  - intros [] s2; reflexivity.
Qed.
Print Assumptions C04_iffpp.

Theorem C04_iffjoin : forall e1 e2 inputs out s, alike e1 e2 -> IFF_join inputs out e1 s = IFF_join inputs out e2 s.
Proof.
  intros e1 e2 inputs out s A.
  assert (L : forall l cat s, join_loop l cat e1 s = join_loop l cat e2 s).
  { induction l as [|f l IH]; intros cat s0; cbn [join_loop]; [reflexivity|].
    apply bindS_equal; [exact (read_equal e1 e2 (Some f) None s0 A)|]. intros [c|] s1; [|reflexivity].
    apply bindS_equal; [apply no_streams_equal; intro; apply C04_checking; exact A|]. intros [] s2; [|reflexivity].
    apply bindS_equal; [|intros; apply IH]. apply no_streams_equal. apply same_equal.
    unfold IFF_addToCATAndUpdateContentsType. apply same_bind; [apply same_lift|]. intro.
    unfold IFF_addToGroup. apply same_bind; [apply same_attach; exact A|]. intro. same_all A. }
  unfold IFF_join. apply bindS_equal.
  - apply no_streams_equal. apply same_equal. unfold IFF_createEmptyCAT, IFF_createEmptyCATWithContentsType, IFF_createCAT, IFF_createEmptyGroup, IFF_createGroup. same_all A.
  - intros [cat|] s1; [|reflexivity]. apply bindS_equal; [apply L|]. intros [cat'|z] s2; [|reflexivity].
    apply bindS_equal; [apply write_equal; exact A|]. reflexivity.
Qed.
Print Assumptions C04_iffjoin.

(** A little endian host with signed characters and a big endian one with
    unsigned characters. *)
Definition little : env := mkEnv false true true false (fun _ _ => true) 0 (fun _ => 0%nat).
Definition big : env := mkEnv true false true false (fun _ _ => true) 0 (fun _ => 0%nat).
Example C04_example : alike little big /\
  (exists w, IFF_readFd None little (start (encode ex_list)) = Done (Some ex_list, w)) /\
  (* the message of a failed check, with a character beyond ASCII in an ID *)
  IFF_check (group "FORM" "TEST" [CRaw 0xE9E9E9E9 0 (Some [])]) None little (start []) =
  IFF_check (group "FORM" "TEST" [CRaw 0xE9E9E9E9 0 (Some [])]) None big (start []).
Proof. split; [constructor; reflexivity|]. split; [eexists; vm_compute; reflexivity|]. vm_compute. reflexivity. Qed.
