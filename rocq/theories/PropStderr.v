(** * C95: threads print their diagnostics on the same standard error

    Threads as in C92, but with one standard error for all of them, as the
    default error callback has it.  Nothing a thread prints is lost, nothing is
    added, and what it prints comes in its own order; whole lines are not kept
    together. *)

From Coq Require Import ZArith List Bool String Lia.
From Coq Require Import Strings.Byte.
From Verif Require Import Machine Io Types Build Read Write Search Spec Heap HeapSpec HeapProofs SessionSpec SessionProofs ThreadSpec ThreadProofs ThreadStepProofs ThreadSessionProofs StderrSpec StderrStepProofs StderrProofs Examples TestExt PropFields PropSession.
Import ListNotations.
Open Scope Z_scope.

(** Every program can be taken apart into accesses that call IFF_error at most
    once. *)
Theorem C95_calls : forall rg p, exists D, takes_apart D (hrun rg p nothing) /\ one_by_one D.
Proof. intros rg p. exists (proj1_sig (vo_run rg p nothing)). apply (proj2_sig (vo_run rg p nothing)). Qed.
Print Assumptions C95_calls.

(** At any time, in any order of accesses: what a thread has printed on the
    common standard error is, in this order, the beginning of what it prints
    alone; all of it, once the thread has finished. *)
Theorem C95_stderr : forall R A P D E W L V W' h sch,
  (forall t, Realises (selectChunkRegistry (R t)) (A t)) -> (forall t, Forall legal (P t)) ->
  (forall t, takes_apart (D t) (hrun (R t) (P t) nothing) /\ one_by_one (D t)) ->
  (forall t, vrun (R t) (P t) nothing (E t) (W t) = Done ((L t, V t), W' t)) ->
  exists s, overlap E sch (mkThreads h D W) = Done s /\
    forall t, exists later,
      rev (w_log (W' t)) = rev (w_log (W t)) ++ said_by t (stderr E sch (mkThreads h D W)) ++ later /\
      (forall r, th_task s t = TRet r -> later = []).
Proof.
  intros R A P D E W L V W' h sch RG LG DT VR.
  exact (all_heard R A P D E W (fun _ => false) (fun _ => nothing) (fun _ => nothing) (fun _ _ => []) L V W' h RG LG (fun t => proj1 (DT t)) (fun t => proj2 (DT t)) (fun _ => Good_start _) (fun _ E => False_ind _ (diff_false_true E)) VR sch).
Qed.
Print Assumptions C95_stderr.

(** ** Two threads, each of which reads a file that ends after its first chunk ID *)

Definition ex_broken (t : nat) : list stmt :=
  match t with O => [SOpen (bytes "FORM") true; SRead 0] | S O => [SOpen (bytes "LIST") true; SRead 0] | _ => [] end.
Definition ex_pieces (t : nat) : task (list answer * pointers) := proj1_sig (vo_run None (ex_broken t) nothing).
Definition ex_places (t : nat) : env := mkEnv false true true false (fun _ _ => true) 0 (fun n => 2 * n + t)%nat.
Definition ex_start : threads (list answer * pointers) := mkThreads (repeat None 20) ex_pieces (fun _ => start []).
Definition ex_turns (n : nat) : list nat := map (fun k => Nat.modulo k 2) (seq 0 n).

Lemma ex_legal : forall t, Forall legal (ex_broken t).
Proof. intros [|[|t]]; cbn [ex_broken]; repeat constructor; cbn [legal]; try exact I. Qed.
Lemma ex_apart : forall t, takes_apart (ex_pieces t) (hrun None (ex_broken t) nothing) /\ one_by_one (ex_pieces t).
Proof. intro t. exact (proj2_sig (vo_run None (ex_broken t) nothing)). Qed.
Definition ex_alone (t : nat) := vrun None (ex_broken t) nothing (ex_places t) (start []).
Lemma ex_runs : forall t, ex_alone t = Done ((match ex_alone t with Done ((l, _), _) => l | _ => [] end, match ex_alone t with Done ((_, v), _) => v | _ => nothing end), match ex_alone t with Done (_, w) => w | _ => start [] end).
Proof.
  assert (DN : forall t, match ex_alone t with Done _ => true | _ => false end = true) by (intros [|[|t]]; [vm_compute|vm_compute|]; reflexivity).
  intro t. specialize (DN t). destruct (ex_alone t) as [[[l v] w]|u|]; [reflexivity|discriminate|discriminate].
Qed.

(** They take turns: their diagnostics come out as
    [Error reading 'Error reading 'FLOIRSMT'.chunkSize], which is none of theirs. *)
Example C95_example :
  text_of (map snd (stderr ex_places (ex_turns 60) ex_start)) =
    ("Error reading 'Error reading 'FLOIRSMT'.chunkSize" ++ nl ++ "'.chunkSize" ++ nl ++
     "ERROR: cannot open main chunk!" ++ nl ++ "ERROR: cannot open main chunk!" ++ nl)%string /\
  text_of (said_by 0 (stderr ex_places (ex_turns 60) ex_start)) = ("Error reading 'FORM'.chunkSize" ++ nl ++ "ERROR: cannot open main chunk!" ++ nl)%string /\
  text_of (said_by 1 (stderr ex_places (ex_turns 60) ex_start)) = ("Error reading 'LIST'.chunkSize" ++ nl ++ "ERROR: cannot open main chunk!" ++ nl)%string.
Proof. vm_compute. repeat split; reflexivity. Qed.

(** The hypotheses of [C95_stderr] hold of them. *)
Example C95_example_hypotheses :
  (exists A, forall t : nat, Realises (selectChunkRegistry None) (A t)) /\ (forall t, Forall legal (ex_broken t)) /\
  (forall t, takes_apart (ex_pieces t) (hrun None (ex_broken t) nothing) /\ one_by_one (ex_pieces t)) /\
  exists L V W', forall t, vrun None (ex_broken t) nothing (ex_places t) (start []) = Done ((L t, V t), W' t).
Proof.
  split; [exists (fun _ => no_apps); intro; exact HeapToolsProofs.default_none|]. split; [exact ex_legal|]. split; [exact ex_apart|].
  eexists _, _, _. exact ex_runs.
Qed.

(** So a reader of standard error cannot rely on lines: a line on it need not be
    a line of any of the threads, although all of them have finished. *)
Theorem C95_lines_refuted : ~ forall R A P D E W L V W' h sch s,
  (forall t, Realises (selectChunkRegistry (R t)) (A t)) -> (forall t, Forall legal (P t)) ->
  (forall t, takes_apart (D t) (hrun (R t) (P t) nothing) /\ one_by_one (D t)) ->
  (forall t, vrun (R t) (P t) nothing (E t) (W t) = Done ((L t, V t), W' t)) -> (forall t, w_log (W t) = []) ->
  overlap E sch (mkThreads h D W) = Done s -> (forall t, exists r, th_task s t = TRet r) ->
  forall l, In l (lines_of (text_of (map snd (stderr E sch (mkThreads h D W))))) ->
    exists t, In l (lines_of (text_of (rev (w_log (W' t))))).
Proof.
  intro X. destruct C95_example_hypotheses as ((A & RG) & _).
  destruct (overlap ex_places (ex_turns 60) ex_start) as [s|u|] eqn:O;
    [|exfalso; assert (Y : match overlap ex_places (ex_turns 60) ex_start with Done _ => true | _ => false end = true) by (vm_compute; reflexivity); rewrite O in Y; discriminate Y..].
  assert (F : forall t, exists r, th_task s t = TRet r).
  { assert (Y : forall t, match overlap ex_places (ex_turns 60) ex_start with Done s => match th_task s t with TRet _ => true | _ => false end | _ => false end = true)
      by (intros [|[|t]]; vm_compute; reflexivity).
    intro t. specialize (Y t). rewrite O in Y. clear O. destruct (th_task s t) as [r|u| |B m k|a k|a o k|a k|o k|k]; try discriminate Y. exists r. reflexivity. }
  specialize (X (fun _ => None) A ex_broken ex_pieces ex_places (fun _ => start []) _ _ _ (repeat None 20) (ex_turns 60) s RG ex_legal ex_apart ex_runs (fun _ => eq_refl) O F "Error reading 'Error reading 'FLOIRSMT'.chunkSize"%string).
  destruct X as (t & IN).
  - vm_compute. left. reflexivity.
  - destruct t as [|[|t]]; vm_compute in IN; intuition congruence.
Qed.
Print Assumptions C95_lines_refuted.
