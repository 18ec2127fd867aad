(** * C92: threads may be inside the library at the same time

    Several threads use the library on trees of their own.  Nothing else is
    required of them: no lock, no order.  Their calls overlap in time, in any way:
    the accesses to memory of one call come between the accesses of another.
    Every thread gets the answers it gets alone. *)

From Coq Require Import ZArith List Bool String Lia.
From Coq Require Import Strings.Byte.
From Verif Require Import Machine Io Types Build Read Write Search Spec Heap HeapSpec HeapProofs HeapReachProofs SessionSpec SessionProofs ThreadSpec ThreadProofs ThreadStepProofs ThreadSessionProofs Examples TestExt PropFields PropSession.
Import ListNotations.
Open Scope Z_scope.

(** Every program can be taken apart into accesses to single blocks. *)
Theorem C92_calls : forall rg p, exists D, takes_apart D (hrun rg p nothing).
Proof. intros rg p. exists (proj1_sig (sw_run rg p nothing)). apply (proj2_sig (sw_run rg p nothing)). Qed.
Print Assumptions C92_calls.

(** Threads t = 0, 1, 2, ... run programs, each of which, alone and on values,
    comes to its end.  In a memory of any size with anything in it, with blocks
    put anywhere, after any number of accesses in any order: nothing undefined has
    happened; what was in memory before is as it was; a thread that has finished
    has the answers, the output and the diagnostics it has alone, and its
    variables point at the trees they hold; and no two variables, of one thread
    or of two, share a block. *)
Theorem C92_threads : forall R A P D E W L V W' h sch,
  (forall t, Realises (selectChunkRegistry (R t)) (A t)) -> (forall t, Forall legal (P t)) ->
  (forall t, takes_apart (D t) (hrun (R t) (P t) nothing)) ->
  (forall t, vrun (R t) (P t) nothing (E t) (W t) = Done ((L t, V t), W' t)) ->
  exists s, overlap E sch (mkThreads h D W) = Done s /\ preserves h (th_heap s) /\
    (forall t l Q, th_task s t = TRet (l, Q) -> l = L t /\ th_world s t = W' t /\ forall x, holds (th_heap s) (Q x) (V t x)) /\
    (forall t t' l l' Q Q' x y, th_task s t = TRet (l, Q) -> th_task s t' = TRet (l', Q') -> (t <> t' \/ x <> y) -> apart (th_heap s) (Q x) (Q' y)).
Proof.
  intros R A P D E W L V W' h sch RG LG DT VR.
  destruct (all_ended R A P D E W (fun _ => false) (fun _ => nothing) (fun _ => nothing) (fun _ _ => []) L V W' h RG LG DT (fun _ => Good_start _) (fun _ E => False_ind _ (diff_false_true E)) VR sch) as (s & X & K & EN & AP).
  exists s. split; [exact X|]. split; [exact K|]. split; [exact EN|]. intros t t' l l' Q Q' x y T T' NE. apply (AP t t' l l' Q Q' x y T T').
  destruct (Nat.eqb_spec t t'); [destruct NE; [contradiction|assumption]|left; reflexivity].
Qed.
Print Assumptions C92_threads.

(** No data races: at no time are two threads about to access the same block, nor
    is a thread about to access a block that was there before.  (So it makes no
    difference in which order the processor performs their accesses.) *)
Theorem C92_races : forall R A P D E W L V W' h sch s,
  (forall t, Realises (selectChunkRegistry (R t)) (A t)) -> (forall t, Forall legal (P t)) ->
  (forall t, takes_apart (D t) (hrun (R t) (P t) nothing)) ->
  (forall t, vrun (R t) (P t) nothing (E t) (W t) = Done ((L t, V t), W' t)) ->
  overlap E sch (mkThreads h D W) = Done s ->
  forall t a, next_block (th_task s t) = Some a ->
    lookup h a = None /\ lookup (th_heap s) a <> None /\ forall t', t' <> t -> next_block (th_task s t') <> Some a.
Proof.
  intros R A P D E W L V W' h sch s RG LG DT VR X t a N.
  exact (no_sharing R A P D E W (fun _ => false) (fun _ => nothing) (fun _ => nothing) (fun _ _ => []) L V W' h RG LG DT (fun _ => Good_start _) (fun _ E => False_ind _ (diff_false_true E)) VR sch s X t a eq_refl N).
Qed.
Print Assumptions C92_races.

(** Every thread comes to its end, whatever the others do: in an endless schedule
    in which it is again and again its turn while it does not wait for a place
    for its next block, it finishes after finitely many accesses. *)
Theorem C92_ends : forall R A P D E W L V W' h (f : nat -> nat) t,
  (forall t, Realises (selectChunkRegistry (R t)) (A t)) -> (forall t, Forall legal (P t)) ->
  (forall t, takes_apart (D t) (hrun (R t) (P t) nothing)) ->
  (forall t, vrun (R t) (P t) nothing (E t) (W t) = Done ((L t, V t), W' t)) ->
  (forall n, exists n', (n <= n')%nat /\ f n' = t /\
     forall s, overlap E (map f (seq 0 n')) (mkThreads h D W) = Done s -> ~ waits E s t) ->
  exists n s Q, overlap E (map f (seq 0 n)) (mkThreads h D W) = Done s /\ th_task s t = TRet (L t, Q).
Proof.
  intros R A P D E W L V W' h f t RG LG DT VR TURNS.
  exact (all_finish R A P D E W (fun _ => false) (fun _ => nothing) (fun _ => nothing) (fun _ _ => []) L V W' h RG LG DT (fun _ => Good_start _) (fun _ E => False_ind _ (diff_false_true E)) VR f t TURNS).
Qed.
Print Assumptions C92_ends.

(** ** Two threads *)

(** One builds a form and writes it; the other reads a file, edits the tree and
    searches it.  Both have their blocks all over the same memory, in which
    somebody else's block lies at 5. *)
Definition ex_programs (t : nat) : list stmt :=
  match t with O => ex_builder | S O => ex_reader | _ => [] end.
Definition ex_tasks (t : nat) : task (list answer * pointers) := proj1_sig (sw_run (ex_registries t) (ex_programs t) nothing).
Definition ex_env (t : nat) : env := mkEnv false true true false (fun _ _ => true) 0 (fun n => 2 * n + (if Nat.eqb t 0 then 6 else 7))%nat.
Definition ex_memory : heap := repeat None 5 ++ [Some (OArray [])] ++ repeat None 60.

Example C92_example_hypotheses :
  (forall t, Forall legal (ex_programs t)) /\ (forall t, takes_apart (ex_tasks t) (hrun (ex_registries t) (ex_programs t) nothing)) /\
  exists L V W', forall t, vrun (ex_registries t) (ex_programs t) nothing (ex_env t) (start []) = Done ((L t, V t), W' t).
Proof.
  split; [|split].
  - intros [|[|t]]; cbn [ex_programs]; [unfold ex_builder|unfold ex_reader|constructor];
      repeat constructor; cbn [legal]; try exact I; try discriminate; try (vm_compute; intuition congruence).
  - intro t. exact (proj2_sig (sw_run (ex_registries t) (ex_programs t) nothing)).
  - exists (fun t => match vrun (ex_registries t) (ex_programs t) nothing (ex_env t) (start []) with Done ((l, _), _) => l | _ => [] end),
      (fun t => match vrun (ex_registries t) (ex_programs t) nothing (ex_env t) (start []) with Done ((_, v), _) => v | _ => nothing end),
      (fun t => match vrun (ex_registries t) (ex_programs t) nothing (ex_env t) (start []) with Done (_, w) => w | _ => start [] end).
    assert (DN : forall t, match vrun (ex_registries t) (ex_programs t) nothing (ex_env t) (start []) with Done _ => true | _ => false end = true) by (intros [|[|t]]; [vm_compute|vm_compute|]; reflexivity).
    intro t. specialize (DN t). destruct (vrun (ex_registries t) (ex_programs t) nothing (ex_env t) (start [])) as [[[l v] w]|u|]; [reflexivity|discriminate|discriminate].
Qed.

(** They take turns after every access: 0, 1, 0, 1, ...  In the middle both are
    inside a call; in the end both have finished, with their answers. *)
Definition ex_turns (n : nat) : list nat := map (fun k => Nat.modulo k 2) (seq 0 n).
Example C92_example :
  match overlap ex_env (ex_turns 600) (mkThreads ex_memory ex_tasks (fun _ => start [])) with
  | Done s =>
      match th_task s 0%nat, th_task s 1%nat with
      | TRet (l0, _), TRet (l1, _) =>
          l0 = [AOk; AOk; AOk; AOk; AOk; AOk; AOk; AOk; AOk; AOk; ABool true; ASees TEST_ID_HELO 4 None [(FUByte, 97); (FUByte, 0); (FUWord, 7)]; ABool true; AOk; ANull] /\
          firstn 9 l1 = [AOk; AOk; ANull; ASees (ID_of "HELO") 3 (Some (Some (bytes "abc"))) []; AOk; AOk; ASees FORM_ID 26 None []; ABool true; ANull] /\
          lookup (th_heap s) 5%nat = Some (OArray [])
      | _, _ => False
      end
  | _ => False
  end /\
  match overlap ex_env (ex_turns 55) (mkThreads ex_memory ex_tasks (fun _ => start [])) with
  | Done s => match next_block (th_task s 0%nat), next_block (th_task s 1%nat) with Some a, Some b => (a <> b)%nat | _, _ => False end
  | _ => False
  end.
Proof. vm_compute. repeat split; try reflexivity; discriminate. Qed.
