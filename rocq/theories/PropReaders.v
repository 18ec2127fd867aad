(** * C93: several threads may look at the same trees at the same time

    A program builds or reads trees.  Then any number of threads search them,
    write them to files, check, print and compare them, at the same time and
    without locks, while other threads use the library on trees of their own.
    Looking does not write: neither to the trees nor to anything else that
    another thread uses. *)

From Coq Require Import ZArith List Bool String Lia.
From Coq Require Import Strings.Byte.
From Verif Require Import Machine Io Types Build Read Write Search Spec Heap HeapSpec HeapProofs HeapReachProofs SessionSpec SessionProofs ThreadSpec ThreadProofs ThreadStepProofs ThreadReadProofs ThreadSessionProofs Examples TestExt PropFields PropSession.
Import ListNotations.
Open Scope Z_scope.

(** Every program that only looks can be taken apart into accesses to single
    blocks, none of which writes or releases a block that was there before,
    whatever is in memory and whatever its variables point at.  (The array in
    which a search collects its result is new, and is its own.) *)
Theorem C93_calls : forall rg p Q h, Forall looks p -> exists D, takes_apart D (hrun rg p Q) /\
  forall e w, spares (blocks_of h) D e w h.
Proof.
  intros rg p Q h LK. exists (proj1_sig (sp_run (blocks_of h) rg p Q True (fun _ => LK))).
  split; [exact (proj1 (proj2_sig (sp_run (blocks_of h) rg p Q True (fun _ => LK))))|].
  intros e w. refine (proj1 (proj2 (proj2_sig (sp_run (blocks_of h) rg p Q True (fun _ => LK))) I e w h _)). intros u L. exact L.
Qed.
Print Assumptions C93_calls.

(** The variables with which the threads begin: onlookers have those of the
    program that ran before them, the others have none. *)
Definition begins {A} (onlooker : nat -> bool) (v : nat -> option A) (t : nat) : nat -> option A := if onlooker t then v else nothing.

(** The memory after a program, with room for [n] blocks more *)
Definition with_room (h : heap) (n : nat) : heap := (h ++ repeat None n)%list.

Lemma with_room_lookup : forall h n u, lookup (with_room h n) u = lookup h u.
Proof.
  intros h n u. unfold lookup, with_room. destruct (Nat.ltb_spec u (List.length h)) as [LT|GE]; [rewrite nth_error_app1 by exact LT; reflexivity|].
  rewrite nth_error_app2 by exact GE. rewrite (proj2 (nth_error_None h u)) by exact GE.
  destruct (nth_error (repeat None n) (u - List.length h)) as [o|] eqn:X; [|reflexivity]. apply nth_error_In, repeat_spec in X. subst. reflexivity.
Qed.

(** A program has run, in any memory, and the tree of every variable is where it
    has put it.  Then threads t = 0, 1, 2, ... run: onlookers that begin with its
    variables and only look at them, and others, that begin with none and do
    anything. *)
Definition prepared (rg0 : option registry) (app0 : apps) (p0 : list stmt) (Q0 : pointers) (V0 : vars) (h : heap) : Prop :=
  Realises (selectChunkRegistry rg0) app0 /\ Forall legal p0 /\
  exists e w l w' hh, vrun rg0 p0 nothing e w = Done ((l, V0), w') /\ hrun rg0 p0 nothing e w hh = Done ((l, Q0), w', h).

Lemma prepared_good : forall rg0 app0 p0 Q0 V0 h n, prepared rg0 app0 p0 Q0 V0 h -> exists F, Good (with_room h n) Q0 V0 F.
Proof.
  intros rg0 app0 p0 Q0 V0 h n (RG & LG & e & w & l & w' & hh & VR & HR).
  pose proof (run_ok rg0 app0 RG p0 hh nothing nothing (fun _ => []) e w LG (Good_start hh)) as X. rewrite VR in X. destruct X as (P & h' & F & X & G & _).
  rewrite HR in X. injection X as -> ->. exists F. split; [|exact (proj2 G)]. intro x. apply (entry_frame h'); [apply G|]. intros u _. apply with_room_lookup.
Qed.

Lemma begins_good : forall h onlooker Q0 V0 F, Good h Q0 V0 F -> forall t, Good (first_view h onlooker t) (begins onlooker Q0 t) (begins onlooker V0 t) (if onlooker t then F else fun _ => []).
Proof. intros h onlooker Q0 V0 F G t. unfold first_view, begins. destruct (onlooker t); [exact G|apply Good_start]. Qed.

(** After any number of accesses in any order: nothing undefined has happened; all
    that was in memory before is as it was; a thread that has finished has the
    answers, the output and the diagnostics it has alone, and its variables point
    at the trees they hold. *)
Theorem C93_threads : forall rg0 app0 p0 Q0 V0 h n onlooker R A P D E W L V W' sch,
  prepared rg0 app0 p0 Q0 V0 h ->
  (forall t, Realises (selectChunkRegistry (R t)) (A t)) -> (forall t, Forall legal (P t)) ->
  (forall t, takes_apart (D t) (hrun (R t) (P t) (begins onlooker Q0 t))) ->
  (forall t, onlooker t = true -> Forall looks (P t) /\ spares (blocks_of (with_room h n)) (D t) (E t) (W t) (with_room h n)) ->
  (forall t, vrun (R t) (P t) (begins onlooker V0 t) (E t) (W t) = Done ((L t, V t), W' t)) ->
  exists s, overlap E sch (mkThreads (with_room h n) D W) = Done s /\ preserves h (th_heap s) /\
    (forall t l Q, th_task s t = TRet (l, Q) -> l = L t /\ th_world s t = W' t /\ forall x, holds (th_heap s) (Q x) (V t x)) /\
    (forall t t' l l' Q Q' x y, th_task s t = TRet (l, Q) -> th_task s t' = TRet (l', Q') ->
       (if Nat.eqb t t' then x <> y else onlooker t = false \/ onlooker t' = false) -> apart (th_heap s) (Q x) (Q' y)).
Proof.
  intros rg0 app0 p0 Q0 V0 h n onlooker R A P D E W L V W' sch PR RG LG DT SP VR.
  destruct (prepared_good _ _ _ _ _ _ n PR) as (F & G).
  destruct (all_ended R A P D E W onlooker _ _ _ L V W' (with_room h n) RG LG DT (begins_good _ onlooker _ _ _ G) (fun t O => proj2 (SP t O)) VR sch) as (s & X & K & EN & AP).
  exists s. split; [exact X|]. split; [|split; [exact EN|exact AP]]. intros u LU. rewrite (K u); rewrite with_room_lookup; [reflexivity|exact LU].
Qed.
Print Assumptions C93_threads.

(** No data races: a block that a thread is about to write or release was not
    there before, and no other thread is about to access it.  (So it makes no
    difference in which order the processor performs their accesses: all that two
    threads do with the same block is read it.) *)
Theorem C93_races : forall rg0 app0 p0 Q0 V0 h n onlooker R A P D E W L V W' sch s,
  prepared rg0 app0 p0 Q0 V0 h ->
  (forall t, Realises (selectChunkRegistry (R t)) (A t)) -> (forall t, Forall legal (P t)) ->
  (forall t, takes_apart (D t) (hrun (R t) (P t) (begins onlooker Q0 t))) ->
  (forall t, onlooker t = true -> Forall looks (P t) /\ spares (blocks_of (with_room h n)) (D t) (E t) (W t) (with_room h n)) ->
  (forall t, vrun (R t) (P t) (begins onlooker V0 t) (E t) (W t) = Done ((L t, V t), W' t)) ->
  overlap E sch (mkThreads (with_room h n) D W) = Done s ->
  (forall t a, next_change (th_task s t) = Some a ->
     lookup h a = None /\ lookup (th_heap s) a <> None /\ forall t', t' <> t -> next_block (th_task s t') <> Some a) /\
  (forall t a, onlooker t = false -> next_block (th_task s t) = Some a ->
     lookup h a = None /\ lookup (th_heap s) a <> None /\ forall t', t' <> t -> next_block (th_task s t') <> Some a).
Proof.
  intros rg0 app0 p0 Q0 V0 h n onlooker R A P D E W L V W' sch s PR RG LG DT SP VR X.
  destruct (prepared_good _ _ _ _ _ _ n PR) as (F & G). split; intros t a; [intro N|intros O N].
  - rewrite <- (with_room_lookup h n a). exact (no_races R A P D E W onlooker _ _ _ L V W' (with_room h n) RG LG DT (begins_good _ onlooker _ _ _ G) (fun t O => proj2 (SP t O)) VR sch s X t a N).
  - rewrite <- (with_room_lookup h n a). exact (no_sharing R A P D E W onlooker _ _ _ L V W' (with_room h n) RG LG DT (begins_good _ onlooker _ _ _ G) (fun t O => proj2 (SP t O)) VR sch s X t a O N).
Qed.
Print Assumptions C93_races.

(** Every thread comes to its end, whatever the others do, if it is again and
    again its turn while it does not wait for a place for its next block. *)
Theorem C93_ends : forall rg0 app0 p0 Q0 V0 h n onlooker R A P D E W L V W' (f : nat -> nat) t,
  prepared rg0 app0 p0 Q0 V0 h ->
  (forall t, Realises (selectChunkRegistry (R t)) (A t)) -> (forall t, Forall legal (P t)) ->
  (forall t, takes_apart (D t) (hrun (R t) (P t) (begins onlooker Q0 t))) ->
  (forall t, onlooker t = true -> Forall looks (P t) /\ spares (blocks_of (with_room h n)) (D t) (E t) (W t) (with_room h n)) ->
  (forall t, vrun (R t) (P t) (begins onlooker V0 t) (E t) (W t) = Done ((L t, V t), W' t)) ->
  (forall m, exists m', (m <= m')%nat /\ f m' = t /\
     forall s, overlap E (map f (seq 0 m')) (mkThreads (with_room h n) D W) = Done s -> ~ waits E s t) ->
  exists m s Q, overlap E (map f (seq 0 m)) (mkThreads (with_room h n) D W) = Done s /\ th_task s t = TRet (L t, Q).
Proof.
  intros rg0 app0 p0 Q0 V0 h n onlooker R A P D E W L V W' f t PR RG LG DT SP VR TURNS.
  destruct (prepared_good _ _ _ _ _ _ n PR) as (F & G).
  exact (all_finish R A P D E W onlooker _ _ _ L V W' (with_room h n) RG LG DT (begins_good _ onlooker _ _ _ G) (fun t O => proj2 (SP t O)) VR f t TURNS).
Qed.
Print Assumptions C93_ends.

(** ** Two onlookers and a builder *)

(** A file is read; threads 0 and 1 search the tree, write, check, print and
    compare it, and thread 2 builds and writes a form of its own. *)
Definition ex_setup : list stmt := [ SOpen (encode ex_form) true; SRead 0 ].
Definition ex_looking : list stmt := [ SFind 0 [] (ID_of "HELO"); SChunks 0 [] (ID_of "BODY"); SSearch 0 [] [ID_of "TEST"]; SCheck 0; SWrite 0; SCompare 0 0; SLook 0 [InSub 0]; SPrint 0 1 ].
Definition ex_onlooker (t : nat) : bool := Nat.ltb t 2.
Definition ex_does (t : nat) : list stmt := match t with 0%nat => ex_looking | 1%nat => rev ex_looking | 2%nat => ex_builder | _ => [] end.
Definition ex_kinds (t : nat) : option registry := match t with 2%nat => ex_registry | _ => None end.
Definition ex_where (t : nat) : env := mkEnv false true true false (fun _ _ => true) 0 (fun n => 3 * n + 20 + t)%nat.
Definition both (m : outcome ((list answer * pointers) * world * heap)) (v : outcome ((list answer * vars) * world)) : pointers * vars * heap :=
  match m, v with Done ((_, Q), _, h), Done ((_, V), _) => (Q, V, h) | _, _ => (nothing, nothing, []) end.
Definition ex_set : pointers * vars * heap := both (hrun None ex_setup nothing (host false) (start []) []) (vrun None ex_setup nothing (host false) (start [])).
Definition ex_Q : pointers := fst (fst ex_set).
Definition ex_V : vars := snd (fst ex_set).
Definition ex_h : heap := snd ex_set.
Lemma ex_look0 : Forall looks ex_looking. Proof. repeat constructor. Qed.
Lemma ex_look1 : Forall looks (rev ex_looking). Proof. repeat constructor. Qed.
Definition ex_do (t : nat) : task (list answer * pointers) :=
  match t with
  | 0%nat => proj1_sig (sp_run (blocks_of (with_room ex_h 80)) None ex_looking ex_Q True (fun _ => ex_look0))
  | 1%nat => proj1_sig (sp_run (blocks_of (with_room ex_h 80)) None (rev ex_looking) ex_Q True (fun _ => ex_look1))
  | _ => proj1_sig (sw_run (ex_kinds t) (ex_does t) nothing)
  end.

Lemma both_done : forall m v, match m, v with Done ((l, _), w, _), Done ((l', _), w') => l = l' /\ w = w' | _, _ => False end ->
  exists l w, v = Done ((l, snd (fst (both m v))), w) /\ m = Done ((l, fst (fst (both m v))), w, snd (both m v)).
Proof. intros [[[[l Q] w] h]|u|] [[[l' V] w']|u'|]; try contradiction. intros [<- <-]. exists l, w. split; reflexivity. Qed.

Example C93_example_prepared : prepared None no_apps ex_setup ex_Q ex_V ex_h.
Proof.
  split; [exact HeapToolsProofs.default_none|]. split; [repeat constructor|].
  exists (host false), (start []).
  destruct (both_done (hrun None ex_setup nothing (host false) (start []) []) (vrun None ex_setup nothing (host false) (start []))) as (l & w & X & Y); [vm_compute; split; reflexivity|].
  exists l, w, []. split; [exact X|exact Y].
Qed.

Example C93_example_hypotheses :
  (forall t, Realises (selectChunkRegistry (ex_kinds t)) (match t with 2%nat => RegProofs.app_of TEST_scopedRegistry | _ => no_apps end)) /\
  (forall t, Forall legal (ex_does t)) /\
  (forall t, takes_apart (ex_do t) (hrun (ex_kinds t) (ex_does t) (begins ex_onlooker ex_Q t))) /\
  (forall t, ex_onlooker t = true -> Forall looks (ex_does t) /\ forall e w, spares (blocks_of (with_room ex_h 80)) (ex_do t) e w (with_room ex_h 80)) /\
  exists L V W', forall t, vrun (ex_kinds t) (ex_does t) (begins ex_onlooker ex_V t) (ex_where t) (start []) = Done ((L t, V t), W' t).
Proof.
  split; [|split; [|split; [|split]]].
  - intros [|[|[|t]]]; [exact HeapToolsProofs.default_none|exact HeapToolsProofs.default_none|exact scoped_realises|exact HeapToolsProofs.default_none].
  - intros [|[|[|t]]]; cbn [ex_does]; [unfold ex_looking|unfold ex_looking; cbn [rev List.app]|unfold ex_builder|constructor];
      repeat constructor; cbn [legal]; try exact I; try discriminate; try (vm_compute; intuition congruence).
  - intros [|[|[|t]]]; unfold ex_do; [exact (proj1 (proj2_sig (sp_run (blocks_of (with_room ex_h 80)) None ex_looking ex_Q True (fun _ => ex_look0))))
      |exact (proj1 (proj2_sig (sp_run (blocks_of (with_room ex_h 80)) None (rev ex_looking) ex_Q True (fun _ => ex_look1))))| |];
      apply (proj2_sig (sw_run _ _ _)).
  - intros [|[|t]] O; [| |discriminate]; (split; [first [exact ex_look0|exact ex_look1]|]; intros e w; unfold ex_do).
    + refine (proj1 (proj2 (proj2_sig (sp_run (blocks_of (with_room ex_h 80)) None ex_looking ex_Q True (fun _ => ex_look0))) I e w _ _)). intros u L. exact L.
    + refine (proj1 (proj2 (proj2_sig (sp_run (blocks_of (with_room ex_h 80)) None (rev ex_looking) ex_Q True (fun _ => ex_look1))) I e w _ _)). intros u L. exact L.
  - exists (fun t => match vrun (ex_kinds t) (ex_does t) (begins ex_onlooker ex_V t) (ex_where t) (start []) with Done ((l, _), _) => l | _ => [] end),
      (fun t => match vrun (ex_kinds t) (ex_does t) (begins ex_onlooker ex_V t) (ex_where t) (start []) with Done ((_, v), _) => v | _ => nothing end),
      (fun t => match vrun (ex_kinds t) (ex_does t) (begins ex_onlooker ex_V t) (ex_where t) (start []) with Done (_, w) => w | _ => start [] end).
    assert (DN : forall t, match vrun (ex_kinds t) (ex_does t) (begins ex_onlooker ex_V t) (ex_where t) (start []) with Done _ => true | _ => false end = true) by (intros [|[|[|t]]]; [vm_compute|vm_compute|vm_compute|]; reflexivity).
    intro t. specialize (DN t). destruct (vrun (ex_kinds t) (ex_does t) (begins ex_onlooker ex_V t) (ex_where t) (start [])) as [[[l v] w]|u|]; [reflexivity|discriminate|discriminate].
Qed.
Print Assumptions C93_example_hypotheses.

(** In turns, access by access: in the end all three have finished, and both
    onlookers have written the file that was read.  On the way they are about to
    read the same block. *)
Definition ex_round (n : nat) : list nat := map (fun k => Nat.modulo k 3) (seq 0 n).
Definition meets (n : nat) : bool :=
  match overlap ex_where (ex_round n) (mkThreads (with_room ex_h 80) ex_do (fun _ => start [])) with
  | Done s => match next_block (th_task s 0%nat), next_block (th_task s 1%nat) with Some a, Some b => Nat.eqb a b | _, _ => false end
  | _ => false
  end.
Example C93_example :
  match overlap ex_where (ex_round 1500) (mkThreads (with_room ex_h 80) ex_do (fun _ => start [])) with
  | Done s =>
      match th_task s 0%nat, th_task s 1%nat, th_task s 2%nat with
      | TRet (l0, _), TRet (l1, _), TRet (l2, _) => l0 = rev l1 /\
          Forall (fun t => (o_dev (w_out (th_world s t)) ++ o_buf (w_out (th_world s t)))%list = encode ex_form) [0%nat; 1%nat] /\
          List.length l2 = 15%nat
      | _, _, _ => False
      end
  | _ => False
  end /\ existsb meets (seq 0 300) = true.
Proof. vm_compute. repeat split; try reflexivity; repeat constructor. Qed.

(** ** If one of the threads changes the tree

    "Only look at them" cannot be left out.  Thread 0 prints the tree that was
    read, thread 1 releases it: either may go first as far as the other is
    concerned, alone each comes to its end; but while thread 0 is inside IFF_print,
    IFF_free of thread 1 pulls the tree away under it. *)
Definition ex_quarrel (t : nat) : list stmt := match t with 0%nat => [SPrint 0 0] | 1%nat => [SFree 0] | _ => [] end.
Definition ex_quarrels (t : nat) : task (list answer * pointers) := proj1_sig (sw_run None (ex_quarrel t) ex_Q).
Theorem C93_changing_refuted :
  (forall t, takes_apart (ex_quarrels t) (hrun None (ex_quarrel t) ex_Q)) /\
  (forall t, exists a v w, vrun None (ex_quarrel t) ex_V (ex_where t) (start []) = Done ((a, v), w)) /\
  exists sch, overlap ex_where sch (mkThreads (with_room ex_h 80) ex_quarrels (fun _ => start [])) = Undefined UB_dangling.
Proof.
  split; [intro t; exact (proj2_sig (sw_run None (ex_quarrel t) ex_Q))|]. split.
  - assert (DN : forall t, match vrun None (ex_quarrel t) ex_V (ex_where t) (start []) with Done _ => true | _ => false end = true) by (intros [|[|t]]; [vm_compute|vm_compute|]; reflexivity).
    intro t. specialize (DN t). destruct (vrun None (ex_quarrel t) ex_V (ex_where t) (start [])) as [[[l v] w]|u|]; [exists l, v, w; reflexivity|discriminate|discriminate].
  - exists (repeat 0 5 ++ repeat 1 60 ++ repeat 0 40)%nat. vm_compute. reflexivity.
Qed.
Print Assumptions C93_changing_refuted.
