(** * Threads that run programs, some of which look at the same trees *)

From Coq Require Import ZArith List Bool String Lia.
From Coq Require Import Strings.Byte.
From Verif Require Import Machine Io Types Build Read Write Search Spec Heap HeapSpec HeapProofs HeapReachProofs SessionSpec SessionProofs ThreadSpec ThreadProofs ThreadStepProofs.
Import ListNotations.
Open Scope Z_scope.

Lemma holds_view : forall (h1 h2 : heap) p o, (forall u, lookup h1 u <> None -> lookup h2 u = lookup h1 u) -> SessionSpec.holds h1 p o ->
  SessionSpec.holds h2 p o /\ forall a u, p = Some a -> Owns h2 a u -> Owns h1 a u /\ lookup h1 u <> None.
Proof.
  intros h1 h2 [a|] [c|] S X; try contradiction; [|split; [exact I|discriminate]]. destruct X as (F & T & N).
  assert (T2 : tree_at h2 c None a F) by (apply (tree_frame h1 h2 c None a F T); intros u I; apply S; exact (tree_live _ _ _ _ _ _ T I)).
  split; [exists F; auto|]. intros b u Q O. injection Q as <-. apply (tree_blocks _ _ _ _ _ T2) in O. split; [apply (tree_blocks _ _ _ _ _ T); exact O|exact (tree_live _ _ _ _ _ _ T O)].
Qed.

Section Together.
  Variable R : nat -> option registry.
  Variable Ap : nat -> apps.
  Variable P : nat -> list stmt.
  Variable D : nat -> task (list answer * pointers).
  Variable E : nat -> env.
  Variable W : nat -> world.
  Variable onlooker : nat -> bool.
  Variable Q0 : nat -> pointers.
  Variable V0 : nat -> vars.
  Variable F0 : nat -> nat -> list addr.
  Variable L : nat -> list answer.
  Variable V : nat -> vars.
  Variable W' : nat -> world.
  Variable h : heap.
  Hypothesis RG : forall t, Realises (selectChunkRegistry (R t)) (Ap t).
  Hypothesis LG : forall t, Forall legal (P t).
  Hypothesis DT : forall t, takes_apart (D t) (hrun (R t) (P t) (Q0 t)).
  Hypothesis GD : forall t, Good (first_view h onlooker t) (Q0 t) (V0 t) (F0 t).
  Hypothesis SP : forall t, onlooker t = true -> spares (blocks_of h) (D t) (E t) (W t) h.
  Hypothesis VR : forall t, vrun (R t) (P t) (V0 t) (E t) (W t) = Done ((L t, V t), W' t).

  Definition result (t : nat) : (list answer * pointers) * world * heap :=
    match perform (D t) (E t) (W t) (first_view h onlooker t) with Done r => r | _ => (([], nothing), W t, []) end.

  Lemma alone_done : forall t, perform (D t) (E t) (W t) (first_view h onlooker t) = Done (result t) /\
    exists Q h', result t = ((L t, Q), W' t, h') /\
      (forall x, SessionSpec.holds h' (Q x) (V t x)) /\ (forall x y, x <> y -> apart h' (Q x) (Q y)).
  Proof.
    intro t. pose proof (run_ok (R t) (Ap t) (RG t) (P t) (first_view h onlooker t) (Q0 t) (V0 t) (F0 t) (E t) (W t) (LG t) (GD t)) as X. rewrite VR in X.
    destruct X as (Q & h' & F & X & G & _). assert (Y : perform (D t) (E t) (W t) (first_view h onlooker t) = Done ((L t, Q), W' t, h')) by (rewrite (DT t); exact X).
    unfold result. rewrite Y. split; [reflexivity|]. exists Q, h'. split; [reflexivity|]. split; [intro x; exact (Good_holds _ _ _ _ x G)|].
    intros x y NE. apply (entries_apart h' (Q x) (Q y) (V t x) (V t y) (F x) (F y)); [apply G|apply G|]. intros u I. exact (proj2 G x y u NE I).
  Qed.

  Lemma together : forall sch, exists s v, overlap E sch (mkThreads h D W) = Done s /\ apart_in _ E h result onlooker s v.
  Proof. intro sch. apply (overlap_apart _ E h result onlooker sch _ (first_view h onlooker)). apply (start_apart _ E h D W result); [|exact SP]. intro t. apply (alone_done t). Qed.

  Lemma ended : forall s v t r, apart_in _ E h result onlooker s v -> th_task s t = TRet r ->
    exists Q, r = (L t, Q) /\ th_world s t = W' t /\ (forall x, SessionSpec.holds (v t) (Q x) (V t x)) /\ (forall x y, x <> y -> apart (v t) (Q x) (Q y)).
  Proof.
    intros s v t r I K. pose proof (in_alone _ _ _ _ _ _ _ I t) as X. rewrite K in X. cbn in X. destruct (alone_done t) as (_ & Q & h' & Y & HO & AP). rewrite Y in X. injection X as -> -> <-. exists Q. auto.
  Qed.

  Lemma all_ended : forall sch, exists s, overlap E sch (mkThreads h D W) = Done s /\ preserves h (th_heap s) /\
    (forall t l Q, th_task s t = TRet (l, Q) -> l = L t /\ th_world s t = W' t /\ forall x, SessionSpec.holds (th_heap s) (Q x) (V t x)) /\
    (forall t t' l l' Q Q' x y, th_task s t = TRet (l, Q) -> th_task s t' = TRet (l', Q') ->
       (if Nat.eqb t t' then x <> y else onlooker t = false \/ onlooker t' = false) -> apart (th_heap s) (Q x) (Q' y)).
  Proof.
    intro sch. destruct (together sch) as (s & v & X & I). exists s. split; [exact X|]. split; [exact (in_before _ _ _ _ _ _ _ I)|].
    assert (EN : forall t l Q, th_task s t = TRet (l, Q) -> l = L t /\ th_world s t = W' t /\ (forall x, SessionSpec.holds (v t) (Q x) (V t x)) /\ (forall x y, x <> y -> apart (v t) (Q x) (Q y))).
    { intros t l Q K. destruct (ended s v t _ I K) as (Q1 & Z & EW & HO & AP). injection Z as -> ->. auto. }
    split.
    - intros t l Q K. destruct (EN t l Q K) as (EL & EW & HO & _). split; [exact EL|]. split; [exact EW|]. intro x.
      apply (holds_view (v t) (th_heap s) _ _ (in_view _ _ _ _ _ _ _ I t) (HO x)).
    - intros t t' l l' Q Q' x y K K' NE a b u Qa Qb O1 O2. destruct (EN t l Q K) as (_ & _ & HO & AP). destruct (EN t' l' Q' K') as (_ & _ & HO' & _).
      destruct (proj2 (holds_view (v t) (th_heap s) _ _ (in_view _ _ _ _ _ _ _ I t) (HO x)) a u Qa O1) as (O1' & L1).
      destruct (proj2 (holds_view (v t') (th_heap s) _ _ (in_view _ _ _ _ _ _ _ I t') (HO' y)) b u Qb O2) as (O2' & L2).
      destruct (Nat.eqb_spec t t') as [<-|NT].
      + rewrite K in K'. injection K' as <- <-. exact (AP x y NE a b u Qa Qb O1' O2').
      + assert (N0 : lookup h u = None) by (destruct NE as [O|O]; [exact (in_not_before _ _ _ _ _ _ _ I t u O L1)|exact (in_not_before _ _ _ _ _ _ _ I t' u O L2)]).
        apply L2. exact (in_apart _ _ _ _ _ _ _ I t t' u NT N0 L1).
  Qed.

  (** Nobody else is about to access what a thread is about to change. *)
  Lemma no_races : forall sch s, overlap E sch (mkThreads h D W) = Done s -> forall t a, next_change (th_task s t) = Some a ->
    lookup h a = None /\ lookup (th_heap s) a <> None /\ forall t', t' <> t -> next_block (th_task s t') <> Some a.
  Proof.
    intros sch s X t a N. destruct (together sch) as (s1 & v & X1 & I). rewrite X in X1. injection X1 as <-.
    destruct (own_change _ E h _ onlooker s v t a I N) as (LV & N0). split; [exact N0|].
    split; [rewrite (in_view _ _ _ _ _ _ _ I t a LV); exact LV|]. intros t' NE N'. apply LV. apply (in_apart _ _ _ _ _ _ _ I t' t a NE N0). exact (own_block _ E h _ onlooker s v t' a I N').
  Qed.

  Lemma no_sharing : forall sch s, overlap E sch (mkThreads h D W) = Done s -> forall t a, onlooker t = false -> next_block (th_task s t) = Some a ->
    lookup h a = None /\ lookup (th_heap s) a <> None /\ forall t', t' <> t -> next_block (th_task s t') <> Some a.
  Proof.
    intros sch s X t a O N. destruct (together sch) as (s1 & v & X1 & I). rewrite X in X1. injection X1 as <-.
    pose proof (own_block _ E h _ onlooker s v t a I N) as LV. pose proof (in_not_before _ _ _ _ _ _ _ I t a O LV) as N0. split; [exact N0|].
    split; [rewrite (in_view _ _ _ _ _ _ _ I t a LV); exact LV|]. intros t' NE N'. apply LV. apply (in_apart _ _ _ _ _ _ _ I t' t a NE N0). exact (own_block _ E h _ onlooker s v t' a I N').
  Qed.

  Lemma all_finish : forall (f : nat -> nat) t,
    (forall n, exists n', (n <= n')%nat /\ f n' = t /\
       forall s, overlap E (map f (seq 0 n')) (mkThreads h D W) = Done s -> ~ waits E s t) ->
    exists n s Q, overlap E (map f (seq 0 n)) (mkThreads h D W) = Done s /\ th_task s t = TRet (L t, Q).
  Proof.
    intros f t TURNS.
    assert (AF : forall n, after _ E h D W f n = overlap E (map f (seq 0 n)) (mkThreads h D W)).
    { assert (OA : forall l x (s : threads (list answer * pointers)), overlap E (l ++ [x]) s = match overlap E l s with Done s' => access E x s' | Undefined u => Undefined u | OutOfFuel => OutOfFuel end).
      { induction l as [|y l IH]; intros x s; cbn [List.app overlap]; [destruct (access E x s); reflexivity|]. destruct (access E y s) as [s1|u|]; [apply IH|reflexivity|reflexivity]. }
      induction n as [|n IH]; [reflexivity|]. rewrite seq_S, map_app, Nat.add_0_l. cbn [map]. rewrite OA, <- IH. reflexivity. }
    assert (TURNS' : forall n, exists n', (n <= n')%nat /\ f n' = t /\ forall s, after _ E h D W f n' = Done s -> ~ waits E s t).
    { intro n. destruct (TURNS n) as (n' & X). exists n'. rewrite AF. exact X. }
    destruct (finishes _ E h D W result onlooker (fun t => proj1 (alone_done t)) SP f t TURNS') as (n & s & r & X & K).
    rewrite AF in X. destruct (together (map f (seq 0 n))) as (s1 & v & X1 & I). rewrite X in X1. injection X1 as <-.
    destruct (ended s v t r I K) as (Q & -> & _). exists n, s, Q. auto.
  Qed.
End Together.
