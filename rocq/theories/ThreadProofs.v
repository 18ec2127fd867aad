(** * Threads that overlap do what they do alone *)

From Coq Require Import ZArith List Bool String Lia.
From Coq Require Import Strings.Byte.
From Verif Require Import Machine Io Types Build Iff Spec Heap HeapSpec HeapProofs SessionSpec ThreadSpec.
Import ListNotations.
Open Scope Z_scope.

Section Threads.
  Variable A : Type.
  Variable E : nat -> env.
  Variable h0 : heap.
  Variable D : nat -> task A.
  Variable W : nat -> world.
  Variable answer : nat -> A * world * heap.

  (** Threads that look at what is in memory already, and threads that do not *)
  Variable onlooker : nat -> bool.
  Definition empty : heap := repeat None (List.length h0).
  Definition first_view (t : nat) : heap := if onlooker t then h0 else empty.
  Hypothesis alone : forall t, perform (D t) (E t) (W t) (first_view t) = Done (answer t).
  Hypothesis spared : forall t, onlooker t = true -> spares (blocks_of h0) (D t) (E t) (W t) h0.

  (** The part of memory the threads know, one by one *)
  Record apart_in (s : threads A) (v : nat -> heap) : Prop := mkApart {
    in_size : List.length (th_heap s) = List.length h0;
    in_sizes : forall t, List.length (v t) = List.length h0;
    in_view : forall t u, lookup (v t) u <> None -> lookup (th_heap s) u = lookup (v t) u;
    in_apart : forall t t' u, t <> t' -> lookup h0 u = None -> lookup (v t) u <> None -> lookup (v t') u = None;
    in_before : forall u, lookup h0 u <> None -> lookup (th_heap s) u = lookup h0 u;
    in_not_before : forall t u, onlooker t = false -> lookup (v t) u <> None -> lookup h0 u = None;
    in_alone : forall t, perform (th_task s t) (E t) (th_world s t) (v t) = Done (answer t);
    in_spares : forall t, onlooker t = true -> spares (blocks_of h0) (th_task s t) (E t) (th_world s t) (v t) }.

  Lemma lookup_empty : forall n u, lookup (repeat None n) u = None.
  Proof.
    intros n u. unfold lookup. destruct (nth_error (repeat None n) u) as [o|] eqn:N; [|reflexivity]. apply nth_error_In in N. apply repeat_spec in N. exact N.
  Qed.

  Lemma start_apart : apart_in (mkThreads h0 D W) first_view.
  Proof.
    assert (X : forall t u, lookup (first_view t) u <> None -> onlooker t = true /\ lookup h0 u <> None).
    { intros t u. unfold first_view, empty. destruct (onlooker t); [auto|]. rewrite lookup_empty. contradiction. }
    split; cbn [th_heap th_task th_world].
    - reflexivity.
    - intro t. unfold first_view, empty. destruct (onlooker t); [reflexivity|apply repeat_length].
    - intros t u L. destruct (X t u L) as (O & _). unfold first_view. rewrite O. reflexivity.
    - intros t t' u _ N L. destruct (X t u L). contradiction.
    - reflexivity.
    - intros t u O L. destruct (X t u L). congruence.
    - apply alone.
    - intros t O. unfold first_view. rewrite O. apply spared. exact O.
  Qed.

  (** A thread changes what belongs to it, and what belongs to nobody. *)
  Lemma own_step : forall s v t h k w v', apart_in s v ->
    List.length h = List.length (th_heap s) -> List.length v' = List.length h0 ->
    (forall u, lookup v' u <> None -> lookup h u = lookup v' u) ->
    (forall u, lookup h u = lookup (th_heap s) u \/ lookup h0 u = None /\ (lookup (v t) u <> None \/ lookup (th_heap s) u = None)) ->
    (forall u, lookup v' u <> None -> lookup (v t) u <> None \/ lookup (th_heap s) u = None) ->
    perform k (E t) w v' = Done (answer t) ->
    (onlooker t = true -> spares (blocks_of h0) k (E t) w v') ->
    apart_in (goes_on s t h k w) (set v t v').
  Proof.
    intros s v t h k w v' [S1 S2 VW AP BF NB AL SP] LH LV VIEW FRAME NEW RUN KEEP.
    assert (FREE : forall t' u, lookup (th_heap s) u = None -> lookup (v t') u = None).
    { intros t' u N. destruct (lookup (v t') u) eqn:V; [|reflexivity]. rewrite (VW t' u) in N; congruence. }
    split; cbn [goes_on th_heap th_task th_world].
    - congruence.
    - intro t'. unfold set. destruct (Nat.eqb t' t); [exact LV|apply S2].
    - intros t' u. unfold set. destruct (Nat.eqb_spec t' t) as [->|NE]; [apply VIEW|]. intro L.
      destruct (FRAME u) as [->|(N0 & [X|X])]; [apply VW; exact L| |]; exfalso; apply L; [exact (AP t t' u (not_eq_sym NE) N0 X)|exact (FREE t' u X)].
    - intros t1 t2 u NE N0. unfold set. destruct (Nat.eqb_spec t1 t) as [->|N1]; destruct (Nat.eqb_spec t2 t) as [->|N2].
      + contradiction.
      + intro L. destruct (NEW u L) as [X|X]; [exact (AP t t2 u NE N0 X)|exact (FREE t2 u X)].
      + intro L. destruct (lookup v' u) eqn:V; [|reflexivity]. exfalso. destruct (NEW u) as [X|X]; [congruence|exact (L (AP t t1 u (not_eq_sym N1) N0 X))|exact (L (FREE t1 u X))].
      + apply AP; assumption.
    - intros u L. destruct (FRAME u) as [->|(N0 & _)]; [apply BF; exact L|contradiction].
    - intros t' u O. unfold set. destruct (Nat.eqb_spec t' t) as [->|NE]; [|apply NB; exact O]. intro L. destruct (NEW u L) as [X|X]; [exact (NB t u O X)|].
      destruct (lookup h0 u) eqn:B; [|reflexivity]. rewrite <- B, <- (BF u); [exact X|congruence].
    - intro t'. unfold set. destruct (Nat.eqb_spec t' t) as [->|NE]; [exact RUN|apply AL].
    - intros t' O. unfold set. destruct (Nat.eqb_spec t' t) as [->|NE]; [exact (KEEP O)|apply SP; exact O].
  Qed.

  Lemma in_length : forall (h : heap) a, lookup h a <> None -> (a < List.length h)%nat.
  Proof. intros h a L. apply nth_error_Some. unfold lookup in L. destruct (nth_error h a); [discriminate|contradiction]. Qed.

  (** What the thread is about to access is its own. *)
  Lemma own_block : forall s v t a, apart_in s v -> next_block (th_task s t) = Some a -> lookup (v t) a <> None.
  Proof.
    intros s v t a I N. pose proof (in_alone _ _ I t) as R. destruct (th_task s t); try discriminate; injection N as ->; cbn [perform] in R;
      unfold hbind, hload, hstore, hfree in R; destruct (lookup (v t) a); [discriminate|discriminate R|discriminate|discriminate R|discriminate|discriminate R].
  Qed.

  (** What the thread is about to write or release was not there before. *)
  Lemma own_change : forall s v t a, apart_in s v -> next_change (th_task s t) = Some a -> lookup (v t) a <> None /\ lookup h0 a = None.
  Proof.
    intros s v t a I N. assert (L : lookup (v t) a <> None) by (apply (own_block s v t a I); destruct (th_task s t); try discriminate; exact N). split; [exact L|].
    destruct (onlooker t) eqn:O; [|exact (in_not_before _ _ I t a O L)]. pose proof (in_spares _ _ I t O) as S.
    destruct (lookup h0 a) eqn:B; [|reflexivity]. exfalso. destruct (th_task s t); try discriminate; injection N as ->; apply (proj1 S); unfold blocks_of; congruence.
  Qed.

  Lemma access_apart : forall s v t, apart_in s v -> exists s' v', access E t s = Done s' /\ apart_in s' v'.
  Proof.
    intros s v t I. pose proof (in_alone _ _ I t) as R. pose proof (in_spares _ _ I t) as SP. pose proof (own_block s v t) as OB. pose proof (own_change s v t) as OC.
    unfold access. destruct (th_task s t) as [a|u| |B m k|a k|a o k|a k|o k|k]; cbn [perform] in R; cbn [spares] in SP.
    - exists s, v. auto.
    - discriminate.
    - discriminate.
    - unfold hbind, io in R. destruct (m (E t) (th_world s t)) as [[x w']|u|]; [|discriminate|discriminate]. eexists _, _. split; [reflexivity|].
      apply (own_step s v t _ _ _ (v t)); [exact I|reflexivity|apply I|apply I|left; reflexivity|left; assumption|exact R|exact SP].
    - assert (L : lookup (v t) a <> None) by (apply OB; [exact I|reflexivity]). rewrite (in_view _ _ I t a L). unfold hbind, hload in R. destruct (lookup (v t) a) as [o|]; [|contradiction].
      eexists _, _. split; [reflexivity|]. apply (own_step s v t _ _ _ (v t)); [exact I|reflexivity|apply I|apply I|left; reflexivity|left; assumption|exact R|exact SP].
    - destruct (OC a I eq_refl) as (L & N0). assert (LH : lookup (th_heap s) a <> None) by (rewrite (in_view _ _ I t a L); exact L).
      unfold hbind, hstore in R. destruct (lookup (th_heap s) a) eqn:X; [|contradiction]. destruct (lookup (v t) a) eqn:Y; [|contradiction].
      eexists _, _. split; [reflexivity|]. apply (own_step s v t _ _ _ (store (v t) a o)); [exact I|apply length_store|rewrite length_store; apply I| | | |exact R|intro O; exact (proj2 (SP O))].
      + intros u. rewrite !lookup_store by congruence. destruct (Nat.eqb_spec u a); [reflexivity|]. apply I.
      + intros u. rewrite lookup_store by congruence. destruct (Nat.eqb_spec u a) as [->|]; [right|left; reflexivity]. split; [exact N0|left; congruence].
      + intros u. rewrite lookup_store by congruence. destruct (Nat.eqb_spec u a) as [->|]; left; [congruence|assumption].
    - destruct (OC a I eq_refl) as (L & N0). assert (LH : lookup (th_heap s) a <> None) by (rewrite (in_view _ _ I t a L); exact L).
      unfold hbind, hfree in R. destruct (lookup (th_heap s) a) eqn:X; [|contradiction]. destruct (lookup (v t) a) eqn:Y; [|contradiction].
      eexists _, _. split; [reflexivity|]. apply (own_step s v t _ _ _ (release (v t) a)); [exact I|apply length_replace_nth|unfold release; rewrite length_replace_nth; apply I| | | |exact R|intro O; exact (proj2 (SP O))].
      + intros u. rewrite !lookup_release. destruct (Nat.eqb_spec u a); [reflexivity|]. apply I.
      + intros u. rewrite lookup_release. destruct (Nat.eqb_spec u a) as [->|]; [right|left; reflexivity]. split; [exact N0|left; congruence].
      + intros u. rewrite lookup_release. destruct (Nat.eqb_spec u a) as [->|]; [contradiction|left; assumption].
    - destruct (nth_error (th_heap s) (place (E t) (w_allocs (th_world s t)))) as [[o'|]|] eqn:X; [exists s, v; auto| |exists s, v; auto].
      set (a := place (E t) (w_allocs (th_world s t))) in *.
      assert (LH : lookup (th_heap s) a = None) by (unfold lookup; rewrite X; reflexivity).
      assert (N0 : lookup h0 a = None) by (destruct (lookup h0 a) eqn:B; [|reflexivity]; rewrite <- B, <- (in_before _ _ I a); congruence).
      assert (LT : (a < List.length (v t))%nat) by (rewrite (in_sizes _ _ I t), <- (in_size _ _ I); apply nth_error_Some; congruence).
      assert (LV : lookup (v t) a = None) by (destruct (lookup (v t) a) eqn:Y; [|reflexivity]; rewrite (in_view _ _ I t a) in LH; congruence).
      assert (AD : address (E t) (th_world s t) (v t) = a).
      { unfold address. fold a. unfold lookup in LV. destruct (nth_error (v t) a) as [[y|]|] eqn:Y; [discriminate|reflexivity|]. apply nth_error_None in Y. lia. }
      rewrite AD in R, SP. unfold fill in R, SP. rewrite (proj2 (Nat.ltb_lt _ _) LT) in R, SP.
      assert (PV : forall u, lookup (replace_nth a (Some o) (v t)) u = if Nat.eqb u a then Some o else lookup (v t) u).
      { intro u. pose proof (lookup_new (E t) (th_world s t) (v t) o u) as Q. rewrite AD in Q. unfold fill in Q. rewrite (proj2 (Nat.ltb_lt _ _) LT) in Q. exact Q. }
      assert (AH : address (E t) (th_world s t) (th_heap s) = a) by (unfold address; fold a; rewrite X; reflexivity).
      assert (PH : forall u, lookup (store (th_heap s) a o) u = if Nat.eqb u a then Some o else lookup (th_heap s) u).
      { intro u. pose proof (lookup_new (E t) (th_world s t) (th_heap s) o u) as Q. rewrite AH in Q. unfold fill in Q.
        rewrite (proj2 (Nat.ltb_lt a (List.length (th_heap s)))) in Q; [exact Q|]. rewrite (in_size _ _ I), <- (in_sizes _ _ I t). exact LT. }
      eexists _, _. split; [reflexivity|]. apply (own_step s v t _ _ _ (replace_nth a (Some o) (v t))); [exact I|apply length_store|rewrite length_replace_nth; apply I| | | |exact R|exact SP].
      + intro u. rewrite PV, PH. destruct (Nat.eqb u a); [reflexivity|]. apply I.
      + intro u. rewrite PH. destruct (Nat.eqb_spec u a) as [->|]; [right|left; reflexivity]. split; [exact N0|right; exact LH].
      + intro u. rewrite PV. destruct (Nat.eqb_spec u a) as [->|]; [intros _; right; exact LH|left; assumption].
    - eexists _, _. split; [reflexivity|]. rewrite (in_sizes _ _ I t) in R, SP. rewrite (in_size _ _ I).
      apply (own_step s v t _ _ _ (v t)); [exact I|reflexivity|apply I|apply I|left; reflexivity|left; assumption|exact R|exact SP].
  Qed.

  Lemma overlap_apart : forall sch s v, apart_in s v -> exists s' v', overlap E sch s = Done s' /\ apart_in s' v'.
  Proof.
    induction sch as [|t sch IH]; intros s v I; cbn [overlap]; [exists s, v; auto|]. destruct (access_apart s v t I) as (s1 & v1 & -> & I1). exact (IH s1 v1 I1).
  Qed.

  (** ** Threads that are given turns come to their end. *)

  (** The state after the first [n] accesses of an endless schedule *)
  Fixpoint after (f : nat -> nat) (n : nat) : outcome (threads A) :=
    match n with
    | O => Done (mkThreads h0 D W)
    | S n => match after f n with Done s => access E (f n) s | Undefined u => Undefined u | OutOfFuel => OutOfFuel end
    end.

  Lemma access_other : forall t t' (s s' : threads A), t <> t' -> access E t s = Done s' -> th_task s' t' = th_task s t' /\ th_world s' t' = th_world s t'.
  Proof.
    intros t t' s s' NE R.
    assert (G : forall h k w, th_task (goes_on s t h k w) t' = th_task s t' /\ th_world (goes_on s t h k w) t' = th_world s t').
    { intros h k w. cbn. unfold set. destruct (Nat.eqb_spec t' t); [congruence|auto]. }
    unfold access in R. destruct (th_task s t) as [a|u| |B m k|a k|a o k|a k|o k|k]; try discriminate;
      repeat match type of R with
             | match ?x with _ => _ end = _ => destruct x as [[]| |] || destruct x as [[]|] || destruct x
             end; try discriminate; injection R as <-; auto.
  Qed.

  Lemma after_apart : forall f n, exists s v, after f n = Done s /\ apart_in s v.
  Proof.
    intros f n. induction n as [|n (s & v & E1 & I)]; cbn [after]; [eexists _, _; split; [reflexivity|apply start_apart]|].
    rewrite E1. destruct (access_apart s v (f n) I) as (s1 & v1 & -> & I1). exists s1, v1. auto.
  Qed.

  Lemma waits_dec : forall (s : threads A) t, waits E s t \/ ~ waits E s t.
  Proof.
    intros s t. unfold waits. destruct (th_task s t); try solve [right; intros []].
    destruct (lookup (th_heap s) _) eqn:L; [left; left; discriminate|].
    destruct (Nat.leb_spec (List.length (th_heap s)) (place (E t) (w_allocs (th_world s t)))); [left; right; assumption|].
    right. intros [X|X]; [contradiction|lia].
  Qed.
  Lemma waits_access : forall (s : threads A) t, waits E s t -> access E t s = Done s.
  Proof.
    intros s t X. unfold waits in X. unfold access. destruct (th_task s t); try contradiction. unfold lookup in X.
    destruct (nth_error (th_heap s) _) as [[y|]|] eqn:N; try reflexivity. destruct X as [X|X]; [contradiction|]. apply nth_error_None in X. congruence.
  Qed.

  Lemma until : forall f t k d n s, after f n = Done s -> th_task s t = k ->
    f (n + d)%nat = t -> (forall s', after f (n + d) = Done s' -> ~ waits E s' t) ->
    exists n2 s2, after f n2 = Done s2 /\ f n2 = t /\ th_task s2 t = k /\ ~ waits E s2 t.
  Proof.
    intros f t k. induction d as [|d IH]; intros n s R K FT NW.
    - rewrite Nat.add_0_r in *. exists n, s. auto.
    - destruct (Nat.eq_dec (f n) t) as [FN|FN].
      + destruct (waits_dec s t) as [X|X]; [|exists n, s; auto].
        apply (IH (S n) s); [cbn [after]; rewrite R, FN; apply waits_access; exact X|exact K|rewrite <- FT; f_equal; lia|].
        intros s'. replace (S n + d)%nat with (n + S d)%nat by lia. apply NW.
      + destruct (after_apart f (S n)) as (s1 & v1 & R1 & _). apply (IH (S n) s1); [exact R1| |rewrite <- FT; f_equal; lia|].
        * cbn [after] in R1. rewrite R in R1. rewrite (proj1 (access_other _ t _ _ FN R1)). exact K.
        * intros s'. replace (S n + d)%nat with (n + S d)%nat by lia. apply NW.
  Qed.

  Lemma finishes : forall f t, (forall n, exists n', (n <= n')%nat /\ f n' = t /\ forall s, after f n' = Done s -> ~ waits E s t) ->
    exists n s a, after f n = Done s /\ th_task s t = TRet a.
  Proof.
    intros f t TURNS.
    assert (G : forall k n s, after f n = Done s -> th_task s t = k -> exists n s a, after f n = Done s /\ th_task s t = TRet a).
    { intro k. induction k as [a|u| |B m k IH|a k IH|a o k IH|a k IH|o k IH|k IH]; intros n s R K.
      1:{ exists n, s, a. auto. }
      all: destruct (TURNS n) as (n' & LE & FT & NW); replace n' with (n + (n' - n))%nat in FT, NW by lia;
        destruct (until f t _ (n' - n) n s R K FT NW) as (n2 & s2 & R2 & F2 & K2 & W2); clear FT NW;
        destruct (after_apart f (S n2)) as (s3 & v3 & R3 & _); pose proof R3 as Q; cbn [after] in Q; rewrite R2, F2 in Q; unfold access in Q; rewrite K2 in Q.
      - discriminate.
      - discriminate.
      - destruct (m (E t) (th_world s2 t)) as [[x w']|u|]; [|discriminate|discriminate]. injection Q as <-. apply (IH x _ _ R3). cbn. unfold set. rewrite Nat.eqb_refl. reflexivity.
      - destruct (lookup (th_heap s2) a) as [o|]; [|discriminate]. injection Q as <-. apply (IH o _ _ R3). cbn. unfold set. rewrite Nat.eqb_refl. reflexivity.
      - destruct (lookup (th_heap s2) a) as [o'|]; [|discriminate]. injection Q as <-. apply (IH _ _ R3). cbn. unfold set. rewrite Nat.eqb_refl. reflexivity.
      - destruct (lookup (th_heap s2) a) as [o'|]; [|discriminate]. injection Q as <-. apply (IH _ _ R3). cbn. unfold set. rewrite Nat.eqb_refl. reflexivity.
      - destruct (nth_error (th_heap s2) _) as [[y|]|] eqn:N.
        + exfalso. apply W2. unfold waits. rewrite K2. left. unfold lookup. rewrite N. discriminate.
        + injection Q as <-. eapply (IH _ _ _ R3). cbn. unfold set. rewrite Nat.eqb_refl. reflexivity.
        + exfalso. apply W2. unfold waits. rewrite K2. right. apply nth_error_None. exact N.
      - injection Q as <-. eapply (IH _ _ _ R3). cbn. unfold set. rewrite Nat.eqb_refl. reflexivity. }
    apply (G (D t) 0%nat (mkThreads h0 D W)); reflexivity.
  Qed.
End Threads.
