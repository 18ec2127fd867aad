(** * What threads print on the same standard error *)

From Coq Require Import ZArith List Bool String Lia.
From Coq Require Import Strings.Byte.
From Verif Require Import Machine Io Types Build Spec Heap HeapSpec SessionSpec SessionProofs ThreadSpec ThreadProofs ThreadSessionProofs StderrSpec.
Import ListNotations.
Open Scope Z_scope.

Lemma printed_same : forall w w', w_log w' = w_log w -> printed w w' = [].
Proof. intros w w' E. unfold printed. rewrite E, Nat.sub_diag. reflexivity. Qed.
Lemma printed_one : forall w w' s, w_log w' = s :: w_log w -> printed w w' = [s].
Proof. intros w w' s E. unfold printed. rewrite E. cbn [List.length]. replace (S (List.length (w_log w)) - List.length (w_log w))%nat with 1%nat by lia. reflexivity. Qed.

(** An access adds to what its thread has printed what it prints. *)
Lemma access_log : forall A E t (s s' : threads A), one_by_one (th_task s t) -> access E t s = Done s' ->
  one_by_one (th_task s' t) /\ rev (w_log (th_world s' t)) = rev (w_log (th_world s t)) ++ printed (th_world s t) (th_world s' t).
Proof.
  intros A E t s s' O R.
  assert (SAME : forall h k, one_by_one k -> one_by_one (th_task (goes_on s t h k (th_world s t)) t) /\
    rev (w_log (th_world (goes_on s t h k (th_world s t)) t)) = rev (w_log (th_world s t)) ++ printed (th_world s t) (th_world (goes_on s t h k (th_world s t)) t)).
  { intros h k K. cbn. unfold set. rewrite Nat.eqb_refl. split; [exact K|]. rewrite printed_same by reflexivity. symmetry. apply app_nil_r. }
  assert (STAY : one_by_one (th_task s t) /\ rev (w_log (th_world s t)) = rev (w_log (th_world s t)) ++ printed (th_world s t) (th_world s t)).
  { split; [exact O|]. rewrite printed_same by reflexivity. symmetry. apply app_nil_r. }
  unfold access in R. destruct (th_task s t) as [a|u| |B m k|a k|a o k|a k|o k|k] eqn:K; cbn [one_by_one] in O.
  - injection R as <-. rewrite K. exact STAY.
  - discriminate.
  - discriminate.
  - destruct O as (O & OK). destruct (m (E t) (th_world s t)) as [[x w']|u|] eqn:X; [|discriminate|discriminate]. injection R as <-. cbn. unfold set. rewrite Nat.eqb_refl. split; [apply OK|].
    destruct (O _ _ _ _ X) as [Y|(m1 & Y)]; [rewrite (printed_same _ _ Y), Y; symmetry; apply app_nil_r|rewrite (printed_one _ _ _ Y), Y; reflexivity].
  - destruct (lookup (th_heap s) a); [|discriminate]. injection R as <-. apply SAME. apply O.
  - destruct (lookup (th_heap s) a); [|discriminate]. injection R as <-. apply SAME. apply O.
  - destruct (lookup (th_heap s) a); [|discriminate]. injection R as <-. apply SAME. apply O.
  - destruct (nth_error (th_heap s) (place (E t) (w_allocs (th_world s t)))) as [[y|]|]; injection R as <-; [rewrite K; exact STAY|apply SAME; apply O|rewrite K; exact STAY].
  - injection R as <-. apply SAME. apply O.
Qed.

Lemma said_app : forall t l k, said_by t (l ++ k) = said_by t l ++ said_by t k.
Proof. intros t l k. unfold said_by. rewrite filter_app, map_app. reflexivity. Qed.
Lemma said_own : forall t l, said_by t (map (pair t) l) = l.
Proof. intros t l. induction l as [|x l IH]; [reflexivity|]. unfold said_by in *. cbn [map filter fst]. rewrite Nat.eqb_refl. cbn [map snd]. rewrite IH. reflexivity. Qed.
Lemma said_other : forall t t' l, t <> t' -> said_by t' (map (pair t) l) = [].
Proof. intros t t' l NE. induction l as [|x l IH]; [reflexivity|]. unfold said_by in *. cbn [map filter fst]. rewrite (proj2 (Nat.eqb_neq t t') NE). exact IH. Qed.

(** What a thread has printed is its part of standard error. *)
Lemma overlap_log : forall A E sch (s s' : threads A), (forall t, one_by_one (th_task s t)) -> overlap E sch s = Done s' ->
  forall t, one_by_one (th_task s' t) /\ rev (w_log (th_world s' t)) = rev (w_log (th_world s t)) ++ said_by t (stderr E sch s).
Proof.
  intros A E sch. induction sch as [|t0 sch IH]; intros s s' O R t; cbn [overlap stderr] in *.
  - injection R as <-. split; [apply O|]. symmetry. apply app_nil_r.
  - destruct (access E t0 s) as [s1|u|] eqn:X; [|discriminate|discriminate]. destruct (access_log A E t0 s s1 (O t0) X) as (O1 & L1).
    assert (O' : forall t, one_by_one (th_task s1 t)).
    { intro t'. destruct (Nat.eq_dec t0 t') as [<-|NE]; [exact O1|]. rewrite (proj1 (access_other A E t0 t' s s1 NE X)). apply O. }
    destruct (IH s1 s' O' R t) as (O2 & L2). split; [exact O2|]. rewrite L2, said_app. destruct (Nat.eq_dec t0 t) as [<-|NE].
    + rewrite L1, said_own, <- app_assoc. reflexivity.
    + rewrite (said_other t0 t _ NE), (proj2 (access_other A E t0 t s s1 NE X)). reflexivity.
Qed.

(** What is printed stays printed. *)
Lemma perform_log : forall A (t : task A) e w h a w' h', one_by_one t -> perform t e w h = Done (a, w', h') -> exists l, w_log w' = l ++ w_log w.
Proof.
  intros A t. induction t as [a|u| |C m j IH|a j IH|a o j IH|a j IH|o j IH|j IH]; intros e w h x w' h' O R; cbn [one_by_one perform] in *.
  - injection R as _ <- _. exists []. reflexivity.
  - discriminate.
  - discriminate.
  - destruct O as (O & OK). unfold hbind, io in R. destruct (m e w) as [[y w1]|u|] eqn:X; [|discriminate|discriminate]. destruct (IH _ _ _ _ _ _ _ (OK y) R) as (l & L).
    destruct (O _ _ _ _ X) as [Y|(s & Y)]; rewrite L, Y; [exists l; reflexivity|exists (l ++ [s]); rewrite <- app_assoc; reflexivity].
  - unfold hbind, hload in R. destruct (lookup h a); [|discriminate]. exact (IH _ _ _ _ _ _ _ (O o) R).
  - unfold hbind, hstore in R. destruct (lookup h a); [|discriminate]. exact (IH _ _ _ _ _ _ O R).
  - unfold hbind, hfree in R. destruct (lookup h a); [|discriminate]. exact (IH _ _ _ _ _ _ O R).
  - exact (IH _ _ _ _ _ _ _ (O _) R).
  - exact (IH _ _ _ _ _ _ _ (O _) R).
Qed.

(** The threads of C92 and C93 *)
Section Together.
  Variable R : nat -> option registry.
  Variable Ap : nat -> apps.
  Variable P : nat -> list stmt.
  Variable D : nat -> task (list answer * pointers).
  Variable E : nat -> env.
  Variable W : nat -> world.
  Variable onlooker : nat -> bool.
  Variable Q0 : nat -> pointers.
  Variable V0 : nat -> vars.
  Variable F0 : nat -> nat -> list addr.
  Variable L : nat -> list answer.
  Variable V : nat -> vars.
  Variable W' : nat -> world.
  Variable h : heap.
  Hypothesis RG : forall t, Realises (selectChunkRegistry (R t)) (Ap t).
  Hypothesis LG : forall t, Forall legal (P t).
  Hypothesis DT : forall t, takes_apart (D t) (hrun (R t) (P t) (Q0 t)).
  Hypothesis OD : forall t, one_by_one (D t).
  Hypothesis GD : forall t, Good (first_view h onlooker t) (Q0 t) (V0 t) (F0 t).
  Hypothesis SP : forall t, onlooker t = true -> spares (blocks_of h) (D t) (E t) (W t) h.
  Hypothesis VR : forall t, vrun (R t) (P t) (V0 t) (E t) (W t) = Done ((L t, V t), W' t).

  Lemma all_heard : forall sch, exists s, overlap E sch (mkThreads h D W) = Done s /\
    forall t, exists later, rev (w_log (W' t)) = rev (w_log (W t)) ++ said_by t (stderr E sch (mkThreads h D W)) ++ later /\
      (forall r, th_task s t = TRet r -> later = []).
  Proof.
    intro sch. destruct (together R Ap P D E W onlooker Q0 V0 F0 L V W' h RG LG DT GD SP VR sch) as (s & v & X & I). exists s. split; [exact X|].
    intro t. destruct (overlap_log _ E sch (mkThreads h D W) s OD X t) as (O & LG1). cbn [th_world] in LG1.
    pose proof (in_alone _ _ _ _ _ _ _ I t) as AL. destruct (alone_done R Ap P D E W onlooker Q0 V0 F0 L V W' h RG LG DT GD VR t) as (_ & Q & h' & Y & _).
    rewrite Y in AL. destruct (perform_log _ _ _ _ _ _ _ _ O AL) as (l & LL). destruct (th_task s t) as [r|u| |B m k|a k|a o k|a k|o k|k] eqn:K;
      [|exists (rev l); split; [rewrite LL, rev_app_distr, LG1, <- app_assoc; reflexivity|discriminate]..].
    exists []. split; [|reflexivity]. cbn in AL. injection AL as _ <- _. rewrite LG1, app_nil_r. reflexivity.
  Qed.
End Together.
