(** * What the grammar says about the trees it describes *)

From Coq Require Import ZArith List Bool String Lia.
From Coq Require Import Strings.Byte.
From Verif Require Import Machine Io Types Spec Lemmas IoProofs RegProofs EncodeProofs Grammar DetProofs RoundProofs.
Import ListNotations.
Open Scope Z_scope.

Lemma Parsed_Stored : forall e app, (forall ft i, app ft i = None) ->
  (forall ft l c lg, Parsed e app ft l c lg -> Stored c l) /\
  (forall g bp s l cs lg total, Members e app g bp s l cs lg total ->
     exists ls, Forall2 Stored cs ls /\ l = List.concat ls).
Proof.
  intros e app NA. apply (Parsed_Members_ind e app); intros.
  - constructor; assumption.
  - rewrite NA in *. discriminate.
  - match goal with H : exists ls, _ |- _ => destruct H as (ls & F & ->) end. constructor; assumption.
  - match goal with H : exists ls, _ |- _ => destruct H as (ls & F & ->) end.
    exact (St_list LIST_ID s g members ls p F ltac:(assumption)).
  - exists []. split; [constructor|reflexivity].
  - match goal with H : exists ls, _ |- _ => destruct H as (ls & F & ->) end.
    eexists (_ :: ls). split; [constructor; eassumption|reflexivity].
Qed.

Lemma sum_app : forall a b, sum (a ++ b) = sum a + sum b.
Proof. induction a as [|x a IH]; intros b; simpl; [reflexivity|]. rewrite IH. lia. Qed.

Lemma chunks_filter : forall (f : chunk -> bool) l,
  sum (map chunks (filter f l)) + sum (map chunks (filter (fun c => negb (f c)) l)) = sum (map chunks l).
Proof.
  intros f. induction l as [|c l IH]; simpl; [reflexivity|]. destruct (f c); simpl; lia.
Qed.

Lemma Parsed_chunks : forall e app,
  (forall ft l c lg, Parsed e app ft l c lg -> 8 * chunks c <= zlength l) /\
  (forall g bp s l cs lg total, Members e app g bp s l cs lg total -> 8 * sum (map chunks cs) <= zlength l).
Proof.
  intros e app. apply (Parsed_Members_ind e app); intros; rewrite ?zlength_app, ?EncodeProofs.be32_length; cbn [chunks];
    repeat match goal with |- context [zlength ?x] => lazymatch goal with H : 0 <= zlength x |- _ => fail
      | _ => pose proof (zlength_nonneg _ x) end end; try lia.
  - unfold is_prop. pose proof (chunks_filter (fun c => chunkId c =? PROP_ID) members) as CF. rewrite <- CF in *. clear CF. lia.
  - simpl. lia.
  - simpl. lia.
Qed.

(** Every piece of raw data stands in the input, behind its own header. *)
Lemma Parsed_raw_data : forall e app,
  (forall ft l c lg, Parsed e app ft l c lg ->
     forall i s d, InTree (CRaw i s d) c -> exists data a b,
       d = Some data /\ zlength data = s /\ l = a ++ be32 i ++ be32 s ++ data ++ b) /\
  (forall g bp s l cs lg total, Members e app g bp s l cs lg total ->
     forall c i s d, In c cs -> InTree (CRaw i s d) c -> exists data a b,
       d = Some data /\ zlength data = s /\ l = a ++ be32 i ++ be32 s ++ data ++ b).
Proof.
  intros e app. apply (Parsed_Members_ind e app).
  - intros ft i data p I NG A Z ZP i' s' d' T. inversion T; subst. exists data, [], p.
    split; [reflexivity|]. split; reflexivity.
  - intros. match goal with T : InTree _ _ |- _ => inversion T end.
  - intros ft i s g l subs p lg total GI SR GR M IH ZP i' s' d' T. inversion T; subst.
    match goal with A : In ?c subs, B : InTree _ ?c |- _ => destruct (IH c i' s' d' A B) as (data & a & b & -> & Z & ->) end.
    exists data, (be32 i ++ be32 s ++ be32 g ++ a), (b ++ p). split; [reflexivity|]. split; [assumption|].
    rewrite <- !app_assoc. reflexivity.
  - intros ft s g l members p lg total SR GR M IH ZP i' s' d' T.
    assert (exists c, In c members /\ InTree (CRaw i' s' d') c) as (c & A & B).
    { inversion T; subst; eexists; (split; [|eassumption]);
        match goal with H : In _ (filter _ _) |- _ => apply filter_In in H; apply H end. }
    destruct (IH c i' s' d' A B) as (data & a & b & -> & Z & ->).
    exists data, (be32 LIST_ID ++ be32 s ++ be32 g ++ a), (b ++ p). split; [reflexivity|]. split; [assumption|].
    rewrite <- !app_assoc. reflexivity.
  - intros. contradiction.
  - intros g bp s l c lg bp' l2 cs lg2 total L P IHP AD M IHM c' i' s' d' [<-|I] T.
    + destruct (IHP _ _ _ T) as (data & a & b & -> & Z & ->).
      exists data, a, (b ++ l2). split; [reflexivity|]. split; [assumption|]. rewrite <- !app_assoc. reflexivity.
    + destruct (IHM _ _ _ _ I T) as (data & a & b & -> & Z & ->).
      exists data, (l ++ a), b. split; [reflexivity|]. split; [assumption|]. rewrite <- !app_assoc. reflexivity.
Qed.

(** Two well-formed trees with encodings that begin alike are the same. *)
Theorem encode_unambiguous : forall app ft c1 c2 t1 t2,
  WF app ft c1 -> WF app ft c2 -> encode c1 ++ t1 = encode c2 ++ t2 -> c1 = c2 /\ t1 = t2.
Proof.
  intros app ft c1 c2 t1 t2 W1 W2 E.
  pose (e := mkEnv false true true false (fun _ _ => true) 0 (fun _ => 0%nat)).
  destruct (WF_parsed e app ft c1 W1) as (lg1 & P1 & _).
  destruct (WF_parsed e app ft c2 W2) as (lg2 & P2 & _).
  destruct (proj1 (Parsed_det e app) _ _ _ _ P1 _ _ _ _ _ P2 E) as (_ & A & _ & B).
  split; assumption.
Qed.
