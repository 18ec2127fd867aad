(** * Property C89: standard streams in text mode *)

From Coq Require Import ZArith List Bool Lia.
From Coq Require Import Strings.Byte Strings.String.
From Verif Require Import Machine Io Types Build Read Write Check Print Iff Spec Lemmas Grammar Examples PropRead PropWrite PropCheck PropTools PipeSpec PropPipe TextSpec.
Import ListNotations.
Open Scope Z_scope.

(** ** C89.  Where the C library opens standard input and output in text mode
    (Microsoft's does), the tools do not switch it off.

    What gets through unchanged: *)
Lemma text_out_length : forall l, (List.length l <= List.length (text_out l))%nat.
Proof. induction l as [|b l IH]; cbn [text_out List.length]; [lia|]. destruct (Byte.eqb b LF); cbn [List.length]; lia. Qed.
Lemma eqb_true : forall a b, Byte.eqb a b = true -> a = b.
Proof. intros a b H. apply Byte.byte_dec_bl, H. Qed.

Theorem C89_output : forall l, text_out l = l <-> ~ In LF l.
Proof.
  induction l as [|b l IH]; cbn [text_out In]; [tauto|]. destruct (Byte.eqb b LF) eqn:E.
  - apply eqb_true in E. subst b. split; [|intro H; exfalso; apply H; left; reflexivity]. discriminate.
  - assert (b <> LF) by (intro X; subst; discriminate E). split.
    + intros H2. injection H2 as H2. apply IH in H2. intros [X|X]; [congruence|exact (H2 X)].
    + intro H2. f_equal. apply IH. tauto.
Qed.
Print Assumptions C89_output.

Lemma text_in_length : forall l, (List.length (text_in l) <= List.length l)%nat.
Proof.
  induction l as [|b l IH]; cbn [text_in List.length]; [lia|]. destruct (Byte.eqb b SUB); cbn [List.length]; [lia|].
  destruct (Byte.eqb b CR); [|cbn [List.length]; lia]. destruct l as [|c l]; [cbn; lia|]. destruct (Byte.eqb c LF); cbn [List.length] in *; lia.
Qed.

Theorem C89_input : forall l, text_in l = l <-> ~ In SUB l /\ forall a b, l <> a ++ CR :: LF :: b.
Proof.
  intro l. split.
  - induction l as [|x l IH]; cbn [text_in]; intro H.
    + split; [intros []|]. intros [|y t] b E; discriminate E.
    + destruct (Byte.eqb x SUB) eqn:ES; [discriminate H|]. assert (NS : x <> SUB) by (intro X; subst; discriminate ES).
      assert (K : text_in l = l /\ (x = CR -> forall b, l <> LF :: b)).
      { destruct (Byte.eqb x CR) eqn:EC.
        - destruct l as [|c l]; [split; [reflexivity|discriminate]|]. destruct (Byte.eqb c LF) eqn:EL.
          + exfalso. pose proof (text_in_length (c :: l)) as B. rewrite H in B. cbn [List.length] in B. lia.
          + injection H as H. split; [exact H|]. intros _ b E. injection E as -> _. discriminate EL.
        - injection H as H. split; [exact H|]. intro X. subst x. discriminate EC. }
      destruct K as [K1 K2]. destruct (IH K1) as [I1 I2]. split.
      * intros [X|X]; [exact (NS X)|exact (I1 X)].
      * intros [|y a] b E; cbn [Datatypes.app] in E; injection E as -> E; [exact (K2 eq_refl b E)|exact (I2 a b E)].
  - induction l as [|x l IH]; intros [H1 H2]; cbn [text_in]; [reflexivity|].
    assert (K : text_in l = l).
    { apply IH. split; [intro X; apply H1; right; exact X|]. intros a b E. apply (H2 (x :: a) b). cbn. rewrite E. reflexivity. }
    destruct (Byte.eqb x SUB) eqn:ES; [exfalso; apply H1; left; apply eqb_true, ES|].
    destruct (Byte.eqb x CR) eqn:EC; [|rewrite K; reflexivity]. destruct l as [|c l]; [reflexivity|]. destruct (Byte.eqb c LF) eqn:EL; [|rewrite K; reflexivity].
    exfalso. apply (H2 [] l). apply eqb_true in EC, EL. subst. reflexivity.
Qed.
Print Assumptions C89_input.

(** One tool's output as the other's input arrives as it was sent, unless it
    has a SUB. *)
Theorem C89_pipe : forall l, text_in (text_out l) = l <-> ~ In SUB l.
Proof.
  intro l. split.
  - intros H I. assert (X : forall l, In SUB l -> ~ In SUB (text_in l)).
    { clear. intros l _. induction l as [|x l IH]; cbn [text_in]; [intros []|]. destruct (Byte.eqb x SUB) eqn:E; [intros []|].
      assert (K : forall r, ~ In SUB r -> ~ In SUB (x :: r)) by (intros r N [Y|Y]; [subst; discriminate E|exact (N Y)]).
      destruct (Byte.eqb x CR); [|apply K, IH]. destruct l as [|c l]; [apply K; intros []|]. destruct (Byte.eqb c LF); [exact IH|apply K, IH]. }
    assert (O : In SUB (text_out l)).
    { clear H X. induction l as [|x l IH]; [destruct I|]. cbn [text_out]. destruct (Byte.eqb x LF) eqn:E.
      - right. right. destruct I as [->|I]; [discriminate E|exact (IH I)].
      - destruct I as [->|I]; [left; reflexivity|right; exact (IH I)]. }
    apply (X _ O). rewrite H. exact I.
  - induction l as [|x l IH]; cbn [text_out]; intro H; [reflexivity|].
    assert (N : ~ In SUB l) by (intro X; apply H; right; exact X). specialize (IH N).
    assert (XS : Byte.eqb x SUB = false) by (destruct (Byte.eqb x SUB) eqn:E; [exfalso; apply H; left; apply eqb_true, E|reflexivity]).
    destruct (Byte.eqb x LF) eqn:EL.
    + apply eqb_true in EL. subst x. cbn [text_in]. change (Byte.eqb CR SUB) with false. change (Byte.eqb CR CR) with true. change (Byte.eqb LF LF) with true.
      change (Byte.eqb LF SUB) with false. change (Byte.eqb LF CR) with false. cbv iota. rewrite IH. reflexivity.
    + cbn [text_in]. rewrite XS. destruct (Byte.eqb x CR) eqn:EC; [|rewrite IH; reflexivity].
      destruct l as [|c l]; [reflexivity|]. cbn [text_out] in *. destruct (Byte.eqb c LF) eqn:EL2.
      * change (Byte.eqb CR LF) with false. cbv iota. rewrite IH. reflexivity.
      * rewrite EL2, IH. reflexivity.
Qed.
Print Assumptions C89_pipe.

(** ** The tools *)

(** Joined files sent through a pipe are read as the CAT of the inputs. *)
Theorem C89_join_to_reader : forall e e2 inputs s s' seekable log n, usual e -> usual e2 ->
  12 + total_size s inputs <= INT_MAX -> handed (sy_stdout s) = [] -> o_room (sy_stdout s) = None ->
  IFF_join inputs None e s = Done (0, s') -> ~ In SUB (delivered s') ->
  exists cat g trees w2,
    IFF_readFd None e2 (mkWorld (mkRfile (text_in (text_out (delivered s'))) seekable) no_out log n) = Done (Some cat, w2) /\ w_log w2 = log /\
    chunkId cat = CAT_ID /\ as_group cat = Some (g, trees) /\ Forall2 (accepted e s) inputs trees.
Proof.
  intros e e2 inputs s s' sk log n U U2 S HD RM J NS. rewrite (proj2 (C89_pipe _) NS).
  destruct (C45_standard_output e e2 inputs s s' sk log n U U2 S HD RM J) as (cat & g & trees & w2 & R & LG & ID & _ & AG & F & _).
  exists cat, g, trees, w2. repeat (split; [assumption|]). exact F.
Qed.
Print Assumptions C89_join_to_reader.

(** iffpp does with its standard input what it does with the file itself, if
    there is no SUB and no carriage return before a line feed in it. *)
Theorem C89_iffpp : forall e s f data disable_check, sy_files s f = Some data -> r_rest (sy_stdin s) = text_in data ->
  ~ In SUB data -> (forall a b, data <> a ++ CR :: LF :: b) ->
  match IFF_prettyPrint (Some f) disable_check e s, IFF_prettyPrint None disable_check e s with
  | Done (x, s1), Done (y, s2) => x = y /\ sy_log s1 = sy_log s2 /\ sy_files s1 = sy_files s2 /\ sy_stdout s1 = sy_stdout s2
  | Undefined u, Undefined v => u = v
  | OutOfFuel, OutOfFuel => True
  | _, _ => False
  end.
Proof.
  intros e s f data d F S N1 N2. apply (C85_iffpp e s f data d F). rewrite S. apply C89_input. split; assumption.
Qed.
Print Assumptions C89_iffpp.

(** ** What is not so *)
Definition text_file (c : chunk) : sys :=
  mkSys (fun n => if String.eqb n "a.iff" then Some (encode c) else None) (fun _ => true) (fun _ => None) 16
    (mkRfile (text_in (encode c)) false) (mkWfile [] [] 4096 None) [] 0.

(** iffjoin a.iff > b.iff: the file is read without an error, but holds other
    data than a.iff. *)
Theorem C89_redirected_refuted : exists tree s' cat w,
  WF no_apps 0 tree /\ accepted (host false) (text_file tree) "a.iff" tree /\
  IFF_join ["a.iff"]%string None (host false) (text_file tree) = Done (0, s') /\
  IFF_readFd None (host false) (start (text_out (delivered s'))) = Done (Some cat, w) /\
  IFF_check cat None (host false) (start []) = Done (true, start []) /\
  ~ In tree (snd (match as_group cat with Some x => x | None => (0, []) end)).
Proof.
  exists (group "FORM" "TEST" [CRaw (ID_of "TEXT") 2 (Some [x61; LF])]). do 3 eexists. split; [prove_wf|].
  split; [split; eexists; vm_compute; reflexivity|]. split; [vm_compute; reflexivity|]. split; [vm_compute; reflexivity|]. split; [vm_compute; reflexivity|].
  vm_compute. intros [X|[]]. discriminate X.
Qed.
Print Assumptions C89_redirected_refuted.

(** iffpp < a.iff rejects a file that iffpp a.iff prints. *)
Theorem C89_stdin_refuted : exists tree text s1 s2,
  WF no_apps 0 tree /\
  IFF_prettyPrint (Some "a.iff"%string) false (host false) (text_file tree) = Done ((0, text), s1) /\
  IFF_prettyPrint None false (host false) (text_file tree) = Done ((1, ""%string), s2).
Proof.
  exists (group "FORM" "TEST" [CRaw (ID_of "BODY") 2 (Some [x61; SUB])]). do 3 eexists. split; [prove_wf|]. split; vm_compute; reflexivity.
Qed.
Print Assumptions C89_stdin_refuted.

Example C89_example :
  match IFF_join ["a.iff"]%string None (host false) (text_file (group "FORM" "TEST" [raw "NAME" "x"; raw "TEXT" ("a" ++ nl ++ "bcde")])) with
  | Done (0, s') => In LF (delivered s') /\ ~ In SUB (delivered s') /\ text_out (delivered s') <> delivered s' /\ text_in (text_out (delivered s')) = delivered s'
  | _ => False
  end.
Proof. vm_compute. split; [repeat (first [left; reflexivity|right])|]. split; [intro H; repeat (destruct H as [H|H]; [discriminate H|]); exact H|]. split; [intro H; discriminate H|reflexivity]. Qed.
