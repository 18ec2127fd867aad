(** * Property C80: a file that ends too early is reported where it ends *)

From Coq Require Import ZArith List Bool String Lia.
From Coq Require Import Strings.Byte.
From Verif Require Import Machine Io Types Build Read Iff Spec Lemmas IoProofs RegProofs WriteProofs EncodeProofs ReadProofs Examples
  DiagSpec DiagProofs CutProofs PropRegistry PropRead.
Import ListNotations.
Open Scope Z_scope.

(** ** C80.  For every place where the file of a tree may end too early, what
    reading says names the innermost chunk and the part of it that is missing. *)
Theorem C80_truncation_located : forall e w c pre suf, usual e -> WF no_apps 0 c ->
  pre ++ suf = encode c -> suf <> [] -> zlength pre < 2 ^ (size_t_bits e - 1) ->
  exists t w' lg, IFF_readFd None e (with_input pre w) = Done (None, w') /\ Cut c pre t /\
    w_log w' = lg ++ w_log w /\ String.concat "" (rev lg) = (t ++ "ERROR: cannot open main chunk!" ++ nl)%string.
Proof.
  intros e w c pre suf U W E N L.
  destruct (cut_anywhere (selectChunkRegistry None) e default_registry U c 0 pre suf W E N) as (lg & CA & CT).
  destruct (CA (S (List.length pre)) (with_input pre w) ltac:(lia) L eq_refl) as (r & n & X).
  exists (text lg), (add_log ["ERROR: cannot open main chunk!" ++ nl]%string (after r lg n (with_input pre w))),
    (["ERROR: cannot open main chunk!" ++ nl]%string ++ lg).
  split; [|split; [exact CT|split]].
  - unfold IFF_readFd. change (r_rest (w_in (with_input pre w))) with pre. unfold bind at 1. rewrite X. reflexivity.
  - reflexivity.
  - change (String.concat "" (rev (["ERROR: cannot open main chunk!" ++ nl]%string ++ lg))) with
      (text (["ERROR: cannot open main chunk!" ++ nl]%string ++ lg)). rewrite text_app, text_one. reflexivity.
Qed.
Print Assumptions C80_truncation_located.

(** There is one such text for every place. *)
Lemma same_member : forall (before before' behind behind' : list chunk) x x' q q' r r',
  before ++ x :: behind = before' ++ x' :: behind' -> flat_map encode before ++ q = flat_map encode before' ++ q' ->
  q ++ r = encode x -> r <> [] -> q' ++ r' = encode x' -> r' <> [] -> x = x' /\ q = q'.
Proof.
  induction before as [|c before IH]; intros [|c' before'] behind behind' x x' q q' r r' E F Q N Q' N'; cbn [app flat_map] in *.
  - injection E as -> _. auto.
  - injection E as -> _. exfalso. rewrite <- app_assoc in F. pose proof (strict_length _ _ _ _ Q N) as L. rewrite F in L.
    rewrite zlength_app in L. pose proof (zlength_nonneg _ (flat_map encode before' ++ q')). lia.
  - injection E as -> _. exfalso. rewrite <- app_assoc in F. pose proof (strict_length _ _ _ _ Q' N') as L. rewrite <- F in L.
    rewrite zlength_app in L. pose proof (zlength_nonneg _ (flat_map encode before ++ q)). lia.
  - injection E as -> E. rewrite <- !app_assoc in F. apply app_inv_head in F. eapply IH; eassumption.
Qed.

Ltac sizes := exfalso; rewrite ?zlength_app, ?be32_length in *;
  repeat match goal with q : list byte |- _ => lazymatch goal with _ : 0 <= zlength q |- _ => fail | _ => pose proof (zlength_nonneg _ q) end end;
  repeat match goal with l : list chunk |- _ => lazymatch goal with _ : 0 <= zlength (flat_map encode l) |- _ => fail
    | _ => pose proof (zlength_nonneg _ (flat_map encode l)) end end; lia.

Theorem C80_one_diagnosis : forall c pre t1 t2, Cut c pre t1 -> Cut c pre t2 -> t1 = t2.
Proof.
  intros c pre t1 t2 A. revert t2. induction A; intros t2 B; inversion B; subst; try reflexivity; try (sizes; fail).
  - match goal with H : In CAT_ID _ |- _ => repeat destruct H as [H|H]; try discriminate; contradiction end.
  - match goal with H : In CAT_ID _ |- _ => repeat destruct H as [H|H]; try discriminate; contradiction end.
  - assert (x0 = x /\ q0 = q) as [-> ->] by (eapply same_member; eassumption). eauto.
  - match goal with E1 : props ++ subs = _ ++ x0 :: _, E2 : props ++ subs = _ ++ x :: _ |- _ => rewrite E1 in E2 end.
    assert (x0 = x /\ q0 = q) as [-> ->] by (eapply same_member; eassumption). f_equal. eauto.
Qed.
Print Assumptions C80_one_diagnosis.

(** CAT { LIST { PROP { COLR } ; FORM { HELO ; BYE } ; FORM { TEXT } } ; FORM },
    cut after so many of its bytes: *)
Definition cuts : list (nat * string) :=
  [(2%nat, "Error reading '    '." ++ nl);
   (5%nat, "Error reading 'CAT '.chunkSize" ++ nl);
   (11%nat, "Error reading 'CAT '.contentsType" ++ nl);
   (16%nat, "Error reading 'LIST'.chunkSize" ++ nl);
   (23%nat, "Error reading 'LIST'.contentsType" ++ nl);
   (27%nat, "Error reading '    '." ++ nl ++ "Error reading chunk in list!" ++ nl);
   (33%nat, "Error reading 'PROP'.formType" ++ nl ++ "Error reading chunk in list!" ++ nl);
   (44%nat, "Error reading raw chunk body of chunk: 'COLR'" ++ nl ++ "Error reading chunk in list!" ++ nl);
   (45%nat, "Unexpected end of file, while reading padding byte of 'COLR'" ++ nl ++ "Error reading chunk in list!" ++ nl)]%string.

Example C80_example : usual (host false) /\ WF no_apps 0 ex_cat /\
  Forall (fun x => skipn (fst x) (encode ex_cat) <> [] /\
    exists w', IFF_readFd None (host false) (start (firstn (fst x) (encode ex_cat))) = Done (None, w') /\
    String.concat "" (rev (w_log w')) = (snd x ++ "ERROR: cannot open main chunk!" ++ nl)%string) cuts.
Proof.
  split; [split; [reflexivity|vm_compute; auto]|]. split; [exact ex_cat_wf|].
  unfold cuts. repeat (apply Forall_cons; [split; [vm_compute; discriminate|eexists; vm_compute; split; reflexivity]|]). apply Forall_nil.
Qed.
