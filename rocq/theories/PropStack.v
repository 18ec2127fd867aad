(** * C70: what the nesting of a file costs in stack *)

From Coq Require Import ZArith List Bool String Lia.
From Coq Require Import Strings.Byte.
From Verif Require Import Machine Io Types Build Read Write Check Compare Print Search Iff Stack Spec Grammar Examples
  Lemmas IoProofs EncodeProofs TermProofs ReadProofs SoundProofs ApiProofs CheckProofs StackProofs RoundProofs ConfProofs IdProofs PropRead PropCheck.
Import ListNotations.
Open Scope Z_scope.

(** ** C70.  The operations recurse once per level of nesting.  [nesting c]
    (Spec.v) is the number of levels of a tree; [frames] is how many calls the
    stack has room for. *)

Lemma rest_of_read : forall e (oc : option chunk) w1 c w',
  (match oc with
     | None => IFF_error ("ERROR: cannot open main chunk!" ++ nl)%string ;;; ret None
     | Some c =>
         ob <- fgetc ;;
         match ob with
         | None => ret (Some c)
         | Some b =>
             IFF_error ("WARNING: Trailing IFF contents found: " ++ dec (b2z b) ++ "!" ++ nl)%string ;;;
             ret (Some c)
         end
     end) e w1 = Done (Some c, w') -> oc = Some c.
Proof.
  intros e oc w1 c w' E. destruct oc as [c1|]; [|discriminate]. unfold bind in E.
  destruct (fgetc e w1) as [[[b|] w2]|u|]; try discriminate; unfold IFF_error, ret in E; injection E as <- _; reflexivity.
Qed.

Lemma readFd_lim : forall frames rg e w,
  stack_IFF_readFd frames rg e w = IFF_readFd rg e w \/
  (Overflows (stack_IFF_readFd frames rg e w) /\ (12 * frames - 4 <= left w)%nat /\
   forall c w', IFF_readFd rg e w = Done (Some c, w') -> (frames < nesting c)%nat).
Proof.
  intros frames rg e w. unfold stack_IFF_readFd, IFF_readFd.
  destruct (stack_read_lim (selectChunkRegistry rg) (S (List.length (r_rest (w_in w)))) frames 0 e w) as [E|(O & N & R)].
  - left. apply bind_same; [exact E|reflexivity].
  - right. split; [|split; [exact N|]].
    + unfold Overflows in *. unfold bind at 1. rewrite O. reflexivity.
    + intros c w' E. unfold bind at 1 in E.
      destruct (IFF_readChunk (selectChunkRegistry rg) (S (List.length (r_rest (w_in w)))) 0 e w) as [[oc w1]|u|]; try discriminate.
      specialize (R _ _ eq_refl). rewrite (rest_of_read e _ _ _ _ E) in R. exact R.
Qed.

(** Twelve bytes per call are enough for any input of that length, whatever
    the input, the registry and the host. *)
Theorem C70_stack_for_any_input : forall frames rg e w,
  zlength (r_rest (w_in w)) + 4 < 12 * Z.of_nat frames ->
  stack_IFF_readFd frames rg e w = IFF_readFd rg e w.
Proof.
  intros frames rg e w L. destruct (readFd_lim frames rg e w) as [E|(_ & N & _)]; [exact E|]. unfold zlength, left in *. lia.
Qed.
Print Assumptions C70_stack_for_any_input.

(** A successful read needs exactly as many calls as its tree has levels. *)
Theorem C70_reading_needs_the_nesting : forall frames rg e w c w',
  IFF_readFd rg e w = Done (Some c, w') ->
  if (nesting c <=? frames)%nat then stack_IFF_readFd frames rg e w = Done (Some c, w')
  else stack_IFF_readFd frames rg e w = Undefined UB_stack_overflow.
Proof.
  intros frames rg e w c w' R. destruct (readFd_lim frames rg e w) as [E|(O & _ & B)].
  - destruct (Nat.leb_spec (nesting c) frames) as [L|L]; [rewrite E; exact R|exfalso]. rewrite R in E.
    unfold stack_IFF_readFd in E. unfold bind at 1 in E.
    pose proof (stack_read_within (selectChunkRegistry rg) (S (List.length (r_rest (w_in w)))) frames 0 e w) as W.
    destruct (stack_readChunk (selectChunkRegistry rg) frames (S (List.length (r_rest (w_in w)))) 0 e w) as [[oc w1]|u|]; try discriminate.
    specialize (W _ _ eq_refl). rewrite (rest_of_read e _ _ _ _ E) in W. cbn [within] in W. lia.
  - specialize (B _ _ R). rewrite (proj2 (Nat.leb_gt _ _) B). exact O.
Qed.
Print Assumptions C70_reading_needs_the_nesting.

(** Every other operation does as much for a tree with that many levels:
    any tree, registry and host. *)
Theorem C70_operations_need_at_most_the_nesting : forall frames c rg,
  (nesting c <= frames)%nat ->
  (forall e w, stack_IFF_writeFd frames c rg e w = IFF_writeFd c rg e w) /\
  (forall e w, stack_IFF_check frames c rg e w = IFF_check c rg e w) /\
  (forall level, stack_IFF_print frames c level rg = IFF_print c level rg) /\
  (forall e c2, stack_IFF_compare frames e c c2 rg = IFF_compare e c c2 rg) /\
  (forall formTypes, stack_searchForms frames formTypes c = IFF_searchFormsFromArray formTypes c) /\
  stack_IFF_free frames c rg = IFF_free c rg.
Proof.
  intros frames c rg L. repeat split; intros.
  - apply stack_write, L.
  - unfold stack_IFF_check, IFF_check. destruct (_ && _); [reflexivity|]. apply stack_check, L.
  - apply stack_print, L.
  - apply stack_compare, L.
  - apply stack_search, L.
  - apply stack_free, L.
Qed.
Print Assumptions C70_operations_need_at_most_the_nesting.

(** With less the result is never a different one. *)
Definition same_or_overflow {A} (limited unlimited : outcome A) : Prop :=
  limited = unlimited \/ limited = Undefined UB_stack_overflow.

Theorem C70_same_or_overflow : forall frames c rg,
  (forall e w, same_or_overflow (stack_IFF_readFd frames rg e w) (IFF_readFd rg e w)) /\
  (forall e w, same_or_overflow (stack_IFF_writeFd frames c rg e w) (IFF_writeFd c rg e w)) /\
  (forall e w, same_or_overflow (stack_IFF_check frames c rg e w) (IFF_check c rg e w)) /\
  (forall level, same_or_overflow (stack_IFF_print frames c level rg) (IFF_print c level rg)) /\
  (forall e c2, same_or_overflow (stack_IFF_compare frames e c c2 rg) (IFF_compare e c c2 rg)) /\
  (forall formTypes, same_or_overflow (stack_searchForms frames formTypes c) (IFF_searchFormsFromArray formTypes c)) /\
  same_or_overflow (stack_IFF_free frames c rg) (IFF_free c rg).
Proof.
  intros frames c rg. repeat split; intros.
  - destruct (readFd_lim frames rg e w) as [E|(O & _)]; [left; exact E|right; exact O].
  - apply stack_write_or.
  - unfold stack_IFF_check, IFF_check. destruct (_ && _); [left; reflexivity|]. apply stack_check_or.
  - apply stack_print_or.
  - apply stack_compare_or.
  - apply stack_search_or.
  - apply stack_free_or.
Qed.
Print Assumptions C70_same_or_overflow.

(** Freeing and printing need all of it. *)
Theorem C70_free_and_print_need_the_nesting : forall frames c rg app,
  Realises (selectChunkRegistry rg) app -> Typed app 0 c -> (frames < nesting c)%nat ->
  stack_IFF_free frames c rg = Undefined UB_stack_overflow /\
  (forall level text, IFF_print c level rg = Done text -> stack_IFF_print frames c level rg = Undefined UB_stack_overflow).
Proof.
  intros frames c rg app RG T L. split; [exact (stack_free_short _ app RG frames c 0 T L)|].
  intros level text P. exact (stack_print_short _ app RG frames c level 0 text T L P).
Qed.
Print Assumptions C70_free_and_print_need_the_nesting.

(** ** No fixed stack is enough, not even for files that pass IFF_check: a FORM
    in a FORM in a FORM ..., each with nothing else in it. *)
Fixpoint tower (n : nat) : chunk :=
  match n with
  | O => CGroup FORM_ID 4 (ID_of "TEST") []
  | S k => CGroup FORM_ID (4 + 12 * Z.of_nat (S k)) (ID_of "TEST") [tower k]
  end.

Lemma tower_nesting : forall n, nesting (tower n) = S n.
Proof. induction n as [|n IH]; [reflexivity|]. cbn [tower nesting map list_max fold_right]. rewrite IH. lia. Qed.
Lemma tower_size : forall n, chunkSize (tower n) = 4 + 12 * Z.of_nat n.
Proof. destruct n; reflexivity. Qed.
Lemma tower_wf : forall n ft, 12 * Z.of_nat n + 4 <= INT_MAX -> WF no_apps ft (tower n).
Proof.
  induction n as [|n IH]; intros ft L.
  - apply WF_group; [left; reflexivity|split; vm_compute; congruence|intros c []|reflexivity|vm_compute; congruence].
  - assert (W : forall ft, WF no_apps ft (tower n)) by (intro; apply IH; lia). cbn [tower].
    apply WF_group; [left; reflexivity|split; vm_compute; congruence|intros c [<-|[]]; apply W| |lia].
    cbn [flat_map]. rewrite app_nil_r, (WF_encode_length _ _ _ (W 0)), tower_size. unfold physical, round_even.
    replace (4 + 12 * Z.of_nat n) with ((2 + 6 * Z.of_nat n) * 2) by lia. rewrite Z_mod_mult. lia.
Qed.
Lemma tower_length : forall n, 12 * Z.of_nat n + 4 <= INT_MAX -> zlength (encode (tower n)) = 12 * Z.of_nat (S n).
Proof.
  intros n L. rewrite (WF_encode_length _ _ _ (tower_wf n 0 L)), tower_size. unfold physical, round_even.
  replace (4 + 12 * Z.of_nat n) with ((2 + 6 * Z.of_nat n) * 2) by lia. rewrite Z_mod_mult. lia.
Qed.
Lemma tower_encoded_size : forall n, encoded_size (tower n) = 12 * Z.of_nat (S n).
Proof. induction n as [|n IH]; [reflexivity|]. cbn [tower encoded_size map sum fold_right]. rewrite IH. lia. Qed.
Lemma tower_id : forall n, chunkId (tower n) = FORM_ID.
Proof. destruct n; reflexivity. Qed.
Lemma tower_conforms : forall n ft, Conforms no_apps ft (tower n).
Proof.
  assert (V : ValidFormType (ID_of "TEST")) by (apply (ValidFormType_chars 84 69 83 84); [unfold byte_val; lia..|reflexivity]).
  induction n as [|n IH]; intro ft; apply Conf_form; try exact V; try reflexivity.
  - intros c [].
  - intros c [<-|[]]. split; [rewrite tower_id; vm_compute; congruence|apply IH].
  - unfold body_size. cbn [map sum fold_right]. rewrite tower_size. unfold physical, round_even.
    replace (4 + 12 * Z.of_nat n) with ((2 + 6 * Z.of_nat n) * 2) by lia. rewrite Z_mod_mult. lia.
Qed.

Theorem C70_fixed_stack_refuted : forall frames, 12 * (Z.of_nat frames + 1) <= INT_MAX ->
  exists file c,
    zlength file = 12 * (Z.of_nat frames + 1) /\
    (forall e w, IFF_check c None e w = Done (true, w)) /\
    stack_IFF_free frames c None = Undefined UB_stack_overflow /\
    forall e w, usual e -> r_rest (w_in w) = file ->
      (exists w', IFF_readFd None e w = Done (Some c, w')) /\
      stack_IFF_readFd frames None e w = Undefined UB_stack_overflow.
Proof.
  intros frames L. assert (L2 : 12 * Z.of_nat frames + 4 <= INT_MAX) by lia. pose proof (tower_wf frames 0 L2) as W.
  pose proof (tower_length frames L2) as LE.
  destruct (WF_properties _ _ _ W) as (T & R & LD).
  exists (encode (tower frames)), (tower frames). split; [rewrite LE; lia|split; [|split]].
  - intros e w. destruct (C26_check_decides_conformance None no_apps (tower frames) e w default_registry T R) as (b & w' & E & D).
    + apply LeafData_sizes, LD.
    + rewrite tower_encoded_size. lia.
    + assert (b = true) as -> by (apply D; split; [unfold top_level; rewrite tower_id; left; reflexivity|apply tower_conforms]).
      rewrite E. f_equal. f_equal. exact (proj2 (C28_false_iff_reported _ _ _ _ _ _ E) eq_refl).
  - apply (proj1 (C70_free_and_print_need_the_nesting frames (tower frames) None no_apps default_registry T ltac:(rewrite tower_nesting; lia))).
  - intros e w U RS. destruct (WF_parsed e no_apps 0 (tower frames) W) as (lg & P & CV).
    destruct (readFd_complete None no_apps e w (encode (tower frames)) [] (tower frames) lg default_registry U no_apps_sane P) as [m E].
    + rewrite app_nil_r. exact RS.
    + rewrite LE. pose proof (half_size_t e). change INT_MAX with (2 ^ 31 - 1) in L. lia.
    + right. left. apply CV. intros i s vals I. exfalso. clear -I. induction frames as [|n IH]; inversion I as [|? ? ? ? c J K| |]; subst.
      * destruct J.
      * destruct J as [<-|[]]. exact (IH K).
    + split; [eexists; exact E|]. pose proof (C70_reading_needs_the_nesting frames None e w _ _ E) as K.
      rewrite (proj2 (Nat.leb_gt _ _)) in K by (rewrite tower_nesting; lia). exact K.
Qed.
Print Assumptions C70_fixed_stack_refuted.

(** A LIST with a PROP and two FORMs has three levels. *)
Example C70_example_list : nesting ex_list = 3%nat /\
  (exists w, stack_IFF_readFd 3 None (host false) (start (encode ex_list)) = Done (Some ex_list, w)) /\
  stack_IFF_readFd 2 None (host false) (start (encode ex_list)) = Undefined UB_stack_overflow.
Proof. split; [reflexivity|split; [eexists; vm_compute; reflexivity|vm_compute; reflexivity]]. Qed.
(** A read that fails may need the last call to clean up. *)
Example C70_example_failed_read :
  let file := bytes "FORM" ++ be32 20 ++ bytes "TESTHELO" ++ be32 0 ++ bytes "BYE" in
  stack_IFF_readFd 2 None (host false) (start file) = Undefined UB_stack_overflow /\
  (exists w, stack_IFF_readFd 3 None (host false) (start file) = Done (None, w)) /\ zlength file + 4 < 12 * 3.
Proof. split; [vm_compute; reflexivity|split; [eexists; vm_compute; reflexivity|reflexivity]]. Qed.
