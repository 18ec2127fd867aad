(** * C96: saving over a file that is there already

    IFF_write opens the file with "wb", which empties it, and then writes.  The
    old contents are gone from then on: when the device stops taking bytes (it is
    full, or the machine crashes), the file is neither what it was nor what it
    should become. *)

From Coq Require Import ZArith List Bool String Lia.
From Coq Require Import Strings.Byte.
From Verif Require Import Machine Io Types Build Read Write Iff TestExt Spec Lemmas IoProofs RegProofs WriteProofs EncodeProofs
  Grammar ReadProofs DetProofs SoundProofs RoundProofs ApiProofs TermProofs FileProofs PrimProofs Examples CanonProofs
  LoudProofs PropRegistry PropRead PropRead PropWrite PropTools.
Import ListNotations.
Open Scope Z_scope.

(** Two runs that end alike: the same result, the same messages, the same files *)
Definition end_alike {A} (x y : outcome (A * sys)) : Prop :=
  match x, y with
  | Done (a, s), Done (b, t) => a = b /\ sy_log s = sy_log t /\ forall f, sy_files s f = sy_files t f
  | Undefined u, Undefined v => u = v
  | OutOfFuel, OutOfFuel => True
  | _, _ => False
  end.

(** Nothing of the old contents remains: once the file has been opened, what they
    were makes no difference. *)
Theorem C96_nothing_remains : forall rg c e s name old old', sy_writable s name = true ->
  end_alike (IFF_writeFile name c rg e (set_file s name old)) (IFF_writeFile name c rg e (set_file s name old')).
Proof.
  intros rg c e s name old old' OW. unfold IFF_writeFile. cbn [set_file sy_writable]. rewrite OW. unfold with_streams. cbn [set_file sy_log sy_allocs sy_bufsize sy_room].
  destruct (IFF_writeFd c rg e _) as [[b w]|u|]; cbn; [|reflexivity|exact I]. split; [reflexivity|]. split; [reflexivity|].
  intro f. destruct (String.eqb f name); reflexivity.
Qed.
Print Assumptions C96_nothing_remains.

(** Whenever the device stops taking bytes: the file is as it was if it could not
    be opened, else it holds the first so many bytes of the new encoding; no other
    file is touched; and whoever reads it gets the new tree or a reported failure,
    never anything else. *)
Theorem C96_what_is_left : forall c e e2 s name b s', usual e -> usual e2 -> WF no_apps 0 c -> zlength (encode c) < 2 ^ (size_t_bits e2 - 1) ->
  IFF_writeFile name c None e s = Done (b, s') ->
  (forall other, other <> name -> sy_files s' other = sy_files s other) /\
  ((sy_writable s name = false /\ b = false /\ sy_log s' <> sy_log s /\ sy_files s' name = sy_files s name) \/
   (sy_writable s name = true /\ exists part, sy_files s' name = Some part /\ Prefix part (encode c) /\
      exists r s2, IFF_readFile name None e2 s' = Done (r, s2) /\
        (r = Some c /\ part = encode c \/ r = None /\ part <> encode c /\ sy_log s2 <> sy_log s'))).
Proof.
  intros c e e2 s name b s' U U2 W L H. unfold IFF_writeFile in H. destruct (sy_writable s name) eqn:OW.
  - unfold with_streams in H. set (w := mkWorld no_in (mkWfile [] [] (sy_bufsize s) (sy_room s name)) (sy_log s) (sy_allocs s)) in *.
    destruct (IFF_writeFd c None e w) as [[b1 w1]|u|] eqn:R; [|discriminate|discriminate]. injection H as -> <-. split.
    + intros other NE. cbn. rewrite (proj2 (String.eqb_neq other name) NE). reflexivity.
    + right. split; [reflexivity|]. exists (o_dev (snd (flush (w_out w1)))).
      assert (NO : new_output w) by (split; reflexivity).
      pose proof (C24_device_holds_a_prefix None no_apps e c w b w1 default_registry U W NO R) as (_ & PC).
      cbn. rewrite String.eqb_refl. split; [reflexivity|]. split; [exact PC|]. unfold IFF_readFile. cbn [sy_files set_file]. rewrite String.eqb_refl.
      set (p := o_dev (snd (flush (w_out w1)))) in *. unfold bindS, with_streams. cbn [sy_log sy_allocs set_file].
      destruct (C24_no_wrong_tree c e e2 w w1 b (mkWorld (mkRfile p true) no_out (w_log w1) (w_allocs w1)) p U U2 W L NO R) as (r & w3 & R3 & X); [right; exists []; rewrite (app_nil_r p : (p ++ [])%list = p); reflexivity|reflexivity|].
      rewrite R3. eexists r, _. split; [reflexivity|]. destruct X as [X|(-> & N & (lg & NE & E))]; [left; exact X|]. right. split; [reflexivity|]. split; [exact N|].
      cbn. rewrite E. cbn. intro Q. apply NE. destruct lg as [|x lg]; [reflexivity|]. apply (f_equal (@List.length string)) in Q. rewrite app_length in Q. cbn in Q. lia.
  - unfold no_streams, bindS, with_streams, retS, IFF_error in H. injection H as <- <-. split; [reflexivity|]. left. split; [reflexivity|]. split; [reflexivity|]. split; [|reflexivity].
    cbn. intro Q. apply (f_equal (@List.length string)) in Q. cbn in Q. lia.
Qed.
Print Assumptions C96_what_is_left.

(** So saving is not all or nothing.  There are a file with a tree in it and a
    tree to be saved over it, and after IFF_write has failed (or has even claimed
    success: the bytes did not leave the buffer before fclose, whose result is
    ignored) neither can be read. *)
Definition ex_old : chunk := ex_cat.
Definition ex_disk (bufsize room : nat) : sys :=
  mkSys (fun n => if String.eqb n "a.iff" then Some (encode ex_old) else if String.eqb n "b.iff" then Some (encode ex_form) else None)
        (fun _ => true) (fun _ => Some room) bufsize no_in no_out [] 0.
Lemma ex_unsaid : exists s', IFF_writeFile "a.iff" ex_form None (host false) (ex_disk 4096 20) = Done (true, s') /\ sy_files s' "a.iff" = Some (firstn 20 (encode ex_form)) /\ sy_log s' = [].
Proof. eexists. split; [vm_compute; reflexivity|]. split; vm_compute; reflexivity. Qed.
Lemma ex_unread : forall n, exists w, IFF_readFd None (host false) (mkWorld (mkRfile (firstn 20 (encode ex_form)) true) no_out [] n) = Done (None, w).
Proof. intro n. eexists. vm_compute. reflexivity. Qed.
Lemma unread : forall name rg e s d w, sy_files s name = Some d -> IFF_readFd rg e (mkWorld (mkRfile d true) no_out (sy_log s) (sy_allocs s)) = Done (None, w) ->
  forall t s2, IFF_readFile name rg e s <> Done (Some t, s2).
Proof. intros name rg e s d w F R t s2 RD. unfold IFF_readFile in RD. rewrite F in RD. unfold bindS, with_streams in RD. rewrite R in RD. discriminate RD. Qed.
Theorem C96_old_or_new_refuted :
  ~ (forall c old e s name b s', usual e -> WF no_apps 0 c -> sy_files s name = Some (encode old) -> WF no_apps 0 old ->
       IFF_writeFile name c None e s = Done (b, s') ->
       exists t s2, IFF_readFile name None e s' = Done (Some t, s2) /\ (t = c \/ t = old)) /\
  (exists s', IFF_writeFile "a.iff" ex_form None (host false) (ex_disk 8 20) = Done (false, s') /\ sy_files s' "a.iff" = Some (firstn 20 (encode ex_form))) /\
  (exists s', IFF_writeFile "a.iff" ex_form None (host false) (ex_disk 4096 20) = Done (true, s') /\ sy_files s' "a.iff" = Some (firstn 20 (encode ex_form)) /\ sy_log s' = []).
Proof.
  split; [|split; [eexists; split; vm_compute; reflexivity|exact ex_unsaid]].
  intro ALL. destruct ex_unsaid as (s' & R & F & LG).
  destruct (ALL ex_form ex_old (host false) (ex_disk 4096 20) "a.iff"%string true s') as (t & s2 & RD & _); [split; reflexivity|exact ex_form_wf|reflexivity|exact ex_cat_wf|exact R|].
  destruct (ex_unread (sy_allocs s')) as (w & E). rewrite <- LG in E. exact (unread _ _ _ _ _ w F E t s2 RD).
Qed.
Print Assumptions C96_old_or_new_refuted.

(** ** iffjoin with one of its inputs as the output

    All inputs are read before the output is opened: on a device with room the
    result has the former contents of the output file among its members. *)
Theorem C96_join_over_input : forall e e2 inputs trees out s, usual e -> usual e2 -> In out inputs ->
  12 + total_size s inputs <= INT_MAX -> sy_room s out = None -> sy_writable s out = true ->
  Forall2 (accepted e s) inputs trees ->
  exists s' cat g s2, IFF_join inputs (Some out) e s = Done (0, s') /\ IFF_readFile out None e2 s' = Done (Some cat, s2) /\
    as_group cat = Some (g, trees) /\ exists t, In t trees /\ accepted e s out t.
Proof.
  intros e e2 inputs trees out s U U2 IN S NR OW F. destruct (C45_succeeds e inputs trees out s U S NR OW F) as (s' & J).
  destruct (C45_members_in_order e e2 inputs out s s' U U2 S NR J) as (cat & g & trees' & s2 & R & G & F' & _).
  assert (trees' = trees) as ->.
  { revert trees' F' G. clear - F U. intros trees' F' _. revert trees' F'. induction F as [|f c fs cs A F IH]; intros trees' F'; inversion F' as [|f' c' fs' cs' A' F1]; subst; [reflexivity|].
    f_equal; [|apply IH; exact F1]. destruct A as ((s1 & R1) & _), A' as ((s2 & R2) & _). congruence. }
  exists s', cat, g, s2. split; [exact J|]. split; [exact R|]. split; [exact G|]. clear - F IN.
  induction F as [|f c fs cs A F IH]; [destruct IN|]. destruct IN as [->|IN]; [exists c; split; [left; reflexivity|exact A]|]. destruct (IH IN) as (t & I & X). exists t. split; [right; exact I|exact X].
Qed.
Print Assumptions C96_join_over_input.

(** On a full device the only copy of an input is lost, with exit status 0 and
    without a message. *)
Theorem C96_join_over_input_refuted : exists s', accepted (host false) (ex_disk 4096 0) "a.iff" ex_old /\ accepted (host false) (ex_disk 4096 0) "b.iff" ex_form /\
  IFF_join ["a.iff"; "b.iff"]%string (Some "a.iff"%string) (host false) (ex_disk 4096 0) = Done (0, s') /\ sy_files s' "a.iff" = Some [] /\ sy_log s' = [].
Proof.
  eexists. split; [split; eexists; vm_compute; reflexivity|]. split; [split; eexists; vm_compute; reflexivity|]. split; [vm_compute; reflexivity|]. split; vm_compute; reflexivity.
Qed.
Print Assumptions C96_join_over_input_refuted.

(** The hypotheses are met, and here the device has room. *)
Definition ex_room : sys := mkSys (sy_files (ex_disk 8 0)) (fun _ => true) (fun _ => None) 8 no_in no_out [] 0.
Example C96_example :
  usual (host false) /\ WF no_apps 0 ex_form /\ zlength (encode ex_form) < 2 ^ (size_t_bits (host true) - 1) /\
  Forall2 (accepted (host false) ex_room) ["a.iff"; "b.iff"]%string [ex_old; ex_form] /\ 12 + total_size ex_room ["a.iff"; "b.iff"]%string <= INT_MAX /\
  match IFF_join ["a.iff"; "b.iff"]%string (Some "a.iff"%string) (host false) ex_room with
  | Done (0, s') => option_map (@List.length byte) (sy_files s' "a.iff"%string) = Some (12 + List.length (encode ex_old) + List.length (encode ex_form))%nat
  | _ => False
  end.
Proof.
  split; [split; reflexivity|]. split; [exact ex_form_wf|]. split; [vm_compute; reflexivity|].
  split; [repeat (constructor; [split; eexists; vm_compute; reflexivity|]); constructor|]. split; [vm_compute; discriminate|]. vm_compute. reflexivity.
Qed.
