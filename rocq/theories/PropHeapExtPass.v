(** * Property C82: writing, checking, printing and comparing, when chunks of the
    application own memory *)

From Coq Require Import ZArith List Bool String Lia.
From Coq Require Import Strings.Byte.
From Verif Require Import Machine Io Types Build Read Iff Spec UseSpec Examples Ext ExtSpec ExtFields PropExt
  Heap HeapPass HeapExt HeapExtSpec HeapExtApps HeapExtPass HeapExtProofs HeapExtReadProofs HeapExtAppsProofs
  HeapExtPassProofs HeapExtPassAppsProofs PropHeapExt.
Import ListNotations.
Open Scope Z_scope.

(** ** C82.  If the application's functions give back what they take ([Looker]),
    so do the library's: afterwards the same blocks are allocated and hold the
    same.  Nothing undefined happens but an int overflow, and for IFF_writeFd
    the NULL of a buffer that could not be allocated. *)

Theorem C82_check : forall V own (find : yfind V) e w h p a F,
  Owners own find -> Lookers own find -> GroupsAsUsual find -> Tree own find True h 0 p a F -> NoDup F ->
  OnlyLooks (fun u => u = UB_signed_overflow) h (yIFF_check a find e w h).
Proof.
  intros V own find e w h p a F OW LK GU T ND. unfold yIFF_check.
  destruct (Tree_chunk own find True h _ _ _ _ T) as (i & s & b & La). unfold ybind. rewrite (run_chunk e h a _ _ La). cbv beta iota.
  destruct (_ && _); [exact (Same_refl h)|]. unfold ybounded.
  apply (sees_check own find OW LK GU e h (fun u => u = UB_signed_overflow) eq_refl _ 0 p a F T); [|apply Same_refl].
  pose proof (live_count h F ND (proj1 (proj1 (Tree_live own find True OW h) _ _ _ _ T))). lia.
Qed.
Print Assumptions C82_check.

Theorem C82_write : forall V own (find : yfind V) e w h p a F,
  Owners own find -> Lookers own find -> GroupsAsUsual find -> strict_c e = false -> Tree own find True h 0 p a F -> NoDup F ->
  OnlyLooks (fun u => u = UB_signed_overflow \/ (u = UB_null_deref /\ small_failure e)) h (yIFF_writeFd a find e w h).
Proof.
  intros V own find e w h p a F OW LK GU NS T ND. unfold yIFF_writeFd, ybounded.
  apply (sees_write own find OW LK GU e h (fun u => u = UB_signed_overflow \/ (u = UB_null_deref /\ small_failure e)) NS
           (or_introl eq_refl) (fun S => or_intror (conj eq_refl S)) _ 0 p a F T); [|apply Same_refl].
  pose proof (live_count h F ND (proj1 (proj1 (Tree_live own find True OW h) _ _ _ _ T))). lia.
Qed.
Print Assumptions C82_write.

Theorem C82_print : forall V own (find : yfind V) e w h p a F level,
  Owners own find -> Lookers own find -> Tree own find True h 0 p a F -> NoDup F ->
  OnlyLooks (fun _ => False) h (yIFF_print a level find e w h).
Proof.
  intros V own find e w h p a F level OW LK T ND. unfold yIFF_print, ybounded.
  apply (sees_print own find OW LK e h (fun _ => False) _ 0 p a F level T); [|apply Same_refl].
  pose proof (live_count h F ND (proj1 (proj1 (Tree_live own find True OW h) _ _ _ _ T))). lia.
Qed.
Print Assumptions C82_print.

(** The two trees may be one, or share blocks. *)
Theorem C82_compare : forall V own (find : yfind V) e w h p a F q b G,
  Owners own find -> Lookers own find -> GroupsAsUsual find ->
  Tree own find True h 0 p a F -> NoDup F -> Tree own find True h 0 q b G ->
  OnlyLooks (fun _ => False) h (yIFF_compare a b find e w h).
Proof.
  intros V own find e w h p a F q b G OW LK GU T ND U. unfold yIFF_compare, ybounded.
  apply (sees_compare own find OW LK GU e h (fun _ => False) _ 0 p q a b F G T U); [|apply Same_refl].
  pose proof (live_count h F ND (proj1 (proj1 (Tree_live own find True OW h) _ _ _ _ T))). lia.
Qed.
Print Assumptions C82_compare.

(** *** So whole programs leak nothing: read two files, look at the two trees in
    any way any number of times, free them. *)

Inductive look := Check (x : bool) | Write (x : bool) | Print (x : bool) (level : nat) | Compare (x y : bool).

Section Program.
  Context {V : Type}.
  Variable find : yfind V.

  Definition one_look (a b : addr) (l : look) : Y V unit :=
    let pick (x : bool) := if x then a else b in
    match l with
    | Check x => yIFF_check (pick x) find ;;y yret tt
    | Write x => yIFF_writeFd (pick x) find ;;y yret tt
    | Print x level => yIFF_print (pick x) level find ;;y yret tt
    | Compare x y => yIFF_compare (pick x) (pick y) find ;;y yret tt
    end.

  Fixpoint looks (a b : addr) (l : list look) : Y V unit :=
    match l with
    | [] => yret tt
    | x :: r => one_look a b x ;;y looks a b r
    end.

  (** [second]: the second file *)
  Definition two_files (second : rfile) (l : list look) : Y V unit :=
    p <-y yIFF_readFd find ;;
    match p with
    | None => yret tt
    | Some a =>
        yio (fun _ w => Done (tt, set_in second w)) ;;y
        q <-y yIFF_readFd find ;;
        match q with
        | None => yIFF_free a find
        | Some b => looks a b l ;;y yIFF_free a find ;;y yIFF_free b find
        end
    end.
End Program.

Lemma looks_only : forall V own (find : yfind V) e, Owners own find -> Lookers own find -> GroupsAsUsual find -> strict_c e = false ->
  forall l w h a F b G, Tree own find True h 0 None a F -> NoDup F -> Tree own find True h 0 None b G -> NoDup G ->
  OnlyLooks (fun u => u = UB_signed_overflow \/ (u = UB_null_deref /\ small_failure e)) h (looks find a b l e w h).
Proof.
  intros V own find e OW LK GU NS. induction l as [|x l IH]; intros w h a F b G TA NA TB NB; [exact (Same_refl h)|].
  set (bad := fun u => _) in IH |- *.
  assert (ONE : OnlyLooks bad h (one_look find a b x e w h)).
  { assert (W : forall A bad' (m : Y V A), OnlyLooks bad' h (m e w h) -> (forall u, bad' u -> bad u) -> OnlyLooks bad h ((m ;;y yret tt) e w h)).
    { intros A bad' m H I. unfold ybind. destruct (m e w h) as [[[r w'] h']|u|]; [exact H|exact (I u H)|exact H]. }
    assert (P : forall y : bool, exists p F, Tree own find True h 0 p (if y then a else b) F /\ NoDup F) by (intros []; eauto).
    destruct x as [x|x|x level|x y]; destruct (P x) as (p & FX & TX & NX); cbn [one_look].
    - eapply W; [eapply C82_check; eassumption|]. intros u ->. left. reflexivity.
    - eapply W; [eapply C82_write; eassumption|]. intros u H. exact H.
    - eapply W; [eapply C82_print; eassumption|]. intros u [].
    - destruct (P y) as (q & FY & TY & NY). eapply W; [eapply C82_compare; eassumption|]. intros u []. }
  cbn [looks]. unfold ybind at 1. destruct (one_look find a b x e w h) as [[[[] w1] h1]|u|]; [|exact ONE|exact ONE]. cbn in ONE.
  assert (T1 : forall c K, Tree own find True h 0 None c K -> Tree own find True h1 0 None c K).
  { intros c K T. apply (proj1 (Tree_same own find True OW h h1)); [exact T|]. intros y _. apply ONE. }
  specialize (IH w1 h1 a F b G (T1 _ _ TA) NA (T1 _ _ TB) NB).
  destruct (looks find a b l e w1 h1) as [[[r w2] h2]|u|]; [|exact IH|exact IH]. exact (Same_trans _ _ _ ONE IH).
Qed.

Theorem C82_programs : forall V own (find : yfind V) e w h second l,
  Owners own find -> Lookers own find -> GroupsAsUsual find -> strict_c e = false ->
  OnlyLooks (fun u => Excused e (zlength (r_rest (w_in w))) u \/ Excused e (zlength (r_rest second)) u \/
                      (u = UB_null_deref /\ small_failure e)) h (two_files find second l e w h).
Proof.
  intros V own find e w h second l OW LK GU NS. unfold two_files. unfold ybind at 1.
  destruct (yIFF_readFd find e w h) as [[[[a|] w1] h1]|u|] eqn:EA.
  - destruct (C78_read _ _ _ _ _ _ _ _ _ OW NS EA) as (FA & NA & TA & RA). unfold ybind at 1. cbn [yio]. unfold ybind at 1.
    set (w1' := set_in second w1). clear EA. unfold yio. destruct (yIFF_readFd find e w1' h1) as [[[[b|] w2] h2]|u|] eqn:EB.
    + destruct (C78_read _ _ _ _ _ _ _ _ _ OW NS EB) as (FB & NB & TB & RB).
      destruct (proj1 (Tree_live own find True OW h1) _ _ _ _ RA) as [LA _].
      destruct (got_beside h1 FA h2 FB LA TB) as (KA & AP & TAB).
      assert (RA2 : Tree own find True h2 0 None a FA) by (apply (proj1 (Tree_same own find True OW h1 h2)); assumption).
      pose proof (looks_only V own find e OW LK GU NS l w2 h2 a FA b FB RA2 NA RB NB) as LO. unfold ybind at 1.
      destruct (looks find a b l e w2 h2) as [[[[] w3] h3]|u|]; [|destruct LO as [->|LO]; [left; left; reflexivity|right; right; exact LO]|exact LO]. cbn in LO.
      assert (RA3 : Tree own find True h3 0 None a FA) by (apply (proj1 (Tree_same own find True OW h2 h3)); [exact RA2|intros x _; apply LO]).
      assert (RB3 : Tree own find True h3 0 None b FB) by (apply (proj1 (Tree_same own find True OW h2 h3)); [exact RB|intros x _; apply LO]).
      assert (AP' : apart FB FA) by (intros x I J; exact (AP x J I)).
      destruct (C78_free _ _ _ _ e w3 h3 None a FA OW NS RA3 NA) as (w4 & h4 & E4 & T4). unfold ybind. rewrite E4.
      destruct (proj1 (Tree_live own find True OW h3) _ _ _ _ RB3) as [LB _].
      assert (RB4 : Tree own find True h4 0 None b FB).
      { apply (proj1 (Tree_same own find True OW h3 h4)); [exact RB3|]. intros x I. exact (Turns_keeps _ _ _ _ _ x T4 LB AP' I). }
      destruct (C78_free _ _ _ _ e w4 h4 None b FB OW NS RB4 NB) as (w5 & h5 & E5 & T5). rewrite E5. cbn. apply Turns_same.
      eapply Turns_trans; [|exact (Turns_gone _ _ _ _ _ T4 T5 LB AP')].
      pose proof (Turns_trans _ _ _ _ _ _ TA TAB) as TH. destruct TH as [O R N L]. constructor.
      * intros x X Y. rewrite LO. exact (O x X Y).
      * intros x X Y. destruct X.
      * exact N.
      * intros x X. rewrite LO. exact (L x X).
    + pose proof (C78_failed_read _ _ _ _ _ _ _ _ OW NS EB) as S2.
      assert (RA2 : Tree own find True h2 0 None a FA) by (apply (proj1 (Tree_same own find True OW h1 h2)); [exact RA|intros x _; apply S2]).
      destruct (C78_free _ _ _ _ e w2 h2 None a FA OW NS RA2 NA) as (w3 & h3 & E3 & T3). rewrite E3. cbn. apply Turns_same.
      eapply Turns_trans; [|exact T3]. destruct TA as [O R N L]. constructor.
      * intros x X Y. rewrite S2. exact (O x X Y).
      * intros x X Y. destruct X.
      * exact N.
      * intros x X. rewrite S2. exact (L x X).
    + right. left. exact (proj2 (C78_safe V own find e w1' h1 u OW NS) EB).
    + exact (proj1 (C78_safe V own find e w1' h1 UB_null_deref OW NS) EB).
  - exact (C78_failed_read _ _ _ _ _ _ _ _ OW NS EA).
  - left. exact (proj2 (C78_safe V own find e w h u OW NS) EA).
  - exact (proj1 (C78_safe V own find e w h UB_null_deref OW NS) EA).
Qed.
Print Assumptions C82_programs.

(** Who gives back: lists of fields, and colour maps that are copied while they
    are checked *)
Theorem C82_field_lists : forall s, Looker (fields_own s) (yfields_callbacks s).
Proof. exact fields_looker. Qed.
Print Assumptions C82_field_lists.

Theorem C82_arrays : Looker cmap_own ycmap_callbacks.
Proof. exact cmap_looker. Qed.
Print Assumptions C82_arrays.

(** For lists of fields this model is the one of HeapPass.v, outcome for outcome
    and block for block. *)
Theorem C82_agrees : forall rg e w h a b level,
  yIFF_check a (yconv_find rg) e w (yconv h) = yconv_outcome (hIFF_check a rg e w h) /\
  yIFF_writeFd a (yconv_find rg) e w (yconv h) = yconv_outcome (hIFF_writeFd a rg e w h) /\
  yIFF_print a level (yconv_find rg) e w (yconv h) = yconv_outcome (hIFF_print a level rg e w h) /\
  yIFF_compare a b (yconv_find rg) e w (yconv h) = yconv_outcome (hIFF_compare a b rg e w h).
Proof. intros rg e w h a b level. split; [apply M_IFF_check|]. split; [apply M_IFF_writeFd|]. split; [apply M_IFF_print|apply M_IFF_compare]. Qed.
Print Assumptions C82_agrees.

(** *** A picture with two colours, looked at in every way *)

Notation pictures_find := (ycmap_find ILBM_ID CMAP_ID ycmap_callbacks).

Lemma cmap_lookers : Lookers cmap_owns pictures_find.
Proof.
  intros ft cid cb. unfold ycmap_find. intro E. injection E as E.
  destruct (cid =? IFF_ID_FORM); [discriminate|]. destruct (cid =? IFF_ID_CAT); [discriminate|].
  destruct (cid =? IFF_ID_LIST); [discriminate|]. destruct (cid =? IFF_ID_PROP); [discriminate|].
  destruct (_ && _); [|discriminate]. injection E as <-. exact cmap_looker.
Qed.

Lemma cmap_groups : forall cb, GroupsAsUsual (ycmap_find ILBM_ID CMAP_ID cb).
Proof. intros cb ft. repeat split. Qed.

Example C82_example :
  (Owners cmap_owns pictures_find /\ Lookers cmap_owns pictures_find /\ GroupsAsUsual pictures_find) /\
  match yIFF_readFd pictures_find (host false) (start two_colour_file) before with
  | Done (Some a, w, h) =>
      (* checking used one more block for a while *)
      match yIFF_check a pictures_find (host false) w h with
      | Done (ok, _, h') => ok = true /\ h' = h ++ [None]
      | _ => False
      end /\
      match yIFF_writeFd a pictures_find (host false) w h with
      | Done (ok, w', h') => ok = true /\ o_dev (w_out w') ++ o_buf (w_out w') = two_colour_file /\ h' = h
      | _ => False
      end /\
      match yIFF_compare a a pictures_find (host false) w h with
      | Done (ok, _, h') => ok = true /\ h' = h
      | _ => False
      end /\
      match yIFF_print a 0 pictures_find (host false) w h with
      | Done (text, _, h') => text <> EmptyString /\ h' = h
      | _ => False
      end
  | _ => False
  end /\
  match two_files pictures_find (w_in (start two_colour_file)) [Check true; Compare true false; Write false; Print true 0; Check false] (host false)
          (start two_colour_file) before with
  | Done (tt, w, h) => h = before ++ repeat None 17
  | _ => False
  end.
Proof.
  split; [split; [exact cmap_owners|split; [exact cmap_lookers|exact (cmap_groups _)]]|].
  vm_compute. repeat split. discriminate.
Qed.

(** The contract is needed: a checkExtensionChunk that keeps its copy leaks it,
    even when everything is freed. *)
Example C82_contract_needed :
  match (p <-y yIFF_readFd (ycmap_find ILBM_ID CMAP_ID ycmap_hoards) ;;
         match p with
         | None => yret tt
         | Some a => yIFF_check a (ycmap_find ILBM_ID CMAP_ID ycmap_hoards) ;;y yIFF_free a (ycmap_find ILBM_ID CMAP_ID ycmap_hoards)
         end) (host false) (start two_colour_file) before with
  | Done (tt, w, h) => exists x l, ylookup before x = None /\ ylookup h x = Some (YApp (Colours l))
  | _ => False
  end.
Proof. vm_compute. exists 9%nat. eexists. split; reflexivity. Qed.
