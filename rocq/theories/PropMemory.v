(** * Property theorems: running out of memory *)

From Coq Require Import ZArith List Bool String Lia.
From Coq Require Import Strings.Byte.
From Verif Require Import Machine Io Types Build Read Write Check Compare Print Iff Spec Grammar Examples Lemmas LoudProofs TermProofs SoundProofs HeapReadProofs
  HeapToolsProofs PropRead PropWrite PropCheck PropTools MemoryProofs.
Import ListNotations.
Open Scope Z_scope.

(** ** C69.  A failing malloc never changes a result silently: the call does
    what it does with enough memory, reports the failure, or writes through
    the NULL pointer of an unchecked allocation.

    [plenty e] is the host [e] with a malloc that always succeeds. *)

Theorem C69_reading : forall rg app e w,
  Realises (selectChunkRegistry rg) app -> SaneApps app -> strict_c e = false ->
  IFF_readFd rg e w = IFF_readFd rg (plenty e) w \/
  (exists w', IFF_readFd rg e w = Done (None, w') /\ reported w w') \/
  IFF_readFd rg e w = Undefined UB_null_deref.
Proof.
  intros rg app e w RG SA NS. destruct (sc_readFd e rg w) as [E | [(a & w' & E & F) | (u & E & U)]]; [left; exact E| |].
  - right. left. exists w'. rewrite E. unfold is_none in F. subst a. split; [reflexivity|]. exact (proj1 (C19_failures_reported rg e w w' E)).
  - right. right. rewrite E. destruct (C13_only_overflow_or_null rg app e w u RG SA NS E) as [-> | [-> _]]; [|reflexivity]. destruct U; discriminate.
Qed.
Print Assumptions C69_reading.

(** Whatever is read is what would have been read. *)
Theorem C69_no_other_tree : forall rg app e w c w',
  Realises (selectChunkRegistry rg) app -> SaneApps app -> strict_c e = false ->
  IFF_readFd rg e w = Done (Some c, w') -> IFF_readFd rg (plenty e) w = Done (Some c, w').
Proof.
  intros rg app e w c w' RG SA NS H. destruct (C69_reading rg app e w RG SA NS) as [E | [(v & E & _) | E]]; [|rewrite H in E; discriminate|rewrite H in E; discriminate].
  rewrite <- E. exact H.
Qed.
Print Assumptions C69_no_other_tree.

(** Checking allocates nothing. *)
Theorem C69_checking : forall c rg e w, IFF_check c rg e w = IFF_check c rg (plenty e) w.
Proof. intros c rg e w. apply ag_check. Qed.
Print Assumptions C69_checking.

(** Writing allocates the zero bytes that fill up a chunk, and does not test
    the result; there are none in a tree whose sizes are right. *)
Theorem C69_writing : forall c rg e w,
  IFF_writeFd c rg e w = IFF_writeFd c rg (plenty e) w \/ IFF_writeFd c rg e w = Undefined UB_null_deref.
Proof. intros c rg e w. exact (fr_writeFd e c rg w). Qed.
Print Assumptions C69_writing.
Theorem C69_writing_exact : forall c e w, WF no_apps 0 c -> IFF_writeFd c None e w = IFF_writeFd c None (plenty e) w.
Proof. intros c e w W. exact (ag_writeWF e c 0 W w). Qed.
Print Assumptions C69_writing_exact.

(** Building: NULL, or a write through NULL when the array of pointers cannot
    grow. *)
Theorem C69_building : forall e w,
  (forall h i s, createExtensionChunk h i s e w = createExtensionChunk h i s (plenty e) w \/ exists w', createExtensionChunk h i s e w = Done (None, w')) /\
  (forall g c, IFF_addToGroup g c e w = IFF_addToGroup g c (plenty e) w \/ IFF_addToGroup g c e w = Undefined UB_null_deref) /\
  (forall l c, IFF_addPropToList l c e w = IFF_addPropToList l c (plenty e) w \/ IFF_addPropToList l c e w = Undefined UB_null_deref) /\
  (forall g c, IFF_addToCATAndUpdateContentsType g c e w = IFF_addToCATAndUpdateContentsType g c (plenty e) w \/
     IFF_addToCATAndUpdateContentsType g c e w = Undefined UB_null_deref).
Proof.
  intros e w. split; [intros h i s; exact (creates e h i s w)|]. split; [intros g c; exact (fr_addToGroup e g c w)|].
  split; [intros l c; exact (fr_addPropToList e l c w)|intros g c; exact (fr_addToCAT e g c w)].
Qed.
Print Assumptions C69_building.

(** ** The tools *)

(** No file and no stream has changed, and there is one more diagnostic. *)
Definition told (s s' : sys) : Prop := untouched s s' /\ exists lg, lg <> [] /\ sy_log s' = lg ++ sy_log s.
Definition quiet (s s' : sys) : Prop := untouched s s' /\ exists lg, sy_log s' = lg ++ sy_log s.
Lemma told_after : forall s s1 s2, quiet s s1 -> told s1 s2 -> told s s2.
Proof.
  intros s s1 s2 [U (l & E)] [V (m & N & F)]. split; [exact (untouched_trans _ _ _ U V)|]. exists (m ++ l). split; [intro X; apply app_eq_nil in X; tauto|].
  rewrite F, E, app_assoc. reflexivity.
Qed.
Lemma quiet_trans : forall s s1 s2, quiet s s1 -> quiet s1 s2 -> quiet s s2.
Proof. intros s s1 s2 [U (l & E)] [V (m & F)]. split; [exact (untouched_trans _ _ _ U V)|]. exists (m ++ l). rewrite F, E, app_assoc. reflexivity. Qed.

(** As the second run; or the value [x] in a state [F]; or the NULL pointer *)
Definition same_or {B} (x : B) (F : sys -> Prop) (r1 r2 : outcome (B * sys)) : Prop :=
  r1 = r2 \/ (exists s', r1 = Done (x, s') /\ F s') \/ r1 = Undefined UB_null_deref.
Lemma bind_memory : forall A B (m : MS A) (k : A -> MS B) e1 e2 s x F,
  (m e1 s = m e2 s \/ (exists a s1, m e1 s = Done (a, s1) /\ forall r, same_or x F (k a e1 s1) r) \/ m e1 s = Undefined UB_null_deref) ->
  (forall a s1, m e1 s = Done (a, s1) -> same_or x F (k a e1 s1) (k a e2 s1)) -> same_or x F (bindS m k e1 s) (bindS m k e2 s).
Proof.
  intros A B m k e1 e2 s x F H K. unfold bindS. destruct H as [H | [(a & s1 & H & KA) | H]].
  - rewrite <- H. destruct (m e1 s) as [[a s1]|u|]; [apply K; reflexivity|left; reflexivity|left; reflexivity].
  - rewrite H. apply KA.
  - rewrite H. right. right. reflexivity.
Qed.
Lemma readFile_memory : forall e f s, strict_c e = false ->
  IFF_readFile f None e s = IFF_readFile f None (plenty e) s \/ (exists s', IFF_readFile f None e s = Done (None, s') /\ told s s') \/ IFF_readFile f None e s = Undefined UB_null_deref.
Proof.
  intros e f s NS. unfold IFF_readFile. destruct (sy_files s f) as [d|]; [|left; reflexivity]. unfold bindS, with_streams.
  destruct (C69_reading None no_apps e (mkWorld (mkRfile d true) no_out (sy_log s) (sy_allocs s)) default_registry no_apps_sane NS) as [-> | [(w' & -> & lg & N & E) | ->]];
    [left; reflexivity| |right; right; reflexivity].
  right. left. eexists. split; [reflexivity|]. split; [repeat split|]. exists lg. auto.
Qed.
Lemma readFile_typed : forall e f s c s', IFF_readFile f None e s = Done (Some c, s') -> Typed no_apps 0 c /\ quiet s s'.
Proof.
  intros e f s c s' H. unfold IFF_readFile in H. destruct (sy_files s f) as [d|]; [|discriminate]. unfold bindS, with_streams in H.
  pose proof (readFd_at None no_apps default_none e (mkWorld (mkRfile d true) no_out (sy_log s) (sy_allocs s)) []) as R.
  pose proof (readFd_framed None e (mkWorld (mkRfile d true) no_out (sy_log s) (sy_allocs s))) as L.
  destruct (IFF_readFd None e _) as [[[x|] w]|u|]; try discriminate. injection H as <- <-. destruct R as (a & h' & F & _ & _ & _ & _ & T). split; [exact T|].
  split; [repeat split|]. destruct L as [(lg & E & _) _]. exists lg. exact E.
Qed.
Lemma check_quiet : forall e c s s', no_streams (IFF_check c None) e s = Done (true, s') -> quiet s s'.
Proof.
  intros e c s s' H. unfold no_streams, bindS, with_streams in H. destruct (IFF_check c None e _) as [[b w]|u|] eqn:E; try discriminate. injection H as -> <-.
  split; [repeat split|]. rewrite (proj2 (C28_false_iff_reported _ _ _ _ _ _ E) eq_refl). exists []. reflexivity.
Qed.
Lemma add_quiet : forall e cat c s cat' s', no_streams (IFF_addToCATAndUpdateContentsType cat c) e s = Done (cat', s') -> quiet s s'.
Proof.
  intros e cat c s cat' s' H. unfold no_streams, bindS, with_streams in H. destruct (IFF_addToCATAndUpdateContentsType cat c e _) as [[b w]|u|] eqn:E; try discriminate. injection H as -> <-.
  split; [repeat split|]. assert (F : Framed (IFF_addToCATAndUpdateContentsType cat c)) by (unfold IFF_addToCATAndUpdateContentsType, IFF_addToGroup, IFF_attachToGroup; framed).
  specialize (F e (mkWorld no_in no_out (sy_log s) (sy_allocs s))). rewrite E in F. exact (proj1 F).
Qed.
Lemma add_typed : forall e cat c s cat' s', Typed no_apps 0 cat -> (exists i z g l, cat = CGroup i z g l) -> Typed no_apps 0 c ->
  no_streams (IFF_addToCATAndUpdateContentsType cat c) e s = Done (cat', s') -> Typed no_apps 0 cat' /\ (exists i z g l, cat' = CGroup i z g l).
Proof.
  intros e cat c s cat' s' T SH TC H. unfold no_streams, bindS, with_streams in H. destruct (IFF_addToCATAndUpdateContentsType cat c e _) as [[b w]|u|] eqn:E; try discriminate. injection H as -> <-.
  destruct (added_shape _ _ _ _ _ _ E SH) as (z' & g' & i & z & g & l & -> & ->). split; [|eauto].
  inversion T; subst. apply Ty_group; [assumption|]. intros x I. apply in_app_iff in I. apply (Typed_no_apps 0). destruct I as [I|[<-|[]]]; [apply (Typed_no_apps g); auto|assumption].
Qed.

Lemma loop_memory : forall e, strict_c e = false -> forall inputs cat s, Typed no_apps 0 cat -> (exists i z g l, cat = CGroup i z g l) ->
  same_or (inr 1) (told s) (join_loop inputs cat e s) (join_loop inputs cat (plenty e) s).
Proof.
  intros e NS. induction inputs as [|f r IH]; intros cat s T SH; cbn [join_loop]; [left; reflexivity|].
  assert (FR : forall s0, (u <-s liftS (IFF_free cat None) ;; retS (inr 1 : chunk + Z)) e s0 = Done (inr 1, s0)).
  { intro s0. unfold bindS, liftS, IFF_free. rewrite (free_typed _ _ default_registry cat 0 T). reflexivity. }
  apply bind_memory.
  { destruct (readFile_memory e f s NS) as [E | [(s' & E & TO) | E]]; [auto| |auto]. right. left. exists None, s'. split; [exact E|]. intro r0. right. left. exists s'. split; [apply FR|exact TO]. }
  intros [c|] s1 E1; [|left; reflexivity]. destruct (readFile_typed e f s c s1 E1) as [TC Q1]. apply bind_memory.
  { left. unfold no_streams, bindS, with_streams. rewrite C69_checking. reflexivity. }
  intros [] s2 E2; [|left; reflexivity]. pose proof (check_quiet _ _ _ _ E2) as Q2. apply bind_memory.
  { unfold no_streams, bindS, with_streams. destruct (fr_addToCAT e cat c (mkWorld no_in no_out (sy_log s2) (sy_allocs s2))) as [-> | ->]; auto. }
  intros cat' s3 E3. destruct (add_typed _ _ _ _ _ _ T SH TC E3) as [T' SH']. pose proof (add_quiet _ _ _ _ _ _ E3) as Q3.
  destruct (IH cat' s3 T' SH') as [E | [(s' & E & TO) | E]]; [left; exact E| |right; right; exact E]. right. left. exists s'. split; [exact E|].
  apply (told_after s s3); [|exact TO]. apply (quiet_trans _ s2); [|exact Q3]. apply (quiet_trans _ s1); assumption.
Qed.

(** iffjoin: as with enough memory; or status 1 and a message, with no file
    touched and nothing on standard output; or a write through NULL. *)
Theorem C69_iffjoin : forall e inputs output s, strict_c e = false ->
  IFF_join inputs output e s = IFF_join inputs output (plenty e) s \/
  (exists s', IFF_join inputs output e s = Done (1, s') /\ told s s') \/
  IFF_join inputs output e s = Undefined UB_null_deref.
Proof.
  intros e inputs output s NS. unfold IFF_join. apply bind_memory.
  { enough (X : no_streams IFF_createEmptyCAT e s = no_streams IFF_createEmptyCAT (plenty e) s \/ exists s', no_streams IFF_createEmptyCAT e s = Done (None, s')).
    { destruct X as [X | (s' & X)]; [left; exact X|]. right. left. exists None, s'. split; [exact X|]. intro r. right. right. reflexivity. }
    unfold no_streams, bindS, with_streams, IFF_createEmptyCAT, IFF_createEmptyCATWithContentsType, IFF_createCAT, IFF_createEmptyGroup, IFF_createGroup, bind, malloc.
    change (size_t_bits (plenty e)) with (size_t_bits e). cbn [plenty malloc_ok w_allocs].
    destruct (malloc_ok e (sy_allocs s) sizeof_Group); [left; reflexivity|right]. rewrite andb_false_r. eexists. reflexivity. }
  intros [cat|] s1 EC; [|left; reflexivity].
  assert (SH : cat = CGroup CAT_ID 4 JJJJ_ID [] /\ quiet s s1).
  { unfold no_streams, bindS, with_streams, IFF_createEmptyCAT, IFF_createEmptyCATWithContentsType, IFF_createCAT, IFF_createEmptyGroup, IFF_createGroup, bind, malloc, ret, retS in EC.
    cbn [w_allocs w_in w_out w_log fst] in EC. match type of EC with context [if ?b then _ else _] => destruct b end; [|discriminate]. injection EC as <- <-. split; [reflexivity|]. split; [repeat split|exists []; reflexivity]. }
  destruct SH as [-> Q]. apply bind_memory.
  { assert (T : Typed no_apps 0 (CGroup CAT_ID 4 JJJJ_ID [])) by (apply Ty_group; [cbn; auto|intros c []]).
    destruct (loop_memory e NS inputs (CGroup CAT_ID 4 JJJJ_ID []) s1 T) as [L | [(s' & L & TO) | L]]; [eauto|auto| |auto]. right. left. exists (inr 1), s'. split; [exact L|].
    intro r. right. left. exists s'. split; [reflexivity|exact (told_after _ _ _ Q TO)]. }
  intros [cat|z] s2 EL; [|left; reflexivity]. apply bind_memory; [|intros ok s3 _; left; reflexivity].
  unfold IFF_write, IFF_writeFile, with_streams. destruct output as [o|].
  - destruct (sy_writable s2 o); [|left; reflexivity]. match goal with |- context [IFF_writeFd _ _ _ ?w] => destruct (C69_writing cat None e w) as [-> | ->] end; auto.
  - match goal with |- context [IFF_writeFd _ _ _ ?w] => destruct (C69_writing cat None e w) as [-> | ->] end; auto.
Qed.
Print Assumptions C69_iffjoin.

(** iffpp: as with enough memory; or status 1, a message and no text; or a
    write through NULL. *)
Theorem C69_iffpp : forall e f disable_check s, strict_c e = false ->
  IFF_prettyPrint f disable_check e s = IFF_prettyPrint f disable_check (plenty e) s \/
  (exists s', IFF_prettyPrint f disable_check e s = Done ((1, EmptyString), s') /\
     sy_files s' = sy_files s /\ sy_stdout s' = sy_stdout s /\ exists lg, lg <> [] /\ sy_log s' = lg ++ sy_log s) \/
  IFF_prettyPrint f disable_check e s = Undefined UB_null_deref.
Proof.
  intros e f d s NS. unfold IFF_prettyPrint.
  apply (bind_memory _ _ _ _ e (plenty e) s (1, EmptyString) (fun s' => sy_files s' = sy_files s /\ sy_stdout s' = sy_stdout s /\ exists lg, lg <> [] /\ sy_log s' = lg ++ sy_log s)).
  { enough (RD : IFF_read f None e s = IFF_read f None (plenty e) s \/
      (exists s', IFF_read f None e s = Done (None, s') /\ sy_files s' = sy_files s /\ sy_stdout s' = sy_stdout s /\ exists lg, lg <> [] /\ sy_log s' = lg ++ sy_log s) \/
      IFF_read f None e s = Undefined UB_null_deref).
    { destruct RD as [R | [(s' & R & X) | R]]; [auto| |auto]. right. left. exists None, s'. split; [exact R|]. intro r. right. left.
      eexists. split; [reflexivity|]. destruct X as (X1 & X2 & lg & _ & X3). split; [exact X1|]. split; [exact X2|]. eexists (_ :: lg). split; [discriminate|].
      cbn [sy_log]. rewrite X3. reflexivity. }
    destruct f as [f|]; cbn [IFF_read].
    - destruct (readFile_memory e f s NS) as [E | [(s' & E & (F & _ & _ & _ & _ & O) & L) | E]]; [auto| |auto]. right. left. exists s'. auto.
    - unfold with_streams. destruct (C69_reading None no_apps e (mkWorld (sy_stdin s) no_out (sy_log s) (sy_allocs s)) default_registry no_apps_sane NS) as [-> | [(w' & -> & lg & N & E) | ->]]; [auto| |auto].
      right. left. eexists. split; [reflexivity|]. split; [reflexivity|]. split; [reflexivity|]. exists lg. auto. }
  intros [c|] s1 _; [|left; reflexivity]. apply bind_memory; [|intros [] s2 _; left; reflexivity].
  left. destruct d; [reflexivity|]. unfold no_streams, bindS, with_streams. rewrite C69_checking. reflexivity.
Qed.
Print Assumptions C69_iffpp.

(** ** The unchecked allocations are reached *)

(** A host whose allocation number [n] fails, and only that one. *)
Definition fails_at (n : nat) : env := mkEnv false true true false (fun k _ => negb (Nat.eqb k n)) 0 (fun _ => 0%nat).
Definition no_memory : env := mkEnv false true true false (fun _ _ => false) 0 (fun _ => 0%nat).

(** A FORM with 96 bytes to fill up: written with enough memory, undefined
    behaviour without. *)
Theorem C69_filler_refuted :
  let c := CGroup FORM_ID 100 (ID_of "TEST") [] in
  strict_c no_memory = false /\ (exists w, IFF_writeFd c None (plenty no_memory) (start []) = Done (true, w)) /\
  IFF_writeFd c None no_memory (start []) = Undefined UB_null_deref.
Proof. vm_compute. split; [reflexivity|]. split; [eexists; reflexivity|reflexivity]. Qed.
Print Assumptions C69_filler_refuted.

(** The same file, one allocation failing: all three outcomes. *)
Example C69_example :
  (exists w, IFF_readFd None (plenty no_memory) (start (encode ex_list)) = Done (Some ex_list, w)) /\
  (exists w, IFF_readFd None (fails_at 100) (start (encode ex_list)) = Done (Some ex_list, w)) /\
  (exists w, IFF_readFd None (fails_at 0) (start (encode ex_list)) = Done (None, w) /\ w_log w <> []) /\
  (exists n, IFF_readFd None (fails_at n) (start (encode ex_list)) = Undefined UB_null_deref).
Proof.
  split; [eexists; vm_compute; reflexivity|]. split; [eexists; vm_compute; reflexivity|]. split; [eexists; vm_compute; split; [reflexivity|discriminate]|].
  exists 4%nat. vm_compute. reflexivity.
Qed.
Example C69_write_example : WF no_apps 0 ex_list /\ exists w, IFF_writeFd ex_list None no_memory (start []) = Done (true, w).
Proof. split; [exact ex_list_wf|]. eexists. vm_compute. reflexivity. Qed.
(** iffjoin with enough memory, with a failing read and with a failing realloc *)
Example C69_join_example :
  let join e := IFF_join ["a.iff"; "b.iff"]%string (Some "o.iff"%string) e (two_files (encode ex_cat)) in
  match join (plenty no_memory) with Done (0, _) => True | _ => False end /\
  match join (fails_at 1) with Done (1, s') => sy_log s' <> [] | _ => False end /\
  join (fails_at 0) = Undefined UB_null_deref.
Proof. vm_compute. split; [exact I|]. split; [discriminate|reflexivity]. Qed.
