(** * Property C86: what the tools leave behind when they have ended *)

From Coq Require Import ZArith List Bool String Ascii Lia.
From Coq Require Import Strings.Byte.
From Verif Require Import Machine Io Types Build Read Write Check Print Iff Main Process LineSpec Spec Lemmas IoProofs RegProofs WriteProofs EncodeProofs TermProofs LoudProofs
  Grammar SoundProofs RoundProofs ApiProofs CheckProofs ConfProofs BuiltProofs HostProofs PrintProofs Examples PropRegistry PropRead PropWrite PropCheck PropBuild PropTools MainProofs PropMain PipeSpec PropPipe.
Import ListNotations.
Open Scope Z_scope.

(** A process that starts: it has said and written nothing. *)
Definition starting (s : sys) : Prop := sy_log s = [] /\ o_dev (sy_stdout s) = [] /\ o_buf (sy_stdout s) = [].

(** What a device with that much room takes of some bytes. *)
Definition room_for (room : option nat) (l : list byte) : list byte :=
  match room with None => l | Some n => firstn n l end.

(** ** Standard output is cut off where the device is full, nowhere else *)
Lemma flushed : forall f, o_dev (snd (flush f)) = o_dev f ++ room_for (o_room f) (o_buf f).
Proof. intros [d b z [r|]]; reflexivity. Qed.

Lemma put_byte_later : forall b f l, o_dev (snd (put_byte b f)) ++ room_for (o_room (snd (put_byte b f))) (o_buf (snd (put_byte b f)) ++ l)
  = o_dev f ++ room_for (o_room f) (o_buf f ++ b :: l).
Proof.
  intros b [d u z r] l. unfold put_byte. cbn [o_dev o_buf o_bufsize o_room]. destruct (Nat.ltb _ _); cbn [snd o_dev o_buf o_room].
  - rewrite <- app_assoc. reflexivity.
  - unfold flush. cbn [o_dev o_buf o_bufsize o_room]. destruct r as [r|]; cbn [snd o_dev o_buf o_room room_for Datatypes.app].
    + rewrite <- app_assoc. f_equal. change (b :: l) with ([b] ++ l). rewrite (app_assoc u [b] l), (firstn_app r (u ++ [b]) l). reflexivity.
    + rewrite <- !app_assoc. reflexivity.
Qed.

Lemma printed_out : forall l f, o_dev (snd (flush (print_out l f))) = o_dev f ++ room_for (o_room f) (o_buf f ++ l).
Proof.
  unfold print_out. induction l as [|b l IH]; intro f; cbn [fold_left].
  - rewrite flushed, app_nil_r. reflexivity.
  - rewrite IH. apply put_byte_later.
Qed.

Lemma put_out : forall l f, o_dev (snd (flush (snd (put_bytes l f)))) = o_dev f ++ room_for (o_room f) (o_buf f ++ l).
Proof.
  induction l as [|b l IH]; intro f; cbn [put_bytes].
  - cbn [snd]. rewrite flushed, app_nil_r. reflexivity.
  - rewrite <- put_byte_later. destruct (put_byte b f) as [[] f1] eqn:E; [apply IH|]. cbn [snd].
    assert (X : o_room f1 = Some 0%nat /\ o_buf f1 = []).
    { unfold put_byte in E. cbn [o_dev o_buf o_bufsize o_room] in E. destruct (Nat.ltb _ _); [discriminate|]. unfold flush in E. cbn [o_dev o_buf o_bufsize o_room] in E.
      destruct (o_room f) as [r|]; [|discriminate]. injection E as L <-. apply Nat.leb_gt in L. cbn. split; [f_equal; lia|reflexivity]. }
    destruct X as [R B]. rewrite flushed, R, B. reflexivity.
Qed.

(** ** Diagnostics are only added, and standard output and the files are left alone by reading *)
Definition says (more : list string) (s s' : sys) : Prop :=
  sy_log s' = more ++ sy_log s /\ sy_files s' = sy_files s /\ sy_stdout s' = sy_stdout s.

Lemma says_none : forall s, says [] s s.
Proof. repeat split. Qed.
Lemma says_trans : forall a b s1 s2 s3, says a s1 s2 -> says b s2 s3 -> says (b ++ a) s1 s3.
Proof. unfold says. intros a b s1 s2 s3 (A & B & C) (D & E & F). rewrite <- app_assoc. intuition congruence. Qed.

Lemma says_error : forall m e s a s', no_streams (IFF_error m) e s = Done (a, s') -> says [m] s s'.
Proof. intros m e s a s' H. cbn in H. injection H as _ <-. repeat split. Qed.

Lemma says_read : forall f rg e s oc s', IFF_read f rg e s = Done (oc, s') -> exists lg, says lg s s' /\ (oc = None -> lg <> []).
Proof.
  intros [f|] rg e s oc s' H; cbn [IFF_read] in H.
  - unfold IFF_readFile in H. destruct (sy_files s f) as [data|].
    + unfold bindS, with_streams, retS in H. pose proof (readFd_framed rg e (mkWorld (mkRfile data true) no_out (sy_log s) (sy_allocs s))) as F.
      destruct (IFF_readFd rg e _) as [[x w]|u|]; try discriminate. injection H as <- <-. destruct F as [(lg & E & N) _]. exists lg. split; [repeat split; exact E|exact N].
    + unfold bindS in H. destruct (no_streams _ e s) as [[x s1]|u|] eqn:E; try discriminate. unfold retS in H. injection H as <- <-. eexists. split; [exact (says_error _ _ _ _ _ E)|discriminate].
  - unfold with_streams in H. pose proof (readFd_framed rg e (mkWorld (sy_stdin s) no_out (sy_log s) (sy_allocs s))) as F.
    destruct (IFF_readFd rg e _) as [[x w]|u|]; try discriminate. injection H as <- <-. destruct F as [(lg & E & N) _]. exists lg. split; [repeat split; exact E|exact N].
Qed.

Lemma says_check : forall c e s b s', no_streams (IFF_check c None) e s = Done (b, s') -> exists lg, says lg s s' /\ (b = false -> lg <> []).
Proof.
  intros c e s b s' H. unfold no_streams, bindS, with_streams, retS in H. destruct (IFF_check c None e _) as [[x w]|u|] eqn:E; try discriminate. cbn [fst] in H. injection H as <- <-.
  destruct (C28_false_iff_reported c None e _ _ _ E) as [F T]. destruct x.
  - exists []. split; [|discriminate]. rewrite (T eq_refl). repeat split.
  - destruct (proj1 F eq_refl) as (lg & N & L). exists lg. split; [repeat split; exact L|auto].
Qed.

Lemma says_quiet : forall A (m : M A) e s a s', (forall w x w', m e w = Done (x, w') -> w_log w' = w_log w) -> no_streams m e s = Done (a, s') -> says [] s s'.
Proof.
  intros A m e s a s' Q H. unfold no_streams, bindS, with_streams, retS in H. destruct (m e _) as [[x w]|u|] eqn:E; try discriminate. injection H as _ <-. repeat split. apply (Q _ _ _ E).
Qed.

Lemma quiet_add : forall cat c e w cat' w', IFF_addToCATAndUpdateContentsType cat c e w = Done (cat', w') -> w_log w' = w_log w.
Proof.
  intros cat c e w cat' w' H. unfold IFF_addToCATAndUpdateContentsType, IFF_addToGroup, IFF_attachToGroup, bind, lift in H.
  destruct (updateContentsType cat c) as [x| |]; try discriminate. destruct (as_group x) as [[g l]|]; try discriminate. unfold malloc in H.
  match type of H with context [if ?b then ret _ else _] => destruct b end; [|discriminate]. unfold ret in H.
  match type of H with context [IFF_incrementChunkSize ?a ?b] => destruct (IFF_incrementChunkSize a b) end; try discriminate. injection H as <- <-. reflexivity.
Qed.

Lemma quiet_malloc : forall n e w b w', malloc n e w = Done (b, w') -> w_log w' = w_log w.
Proof. intros n e w b w' H. unfold malloc in H. injection H as _ <-. reflexivity. Qed.

Lemma quiet_create : forall e w o w', IFF_createEmptyCAT e w = Done (o, w') -> w_log w' = w_log w.
Proof.
  intros e w o w' H. unfold IFF_createEmptyCAT, IFF_createEmptyCATWithContentsType, IFF_createCAT, IFF_createEmptyGroup, IFF_createGroup, bind, malloc in H. cbn [w_log] in H.
  match type of H with context [if ?b then _ else _] => destruct b end; injection H as _ <-; reflexivity.
Qed.

Lemma liftS_done : forall A (o : outcome A) e s a s', liftS o e s = Done (a, s') -> s' = s.
Proof. intros A [x|u|] e s a s' H; try discriminate. injection H as _ <-. reflexivity. Qed.

Lemma says_loop : forall inputs cat e s r s', join_loop inputs cat e s = Done (r, s') -> exists lg, says lg s s' /\ forall z, r = inr z -> z = 1 /\ lg <> [].
Proof.
  induction inputs as [|f inputs IH]; intros cat e s r s' H; cbn [join_loop] in H.
  - injection H as <- <-. exists []. split; [apply says_none|discriminate].
  - unfold bindS at 1 in H. destruct (IFF_readFile f None e s) as [[oc s1]|u|] eqn:R; try discriminate. destruct (says_read (Some f) None e s oc s1 R) as (l1 & S1 & N1).
    destruct oc as [c|].
    + unfold bindS at 1 in H. destruct (no_streams (IFF_check c None) e s1) as [[ok s2]|u|] eqn:K; try discriminate. destruct (says_check c e s1 ok s2 K) as (l2 & S2 & N2).
      destruct ok.
      * unfold bindS at 1 in H. destruct (no_streams (IFF_addToCATAndUpdateContentsType cat c) e s2) as [[cat' s3]|u|] eqn:A; try discriminate.
        pose proof (says_quiet _ _ e s2 _ _ (quiet_add cat c e) A) as S3. destruct (IH cat' e s3 r s' H) as (l4 & S4 & Z). eexists. split; [exact (says_trans _ _ _ _ _ (says_trans _ _ _ _ _ (says_trans _ _ _ _ _ S1 S2) S3) S4)|].
        intros z X. destruct (Z z X) as [-> N]. split; [reflexivity|]. destruct l4; [congruence|discriminate].
      * unfold bindS in H. destruct (liftS (IFF_free cat None) e s2) as [[u s3]|u|] eqn:FR; try discriminate. apply liftS_done in FR. subst s3. unfold retS in H. injection H as <- <-.
        eexists. split; [exact (says_trans _ _ _ _ _ S1 S2)|]. intros z X. injection X as <-. split; [reflexivity|]. specialize (N2 eq_refl). destruct l2; [congruence|discriminate].
    + unfold bindS in H. destruct (liftS (IFF_free cat None) e s1) as [[u s3]|u|] eqn:FR; try discriminate. apply liftS_done in FR. subst s3. unfold retS in H. injection H as <- <-.
      exists l1. split; [exact S1|]. intros z X. injection X as <-. split; [reflexivity|auto].
Qed.

Lemma write_says : forall o c e s ok s', IFF_write o c None e s = Done (ok, s') -> exists lg, sy_log s' = lg ++ sy_log s /\ (ok = false -> lg <> []).
Proof.
  assert (W : forall c e w ok w', IFF_writeFd c None e w = Done (ok, w') -> exists lg, w_log w' = lg ++ w_log w /\ (ok = false -> lg <> [])).
  { intros c e w ok w' H. pose proof (write_loud (selectChunkRegistry None) c 0 e w) as L. unfold IFF_writeFd in H. rewrite H in L. destruct L as [(lg & E & N) _]. exists lg. split; [exact E|]. intro X. apply N. exact X. }
  intros [f|] c e s ok s' H; cbn [IFF_write] in H.
  - unfold IFF_writeFile in H. destruct (sy_writable s f).
    + unfold with_streams in H. destruct (IFF_writeFd c None e _) as [[b w]|u|] eqn:E; try discriminate. injection H as <- <-. exact (W _ _ _ _ _ E).
    + unfold bindS in H. destruct (no_streams _ e s) as [[x s1]|u|] eqn:E; try discriminate. unfold retS in H. injection H as <- <-. eexists. split; [exact (proj1 (says_error _ _ _ _ _ E))|discriminate].
  - unfold with_streams in H. destruct (IFF_writeFd c None e _) as [[b w]|u|] eqn:E; try discriminate. injection H as <- <-. exact (W _ _ _ _ _ E).
Qed.

Lemma pp_says : forall f d e s z t s', IFF_prettyPrint f d e s = Done ((z, t), s') -> exists lg, says lg s s' /\
  ((z = 0 /\ exists c s1, IFF_read f None e s = Done (Some c, s1) /\ (d = true \/ exists s2, no_streams (IFF_check c None) e s1 = Done (true, s2)) /\ IFF_print c 0 None = Done t) \/
   (z = 1 /\ t = EmptyString /\ lg <> [])).
Proof.
  intros f d e s z t s' H. unfold IFF_prettyPrint in H. unfold bindS at 1 in H. destruct (IFF_read f None e s) as [[oc s1]|u|] eqn:R; try discriminate.
  destruct (says_read f None e s oc s1 R) as (l1 & S1 & N1). destruct oc as [c|].
  - unfold bindS at 1 in H. destruct ((if d then retS true else no_streams (IFF_check c None)) e s1) as [[ok s2]|u|] eqn:K; try discriminate.
    assert (X : exists lg, says lg s1 s2 /\ (ok = false -> lg <> []) /\ (ok = true -> d = true \/ exists s2, no_streams (IFF_check c None) e s1 = Done (true, s2))).
    { destruct d.
      - unfold retS in K. injection K as <- <-. exists []. split; [apply says_none|]. split; [discriminate|auto].
      - destruct (says_check c e s1 ok s2 K) as (l2 & S2 & N2). exists l2. split; [exact S2|]. split; [exact N2|]. intros ->. right. eauto. }
    destruct X as (l2 & S2 & N2 & OK). unfold bindS at 1 in H. destruct ok.
    + unfold bindS at 1 in H. destruct (IFF_print c 0 None) as [t0|u|] eqn:P; try discriminate. cbn [liftS retS] in H. unfold bindS in H.
      destruct (liftS (IFF_free c None) e s2) as [[u s3]|u|] eqn:FR; try discriminate. apply liftS_done in FR. subst s3. unfold retS in H. injection H as <- <- <-.
      eexists. split; [exact (says_trans _ _ _ _ _ S1 S2)|]. left. split; [reflexivity|]. exists c, s1. auto.
    + unfold retS at 1 in H. unfold bindS in H. destruct (liftS (IFF_free c None) e s2) as [[u s3]|u|] eqn:FR; try discriminate. apply liftS_done in FR. subst s3. unfold retS in H. injection H as <- <- <-.
      eexists. split; [exact (says_trans _ _ _ _ _ S1 S2)|]. right. split; [reflexivity|]. split; [reflexivity|]. specialize (N2 eq_refl). destruct l2; [congruence|discriminate].
  - unfold bindS in H. destruct (no_streams _ e s1) as [[x s2]|u|] eqn:E; try discriminate. unfold retS in H. injection H as <- <- <-.
    eexists. split; [exact (says_trans _ _ _ _ _ S1 (says_error _ _ _ _ _ E))|]. right. split; [reflexivity|]. split; [reflexivity|]. discriminate.
Qed.

Lemma join_says : forall ins o e s z s', IFF_join ins o e s = Done (z, s') -> exists lg, sy_log s' = lg ++ sy_log s /\ (z = 0 \/ z = 1 /\ lg <> []).
Proof.
  intros ins o e s z s' H. unfold IFF_join in H. unfold bindS at 1 in H. destruct (no_streams IFF_createEmptyCAT e s) as [[[cat|] s1]|u|] eqn:C; try discriminate.
  pose proof (says_quiet _ _ e s _ _ (quiet_create e) C) as S1. unfold bindS at 1 in H. destruct (join_loop ins cat e s1) as [[r s2]|u|] eqn:L; try discriminate.
  destruct (says_loop ins cat e s1 r s2 L) as (l2 & S2 & Z). pose proof (says_trans _ _ _ _ _ S1 S2) as S. rewrite app_nil_r in S. destruct r as [cat'|z'].
  - unfold bindS in H. destruct (IFF_write o cat' None e s2) as [[ok s3]|u|] eqn:W; try discriminate. destruct (write_says _ _ _ _ _ _ W) as (l3 & E3 & N3).
    destruct (liftS (IFF_free cat' None) e s3) as [[u s4]|u|] eqn:FR; try discriminate. apply liftS_done in FR. subst s4. unfold retS in H. injection H as <- <-.
    exists (l3 ++ l2). split; [rewrite E3, (proj1 S), app_assoc; reflexivity|]. destruct ok; [left; reflexivity|right]. split; [reflexivity|]. specialize (N3 eq_refl). destruct l3; [congruence|discriminate].
  - unfold retS in H. injection H as <- <-. exists l2. split; [exact (proj1 S)|]. right. exact (Z z' eq_refl).
Qed.

(** ** iffpp *)

(** With status 0 it has printed the tree that was read, as far as the device
    took the text; with status 1 it has printed nothing and said why.  It
    changes no file. *)
Theorem C86_iffpp : forall version command long reorder args c ops e s x, PpLine long reorder args c ops -> starting s ->
  iffpp version command (Getopt long reorder) args e s = Done x ->
  en_files x = sy_files s /\
  ((en_status x = 0 /\ exists tree text s1, IFF_read (hd_error ops) None e s = Done (Some tree, s1) /\
      (c = true \/ exists s2, no_streams (IFF_check tree None) e s1 = Done (true, s2)) /\
      IFF_print tree 0 None = Done text /\ en_stdout x = room_for (o_room (sy_stdout s)) (text_bytes text)) \/
   (en_status x = 1 /\ en_stdout x = [] /\ en_stderr x <> [])).
Proof.
  intros version command long reorder args c ops e s x L (LG & D & B) H. unfold iffpp in H. rewrite (C67_line version command long reorder args c ops e s L) in H.
  destruct (IFF_prettyPrint (hd_error ops) c e s) as [[[z t] s']|u|] eqn:P; try discriminate. injection H as <-. destruct (pp_says _ _ _ _ _ _ _ P) as (lg & (S1 & S2 & S3) & X).
  unfold exit_with. cbn [en_status en_stdout en_stderr en_files]. rewrite printed_out, S3, D, B. split; [exact S2|]. destruct X as [[-> (tree & s1 & R & K & PR)]|(-> & -> & N)].
  - left. split; [reflexivity|]. exists tree, t, s1. auto.
  - right. split; [reflexivity|]. split; [destruct (o_room (sy_stdout s)); [apply firstn_nil|reflexivity]|]. rewrite S1, LG, app_nil_r. intro E. apply N. rewrite <- (rev_involutive lg), E. reflexivity.
Qed.
Print Assumptions C86_iffpp.

(** Help, the version, invalid options: the text goes to standard output. *)
Theorem C86_iffpp_stops : forall version command long reorder args w e s, PpStops long reorder args w -> starting s ->
  iffpp version command (Getopt long reorder) args e s =
  Done (mkEnded (match w with Invalid => 1 | _ => 0 end)
    (room_for (o_room (sy_stdout s)) (text_bytes (match w with Version => print_version version command | _ => pp_usage (Getopt long reorder) command end)))
    [] (sy_files s)).
Proof.
  intros version command long reorder args w e s L (LG & D & B). unfold iffpp. rewrite (C67_stops version command long reorder args w e s L). destruct w; unfold exit_with; rewrite printed_out, D, B, LG; reflexivity.
Qed.
Print Assumptions C86_iffpp_stops.

(** ** No tool fails silently: whatever the build, the arguments and the
    machine, the status is 0 or 1, and with 1 something was said on standard
    error, unless the command line is invalid. *)
Theorem C86_iffpp_speaks : forall version command b args e s x, starting s -> iffpp version command b args e s = Done x ->
  en_status x = 0 \/
  (en_status x = 1 /\ (en_stderr x <> [] \/ exists long reorder, b = Getopt long reorder /\ PpStops long reorder args Invalid)).
Proof.
  intros version command b args e s x ST H. destruct b as [long reorder|].
  - destruct (pp_total long reorder args) as [(c & ops & L)|(w & L)].
    + destruct (C86_iffpp version command long reorder args c ops e s x L ST H) as [_ [[Z _]|(Z & _ & N)]]; auto.
    + rewrite (C86_iffpp_stops version command long reorder args w e s L ST) in H. injection H as <-. cbn. destruct w; [left; reflexivity|left; reflexivity|right; split; [reflexivity|right; eauto]].
  - unfold iffpp, pp_main in H. destruct (pp_options version command Msvc args) as [z t|[d f]] eqn:O; cycle 1.
    + destruct (IFF_prettyPrint f d e s) as [[[z t] s']|u|] eqn:P; try discriminate. injection H as <-. destruct (pp_says _ _ _ _ _ _ _ P) as (lg & (S1 & S2 & S3) & X). cbn [exit_with en_status en_stderr].
      destruct X as [[-> _]|(-> & _ & N)]; [left; reflexivity|]. right. split; [reflexivity|]. left. rewrite S1, (proj1 ST), app_nil_r. intro E. apply N. rewrite <- (rev_involutive lg), E. reflexivity.
    + unfold retS in H. injection H as <-. left. cbn. unfold pp_options in O. assert (Q : forall l o n z t, pp_loop_msvc version command l o n = Quit z t -> z = 0).
      { clear. induction l as [|a r IH]; intros o n z t H; cbn [pp_loop_msvc] in H; [discriminate|]. destruct (String.eqb a "/c"); [eauto|]. destruct (String.eqb a "/?"); [congruence|]. destruct (String.eqb a "/v"); [congruence|eauto]. }
      destruct (pp_loop_msvc version command args false 0) as [z1 t1|[o n]] eqn:L; [|discriminate]. injection O as <- <-. exact (Q _ _ _ _ _ L).
Qed.
Print Assumptions C86_iffpp_speaks.

Lemma join_go_says : forall version command b args e s z t s' out ins, join_options version command b args = Go (out, ins) ->
  join_main version command b args e s = Done ((z, t), s') -> t = EmptyString /\ exists lg, sy_log s' = lg ++ sy_log s /\ (z = 0 \/ z = 1 /\ lg <> []).
Proof.
  intros version command b args e s z t s' out ins O H. unfold join_main in H. rewrite O in H. destruct ins as [|f ins].
  - unfold bindS in H. destruct (no_streams _ e s) as [[x s1]|u|] eqn:E; try discriminate. unfold retS in H. injection H as <- <- <-. split; [reflexivity|].
    eexists. split; [exact (proj1 (says_error _ _ _ _ _ E))|]. right. split; [reflexivity|discriminate].
  - unfold bindS at 1 in H. destruct (no_streams (malloc _) e s) as [[ok s1]|u|] eqn:E; try discriminate. pose proof (says_quiet _ _ e s _ _ (quiet_malloc _ e) E) as S1.
    destruct ok; [|discriminate]. unfold bindS in H. destruct (IFF_join (f :: ins) out e s1) as [[z1 s2]|u|] eqn:J; try discriminate. unfold retS in H. injection H as <- <- <-. split; [reflexivity|].
    destruct (join_says _ _ _ _ _ _ J) as (lg & L & X). exists lg. split; [rewrite L, (proj1 S1); reflexivity|exact X].
Qed.

Theorem C86_iffjoin_speaks : forall version command b args e s x, starting s -> iffjoin version command b args e s = Done x ->
  en_status x = 0 \/
  (en_status x = 1 /\ (en_stderr x <> [] \/ exists long reorder, b = Getopt long reorder /\ JoinStops long reorder args Invalid)).
Proof.
  intros version command b args e s x ST H.
  assert (GO : forall out ins, join_options version command b args = Go (out, ins) -> en_status x = 0 \/ en_status x = 1 /\ en_stderr x <> []).
  { intros out ins O. unfold iffjoin in H. destruct (join_main version command b args e s) as [[[z t] s']|u|] eqn:M; try discriminate. injection H as <-.
    destruct (join_go_says _ _ _ _ _ _ _ _ _ _ _ O M) as [_ (lg & L & X)]. cbn [exit_with en_status en_stderr]. destruct X as [->|[-> N]]; [left; reflexivity|]. right. split; [reflexivity|].
    rewrite L, (proj1 ST), app_nil_r. intro E. apply N. rewrite <- (rev_involutive lg), E. reflexivity. }
  destruct b as [long reorder|].
  - destruct (join_total long reorder args) as [(outs & ins & L)|(w & L)].
    + destruct (join_line long reorder version command args outs ins L) as (evs & G1 & G2).
      destruct (GO (last (map Some outs) None) ins) as [Z|[Z N]]; [unfold join_options; rewrite G1, G2; reflexivity|left; exact Z|right; auto].
    + unfold iffjoin in H. rewrite (C68_stops version command long reorder args w e s L) in H. destruct w; injection H as <-; cbn; [left; reflexivity|left; reflexivity|right; split; [reflexivity|right; eauto]].
  - destruct (join_options version command Msvc args) as [z t|[out ins]] eqn:O; [|destruct (GO out ins eq_refl) as [Z|[Z N]]; auto].
    unfold iffjoin, join_main in H. rewrite O in H. unfold retS in H. injection H as <-. left. cbn. unfold join_options in O.
    assert (Q : forall l o n z t, join_loop_msvc version command l o n = Quit z t -> z = 0).
    { clear. induction l as [|a r IH]; intros o n z t H; cbn [join_loop_msvc] in H; [discriminate|]. destruct (String.eqb a "/o"); [eauto|]. destruct (String.eqb a "/?"); [congruence|]. destruct (String.eqb a "/v"); [congruence|eauto]. }
    destruct (join_loop_msvc version command args None 0) as [z1 t1|[o n]] eqn:L; [|discriminate]. injection O as <- <-. exact (Q _ _ _ _ _ L).
Qed.
Print Assumptions C86_iffjoin_speaks.

(** ** iffjoin without an output file *)
Lemma join_parts : forall e inputs output s z s', usual e -> 12 + total_size s inputs <= INT_MAX -> IFF_join inputs output e s = Done (z, s') ->
  (z = 1 /\ untouched s s' /\ exists f, In f inputs /\ ~ exists c, accepted e s f c) \/
  (exists cs cat s1 ok, Forall2 (accepted e s) inputs cs /\ joined cs cat /\ 12 + sum (map encoded_size cs) <= INT_MAX /\
    untouched s s1 /\ IFF_write output cat None e s1 = Done (ok, s') /\ z = (if ok then 0 else 1) /\
    (cs <> [] -> exists g, as_group cat = Some (g, cs) /\ common_type cs g)).
Proof.
  intros e inputs output s z s' U S H. unfold IFF_join in H. destruct (create_cat e s U) as (s0 & C & T0). unfold bindS at 1 in H. rewrite C in H.
  unfold bindS at 1 in H. destruct (join_loop inputs (CGroup CAT_ID 4 JJJJ_ID []) e s0) as [[[cat|z1] s1]|u|] eqn:L; try discriminate;
    destruct (loop_result e U _ _ _ _ _ L) as [T1 X]; pose proof (untouched_trans _ _ _ T0 T1) as T.
  - right. destruct X as (cs & F1 & AD).
    assert (F : Forall2 (accepted e s) inputs cs).
    { revert F1. clear - T0 U. induction 1; constructor; auto. eapply accepted_frame; [exact U| |eassumption]. rewrite (proj1 T0). reflexivity. }
    destruct (inputs_good e s inputs cs U ltac:(lia) F) as [G E].
    destruct (add_joined e U cs [] _ (mkWorld no_in no_out [] 0) empty_joined G ltac:(cbn [map sum fold_right]; lia)) as (cat' & w' & AL & J). cbn [Datatypes.app] in J.
    destruct (AD [] 0%nat) as [w2 AL2]. rewrite AL in AL2. injection AL2 as -> _.
    unfold bindS in H. destruct (IFF_write output cat None e s1) as [[ok s2]|u|] eqn:W; try discriminate. destruct (liftS (IFF_free cat None) e s2) as [[u s3]|u|] eqn:FR; try discriminate.
    apply liftS_done in FR. subst s3. unfold retS in H. injection H as <- <-. exists cs, cat, s1, ok. repeat (split; [first [assumption|lia|reflexivity]|]).
    intro N. apply (C43_contents_type cs (CGroup CAT_ID 4 JJJJ_ID []) JJJJ_ID e (mkWorld no_in no_out [] 0) cat w' eq_refl N); [|exact AL].
    intros c I. split; [apply (good_top _ (G c I))|]. pose proof (good_conforms _ (G c I)) as X. pose proof (good_top _ (G c I)) as TT. inversion X; subst; cbn; eauto; exfalso; cbn in TT;
      match goal with H : ~ In _ group_ids |- _ => apply H; apply cat_ids_group; exact TT end.
  - left. destruct X as [-> (f & I & N)]. unfold retS in H. injection H as <- <-. split; [reflexivity|]. split; [exact T|]. exists f. split; [exact I|].
    intros [c A]. apply N. exists c. eapply accepted_frame; [exact U| |exact A]. rewrite (proj1 T0). reflexivity.
Qed.

Lemma join_main_go : forall version command long reorder args outs ins e s z t s', JoinLine long reorder args outs ins -> ins <> [] ->
  join_main version command (Getopt long reorder) args e s = Done ((z, t), s') ->
  t = EmptyString /\ exists s1, says [] s s1 /\ untouched s s1 /\ no_streams (malloc (Z.of_nat (List.length ins) * sizeof_pointer)) e s = Done (true, s1) /\ IFF_join ins (last_name outs) e s1 = Done (z, s').
Proof.
  intros version command long reorder args outs ins e s z t s' L N H. destruct (join_line long reorder version command args outs ins L) as (evs & G1 & G2).
  unfold join_main, join_options in H. rewrite G1, G2 in H. fold (last_name outs) in H. destruct ins as [|f ins]; [congruence|].
  unfold bindS at 1 in H. destruct (no_streams (malloc _) e s) as [[ok s1]|u|] eqn:E; try discriminate.
  destruct ok; [|discriminate]. unfold bindS in H. destruct (IFF_join (f :: ins) (last_name outs) e s1) as [[z1 s2]|u|] eqn:J; try discriminate. unfold retS in H. injection H as <- <- <-. split; [reflexivity|].
  exists s1. split; [exact (says_quiet _ _ e s _ _ (quiet_malloc _ e) E)|]. split; [exact (proj1 (no_streams_frame _ _ _ _ _ _ E))|]. auto.
Qed.

Lemma accepted_all : forall e s s1 ins cs, usual e -> untouched s s1 -> Forall2 (accepted e s1) ins cs -> Forall2 (accepted e s) ins cs.
Proof. intros e s s1 ins cs U T F. induction F; constructor; auto. eapply accepted_frame; [exact U| |eassumption]. rewrite (proj1 T). reflexivity. Qed.

Lemma write_stdout : forall e cat s s' ok, usual e -> WF no_apps 0 cat -> IFF_write None cat None e s = Done (ok, s') ->
  sy_stdout s' = snd (put_bytes (encode cat) (sy_stdout s)) /\ ok = fst (put_bytes (encode cat) (sy_stdout s)) /\ sy_files s' = sy_files s.
Proof.
  intros e cat s s' ok U W H. cbn [IFF_write] in H. unfold with_streams in H.
  destruct (write_result None no_apps e cat (mkWorld no_in (sy_stdout s) (sy_log s) (sy_allocs s)) default_registry U W) as (lg & n & R & _). rewrite R in H. cbn in H. injection H as <- <-. repeat split.
Qed.

(** What reaches standard output is the joined file, up to where the device is
    full, whatever the status; nothing if an input is refused. *)
Theorem C86_iffjoin_output : forall version command long reorder args outs ins e s x, JoinLine long reorder args outs ins -> last_name outs = None -> ins <> [] ->
  usual e -> 12 + total_size s ins <= INT_MAX -> starting s -> iffjoin version command (Getopt long reorder) args e s = Done x ->
  en_files x = sy_files s /\
  ((en_status x = 1 /\ en_stdout x = [] /\ exists f, In f ins /\ ~ exists c, accepted e s f c) \/
   (exists trees cat g, Forall2 (accepted e s) ins trees /\ WF no_apps 0 cat /\ zlength (encode cat) <= INT_MAX /\ chunkId cat = CAT_ID /\ as_group cat = Some (g, trees) /\ common_type trees g /\
      en_stdout x = room_for (o_room (sy_stdout s)) (encode cat))).
Proof.
  intros version command long reorder args outs ins e s x L O N U S (LG & D & B) H. unfold iffjoin in H. destruct (join_main _ _ _ args e s) as [[[z t] s']|u|] eqn:M; try discriminate. injection H as <-.
  destruct (join_main_go _ _ _ _ _ _ _ _ _ _ _ _ L N M) as (-> & s1 & S1 & T1 & _ & J). rewrite O in J.
  assert (TS : total_size s1 ins = total_size s ins) by (unfold total_size, input_size; rewrite (proj1 T1); reflexivity).
  unfold exit_with. cbn [en_status en_stdout en_stderr en_files text_bytes print_out fold_left].
  destruct (join_parts e ins None s1 z s' U ltac:(lia) J) as [(-> & T2 & f & I & NA)|(cs & cat & s2 & ok & F & JO & SZ & T2 & W & -> & CT)].
  - pose proof (untouched_trans _ _ _ T1 T2) as T. split; [exact (proj1 T)|]. left. split; [reflexivity|]. split.
    + destruct T as (_ & _ & _ & _ & _ & E6). unfold print_out. cbn [fold_left]. rewrite flushed, E6, D, B. destruct (o_room (sy_stdout s)); [apply firstn_nil|reflexivity].
    + exists f. split; [exact I|]. intros [c A]. apply NA. exists c. eapply accepted_frame; [exact U| |exact A]. rewrite (proj1 T1). reflexivity.
  - pose proof (untouched_trans _ _ _ T1 T2) as T. destruct (joined_WF cs cat JO SZ) as [WF0 EL]. destruct (write_stdout e cat s2 s' ok U WF0 W) as (E1 & _ & E3).
    split; [rewrite E3; exact (proj1 T)|]. right. destruct CT as (g & AG & CT); [intros ->; inversion F; subst; congruence|]. exists cs, cat, g.
    split; [exact (accepted_all e s s1 ins cs U T1 F)|]. split; [exact WF0|]. split; [lia|]. split; [destruct JO as [(g0 & -> & _) _]; reflexivity|]. split; [exact AG|]. split; [exact CT|].
    unfold print_out. cbn [fold_left]. rewrite E1, put_out. destruct T as (_ & _ & _ & _ & _ & E6). rewrite E6, D, B. reflexivity.
Qed.
Print Assumptions C86_iffjoin_output.

(** Who reads from iffjoin through a pipe gets the CAT of the inputs' trees, or
    is told that there is none; the latter only if an input was refused or
    there was too little room. *)
Theorem C86_iffjoin_reader : forall version command long reorder args outs ins e s x e2 w2, JoinLine long reorder args outs ins -> last_name outs = None -> ins <> [] ->
  usual e -> usual e2 -> 12 + total_size s ins <= INT_MAX -> starting s -> iffjoin version command (Getopt long reorder) args e s = Done x ->
  r_rest (w_in w2) = en_stdout x ->
  exists r w3, IFF_readFd None e2 w2 = Done (r, w3) /\
  match r with
  | Some cat => exists trees g, Forall2 (accepted e s) ins trees /\ chunkId cat = CAT_ID /\ as_group cat = Some (g, trees) /\ common_type trees g
  | None => reported w2 w3 /\ ((exists f, In f ins /\ ~ exists c, accepted e s f c) \/ o_room (sy_stdout s) <> None)
  end.
Proof.
  intros version command long reorder args outs ins e s x e2 w2 L O N U U2 S ST H R.
  assert (CATS : forall cat, WF no_apps 0 cat -> zlength (encode cat) <= INT_MAX -> Prefix (r_rest (w_in w2)) (encode cat) ->
    exists r w3, IFF_readFd None e2 w2 = Done (r, w3) /\ (r = Some cat /\ r_rest (w_in w2) = encode cat \/ r = None /\ r_rest (w_in w2) <> encode cat /\ reported w2 w3)).
  { intros cat WF0 EL PF. destruct (write_result None no_apps e2 cat (mkWorld no_in no_out [] 0%nat) default_registry U2 WF0) as (lg & n & RR & _).
    eapply (C24_no_wrong_tree cat e2 e2 (mkWorld no_in no_out [] 0%nat) _ _ w2 (r_rest (w_in w2)) U2 U2 WF0); [|split; reflexivity|exact RR| |reflexivity].
    - unfold INT_MAX, size_t_bits in *. destruct (lp64 e2); change (2 ^ (64 - 1)) with 9223372036854775808; change (2 ^ (32 - 1)) with 2147483648; lia.
    - right. unfold closed. cbn [w_out]. rewrite put_out. exact PF. }
  destruct (C86_iffjoin_output _ _ _ _ _ _ _ _ _ _ L O N U S ST H) as [_ [(_ & E & NA)|(trees & cat & g & F & WF0 & EL & ID & AG & CT & E)]].
  - destruct (CATS (CGroup CAT_ID 4 JJJJ_ID []) (proj1 (joined_WF [] _ empty_joined ltac:(cbn; unfold INT_MAX; lia))) ltac:(vm_compute; discriminate)) as (r & w3 & RD & [[_ X]|(-> & _ & RP)]).
    + rewrite R, E. exists (encode (CGroup CAT_ID 4 JJJJ_ID [])). reflexivity.
    + rewrite R, E in X. discriminate X.
    + exists None, w3. split; [exact RD|]. auto.
  - destruct (CATS cat WF0 EL) as (r & w3 & RD & [[-> X]|(-> & X & RP)]).
    + rewrite R, E. destruct (o_room (sy_stdout s)) as [n|]; [exists (skipn n (encode cat)); apply firstn_skipn|exists []; apply app_nil_r].
    + exists (Some cat), w3. split; [exact RD|]. exists trees, g. auto.
    + exists None, w3. split; [exact RD|]. split; [exact RP|]. right. intro NR. apply X. rewrite R, E, NR. reflexivity.
Qed.
Print Assumptions C86_iffjoin_reader.

(** ** A pipe is as good as a file *)

Lemma join_shared : forall ins o e s, IFF_join ins o e s =
  match (ocat <-s no_streams IFF_createEmptyCAT ;; match ocat with None => liftS (Undefined UB_null_deref) | Some cat => join_loop ins cat end) e s with
  | Done (inr status, s') => Done (status, s')
  | Done (inl cat, s') => (ok <-s IFF_write o cat None ;; u <-s liftS (IFF_free cat None) ;; retS (if ok : bool then 0 else 1)) e s'
  | Undefined u => Undefined u
  | OutOfFuel => OutOfFuel
  end.
Proof.
  intros ins o e s. unfold IFF_join. unfold bindS at 1 5. destruct (no_streams IFF_createEmptyCAT e s) as [[[cat|] s1]|u|]; [|reflexivity|reflexivity|reflexivity].
  unfold bindS at 1. destruct (join_loop ins cat e s1) as [[[c|z] s2]|u|]; reflexivity.
Qed.

Lemma loop_says_only : forall ins e s r s', (ocat <-s no_streams IFF_createEmptyCAT ;; match ocat with None => liftS (Undefined UB_null_deref) | Some cat => join_loop ins cat end) e s = Done (r, s') ->
  usual e -> untouched s s'.
Proof.
  intros ins e s r s' H U. unfold bindS in H. destruct (no_streams IFF_createEmptyCAT e s) as [[[cat|] s1]|u|] eqn:C; try discriminate.
  destruct (no_streams_frame _ _ _ _ _ _ C) as [T _]. destruct (loop_result e U _ _ _ _ _ H) as [T2 _]. exact (untouched_trans _ _ _ T T2).
Qed.

(** The same inputs, joined to standard output and to a file with the same room
    and the same buffer: the same status, the same diagnostics, and, unless an
    input is refused, the same bytes. *)
Theorem C86_pipe_or_file : forall version command long reorder args1 outs1 args2 outs2 ins out e s x1 x2,
  JoinLine long reorder args1 outs1 ins -> last_name outs1 = None -> JoinLine long reorder args2 outs2 ins -> last_name outs2 = Some out -> ins <> [] ->
  usual e -> 12 + total_size s ins <= INT_MAX -> starting s -> sy_writable s out = true -> sy_room s out = o_room (sy_stdout s) -> sy_bufsize s = o_bufsize (sy_stdout s) ->
  iffjoin version command (Getopt long reorder) args1 e s = Done x1 -> iffjoin version command (Getopt long reorder) args2 e s = Done x2 ->
  en_status x1 = en_status x2 /\ en_stderr x1 = en_stderr x2 /\ en_stdout x2 = [] /\ en_files x1 = sy_files s /\
  (forall name, name <> out -> en_files x2 name = sy_files s name) /\
  (en_files x2 out = Some (en_stdout x1) \/
   en_status x1 = 1 /\ en_stdout x1 = [] /\ en_files x2 out = sy_files s out /\ exists f, In f ins /\ ~ exists c, accepted e s f c).
Proof.
  intros version command long reorder args1 outs1 args2 outs2 ins out e s x1 x2 L1 O1 L2 O2 N U S (LG & D & B) WR RM BZ H1 H2.
  unfold iffjoin in H1, H2. destruct (join_main _ _ _ args1 e s) as [[[z1 t1] s1']|u|] eqn:M1; try discriminate. injection H1 as <-.
  destruct (join_main _ _ _ args2 e s) as [[[z2 t2] s2']|u|] eqn:M2; try discriminate. injection H2 as <-.
  destruct (join_main_go _ _ _ _ _ _ _ _ _ _ _ _ L1 N M1) as (-> & s1 & S1 & T1 & MA & J1). destruct (join_main_go _ _ _ _ _ _ _ _ _ _ _ _ L2 N M2) as (-> & s1b & _ & _ & MB & J2).
  rewrite MA in MB. injection MB as <-. rewrite O1 in J1. rewrite O2 in J2. unfold exit_with. cbn [en_status en_stdout en_stderr en_files text_bytes]. unfold print_out. cbn [fold_left].
  assert (TS : total_size s1 ins = total_size s ins) by (unfold total_size, input_size; rewrite (proj1 T1); reflexivity).
  pose proof (join_parts e ins None s1 z1 s1' U ltac:(lia) J1) as P. pose proof J1 as J1'. rewrite join_shared in J1, J2.
  destruct ((ocat <-s no_streams IFF_createEmptyCAT ;; match ocat with None => liftS (Undefined UB_null_deref) | Some cat => join_loop ins cat end) e s1) as [[[cat|z] s2]|u|] eqn:LP; try discriminate;
    pose proof (untouched_trans _ _ _ T1 (loop_says_only ins e s1 _ _ LP U)) as (E1 & E2 & E3 & E4 & E5 & E6).
  - unfold bindS in J1, J2. destruct (IFF_write None cat None e s2) as [[ok1 s3]|u|] eqn:W1; try discriminate. destruct (liftS (IFF_free cat None) e s3) as [[u s3']|u|] eqn:FR; try discriminate. apply liftS_done in FR. subst s3'.
    destruct (IFF_write (Some out) cat None e s2) as [[ok2 s4]|u2|] eqn:W2; try discriminate. destruct (liftS (IFF_free cat None) e s4) as [[u2 s4']|u2|] eqn:FR; try discriminate. apply liftS_done in FR. subst s4'.
    unfold retS in J1, J2. injection J1 as <- <-. injection J2 as <- <-.
    cbn [IFF_write] in W1, W2. unfold IFF_writeFile in W2. rewrite E2, WR in W2. unfold with_streams in W1, W2.
    assert (ST : mkWfile [] [] (sy_bufsize s2) (sy_room s2 out) = sy_stdout s2).
    { rewrite E4, E3, E6, RM, BZ. destruct (sy_stdout s) as [d b bz rm]. cbn in D, B |- *. subst. reflexivity. }
    rewrite ST in W2. destruct (IFF_writeFd cat None e (mkWorld no_in (sy_stdout s2) (sy_log s2) (sy_allocs s2))) as [[ok w]|u3|]; try discriminate. injection W1 as <- <-. injection W2 as <- <-.
    cbn [sy_log sy_files sy_stdout set_file]. split; [reflexivity|]. split; [reflexivity|]. split; [rewrite flushed, E6, D, B; destruct (o_room (sy_stdout s)); [apply firstn_nil|reflexivity]|].
    split; [exact E1|]. split; [|left; rewrite String.eqb_refl; reflexivity]. intros name NE. rewrite (proj2 (String.eqb_neq name out) NE), E1. reflexivity.
  - injection J1 as <- <-. injection J2 as <- <-.
    assert (F : o_dev (snd (flush (sy_stdout s2))) = []) by (rewrite flushed, E6, D, B; destruct (o_room (sy_stdout s)); [apply firstn_nil|reflexivity]).
    split; [reflexivity|]. split; [reflexivity|]. split; [exact F|]. split; [exact E1|]. split; [intros; rewrite E1; reflexivity|]. right.
    destruct P as [(-> & _ & f & I & NA)|(cs & cat & s3 & ok & FA & _)].
    + split; [reflexivity|]. split; [exact F|]. split; [rewrite E1; reflexivity|]. exists f. split; [exact I|]. intros [c A]. apply NA. exists c. eapply accepted_frame; [exact U| |exact A]. rewrite (proj1 T1). reflexivity.
    + exfalso. unfold bindS in LP. destruct (no_streams IFF_createEmptyCAT e s1) as [[[c0|] s4]|u|] eqn:C; try discriminate. destruct (loop_result e U _ _ _ _ _ LP) as [_ [_ (f & I & NA)]].
      destruct (no_streams_frame _ _ _ _ _ _ C) as [T _]. apply NA. revert I. clear - FA U T. induction FA as [|g c gs cs A F IH]; intro I; [destruct I|destruct I as [<-|I]; [|auto]].
      exists c. eapply accepted_frame; [exact U| |exact A]. rewrite (proj1 T). reflexivity.
Qed.
Print Assumptions C86_pipe_or_file.

(** So iffpp behind a pipe from iffjoin does what it does with the file. *)
Theorem C86_pipeline : forall version command long reorder args1 outs1 args2 outs2 ins out e s x1 x2,
  JoinLine long reorder args1 outs1 ins -> last_name outs1 = None -> JoinLine long reorder args2 outs2 ins -> last_name outs2 = Some out -> ins <> [] ->
  usual e -> 12 + total_size s ins <= INT_MAX -> starting s -> sy_writable s out = true -> sy_room s out = o_room (sy_stdout s) -> sy_bufsize s = o_bufsize (sy_stdout s) ->
  iffjoin version command (Getopt long reorder) args1 e s = Done x1 -> iffjoin version command (Getopt long reorder) args2 e s = Done x2 ->
  (forall f, In f ins -> exists c, accepted e s f c) ->
  forall pargs1 pargs2 check e2 s2, PpLine long reorder pargs1 check [] -> PpLine long reorder pargs2 check [out] ->
  sy_files s2 = en_files x2 -> r_rest (sy_stdin s2) = en_stdout x1 ->
  match iffpp version command (Getopt long reorder) pargs1 e2 s2, iffpp version command (Getopt long reorder) pargs2 e2 s2 with
  | Done y1, Done y2 => y1 = y2
  | Undefined u, Undefined v => u = v
  | OutOfFuel, OutOfFuel => True
  | _, _ => False
  end.
Proof.
  intros version command long reorder args1 outs1 args2 outs2 ins out e s x1 x2 L1 O1 L2 O2 N U S ST WR RM BZ H1 H2 ALL p1 p2 ck e2 s2 P1 P2 FI SI.
  destruct (C86_pipe_or_file version command long reorder args1 outs1 args2 outs2 ins out e s x1 x2 L1 O1 L2 O2 N U S ST WR RM BZ H1 H2) as (_ & _ & _ & _ & _ & [E|(_ & _ & _ & f & I & NA)]); [|exfalso; exact (NA (ALL f I))].
  unfold iffpp. rewrite (C67_line version command long reorder p1 ck [] e2 s2 P1), (C67_line version command long reorder p2 ck [out] e2 s2 P2). cbn [hd_error].
  pose proof (C85_iffpp e2 s2 out (en_stdout x1) ck ltac:(rewrite FI; exact E) SI) as X.
  destruct (IFF_prettyPrint (Some out) ck e2 s2) as [[[z1 t1] s3]|u|]; destruct (IFF_prettyPrint None ck e2 s2) as [[[z2 t2] s4]|v|]; try contradiction; [|congruence|exact I].
  destruct X as (E1 & E2 & E3 & E4). injection E1 as -> ->. unfold exit_with. rewrite E2, E3, E4. reflexivity.
Qed.
Print Assumptions C86_pipeline.

(** ** What is not so: iffpp on a full device exits with 0 and says nothing *)
Theorem C86_full_device_refuted : exists version command s x, starting s /\ o_room (sy_stdout s) = Some 0%nat /\
  iffpp version command (Getopt true true) ["a.iff"]%string (host false) s = Done x /\
  en_status x = 0 /\ en_stdout x = [] /\ en_stderr x = [] /\
  exists tree text s1, IFF_read (Some "a.iff"%string) None (host false) s = Done (Some tree, s1) /\ IFF_print tree 0 None = Done text /\ text <> EmptyString.
Proof.
  exists "0"%string, "iffpp"%string, (mkSys (fun n => if String.eqb n "a.iff" then Some (encode ex_form) else None) (fun _ => true) (fun _ => None) 16 no_in (mkWfile [] [] 4096 (Some 0%nat)) [] 0).
  eexists. split; [repeat split|]. split; [reflexivity|]. split; [vm_compute; reflexivity|]. repeat (split; [reflexivity|]). eexists _, _, _. split; [vm_compute; reflexivity|]. split; [vm_compute; reflexivity|]. discriminate.
Qed.
Print Assumptions C86_full_device_refuted.

(** ** Examples *)
Definition shell (room : option nat) : sys :=
  mkSys (fun n => if String.eqb n "a.iff" then Some (encode ex_form) else if String.eqb n "b.iff" then Some (encode ex_list) else None)
    (fun _ => true) (fun _ => room) 16 no_in (mkWfile [] [] 16 room) [] 0.

Example C86_example : exists x1 x2 x3, starting (shell None) /\ 12 + total_size (shell None) ["a.iff"; "b.iff"]%string <= INT_MAX /\
  iffjoin "0" "iffjoin" (Getopt true true) ["a.iff"; "b.iff"]%string (host false) (shell None) = Done x1 /\
  iffjoin "0" "iffjoin" (Getopt true true) ["-o"; "o.iff"; "a.iff"; "b.iff"]%string (host false) (shell None) = Done x2 /\
  JoinLine true true ["-o"; "o.iff"; "a.iff"; "b.iff"]%string ["o.iff"]%string ["a.iff"; "b.iff"]%string /\
  en_status x1 = 0 /\ en_files x2 "o.iff"%string = Some (en_stdout x1) /\ (100 < List.length (en_stdout x1))%nat /\
  iffpp "0" "iffpp" (Getopt true true) [] (host true) (mkSys (fun _ => None) (fun _ => true) (fun _ => None) 16 (mkRfile (en_stdout x1) false) (mkWfile [] [] 16 None) [] 0) = Done x3 /\
  en_status x3 = 0 /\ (100 < List.length (en_stdout x3))%nat.
Proof.
  eexists _, _, _. split; [repeat split|]. split; [vm_compute; discriminate|]. split; [vm_compute; reflexivity|]. split; [vm_compute; reflexivity|].
  split; [apply (JL_next true true "-o" "o.iff"); [constructor|]; repeat (apply JL_operand; [right; intros r X; discriminate X|reflexivity|]); constructor|].
  split; [reflexivity|]. split; [reflexivity|]. split; [vm_compute; lia|]. split; [vm_compute; reflexivity|]. split; [reflexivity|]. vm_compute. lia.
Qed.

(** With room for 50 bytes: the pipe and the file end at the same byte, and the
    reader is told. *)
Example C86_example_full : exists x1 x2 x3,
  iffjoin "0" "iffjoin" (Getopt true true) ["a.iff"; "b.iff"]%string (host false) (shell (Some 50%nat)) = Done x1 /\
  iffjoin "0" "iffjoin" (Getopt true true) ["-o"; "o.iff"; "a.iff"; "b.iff"]%string (host false) (shell (Some 50%nat)) = Done x2 /\
  en_status x1 = 1 /\ en_stderr x1 <> [] /\ List.length (en_stdout x1) = 50%nat /\ en_files x2 "o.iff"%string = Some (en_stdout x1) /\
  iffpp "0" "iffpp" (Getopt true true) [] (host true) (mkSys (fun _ => None) (fun _ => true) (fun _ => None) 16 (mkRfile (en_stdout x1) false) (mkWfile [] [] 16 None) [] 0) = Done x3 /\
  en_status x3 = 1 /\ en_stdout x3 = [] /\ en_stderr x3 <> [].
Proof.
  eexists _, _, _. split; [vm_compute; reflexivity|]. split; [vm_compute; reflexivity|]. split; [reflexivity|]. split; [discriminate|]. split; [reflexivity|]. split; [reflexivity|]. split; [vm_compute; reflexivity|]. repeat split; discriminate.
Qed.
