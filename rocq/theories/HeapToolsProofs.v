(** * The tools over the heap behave as over trees, and what they leave behind *)

From Coq Require Import ZArith List Bool String Lia.
From Coq Require Import Strings.Byte.
From Verif Require Import Machine Io Types Build Read Write Check Print Iff Spec Lemmas IoProofs RegProofs WriteProofs SoundProofs
  Heap HeapSpec HeapProofs HeapBuildProofs HeapReadProofs HeapAddProofs HeapPass HeapPassProofs HostProofs HeapTools PropTools.
Import ListNotations.
Open Scope Z_scope.

(** The computation [hm] over the heap does what [m] does, and the results are
    related by [R]. *)
Definition simH {A B} (m : M A) (hm : H B) (e : env) (h : heap) (R : A -> B -> heap -> Prop) : Prop := forall w,
  match m e w with
  | Done (a, w') => exists b h', hm e w h = Done (b, w', h') /\ R a b h'
  | Undefined u => hm e w h = Undefined u
  | OutOfFuel => hm e w h = OutOfFuel
  end.

Definition simS {A B} (m : MS A) (hm : HS B) (e : env) (s : sys) (h : heap) (R : A -> B -> heap -> Prop) : Prop :=
  match m e s with
  | Done (a, s') => exists b h', hm e s h = Done (b, s', h') /\ R a b h'
  | Undefined u => hm e s h = Undefined u
  | OutOfFuel => hm e s h = OutOfFuel
  end.

Lemma sim_bind : forall A B C D (m : MS A) (hm : HS B) (k : A -> MS C) (hk : B -> HS D) e s h R Q, simS m hm e s h R ->
  (forall a b s' h', m e s = Done (a, s') -> R a b h' -> simS (k a) (hk b) e s' h' Q) -> simS (bindS m k) (hbindS hm hk) e s h Q.
Proof.
  intros A B C D m hm k hk e s h R Q S K. unfold simS, bindS, hbindS in *. destruct (m e s) as [[a s']|u|] eqn:E.
  - destruct S as (b & h' & -> & X). apply (K a b s' h' eq_refl X).
  - rewrite S. reflexivity.
  - rewrite S. reflexivity.
Qed.

Lemma sim_ret : forall A B (a : A) (b : B) e s h (R : A -> B -> heap -> Prop), R a b h -> simS (retS a) (hretS b) e s h R.
Proof. intros A B a b e s h R X. exists b, h. split; [reflexivity|exact X]. Qed.

Lemma sim_weaken : forall A B (m : MS A) (hm : HS B) e s h (R Q : A -> B -> heap -> Prop), simS m hm e s h R -> (forall a b h', R a b h' -> Q a b h') -> simS m hm e s h Q.
Proof.
  intros A B m hm e s h R Q S W. unfold simS in *. destruct (m e s) as [[a s']|u|]; [|exact S|exact S]. destruct S as (b & h' & E & X). exists b, h'. auto.
Qed.

Lemma sim_streams : forall A B (m : M A) (hm : H B) i o e s h R, simH m hm e h R ->
  simS (with_streams m i o) (hwith_streams hm i o) e s h (fun x y h' => R (fst x) (fst y) h' /\ snd x = snd y).
Proof.
  intros A B m hm i o e s h R S. unfold simS, with_streams, hwith_streams. specialize (S (mkWorld i o (sy_log s) (sy_allocs s))).
  destruct (m e _) as [[a w]|u|].
  - destruct S as (b & h' & -> & X). eexists _, h'. split; [reflexivity|]. cbn. auto.
  - rewrite S. reflexivity.
  - rewrite S. reflexivity.
Qed.

Lemma sim_no_streams : forall A B (m : M A) (hm : H B) e s h R, simH m hm e h R -> simS (no_streams m) (hno_streams hm) e s h R.
Proof.
  intros A B m hm e s h R S. unfold no_streams, hno_streams. eapply sim_bind; [apply sim_streams; exact S|].
  intros a b s' h' _ [X _]. apply sim_ret. exact X.
Qed.

Lemma sim_agrees : forall A (m : M A) hm e h, agrees e h m hm -> simH m hm e h (fun a b h' => a = b /\ h' = h).
Proof.
  intros A m hm e h X w. rewrite X. unfold io. destruct (m e w) as [[a w']|u|]; [|reflexivity|reflexivity]. exists a, h. auto.
Qed.

(** Pure tree functions *)
Lemma sim_lift : forall A B (o : outcome A) (hm : H B) e s h R, simH (lift o) hm e h R -> simS (liftS o) (hno_streams hm) e s h R.
Proof.
  intros A B o hm e s h R S. pose proof (sim_no_streams _ _ (lift o) hm e s h R S) as X. unfold simS in *. revert X.
  unfold no_streams, bindS, with_streams, lift, liftS. destruct o as [a|u|]; [|auto|auto]. destruct s. exact (fun x => x).
Qed.

(** ** Reading and writing files *)

Section Files.
  Variables (rg : option registry) (app : apps).
  Hypothesis RG : Realises (selectChunkRegistry rg) app.

  Definition read_result (h : heap) (oc : option chunk) (p : ptr) (h' : heap) : Prop :=
    match oc, p with
    | None, None => becomes h h' [] []
    | Some c, Some a => exists F, tree_at h' c None a F /\ NoDup F /\ becomes h h' [] F /\ Typed app 0 c
    | _, _ => False
    end.

  Lemma sim_readFd : forall e h, simH (IFF_readFd rg) (hIFF_readFd rg) e h (read_result h).
  Proof.
    intros e h w. pose proof (readFd_at rg app RG e w h) as R. destruct (IFF_readFd rg e w) as [[[c|] w1]|u|].
    - destruct R as (a & h1 & F & E & T & ND & B & TY). exists (Some a), h1. split; [exact E|]. exists F. auto.
    - destruct R as (h1 & E & B). exists None, h1. split; [exact E|exact B].
    - exact R.
    - exact R.
  Qed.

  Lemma sim_readFile : forall f e s h, simS (IFF_readFile f rg) (hIFF_readFile f rg) e s h (read_result h).
  Proof.
    intros f e s h. unfold simS, IFF_readFile, hIFF_readFile. destruct (sy_files s f) as [d|].
    - apply (sim_bind _ _ _ _ (with_streams (IFF_readFd rg) (mkRfile d true) no_out) (hwith_streams (hIFF_readFd rg) (mkRfile d true) no_out) _ _ e s h _ (read_result h)
        (sim_streams _ _ _ _ _ _ e s h _ (sim_readFd e h))). intros a b s' h' _ [X _]. apply sim_ret. exact X.
    - apply (sim_bind _ _ _ _ (no_streams (IFF_error ("ERROR: cannot open file: " ++ f ++ nl)%string)) (hno_streams (io (IFF_error ("ERROR: cannot open file: " ++ f ++ nl)%string)))
        _ _ e s h _ (read_result h) (sim_no_streams _ _ _ _ e s h _ (sim_agrees _ _ _ e h (ag_io _ e h _)))).
      intros a b s' h' _ [_ ->]. apply sim_ret. apply becomes_refl.
  Qed.

  Lemma sim_read : forall f e s h, simS (IFF_read f rg) (hIFF_read f rg) e s h (read_result h).
  Proof.
    intros [f|] e s h; [apply sim_readFile|]. unfold simS, IFF_read, hIFF_read.
    pose proof (sim_streams _ _ _ _ (sy_stdin s) no_out e s h _ (sim_readFd e h)) as X. unfold simS in X.
    destruct (with_streams _ _ _ e s) as [[[oc [i o]] s']|u|]; [|rewrite X; reflexivity|rewrite X; reflexivity].
    destruct X as ([p [i' o']] & h' & -> & X & Y). cbn in X, Y. injection Y as <- <-. exists p, h'. split; [reflexivity|exact X].
  Qed.

  Lemma sim_write : forall f c p a F e s h, tree_at h c p a F -> NoDup F ->
    simS (IFF_write f c rg) (hIFF_write f a rg) e s h (fun x y h' => x = y /\ h' = h).
  Proof.
    intros f c p a F e s h T ND. pose proof (sim_agrees _ _ _ e h (writeFd_at rg e h c p a F T ND)) as W. destruct f as [f|]; unfold simS, IFF_write, hIFF_write.
    - unfold IFF_writeFile, hIFF_writeFile. destruct (sy_writable s f).
      + pose proof (sim_streams _ _ _ _ no_in (mkWfile [] [] (sy_bufsize s) (sy_room s f)) e s h _ W) as X. unfold simS in X.
        destruct (with_streams _ _ _ e s) as [[[ok [i o]] s']|u|]; [|rewrite X; reflexivity|rewrite X; reflexivity].
        destruct X as ([ok' [i' o']] & h' & -> & [X1 X2] & Y). cbn in X1, Y. injection Y as <- <-. subst. eexists _, h. split; [reflexivity|auto].
      + apply (sim_bind _ _ _ _ (no_streams (IFF_error ("ERROR: cannot open file: " ++ f ++ nl)%string)) (hno_streams (io (IFF_error ("ERROR: cannot open file: " ++ f ++ nl)%string)))
          _ _ e s h _ _ (sim_no_streams _ _ _ _ e s h _ (sim_agrees _ _ _ e h (ag_io _ e h _)))).
        intros x b s' h' _ [_ ->]. apply sim_ret. auto.
    - pose proof (sim_streams _ _ _ _ no_in (sy_stdout s) e s h _ W) as X. unfold simS in X.
      destruct (with_streams _ _ _ e s) as [[[ok [i o]] s']|u|]; [|rewrite X; reflexivity|rewrite X; reflexivity].
      destruct X as ([ok' [i' o']] & h' & -> & [X1 X2] & Y). cbn in X1, Y. injection Y as <- <-. subst. eexists _, h. split; [reflexivity|auto].
  Qed.

  Lemma sim_free : forall c p a F e s h, Typed app 0 c -> tree_at h c p a F -> NoDup F ->
    simS (liftS (IFF_free c rg)) (hno_streams (hIFF_free a rg)) e s h (fun _ _ h' => becomes h h' F []).
  Proof.
    intros c p a F e s h TY T ND. apply sim_lift. intro w. unfold lift, IFF_free. rewrite (free_typed _ app RG c 0 TY).
    destruct (freeTree_at _ app RG c 0 p a F h e w TY T ND) as (h1 & E & B). exists tt, h1. split; [exact E|exact B].
  Qed.

  Lemma sim_check : forall c p a F e s h, tree_at h c p a F -> NoDup F ->
    simS (no_streams (IFF_check c rg)) (hno_streams (hIFF_check a rg)) e s h (fun x y h' => x = y /\ h' = h).
  Proof. intros c p a F e s h T ND. apply sim_no_streams. apply sim_agrees. exact (check_at rg e h c p a F T ND). Qed.
End Files.

(** ** iffpp *)

Lemma default_none : Realises (selectChunkRegistry None) no_apps.
Proof. apply default_realises. reflexivity. Qed.

Lemma sim_prettyPrint : forall f d e s h,
  simS (IFF_prettyPrint f d) (hIFF_prettyPrint f d) e s h (fun x y h' => x = y /\ becomes h h' [] []).
Proof.
  intros f d e s h. unfold IFF_prettyPrint, hIFF_prettyPrint. eapply sim_bind; [exact (sim_read None no_apps default_none f e s h)|].
  intros oc p s1 h1 _ R. destruct oc as [c|], p as [a|]; try contradiction.
  2:{ eapply sim_bind; [exact (sim_no_streams _ _ _ _ e s1 h1 _ (sim_agrees _ _ _ e h1 (ag_io _ e h1 _)))|].
      intros u b s2 h2 _ [_ ->]. apply sim_ret. split; [reflexivity|exact R]. }
  destruct R as (F & T & ND & B & TY).
  apply (sim_bind _ _ _ _ (if d then retS true else no_streams (IFF_check c None)) (if d then hretS true else hno_streams (hIFF_check a None)) _ _ e s1 h1
    (fun x y h' => x = y /\ h' = h1)).
  - destruct d; [apply sim_ret; auto|]. exact (sim_check None c None a F e s1 h1 T ND).
  - intros ok y s2 h2 _ [<- ->].
    apply (sim_bind _ _ _ _ (if ok then (t <-s liftS (IFF_print c 0 None) ;; retS (0, t)) else retS (1, EmptyString))
      (if ok then (t <-hs hno_streams (hIFF_print a 0 None) ;; hretS (0, t)) else hretS (1, EmptyString)) _ _ e s2 h1 (fun x y h' => x = y /\ h' = h1)).
    + destruct ok; [|apply sim_ret; auto]. eapply sim_bind; [apply sim_lift; apply sim_agrees; exact (print_at None e h1 c None a F 0 T ND)|].
      intros t t' s3 h3 _ [<- ->]. apply sim_ret. auto.
    + intros r r' s3 h3 _ [<- ->]. eapply sim_bind; [exact (sim_free None no_apps default_none c None a F e s3 h1 TY T ND)|].
      intros u u' s4 h4 _ B2. apply sim_ret. split; [reflexivity|]. exact (becomes_trans _ _ _ _ _ _ B B2).
Qed.

(** ** iffjoin *)

Lemma Typed_no_apps : forall ft ft' c, Typed no_apps ft c -> Typed no_apps ft' c.
Proof.
  intros ft ft' c T. inversion T; subst; [apply Ty_raw; [assumption|reflexivity]|discriminate|apply Ty_group; assumption|apply Ty_list; assumption].
Qed.

Lemma added_shape : forall cat c e w cat' w', IFF_addToCATAndUpdateContentsType cat c e w = Done (cat', w') ->
  (exists i s g l, cat = CGroup i s g l) -> exists s' g' i s g l, cat = CGroup i s g l /\ cat' = CGroup i s' g' (l ++ [c]).
Proof.
  intros cat c e w cat' w' E (i & s & g & l & ->). unfold IFF_addToCATAndUpdateContentsType in E. rewrite bind_eq in E. unfold lift in E.
  destruct (updateContentsType (CGroup i s g l) c) as [c1|u|] eqn:U; try discriminate.
  assert (X : exists g1, c1 = CGroup i s g1 l).
  { unfold updateContentsType in U. destruct (checkValidCATSubChunkId (chunkId c)); [|injection U as <-; eauto].
    cbn [as_group] in U. destruct (as_group c) as [[gt subs]|]; [|discriminate]. destruct (zlength l =? 0); [injection U as <-; cbn; eauto|].
    destruct (_ && _); injection U as <-; cbn; eauto. }
  destruct X as (g1 & ->). unfold IFF_addToGroup in E. rewrite bind_eq in E. unfold IFF_attachToGroup in E. cbn [as_group] in E. rewrite bind_eq in E.
  destruct (malloc _ e w) as [[[] w1]|u|]; try discriminate. unfold ret in E. cbn [set_subs] in E. rewrite bind_eq in E. unfold lift in E.
  destruct (IFF_incrementChunkSize _ _) as [z|u|]; try discriminate. injection E as <- <-. cbn. eauto 10.
Qed.

Lemma sim_grows : forall m hm h p a F c ac Fc e, grows m hm h p a F c ac Fc ->
  simH m hm e h (fun g _ h' => exists F', tree_at h' g p a F' /\ NoDup F' /\ becomes h h' (F ++ Fc) F').
Proof.
  intros m hm h p a F c ac Fc e G w. specialize (G e w). destruct (m e w) as [[g w']|u|]; [|exact G|exact G].
  destruct G as (h' & F' & E & T & ND & B & _). exists tt, h'. split; [exact E|]. exists F'. auto.
Qed.

(** What a finished loop leaves: the chunks added so far, and on an early
    return the chunk that was just read, if it failed its check. *)
Definition join_left (e : env) (s : sys) (h : heap) (inputs : list string) (a : addr) (x : chunk + Z) (y : option Z) (h' : heap) : Prop :=
  match x, y with
  | inl cat, None => exists F, tree_at h' cat None a F /\ NoDup F /\ becomes h h' [] F /\ Typed no_apps 0 cat
  | inr z, Some z' => z = 1 /\ z' = 1 /\ exists good f rest s1 oc s2, inputs = good ++ f :: rest /\
      IFF_readFile f None e s1 = Done (oc, s2) /\
      (usual e -> untouched s s1 /\ Forall (fun g => exists c, accepted e s g c) good) /\
      match oc with
      | None => becomes h h' [] []
      | Some c => (exists s3, no_streams (IFF_check c None) e s2 = Done (false, s3)) /\
          exists b F, tree_at h' c None b F /\ NoDup F /\ becomes h h' [] F
      end
  | _, _ => False
  end.

Lemma sim_join_loop : forall inputs cat a F h0 e s h, tree_at h cat None a F -> NoDup F -> becomes h0 h [] F ->
  Typed no_apps 0 cat -> (exists i s g l, cat = CGroup i s g l) ->
  simS (join_loop inputs cat) (hjoin_loop inputs a) e s h (join_left e s h0 inputs a).
Proof.
  induction inputs as [|f r IH]; intros cat a F h0 e s h T ND B TY SH; cbn [join_loop hjoin_loop].
  - apply sim_ret. exists F. auto.
  - eapply sim_bind; [exact (sim_readFile None no_apps default_none f e s h)|]. intros oc p s1 h1 E1 R.
    destruct oc as [c|], p as [b|]; try contradiction.
    2:{ assert (T1 : tree_at h1 cat None a F) by (apply (tree_frame h); [exact T|]; intros x I; apply (becomes_kept _ _ _ _ _ R); [exact (tree_live _ _ _ _ _ _ T I)|intros []]).
        eapply sim_bind; [exact (sim_free None no_apps default_none cat None a F e s1 h1 TY T1 ND)|]. intros u u' s2 h2 _ B2. apply sim_ret. split; [reflexivity|]. split; [reflexivity|].
        exists [], f, r, s, None, s1. split; [reflexivity|]. split; [exact E1|]. split; [intros _; split; [apply untouched_refl|constructor]|].
        apply (becomes_trans h0 h1 _ [] F); [|exact B2].
        apply (becomes_trans h0 h _ [] F); [exact B|]. pose proof (becomes_frame _ _ _ _ F R) as X. rewrite app_nil_r in X. exact X. }
    destruct R as (Fc & TC & NDC & BC & TYC).
    destruct (becomes_fresh h h1 cat None a F Fc T ND BC NDC) as (T1 & NDB & BF).
    pose proof (becomes_trans _ _ _ _ _ _ B BF) as B1.
    eapply sim_bind; [exact (sim_check None c None b Fc e s1 h1 TC NDC)|]. intros ok ok' s2 h2 E2 [<- ->]. destruct ok.
    + eapply sim_bind; [apply sim_no_streams; eapply sim_grows; exact (addToCAT_at cat c None None a b F Fc h1 T1 TC NDB)|].
      intros cat' u s3 h3 E3 (F' & T3 & ND3 & B3).
      assert (SH' : exists s' g' i s0 g l, cat = CGroup i s0 g l /\ cat' = CGroup i s' g' (l ++ [c])).
      { unfold no_streams, bindS, with_streams in E3. destruct (IFF_addToCATAndUpdateContentsType cat c e _) as [[x w']|v|] eqn:EA; try discriminate.
        injection E3 as <- _. exact (added_shape _ _ _ _ _ _ EA SH). }
      destruct SH' as (s' & g' & i & s0 & g & l & -> & ->).
      eapply sim_weaken; [apply (IH _ a F' h0 e s3 h3 T3 ND3 (becomes_trans _ _ _ _ _ _ B1 B3)); [|eauto]|].
      * inversion TY; subst. apply Ty_group; [assumption|]. intros x I. apply in_app_iff in I. apply (Typed_no_apps 0).
        destruct I as [I|[<-|[]]]; [apply (Typed_no_apps g); auto|assumption].
      * intros x y h' L. destruct x as [x|z], y as [z'|]; try contradiction; [exact L|]. destruct L as (-> & -> & good & f' & rest & s4 & oc & s5 & -> & RD & US & L).
        split; [reflexivity|]. split; [reflexivity|]. exists (f :: good), f', rest, s4, oc, s5. split; [reflexivity|]. split; [exact RD|]. split; [|exact L].
        intro U. destruct (US U) as [UT FA].
        pose proof (readFile_frame e s s f _ _ U eq_refl E1) as [U1 _]. pose proof (no_streams_frame _ _ _ _ _ _ E2) as [U2 _]. pose proof (no_streams_frame _ _ _ _ _ _ E3) as [U3 _].
        assert (US3 : untouched s s3) by (eapply untouched_trans; [exact U1|]; eapply untouched_trans; [exact U2|exact U3]).
        split; [eapply untouched_trans; [exact US3|exact UT]|]. constructor.
        -- exists c. split; [eauto|]. exact (no_streams_indep _ _ e s1 s _ _ U (same_check e e false c None) E2).
        -- eapply Forall_impl; [|exact FA]. intros g0 (c0 & A0). exists c0. apply (accepted_frame e s3 s); [exact U|exact (f_equal (fun x => x g0) (proj1 US3))|exact A0].
    + assert (TC2 : forall h2, becomes h1 h2 F [] -> tree_at h2 c None b Fc).
      { intros h2 X. apply (tree_frame h1); [exact TC|]. intros x I. apply (becomes_kept _ _ _ _ _ X); [exact (tree_live _ _ _ _ _ _ TC I)|].
        intro J. exact (NoDup_app_disjoint _ _ _ _ NDB J I). }
      eapply sim_bind; [exact (sim_free None no_apps default_none cat None a F e s2 h1 TY T1 ND)|]. intros u u' s3 h3 _ B2. apply sim_ret. split; [reflexivity|]. split; [reflexivity|].
      exists [], f, r, s, (Some c), s1. split; [reflexivity|]. split; [exact E1|]. split; [intros _; split; [apply untouched_refl|constructor]|].
      split; [exists s2; exact E2|]. exists b, Fc. split; [exact (TC2 _ B2)|]. split; [exact NDC|].
      apply (becomes_trans h0 h1 _ [] (F ++ Fc)); [exact B1|].
      apply (becomes_equiv _ _ (Fc ++ F) (Fc ++ [])); [apply becomes_frame; exact B2| |]; intro x; rewrite !in_app_iff; cbn; tauto.
Qed.

Lemma sim_createCAT : forall e h, simH IFF_createEmptyCAT hcreateEmptyCAT e h (fun oc p h' =>
  match oc, p with
  | None, None => becomes h h' [] []
  | Some c, Some a => c = CGroup CAT_ID 4 JJJJ_ID [] /\ exists F, tree_at h' c None a F /\ NoDup F /\ becomes h h' [] F
  | _, _ => False
  end).
Proof.
  intros e h w. pose proof (makes_group IFF_ID_CAT IFF_ID_SIZE IFF_ID_JJJJ e w h) as X.
  change (IFF_createEmptyCAT e w) with (IFF_createGroup IFF_ID_CAT IFF_ID_SIZE IFF_ID_JJJJ e w).
  change (hcreateEmptyCAT e w h) with (hcreateGroup IFF_ID_CAT IFF_ID_SIZE IFF_ID_JJJJ e w h).
  destruct (IFF_createGroup IFF_ID_CAT IFF_ID_SIZE IFF_ID_JJJJ e w) as [[[c|] w']|u|] eqn:E; [| |exact X|exact X].
  - destruct X as (a & h' & F & X & T & ND & B). exists (Some a), h'. split; [exact X|]. split; [|exists F; auto].
    unfold IFF_createGroup in E. rewrite bind_eq in E. destruct (malloc _ e w) as [[[] w1]|u|]; try discriminate. injection E as <- _. reflexivity.
  - destruct X as (h' & X & B). exists None, h'. split; [exact X|exact B].
Qed.

(** What joining leaves behind: nothing when all inputs are accepted or when
    the first one that is not accepted cannot be read; else the chunk read from it. *)
Definition join_leaves (e : env) (s : sys) (h : heap) (inputs : list string) (z : Z) (h' : heap) : Prop :=
  (becomes h h' [] [] /\ (usual e -> Forall (fun g => exists c, accepted e s g c) inputs)) \/
  (z = 1 /\ exists good f rest s1 oc s2, inputs = good ++ f :: rest /\
      IFF_readFile f None e s1 = Done (oc, s2) /\
      (usual e -> untouched s s1 /\ Forall (fun g => exists c, accepted e s g c) good) /\
      match oc with
      | None => becomes h h' [] []
      | Some c => (exists s3, no_streams (IFF_check c None) e s2 = Done (false, s3)) /\
          exists b F, tree_at h' c None b F /\ NoDup F /\ becomes h h' [] F
      end).

Lemma sim_join : forall inputs output e s h,
  simS (IFF_join inputs output) (hIFF_join inputs output) e s h (fun x y h' => x = y /\ join_leaves e s h inputs x h').
Proof.
  intros inputs output e s h. unfold IFF_join, hIFF_join. eapply sim_bind; [exact (sim_no_streams _ _ _ _ e s h _ (sim_createCAT e h))|].
  intros oc p s0 h1 E0 R. destruct oc as [cat|], p as [a|]; try contradiction; [|reflexivity]. destruct R as (-> & F & T & ND & B).
  pose proof (proj1 (no_streams_frame _ _ _ _ _ _ E0)) as U0.
  assert (FR : usual e -> forall l, Forall (fun g => exists c, accepted e s0 g c) l -> Forall (fun g => exists c, accepted e s g c) l).
  { intros U l. apply Forall_impl. intros g (c & A). exists c. apply (accepted_frame e s0 s); [exact U|exact (f_equal (fun x => x g) (proj1 U0))|exact A]. }
  eapply sim_bind.
  - apply (sim_join_loop inputs _ a F h e s0 h1 T ND B); [|eauto]. apply Ty_group; [right; left; reflexivity|]. intros c [].
  - intros x y s1 h2 E1 L. destruct x as [cat|z], y as [z'|]; try contradiction.
    + destruct L as (F2 & T2 & ND2 & B2 & TY2). eapply sim_bind; [exact (sim_write None output cat None a F2 e s1 h2 T2 ND2)|].
      intros ok ok' s2 h3 _ [<- ->]. eapply sim_bind; [exact (sim_free None no_apps default_none cat None a F2 e s2 h2 TY2 T2 ND2)|].
      intros u u' s3 h4 _ B4. apply sim_ret. split; [reflexivity|]. left. split; [exact (becomes_trans _ _ _ _ _ _ B2 B4)|].
      intro U. apply (FR U). destruct (loop_result e U _ _ _ _ _ E1) as [_ (cs & F2' & _)]. clear - F2'. induction F2'; constructor; eauto.
    + destruct L as (-> & -> & good & f & rest & s2 & oc & s3 & EI & RD & US & L). apply sim_ret. split; [reflexivity|]. right. split; [reflexivity|].
      exists good, f, rest, s2, oc, s3. split; [exact EI|]. split; [exact RD|]. split; [|exact L].
      intro U. destruct (US U) as [UT FA]. split; [exact (untouched_trans _ _ _ U0 UT)|exact (FR U _ FA)].
Qed.
