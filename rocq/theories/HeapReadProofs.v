(** * Reading into memory: the heap program does what the tree model says,
    leaves the tree in new blocks, and on failure leaves nothing behind *)

From Coq Require Import ZArith List Bool String Lia.
From Coq Require Import Strings.Byte.
From Verif Require Import Machine Io Types Build Read Iff Spec Lemmas IoProofs RegProofs WriteProofs SoundProofs Heap HeapSpec HeapProofs HeapBuildProofs.
Import ListNotations.
Open Scope Z_scope.

Lemma hbind_io : forall A B (m : M A) (k : A -> H B) e w h, hbind (io m) k e w h =
  match m e w with Done (a, w') => k a e w' h | Undefined u => Undefined u | OutOfFuel => OutOfFuel end.
Proof. intros A B m k e w h. unfold hbind, io. destruct (m e w) as [[a w']|u|]; reflexivity. Qed.

Lemma bind_eq : forall A B (m : M A) (k : A -> M B) e w, bind m k e w =
  match m e w with Done (a, w') => k a e w' | Undefined u => Undefined u | OutOfFuel => OutOfFuel end.
Proof. reflexivity. Qed.

Lemma hbind_eq : forall A B (m : H A) (k : A -> H B) e w h, hbind m k e w h =
  match m e w h with Done (a, w', h') => k a e w' h' | Undefined u => Undefined u | OutOfFuel => OutOfFuel end.
Proof. reflexivity. Qed.

Lemma hbind_assoc : forall A B C (m : H A) (k : A -> H B) (k2 : B -> H C) e w h,
  hbind (hbind m k) k2 e w h = hbind m (fun a => hbind (k a) k2) e w h.
Proof. intros A B C m k k2 e w h. unfold hbind. destruct (m e w h) as [[[a w'] h']|u|]; reflexivity. Qed.

(** A chunk made in new blocks does not touch a tree that is there already. *)
Lemma becomes_fresh : forall h h1 c p a F Fc, tree_at h c p a F -> NoDup F -> becomes h h1 [] Fc -> NoDup Fc ->
  tree_at h1 c p a F /\ NoDup (F ++ Fc) /\ becomes h h1 F (F ++ Fc).
Proof.
  intros h h1 c p a F Fc T ND B NDC. split; [|split].
  - apply (tree_frame h); [exact T|]. intros x I. apply (becomes_kept _ _ _ _ _ B); [exact (tree_live _ _ _ _ _ _ T I)|intros []].
  - apply NoDup_app; [exact ND|exact NDC|]. intros x I J. apply (tree_live _ _ _ _ _ _ T I). apply (becomes_new _ _ _ _ _ B J). intros [].
  - apply (becomes_equiv h h1 (F ++ []) (F ++ Fc)); [apply becomes_frame; exact B| |tauto]. intro. rewrite app_nil_r. tauto.
Qed.

Lemma readLong_range : forall i s e w v w', IFF_readLong i s e w = Done (Some v, w') -> in_range FLong v.
Proof.
  intros i s e w v w' E. unfold IFF_readLong, bind, ask, fread in E. cbn [in_range].
  destruct (zlength (ztake 4 (r_rest (w_in w))) =? 4).
  - destruct (big_endian e).
    + unfold ret in E. injection E as <- _. apply (wrap_s_range 32). lia.
    + unfold swap_long in E. destruct (strict_c e && _); [discriminate|]. unfold ret in E. injection E as <- _. apply (wrap_s_range 32). lia.
  - destruct (IFF_readError i s e _) as [[? ?]|?|]; discriminate.
Qed.

Lemma read_fields_kinds : forall ds vals i s bp e w ok vs bp' w', map fst vals = map fd_kind ds ->
  read_fields ds vals i s bp e w = Done (ok, vs, bp', w') -> map fst vs = map fd_kind ds.
Proof.
  induction ds as [|d ds IH]; intros vals i s bp e w ok vs bp' w' K E; destruct vals as [|v vals]; cbn [map] in K; try discriminate;
    cbn [read_fields] in E; [unfold ret in E; injection E as <- <- <- <-; reflexivity|].
  rewrite bind_eq in E. destruct (IFF_readField (fd_kind d) i s (fd_name d) bp e w) as [[[[st ov] bp1] w1]|u|]; try discriminate.
  assert (KS : map fst (v :: vals) = map fd_kind (d :: ds)) by exact K.
  destruct st; [|unfold ret in E; injection E as <- <- <- <-; exact KS|unfold ret in E; injection E as <- <- <- <-; exact KS].
  destruct ov as [x|]; [|unfold ret in E; injection E as <- <- <- <-; exact KS].
  rewrite bind_eq in E. destruct (read_fields ds vals i s bp1 e w1) as [[[[ok2 vs2] bp2] w2]|u|] eqn:E2; try discriminate.
  unfold ret in E. injection E as <- <- <- <-. cbn [map fst]. f_equal. eapply IH; [|exact E2]. congruence.
Qed.

(** How a heap computation that reads the contents of the chunk at [a] relates
    to the tree model *)
Definition fills (m : M (bool * chunk * Z)) (hm : H (bool * Z)) (e : env) (w : world) (h : heap)
    (a : addr) (F : list addr) (P : chunk -> Prop) : Prop :=
  match m e w with
  | Done (ok, c', bp, w') => exists h' F', hm e w h = Done ((ok, bp), w', h') /\
      tree_at h' c' None a F' /\ NoDup F' /\ becomes h h' F F' /\ P c'
  | Undefined u => hm e w h = Undefined u
  | OutOfFuel => hm e w h = OutOfFuel
  end.

(** How reading a whole chunk relates to the tree model *)
Definition reads (app : apps) (ft : Z) (m : M (option chunk)) (hm : H ptr) : Prop := forall e w h,
  match m e w with
  | Done (Some c, w') => exists a h' F, hm e w h = Done (Some a, w', h') /\
      tree_at h' c None a F /\ NoDup F /\ becomes h h' [] F /\ Typed app ft c
  | Done (None, w') => exists h', hm e w h = Done (None, w', h') /\ becomes h h' [] []
  | Undefined u => hm e w h = Undefined u
  | OutOfFuel => hm e w h = OutOfFuel
  end.

Section Reading.
  Variable rg : option registry.
  Variable app : apps.
  Hypothesis RG : Realises rg app.
  Variable rc : Z -> M (option chunk).
  Variable hrc : Z -> H ptr.
  Hypothesis RC : forall g, reads app g (rc g) (hrc g).

  Lemma warn_run : forall (b : bool) what s e w h A (k : H A),
    ((if b then io (truncated_warning what s) else hret tt) ;;h k) e w h =
    match (if b then truncated_warning what s else ret tt) e w with
    | Done (_, w') => k e w' h | Undefined u => Undefined u | OutOfFuel => OutOfFuel end.
  Proof. intros b what s e w h A k. destruct b; [rewrite hbind_io; destruct (truncated_warning what s e w) as [[? ?]|?|]; reflexivity|reflexivity]. Qed.

  Lemma same_after : forall h h1 c p a F, tree_at h c p a F -> becomes h h1 [] [] -> tree_at h1 c p a F /\ becomes h h1 F F.
  Proof.
    intros h h1 c p a F T B. split.
    - apply (tree_frame h); [exact T|]. intros x I. apply (becomes_kept _ _ _ _ _ B); [exact (tree_live _ _ _ _ _ _ T I)|intros []].
    - apply (becomes_equiv h h1 (F ++ []) (F ++ [])); [apply becomes_frame; exact B| |]; intro; rewrite app_nil_r; tauto.
  Qed.

  (** *** The members of a group *)

  Lemma group_members_read : forall i g fuel s l bp h a F e w,
    (forall c, In c l -> Typed app g c) -> tree_at h (CGroup i s g l) None a F -> NoDup F ->
    fills (readGroupSubChunks rc fuel (CGroup i s g l) g bp) (hreadGroupSubChunks hrc fuel a bp) e w h a F
      (fun c' => exists l', c' = CGroup i s g l' /\ (forall c, In c l' -> Typed app g c)).
  Proof.
    intros i g fuel. induction fuel as [|fuel IH]; intros s l bp h a F e w TY T ND; unfold fills;
      pose proof T as T0; cbn [tree_at] in T0; destruct T0 as (arr & la & Fa & Fl & L & _); cbn [readGroupSubChunks hreadGroupSubChunks];
      rewrite (hbind_done _ _ _ _ _ _ _ _ _ _ (hchunk_at _ _ _ _ _ _ L)); cbn [chunkSize o_size type_of]; destruct (bp <? s).
    1: reflexivity.
    2: { rewrite bind_eq, hbind_eq. pose proof (RC g e w h) as R.
         destruct (rc g e w) as [[[c|] w1]|u|]; [| | |].
         - destruct R as (ac & h1 & Fc & E & TC & NDC & B & TYC). rewrite E.
           destruct (becomes_fresh _ _ _ _ _ _ _ T ND B NDC) as (T1 & ND1 & B1).
           pose proof (attach_at (CGroup i s g l) c None None a ac F Fc h1 ltac:(discriminate) T1 TC ND1 e w1) as AT.
           rewrite bind_eq, hbind_eq.
           destruct (IFF_attachToGroup (CGroup i s g l) c e w1) as [[group' w2]|u|] eqn:EA; [|rewrite AT; reflexivity|rewrite AT; reflexivity].
           destruct AT as (h2 & F2 & E2 & T2 & ND2 & B2 & TC2). rewrite E2.
           assert (EG : group' = CGroup i s g (l ++ [c])).
           { unfold IFF_attachToGroup in EA. cbn [as_group] in EA. rewrite bind_eq in EA.
             destruct (malloc _ e w1) as [[ok ?]|?|]; try discriminate. destruct ok; [|discriminate]. unfold ret in EA. injection EA as <- _. reflexivity. }
           subst group'. rewrite bind_eq, hbind_eq. rewrite (increment_at h2 c (Some a) ac Fc bp e w2 TC2). unfold lift, of_outcome.
           destruct (IFF_incrementChunkSize bp c) as [bp1|u|]; [|reflexivity|reflexivity].
           assert (TY2 : forall x, In x (l ++ [c]) -> Typed app g x).
           { intros x I. apply in_app_or in I. destruct I as [I|[<-|[]]]; [apply TY; exact I|exact TYC]. }
           pose proof (IH s (l ++ [c]) bp1 h2 a F2 e w2 TY2 T2 ND2) as R. unfold fills in R.
           destruct (readGroupSubChunks rc fuel (CGroup i s g (l ++ [c])) g bp1 e w2) as [[[[ok c'] bp2] w3]|u|]; [|exact R|exact R].
           destruct R as (h3 & F3 & E3 & T3 & ND3 & B3 & P3). exists h3, F3. split; [exact E3|]. split; [exact T3|]. split; [exact ND3|].
           split; [|exact P3]. exact (becomes_trans _ _ _ _ _ _ B1 (becomes_trans _ _ _ _ _ _ B2 B3)).
         - destruct R as (h1 & E & B). rewrite E. destruct (same_after _ _ _ _ _ _ T B) as (T1 & B1).
           exists h1, F. repeat (split; [first [reflexivity|assumption]|]). exists l. split; [reflexivity|exact TY].
         - rewrite R. reflexivity.
         - rewrite R. reflexivity. }
    all: rewrite warn_run, bind_eq; destruct ((if s <? bp then truncated_warning "group" s else ret tt) e w) as [[[] w1]|u|]; [|reflexivity|reflexivity];
      exists h, F; repeat (split; [first [reflexivity|assumption|apply becomes_refl]|]); exists l; (split; [reflexivity|exact TY]).
  Qed.

  (** *** The members of a list *)

  Lemma list_members_read : forall g fuel s ps l bp h a F e w,
    (forall c, In c ps -> Typed app g c /\ chunkId c = PROP_ID) -> (forall c, In c l -> Typed app g c) ->
    tree_at h (CList LIST_ID s g ps l) None a F -> NoDup F ->
    fills (readListSubChunks rc fuel (CList LIST_ID s g ps l) g bp) (hreadListSubChunks hrc fuel a bp) e w h a F
      (fun c' => exists ps' l', c' = CList LIST_ID s g ps' l' /\
         (forall c, In c ps' -> Typed app g c /\ chunkId c = PROP_ID) /\ (forall c, In c l' -> Typed app g c)).
  Proof.
    intros g fuel. induction fuel as [|fuel IH]; intros s ps l bp h a F e w TP TY T ND; unfold fills;
      pose proof T as T0; cbn [tree_at] in T0; destruct T0 as (arr & la & Fa & Fl & parr & pa & Fb & Fp & L & _);
      cbn [readListSubChunks hreadListSubChunks];
      rewrite (hbind_done _ _ _ _ _ _ _ _ _ _ (hchunk_at _ _ _ _ _ _ L)); cbn [chunkSize o_size type_of]; destruct (bp <? s).
    1: reflexivity.
    2: { rewrite bind_eq, hbind_eq. pose proof (RC g e w h) as R.
         destruct (rc g e w) as [[[c|] w1]|u|]; [| | |].
         - destruct R as (ac & h1 & Fc & E & TC & NDC & B & TYC). rewrite E.
           destruct (becomes_fresh _ _ _ _ _ _ _ T ND B NDC) as (T1 & ND1 & B1).
           destruct (tree_header _ _ _ _ _ TC) as (bc & LC).
           rewrite (hbind_done _ _ _ _ _ _ _ _ _ _ (hchunk_at _ _ _ _ _ _ LC)). cbn [o_id].
           rewrite bind_eq, hbind_eq.
           assert (STEP : match (if chunkId c =? IFF_ID_PROP then addPropToList (CList LIST_ID s g ps l) c
                                 else IFF_attachToGroup (CList LIST_ID s g ps l) c) e w1 with
                          | Done (l', w2) => exists h2 F2,
                              (if chunkId c =? IFF_ID_PROP then hattachProp a ac else hattachToGroup a ac) e w1 h1 = Done (tt, w2, h2) /\
                              tree_at h2 l' None a F2 /\ NoDup F2 /\ becomes h1 h2 (F ++ Fc) F2 /\ tree_at h2 c (Some a) ac Fc /\
                              exists ps' subs', l' = CList LIST_ID s g ps' subs' /\
                                (forall x, In x ps' -> Typed app g x /\ chunkId x = PROP_ID) /\ (forall x, In x subs' -> Typed app g x)
                          | Undefined u => (if chunkId c =? IFF_ID_PROP then hattachProp a ac else hattachToGroup a ac) e w1 h1 = Undefined u
                          | OutOfFuel => (if chunkId c =? IFF_ID_PROP then hattachProp a ac else hattachToGroup a ac) e w1 h1 = OutOfFuel
                          end).
           { destruct (Z.eqb_spec (chunkId c) IFF_ID_PROP) as [EP|NP].
             - pose proof (attachProp_at (CList LIST_ID s g ps l) c None None a ac F Fc h1 ltac:(eauto 6) T1 TC ND1 e w1) as AT.
               destruct (addPropToList (CList LIST_ID s g ps l) c e w1) as [[l' w2]|u|] eqn:EA; [|exact AT|exact AT].
               destruct AT as (h2 & F2 & E2 & T2 & ND2 & B2 & TC2). exists h2, F2. repeat (split; [assumption|]).
               exists (ps ++ [c]), l. split; [|split; [|exact TY]].
               + unfold addPropToList in EA. rewrite bind_eq in EA.
                 destruct (malloc _ e w1) as [[ok ?]|?|]; try discriminate. destruct ok; [|discriminate]. unfold ret in EA. injection EA as <- _. reflexivity.
               + intros x I. apply in_app_or in I. destruct I as [I|[<-|[]]]; [apply TP; exact I|split; [exact TYC|exact EP]].
             - pose proof (attach_at (CList LIST_ID s g ps l) c None None a ac F Fc h1 ltac:(discriminate) T1 TC ND1 e w1) as AT.
               destruct (IFF_attachToGroup (CList LIST_ID s g ps l) c e w1) as [[l' w2]|u|] eqn:EA; [|exact AT|exact AT].
               destruct AT as (h2 & F2 & E2 & T2 & ND2 & B2 & TC2). exists h2, F2. repeat (split; [assumption|]).
               exists ps, (l ++ [c]). split; [|split; [exact TP|]].
               + unfold IFF_attachToGroup in EA. cbn [as_group] in EA. rewrite bind_eq in EA.
                 destruct (malloc _ e w1) as [[ok ?]|?|]; try discriminate. destruct ok; [|discriminate]. unfold ret in EA. injection EA as <- _. reflexivity.
               + intros x I. apply in_app_or in I. destruct I as [I|[<-|[]]]; [apply TY; exact I|exact TYC]. }
           destruct ((if chunkId c =? IFF_ID_PROP then addPropToList (CList LIST_ID s g ps l) c
                                 else IFF_attachToGroup (CList LIST_ID s g ps l) c) e w1) as [[l' w2]|u|]; [|rewrite STEP; reflexivity|rewrite STEP; reflexivity].
           destruct STEP as (h2 & F2 & E2 & T2 & ND2 & B2 & TC2 & ps' & subs' & -> & TP2 & TY2). rewrite E2.
           rewrite bind_eq, hbind_eq. rewrite (increment_at h2 c (Some a) ac Fc bp e w2 TC2). unfold lift, of_outcome.
           destruct (IFF_incrementChunkSize bp c) as [bp1|u|]; [|reflexivity|reflexivity].
           pose proof (IH s ps' subs' bp1 h2 a F2 e w2 TP2 TY2 T2 ND2) as R. unfold fills in R.
           destruct (readListSubChunks rc fuel (CList LIST_ID s g ps' subs') g bp1 e w2) as [[[[ok c'] bp2] w3]|u|]; [|exact R|exact R].
           destruct R as (h3 & F3 & E3 & T3 & ND3 & B3 & P3). exists h3, F3. split; [exact E3|]. split; [exact T3|]. split; [exact ND3|].
           split; [|exact P3]. exact (becomes_trans _ _ _ _ _ _ B1 (becomes_trans _ _ _ _ _ _ B2 B3)).
         - destruct R as (h1 & E & B). rewrite E. destruct (same_after _ _ _ _ _ _ T B) as (T1 & B1).
           exists h1, F. repeat (split; [first [reflexivity|assumption]|]). exists ps, l. split; [reflexivity|split; assumption].
         - rewrite R. reflexivity.
         - rewrite R. reflexivity. }
    all: rewrite warn_run, bind_eq; destruct ((if s <? bp then truncated_warning "LIST" s else ret tt) e w) as [[[] w1]|u|]; [|reflexivity|reflexivity];
      exists h, F; repeat (split; [first [reflexivity|assumption|apply becomes_refl]|]); exists ps, l; (split; [reflexivity|split; assumption]).
  Qed.

  (** *** Bodies *)

  Lemma group_read : forall i fuel s name bp ft h a F e w, In i [FORM_ID; CAT_ID; PROP_ID] ->
    tree_at h (CGroup i s 0 []) None a F -> NoDup F ->
    fills (IFF_readGroup rc fuel (CGroup i s 0 []) name bp) (hreadGroup hrc fuel a name bp) e w h a F (Typed app ft).
  Proof.
    intros i fuel s name bp ft h a F e w HI T ND. unfold fills.
    pose proof T as T0; cbn [tree_at] in T0; destruct T0 as (arr & la & Fa & Fl & L & _).
    unfold IFF_readGroup, hreadGroup. rewrite (hbind_done _ _ _ _ _ _ _ _ _ _ (hchunk_at _ _ _ _ _ _ L)).
    cbn [as_group type_of chunkId chunkSize o_id o_size]. rewrite bind_eq, hbind_io.
    destruct (IFF_readField FId i s name bp e w) as [[[[st og] bp1] w1]|u|]; [|reflexivity|reflexivity].
    assert (STOP : exists h' F', hret (IFF_deriveSuccess st, bp1) e w1 h = Done (IFF_deriveSuccess st, bp1, w1, h') /\
                     tree_at h' (CGroup i s 0 []) None a F' /\ NoDup F' /\ becomes h h' F F' /\ Typed app ft (CGroup i s 0 [])).
    { exists h, F. split; [reflexivity|]. split; [exact T|]. split; [exact ND|]. split; [apply becomes_refl|]. constructor; [exact HI|intros c []]. }
    destruct st; [|exact STOP|exact STOP]. destruct og as [g|]; [|exact STOP]. clear STOP.
    rewrite hbind_eq. rewrite hstore_at by congruence.
    destruct (retype_at h (CGroup i s 0 []) None a F g _ _ ltac:(discriminate) T ND L) as (T1 & B1). cbn [set_groupType] in *.
    set (h1 := store _ _ _) in *.
    pose proof (group_members_read i g fuel s [] bp1 h1 a F e w1 ltac:(intros c []) T1 ND) as R. unfold fills in R.
    destruct (readGroupSubChunks rc fuel (CGroup i s g []) g bp1 e w1) as [[[[ok c'] bp2] w3]|u|]; [|exact R|exact R].
    destruct R as (h3 & F3 & E3 & T3 & ND3 & B3 & l' & -> & TY). exists h3, F3. split; [exact E3|]. split; [exact T3|]. split; [exact ND3|].
    split; [exact (becomes_trans _ _ _ _ _ _ B1 B3)|]. constructor; assumption.
  Qed.

  Lemma list_read : forall fuel s bp ft h a F e w,
    tree_at h (CList LIST_ID s 0 [] []) None a F -> NoDup F ->
    fills (IFF_readList rc fuel (CList LIST_ID s 0 [] []) bp) (hreadList hrc fuel a bp) e w h a F (Typed app ft).
  Proof.
    intros fuel s bp ft h a F e w T ND. unfold fills.
    pose proof T as T0; cbn [tree_at] in T0; destruct T0 as (arr & la & Fa & Fl & parr & pa & Fb & Fp & L & _).
    unfold IFF_readList, hreadList. rewrite (hbind_done _ _ _ _ _ _ _ _ _ _ (hchunk_at _ _ _ _ _ _ L)).
    cbn [chunkId chunkSize o_id o_size]. rewrite bind_eq, hbind_io.
    destruct (IFF_readField FId LIST_ID s "contentsType" bp e w) as [[[[st og] bp1] w1]|u|]; [|reflexivity|reflexivity].
    assert (STOP : exists h' F', hret (IFF_deriveSuccess st, bp1) e w1 h = Done (IFF_deriveSuccess st, bp1, w1, h') /\
                     tree_at h' (CList LIST_ID s 0 [] []) None a F' /\ NoDup F' /\ becomes h h' F F' /\ Typed app ft (CList LIST_ID s 0 [] [])).
    { exists h, F. split; [reflexivity|]. split; [exact T|]. split; [exact ND|]. split; [apply becomes_refl|]. constructor; intros c []. }
    destruct st; [|exact STOP|exact STOP]. destruct og as [g|]; [|exact STOP]. clear STOP.
    rewrite hbind_eq. rewrite hstore_at by congruence.
    destruct (retype_at h (CList LIST_ID s 0 [] []) None a F g _ _ ltac:(discriminate) T ND L) as (T1 & B1). cbn [set_groupType] in *.
    set (h1 := store _ _ _) in *.
    pose proof (list_members_read g fuel s [] [] bp1 h1 a F e w1 ltac:(intros c []) ltac:(intros c []) T1 ND) as R. unfold fills in R.
    rewrite bind_eq, hbind_eq.
    destruct (readListSubChunks rc fuel (CList LIST_ID s g [] []) g bp1 e w1) as [[[[ok c'] bp2] w3]|u|]; [|rewrite R; reflexivity|rewrite R; reflexivity].
    destruct R as (h3 & F3 & E3 & T3 & ND3 & B3 & ps' & l' & -> & TP & TY). rewrite E3.
    assert (TT : Typed app ft (CList LIST_ID s g ps' l')) by (constructor; assumption).
    pose proof (becomes_trans _ _ _ _ _ _ B1 B3) as B13.
    destruct ok.
    - exists h3, F3. repeat (split; [first [reflexivity|assumption]|]). exact TT.
    - rewrite bind_eq, hbind_io. destruct (IFF_error _ e w3) as [[_ w4]|u|]; [|reflexivity|reflexivity].
      exists h3, F3. repeat (split; [first [reflexivity|assumption]|]). exact TT.
  Qed.

  Lemma raw_read : forall i s bp ft h a F e w, in_range FLong s -> ~ In i group_ids -> app ft i = None ->
    tree_at h (CRaw i s None) None a F -> NoDup F ->
    fills (IFF_readRawChunk (CRaw i s None) bp) (hreadRawChunk a bp) e w h a F (Typed app ft).
  Proof.
    intros i s bp ft h a F e w R NG A T ND. unfold fills.
    cbn [tree_at] in T. destruct T as (b & size & L & LD & D & EF). cbn [data_fits] in D. destruct D as (-> & S0).
    assert (EN : wrap_u (size_t_bits e) s = s).
    { cbn [in_range] in R. unfold wrap_u, size_t_bits. destruct (lp64 e); apply Z.mod_small; cbn; lia. }
    unfold IFF_readRawChunk, hreadRawChunk. rewrite bind_eq, hbind_io. unfold ask.
    rewrite (hbind_done _ _ _ _ _ _ _ _ _ _ (hchunk_at _ _ _ _ _ _ L)). cbn [o_size o_id]. cbv zeta. rewrite EN.
    rewrite hbind_eq. unfold hload. rewrite LD. rewrite (proj2 (Z.ltb_ge s s)) by lia.
    rewrite bind_eq, hbind_io. unfold fread. set (l := ztake s _). set (w1 := set_in _ _).
    assert (TY : forall d, Typed app ft (CRaw i s d)) by (intro; constructor; assumption).
    destruct (Z.ltb_spec (zlength l) s) as [SH|LG].
    - rewrite hbind_io, !bind_eq. destruct (IFF_error "Error reading raw chunk body of chunk: '" e w1) as [[_ w2]|u|]; [|reflexivity|reflexivity].
      rewrite !bind_eq. destruct (IFF_errorId i e w2) as [[_ w3]|u|]; [|reflexivity|reflexivity].
      rewrite !bind_eq. destruct (IFF_error ("'" ++ nl) e w3) as [[_ w4]|u|]; [|reflexivity|reflexivity].
      exists h, F. split; [reflexivity|]. split; [|split; [exact ND|split; [apply becomes_refl|apply TY]]].
      cbn [tree_at]. exists b, s. repeat (split; [first [assumption|split; [reflexivity|assumption]]|]). exact EF.
    - rewrite hbind_eq, hstore_at by congruence.
      destruct (INT_MAX <? bp + s); [reflexivity|].
      assert (NE : b <> a).
      { subst F. inversion ND as [|? ? NI _]; subst. intros ->. apply NI. left. reflexivity. }
      assert (ZL : zlength l = s).
      { unfold l in *. rewrite zlength_ztake in *. lia. }
      eexists _, F. split; [reflexivity|]. split; [|split; [exact ND|split; [|apply TY]]].
      + cbn [tree_at]. exists b, s. split; [rewrite lookup_store by congruence; rewrite (proj2 (Nat.eqb_neq a b)) by auto; exact L|].
        split; [rewrite lookup_store by congruence; rewrite Nat.eqb_refl; reflexivity|]. split; [cbn; lia|exact EF].
      + apply becomes_store; [congruence|]. rewrite EF. right. left. reflexivity.
  Qed.

  Lemma fields_read : forall sp i s vals bp ft h a F e w, ~ In i group_ids -> app ft i = Some sp -> kinds_match sp vals ->
    tree_at h (CFields i s vals) None a F -> NoDup F ->
    fills (read_fields_chunk sp (CFields i s vals) bp) (hread_fields_chunk sp a bp) e w h a F (Typed app ft).
  Proof.
    intros sp i s vals bp ft h a F e w NG A K T ND. unfold fills.
    cbn [tree_at] in T. destruct T as (L & EF). unfold read_fields_chunk, hread_fields_chunk.
    rewrite (hbind_done _ _ _ _ _ _ _ _ _ _ (hchunk_at _ _ _ _ _ _ L)). rewrite (kinds_match_eqb _ _ K).
    rewrite bind_eq, hbind_io. cbn [o_id o_size].
    destruct (read_fields (fs_fields sp) vals i s bp e w) as [[[[ok vs] bp1] w1]|u|] eqn:E; [|reflexivity|reflexivity].
    rewrite hbind_eq, hstore_at by congruence.
    eexists _, F. split; [reflexivity|]. split; [|split; [exact ND|split; [|apply (Ty_fields app ft i s sp); try assumption]]].
    - cbn [tree_at]. split; [rewrite lookup_store by congruence; rewrite Nat.eqb_refl; reflexivity|exact EF].
    - apply becomes_store; [congruence|]. rewrite EF. left. reflexivity.
    - exact (read_fields_kinds _ _ _ _ _ _ _ _ _ _ _ K E).
  Qed.

  (** *** Whole chunks *)

  Lemma body_read : forall fuel i s ft, in_range FLong s ->
    reads app ft (readChunkBody rc rg fuel i s ft) (hreadChunkBody hrc rg fuel i s ft).
  Proof.
    intros fuel i s ft R e w h. unfold readChunkBody, hreadChunkBody, hlift. rewrite bind_eq, hbind_io. unfold lift. rewrite RG.
    set (k := expected_handler app ft i).
    rewrite bind_eq, hbind_eq. pose proof (makes_extension k i s R e w h) as MK.
    destruct (createExtensionChunk k i s e w) as [[[c|] w1]|u|] eqn:EC; [|destruct MK as (h1 & E & B); rewrite E; exists h1; split; [reflexivity|exact B]|rewrite MK; reflexivity|rewrite MK; reflexivity].
    destruct MK as (a & h1 & F & E & T & ND & B). rewrite E. clear E.
    assert (FI : fills (readExtensionChunkFields rc fuel k c 0) (hreadExtensionChunkFields hrc fuel k a 0) e w1 h1 a F (Typed app ft)).
    { destruct (id_cases i) as [GI|[LI|DI]].
      - destruct (WriteProofs.group_handler app ft i GI) as (k' & EK & HK). fold k in EK. subst k'.
        assert (c = CGroup i s 0 []).
        { destruct HK as [<-|[<-|[<-|[]]]]; cbn [createExtensionChunk] in EC; unfold IFF_createUnparsedGroup, IFF_createGroup in EC;
            rewrite bind_eq in EC; (destruct (malloc sizeof_Group e w) as [[ok ?]|?|]; [|discriminate|discriminate]); unfold ret in EC; destruct ok; congruence. }
        subst c. destruct HK as [<-|[<-|[<-|[]]]]; cbn [readExtensionChunkFields hreadExtensionChunkFields]; apply group_read; assumption.
      - subst i. assert (EK : k = HList) by reflexivity. rewrite EK in *. cbn [createExtensionChunk] in EC. unfold IFF_createUnparsedList, IFF_createList in EC.
        rewrite bind_eq in EC. destruct (malloc sizeof_List e w) as [[ok ?]|?|]; [|discriminate|discriminate]. unfold ret in EC. destruct ok; [|discriminate].
        injection EC as <- <-. apply list_read; assumption.
      - assert (EK : k = match app ft i with Some sp => HFields sp | None => HRaw end) by (apply handler_data; exact DI). rewrite EK in *. clear EK.
        destruct (app ft i) as [sp|] eqn:A; cbn [createExtensionChunk readExtensionChunkFields hreadExtensionChunkFields] in *.
        + unfold create_fields in EC. rewrite bind_eq in EC. destruct (malloc _ e w) as [[ok ?]|?|]; [|discriminate|discriminate]. unfold ret in EC. destruct ok; [|discriminate].
          injection EC as <- <-. apply fields_read; try assumption. unfold kinds_match. rewrite map_map. reflexivity.
        + unfold IFF_createRawChunk in EC. rewrite bind_eq in EC. unfold ask in EC. rewrite bind_eq in EC.
          destruct (malloc sizeof_RawChunk e w) as [[[] ?]|?|]; [|discriminate|discriminate|discriminate]. rewrite bind_eq in EC.
          destruct (malloc _ e _) as [[[] ?]|?|]; [|discriminate|discriminate|discriminate]. unfold ret in EC. injection EC as <- <-.
          apply raw_read; assumption. }
    unfold fills in FI. rewrite bind_eq, hbind_eq. clear EC.
    destruct (readExtensionChunkFields rc fuel k c 0 e w1) as [[[[ok c1] bp] w2]|u|]; [|rewrite FI; reflexivity|rewrite FI; reflexivity].
    destruct FI as (h2 & F2 & E & T2 & ND2 & B2 & TY). rewrite E. clear E.
    destruct (tree_header _ _ _ _ _ T2) as (b & L). rewrite (hbind_done _ _ _ _ _ _ _ _ _ _ (hchunk_at _ _ _ _ _ _ L)). cbn [o_id].
    rewrite bind_eq, hbind_io.
    destruct (andM (ret ok) (andM (IFF_skipUnknownBytes (chunkId c1) s bp) (IFF_readPaddingByte s (chunkId c1))) e w2) as [[[] w3]|u|]; [| |reflexivity|reflexivity].
    - exists a, h2, F2. split; [reflexivity|]. split; [exact T2|]. split; [exact ND2|]. split; [exact (becomes_trans _ _ _ _ _ _ B B2)|exact TY].
    - rewrite bind_eq, hbind_eq. rewrite (free_typed rg app RG c1 ft TY).
      destruct (freeTree_at rg app RG c1 ft None a F2 h2 e w3 TY T2 ND2) as (h3 & E & B3). rewrite E. exists h3. split; [reflexivity|].
      exact (becomes_trans _ _ _ _ _ _ (becomes_trans _ _ _ _ _ _ B B2) B3).
  Qed.
End Reading.

Theorem chunk_read : forall rg app, Realises rg app -> forall fuel ft,
  reads app ft (IFF_readChunk rg fuel ft) (hreadChunk rg fuel ft).
Proof.
  intros rg app RG. induction fuel as [|fuel IH]; intros ft e w h; cbn [IFF_readChunk hreadChunk]; [reflexivity|].
  rewrite bind_eq, hbind_io. destruct (IFF_readId ID_EMPTY "" e w) as [[[i|] w1]|u|]; [| |reflexivity|reflexivity].
  - rewrite bind_eq, hbind_io. destruct (IFF_readLong i "chunkSize" e w1) as [[[s|] w2]|u|] eqn:EL; [| |reflexivity|reflexivity].
    + apply (body_read rg app RG (IFF_readChunk rg fuel) (hreadChunk rg fuel) IH). exact (readLong_range _ _ _ _ _ _ EL).
    + exists h. split; [reflexivity|apply becomes_refl].
  - exists h. split; [reflexivity|apply becomes_refl].
Qed.

Theorem readFd_at : forall rg app, Realises (selectChunkRegistry rg) app ->
  reads app 0 (IFF_readFd rg) (hIFF_readFd rg).
Proof.
  intros rg app RG e w h. unfold hIFF_readFd.
  assert (X : IFF_readFd rg e w = (oc <- IFF_readChunk (selectChunkRegistry rg) (S (List.length (r_rest (w_in w)))) 0 ;;
     match oc with
     | None => IFF_error ("ERROR: cannot open main chunk!" ++ nl)%string ;;; ret None
     | Some c =>
         ob <- fgetc ;;
         match ob with
         | None => ret (Some c)
         | Some b =>
             IFF_error ("WARNING: Trailing IFF contents found: " ++ dec (b2z b) ++ "!" ++ nl)%string ;;;
             ret (Some c)
         end
     end) e w) by reflexivity.
  rewrite X. clear X. rewrite bind_eq, hbind_eq.
  pose proof (chunk_read (selectChunkRegistry rg) app RG (S (List.length (r_rest (w_in w)))) 0 e w h) as R.
  destruct (IFF_readChunk (selectChunkRegistry rg) (S (List.length (r_rest (w_in w)))) 0 e w) as [[[c|] w1]|u|]; [| |rewrite R; reflexivity|rewrite R; reflexivity].
  - destruct R as (a & h1 & F & E & T & ND & B & TY). rewrite E. clear E. rewrite bind_eq, hbind_io.
    destruct (fgetc e w1) as [[[b|] w2]|u|]; [| |reflexivity|reflexivity].
    + rewrite bind_eq, hbind_io. destruct (IFF_error _ e w2) as [[_ w3]|u|]; [|reflexivity|reflexivity].
      exists a, h1, F. split; [reflexivity|]. repeat (split; [assumption|]). exact TY.
    + exists a, h1, F. split; [reflexivity|]. repeat (split; [assumption|]). exact TY.
  - destruct R as (h1 & E & B). rewrite E. rewrite bind_eq, hbind_io.
    destruct (IFF_error _ e w1) as [[_ w3]|u|]; [|reflexivity|reflexivity]. exists h1. split; [reflexivity|exact B].
Qed.
