(** * Searches in memory find what searches on values find *)

From Coq Require Import ZArith List Bool String Lia.
From Coq Require Import Strings.Byte.
From Verif Require Import Machine Io Types Build Read Search Spec Lemmas IoProofs
  Heap HeapSpec HeapProofs HeapBuildProofs HeapReadProofs HeapAddProofs HeapReachProofs HeapPathProofs HeapSearch HeapUpdateProofs HeapLookupProofs SessionSpec.
Import ListNotations.
Open Scope Z_scope.

(** [b] is the address of [y], all of whose blocks are among [F] *)
Definition shown (h : heap) (F : list addr) (y : chunk) (b : addr) : Prop :=
  exists pb Fb, tree_at h y pb b Fb /\ incl Fb F.

Lemma shown_frame : forall h h' F y b, shown h F y b -> (forall u, In u F -> lookup h' u = lookup h u) -> shown h' F y b.
Proof. intros h h' F y b (pb & Fb & T & I) K. exists pb, Fb. split; [|exact I]. apply (tree_frame h); [exact T|]. intros u J. apply K, I, J. Qed.
Lemma shown_incl : forall h F G y b, shown h F y b -> incl F G -> shown h G y b.
Proof. intros h F G y b (pb & Fb & T & I) J. exists pb, Fb. split; [exact T|]. exact (incl_tran I J). Qed.

(** A search in memory [hm] does what the search [m] on values does: the array it
    returns holds the addresses of the chunks found; besides it only blocks that
    nobody points at have come into being. *)
Definition finds (h : heap) (F : list addr) (e : env) (m : outcome (list chunk * world)) (hm : outcome ((ptr * nat) * world * heap)) : Prop :=
  match m with
  | Done (l, w') => exists arr la Fa L h', hm = Done ((arr, List.length la), w', h') /\
      array_at h' arr la Fa /\ Forall2 (shown h F) l la /\ becomes h h' [] (Fa ++ L)
  | Undefined u => hm = Undefined u
  | OutOfFuel => False
  end.

Lemma F2_len : forall A B (R : A -> B -> Prop) l m, Forall2 R l m -> List.length l = List.length m.
Proof. intros A B R l m F. induction F; cbn; congruence. Qed.

(** ** Merging *)

Lemma merge_sim : forall h t lt la Fa s ls lb Fs R e w, array_at h t la Fa -> array_at h s lb Fs -> (forall x, In x Fa -> In x Fs -> False) ->
  Forall2 R lt la -> Forall2 R ls lb ->
  match vmerge lt ls e w with
  | Done (l, w') => exists arr lc Fn h', hmergeFormArray t (List.length la) s (List.length lb) e w h = Done ((arr, List.length lc), w', h') /\
      array_at h' arr lc Fn /\ Forall2 R l lc /\ becomes h h' Fa Fn
  | Undefined u => hmergeFormArray t (List.length la) s (List.length lb) e w h = Undefined u
  | OutOfFuel => False
  end.
Proof.
  intros h t lt la Fa s ls lb Fs R e w A AS DJ RT RS. unfold vmerge, hmergeFormArray. rewrite (hbind_done _ _ _ _ _ _ _ _ _ _ (helements_at _ _ _ _ _ _ A)).
  rewrite (F2_len _ _ _ _ _ RT), (F2_len _ _ _ _ _ RS). rewrite bind_eq, hbind_io. destruct (malloc_run (Z.of_nat (List.length la + List.length lb) * sizeof_pointer) e w) as (ok & w1 & M & _). rewrite M.
  destruct (hfree_array h t la Fa e w1 A) as (h1 & E1 & B1). destruct ok.
  - rewrite (hbind_done _ _ _ _ _ _ _ _ _ _ E1).
    assert (AS1 : array_at h1 s lb Fs) by (apply (array_frame h); [exact AS|]; intros x I; apply (becomes_kept _ _ _ _ _ B1); [exact (array_live _ _ _ _ _ AS I)|]; intro J; exact (DJ x J I)).
    rewrite (hbind_done _ _ _ _ _ _ _ _ _ _ (helements_at _ _ _ _ _ _ AS1)). unfold ret. set (q := address e w1 h1). exists (Some q), (la ++ lb), [q]. eexists.
    rewrite app_length. split; [reflexivity|]. split; [right; exists q; split; [reflexivity|]; split; [unfold q; rewrite lookup_new, Nat.eqb_refl; reflexivity|reflexivity]|].
    split; [apply Forall2_app; assumption|]. apply (becomes_trans _ h1 _ _ []); [exact B1|apply becomes_alloc].
  - destruct (List.length la + List.length lb)%nat as [|m] eqn:EN; [|reflexivity]. rewrite (hbind_done _ _ _ _ _ _ _ _ _ _ E1). unfold ret.
    destruct la; [|discriminate EN]. destruct lb; [|discriminate EN]. exists None, [], [], h1. split; [reflexivity|]. split; [left; split; [reflexivity|]; split; reflexivity|]. split; [constructor|exact B1].
Qed.

(** ** Searching *)

Lemma all_sim : forall vs hs G h, (forall u, In u G -> lookup h u <> None) -> forall l pg la Fl, trees_at (tree_at h) l pg la Fl -> incl Fl G ->
  (forall x b Fx h e w, In x l -> tree_at h x pg b Fx -> finds h Fx e (vs x e w) (hs b e w h)) ->
  forall lt acc lacc Facc h1 L e w, array_at h1 acc lacc Facc -> Forall2 (shown h G) lt lacc -> becomes h h1 [] (Facc ++ L) ->
  match vsearch_all vs l lt e w with
  | Done (r, w') => exists arr lr Fa L' h', hsearch_all hs la acc (List.length lacc) e w h1 = Done ((arr, List.length lr), w', h') /\
      array_at h' arr lr Fa /\ Forall2 (shown h G) r lr /\ becomes h h' [] (Fa ++ L')
  | Undefined u => hsearch_all hs la acc (List.length lacc) e w h1 = Undefined u
  | OutOfFuel => False
  end.
Proof.
  intros vs hs G h LV. induction l as [|y l IH]; intros pg la Fl T IN SC lt acc lacc Facc h1 L e w A SH B; destruct la as [|b la]; cbn [trees_at] in T; try contradiction.
  - cbn [vsearch_all hsearch_all]. unfold ret, hret. exists acc, lacc, Facc, L, h1. auto.
  - destruct T as (F1 & F2 & T1 & T2 & ->). cbn [vsearch_all hsearch_all]. rewrite bind_eq, hbind_eq.
    assert (KEEP : forall u, In u G -> lookup h1 u = lookup h u) by (intros u I; apply (becomes_kept _ _ _ _ _ B (LV u I)); intros []).
    assert (IN1 : incl F1 G) by (intros u I; apply IN, in_or_app; left; exact I).
    assert (T1' : tree_at h1 y pg b F1) by (apply (tree_frame h); [exact T1|]; intros u I; apply KEEP, IN1, I).
    pose proof (SC y b F1 h1 e w (or_introl eq_refl) T1') as R. unfold finds in R. destruct (vs y e w) as [[ly w1]|u|]; [|rewrite R; reflexivity|contradiction].
    destruct R as (arr1 & la1 & Fa1 & L1 & h2 & -> & A1 & SH1 & B1). rewrite bind_eq, hbind_eq.
    assert (SH1' : Forall2 (shown h G) ly la1).
    { clear -SH1 KEEP IN1. induction SH1 as [|z d l0 l1 S1 S2 IHS]; constructor; [|exact IHS]. apply (shown_incl h F1); [|exact IN1]. apply (shown_frame h1); [exact S1|]. intros u I. symmetry. apply KEEP, IN1, I. }
    assert (KA : forall u, In u (Facc ++ L) -> In u Facc -> lookup h2 u = lookup h1 u) by (intros u _ I; apply (becomes_kept _ _ _ _ _ B1); [exact (array_live _ _ _ _ _ A I)|intros []]).
    assert (A2 : array_at h2 acc lacc Facc) by (apply (array_frame h1); [exact A|]; intros u I; apply KA; [apply in_or_app; left|]; exact I).
    assert (NEW1 : forall u, In u (Fa1 ++ L1) -> lookup h1 u = None) by (intros u I; apply (becomes_new _ _ _ _ _ B1 I); intros []).
    assert (DJM : forall u, In u Facc -> In u Fa1 -> False) by (intros u I J; apply (array_live _ _ _ _ _ A I); apply NEW1, in_or_app; left; exact J).
    pose proof (merge_sim h2 acc lt lacc Facc arr1 ly la1 Fa1 (shown h G) e w1 A2 A1 DJM SH SH1') as R. destruct (vmerge lt ly e w1) as [[lm w2]|u|]; [|rewrite R; reflexivity|contradiction].
    destruct R as (arr3 & lc & Fn & h3 & -> & A3 & SH3 & B3).
    assert (B13 : becomes h h3 [] (Fn ++ (Fa1 ++ L1 ++ L))).
    { assert (X1 : becomes h1 h2 (Facc ++ L) (Facc ++ (Fa1 ++ L1 ++ L))).
      { apply (becomes_equiv _ _ ((Facc ++ L) ++ []) ((Facc ++ L) ++ (Fa1 ++ L1))); [apply becomes_frame; exact B1| |]; intro x; rewrite !in_app_iff; cbn [In]; tauto. }
      assert (X2 : becomes h2 h3 (Facc ++ (Fa1 ++ L1 ++ L)) (Fn ++ (Fa1 ++ L1 ++ L))).
      { apply (becomes_equiv _ _ ((Fa1 ++ L1 ++ L) ++ Facc) ((Fa1 ++ L1 ++ L) ++ Fn)); [apply becomes_frame; exact B3| |]; intro x; rewrite !in_app_iff; tauto. }
      exact (becomes_trans _ _ _ _ _ _ B (becomes_trans _ _ _ _ _ _ X1 X2)). }
    exact (IH pg la F2 T2 (fun u I => IN u (in_or_app _ _ _ (or_intror I))) (fun x b Fx h e w I => SC x b Fx h e w (or_intror I)) lm arr3 lc Fn h3 (Fa1 ++ L1 ++ L) e w2 A3 SH3 B13).
Qed.

(** A group whose members are searched *)
Lemma group_sim : forall vs hs c g l p a F h e w, tree_at h c p a F -> as_group c = Some (g, l) ->
  (forall x b p Fx h e w, In x l -> tree_at h x p b Fx -> finds h Fx e (vs x e w) (hs b e w h)) ->
  finds h F e (vsearch_all vs l [] e w) (hsearchFormsInGroup hs a e w h).
Proof.
  intros vs hs c g l p a F h e w T AG SC. unfold hsearchFormsInGroup.
  assert (X : exists hd b arr la Fa Fl, lookup h a = Some (OChunk hd b) /\
     (match b with BGroup _ n arr | BList _ n arr _ _ => l <-h helements arr n ;; hsearch_all hs l None 0 | _ => hundefined UB_type_confusion end) = (l <-h helements arr (List.length la) ;; hsearch_all hs l None 0) /\
     array_at h arr la Fa /\ trees_at (tree_at h) l (Some a) la Fl /\ incl Fl F).
  { destruct c as [i s d|i s t l'|i s t ps l'|i s v]; try discriminate AG; injection AG as -> ->; cbn [tree_at] in T.
    - destruct T as (arr & la & Fa & Fl & L & A & TT & ->). do 2 eexists. exists arr, la, Fa, Fl. split; [exact L|]. split; [reflexivity|]. split; [exact A|]. split; [exact TT|].
      intros u I. right. apply in_or_app. right. exact I.
    - destruct T as (arr & la & Fa & Fl & parr & pa & Fb & Fp & L & A & TT & _ & _ & ->). do 2 eexists. exists arr, la, Fa, Fl. split; [exact L|]. split; [reflexivity|]. split; [exact A|]. split; [exact TT|].
      intros u I. right. rewrite !in_app_iff. tauto. }
  destruct X as (hd & b & arr & la & Fa & Fl & L & EQ & A & TT & IN). rewrite (hbind_done _ _ _ _ _ _ _ _ _ _ (hchunk_at _ _ _ _ _ _ L)). rewrite EQ.
  rewrite (hbind_done _ _ _ _ _ _ _ _ _ _ (helements_at _ _ _ _ _ _ A)).
  exact (all_sim vs hs F h (fun u I => tree_live _ _ _ _ _ _ T I) l (Some a) la Fl TT IN (fun x b Fx h e w I => SC x b (Some a) Fx h e w I) [] None [] [] h [] e w
    (or_introl (conj eq_refl (conj eq_refl eq_refl))) (Forall2_nil _) (becomes_refl h [])).
Qed.

Lemma nothing_sim : forall h F e w, finds h F e (ret [] e w) (hret (None, 0%nat) e w h).
Proof.
  intros h F e w. unfold finds, ret, hret. exists None, [], [], [], h. split; [reflexivity|]. split; [left; split; [reflexivity|split; reflexivity]|]. split; [constructor|apply becomes_refl].
Qed.
Lemma wrong_sim : forall h F e w u, finds h F e (undefined u e w) (hundefined u e w h).
Proof. intros. reflexivity. Qed.

Theorem search_sim : forall types c p a F h e w fuel, tree_at h c p a F -> (height c <= fuel)%nat ->
  finds h F e (vsearchFormsFromArray types c e w) (hsearchFormsFromArray fuel types a e w h).
Proof.
  intros types c. induction c as [i s d|i s g subs IH|i s g props subs IHp IHs|i s vals] using chunk_tree_ind; intros p a F h e w fuel T HF;
    (destruct fuel as [|fuel]; [cbn [height] in HF; lia|]); cbn [hsearchFormsFromArray vsearchFormsFromArray]; destruct (tree_header _ _ _ _ _ T) as (b & L);
    rewrite (hbind_done _ _ _ _ _ _ _ _ _ _ (hchunk_at _ _ _ _ _ _ L)); cbn [o_id].
  - destruct (chunkId _ =? IFF_ID_FORM); [|destruct (_ =? IFF_ID_CAT); [|destruct (_ =? IFF_ID_LIST); [|apply nothing_sim]]];
      cbn [vsearchFormsInForm vsearchFormsInGroup]; unfold hsearchFormsInForm, hsearchFormsInGroup;
      rewrite (hbind_done _ _ _ _ _ _ _ _ _ _ (hchunk_at _ _ _ _ _ _ L)); cbn [tree_at] in T; destruct T as (? & ? & L' & _); rewrite L' in L; injection L as <-; reflexivity.
  - assert (SUB : forall x b p Fx h e w, In x subs -> tree_at h x p b Fx -> finds h Fx e (vsearchFormsFromArray types x e w) (hsearchFormsFromArray fuel types b e w h)).
    { intros x b0 p0 Fx h0 e0 w0 I TX. apply (IH x I p0 b0 Fx); [exact TX|]. cbn [height] in HF. pose proof (height_member _ _ I). lia. }
    pose proof (fun w => group_sim (vsearchFormsFromArray types) (hsearchFormsFromArray fuel types) _ g subs p a F h e w T eq_refl SUB) as GO.
    destruct (chunkId _ =? IFF_ID_FORM); [|destruct (_ =? IFF_ID_CAT); [apply GO|destruct (_ =? IFF_ID_LIST); [apply GO|apply nothing_sim]]].
    cbn [vsearchFormsInForm]. unfold hsearchFormsInForm. rewrite (hbind_done _ _ _ _ _ _ _ _ _ _ (hchunk_at _ _ _ _ _ _ L)). rewrite (tree_type_of _ _ _ _ _ _ _ T L). cbn [as_group].
    destruct (existsb (fun formType => g =? formType) types); [|apply GO].
    unfold finds. rewrite bind_eq, hbind_eq. destruct (hmalloc_run sizeof_pointer (OArray [a]) e w h) as (ok & w1 & M & _ & R). rewrite M. destruct ok; rewrite R; [|reflexivity]. unfold ret, hret.
    exists (Some (address e w1 h)), [a], [address e w1 h], []. eexists. split; [reflexivity|]. split; [right; eexists; split; [reflexivity|]; split; [rewrite lookup_new, Nat.eqb_refl; reflexivity|reflexivity]|].
    split; [constructor; [|constructor]; exists p, F; split; [exact T|apply incl_refl]|]. cbn [app]. apply becomes_alloc.
  - assert (SUB : forall x b p Fx h e w, In x subs -> tree_at h x p b Fx -> finds h Fx e (vsearchFormsFromArray types x e w) (hsearchFormsFromArray fuel types b e w h)).
    { intros x b0 p0 Fx h0 e0 w0 I TX. apply (IHs x I p0 b0 Fx); [exact TX|]. cbn [height] in HF. pose proof (height_member _ _ I). lia. }
    pose proof (fun w => group_sim (vsearchFormsFromArray types) (hsearchFormsFromArray fuel types) _ g subs p a F h e w T eq_refl SUB) as GO.
    destruct (chunkId _ =? IFF_ID_FORM); [|destruct (_ =? IFF_ID_CAT); [apply GO|destruct (_ =? IFF_ID_LIST); [apply GO|apply nothing_sim]]].
    cbn [vsearchFormsInForm]. unfold hsearchFormsInForm. rewrite (hbind_done _ _ _ _ _ _ _ _ _ _ (hchunk_at _ _ _ _ _ _ L)). rewrite (tree_type_of _ _ _ _ _ _ _ T L). cbn [as_group].
    destruct (existsb (fun formType => g =? formType) types); [|apply GO].
    unfold finds. rewrite bind_eq, hbind_eq. destruct (hmalloc_run sizeof_pointer (OArray [a]) e w h) as (ok & w1 & M & _ & R). rewrite M. destruct ok; rewrite R; [|reflexivity]. unfold ret, hret.
    exists (Some (address e w1 h)), [a], [address e w1 h], []. eexists. split; [reflexivity|]. split; [right; eexists; split; [reflexivity|]; split; [rewrite lookup_new, Nat.eqb_refl; reflexivity|reflexivity]|].
    split; [constructor; [|constructor]; exists p, F; split; [exact T|apply incl_refl]|]. cbn [app]. apply becomes_alloc.
  - destruct (chunkId _ =? IFF_ID_FORM); [|destruct (_ =? IFF_ID_CAT); [|destruct (_ =? IFF_ID_LIST); [|apply nothing_sim]]];
      cbn [vsearchFormsInForm vsearchFormsInGroup]; unfold hsearchFormsInForm, hsearchFormsInGroup;
      rewrite (hbind_done _ _ _ _ _ _ _ _ _ _ (hchunk_at _ _ _ _ _ _ L)); cbn [tree_at] in T; destruct T as (L' & _); rewrite L' in L; injection L as <-; reflexivity.
Qed.

(** ** IFF_getChunksFromForm *)

Lemma with_id_sim : forall cid G h, (forall u, In u G -> lookup h u <> None) -> forall l pg la Fl, trees_at (tree_at h) l pg la Fl -> incl Fl G ->
  forall lt acc lacc Facc h1 e w, array_at h1 acc lacc Facc -> Forall2 (shown h G) lt lacc -> becomes h h1 [] Facc ->
  match vall_with_id cid l lt e w with
  | Done (r, w') => exists arr lr Fa h', hall_with_id cid la acc (List.length lacc) e w h1 = Done ((arr, List.length lr), w', h') /\
      array_at h' arr lr Fa /\ Forall2 (shown h G) r lr /\ becomes h h' [] Fa
  | Undefined u => hall_with_id cid la acc (List.length lacc) e w h1 = Undefined u
  | OutOfFuel => False
  end.
Proof.
  intros cid G h LV. induction l as [|y l IH]; intros pg la Fl T IN lt acc lacc Facc h1 e w A SH B; destruct la as [|b la]; cbn [trees_at] in T; try contradiction.
  - cbn [vall_with_id hall_with_id]. unfold ret, hret. exists acc, lacc, Facc, h1. auto.
  - destruct T as (F1 & F2 & T1 & T2 & ->). cbn [vall_with_id hall_with_id].
    assert (IN1 : incl F1 G) by (intros u I; apply IN, in_or_app; left; exact I). assert (IN2 : incl F2 G) by (intros u I; apply IN, in_or_app; right; exact I).
    destruct (tree_header _ _ _ _ _ T1) as (bd & L). assert (L1 : lookup h1 b = Some (OChunk (mkHeader pg (chunkId y) (chunkSize y)) bd)).
    { rewrite <- L. apply (becomes_kept _ _ _ _ _ B); [congruence|intros []]. }
    rewrite (hbind_done _ _ _ _ _ _ _ _ _ _ (hchunk_at _ _ _ _ _ _ L1)). cbn [o_id]. destruct (chunkId y =? cid); [|exact (IH pg la F2 T2 IN2 lt acc lacc Facc h1 e w A SH B)].
    rewrite bind_eq, hbind_eq, (F2_len _ _ _ _ _ SH). pose proof (hpush_at h1 acc lacc Facc b e w A) as E. pose proof (push_at h1 acc lacc Facc b e w A) as PA.
    destruct (malloc_run ((Z.of_nat (List.length lacc) + 1) * sizeof_pointer) e w) as (ok & w1 & M & _). rewrite M in *. destruct ok; [|rewrite E; reflexivity].
    destruct PA as [(h2 & w2 & d & E2 & A2 & B2)|(E2 & _)]; [|rewrite E2 in E; discriminate]. rewrite E2 in *. injection E as _ <- _.
    replace (S (List.length lacc)) with (List.length (lacc ++ [b])) by (rewrite app_length; cbn; lia).
    apply (IH pg la F2 T2 IN2 (lt ++ [y]) (Some d) (lacc ++ [b]) [d] h2 e w2 A2); [|exact (becomes_trans _ _ _ _ _ _ B B2)].
    apply Forall2_app; [exact SH|]. constructor; [|constructor]. exists pg, F1. split; [exact T1|exact IN1].
Qed.

Theorem gets_sim : forall cid c p a F h e w, tree_at h c p a F -> finds h F e (vgetChunksFromForm c cid e w) (hIFF_getChunksFromForm a cid e w h).
Proof.
  intros cid c p a F h e w T. unfold vgetChunksFromForm, hIFF_getChunksFromForm.
  assert (GO : forall l la Fl, trees_at (tree_at h) l (Some a) la Fl -> incl Fl F -> finds h F e (vall_with_id cid l [] e w) (hall_with_id cid la None 0 e w h)).
  { intros l la Fl TT IN. pose proof (with_id_sim cid F h (fun u I => tree_live _ _ _ _ _ _ T I) l (Some a) la Fl TT IN [] None [] [] h e w (or_introl (conj eq_refl (conj eq_refl eq_refl))) (Forall2_nil _) (becomes_refl h [])) as R.
    unfold finds. destruct (vall_with_id cid l [] e w) as [[r w']|u|]; [|exact R|exact R]. destruct R as (arr & lr & Fa & h' & R). exists arr, lr, Fa, [], h'. rewrite app_nil_r. exact R. }
  destruct c as [i s d|i s g l|i s g ps l|i s v]; cbn [tree_at as_group] in *.
  - destruct T as (? & ? & L & _). rewrite (hbind_done _ _ _ _ _ _ _ _ _ _ (hchunk_at _ _ _ _ _ _ L)). reflexivity.
  - destruct T as (arr & la & Fa & Fl & L & A & TT & ->). rewrite (hbind_done _ _ _ _ _ _ _ _ _ _ (hchunk_at _ _ _ _ _ _ L)). cbn iota. rewrite (hbind_done _ _ _ _ _ _ _ _ _ _ (helements_at _ _ _ _ _ _ A)).
    apply (GO l la Fl TT). intros u I. right. apply in_or_app. right. exact I.
  - destruct T as (arr & la & Fa & Fl & parr & pa & Fb & Fp & L & A & TT & _ & _ & ->). rewrite (hbind_done _ _ _ _ _ _ _ _ _ _ (hchunk_at _ _ _ _ _ _ L)). cbn iota. rewrite (hbind_done _ _ _ _ _ _ _ _ _ _ (helements_at _ _ _ _ _ _ A)).
    apply (GO l la Fl TT). intros u I. right. rewrite !in_app_iff. tauto.
  - destruct T as (L & _). rewrite (hbind_done _ _ _ _ _ _ _ _ _ _ (hchunk_at _ _ _ _ _ _ L)). reflexivity.
Qed.

(** ** What is found is what Search.v says *)

Lemma vmerge_appends : forall a b e w l w', vmerge a b e w = Done (l, w') -> l = a ++ b.
Proof.
  intros a b e w l w' E. unfold vmerge in E. rewrite bind_eq in E. destruct (malloc _ e w) as [[[] w1]|u|]; [injection E as <- _; reflexivity| |discriminate|discriminate].
  destruct (List.length a + List.length b)%nat as [|n] eqn:N; [|discriminate E]. injection E as <- _. destruct a; [|discriminate N]. destruct b; [reflexivity|discriminate N].
Qed.

Lemma vall_is : forall vs ss l lt e w r w', (forall x e w r w', In x l -> vs x e w = Done (r, w') -> ss x = Done r) -> vsearch_all vs l lt e w = Done (r, w') -> search_all ss l lt = Done r.
Proof.
  intros vs ss. induction l as [|y l IH]; intros lt e w r w' SC E; cbn [vsearch_all search_all] in *; [injection E as <- _; reflexivity|].
  rewrite bind_eq in E. destruct (vs y e w) as [[ly w1]|u|] eqn:Y; [|discriminate|discriminate]. rewrite (SC y e w ly w1 (or_introl eq_refl) Y). cbn [obind].
  rewrite bind_eq in E. destruct (vmerge lt ly e w1) as [[lm w2]|u|] eqn:M; [|discriminate|discriminate]. rewrite <- (vmerge_appends _ _ _ _ _ _ M).
  exact (IH lm e w2 r w' (fun x e w r w' I => SC x e w r w' (or_intror I)) E).
Qed.

Theorem vsearch_is : forall types c e w r w', vsearchFormsFromArray types c e w = Done (r, w') -> IFF_searchFormsFromArray types c = Done r.
Proof.
  intros types c. induction c as [i s d|i s g subs IH|i s g props subs IHp IHs|i s vals] using chunk_tree_ind; intros e w r w' E; cbn [vsearchFormsFromArray IFF_searchFormsFromArray chunkId] in *.
  - destruct (_ =? IFF_ID_FORM); [discriminate|]. destruct (_ =? IFF_ID_CAT); [discriminate|]. destruct (_ =? IFF_ID_LIST); [discriminate|]. injection E as <- _. reflexivity.
  - assert (GO : forall e w r w', vsearch_all (vsearchFormsFromArray types) subs [] e w = Done (r, w') -> search_all (IFF_searchFormsFromArray types) subs [] = Done r).
    { intros e0 w0 r0 w0' E0. apply (vall_is (vsearchFormsFromArray types) _ subs [] e0 w0 r0 w0'); [|exact E0]. intros x e1 w1 r1 w1' I. exact (IH x I e1 w1 r1 w1'). }
    destruct (_ =? IFF_ID_FORM).
    + cbn [vsearchFormsInForm IFF_searchFormsInForm] in *. destruct (existsb _ types); [|exact (GO _ _ _ _ E)]. rewrite bind_eq in E. destruct (malloc _ e w) as [[[] w1]|u|]; try discriminate. injection E as <- _. reflexivity.
    + destruct (_ =? IFF_ID_CAT); [exact (GO _ _ _ _ E)|]. destruct (_ =? IFF_ID_LIST); [exact (GO _ _ _ _ E)|]. injection E as <- _. reflexivity.
  - assert (GO : forall e w r w', vsearch_all (vsearchFormsFromArray types) subs [] e w = Done (r, w') -> search_all (IFF_searchFormsFromArray types) subs [] = Done r).
    { intros e0 w0 r0 w0' E0. apply (vall_is (vsearchFormsFromArray types) _ subs [] e0 w0 r0 w0'); [|exact E0]. intros x e1 w1 r1 w1' I. exact (IHs x I e1 w1 r1 w1'). }
    destruct (_ =? IFF_ID_FORM).
    + cbn [vsearchFormsInForm IFF_searchFormsInForm] in *. destruct (existsb _ types); [|exact (GO _ _ _ _ E)]. rewrite bind_eq in E. destruct (malloc _ e w) as [[[] w1]|u|]; try discriminate. injection E as <- _. reflexivity.
    + destruct (_ =? IFF_ID_CAT); [exact (GO _ _ _ _ E)|]. destruct (_ =? IFF_ID_LIST); [exact (GO _ _ _ _ E)|]. injection E as <- _. reflexivity.
  - destruct (_ =? IFF_ID_FORM); [discriminate|]. destruct (_ =? IFF_ID_CAT); [discriminate|]. destruct (_ =? IFF_ID_LIST); [discriminate|]. injection E as <- _. reflexivity.
Qed.

Theorem vgets_is : forall c cid e w r w', vgetChunksFromForm c cid e w = Done (r, w') -> IFF_getChunksFromForm c cid = Done r.
Proof.
  intros c cid e w r w' E. unfold vgetChunksFromForm, IFF_getChunksFromForm in *. destruct (as_group c) as [[g l]|]; [|discriminate]. f_equal.
  revert E. generalize (@nil chunk). revert e w r w'. induction l as [|y l IH]; intros e w r w' lt E; cbn [vall_with_id all_with_id] in *; [injection E as <- _; reflexivity|].
  destruct (chunkId y =? cid); [|exact (IH _ _ _ _ _ E)]. rewrite bind_eq in E. destruct (malloc _ e w) as [[[] w1]|u|]; try discriminate. exact (IH _ _ _ _ _ E).
Qed.
