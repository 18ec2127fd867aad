(** * Reading files that hold chunks of an application *)

From Coq Require Import ZArith List Bool String Lia.
From Coq Require Import Strings.Byte.
From Verif Require Import Machine Io Types Build Read Spec Grammar Lemmas IoProofs RegProofs WriteProofs
  EncodeProofs ReadProofs DetProofs SoundProofs Ext ExtSpec.
Import ListNotations.
Open Scope Z_scope.

Lemma bind_done : forall A B (m : M A) (f : A -> M B) e w a w1,
  m e w = Done (a, w1) -> bind m f e w = f a e w1.
Proof. intros A B m f e w a w1 H. unfold bind. rewrite H. reflexivity. Qed.

Lemma bind_ret : forall A B (a : A) (f : A -> M B) e w, bind (ret a) f e w = f a e w.
Proof. reflexivity. Qed.

Lemma bind_lift : forall A B (o : outcome A) (f : A -> M B) e w a, o = Done a -> bind (lift o) f e w = f a e w.
Proof. intros. subst. reflexivity. Qed.

Lemma bind_assoc : forall A B C (m : M A) (f : A -> M B) (g : B -> M C) e w,
  bind (bind m f) g e w = bind m (fun a => bind (f a) g) e w.
Proof. intros. unfold bind. destruct (m e w) as [[a w1]| |]; reflexivity. Qed.

Lemma zlength_zdrop : forall A n (l : list A), 0 <= n <= zlength l -> zlength (zdrop n l) = zlength l - n.
Proof. intros A n l H. rewrite zdrop_skipn. unfold zlength in *. rewrite skipn_length. lia. Qed.

Section Handlers.
  Context {U : Type} (ext : exts U).

  Lemma xexpected_group : forall ft i, In i [FORM_ID; CAT_ID; PROP_ID] ->
    exists h, xexpected ext ft i = h /\ In h [XForm; XCAT; XProp].
  Proof.
    intros ft i [<-|[<-|[<-|[]]]]; unfold xexpected; vm_compute.
    - exists XForm. split; [reflexivity|auto].
    - exists XCAT. split; [reflexivity|auto].
    - exists XProp. split; [reflexivity|auto].
  Qed.

  Lemma xexpected_LIST : forall ft, xexpected ext ft LIST_ID = XLIST.
  Proof. reflexivity. Qed.
  Lemma xexpected_FORM : forall ft, xexpected ext ft FORM_ID = XForm.
  Proof. reflexivity. Qed.
  Lemma xexpected_CAT : forall ft, xexpected ext ft CAT_ID = XCAT.
  Proof. reflexivity. Qed.
  Lemma xexpected_PROP : forall ft, xexpected ext ft PROP_ID = XProp.
  Proof. reflexivity. Qed.

  Lemma xexpected_data : forall ft i, ~ In i group_ids ->
    xexpected ext ft i = match ext ft i with Some (cb, _) => XCall cb | None => XRAW end.
  Proof.
    intros ft i N. unfold xexpected.
    assert (Q : forall g, In g group_ids -> (i =? g) = false).
    { intros g G. apply Z.eqb_neq. intros ->. auto. }
    rewrite !Q by (unfold group_ids; simpl; auto). reflexivity.
  Qed.
End Handlers.

(** ** Decoding *)

Section Decode.
  Context {U : Type} (ext : exts U).
  Notation xc := (xchunk U).

  Lemma all_some_spec : forall A B (f : A -> option B) l ys,
    all_some (map f l) = Some ys <-> Forall2 (fun a y => f a = Some y) l ys.
  Proof.
    intros A B f. induction l as [|a l IH]; intros ys; cbn [map all_some].
    - split; intro H; [injection H as <-; constructor|inversion H; reflexivity].
    - destruct (f a) as [y|] eqn:E.
      + destruct (all_some (map f l)) as [l'|] eqn:L.
        * split; intro H.
          -- injection H as <-. constructor; [assumption|]. apply IH. reflexivity.
          -- inversion H as [|? ? ? ys' H1 H2]; subst. apply IH in H2. injection H2 as <-. congruence.
        * split; intro H; [discriminate|]. inversion H as [|? ? ? ys' H1 H2]; subst. apply IH in H2. discriminate.
      + split; intro H; [discriminate|]. inversion H as [|? ? ? ys' H1 H2]; subst. congruence.
  Qed.

  Lemma all_some_None : forall A B (f : A -> option B) l,
    all_some (map f l) = None <-> exists a, In a l /\ f a = None.
  Proof.
    intros A B f. induction l as [|a l IH]; cbn [map all_some].
    - split; [discriminate|intros (a & [] & _)].
    - destruct (f a) as [y|] eqn:E.
      + destruct (all_some (map f l)) as [l'|] eqn:L.
        * split; [discriminate|]. intros (b & [<-|I] & N); [congruence|].
          assert (Some l' = None) by (apply IH; exists b; auto). discriminate.
        * split; [|reflexivity]. intros _. destruct (proj1 IH eq_refl) as (b & I & N). exists b. split; [right|]; assumption.
      + split; [|reflexivity]. intros _. exists a. split; [left; reflexivity|assumption].
  Qed.

  Lemma decode_id : forall c ft x, decode ext ft c = Some x -> xid x = chunkId c /\ xsize x = chunkSize c.
  Proof.
    intros c ft x D. destruct c as [i s [d|]|i s g subs|i s g props subs|i s v]; cbn [decode] in D; try discriminate.
    - destruct (ext ft i) as [[cb cd]|]; [destruct (co_dec cd i d); [|discriminate]|]; injection D as <-; auto.
    - destruct (all_some _); [|discriminate]. injection D as <-. auto.
    - destruct (all_some _); [|discriminate]. destruct (all_some _); [|discriminate]. injection D as <-. auto.
  Qed.

  Definition xprop (x : xc) : bool := xid x =? PROP_ID.

  Lemma decode_prop : forall c ft x, decode ext ft c = Some x -> xprop x = is_prop c.
  Proof. intros c ft x D. unfold xprop, is_prop. rewrite (proj1 (decode_id _ _ _ D)). reflexivity. Qed.

  Lemma decode_filter : forall g (b : bool) cs ys,
    all_some (map (decode ext g) cs) = Some ys ->
    all_some (map (decode ext g) (filter (fun c => Bool.eqb b (is_prop c)) cs))
    = Some (filter (fun y => Bool.eqb b (xprop y)) ys).
  Proof.
    intros g b. induction cs as [|c cs IH]; intros ys H.
    - injection H as <-. reflexivity.
    - apply all_some_spec in H. inversion H as [|? y ? ys' H1 H2]; subst. apply all_some_spec in H2.
      cbn [filter]. rewrite (decode_prop _ _ _ H1). destruct (Bool.eqb b (is_prop c)).
      + cbn [map all_some]. rewrite H1, (IH _ H2). reflexivity.
      + apply IH. assumption.
  Qed.

  Lemma filter_ext_bool : forall A (f g : A -> bool) l, (forall a, f a = g a) -> filter f l = filter g l.
  Proof. intros A f g l H. induction l as [|a l IH]; [reflexivity|]. simpl. rewrite H, IH. reflexivity. Qed.

  Lemma decode_list : forall ft i s g cs,
    decode ext ft (CList i s g (filter is_prop cs) (filter (fun c => negb (is_prop c)) cs))
    = match all_some (map (decode ext g) cs) with
      | Some ys => Some (XList i s g (filter xprop ys) (filter (fun y => negb (xprop y)) ys))
      | None => None
      end.
  Proof.
    intros ft i s g cs. cbn [decode].
    destruct (all_some (map (decode ext g) cs)) as [ys|] eqn:E.
    - pose proof (decode_filter g true cs ys E) as P. pose proof (decode_filter g false cs ys E) as N.
      rewrite (filter_ext_bool _ _ is_prop) in P by (intro a; destruct (is_prop a); reflexivity).
      rewrite (filter_ext_bool _ _ xprop) in P by (intro a; destruct (xprop a); reflexivity).
      rewrite (filter_ext_bool _ _ (fun c => negb (is_prop c))) in N by (intro a; destruct (is_prop a); reflexivity).
      rewrite (filter_ext_bool _ _ (fun c => negb (xprop c))) in N by (intro a; destruct (xprop a); reflexivity).
      rewrite P, N. reflexivity.
    - apply all_some_None in E. destruct E as (a & I & N).
      destruct (is_prop a) eqn:PA.
      + rewrite (proj2 (all_some_None _ _ (decode ext g) (filter is_prop cs)))
          by (exists a; split; [apply filter_In; auto|assumption]). reflexivity.
      + destruct (all_some (map (decode ext g) (filter is_prop cs))); [|reflexivity].
        rewrite (proj2 (all_some_None _ _ (decode ext g) (filter (fun c => negb (is_prop c)) cs)))
          by (exists a; split; [apply filter_In; rewrite PA; auto|assumption]). reflexivity.
  Qed.
End Decode.

(** ** Induction over trees *)

Section Tree.
  Context {U : Type} (P : xchunk U -> Prop).
  Hypothesis PR : forall i s d, P (XRaw i s d).
  Hypothesis PG : forall i s g subs, (forall c, In c subs -> P c) -> P (XGroup i s g subs).
  Hypothesis PL : forall i s g props subs,
    (forall c, In c props -> P c) -> (forall c, In c subs -> P c) -> P (XList i s g props subs).
  Hypothesis PU : forall i s u, P (XUser i s u).

  Lemma xchunk_tree_ind : forall x, P x.
  Proof.
    fix IH 1. intros [i s d|i s g subs|i s g props subs|i s u].
    - apply PR.
    - apply PG. induction subs as [|c subs IHl]; intros c0 I; [contradiction|].
      destruct I as [<-|I]; [apply IH|apply IHl; assumption].
    - apply PL.
      + induction props as [|c props IHl]; intros c0 I; [contradiction|].
        destruct I as [<-|I]; [apply IH|apply IHl; assumption].
      + induction subs as [|c subs IHl]; intros c0 I; [contradiction|].
        destruct I as [<-|I]; [apply IH|apply IHl; assumption].
    - apply PU.
  Qed.
End Tree.

(** ** Freeing *)

Section Freeing.
  Context {U : Type} (rg : xregistry U) (ext : exts U).
  Hypothesis RG : XRealises rg ext.
  Hypothesis HO : AllHonour ext.

  Lemma xfree_all_done : forall l g, (forall c, In c l -> xfreeChunk rg c g = Done tt) ->
    xfree_all (xfreeChunk rg) l g = Done tt.
  Proof.
    induction l as [|c l IH]; intros g H; [reflexivity|].
    cbn [xfree_all]. rewrite H by (left; reflexivity). cbn [obind]. apply IH. intros c' I. apply H. right; assumption.
  Qed.

  Lemma xfree_group : forall ft i s g l, In i [FORM_ID; CAT_ID; PROP_ID] ->
    (forall c, In c l -> xfreeChunk rg c g = Done tt) -> xfreeChunk rg (XGroup i s g l) ft = Done tt.
  Proof.
    intros ft i s g l GI H. cbn [xfreeChunk xid]. rewrite RG.
    destruct (xexpected_group ext ft i GI) as (h & -> & HI). cbn [obind].
    destruct HI as [<-|[<-|[<-|[]]]]; cbn [xfreeExtensionChunk]; apply xfree_all_done; assumption.
  Qed.

  Lemma xfree_list : forall ft s g p l,
    (forall c, In c p -> xfreeChunk rg c g = Done tt) -> (forall c, In c l -> xfreeChunk rg c g = Done tt) ->
    xfreeChunk rg (XList LIST_ID s g p l) ft = Done tt.
  Proof.
    intros ft s g p l H1 H2. cbn [xfreeChunk xid]. rewrite RG, xexpected_LIST. cbn [obind xfreeExtensionChunk].
    rewrite (xfree_all_done l) by assumption. cbn [obind]. apply xfree_all_done. assumption.
  Qed.

  Lemma xfree_user : forall ft i s u cb cd, ~ In i group_ids -> ext ft i = Some (cb, cd) ->
    xfreeChunk rg (XUser i s u) ft = Done tt.
  Proof.
    intros ft i s u cb cd N E. cbn [xfreeChunk xid]. rewrite RG, xexpected_data, E by assumption.
    cbn [obind xfreeExtensionChunk]. eapply h_free, HO. eassumption.
  Qed.

  Lemma xfree_raw : forall ft i s d, ~ In i group_ids -> ext ft i = None ->
    xfreeChunk rg (XRaw i s d) ft = Done tt.
  Proof.
    intros ft i s d N E. cbn [xfreeChunk xid]. rewrite RG, xexpected_data, E by assumption. reflexivity.
  Qed.

  Lemma Forall2_right : forall A B (P : A -> B -> Prop) l l' b, Forall2 P l l' -> In b l' -> exists a, In a l /\ P a b.
  Proof.
    intros A B P l l' b H. induction H as [|x y l l' H1 H2 IH]; intro I; [contradiction|].
    destruct I as [<-|I]; [exists x; split; [left; reflexivity|assumption]|].
    destruct (IH I) as (a & J & Q). exists a. split; [right; assumption|assumption].
  Qed.

  Lemma decode_frees : forall c ft x, Typed no_apps ft c -> decode ext ft c = Some x ->
    xfreeChunk rg x ft = Done tt.
  Proof.
    induction c as [i s d|i s g subs IH|i s g props subs IHp IHs|i s vals] using chunk_tree_ind; intros ft x T D;
      cbn [decode] in D.
    - destruct d as [d|]; [|discriminate]. inversion T as [? ? ? ? N A| | |]; subst.
      destruct (ext ft i) as [[cb cd]|] eqn:E.
      + destruct (co_dec cd i d); [|discriminate]. injection D as <-. eapply xfree_user; eassumption.
      + injection D as <-. apply xfree_raw; assumption.
    - destruct (all_some _) as [l|] eqn:E; [|discriminate]. injection D as <-.
      inversion T as [| |? ? ? ? ? GI TS|]; subst.
      apply xfree_group; [assumption|]. intros y I. apply all_some_spec in E.
      destruct (Forall2_right _ _ _ _ _ _ E I) as (a & J & Q). eapply IH; eauto.
    - destruct (all_some (map _ props)) as [p|] eqn:E; [|discriminate].
      destruct (all_some (map _ subs)) as [l|] eqn:F; [|discriminate]. injection D as <-.
      inversion T as [| | |? ? ? ? ? TP TS]; subst. apply all_some_spec in E. apply all_some_spec in F.
      apply xfree_list; intros y I.
      + destruct (Forall2_right _ _ _ _ _ _ E I) as (a & J & Q). eapply IHp; eauto. apply TP. assumption.
      + destruct (Forall2_right _ _ _ _ _ _ F I) as (a & J & Q). eapply IHs; eauto.
    - discriminate.
  Qed.

  Lemma XTyped_frees : forall (x : xchunk U) ft, XTyped ext ft x -> xfreeChunk rg x ft = Done tt.
  Proof.
    induction x as [i s d|i s g subs IH|i s g props subs IHp IHs|i s u] using xchunk_tree_ind; intros ft T;
      inversion T; subst.
    - apply xfree_raw; assumption.
    - apply xfree_group; auto.
    - apply xfree_list; intros c I; [apply IHp|apply IHs]; auto.
      match goal with A : forall c, In c props -> _ |- _ => apply A; assumption end.
    - eapply xfree_user; eassumption.
  Qed.
End Freeing.

(** ** Reading *)

Section Reading.
  Context {U : Type} (rg : xregistry U) (ext : exts U) (e : env).
  Hypothesis RG : XRealises rg ext.
  Hypothesis HO : AllHonour ext.
  Hypothesis US : usual e.
  Notation xc := (xchunk U).

  Let NS : strict_c e = false := not_strict e US.

  (** Exactly [r] is left of the input; nothing was written. *)
  Definition left_at (r : list byte) (w w' : world) : Prop :=
    w_in w' = mkRfile r (r_seekable (w_in w)) /\ w_out w' = w_out w.

  Lemma left_at_after : forall r lg n w, left_at r w (after r lg n w).
  Proof. intros. split; reflexivity. Qed.

  Lemma left_at_trans : forall r1 r2 w w1 w2, left_at r1 w w1 -> left_at r2 w1 w2 -> left_at r2 w w2.
  Proof. intros r1 r2 w w1 w2 [A B] [C D]. split; [rewrite C, A; reflexivity|congruence]. Qed.

  Lemma left_at_rest : forall r w w', left_at r w w' -> rest w' = r.
  Proof. intros r w w' [A _]. rewrite A. reflexivity. Qed.

  Lemma left_at_skip : forall r w w', left_at r w w' -> CanSkip ext w -> CanSkip ext w'.
  Proof. intros r w w' [A _] [S|S]; [left; rewrite A; exact S|right; exact S]. Qed.

  (** What reading comes to: [o] is read and [r] is left, or the failure is
      reported to the caller. *)
  Definition comes_to (m : M (option xc)) (w : world) (o : option xc) (r : list byte) : Prop :=
    exists w', m e w = Done (o, w') /\ w_out w' = w_out w /\ (o <> None -> left_at r w w').

  Definition xreads_as (ft : Z) (l : list byte) (c : chunk) : Prop :=
    Sized ext ft c -> forall fuel w r, (List.length l < fuel)%nat -> zlength l < 2 ^ (size_t_bits e - 1) ->
      CanSkip ext w -> rest w = l ++ r ->
      comes_to (xreadChunk rg fuel ft) w (decode ext ft c) r.

  Definition members_to (m : M (bool * xc * Z)) (w : world) (full : option xc) (total : Z) (r : list byte)
      (part : xc -> Prop) : Prop :=
    match full with
    | Some c => exists w', m e w = Done ((true, c, total), w') /\ left_at r w w'
    | None => exists c bp w', m e w = Done ((false, c, bp), w') /\ w_out w' = w_out w /\ part c
    end.

  Definition frees (g : Z) (x : xc) : Prop := xfreeChunk rg x g = Done tt.

  Definition xreads_members (g bp s : Z) (l : list byte) (cs : list chunk) (total : Z) : Prop :=
    (forall c, In c cs -> Sized ext g c) ->
    forall f fuel w r, (List.length l < f)%nat -> (List.length l <= fuel)%nat ->
      CanSkip ext w -> rest w = l ++ r ->
      (forall i xs, zlength xs * 8 + zlength l < 2 ^ (size_t_bits e - 1) -> Forall (frees g) xs ->
         members_to (xreadGroupSubChunks (xreadChunk rg f) fuel (XGroup i s g xs) g bp) w
           (match all_some (map (decode ext g) cs) with
            | Some ys => Some (XGroup i s g (xs ++ ys)) | None => None end) total r
           (fun c => exists zs, c = XGroup i s g zs /\ Forall (frees g) zs)) /\
      (forall ps xs, zlength xs * 8 + zlength l < 2 ^ (size_t_bits e - 1) ->
         zlength ps * 8 + zlength l < 2 ^ (size_t_bits e - 1) -> Forall (frees g) ps -> Forall (frees g) xs ->
         members_to (xreadListSubChunks (xreadChunk rg f) fuel (XList LIST_ID s g ps xs) g bp) w
           (match all_some (map (decode ext g) cs) with
            | Some ys => Some (XList LIST_ID s g (ps ++ filter xprop ys)
                                                 (xs ++ filter (fun y => negb (xprop y)) ys))
            | None => None end) total r
           (fun c => exists qs zs, c = XList LIST_ID s g qs zs /\ Forall (frees g) qs /\ Forall (frees g) zs)).

  Lemma xmembers_end : forall g bp s, s <= bp -> xreads_members g bp s [] [] bp.
  Proof.
    intros g bp s L _ f fuel w r _ _ _ R. simpl in R. split; intros; cbn [map all_some members_to].
    - exists (after (rest w) (size_warning e "group" s bp) (w_allocs w) w). split.
      + destruct fuel; cbn [xreadGroupSubChunks xsize]; rewrite (proj2 (Z.ltb_ge bp s)) by assumption;
          unfold bind; rewrite warn_size by assumption; rewrite !app_nil_r; reflexivity.
      + rewrite R. apply left_at_after.
    - exists (after (rest w) (size_warning e "LIST" s bp) (w_allocs w) w). split.
      + destruct fuel; cbn [xreadListSubChunks xsize]; rewrite (proj2 (Z.ltb_ge bp s)) by assumption;
          unfold bind; rewrite warn_size by assumption; cbn [filter]; rewrite !app_nil_r; reflexivity.
      + rewrite R. apply left_at_after.
  Qed.

  Lemma xincrement : forall bp (x : xc) c, xsize x = chunkSize c ->
    IFF_incrementChunkSize bp (bare x) = IFF_incrementChunkSize bp c.
  Proof.
    intros bp x c E. unfold IFF_incrementChunkSize.
    replace (chunkSize (bare x)) with (chunkSize c) by (rewrite <- E; destruct x; reflexivity). reflexivity.
  Qed.

  Lemma xattach_group : forall i s g (xs : list xc) x w, zlength xs * 8 + 8 < 2 ^ (size_t_bits e - 1) ->
    xattachToGroup (XGroup i s g xs) x e w
    = Done (XGroup i s g (xs ++ [x]), after (rest w) [] (S (w_allocs w)) w).
  Proof.
    intros i s g xs x w MS. pose proof (zlength_nonneg _ xs). cbn [xattachToGroup]. unfold bind at 1.
    rewrite malloc_ok_usual by (assumption || unfold sizeof_pointer; lia). reflexivity.
  Qed.

  Lemma xattach_list : forall i s g (ps xs : list xc) x w, zlength xs * 8 + 8 < 2 ^ (size_t_bits e - 1) ->
    xattachToGroup (XList i s g ps xs) x e w
    = Done (XList i s g ps (xs ++ [x]), after (rest w) [] (S (w_allocs w)) w).
  Proof.
    intros i s g ps xs x w MS. pose proof (zlength_nonneg _ xs). cbn [xattachToGroup]. unfold bind at 1.
    rewrite malloc_ok_usual by (assumption || unfold sizeof_pointer; lia). reflexivity.
  Qed.

  Lemma xaddProp_list : forall i s g (ps xs : list xc) x w, zlength ps * 8 + 8 < 2 ^ (size_t_bits e - 1) ->
    xaddPropToList (XList i s g ps xs) x e w
    = Done (XList i s g (ps ++ [x]) xs, after (rest w) [] (S (w_allocs w)) w).
  Proof.
    intros i s g xs ps x w MS. pose proof (zlength_nonneg _ xs). cbn [xaddPropToList]. unfold bind at 1.
    rewrite malloc_ok_usual by (assumption || unfold sizeof_pointer; lia). reflexivity.
  Qed.

  (** Go on with a continuation from a world that has the same streams. *)
  Lemma members_to_step : forall m1 m2 w w1 full total r r1 part,
    m1 e w = m2 e w1 -> left_at r1 w w1 -> members_to m2 w1 full total r part -> members_to m1 w full total r part.
  Proof.
    intros m1 m2 w w1 full total r r1 part E L H. unfold members_to in *. rewrite E. destruct full as [c|].
    - destruct H as (w' & -> & L2). exists w'. split; [reflexivity|]. eapply left_at_trans; eassumption.
    - destruct H as (c & bp & w' & -> & O & P). exists c, bp, w'. split; [reflexivity|]. split; [|assumption].
      destruct L as [_ L]. congruence.
  Qed.

  Lemma xmembers_next : forall g bp s l c bp' l2 cs total,
    bp < s -> xreads_as g l c -> Typed no_apps g c -> 8 <= zlength l -> advance bp (chunkSize c) = Some bp' ->
    xreads_members g bp' s l2 cs total ->
    xreads_members g bp s (l ++ l2) (c :: cs) total.
  Proof.
    intros g bp s l c bp' l2 cs total L RC TY L8 AD RM SZ f fuel w r F1 F2 SK R.
    rewrite app_length in F1, F2. rewrite <- app_assoc in R.
    assert (L8' : (8 <= List.length l)%nat) by (unfold zlength in L8; lia).
    pose proof (zlength_nonneg _ l2) as Z2. rewrite !zlength_app.
    destruct fuel as [|fuel]; [lia|].
    assert (SZc : Sized ext g c) by (apply SZ; left; reflexivity).
    assert (SZs : forall c, In c cs -> Sized ext g c) by (intros c' I; apply SZ; right; assumption).
    cbn [map all_some].
    split.
    - intros i xs MS FX. pose proof (zlength_nonneg _ xs).
      destruct (RC SZc f w (l2 ++ r)) as (w1 & E1 & O1 & L1); [lia|lia|assumption|assumption|].
      destruct (decode ext g c) as [x|] eqn:DC.
      + specialize (L1 ltac:(discriminate)).
        set (w2 := after (rest w1) [] (S (w_allocs w1)) w1).
        assert (LW : left_at (l2 ++ r) w w2).
        { eapply left_at_trans; [exact L1|]. unfold w2. rewrite (left_at_rest _ _ _ L1). apply left_at_after. }
        destruct (RM SZs f fuel w2 r) as [G _]; [lia|lia|eapply left_at_skip; eassumption|eapply left_at_rest; eassumption|].
        specialize (G i (xs ++ [x])).
        replace (match (match all_some (map (decode ext g) cs) with Some l' => Some (x :: l') | None => None end)
                 with Some ys => Some (XGroup i s g (xs ++ ys)) | None => None end)
          with (match all_some (map (decode ext g) cs) with Some ys => Some (XGroup i s g ((xs ++ [x]) ++ ys)) | None => None end)
          by (destruct (all_some _); [rewrite <- app_assoc|]; reflexivity).
        eapply members_to_step; [|exact LW|apply G].
        * cbn [xreadGroupSubChunks xsize]. rewrite (proj2 (Z.ltb_lt bp s)) by assumption.
          rewrite (bind_done _ _ _ _ _ _ _ _ E1).
          rewrite (bind_done _ _ _ _ _ _ _ _ (xattach_group i s g xs x w1 ltac:(lia))).
          rewrite (bind_lift _ _ _ _ _ _ bp')
            by (rewrite (xincrement _ _ c) by (apply (decode_id ext c g x DC)); rewrite increment_advance, AD; reflexivity).
          reflexivity.
        * rewrite zlength_app, zlength_cons, zlength_nil. lia.
        * apply Forall_app. split; [assumption|]. constructor; [|constructor].
          eapply decode_frees; eassumption.
      + cbn [members_to]. exists (XGroup i s g xs), bp, w1. split; [|split; [exact O1|exists xs; auto]].
        cbn [xreadGroupSubChunks xsize]. rewrite (proj2 (Z.ltb_lt bp s)) by assumption.
        rewrite (bind_done _ _ _ _ _ _ _ _ E1). reflexivity.
    - intros ps xs MS MP FP FX. pose proof (zlength_nonneg _ xs). pose proof (zlength_nonneg _ ps).
      destruct (RC SZc f w (l2 ++ r)) as (w1 & E1 & O1 & L1); [lia|lia|assumption|assumption|].
      destruct (decode ext g c) as [x|] eqn:DC.
      + specialize (L1 ltac:(discriminate)).
        set (w2 := after (rest w1) [] (S (w_allocs w1)) w1).
        assert (LW : left_at (l2 ++ r) w w2).
        { eapply left_at_trans; [exact L1|]. unfold w2. rewrite (left_at_rest _ _ _ L1). apply left_at_after. }
        destruct (RM SZs f fuel w2 r) as [_ G]; [lia|lia|eapply left_at_skip; eassumption|eapply left_at_rest; eassumption|].
        assert (FR : frees g x) by (eapply decode_frees; eassumption).
        destruct (xprop x) eqn:PX.
        * specialize (G (ps ++ [x]) xs).
          replace (match (match all_some (map (decode ext g) cs) with Some l' => Some (x :: l') | None => None end)
                   with Some ys => Some (XList LIST_ID s g (ps ++ filter xprop ys) (xs ++ filter (fun y => negb (xprop y)) ys)) | None => None end)
            with (match all_some (map (decode ext g) cs) with
                  | Some ys => Some (XList LIST_ID s g ((ps ++ [x]) ++ filter xprop ys) (xs ++ filter (fun y => negb (xprop y)) ys)) | None => None end)
            by (destruct (all_some _); [cbn [filter]; rewrite PX; cbn [negb]; rewrite <- app_assoc|]; reflexivity).
          eapply members_to_step; [|exact LW|apply G].
          -- cbn [xreadListSubChunks xsize]. rewrite (proj2 (Z.ltb_lt bp s)) by assumption.
             rewrite (bind_done _ _ _ _ _ _ _ _ E1).
             change (xid x =? IFF_ID_PROP) with (xprop x). rewrite PX.
             rewrite (bind_done _ _ _ _ _ _ _ _ (xaddProp_list LIST_ID s g ps xs x w1 ltac:(lia))).
             rewrite (bind_lift _ _ _ _ _ _ bp')
               by (rewrite (xincrement _ _ c) by (apply (decode_id ext c g x DC)); rewrite increment_advance, AD; reflexivity).
             reflexivity.
          -- lia.
          -- rewrite zlength_app, zlength_cons, zlength_nil. lia.
          -- apply Forall_app. split; [assumption|]. constructor; [assumption|constructor].
          -- assumption.
        * specialize (G ps (xs ++ [x])).
          replace (match (match all_some (map (decode ext g) cs) with Some l' => Some (x :: l') | None => None end)
                   with Some ys => Some (XList LIST_ID s g (ps ++ filter xprop ys) (xs ++ filter (fun y => negb (xprop y)) ys)) | None => None end)
            with (match all_some (map (decode ext g) cs) with
                  | Some ys => Some (XList LIST_ID s g (ps ++ filter xprop ys) ((xs ++ [x]) ++ filter (fun y => negb (xprop y)) ys)) | None => None end)
            by (destruct (all_some _); [cbn [filter]; rewrite PX; cbn [negb]; rewrite <- app_assoc|]; reflexivity).
          eapply members_to_step; [|exact LW|apply G].
          -- cbn [xreadListSubChunks xsize]. rewrite (proj2 (Z.ltb_lt bp s)) by assumption.
             rewrite (bind_done _ _ _ _ _ _ _ _ E1).
             change (xid x =? IFF_ID_PROP) with (xprop x). rewrite PX.
             rewrite (bind_done _ _ _ _ _ _ _ _ (xattach_list LIST_ID s g ps xs x w1 ltac:(lia))).
             rewrite (bind_lift _ _ _ _ _ _ bp')
               by (rewrite (xincrement _ _ c) by (apply (decode_id ext c g x DC)); rewrite increment_advance, AD; reflexivity).
             reflexivity.
          -- rewrite zlength_app, zlength_cons, zlength_nil. lia.
          -- lia.
          -- assumption.
          -- apply Forall_app. split; [assumption|]. constructor; [assumption|constructor].
      + cbn [members_to]. exists (XList LIST_ID s g ps xs), bp, w1. split; [|split; [exact O1|exists ps, xs; auto]].
        cbn [xreadListSubChunks xsize]. rewrite (proj2 (Z.ltb_lt bp s)) by assumption.
        rewrite (bind_done _ _ _ _ _ _ _ _ E1). reflexivity.
  Qed.

  Lemma xreadChunk_header : forall f ft w i s r,
    in_range FId i -> in_range FLong s -> rest w = be32 i ++ be32 s ++ r ->
    xreadChunk rg (S f) ft e w =
    xreadChunkBody (xreadChunk rg f) rg f i s ft e (after r [] (w_allocs w) w).
  Proof.
    intros f ft w i s r I S R. cbn [xreadChunk].
    change (IFF_readId ID_EMPTY "") with (read_prim FId ID_EMPTY "").
    rewrite (bind_done _ _ _ _ _ _ _ _ (read_prim_ok FId e w i (be32 s ++ r) ID_EMPTY "" ltac:(left; assumption) I R)).
    change (IFF_readLong i "chunkSize") with (read_prim FLong i "chunkSize").
    rewrite (bind_done _ _ _ _ _ _ _ _
      (read_prim_ok FLong e (set_rest (be32 s ++ r) w) s r i "chunkSize" ltac:(left; assumption) S eq_refl)).
    rewrite !set_rest_after, after_after. reflexivity.
  Qed.

  Definition xtail (s ft : Z) (r0 : bool * xc * Z) : M (option xc) :=
    match r0 with
    | (ok, c1, bp0) =>
        ok3 <- andM (ret ok)
                 (andM (IFF_skipUnknownBytes (xid c1) s bp0) (IFF_readPaddingByte s (xid c1))) ;;
        if ok3 then ret (Some c1) else lift (xfreeChunk rg c1 ft) ;;; ret None
    end.

  Lemma xreadChunkBody_eq : forall rc f i s ft,
    xreadChunkBody rc rg f i s ft
    = (h <- lift (xfind_handler rg ft i) ;;
       oc <- xcreateExtensionChunk h i s ;;
       match oc with None => ret None | Some c => r <- xreadExtensionChunkFields rc f h c 0 ;; xtail s ft r end).
  Proof. reflexivity. Qed.

  Lemma xtail_true : forall c bp w w1 s ft u p r, s - bp <= INT_MAX ->
    zlength u = Z.max 0 (s - bp) -> zlength p = s mod 2 -> left_at (u ++ p ++ r) w w1 ->
    r_seekable (w_in w) = true \/ u = [] ->
    exists w', xtail s ft (true, c, bp) e w1 = Done (Some c, w') /\ left_at r w w'.
  Proof.
    intros c bp w w1 s ft u p r I ZU ZP LA SK. unfold xtail, andM.
    pose proof (left_at_rest _ _ _ LA) as R.
    assert (SK1 : r_seekable (w_in w1) = true \/ u = []).
    { destruct LA as [LA _]. rewrite LA. exact SK. }
    eexists. split.
    - unfold bind at 1. unfold bind at 1, ret at 1. unfold bind at 1.
      rewrite (skip_ok (xid c) s bp u (p ++ r)) by assumption.
      rewrite (read_padding_ok s (xid c) p r) by (assumption || reflexivity). unfold ret. reflexivity.
    - destruct LA as [LA LO]. split; simpl; [rewrite LA; reflexivity|assumption].
  Qed.

  Lemma xtail_false : forall c bp w1 s ft, xfreeChunk rg c ft = Done tt ->
    xtail s ft (false, c, bp) e w1 = Done (None, w1).
  Proof. intros c bp w1 s ft F. unfold xtail, andM, bind, ret, lift. rewrite F. reflexivity. Qed.

  (** *** Data chunks *)
  Lemma xreads_data : forall ft i data p,
    in_range FId i -> ~ In i group_ids -> zlength data <= INT_MAX -> zlength p = zlength data mod 2 ->
    xreads_as ft (be32 i ++ be32 (zlength data) ++ data ++ p) (CRaw i (zlength data) (Some data)).
  Proof.
    intros ft i data p I NG Z ZP SZ fuel w r F MEM SK R.
    destruct fuel as [|f]; [lia|]. pose proof (zlength_nonneg _ data) as ZD.
    rewrite <- !app_assoc in R.
    pose proof (half_size_t e) as HS.
    set (w0 := after (data ++ p ++ r) [] (w_allocs w) w).
    assert (L0 : left_at (data ++ p ++ r) w w0) by apply left_at_after.
    unfold comes_to.
    rewrite (xreadChunk_header f ft w i (zlength data) (data ++ p ++ r)); try assumption.
    2:{ simpl. unfold INT_MAX in Z. lia. }
    fold w0. rewrite xreadChunkBody_eq. rewrite (bind_lift _ _ _ _ _ _ _ (RG ft i)).
    rewrite xexpected_data by assumption. cbn [decode].
    inversion SZ as [? ? ? ? SZ1| |]; subst.
    destruct (ext ft i) as [[cb cd]|] eqn:EX.
    - (* the application's *)
      specialize (SZ1 cb cd eq_refl).
      destruct (h_read cb cd (HO ft i cb cd EX) i data (p ++ r) e w0 US SZ1 Z eq_refl)
        as (u0 & w1 & ok & u & k & w2 & E1 & E2 & M & O2).
      cbn [xcreateExtensionChunk xreadExtensionChunkFields].
      rewrite bind_assoc. rewrite (bind_done _ _ _ _ _ _ _ _ E1). rewrite bind_ret.
      rewrite bind_assoc. rewrite (bind_done _ _ _ _ _ _ _ _ E2). rewrite bind_ret.
      destruct (co_dec cd i data) as [v|] eqn:DV.
      + destruct M as (-> & -> & -> & K & W2).
        set (k := co_used cd i data) in *.
        destruct (xtail_true (XUser i (zlength data) v) k w w2 (zlength data) ft (zdrop k data) p r)
          as (w' & E3 & L3); try assumption.
        * unfold INT_MAX in *. lia.
        * rewrite zlength_zdrop by lia. lia.
        * split; [exact W2|exact O2].
        * destruct SK as [SK|SK]; [left; exact SK|right].
          apply zlength_0. rewrite zlength_zdrop by lia. unfold k. rewrite (SK _ _ _ _ _ _ EX DV). lia.
        * exists w'. split; [exact E3|]. split; [apply L3|intros _; exact L3].
      + subst ok. exists w2. split; [|split; [exact O2|congruence]].
        apply xtail_false. eapply xfree_user; eassumption.
    - (* raw *)
      cbn [xcreateExtensionChunk xreadExtensionChunkFields].
      rewrite bind_assoc. unfold bind at 1, ask at 1.
      unfold bind at 1. unfold bind at 1.
      rewrite malloc_ok_usual by (assumption || unfold sizeof_RawChunk; lia).
      rewrite (wrap_size_id e (zlength data)) by (unfold INT_MAX in *; lia).
      unfold bind at 1. rewrite malloc_ok_usual by (assumption || unfold INT_MAX in *; lia).
      unfold ret at 1.
      set (w1 := after (rest (after (rest w0) [] (S (w_allocs w0)) w0)) [] _ _).
      assert (L1 : left_at (data ++ p ++ r) w w1) by (split; reflexivity).
      assert (RR : IFF_readRawChunk (CRaw i (zlength data) None) 0 e w1
                   = Done ((true, CRaw i (zlength data) (Some data), zlength data), set_rest (p ++ r) w1)).
      { unfold IFF_readRawChunk. unfold bind at 1, ask. unfold bind at 1.
        rewrite (wrap_size_id e (zlength data)) by (unfold INT_MAX in *; lia).
        rewrite (fread_app _ data (p ++ r)) by reflexivity.
        rewrite Z.ltb_irrefl. rewrite (proj2 (Z.ltb_ge _ _)) by (unfold INT_MAX in *; lia).
        rewrite Z.add_0_l. reflexivity. }
      cbn [xreadRawChunk]. rewrite bind_assoc. rewrite (bind_done _ _ _ _ _ _ _ _ RR). rewrite bind_ret.
      destruct (xtail_true (XRaw i (zlength data) (Some data)) (zlength data) w (set_rest (p ++ r) w1) (zlength data) ft [] p r)
        as (w' & E3 & L3); try assumption.
      + unfold INT_MAX; lia.
      + rewrite Z.sub_diag. reflexivity.
      + split; reflexivity.
      + right. reflexivity.
      + exists w'. split; [exact E3|]. split; [apply L3|intros _; exact L3].
  Qed.

  (** *** Groups *)

  Lemma group_start : forall f name i s g l w xs,
    in_range FId g -> rest w = be32 g ++ l ->
    xreadGroup (xreadChunk rg f) f (XGroup i s 0 xs) name 0 e w
    = xreadGroupSubChunks (xreadChunk rg f) f (XGroup i s g xs) g 4 e (set_rest l w).
  Proof.
    intros f name i s g l w xs G R. cbn [xreadGroup]. unfold IFF_readField.
    unfold bind at 1. unfold bind at 1, ask at 1. rewrite fit_start. unfold bind at 1.
    rewrite (read_prim_ok FId e w g l i name ltac:(left; assumption) G R). reflexivity.
  Qed.

  Lemma list_start : forall f s g l w ps xs,
    in_range FId g -> rest w = be32 g ++ l ->
    xreadList (xreadChunk rg f) f (XList LIST_ID s 0 ps xs) 0 e w
    = (r2 <- xreadListSubChunks (xreadChunk rg f) f (XList LIST_ID s g ps xs) g 4 ;;
       match r2 with
       | (true, l', bp2) => ret (true, l', bp2)
       | (false, l', bp2) =>
           IFF_error ("Error reading chunk in list!" ++ nl)%string ;;; ret (false, l', bp2)
       end) e (set_rest l w).
  Proof.
    intros f s g l w ps xs G R. cbn [xreadList]. unfold IFF_readField.
    unfold bind at 1. unfold bind at 1, ask at 1. rewrite fit_start. unfold bind at 1.
    rewrite (read_prim_ok FId e w g l LIST_ID "contentsType" ltac:(left; assumption) G R). reflexivity.
  Qed.

  Lemma xreads_group : forall ft i s g l subs p total,
    In i [FORM_ID; CAT_ID; PROP_ID] -> in_range FLong s -> in_range FId g -> s <= total ->
    xreads_members g 4 s l subs total -> zlength p = s mod 2 ->
    xreads_as ft (be32 i ++ be32 s ++ be32 g ++ l ++ p) (CGroup i s g subs).
  Proof.
    intros ft i s g l subs p total GI SR G TOT RM ZP SZ fuel w r FU MEM SK R.
    destruct fuel as [|f]; [lia|].
    rewrite !app_length in FU. change (List.length (be32 _)) with 4%nat in FU.
    rewrite !zlength_app in MEM. rewrite !be32_length in MEM. pose proof (zlength_nonneg _ p) as ZPN.
    rewrite <- !app_assoc in R.
    assert (IR : in_range FId i) by (destruct GI as [<-|[<-|[<-|[]]]]; vm_compute; split; congruence).
    pose proof (half_size_t e) as HS.
    set (w1 := after (be32 g ++ l ++ p ++ r) [] (w_allocs w) w).
    set (w2 := after (rest w1) [] (S (w_allocs w1)) w1).
    assert (L3 : left_at (l ++ p ++ r) w (set_rest (l ++ p ++ r) w2)) by (split; reflexivity).
    inversion SZ as [|? ? ? ? ? SZ1|]; subst.
    destruct (RM SZ1 f f (set_rest (l ++ p ++ r) w2) (p ++ r)) as [RG1 _];
      [lia|lia|eapply left_at_skip; eassumption|reflexivity|].
    specialize (RG1 i []). rewrite zlength_nil in RG1. specialize (RG1 ltac:(lia) ltac:(constructor)).
    assert (E : forall name, members_to (xreadGroup (xreadChunk rg f) f (XGroup i s 0 []) name 0) w2
      (match all_some (map (decode ext g) subs) with Some ys => Some (XGroup i s g ys) | None => None end) total (p ++ r)
      (fun c => exists zs, c = XGroup i s g zs /\ Forall (frees g) zs)).
    { intro name. eapply members_to_step; [| |exact RG1].
      - apply group_start; [assumption|reflexivity].
      - split; reflexivity. }
    assert (CR : forall h : xhandler U, In h [XForm; XCAT; XProp] ->
       xcreateExtensionChunk h i s e w1 = Done (Some (XGroup i s 0 []), w2)).
    { assert (C0 : xcreateExtensionChunk (@XForm U) i s e w1 = Done (Some (XGroup i s 0 []), w2)).
      { cbn [xcreateExtensionChunk]. unfold bind.
        rewrite malloc_ok_usual by (assumption || unfold sizeof_Group; lia). reflexivity. }
      intros h [<-|[<-|[<-|[]]]]; exact C0. }
    unfold comes_to. rewrite (xreadChunk_header f ft w i s (be32 g ++ l ++ p ++ r)) by assumption.
    fold w1. rewrite xreadChunkBody_eq. rewrite (bind_lift _ _ _ _ _ _ _ (RG ft i)).
    destruct (xexpected_group ext ft i GI) as (h & -> & HI).
    rewrite (bind_done _ _ _ _ _ _ _ _ (CR h HI)).
    assert (EH : exists name, xreadExtensionChunkFields (xreadChunk rg f) f h (XGroup i s 0 []) 0
                              = xreadGroup (xreadChunk rg f) f (XGroup i s 0 []) name 0).
    { destruct HI as [<-|[<-|[<-|[]]]]; eexists; reflexivity. }
    destruct EH as [name ->]. specialize (E name). cbn [decode].
    destruct (all_some (map (decode ext g) subs)) as [ys|].
    - destruct E as (w' & E & L'). rewrite (bind_done _ _ _ _ _ _ _ _ E).
      destruct (xtail_true (XGroup i s g ys) total w w' s ft [] p r) as (w4 & E4 & L4); try assumption.
      + unfold INT_MAX; lia.
      + change (zlength []) with 0. lia.
      + right; reflexivity.
      + exists w4. split; [exact E4|]. split; [apply L4|intros _; exact L4].
    - destruct E as (c & bp & w' & E & O & zs & -> & FZ). rewrite (bind_done _ _ _ _ _ _ _ _ E).
      exists w'. split; [|split; [exact O|congruence]].
      apply xtail_false. apply (xfree_group rg ext RG); [assumption|]. apply Forall_forall. assumption.
  Qed.

  Lemma xreads_list : forall ft s g l members p total,
    in_range FLong s -> in_range FId g -> s <= total ->
    xreads_members g 4 s l members total -> zlength p = s mod 2 ->
    xreads_as ft (be32 LIST_ID ++ be32 s ++ be32 g ++ l ++ p)
      (CList LIST_ID s g (filter is_prop members) (filter (fun c => negb (is_prop c)) members)).
  Proof.
    intros ft s g l members p total SR G TOT RM ZP SZ fuel w r FU MEM SK R.
    destruct fuel as [|f]; [lia|].
    rewrite !app_length in FU. change (List.length (be32 _)) with 4%nat in FU.
    rewrite !zlength_app in MEM. rewrite !be32_length in MEM. pose proof (zlength_nonneg _ p) as ZPN.
    rewrite <- !app_assoc in R.
    assert (IR : in_range FId LIST_ID) by (vm_compute; split; congruence).
    pose proof (half_size_t e) as HS.
    set (w1 := after (be32 g ++ l ++ p ++ r) [] (w_allocs w) w).
    set (w2 := after (rest w1) [] (S (w_allocs w1)) w1).
    assert (L3 : left_at (l ++ p ++ r) w (set_rest (l ++ p ++ r) w2)) by (split; reflexivity).
    assert (SZ1 : forall c, In c members -> Sized ext g c).
    { inversion SZ as [| |? ? ? ? ? ? SP SS]; subst. intros c I. destruct (is_prop c) eqn:PC.
      - apply SP. apply filter_In. auto.
      - apply SS. apply filter_In. rewrite PC. auto. }
    destruct (RM SZ1 f f (set_rest (l ++ p ++ r) w2) (p ++ r)) as [_ RG1];
      [lia|lia|eapply left_at_skip; eassumption|reflexivity|].
    specialize (RG1 [] []). rewrite zlength_nil in RG1.
    specialize (RG1 ltac:(lia) ltac:(lia) ltac:(constructor) ltac:(constructor)).
    unfold comes_to. rewrite (xreadChunk_header f ft w LIST_ID s (be32 g ++ l ++ p ++ r)) by assumption.
    fold w1. rewrite xreadChunkBody_eq. rewrite (bind_lift _ _ _ _ _ _ _ (RG ft LIST_ID)).
    rewrite xexpected_LIST.
    assert (CR : xcreateExtensionChunk (@XLIST U) LIST_ID s e w1 = Done (Some (XList LIST_ID s 0 [] []), w2)).
    { cbn [xcreateExtensionChunk]. unfold bind.
      rewrite malloc_ok_usual by (assumption || unfold sizeof_List; lia). reflexivity. }
    rewrite (bind_done _ _ _ _ _ _ _ _ CR). cbn [xreadExtensionChunkFields].
    rewrite decode_list.
    destruct (all_some (map (decode ext g) members)) as [ys|].
    - destruct RG1 as (w' & E & L'). cbn [List.app] in E.
      unfold bind at 1. rewrite (list_start f s g (l ++ p ++ r)) by (assumption || reflexivity).
      rewrite (bind_done _ _ _ _ _ _ _ _ E).
      destruct (xtail_true (XList LIST_ID s g (filter xprop ys) (filter (fun y => negb (xprop y)) ys)) total w w' s ft [] p r)
        as (w4 & E4 & L4); try assumption.
      + unfold INT_MAX; lia.
      + change (zlength []) with 0. lia.
      + right; reflexivity.
      + exists w4. split; [exact E4|]. split; [apply L4|intros _; exact L4].
    - destruct RG1 as (c & bp & w' & E & O & qs & zs & -> & FQ & FZ).
      unfold bind at 1. rewrite (list_start f s g (l ++ p ++ r)) by (assumption || reflexivity).
      rewrite (bind_done _ _ _ _ _ _ _ _ E). unfold bind at 1, IFF_error at 1. unfold ret at 1.
      eexists. split; [apply xtail_false; apply (xfree_list rg ext RG); apply Forall_forall; assumption|].
      split; [exact O|congruence].
  Qed.

  Theorem xread_parsed :
    (forall ft l c lg, Parsed e no_apps ft l c lg -> xreads_as ft l c) /\
    (forall g bp s l cs lg total, Members e no_apps g bp s l cs lg total -> xreads_members g bp s l cs total /\ s <= total).
  Proof.
    apply (Parsed_Members_ind e no_apps).
    - intros. apply xreads_data; assumption.
    - intros ft i s spec vals skipped p I NG A. discriminate.
    - intros ft i s g l subs p lg total H1 H2 H3 H4 [H5 H6] H7. eapply xreads_group; eassumption.
    - intros ft s g l members p lg total H2 H3 H4 [H5 H6] H7. eapply xreads_list; eassumption.
    - intros g bp s H. split; [apply xmembers_end; assumption|assumption].
    - intros g bp s l c lg bp' l2 cs lg2 total H1 H2 H3 H4 H5 [H6 H7]. split; [|assumption].
      eapply xmembers_next; try eassumption.
      + eapply (proj1 (Parsed_Typed e no_apps)); eassumption.
      + eapply Parsed_length; eassumption.
  Qed.
End Reading.
