(** * Reading with callbacks about which almost nothing is known *)

From Coq Require Import ZArith List Bool String Lia.
From Coq Require Import Strings.Byte.
From Verif Require Import Machine Io Types Build Read Spec Lemmas IoProofs WriteProofs ReadProofs HeapReadProofs TermProofs
  Ext ExtSpec ExtFields ExtReadProofs.
Import ListNotations.
Open Scope Z_scope.

Section Runs.
  Variable e : env.
  Hypothesis NS : strict_c e = false.
  (** Bytes of input, at first *)
  Variable N : Z.

  (** When less than [n] bytes are left: [m] consumes at least [k a] bytes, ends
      as [P] says, and does not run out of steps. *)
  Definition Runs {A} (n : nat) (k : A -> nat) (P : A -> Prop) (m : M A) : Prop := forall w, (left w < n)%nat ->
    match m e w with
    | Done (a, w') => (exists l, r_rest (w_in w) = l ++ r_rest (w_in w') /\ (k a <= List.length l)%nat) /\ P a
    | Undefined u => Excused e N u
    | OutOfFuel => False
    end.

  Lemma Runs_ret : forall A n (k : A -> nat) (P : A -> Prop) a, k a = O -> P a -> Runs n k P (ret a).
  Proof. intros A n k P a H PA w _. split; [|exact PA]. exists []. simpl. split; [reflexivity|lia]. Qed.

  Lemma Runs_bind : forall A B n (k : A -> nat) (P : A -> Prop) (k2 : B -> nat) (Q : B -> Prop) (m : M A) (f : A -> M B),
    Runs n k P m -> (forall a, P a -> Runs (n - k a) (fun b => k2 b - k a)%nat Q (f a)) -> Runs n k2 Q (bind m f).
  Proof.
    intros A B n k P k2 Q m f H F w LW. unfold bind. specialize (H w LW).
    destruct (m e w) as [[a w1]|u|]; [|exact H|exact H]. destruct H as [(l & E & L) PA].
    assert (L1 : (left w1 < n - k a)%nat) by (unfold left in *; rewrite E, app_length in LW; lia).
    specialize (F a PA w1 L1). destruct (f a e w1) as [[b w2]|u|]; [|exact F|exact F].
    destruct F as [(l2 & E2 & L2) Q2]. split; [|exact Q2]. exists (l ++ l2). rewrite E, E2, app_assoc, app_length.
    split; [reflexivity|lia].
  Qed.

  Lemma Runs_weaken : forall A n n' (k k' : A -> nat) (P P' : A -> Prop) m,
    Runs n k P m -> (n' <= n)%nat -> (forall a, k' a <= k a)%nat -> (forall a, P a -> P' a) -> Runs n' k' P' m.
  Proof.
    intros A n n' k k' P P' m H L K PP w LW. specialize (H w ltac:(lia)).
    destruct (m e w) as [[a w1]|u|]; [|exact H|exact H]. destruct H as [(l & E & LL) PA]. specialize (K a).
    split; [|auto]. exists l. split; [exact E|lia].
  Qed.

  Lemma Runs_0 : forall A B n (P : A -> Prop) (Q : B -> Prop) (m : M A) (f : A -> M B) k2,
    Runs n (fun _ => O) P m -> (forall a, P a -> Runs n k2 Q (f a)) -> Runs n k2 Q (bind m f).
  Proof.
    intros A B n P Q m f k2 H F. eapply Runs_bind; [eassumption|]. intros a PA.
    eapply Runs_weaken; [apply F; exact PA|lia|intro; lia|auto].
  Qed.

  Lemma Runs_undefined : forall A n (k : A -> nat) P u, Excused e N u -> Runs n k P (undefined u).
  Proof. intros A n k P u H w _. exact H. Qed.

  Definition any {A} : A -> Prop := fun _ => True.

  Lemma nothing_read : forall w w' : world, r_rest (w_in w) = r_rest (w_in w') ->
    exists l, r_rest (w_in w) = l ++ r_rest (w_in w') /\ (0 <= List.length l)%nat.
  Proof. intros w w' H. exists []. split; [exact H|apply le_n]. Qed.

  Lemma Runs_ask : forall n, Runs n zero (fun x => x = e) ask.
  Proof. intros n w _. split; [apply nothing_read|]; reflexivity. Qed.
  Lemma Runs_error : forall n s, Runs n zero any (IFF_error s).
  Proof. intros n s w _. split; [apply nothing_read; reflexivity|exact I]. Qed.
  Lemma Runs_errorId : forall n i, Runs n zero any (IFF_errorId i).
  Proof. intros n i w _. rewrite run_errorId. split; [apply nothing_read; reflexivity|exact I]. Qed.
  Lemma Runs_malloc : forall n z,
    Runs n zero (fun b : bool => if b then z < 2 ^ (size_t_bits e - 1) else 0 < z <= N -> Excused e N UB_null_deref) (malloc z).
  Proof.
    intros n z w _. split; [apply nothing_read; reflexivity|].
    destruct (Z.ltb_spec z (2 ^ (size_t_bits e - 1))) as [L|L]; cbn [andb].
    - destruct (malloc_ok e (w_allocs w) z) eqn:B; [exact L|]. right. split; [reflexivity|]. exists (w_allocs w), z. auto.
    - right. split; [reflexivity|]. exists (w_allocs w), z. auto.
  Qed.

  (** With nothing to do there is nothing to show. *)
  Lemma Runs_pos : forall A n (k : A -> nat) P m, ((0 < n)%nat -> Runs n k P m) -> Runs n k P m.
  Proof. intros A n k P m H w LW. apply H; [lia|exact LW]. Qed.

  (** The array of [m] members was paid for with 8 bytes each. *)
  Lemma array_size : forall m, 8 * m <= N -> 0 < m -> 0 < m * sizeof_pointer <= N.
  Proof. intros m L P. unfold sizeof_pointer. lia. Qed.
  Lemma Runs_malloc_any : forall n z, Runs n zero any (malloc z).
  Proof. intros. eapply Runs_weaken; [apply Runs_malloc|apply le_n|intro; apply le_n|intros; exact I]. Qed.
  Lemma Runs_fread : forall n z, Runs n (fun l : list byte => List.length l) any (fread z).
  Proof.
    intros n z w _. cbn. split; [|exact I]. exists (ztake z (r_rest (w_in w))). rewrite ztake_zdrop. split; [reflexivity|apply le_n].
  Qed.
  Lemma Runs_fgetc : forall n, Runs n (fun o : option byte => match o with Some _ => 1 | None => 0 end%nat) any fgetc.
  Proof.
    intros n w _. unfold fgetc. destruct (r_rest (w_in w)) as [|b r] eqn:E; (split; [|exact I]).
    - rewrite ?E. exists []. split; [reflexivity|apply le_n].
    - exists [b]. cbn [w_in set_in r_rest]. rewrite ?E. split; [reflexivity|apply le_n].
  Qed.
  Lemma Runs_fseek : forall n z, Runs n zero any (fseek_cur z).
  Proof.
    intros n z w _. unfold fseek_cur. destruct (r_seekable (w_in w)); (split; [|exact I]).
    - exists (ztake z (r_rest (w_in w))). cbn. rewrite ztake_zdrop. split; [reflexivity|apply Nat.le_0_l].
    - apply nothing_read. reflexivity.
  Qed.
  Lemma Runs_lift : forall A n (o : outcome A) (P : A -> Prop),
    match o with Done a => P a | Undefined u => Excused e N u | OutOfFuel => False end -> Runs n zero P (lift o).
  Proof.
    intros A n o P H w _. unfold lift. destruct o as [a|u|]; [|exact H|contradiction].
    split; [apply nothing_read; reflexivity|exact H].
  Qed.

  Lemma overflow_excused : Excused e N UB_signed_overflow.
  Proof. left. reflexivity. Qed.

  Ltac runs :=
    repeat (cbv beta;
    match goal with
    | |- Runs _ _ _ (ret _) => apply Runs_ret; solve [reflexivity | lia | exact I | assumption | unfold any; auto]
    | |- Runs _ _ _ (undefined UB_signed_overflow) => apply Runs_undefined, overflow_excused
    | |- Runs _ _ _ (bind fgetc _) => eapply Runs_bind; [apply Runs_fgetc|intros [?|] _]
    | |- Runs _ _ _ (bind (fread _) _) => eapply Runs_bind; [apply Runs_fread|intros ? _]
    | |- Runs _ _ _ (bind ask _) => eapply Runs_0; [apply Runs_ask|intros ? ->]
    | |- Runs _ _ _ (bind _ _) => eapply Runs_0 with (P := any); [|intros ? _]
    | |- Runs _ _ _ (IFF_error _) => apply Runs_error
    | |- Runs _ _ _ (IFF_errorId _) => apply Runs_errorId
    | |- Runs _ _ _ (malloc _) => apply Runs_malloc_any
    | |- Runs _ _ _ (fseek_cur _) => apply Runs_fseek
    | |- Runs _ _ _ (IFF_readError _ _) => unfold IFF_readError
    | |- Runs _ _ _ (if strict_c e then _ else _) => rewrite NS
    | |- Runs _ _ _ (if strict_c e && _ then _ else _) => rewrite NS; cbn [andb]
    | |- Runs _ _ _ (if ?b then _ else _) => destruct b eqn:?
    | |- Runs _ _ _ (match ?x with _ => _ end) => destruct x eqn:?
    | |- Runs _ _ _ (let x := _ in _) => cbv zeta
    end).

  Lemma read_prim_runs : forall k n i s, Runs n (osize (Z.to_nat (fieldSize k))) any (read_prim k i s).
  Proof.
    assert (L : forall (l : list byte) z, (zlength l =? z) = true -> List.length l = Z.to_nat z).
    { intros l z H. apply Z.eqb_eq in H. unfold zlength in H. lia. }
    intros k n i s. destruct k; cbn [read_prim fieldSize];
      unfold IFF_readUByte, IFF_readUWord, IFF_readWord, IFF_readULong, IFF_readLong, IFF_readId, IFF_readULong, swap_long, osize;
      runs; try (apply Runs_ret; [simpl; lia|exact I]);
      try (match goal with H : (zlength _ =? _) = true |- _ => apply L in H end; apply Runs_ret; [lia|exact I]).
  Qed.

  Lemma readField_runs : forall k n i s a bp, Runs n zero any (IFF_readField k i s a bp).
  Proof.
    intros k n i s a bp. unfold IFF_readField. runs.
    eapply Runs_weaken; [apply read_prim_runs|apply le_n|unfold zero; intro; lia|auto].
  Qed.

  Lemma readLong_runs : forall n i s, Runs n (osize 4) (fun o => match o with Some v => in_range FLong v | None => True end) (IFF_readLong i s).
  Proof.
    intros n i s w LW. pose proof (read_prim_runs FLong n i s w LW) as H. pose proof (readLong_range i s e w) as R.
    cbn [read_prim fieldSize] in H. destruct (IFF_readLong i s e w) as [[[v|] w1]|u|]; [| |exact H|exact H].
    - destruct H as [H _]. split; [exact H|]. exact (R v w1 eq_refl).
    - destruct H as [H _]. split; [exact H|exact I].
  Qed.

  Lemma warning_runs : forall n a b, Runs n zero any (truncated_warning a b).
  Proof. intros. unfold truncated_warning. runs. Qed.

  Lemma skip_runs : forall n i s bp, Runs n zero any (IFF_skipUnknownBytes i s bp).
  Proof. intros. unfold IFF_skipUnknownBytes. runs. Qed.
  Lemma pad_runs : forall n s i, Runs n zero any (IFF_readPaddingByte s i).
  Proof. intros. unfold IFF_readPaddingByte, zero. runs. Qed.
  Lemma andM_runs : forall n m1 m2, Runs n zero any m1 -> Runs n zero any m2 -> Runs n zero any (andM m1 m2).
  Proof. intros. unfold andM. eapply Runs_0; [eassumption|]. intros [|] _; [assumption|runs]. Qed.

  Lemma increment_runs : forall n z c, Runs n zero any (lift (IFF_incrementChunkSize z c)).
  Proof.
    intros. apply Runs_lift. unfold IFF_incrementChunkSize. destruct (INT_MAX <? _); [apply overflow_excused|]. cbv zeta.
    destruct (c_odd _); [|exact I]. destruct (_ =? INT_MAX); [apply overflow_excused|exact I].
  Qed.

  Lemma long_size : forall s, in_range FLong s -> wrap_u (size_t_bits e) s < 2 ^ (size_t_bits e - 1) ->
    wrap_u (size_t_bits e) s = s.
  Proof.
    intros s R L. unfold in_range in R. unfold wrap_u, size_t_bits in *.
    destruct (Z_lt_le_dec s 0) as [NG|NG].
    - exfalso. destruct (lp64 e).
      + rewrite <- (Z.mod_add s 1) in L by lia. rewrite Z.mod_small in L by (cbn in *; lia). cbn in *. lia.
      + rewrite <- (Z.mod_add s 1) in L by lia. rewrite Z.mod_small in L by (cbn in *; lia). cbn in *. lia.
    - apply Z.mod_small. destruct (lp64 e); cbn in *; lia.
  Qed.

  Section Reader.
    Context {U : Type} (rg : xregistry U).
    (** What holds of the structs of each type *)
    Variable inv : Z -> Z -> Z -> Z -> U -> Prop.
    Hypothesis RG : forall ft cid, exists h, xfind_handler rg ft cid = Done h /\
      match h with XLIST => cid = LIST_ID | XCall cb => Tame (inv ft cid) cb | _ => True end.
    (** What shall hold of every chunk that was read *)
    Variable Good : Z -> xchunk U -> Prop.

    Definition XFrees (ft : Z) (c : xchunk U) : Prop := xfreeChunk rg c ft = Done tt.
    Definition XGood (ft : Z) (c : xchunk U) : Prop := XFrees ft c /\ Good ft c.
    Definition ogood (ft : Z) (oc : option (xchunk U)) : Prop := match oc with Some c => XGood ft c | None => True end.
    Definition oxchunk (n : nat) (o : option (xchunk U)) : nat := match o with Some _ => n | None => O end.

    (** What a chunk made by a handler looks like; [ok]: it was read completely. *)
    Definition XMade (ft : Z) (h : xhandler U) (cid s : Z) (ok : bool) (c : xchunk U) : Prop :=
      xid c = cid /\ xsize c = s /\
      match h with
      | XForm | XCAT | XProp => match c with XGroup _ _ g l => forall x, In x l -> XGood g x | _ => False end
      | XLIST => match c with
                 | XList _ _ g p l => (forall x, In x p -> XGood g x /\ xid x = PROP_ID) /\ (forall x, In x l -> XGood g x /\ xid x <> PROP_ID)
                 | _ => False
                 end
      | XRAW => match c with XRaw _ _ d => ok = true -> exists l, d = Some l /\ zlength l = s | _ => False end
      | XCall cb => match c with XUser i z u => inv ft cid i z u | _ => False end
      end.
    Hypothesis GM : forall ft h cid s c, xfind_handler rg ft cid = Done h -> XMade ft h cid s true c -> Good ft c.

    Lemma xfrees_all : forall l g, (forall c, In c l -> XFrees g c) -> xfree_all (xfreeChunk rg) l g = Done tt.
    Proof.
      induction l as [|c l IH]; intros g H; [reflexivity|]. cbn [xfree_all].
      rewrite (H c (or_introl eq_refl)). cbn [obind]. apply IH. intros x I. apply H. right. exact I.
    Qed.

    Lemma XMade_frees : forall ft h cid s ok c, xfind_handler rg ft cid = Done h -> XMade ft h cid s ok c -> XFrees ft c.
    Proof.
      intros ft h cid s ok c F (I & _ & M). unfold XFrees.
      assert (EX : xfreeChunk rg c ft = obind (xfind_handler rg ft (xid c)) (fun h => xfreeExtensionChunk (xfreeChunk rg) h c))
        by (destruct c; reflexivity).
      rewrite EX, I, F. cbn [obind]. clear EX I.
      destruct h as [| | | | |cb]; destruct c as [i z d|i z g l|i z g p l|i z v]; try contradiction;
        cbn [xfreeExtensionChunk]; try reflexivity; try (apply xfrees_all; intros x X; apply (M x X)).
      - destruct M as [MP ML]. rewrite (xfrees_all l g) by (intros x X; apply (ML x X)). cbn [obind].
        apply xfrees_all. intros x X. apply (MP x X).
      - destruct (RG ft cid) as (h & E & K). rewrite F in E. injection E as <-. exact (t_free _ cb K i z v M).
    Qed.

    Section Loops.
      Variable rc : Z -> M (option (xchunk U)).
      Variable n : nat.
      Hypothesis RC : forall ft, Runs n (oxchunk 8) (ogood ft) (rc ft).
      Hypothesis SMALL : Z.of_nat n <= N + 1.
      Variable ft : Z.

      Lemma xgroup_loop_runs : forall f m i s g l bp, (m <= n)%nat -> (m <= f)%nat -> Z.of_nat m + 8 * zlength l <= N + 1 -> (forall x, In x l -> XGood g x) ->
        Runs m zero (fun r => XMade ft XForm i s (fst (fst r)) (snd (fst r))) (xreadGroupSubChunks rc f (XGroup i s g l) g bp).
      Proof.
        induction f as [|f IH]; intros m i s g l bp L F ML LL; cbn [xreadGroupSubChunks xsize];
          (destruct (bp <? s);
           [|eapply Runs_0; [destruct (s <? bp); [apply warning_runs|runs]|intros _ _; apply Runs_ret; [reflexivity|];
              split; [reflexivity|split; [reflexivity|exact LL]]]]).
        - intros w LW. lia.
        - eapply Runs_bind; [eapply Runs_weaken; [apply (RC g)|exact L|intro; apply le_n|intros a H; exact H]|].
          intros [c|] FC; [|apply Runs_ret; [reflexivity|split; [reflexivity|split; [reflexivity|exact LL]]]].
          cbn [oxchunk xattachToGroup]. apply Runs_pos. intro POS.
          eapply Runs_0 with (P := fun x => x = XGroup i s g (l ++ [c])).
          + eapply Runs_0; [apply Runs_malloc|]. intros [|] MO; [apply Runs_ret; reflexivity|apply Runs_undefined, MO, array_size; pose proof (zlength_nonneg _ l); lia].
          + intros x ->. eapply Runs_0; [apply increment_runs|]. intros b2 _.
            eapply Runs_weaken; [apply (IH (m - 8)%nat i s g (l ++ [c]) b2); [lia|lia|rewrite zlength_app, zlength_cons, zlength_nil; lia|]|lia|unfold zero; intro; lia|auto].
            intros x X. apply in_app_or in X. destruct X as [X|[<-|[]]]; [exact (LL x X)|exact FC].
      Qed.

      Lemma xlist_loop_runs : forall f m i s g p l bp, (m <= n)%nat -> (m <= f)%nat -> Z.of_nat m + 8 * (zlength p + zlength l) <= N + 1 ->
        (forall x, In x p -> XGood g x /\ xid x = PROP_ID) -> (forall x, In x l -> XGood g x /\ xid x <> PROP_ID) ->
        Runs m zero (fun r => XMade ft XLIST i s (fst (fst r)) (snd (fst r))) (xreadListSubChunks rc f (XList i s g p l) g bp).
      Proof.
        induction f as [|f IH]; intros m i s g p l bp L F ML LP LL; cbn [xreadListSubChunks xsize];
          (destruct (bp <? s);
           [|eapply Runs_0; [destruct (s <? bp); [apply warning_runs|runs]|intros _ _; apply Runs_ret; [reflexivity|];
              split; [reflexivity|split; [reflexivity|exact (conj LP LL)]]]]).
        - intros w LW. lia.
        - eapply Runs_bind; [eapply Runs_weaken; [apply (RC g)|exact L|intro; apply le_n|intros a H; exact H]|].
          intros [c|] FC; [|apply Runs_ret; [reflexivity|split; [reflexivity|split; [reflexivity|exact (conj LP LL)]]]].
          cbn [oxchunk xattachToGroup xaddPropToList]. apply Runs_pos. intro POS.
          pose proof (zlength_nonneg _ p) as ZP. pose proof (zlength_nonneg _ l) as ZL.
          eapply Runs_0 with (P := fun x => (xid c = PROP_ID /\ x = XList i s g (p ++ [c]) l) \/ (xid c <> PROP_ID /\ x = XList i s g p (l ++ [c]))).
          + destruct (Z.eqb_spec (xid c) IFF_ID_PROP) as [Q|Q];
              (eapply Runs_0; [apply Runs_malloc|]; intros [|] MO; [apply Runs_ret; auto|apply Runs_undefined, MO, array_size; lia]).
          + assert (C : forall (Q : Z -> Prop) q, Q (xid c) -> (forall x, In x q -> XGood g x /\ Q (xid x)) ->
                          forall x, In x (q ++ [c]) -> XGood g x /\ Q (xid x)).
            { intros R q RI Q x X. apply in_app_or in X. destruct X as [X|[<-|[]]]; [exact (Q x X)|split; [exact FC|exact RI]]. }
            intros x H. eapply Runs_0; [apply increment_runs|]. intros b2 _.
            destruct H as [[Q ->] | [Q ->]].
            * eapply Runs_weaken; [apply (IH (m - 8)%nat i s g); [lia|lia|rewrite zlength_app, zlength_cons, zlength_nil; lia|exact (C (fun z => z = PROP_ID) p Q LP)|exact LL]|lia|unfold zero; intro; lia|auto].
            * eapply Runs_weaken; [apply (IH (m - 8)%nat i s g); [lia|lia|rewrite zlength_app, zlength_cons, zlength_nil; lia|exact LP|exact (C (fun z => z <> PROP_ID) l Q LL)]|lia|unfold zero; intro; lia|auto].
      Qed.

      Lemma xgroup_runs : forall f m i s name, (m <= n)%nat -> (m <= f)%nat ->
        Runs m zero (fun r => XMade ft XForm i s (fst (fst r)) (snd (fst r))) (xreadGroup rc f (XGroup i s 0 []) name 0).
      Proof.
        intros f m i s name L F. unfold xreadGroup. eapply Runs_0; [apply readField_runs|]. intros [[st og] bp] _.
        assert (O : Runs m zero (fun r => XMade ft XForm i s (fst (fst r)) (snd (fst r)))
                      (ret (IFF_deriveSuccess st, XGroup i s 0 [], bp))).
        { apply Runs_ret; [reflexivity|]. split; [reflexivity|]. split; [reflexivity|]. intros x []. }
        destruct st; try exact O. destruct og as [g|]; [|exact O].
        apply (xgroup_loop_runs f m i s g [] bp L F); [rewrite zlength_nil; lia|]. intros x [].
      Qed.

      (** What createExtensionChunk makes. *)
      Definition XFresh (h : xhandler U) (cid s : Z) (c : xchunk U) : Prop :=
        match h with
        | XForm | XCAT | XProp => c = XGroup cid s 0 []
        | XLIST => c = XList IFF_ID_LIST s 0 [] []
        | XRAW => c = XRaw cid s None /\ wrap_u (size_t_bits e) s = s
        | XCall cb => exists u, c = XUser cid s u /\ inv ft cid cid s u
        end.

      Lemma xfields_runs : forall f m h cid s c, (m <= n)%nat -> (m <= f)%nat -> in_range FLong s ->
        xfind_handler rg ft cid = Done h -> XFresh h cid s c ->
        Runs m zero (fun r => XMade ft h cid s (fst (fst r)) (snd (fst r))) (xreadExtensionChunkFields rc f h c 0).
      Proof.
        intros f m h cid s c L F R H C.
        destruct h as [| | | | |cb]; cbn [xreadExtensionChunkFields XFresh] in *;
          try (subst c; apply xgroup_runs; assumption).
        - subst c. unfold xreadList.
          assert (LID : IFF_ID_LIST = cid).
          { destruct (RG ft cid) as (h & E & K). rewrite H in E. injection E as <-. symmetry. exact K. }
          rewrite LID. eapply Runs_0; [apply readField_runs|]. intros [[st og] bp] _.
          assert (O : Runs m zero (fun r => XMade ft XLIST cid s (fst (fst r)) (snd (fst r))) (ret (IFF_deriveSuccess st, XList cid s 0 [] [], bp))).
          { apply Runs_ret; [reflexivity|]. split; [reflexivity|]. split; [reflexivity|]. split; intros x []. }
          destruct st; try exact O. destruct og as [g|]; [|exact O].
          eapply Runs_0; [apply (xlist_loop_runs f m cid s g [] [] bp L F); [rewrite zlength_nil; lia|intros x []..]|].
          intros [[[|] c1] b1] MA; cbn [fst snd] in MA.
          + apply Runs_ret; [reflexivity|exact MA].
          + eapply Runs_0; [apply Runs_error|]. intros _ _. apply Runs_ret; [reflexivity|exact MA].
        - destruct C as [-> WU]. unfold xreadRawChunk.
          eapply Runs_0 with (P := fun r : bool * chunk * Z => match snd (fst r) with
            CRaw i z d => i = cid /\ z = s /\ (fst (fst r) = true -> exists l, d = Some l /\ zlength l = s) | _ => False end).
          + unfold IFF_readRawChunk, zero. eapply Runs_0; [apply Runs_ask|]. intros x ->. rewrite WU. cbv zeta.
            eapply Runs_0 with (P := fun l => zlength l <= s).
            { intros w _. cbn. split; [exists (ztake s (r_rest (w_in w))); rewrite ztake_zdrop; split; [reflexivity|apply Nat.le_0_l]|].
              rewrite zlength_ztake. assert (0 <= s) by (rewrite <- WU; unfold wrap_u, size_t_bits; apply Z.mod_pos_bound; destruct (lp64 e); reflexivity). lia. }
            intros l LL. destruct (Z.ltb_spec (zlength l) s) as [S|S].
            * runs; (apply Runs_ret; [reflexivity|]; cbn; split; [reflexivity|split; [reflexivity|discriminate]]).
            * destruct (INT_MAX <? 0 + s); [apply Runs_undefined, overflow_excused|]. apply Runs_ret; [reflexivity|]. cbn.
              split; [reflexivity|]. split; [reflexivity|]. intros _. exists l. split; [reflexivity|lia].
          + intros [[ok c1] bp] MA. cbn [fst snd] in MA. destruct c1 as [i z d| | |]; try contradiction. destruct MA as (-> & -> & FI).
            apply Runs_ret; [reflexivity|]. split; [reflexivity|]. split; [reflexivity|exact FI].
        - destruct C as (u & -> & IV). intros w _.
          destruct (RG ft cid) as (h & E & T). rewrite H in E. injection E as <-.
          destruct (t_read _ cb T cid s u e w NS R IV) as (ok & u' & k & w' & E & (l & CO) & IV').
          unfold bind. rewrite E. cbn. split; [exists l; split; [exact CO|apply Nat.le_0_l]|].
          split; [reflexivity|]. split; [reflexivity|exact IV'].
      Qed.

      Lemma xcreate_runs : forall m h cid s, in_range FLong s -> xfind_handler rg ft cid = Done h ->
        Runs m zero (fun oc => match oc with Some c => XFresh h cid s c | None => True end) (xcreateExtensionChunk h cid s).
      Proof.
        intros m h cid s R H.
        destruct h as [| | | | |cb]; cbn [xcreateExtensionChunk XFresh];
          try (eapply Runs_0; [apply Runs_malloc|]; intros [|] _; apply Runs_ret; solve [reflexivity|exact I]).
        - eapply Runs_0; [apply Runs_ask|]. intros x ->. eapply Runs_0; [apply Runs_malloc|]. intros [|] _.
          + eapply Runs_0; [apply Runs_malloc|]; intros [|] SM; apply Runs_ret; try solve [reflexivity|exact I].
            split; [reflexivity|]. exact (long_size s R SM).
          + apply Runs_ret; [reflexivity|exact I].
        - destruct (RG ft cid) as (h & E & T). rewrite H in E. injection E as <-.
          intros w _. destruct (t_create _ cb T cid s e w NS R) as (ou & w' & E & (l & CO) & IV).
          unfold bind. rewrite E. cbn. split; [exists l; split; [exact CO|apply Nat.le_0_l]|].
          destruct ou as [u|]; [|exact I]. exists u. auto.
      Qed.

      Lemma xbody_runs : forall f m cid s, (m <= n)%nat -> (m <= f)%nat -> in_range FLong s ->
        Runs m zero (ogood ft) (xreadChunkBody rc rg f cid s ft).
      Proof.
        intros f m cid s L F R. unfold xreadChunkBody.
        eapply Runs_0 with (P := fun h => xfind_handler rg ft cid = Done h).
        { apply Runs_lift. destruct (RG ft cid) as (h & E & _). rewrite E. reflexivity. }
        intros h H. eapply Runs_0; [eapply xcreate_runs; eassumption|]. intros [c|] C; [|apply Runs_ret; [reflexivity|exact I]].
        eapply Runs_0; [eapply xfields_runs; eassumption|]. intros [[ok c1] bp] MA. cbn [fst snd] in MA.
        pose proof (XMade_frees ft h cid s ok c1 H MA) as FR.
        eapply Runs_0 with (P := fun b => b = true -> ok = true).
        - unfold andM at 1. apply Runs_0 with (P := fun b => b = ok); [apply Runs_ret; reflexivity|]. intros b ->.
          destruct ok; [|apply Runs_ret; [reflexivity|discriminate]].
          eapply Runs_weaken; [apply andM_runs; [apply skip_runs|apply pad_runs]|apply le_n|intro; apply le_n|auto].
        - intros [|] OK.
          + apply Runs_ret; [reflexivity|]. split; [exact FR|]. rewrite (OK eq_refl) in MA. exact (GM ft h cid s c1 H MA).
          + eapply Runs_0 with (P := any); [apply Runs_lift; rewrite FR; exact I|]. intros _ _.
            apply Runs_ret; [reflexivity|exact I].
      Qed.
    End Loops.

    Theorem xreadChunk_runs : forall fuel ft, Z.of_nat fuel <= N + 1 -> Runs fuel (oxchunk 8) (ogood ft) (xreadChunk rg fuel ft).
    Proof.
      induction fuel as [|f IH]; intros ft SM; cbn [xreadChunk].
      - intros w LW. lia.
      - change (IFF_readId ID_EMPTY "") with (read_prim FId ID_EMPTY "").
        eapply Runs_bind; [apply read_prim_runs|]. intros [i|] _; [|apply Runs_ret; [reflexivity|exact I]].
        eapply Runs_bind; [apply readLong_runs|]. intros [s|] R; [|apply Runs_ret; [reflexivity|exact I]].
        eapply Runs_weaken.
        + apply (xbody_runs _ f (fun ft => IH ft ltac:(lia)) ltac:(lia) ft f f); [apply le_n|apply le_n|exact R].
        + cbn [osize fieldSize]. change (Z.to_nat 4) with 4%nat. lia.
        + intros [c|]; cbn [oxchunk osize fieldSize]; change (Z.to_nat 4) with 4%nat; unfold zero; lia.
        + intros a H; exact H.
    Qed.

    Theorem xreadFd_good : forall w, N = zlength (r_rest (w_in w)) ->
      match xreadFd rg e w with
      | Done (oc, w') => Consumes w w' /\ ogood 0 oc
      | Undefined u => Excused e N u
      | OutOfFuel => False
      end.
    Proof.
      intros w NW. unfold xreadFd. fold (left w).
      assert (E : Runs (S (left w)) zero (ogood 0)
         (oc <- xreadChunk rg (S (left w)) 0 ;;
          match oc with
          | None => IFF_error ("ERROR: cannot open main chunk!" ++ nl)%string ;;; ret None
          | Some c =>
             ob <- fgetc ;;
             match ob with
             | None => ret (Some c)
             | Some b =>
                 IFF_error ("WARNING: Trailing IFF contents found: " ++ dec (b2z b) ++ "!" ++ nl)%string ;;;
                 ret (Some c)
             end
          end)).
      { eapply Runs_0; [eapply Runs_weaken; [apply xreadChunk_runs; unfold left; rewrite NW; unfold zlength; lia|apply le_n|intro; apply Nat.le_0_l|intros a H; exact H]|].
        unfold zero. intros [c|] FC.
        - eapply Runs_bind; [apply Runs_fgetc|]. intros [b|] _; [|apply Runs_ret; [reflexivity|exact FC]].
          eapply Runs_0; [apply Runs_error|]. intros _ _. apply Runs_ret; [reflexivity|exact FC].
        - eapply Runs_0; [apply Runs_error|]. intros _ _. apply Runs_ret; [reflexivity|exact I]. }
      specialize (E w (Nat.lt_succ_diag_r _)). destruct (bind _ _ e w) as [[oc w']|u|]; [|exact E|exact E].
      destruct E as [(l & C & _) FR]. split; [exists l; exact C|exact FR].
    Qed.
  End Reader.

  (** Any invariants will do: their union is one. *)
  Lemma Tame_union : forall U (Inv : Z -> Z -> U -> Prop) cb, Tame Inv cb ->
    Tame (fun i s u => exists Inv, Tame Inv cb /\ Inv i s u) cb.
  Proof.
    intros U Inv cb T. constructor.
    - intros i s e1 w NS1 R. destruct (t_create Inv cb T i s e1 w NS1 R) as (ou & w' & E & C & IV).
      exists ou, w'. split; [exact E|]. split; [exact C|]. destruct ou as [u|]; [|exact I]. exists Inv. auto.
    - intros i s u e1 w NS1 R (J & TJ & IV). destruct (t_read J cb TJ i s u e1 w NS1 R IV) as (ok & u' & k & w' & E & C & IV').
      exists ok, u', k, w'. split; [exact E|]. split; [exact C|]. exists J. auto.
    - intros i s u (J & TJ & IV). exact (t_free J cb TJ i s u IV).
  Qed.

  Theorem xreadFd_runs : forall U (rg : xregistry U), TameRegistry rg -> forall w, N = zlength (r_rest (w_in w)) ->
    match xreadFd rg e w with
    | Done (oc, w') => Consumes w w' /\ match oc with Some c => xfreeChunk rg c 0 = Done tt | None => True end
    | Undefined u => Excused e N u
    | OutOfFuel => False
    end.
  Proof.
    intros U rg TR w NW.
    pose proof (xreadFd_good rg (fun ft cid i s u => match xfind_handler rg ft cid with
                 Done (XCall cb) => exists Inv, Tame Inv cb /\ Inv i s u | _ => False end)) as H.
    specialize (H ltac:(intros ft cid; destruct (TR ft cid) as (h & E & K); exists h; split; [exact E|];
      destruct h; try exact K; rewrite E; destruct K as [Inv T]; exact (Tame_union _ Inv _ T))).
    specialize (H (fun _ _ => True) (fun _ _ _ _ _ _ _ => Logic.I) w NW).
    destruct (xreadFd rg e w) as [[oc w']|u|]; [|exact H|exact H]. destruct H as [C G]. split; [exact C|].
    destruct oc as [c|]; [exact (proj1 G)|exact I].
  Qed.
End Runs.

(** ** Field lists and colour maps are tame *)

Lemma fields_tame : forall spec, Tame (fun _ _ u => map fst u = map fd_kind (fs_fields spec)) (fields_callbacks spec).
Proof.
  intro spec. constructor.
  - intros i s e w NS R. cbn [fields_callbacks cb_create]. unfold create_fields, bind, malloc. cbn.
    match goal with |- context [if ?b then _ else _] => destruct b end;
      (eexists _, _; split; [reflexivity|]; split; [exists []; reflexivity|]); cbn; [|exact I].
    rewrite map_map. reflexivity.
  - intros i s u e w NS R IV. cbn [fields_callbacks cb_read read_fields_chunk].
    rewrite (proj2 (fkinds_eqb_spec _ _) IV).
    assert (RD : forall ds vals bp n, map fst vals = map fd_kind ds ->
              Runs e 0 n zero (fun r => map fst (snd (fst r)) = map fd_kind ds) (read_fields ds vals i s bp)).
    { induction ds as [|d ds IH]; intros [|v vals] bp n K; try discriminate; cbn [read_fields];
        [apply Runs_ret; [reflexivity|exact K]|]. cbn [map] in K. pose proof K as K0. injection K as K1 K2.
      eapply Runs_0; [apply (readField_runs e NS)|]. intros [[st o] b2] _.
      assert (O : Runs e 0 n zero (fun r => map fst (snd (fst r)) = map fd_kind (d :: ds)) (ret (IFF_deriveSuccess st, v :: vals, b2)))
        by (apply Runs_ret; [reflexivity|exact K0]).
      destruct st; try exact O. destruct o as [x|]; [|exact O].
      eapply Runs_0; [apply (IH vals b2 n K2)|]. intros [[ok vs] b3] V. apply Runs_ret; [reflexivity|].
      cbn [fst snd map] in *. rewrite V. reflexivity. }
    specialize (RD (fs_fields spec) u 0 (S (left w)) IV w (Nat.lt_succ_diag_r _)). unfold bind.
    assert (NU : forall ds vals bp w0, match read_fields ds vals i s bp e w0 with Undefined _ => False | _ => True end).
    { clear RD. induction ds as [|d ds IH]; intros [|v vals] bp w0; try exact I. cbn [read_fields].
      unfold bind at 1. unfold IFF_readField at 1. unfold bind at 1, ask at 1. cbv beta iota.
      destruct (fieldDoesNotFitInChunk _ _ _ _); [exact I|].
      assert (NP : forall k nm w1, match read_prim k i nm e w1 with Undefined _ => False | _ => True end).
      { intros k nm w1. destruct (Z_lt_le_dec (zlength (rest w1)) (fieldSize k)) as [S|S].
        - rewrite (read_prim_short k e w1 i nm) by exact S. exact I.
        - assert (ZL : zlength (ztake (fieldSize k) (rest w1)) = fieldSize k)
            by (rewrite zlength_ztake; pose proof (fieldSize_range k); lia).
          destruct (be_field_surj k _ ZL) as (x & RX & EX).
          rewrite (read_prim_ok k e w1 x (zdrop (fieldSize k) (rest w1)) i nm) by
            (try (left; exact NS); try exact RX; rewrite EX; symmetry; apply ztake_zdrop). exact I. }
      specialize (NP (fd_kind d) (fd_name d) w0). unfold bind at 1.
      destruct (read_prim (fd_kind d) i (fd_name d) e w0) as [[[x|] w1]|uu|]; [|exact I|contradiction|exact I].
      cbn [ret]. cbv beta iota. unfold bind.
      specialize (IH vals (increaseBytesProcessed bp (fieldSize (fd_kind d))) w1).
      destruct (read_fields ds vals i s (increaseBytesProcessed bp (fieldSize (fd_kind d))) e w1) as [[[[ok vs] b3] w2]|uu|];
        [exact I|contradiction|exact I]. }
    specialize (NU (fs_fields spec) u 0 w).
    destruct (read_fields (fs_fields spec) u i s 0 e w) as [[[[ok vs] bp] w1]|uu|]; [|contradiction|contradiction].
    destruct RD as [(l & C & _) V]. cbn. exists ok, vs, bp, w1. split; [reflexivity|]. split; [exists l; exact C|exact V].
  - intros. reflexivity.
Qed.

Lemma readField_done : forall e k i s nm bp w, strict_c e = false ->
  exists r w', IFF_readField k i s nm bp e w = Done (r, w') /\ Consumes w w'.
Proof.
  intros e k i s nm bp w NS. unfold IFF_readField, bind, ask. cbv beta iota.
  destruct (fieldDoesNotFitInChunk _ _ _ _); [eexists _, _; split; [reflexivity|exists []; reflexivity]|].
  destruct (Z_lt_le_dec (zlength (rest w)) (fieldSize k)) as [S|S].
  - rewrite (read_prim_short k e w i nm) by exact S. eexists _, _. split; [reflexivity|].
    exists (rest w). cbn. rewrite app_nil_r. reflexivity.
  - assert (ZL : zlength (ztake (fieldSize k) (rest w)) = fieldSize k)
      by (rewrite zlength_ztake; pose proof (fieldSize_range k); lia).
    destruct (be_field_surj k _ ZL) as (x & RX & EX).
    rewrite (read_prim_ok k e w x (zdrop (fieldSize k) (rest w)) i nm) by
      (try (left; exact NS); try exact RX; rewrite EX; symmetry; apply ztake_zdrop).
    eexists _, _. split; [reflexivity|]. exists (ztake (fieldSize k) (rest w)). cbn. symmetry. apply ztake_zdrop.
Qed.

Lemma Consumes_trans : forall w1 w2 w3, Consumes w1 w2 -> Consumes w2 w3 -> Consumes w1 w3.
Proof. intros w1 w2 w3 [a A] [b B]. exists (a ++ b). rewrite A, B, app_assoc. reflexivity. Qed.

Lemma cmap_tame : Tame (fun _ _ _ => True) cmap_callbacks.
Proof.
  constructor.
  - intros i s e w NS R. cbn [cmap_callbacks cb_create]. unfold bind, malloc. cbn.
    match goal with |- context [if ?b then _ else _] => destruct b end;
      (eexists _, _; split; [reflexivity|]; split; [exists []; reflexivity|exact I]).
  - intros i s u e w NS R _. cbn [cmap_callbacks cb_read].
    assert (RC : forall n bp w0, exists r w', read_colours n i s bp e w0 = Done (r, w') /\ Consumes w0 w').
    { induction n as [|n IH]; intros bp w0; cbn [read_colours]; [eexists _, _; split; [reflexivity|exists []; reflexivity]|].
      destruct (readField_done e FUByte i s "red" bp w0 NS) as ([[st1 o1] b1] & w1 & E1 & C1).
      rewrite (bind_done _ _ _ _ _ _ _ _ E1). destruct st1, o1 as [r|]; try (eexists _, _; split; [reflexivity|exact C1]).
      destruct (readField_done e FUByte i s "green" b1 w1 NS) as ([[st2 o2] b2] & w2 & E2 & C2).
      rewrite (bind_done _ _ _ _ _ _ _ _ E2). pose proof (Consumes_trans _ _ _ C1 C2) as C12.
      destruct st2, o2 as [g|]; try (eexists _, _; split; [reflexivity|exact C12]).
      destruct (readField_done e FUByte i s "blue" b2 w2 NS) as ([[st3 o3] b3] & w3 & E3 & C3).
      rewrite (bind_done _ _ _ _ _ _ _ _ E3). pose proof (Consumes_trans _ _ _ C12 C3) as C13.
      destruct st3, o3 as [b|]; try (eexists _, _; split; [reflexivity|exact C13]).
      destruct (IH b3 w3) as ([[ok l] b4] & w4 & E4 & C4). rewrite (bind_done _ _ _ _ _ _ _ _ E4).
      eexists _, _. split; [reflexivity|]. exact (Consumes_trans _ _ _ C13 C4). }
    destruct (s mod 3 =? 0).
    + destruct (RC (Z.to_nat (s / 3)) 0 w) as ([[ok l] b] & w' & E & C). exists ok, l, b, w'. auto.
    + eexists _, _, _, _. split; [reflexivity|]. split; [exists []; reflexivity|exact I].
  - intros. reflexivity.
Qed.
