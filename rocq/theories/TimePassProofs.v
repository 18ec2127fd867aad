(** * What calls that only look at a tree cost *)

From Coq Require Import ZArith List Bool String Lia.
From Coq Require Import Strings.Byte.
From Verif Require Import Machine Io Types Build Read Write Check Compare Print Iff Heap HeapSpec HeapPass HeapProofs SessionSpec ThreadSpec ThreadStepProofs TimeSpec TimeProofs.
Import ListNotations.
Open Scope Z_scope.

(** ** Output and messages *)

Definition talks {A} (m : M A) (c : A -> Z) : Prop := forall e w a w', m e w = Done (a, w') ->
  w_in w' = w_in w /\ said w <= said w' /\ said w' - said w <= c a.

Lemma ta_weaken : forall A (m : M A) c c', talks m c -> (forall a, c a <= c' a) -> talks m c'.
Proof. intros A m c c' P L e w a w' R. destruct (P e w a w' R) as (X & Y & Z). specialize (L a). split; [exact X|]. lia. Qed.
Lemma ta_ret : forall A (a : A), talks (ret a) (fun _ => 0).
Proof. intros A a e w b w' R. injection R as _ <-. split; [reflexivity|lia]. Qed.
Lemma ta_ret' : forall A (a : A) (c : A -> Z), 0 <= c a -> talks (ret a) c.
Proof. intros A a c L e w b w' R. injection R as <- <-. split; [reflexivity|lia]. Qed.
Lemma ta_undefined : forall A u c, talks (@undefined A u) c.
Proof. intros A u c e w a w' R. discriminate. Qed.
Lemma ta_ask : talks ask (fun _ => 0).
Proof. intros e w b w' R. injection R as _ <-. split; [reflexivity|lia]. Qed.
Lemma ta_lift : forall A (o : outcome A), talks (lift o) (fun _ => 0).
Proof. intros A [a|u|] e w b w' R; try discriminate. injection R as _ <-. split; [reflexivity|lia]. Qed.
Lemma ta_malloc : forall n, talks (malloc n) (fun _ => 0).
Proof. intros n e w b w' R. injection R as _ <-. unfold said, messages. cbn. split; [reflexivity|lia]. Qed.
Lemma ta_error : forall s, talks (IFF_error s) (fun _ => 1).
Proof. intros s e w b w' R. injection R as _ <-. unfold said, messages. cbn [w_in w_log List.length]. split; [reflexivity|lia]. Qed.
Lemma ta_fwrite : forall l, talks (fwrite l) (fun _ => 0).
Proof. intros l e w b w' R. unfold fwrite in R. destruct (put_bytes l (w_out w)) as [ok f]. injection R as _ <-. unfold said, messages. cbn. split; [reflexivity|lia]. Qed.
Lemma ta_bind : forall A C (m : M A) (k : A -> M C) c1 c, talks m c1 -> (forall a, talks (k a) (fun b => c b - c1 a)) -> talks (bind m k) c.
Proof.
  intros A C m k c1 c P Q e w b w2 R. unfold bind in R. destruct (m e w) as [[a w']|u|] eqn:RM; [|discriminate|discriminate].
  destruct (P e w a w' RM) as (X & Y & Z). destruct (Q a e w' b w2 R) as (X' & Y' & Z'). cbv beta in Z'. split; [congruence|]. lia.
Qed.
Create HintDb ta.
#[export] Hint Resolve ta_ret ta_undefined ta_ask ta_lift ta_malloc ta_error ta_fwrite : ta.
Ltac ta_leaf := intros; cbv iota; repeat match goal with |- context [match ?x with _ => _ end] => is_var x; destruct x end; try lia.
Ltac ta_one :=
  first
    [ match goal with |- talks (bind _ _) _ => eapply ta_bind; [solve [eauto 2 with ta]|intros; cbv beta] end
    | match goal with |- talks (if ?x then _ else _) _ => destruct x eqn:? end
    | match goal with |- talks (match ?x with _ => _ end) _ => destruct x eqn:? end
    | match goal with |- talks (let x := _ in _) _ => cbv zeta end
    | apply ta_undefined
    | apply ta_ret'; ta_leaf
    | eapply ta_weaken; [solve [eauto 2 with ta]|ta_leaf] ].
Ltac ta := intros; repeat ta_one.

Lemma ta_errorId : forall i, talks (IFF_errorId i) (fun _ => 4).
Proof. intro i. unfold IFF_errorId. eapply ta_bind; [apply ta_ask|]. intros e. unfold IFF_idToString. ta. Qed.
#[export] Hint Resolve ta_errorId : ta.
Lemma ta_writeError : forall i a, talks (IFF_writeError i a) (fun _ => 6).
Proof. unfold IFF_writeError. ta. Qed.
Lemma ta_message : forall a i b, talks (IFF_error a ;;; IFF_errorId i ;;; IFF_error b) (fun _ => 6).
Proof. ta. Qed.
Lemma ta_swap : forall e v, talks (swap_long e v) (fun _ => 0).
Proof. unfold swap_long. ta. Qed.
#[export] Hint Resolve ta_writeError ta_message ta_swap : ta.
Lemma ta_native : forall (b : bool) e v, talks (if b then ret v else swap_long e v) (fun _ => 0).
Proof. ta. Qed.
#[export] Hint Resolve ta_native : ta.
Lemma ta_prim : forall k v i a, talks (write_prim k v i a) (fun _ => 6).
Proof. intros k v i a. destruct k; unfold write_prim, IFF_writeId, IFF_writeUByte, IFF_writeUWord, IFF_writeWord, IFF_writeULong, IFF_writeLong, fputc; ta. Qed.
#[export] Hint Resolve ta_prim : ta.
Lemma ta_writeId : forall v i a, talks (IFF_writeId v i a) (fun _ => 6).
Proof. exact (ta_prim FId). Qed.
Lemma ta_writeLong : forall v i a, talks (IFF_writeLong v i a) (fun _ => 6).
Proof. exact (ta_prim FLong). Qed.
Lemma ta_prim_ok : forall k v i a, talks (write_prim k v i a) (fun ok : bool => if ok then 0 else 6).
Proof. intros k v i a. destruct k; unfold write_prim, IFF_writeId, IFF_writeUByte, IFF_writeUWord, IFF_writeWord, IFF_writeULong, IFF_writeLong, fputc; ta. Qed.
Lemma ta_writeField : forall k v i s a b, talks (IFF_writeField k v i s a b) (fun r => match r with (FIELD_FAILURE, _) => 6 | _ => 0 end).
Proof. intros k v i s a b. unfold IFF_writeField. eapply ta_bind; [apply ta_ask|]. intro e. destruct (fieldDoesNotFitInChunk _ _ _ _); [ta|]. eapply ta_bind; [apply ta_prim_ok|]. intros []; ta. Qed.
#[export] Hint Resolve ta_writeId ta_writeLong ta_writeField : ta.
Lemma ta_write_fields : forall ds vals i s b, talks (write_fields ds vals i s b) (fun _ => 6).
Proof.
  induction ds as [|d ds IH]; intros vals i s b; cbn [write_fields]; [ta|]. destruct vals as [|[k v] vals]; [ta|].
  eapply ta_bind; [apply ta_writeField|]. intros [[] bp]; cbv beta iota; ta.
Qed.
Lemma ta_filler : forall i s b, talks (IFF_writeZeroFillerBytes i s b) (fun _ => 6).
Proof. unfold IFF_writeZeroFillerBytes. ta. Qed.
Lemma ta_padding : forall s i, talks (IFF_writePaddingByte s i) (fun _ => 6).
Proof. unfold IFF_writePaddingByte, fputc. ta. Qed.
Lemma ta_not_allowed : forall i s, talks (not_allowed i s) (fun _ => 6).
Proof. unfold not_allowed. ta. Qed.
#[export] Hint Resolve ta_write_fields ta_filler ta_padding ta_not_allowed : ta.
Lemma ta_idChars : forall l, talks (checkIdChars l) (fun ok : bool => if ok then 0 else 1).
Proof. induction l as [|c l IH]; cbn [checkIdChars]; ta. Qed.
#[export] Hint Resolve ta_idChars : ta.
Lemma ta_checkId : forall i, talks (IFF_checkId i) (fun _ => 1).
Proof. unfold IFF_checkId. ta. Qed.
Lemma ta_typeChars : forall l, talks (checkFormTypeChars l) (fun ok : bool => if ok then 0 else 1).
Proof. induction l as [|c l IH]; cbn [checkFormTypeChars]; ta. Qed.
#[export] Hint Resolve ta_checkId ta_typeChars : ta.
Lemma ta_checkFormType : forall i, talks (IFF_checkFormType i) (fun _ => 8).
Proof. unfold IFF_checkFormType. ta. Qed.
#[export] Hint Resolve ta_checkFormType : ta.

(** ** The chunks of a tree, found by following pointers *)

Definition elems (h : heap) (p : ptr) (n : nat) : list addr :=
  match p with
  | None => []
  | Some d => match lookup h d with Some (OArray l) => firstn n l | _ => [] end
  end.
Definition members (h : heap) (b : body) : list addr :=
  match b with
  | BGroup _ n arr => elems h arr n
  | BList _ n arr pn parr => elems h arr n ++ elems h parr pn
  | _ => []
  end.
Fixpoint load (n : nat) (h : heap) (a : addr) : nat :=
  match n with
  | O => 0
  | S n => S (match lookup h a with Some (OChunk _ b) => list_sum (map (load n h) (members h b)) | _ => 0 end)
  end.
Definition lo (h : heap) (a : addr) : Z := Z.of_nat (load (List.length h) h a).
Definition los (h : heap) (l : list addr) : Z := fold_right (fun a s => lo h a + s) 0 l.
Definition T (h : heap) (a : addr) : Prop := exists c p F, tree_at h c p a F /\ (height c <= List.length h)%nat.

Lemma elems_array : forall h p l F, array_at h p l F -> elems h p (List.length l) = l.
Proof. intros h p l F [(-> & -> & _)|(d & -> & L & _)]; [reflexivity|]. cbn [elems]. rewrite L. apply firstn_all. Qed.

Lemma load_trees : forall h n l p la F, (forall c p a F, tree_at h c p a F -> (height c <= n)%nat -> load n h a = chunks c) ->
  trees_at (tree_at h) l p la F -> (fold_right (fun x m => Nat.max (height x) m) 0 l <= n)%nat -> map (load n h) la = map chunks l.
Proof.
  intros h n l p la F IH. revert la F. induction l as [|c l IHl]; intros [|a la] F TR L; cbn in TR; try contradiction; [reflexivity|].
  destruct TR as (F1 & F2 & TA & TR & _). cbn [fold_right] in L. cbn [map]. rewrite (IH _ _ _ _ TA ltac:(lia)), (IHl _ _ TR ltac:(lia)). reflexivity.
Qed.
Lemma load_tree : forall h n c p a F, tree_at h c p a F -> (height c <= n)%nat -> load n h a = chunks c.
Proof.
  intros h n. induction n as [|n IH]; intros c p a F TA L; [destruct c; cbn in L; lia|].
  destruct c as [i s d|i s g l|i s g ps l|i s v]; cbn [tree_at] in TA.
  - destruct TA as (b & size & LA & _). cbn [load chunks]. rewrite LA. reflexivity.
  - destruct TA as (arr & la & Fa & Fl & LA & AR & TR & _). cbn [load chunks]. rewrite LA. cbn [members]. rewrite (elems_array _ _ _ _ AR).
    cbn [height] in L. rewrite (load_trees h n l _ la Fl IH TR ltac:(lia)). reflexivity.
  - destruct TA as (arr & la & Fa & Fl & parr & pa & Fb & Fp & LA & AR & TR & AP & TP & _). cbn [load chunks]. rewrite LA. cbn [members].
    rewrite (elems_array _ _ _ _ AR), (elems_array _ _ _ _ AP). cbn [height] in L.
    rewrite map_app, list_sum_app, (load_trees h n l _ la Fl IH TR ltac:(lia)), (load_trees h n ps _ pa Fp IH TP ltac:(lia)). lia.
  - destruct TA as (LA & _). cbn [load chunks]. rewrite LA. reflexivity.
Qed.
Lemma lo_pos : forall h a, 0 <= lo h a.
Proof. intros h a. unfold lo. lia. Qed.
Lemma los_pos : forall h l, 0 <= los h l.
Proof. intros h l. induction l as [|a l IH]; cbn [los fold_right]; [lia|]. fold (los h l). pose proof (lo_pos h a). lia. Qed.
Lemma los_app : forall h l k, los h (l ++ k) = los h l + los h k.
Proof. intros h l k. induction l as [|a l IH]; [reflexivity|]. cbn [List.app]. unfold los in *. cbn [fold_right]. lia. Qed.
Lemma trees_T : forall h l p la F, trees_at (tree_at h) l p la F -> (fold_right (fun x m => Nat.max (height x) m) 0 l <= List.length h)%nat ->
  Forall (T h) la /\ los h la = Z.of_nat (list_sum (map chunks l)).
Proof.
  intros h l p. induction l as [|c l IH]; intros [|a la] F TR L; cbn in TR; try contradiction; [split; [constructor|reflexivity]|].
  destruct TR as (F1 & F2 & TA & TR & _). cbn [fold_right] in L. destruct (IH _ _ TR ltac:(lia)) as (X & Y). split.
  - constructor; [exists c, p, F1; split; [exact TA|lia]|exact X].
  - cbn [los fold_right map]. fold (los h la). rewrite Y. unfold lo. rewrite (load_tree h (List.length h) c p a F1 TA ltac:(lia)). change (list_sum (chunks c :: map chunks l)) with (chunks c + list_sum (map chunks l))%nat. lia.
Qed.
Lemma T_step : forall h a hd b, T h a -> lookup h a = Some (OChunk hd b) -> lo h a = 1 + los h (members h b) /\ Forall (T h) (members h b).
Proof.
  intros h a hd b (c & p & F & TA & L) LK. assert (E : lo h a = Z.of_nat (chunks c)) by (unfold lo; rewrite (load_tree h _ c p a F TA L); reflexivity). rewrite E.
  destruct c as [i s d|i s g l|i s g ps l|i s v]; cbn [tree_at] in TA.
  - destruct TA as (x & size & LA & _). rewrite LA in LK. injection LK as <- <-. split; [reflexivity|constructor].
  - destruct TA as (arr & la & Fa & Fl & LA & AR & TR & _). rewrite LA in LK. injection LK as <- <-. cbn [members]. rewrite (elems_array _ _ _ _ AR).
    cbn [height] in L. destruct (trees_T h l _ la Fl TR ltac:(lia)) as (X & Y). split; [rewrite Y; cbn [chunks]; lia|exact X].
  - destruct TA as (arr & la & Fa & Fl & parr & pa & Fb & Fp & LA & AR & TR & AP & TP & _). rewrite LA in LK. injection LK as <- <-. cbn [members].
    rewrite (elems_array _ _ _ _ AR), (elems_array _ _ _ _ AP). cbn [height] in L.
    destruct (trees_T h l _ la Fl TR ltac:(lia)) as (X & Y). destruct (trees_T h ps _ pa Fp TP ltac:(lia)) as (X2 & Y2).
    split; [rewrite los_app, Y, Y2; cbn [chunks]; lia|]. apply Forall_app. split; assumption.
  - destruct TA as (LA & _). rewrite LA in LK. injection LK as <- <-. split; [reflexivity|constructor].
Qed.
Lemma T_list : forall h a hd g n arr pn parr, T h a -> lookup h a = Some (OChunk hd (BList g n arr pn parr)) ->
  lo h a = 1 + los h (elems h arr n) + los h (elems h parr pn) /\ Forall (T h) (elems h arr n) /\ Forall (T h) (elems h parr pn).
Proof. intros h a hd g n arr pn parr TA L. destruct (T_step h a hd _ TA L) as (X & Y). cbn [members] in *. rewrite los_app in X. apply Forall_app in Y. split; [lia|exact Y]. Qed.

(** ** Calls that change nothing *)

Definition sees {A} (P : heap -> Prop) (m : H A) (c : heap -> A -> Z) : Type :=
  { t : task A | takes_apart t m /\ forall e w h a w' h', P h -> perform t e w h = Done (a, w', h') ->
      h' = h /\ w_in w' = w_in w /\ Z.of_nat (effort t e w h) <= c h a }.

Lemma se_weaken : forall A (P Q : heap -> Prop) (m : H A) c c', sees Q m c -> (forall h, P h -> Q h) -> (forall h a, P h -> c h a <= c' h a) -> sees P m c'.
Proof. intros A P Q m c c' [t [TT C]] I L. exists t. split; [exact TT|]. intros e w h a w' h' PH R. destruct (C e w h a w' h' (I h PH) R) as (X & Y & Z). specialize (L h a PH). split; [exact X|split; [exact Y|lia]]. Defined.
Lemma se_ret : forall A (P : heap -> Prop) (a : A) (c : heap -> A -> Z), (forall h, P h -> 0 <= c h a) -> sees P (hret a) c.
Proof. intros A P a c L. exists (TRet a). split; [intros e w h; reflexivity|]. intros e w h b w' h' PH R. injection R as <- <- <-. specialize (L h PH). cbn [effort]. split; [reflexivity|split; [reflexivity|lia]]. Defined.
Lemma se_undefined : forall A P u c, sees P (@hundefined A u) c.
Proof. intros A P u c. exists (TUndefined u). split; [intros e w h; reflexivity|]. discriminate. Defined.
Lemma se_nofuel : forall A P c, sees P (@hnofuel A) c.
Proof. intros A P c. exists TNoFuel. split; [intros e w h; reflexivity|]. discriminate. Defined.
Lemma se_io : forall A P (m : M A) c, talks m c -> sees P (io m) (fun _ a => 1 + c a).
Proof.
  intros A P m c TM. exists (TIo m TRet). split; [intros e w h; cbn; unfold hbind, io, hret; destruct (m e w) as [[x w']|u|]; reflexivity|].
  intros e w h a w' h' PH R. cbn [perform effort] in *. unfold hbind, io, hret in R. destruct (m e w) as [[x w1]|u|] eqn:RM; [|discriminate|discriminate]. injection R as <- <- <-.
  destruct (TM e w x w1 RM) as (X & Y & Z). split; [reflexivity|]. split; [exact X|]. assert (U : unread w1 = unread w) by (unfold unread; rewrite X; reflexivity). unfold said in *. lia.
Defined.
Lemma se_load : forall P a, sees P (hload a) (fun _ _ => 1).
Proof.
  intros P a. exists (TLoad a TRet). split; [intros e w h; cbn; unfold hbind, hload, hret; destruct (lookup h a); reflexivity|].
  intros e w h o w' h' PH R. cbn [perform effort] in *. unfold hbind, hload, hret in R. destruct (lookup h a); [|discriminate]. injection R as _ <- <-. split; [reflexivity|split; [reflexivity|lia]].
Defined.
(** the rest of a call knows what the first part has found *)
Lemma se_then : forall A C P (Q : A -> heap -> Prop) (m : H A) (k : A -> H C) c1 c, sees P m c1 -> (forall e w h a w' h', m e w h = Done (a, w', h') -> Q a h) ->
  (forall a, sees (fun h => P h /\ Q a h) (k a) (fun h b => c h b - c1 h a)) -> sees P (hbind m k) c.
Proof.
  intros A C P Q m k c1 c [t [TT CT]] QA K. exists (tbind t (fun a => proj1_sig (K a))). split.
  - intros e w h. rewrite perform_bind. unfold hbind. rewrite TT. destruct (m e w h) as [[[a w'] h']|u|]; [apply (proj2_sig (K a))|reflexivity|reflexivity].
  - intros e w h b w2 h2 PH R. rewrite effort_bind. rewrite perform_bind in R. unfold hbind in R. destruct (perform t e w h) as [[[a w'] h']|u|] eqn:RT; [|discriminate|discriminate].
    destruct (CT e w h a w' h' PH RT) as (X & Y & Z). subst h'. pose proof (TT e w h) as TE. rewrite RT in TE. symmetry in TE.
    destruct (proj2 (proj2_sig (K a)) e w' h b w2 h2 (conj PH (QA _ _ _ _ _ _ TE)) R) as (X' & Y' & Z'). cbv beta in Z'. split; [exact X'|split; [congruence|lia]].
Defined.
Lemma se_bind : forall A C P (m : H A) (k : A -> H C) c1 c, sees P m c1 -> (forall a, sees P (k a) (fun h b => c h b - c1 h a)) -> sees P (hbind m k) c.
Proof.
  intros A C P m k c1 c S K. apply (se_then A C P (fun _ _ => True) m k c1 c S); [intros; exact I|]. intro a. apply (se_weaken _ _ P _ _ _ (K a)); [intros h (X & _); exact X|]. intros; lia.
Defined.
Lemma se_size : forall A P (f : nat -> H A) c, (forall n, sees P (f n) c) -> sees P (fun e w h => f (List.length h) e w h) c.
Proof.
  intros A P f c F. exists (TSize (fun n => proj1_sig (F n))). split; [intros e w h; cbn [perform]; apply (proj2_sig (F _))|].
  intros e w h a w' h' PH R. cbn [perform effort] in *. exact (proj2 (proj2_sig (F _)) e w h a w' h' PH R).
Defined.
Lemma se_lift : forall A P (o : outcome A), sees P (hlift o) (fun _ _ => 1).
Proof. intros A P o. unfold hlift. apply (se_weaken _ _ P _ _ _ (se_io A P _ _ (ta_lift A o))); [auto|intros; lia]. Defined.
Lemma se_chunk : forall P a, sees P (hchunk a) (fun _ _ => 1).
Proof. intros P a. unfold hchunk. eapply se_bind; [apply se_load|]. intros [hd b| |]; cbv beta; [apply se_ret; intros; lia|apply se_undefined|apply se_undefined]. Defined.
Lemma se_chunk_then : forall C P a (k : header * body -> H C) c,
  (forall hd b, sees (fun h => P h /\ lookup h a = Some (OChunk hd b)) (k (hd, b)) (fun h r => c h r - 1)) -> sees P (hbind (hchunk a) k) c.
Proof.
  intros C P a k c K. apply (se_then _ C P (fun x h => lookup h a = Some (OChunk (fst x) (snd x))) _ k _ c (se_chunk P a)).
  - intros e w h [hd b] w' h' R. unfold hchunk, hbind, hload in R. destruct (lookup h a) as [[hd2 b2| |]|]; try discriminate. injection R as <- <- _ _. reflexivity.
  - intros [hd b]. apply K.
Defined.
Lemma se_elements : forall P p n, sees P (helements p n) (fun _ _ => 1).
Proof.
  intros P p n. unfold helements. destruct n; [apply se_ret; intros; lia|]. destruct p; [|apply se_undefined]. unfold harray.
  apply (se_bind _ _ P _ _ (fun _ _ => 1)).
  - eapply se_bind; [apply se_load|]. intros [| |l]; cbv beta; [apply se_undefined|apply se_undefined|apply se_ret; intros; lia].
  - intro l. destruct (Nat.leb _ _); [apply se_ret; intros; lia|apply se_undefined].
Defined.
Lemma se_elements_then : forall C P p n (k : list addr -> H C) c,
  (forall l, sees (fun h => P h /\ l = elems h p n) (k l) (fun h r => c h r - 1)) -> sees P (hbind (helements p n) k) c.
Proof.
  intros C P p n k c K. apply (se_then _ C P (fun l h => l = elems h p n) _ k _ c (se_elements P p n)); [|exact K].
  intros e w h l w' h' R. unfold helements in R. destruct n as [|n].
  - injection R as <- _ _. unfold elems. destruct p as [d|]; [|reflexivity]. destruct (lookup h d) as [[| |]|]; reflexivity.
  - destruct p as [d|]; [|discriminate]. unfold harray, hbind, hload, elems in *. destruct (lookup h d) as [[| |k2]|]; try discriminate.
    unfold hret in R. destruct (Nat.leb (S n) (List.length k2)); [|discriminate]. injection R as <- _ _. reflexivity.
Defined.

Lemma se_cost : forall A P (m : H A) c c', sees P m c -> (forall h a, P h -> c h a <= c' h a) -> sees P m c'.
Proof. intros A P m c c' S L. exact (se_weaken A P P m c c' S (fun h X => X) L). Defined.
Lemma se_call : forall A C (P R : heap -> Prop) (m : H A) (k : A -> H C) c1 c, sees R m c1 -> (forall h, P h -> R h) -> (forall a, sees P (k a) (fun h b => c h b - c1 h a)) -> sees P (hbind m k) c.
Proof. intros A C P R m k c1 c S L K. exact (se_bind A C P m k c1 c (se_weaken A P R m c1 c1 S L (fun h a _ => Z.le_refl _)) K). Defined.

(** What looking at one chunk costs, more or less *)
Definition Q : Z := 52.

Create HintDb se.
#[export] Hint Resolve se_load se_lift se_chunk se_elements : se.
#[export] Hint Extern 2 (sees _ (io _) _) => (apply se_io; solve [eauto 2 with ta]) : se.
Ltac se_split HP := repeat match type of HP with _ /\ _ => let X := fresh "X" in destruct HP as [HP X] end.
Ltac se_same := repeat match goal with
  | L1 : lookup ?h ?a = Some (OChunk _ _), L2 : lookup ?h ?a = Some (OChunk _ _) |- _ => rewrite L1 in L2; injection L2; intros; subst; clear L2
  | E : ?l = elems _ _ _ |- _ => is_var l; subst l
  end.
Ltac se_facts := repeat match goal with
  | TA : T ?h ?a, L : lookup ?h ?a = Some (OChunk _ (BList _ _ _ _ _)) |- _ => let E := fresh "E" in pose proof (T_list _ _ _ _ _ _ _ _ TA L) as (E & ? & ?); clear TA
  | TA : T ?h ?a, L : lookup ?h ?a = Some (OChunk _ _) |- _ => let E := fresh "E" in pose proof (T_step _ _ _ _ TA L) as (E & ?); clear TA
  end; cbn [members] in *.
Ltac se_num := unfold Q in *; repeat match goal with |- context [los ?h ?l] => lazymatch goal with X : 0 <= los h l |- _ => fail | _ => pose proof (los_pos h l) end | E : context [los ?h ?l] |- _ => lazymatch goal with X : 0 <= los h l |- _ => fail | _ => pose proof (los_pos h l) end end;
  repeat match goal with |- context [match ?x with _ => _ end] => is_var x; destruct x end; try lia.
Ltac se_leaf := let HP := fresh "HP" in intros ? HP; cbv beta in *; se_split HP; se_same; se_facts; cbv beta iota; se_num.
Ltac se_leaf2 := let HP := fresh "HP" in intros ? ? HP; cbv beta in *; se_split HP; se_same; se_facts; cbv beta iota; se_num.
Ltac se_pre := let HP := fresh "HP" in intros ? HP; cbv beta in *; se_split HP; se_same; first [assumption | se_facts; auto].
Ltac se_one :=
  first
    [ match goal with |- sees _ (hbind (hchunk _) _) _ => apply se_chunk_then; intros; cbv beta iota end
    | match goal with |- sees _ (hbind (helements _ _) _) _ => apply se_elements_then; intros; cbv beta iota end
    | match goal with |- sees _ (hbind _ _) _ => eapply se_bind; [solve [eauto 2 with se]|intros; cbv beta] end
    | match goal with |- sees _ (hbind _ _) _ => eapply se_call; [solve [eauto 2 with se]|solve [se_pre]|intros; cbv beta] end
    | match goal with |- sees _ (handM _ _) _ => unfold handM at 1 end
    | match goal with |- sees _ (if ?x then _ else _) _ => destruct x eqn:? end
    | match goal with |- sees _ (match ?x with _ => _ end) _ => destruct x eqn:? end
    | match goal with |- sees _ (let x := _ in _) _ => cbv zeta end
    | apply se_undefined
    | apply se_nofuel
    | apply se_ret; se_leaf
    | eapply se_cost; [solve [eauto 2 with se]|se_leaf2]
    | eapply se_weaken; [solve [eauto 2 with se]|solve [se_pre]|se_leaf2] ].
Ltac se := intros; repeat se_one.

Lemma se_hret : forall A P (a : A), sees P (hret a) (fun _ _ => 0).
Proof. intros A P a. apply se_ret. intros; lia. Defined.
#[export] Hint Resolve se_hret : se.
Lemma se_block_bytes : forall P p n, sees P (hblock_bytes p n) (fun _ _ => 2).
Proof. unfold hblock_bytes. se. Defined.
Lemma se_increment : forall P s c, sees P (hincrementChunkSize s c) (fun _ _ => 2).
Proof. unfold hincrementChunkSize. se. Defined.
#[export] Hint Resolve se_block_bytes se_increment : se.

(** ** Writing *)

Lemma se_writeRaw : forall P c b, sees P (hwriteRawChunk c b) (fun _ _ => 12).
Proof. unfold hwriteRawChunk. se. Defined.
Lemma se_write_fields : forall P s c b, sees P (hwrite_fields_chunk s c b) (fun _ _ => 8).
Proof. unfold hwrite_fields_chunk. se. Defined.
#[export] Hint Resolve se_writeRaw se_write_fields : se.

Section Write.
  Variable f : addr -> Z -> H bool.
  Hypothesis F : forall c g, sees (fun h => T h c) (f c g) (fun h _ => Q * lo h c - 5).

  Lemma se_write_all : forall msg l g b, sees (fun h => Forall (T h) l) (hwrite_all f msg l g b) (fun h _ => Q * los h l).
  Proof.
    intros msg l. induction l as [|c l IH]; intros g b; cbn [hwrite_all].
    - apply se_ret. intros h _. cbn. lia.
    - eapply se_bind; [eapply se_weaken; [apply (F c g)|intros h X; inversion X; assumption|intros h a _; apply Z.le_refl]|].
      intros []; cbv beta.
      + eapply se_bind; [apply se_increment|]. intro bp. cbv beta. eapply se_weaken; [apply IH|intros h X; inversion X; assumption|]. intros h a X. unfold los. cbn [fold_right]. lia.
      + eapply se_bind; [eauto 2 with se|]. intros []. cbv beta. apply se_ret. intros h X. unfold los. cbn [fold_right]. fold (los h l). pose proof (los_pos h l). unfold Q. lia.
  Defined.
  Lemma se_writeGroup : forall c s b, sees (fun h => T h c) (hwriteGroup f c s b) (fun h _ => Q * lo h c - 40).
  Proof.
    pose proof se_write_all as WA. unfold hwriteGroup. se.
  Defined.
  Lemma se_writeList : forall c b, sees (fun h => T h c) (hwriteList f c b) (fun h _ => Q * lo h c - 40).
  Proof. pose proof se_write_all as WA. unfold hwriteList. se. Defined.
  Lemma se_writeExtension : forall k c b, sees (fun h => T h c) (hwriteExtensionChunkFields f k c b) (fun h _ => Q * lo h c - 40).
  Proof.
    pose proof se_writeGroup as WG. pose proof se_writeList as WL.
    assert (LEAF : forall A (m : H A) c, sees (fun h => T h c) m (fun _ _ => 12) -> sees (fun h => T h c) m (fun h _ => Q * lo h c - 40)).
    { intros A m c S. apply (se_cost _ _ _ _ _ S). intros h a TA. destruct TA as (x & p & FF & TA & L). unfold lo. rewrite (load_tree h (List.length h) x p c FF TA L). unfold Q. destruct x; cbn [chunks]; lia. }
    intros k c b. unfold hwriteExtensionChunkFields. destruct k; first [solve [se] | apply LEAF; solve [se]].
  Defined.
  Lemma se_writeBody : forall rg c g, sees (fun h => T h c) (hwriteChunkBody f rg c g) (fun h _ => Q * lo h c - 23).
  Proof. pose proof se_writeExtension as WE. unfold hwriteChunkBody. se. Defined.
End Write.

Lemma se_writeChunk : forall rg n c g, sees (fun h => T h c) (hwriteChunk rg n c g) (fun h _ => Q * lo h c - 5).
Proof. intros rg n. induction n as [|n IH]; intros c g; cbn [hwriteChunk]; [se|]. pose proof (se_writeBody _ IH) as WB. se. Defined.
Lemma se_bounded : forall A P (f : nat -> H A) c, (forall n, sees P (f n) c) -> sees P (hbounded f) c.
Proof. intros A P f c F. unfold hbounded. apply (se_size A P (fun n => f (S n))). intro n. apply F. Defined.
Lemma se_writeFd : forall c rg, sees (fun h => T h c) (hIFF_writeFd c rg) (fun h _ => Q * lo h c).
Proof. intros c rg. unfold hIFF_writeFd. apply se_bounded. intro n. eapply se_cost; [apply se_writeChunk|]. intros; unfold Q; lia. Defined.

(** ** Checking *)

Lemma se_formSub : forall P g c, sees P (hform_subChunkCheck g c) (fun _ _ => 8).
Proof. unfold hform_subChunkCheck. se. Defined.
Lemma se_propSub : forall P g c, sees P (hprop_subChunkCheck g c) (fun _ _ => 8).
Proof. unfold hprop_subChunkCheck. se. Defined.
Lemma se_catSub : forall P g c, sees P (hcheckCATSubChunk g c) (fun _ _ => 8).
Proof. unfold hcheckCATSubChunk. se. Defined.
Lemma se_checkSize : forall P g n, sees P (hcheckGroupChunkSize g n) (fun _ _ => 8).
Proof. unfold hcheckGroupChunkSize. se. Defined.
#[export] Hint Resolve se_formSub se_propSub se_catSub se_checkSize : se.
Lemma se_check_fields : forall P s c, sees P (hcheck_fields_chunk s c) (fun _ _ => 3).
Proof. unfold hcheck_fields_chunk. se. Defined.
#[export] Hint Resolve se_check_fields : se.

Section Check.
  Variable f : addr -> Z -> H bool.
  Hypothesis F : forall c g, sees (fun h => T h c) (f c g) (fun h _ => Q * lo h c - 10).

  Lemma se_check_subs : forall sc, (forall P c, sees P (sc c) (fun _ _ => 8)) -> forall l g b, sees (fun h => Forall (T h) l) (hcheck_subs f sc l g b) (fun h _ => Q * los h l).
  Proof.
    intros sc SC l. induction l as [|c l IH]; intros g b; cbn [hcheck_subs].
    - apply se_ret. intros h _. cbn. lia.
    - assert (ONE : forall h, Forall (T h) (c :: l) -> T h c /\ 1 <= lo h c).
      { intros h X. inversion X; subst. split; [assumption|]. match goal with Y : T h c |- _ => destruct Y as (x & p & FF & TA & L) end. unfold lo. rewrite (load_tree h (List.length h) x p c FF TA L). destruct x; cbn [chunks]; lia. }
      assert (MORE : forall h, los h (c :: l) = lo h c + los h l) by reflexivity.
      eapply se_bind; [apply SC|]. intros []; cbv beta; cbn [negb].
      + eapply se_call; [apply (F c g)|intros h X; apply ONE; exact X|]. intros []; cbv beta; cbn [negb].
        * eapply se_bind; [apply se_increment|]. intro bp. cbv beta. eapply se_weaken; [apply IH|intros h X; inversion X; assumption|]. intros h a X. rewrite MORE. unfold Q. lia.
        * apply se_ret. intros h X. rewrite MORE. pose proof (los_pos h l). unfold Q. lia.
      + apply se_ret. intros h X. rewrite MORE. pose proof (los_pos h l). destruct (ONE h X). unfold Q. lia.
  Defined.
  Lemma se_checkGroup : forall gc sc, (forall g, talks (gc g) (fun _ => 8)) -> (forall P g c, sees P (sc g c) (fun _ _ => 8)) ->
    forall c, sees (fun h => T h c) (hcheckGroup f gc sc c) (fun h _ => Q * lo h c - 15).
  Proof.
    intros gc sc GC SC c. pose proof (fun g => se_check_subs (sc g) (fun P => SC P g)) as CS. unfold hcheckGroup. se.
  Defined.
  Lemma se_checkList : forall c, sees (fun h => T h c) (hcheckList f c) (fun h _ => Q * lo h c - 15).
  Proof.
    intro c. pose proof (se_check_subs (hcheckCATSubChunk c) (fun P => se_catSub P c)) as CS.
    pose proof (se_check_subs (fun _ => hret true) (fun P _ => se_ret bool P true (fun _ _ => 8) ltac:(intros; lia))) as CP. unfold hcheckList. se.
  Defined.
  Lemma se_checkExtension : forall k c, sees (fun h => T h c) (hcheckExtensionChunk f k c) (fun h _ => Q * lo h c - 15).
  Proof.
    assert (LEAF : forall A (m : H A) c, sees (fun h => T h c) m (fun _ _ => 12) -> sees (fun h => T h c) m (fun h _ => Q * lo h c - 15)).
    { intros A m c S. apply (se_cost _ _ _ _ _ S). intros h a TA. destruct TA as (x & p & FF & TA & L). unfold lo. rewrite (load_tree h (List.length h) x p c FF TA L). unfold Q. destruct x; cbn [chunks]; lia. }
    intros k c. unfold hcheckExtensionChunk. destruct k.
    - apply se_checkGroup; [apply ta_checkFormType|apply se_formSub].
    - apply se_checkGroup; [|apply se_catSub]. intro g. eapply ta_weaken; [apply ta_checkId|intros; lia].
    - apply se_checkList.
    - apply se_checkGroup; [apply ta_checkFormType|apply se_propSub].
    - apply LEAF. se.
    - apply LEAF. se.
  Defined.
End Check.

Lemma se_checkChunk : forall rg n c g, sees (fun h => T h c) (hcheckChunk rg n c g) (fun h _ => Q * lo h c - 10).
Proof.
  intros rg n. induction n as [|n IH]; intros c g; cbn [hcheckChunk]; [se|]. pose proof (se_checkExtension _ IH) as CE. se.
Defined.
Lemma se_check : forall c rg, sees (fun h => T h c) (hIFF_check c rg) (fun h _ => Q * lo h c).
Proof.
  intros c rg. pose proof (fun n => se_checkChunk (selectChunkRegistry rg) n c 0) as CC. pose proof (se_bounded _ _ _ _ CC) as CB. unfold hIFF_check. se.
Defined.

(** ** Printing *)

Lemma se_printRaw : forall P c lv, sees P (hprintRawChunk c lv) (fun _ _ => 3).
Proof. unfold hprintRawChunk. se. Defined.
Lemma se_print_fields : forall P s c lv, sees P (hprint_fields_chunk s c lv) (fun _ _ => 3).
Proof. unfold hprint_fields_chunk. se. Defined.
#[export] Hint Resolve se_printRaw se_print_fields : se.

Section Print.
  Variable f : addr -> nat -> Z -> H string.
  Hypothesis F : forall c lv g, sees (fun h => T h c) (f c lv g) (fun h _ => Q * lo h c).

  Lemma se_print_all : forall l lv g, sees (fun h => Forall (T h) l) (hprint_all f l lv g) (fun h _ => Q * los h l).
  Proof.
    intros l lv. induction l as [|c l IH]; intros g; cbn [hprint_all].
    - apply se_ret. intros h _. cbn. lia.
    - assert (MORE : forall h, los h (c :: l) = lo h c + los h l) by reflexivity.
      eapply se_call; [apply (F c lv g)|intros h X; inversion X; assumption|]. intro s. cbv beta.
      eapply se_call; [apply (IH g)|intros h X; inversion X; assumption|]. intro t. cbv beta. apply se_ret. intros h X. rewrite MORE. unfold Q. lia.
  Defined.
  Lemma se_printGroup : forall c lv s, sees (fun h => T h c) (hprintGroup f c lv s) (fun h _ => Q * lo h c - 15).
  Proof. pose proof se_print_all as PA. unfold hprintGroup, hprint_array. intros c lv s. apply se_chunk_then. intros hd [d|g n arr|g n arr pn parr|v]; cbv beta iota; [apply se_undefined| | |apply se_undefined].
    - apply (se_bind _ _ _ _ _ (fun h _ => 1 + Q * los h (elems h arr n))); [se|intro; se].
    - apply (se_bind _ _ _ _ _ (fun h _ => 1 + Q * los h (elems h arr n))); [se|intro; se].
  Defined.
  Lemma se_printList : forall c lv, sees (fun h => T h c) (hprintList f c lv) (fun h _ => Q * lo h c - 15).
  Proof. pose proof se_print_all as PA. unfold hprintList, hprint_array. intros c lv. apply se_chunk_then. intros hd [d|g n arr|g n arr pn parr|v]; cbv beta iota; try apply se_undefined.
    apply (se_bind _ _ _ _ _ (fun h _ => 1 + Q * los h (elems h parr pn))); [se|intro]. cbv beta.
    apply (se_bind _ _ _ _ _ (fun h _ => 1 + Q * los h (elems h arr n))); [se|intro; se].
  Defined.
  Lemma se_printExtension : forall k c lv, sees (fun h => T h c) (hprintExtensionChunk f k c lv) (fun h _ => Q * lo h c - 15).
  Proof.
    pose proof se_printGroup as PG. pose proof se_printList as PL.
    assert (LEAF : forall A (m : H A) c, sees (fun h => T h c) m (fun _ _ => 12) -> sees (fun h => T h c) m (fun h _ => Q * lo h c - 15)).
    { intros A m c S. apply (se_cost _ _ _ _ _ S). intros h a TA. destruct TA as (x & p & FF & TA & L). unfold lo. rewrite (load_tree h (List.length h) x p c FF TA L). unfold Q. destruct x; cbn [chunks]; lia. }
    intros k c lv. unfold hprintExtensionChunk. destruct k; first [solve [se] | apply LEAF; solve [se]].
  Defined.
End Print.

Lemma se_printChunk : forall rg n c lv g, sees (fun h => T h c) (hprintChunk rg n c lv g) (fun h _ => Q * lo h c).
Proof. intros rg n. induction n as [|n IH]; intros c lv g; cbn [hprintChunk]; [se|]. pose proof (se_printExtension _ IH) as PE. se. Defined.
Lemma se_print : forall c lv rg, sees (fun h => T h c) (hIFF_print c lv rg) (fun h _ => Q * lo h c).
Proof. intros c lv rg. unfold hIFF_print. apply se_bounded. intro n. apply se_printChunk. Defined.

(** ** Comparing *)

Lemma se_compareRaw : forall P c d, sees P (hcompareRawChunk c d) (fun _ _ => 7).
Proof. unfold hcompareRawChunk. se. Defined.
Lemma se_compare_fields : forall P s c d, sees P (hcompare_fields_chunk s c d) (fun _ _ => 3).
Proof. unfold hcompare_fields_chunk. se. Defined.
#[export] Hint Resolve se_compareRaw se_compare_fields : se.

Section Compare.
  Variable f : addr -> addr -> Z -> H bool.
  Hypothesis F : forall c d g, sees (fun h => T h c) (f c d g) (fun h _ => Q * lo h c).

  Lemma se_compare_all : forall l k g, sees (fun h => Forall (T h) l) (hcompare_all f l k g) (fun h _ => Q * los h l).
  Proof.
    intro l. induction l as [|c l IH]; intros k g; cbn [hcompare_all].
    - apply se_ret. intros h _. cbn. lia.
    - assert (MORE : forall h, los h (c :: l) = lo h c + los h l) by reflexivity. destruct k as [|d k].
      + apply se_ret. intros h X. rewrite MORE. pose proof (lo_pos h c). pose proof (los_pos h l). unfold Q. lia.
      + eapply se_call; [apply (F c d g)|intros h X; inversion X; assumption|]. intros []; cbv beta.
        * eapply se_weaken; [apply IH|intros h X; inversion X; assumption|]. intros h a X. rewrite MORE. unfold Q. lia.
        * apply se_ret. intros h X. rewrite MORE. pose proof (los_pos h l). unfold Q. lia.
  Defined.
  Lemma se_compare_members : forall g n arr g2 n2 arr2, sees (fun h => Forall (T h) (elems h arr n)) (hcompare_members f g n arr g2 n2 arr2) (fun h _ => 2 + Q * los h (elems h arr n)).
  Proof. pose proof se_compare_all as CA. unfold hcompare_members. se. Defined.
  Lemma se_compareGroup : forall c d, sees (fun h => T h c) (hcompareGroup f c d) (fun h _ => Q * lo h c - 40).
  Proof. pose proof se_compare_members as CM. unfold hcompareGroup. se. Defined.
  Lemma se_compare_props : forall l k, sees (fun h => Forall (T h) l) (hcompare_props f l k) (fun h _ => Q * los h l).
  Proof.
    intro l. induction l as [|c l IH]; intros k; cbn [hcompare_props].
    - apply se_ret. intros h _. cbn. lia.
    - assert (MORE : forall h, los h (c :: l) = lo h c + los h l) by reflexivity. destruct k as [|d k].
      + apply se_ret. intros h X. rewrite MORE. pose proof (lo_pos h c). pose proof (los_pos h l). unfold Q. lia.
      + eapply se_call; [apply (se_compareGroup c d)|intros h X; inversion X; assumption|]. intros []; cbv beta.
        * eapply se_weaken; [apply IH|intros h X; inversion X; assumption|]. intros h a X. rewrite MORE. unfold Q. lia.
        * apply se_ret. intros h X. rewrite MORE. pose proof (los_pos h l). unfold Q. lia.
  Defined.
  Lemma se_compareList : forall c d, sees (fun h => T h c) (hcompareList f c d) (fun h _ => Q * lo h c - 40).
  Proof.
    pose proof se_compare_members as CM. pose proof se_compare_props as CP. intros c d. unfold hcompareList. apply se_chunk_then. intros hd b. apply se_chunk_then. intros hd2 b2.
    destruct b as [x|g n arr|g n arr pn parr|v]; try apply se_undefined. destruct b2 as [x|g2 n2 arr2|g2 n2 arr2 pn2 parr2|v]; try apply se_undefined. cbv beta.
    apply (se_bind _ _ _ _ _ (fun h _ => 2 + Q * los h (elems h parr pn))); [se|intros []; se].
  Defined.
  Lemma se_compareExtension : forall k c d, sees (fun h => T h c) (hcompareExtensionChunk f k c d) (fun h _ => Q * lo h c - 15).
  Proof.
    pose proof se_compareGroup as PG. pose proof se_compareList as PL.
    assert (LEAF : forall A (m : H A) c, sees (fun h => T h c) m (fun _ _ => 12) -> sees (fun h => T h c) m (fun h _ => Q * lo h c - 15)).
    { intros A m c S. apply (se_cost _ _ _ _ _ S). intros h a TA. destruct TA as (x & p & FF & TA & L). unfold lo. rewrite (load_tree h (List.length h) x p c FF TA L). unfold Q. destruct x; cbn [chunks]; lia. }
    intros k c d. unfold hcompareExtensionChunk. destruct k; first [solve [se] | apply LEAF; solve [se]].
  Defined.
End Compare.

Lemma se_compareChunk : forall rg n c d g, sees (fun h => T h c) (hcompareChunk rg n c d g) (fun h _ => Q * lo h c).
Proof.
  intros rg n. induction n as [|n IH]; intros c d g; cbn [hcompareChunk]; [se|]. pose proof (se_compareExtension _ IH) as PE. se.
Defined.
Lemma se_compare : forall c d rg, sees (fun h => T h c) (hIFF_compare c d rg) (fun h _ => Q * lo h c).
Proof. intros c d rg. unfold hIFF_compare. apply se_bounded. intro n. apply se_compareChunk. Defined.

(** ** For a tree *)

Lemma sees_tree : forall A (m : H A) a, sees (fun h => T h a) m (fun h _ => Q * lo h a) ->
  exists D : task A, takes_apart D m /\ forall e w h c p F r w' h', tree_at h c p a F -> NoDup F -> m e w h = Done (r, w', h') ->
    (effort D e w h <= 52 * chunks c)%nat.
Proof.
  intros A m a [t [TT C]]. exists t. split; [exact TT|]. intros e w h c p F r w' h' TA ND R. rewrite <- (TT e w h) in R.
  pose proof (tree_depth h c p a F TA ND) as L. destruct (C e w h r w' h' (ex_intro _ c (ex_intro _ p (ex_intro _ F (conj TA L)))) R) as (_ & _ & X).
  unfold lo, Q in X. rewrite (load_tree h (List.length h) c p a F TA L) in X. lia.
Qed.
