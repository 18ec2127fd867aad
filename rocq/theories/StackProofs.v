(** * Proofs about the bounded stack *)

From Coq Require Import ZArith List Bool String Lia.
From Coq Require Import Strings.Byte.
From Verif Require Import Machine Io Types Build Read Write Check Compare Print Search Iff Stack Spec
  Lemmas IoProofs TermProofs WriteProofs SoundProofs.
Import ListNotations.
Open Scope Z_scope.

Lemma list_max_app : forall a b, list_max (a ++ b) = Nat.max (list_max a) (list_max b).
Proof. induction a as [|x a IH]; intro b; simpl; [reflexivity|]. rewrite IH. lia. Qed.
Lemma list_max_in : forall l x, In x l -> (x <= list_max l)%nat.
Proof. induction l as [|y l IH]; intros x I; [destruct I|]. simpl. destruct I as [->|I]; [lia|]. specialize (IH _ I). lia. Qed.
Lemma nesting_pos : forall c, (1 <= nesting c)%nat.
Proof. destruct c; simpl; lia. Qed.
Lemma nesting_member : forall c l, In c l -> (nesting c <= list_max (map nesting l))%nat.
Proof. intros c l I. apply list_max_in, in_map, I. Qed.
Lemma list_max_bound : forall l n, (forall x, In x l -> (x <= n)%nat) -> (list_max l <= n)%nat.
Proof. induction l as [|x l IH]; intros n B; simpl; [lia|]. apply Nat.max_lub; [apply B; left; reflexivity|apply IH; intros; apply B; right; assumption]. Qed.

(** ** Passes over a tree *)

Section Agree.
  Variable f g : chunk -> Z -> outcome unit.
  Lemma free_all_ext : forall l ft, (forall c, In c l -> forall ft, f c ft = g c ft) -> free_all f l ft = free_all g l ft.
  Proof. induction l as [|c l IH]; intros ft E; simpl; [reflexivity|]. rewrite E by (left; reflexivity). unfold obind. destruct (g c ft); try reflexivity. apply IH. intros; apply E; right; assumption. Qed.
End Agree.

Lemma stack_free : forall rg frames c ft, (nesting c <= frames)%nat -> stack_freeChunk rg frames c ft = IFF_freeChunk rg c ft.
Proof.
  induction frames as [|n IH]; intros c ft L; [pose proof (nesting_pos c); lia|]. cbn [stack_freeChunk].
  assert (A : forall l, (list_max (map nesting l) <= n)%nat -> forall ft, free_all (stack_freeChunk rg n) l ft = free_all (IFF_freeChunk rg) l ft).
  { intros l B ft'. apply free_all_ext. intros x I ft2. apply IH. pose proof (nesting_member _ _ I). lia. }
  destruct c as [i s d|i s g subs|i s g props subs|i s v]; cbn [IFF_freeChunk chunkId]; simpl in L;
    destruct (find_handler rg ft i) as [h|u|]; cbn [obind]; try reflexivity; destruct h; cbn [freeExtensionChunk IFF_freeGroup IFF_freeList]; try reflexivity;
    rewrite ?A by lia; reflexivity.
Qed.

Section AgreeM.
  Variable f g : chunk -> Z -> M bool.
  Lemma write_all_ext : forall msg l ft bp e w, (forall c, In c l -> forall ft e w, f c ft e w = g c ft e w) ->
    write_all f msg l ft bp e w = write_all g msg l ft bp e w.
  Proof.
    induction l as [|c l IH]; intros ft bp e w E; cbn [write_all]; [reflexivity|].
    unfold bind at 1 4. rewrite E by (left; reflexivity). destruct (g c ft e w) as [[[] w1]|u|]; try reflexivity.
    unfold bind. destruct (lift _ e w1) as [[b w2]|u|]; try reflexivity. apply IH. intros; apply E; right; assumption.
  Qed.
  Lemma check_subs_ext : forall sub l ft acc e w, (forall c, In c l -> forall ft e w, f c ft e w = g c ft e w) ->
    check_subs f sub l ft acc e w = check_subs g sub l ft acc e w.
  Proof.
    induction l as [|c l IH]; intros ft acc e w E; cbn [check_subs]; [reflexivity|].
    unfold bind. destruct (sub c e w) as [[ok w1]|u|]; try reflexivity. destruct (negb ok); [reflexivity|].
    rewrite E by (left; reflexivity). destruct (g c ft e w1) as [[[] w2]|u|]; try reflexivity. cbn [negb].
    destruct (lift _ e w2) as [[b w3]|u|]; try reflexivity. apply IH. intros; apply E; right; assumption.
  Qed.
End AgreeM.


Lemma bind_same : forall A B (m m' : M A) (k k' : A -> M B) e w, m e w = m' e w -> (forall a w, k a e w = k' a e w) ->
  bind m k e w = bind m' k' e w.
Proof. intros A B m m' k k' e w E K. unfold bind. rewrite E. destruct (m' e w) as [[a w1]|u|]; auto. Qed.
Lemma andM_same : forall m n n' e w, (forall w, n e w = n' e w) -> andM m n e w = andM m n' e w.
Proof. intros m n n' e w E. unfold andM. apply bind_same; [reflexivity|]. intros [] w1; [apply E|reflexivity]. Qed.

Lemma stack_write : forall rg frames c ft e w, (nesting c <= frames)%nat ->
  stack_writeChunk rg frames c ft e w = IFF_writeChunk rg c ft e w.
Proof.
  induction frames as [|n IH]; intros c ft e w L; [pose proof (nesting_pos c); lia|].
  assert (A : forall l, (list_max (map nesting l) <= n)%nat -> forall msg ft bp e w,
    write_all (stack_writeChunk rg n) msg l ft bp e w = write_all (IFF_writeChunk rg) msg l ft bp e w).
  { intros l B msg ft' bp e' w'. apply write_all_ext. intros x I ft2 e2 w2. apply IH. pose proof (nesting_member _ _ I). lia. }
  assert (W : forall h bp e w, writeExtensionChunkFields (stack_writeChunk rg n) h c bp e w = writeExtensionChunkFields (IFF_writeChunk rg) h c bp e w).
  { intros h bp e' w'.
    assert (G : forall s, IFF_writeGroup (stack_writeChunk rg n) c s bp e' w' = IFF_writeGroup (IFF_writeChunk rg) c s bp e' w').
    { intro nm. unfold IFF_writeGroup, IFF_writeGroupSubChunks. destruct c as [i s d|i s g subs|i s g props subs|i s v]; try reflexivity; simpl in L;
        (apply bind_same; [reflexivity|]; intros [[] b2] w2; try reflexivity; apply A; lia). }
    destruct h; cbn [writeExtensionChunkFields]; try reflexivity; try apply G.
    unfold IFF_writeList, IFF_writeGroupSubChunks, writeListPropChunks. destruct c as [i s d|i s g subs|i s g props subs|i s v]; try reflexivity. simpl in L.
    apply bind_same; [reflexivity|]. intros [[] b2] w2; try reflexivity.
    apply bind_same; [apply A; lia|]. intros [[] b3] w3; [apply A; lia|reflexivity]. }
  cbn [stack_writeChunk].
  replace (IFF_writeChunk rg c ft) with (andM (IFF_writeId (chunkId c) (chunkId c) "chunkId")
    (andM (IFF_writeLong (chunkSize c) (chunkId c) "chunkSize") (writeChunkBody (IFF_writeChunk rg) rg c ft))) by (destruct c; reflexivity).
  apply andM_same. intro w1. apply andM_same. intro w2. unfold writeChunkBody. apply bind_same; [reflexivity|]. intros h w3.
  apply bind_same; [apply W|]. reflexivity.
Qed.

Lemma stack_check : forall rg frames c ft e w, (nesting c <= frames)%nat ->
  stack_checkChunk rg frames c ft e w = IFF_checkChunk rg c ft e w.
Proof.
  induction frames as [|n IH]; intros c ft e w L; [pose proof (nesting_pos c); lia|].
  assert (A : forall l, (list_max (map nesting l) <= n)%nat -> forall sub ft acc e w,
    check_subs (stack_checkChunk rg n) sub l ft acc e w = check_subs (IFF_checkChunk rg) sub l ft acc e w).
  { intros l B sub ft' acc e' w'. apply check_subs_ext. intros x I ft2 e2 w2. apply IH. pose proof (nesting_member _ _ I). lia. }
  assert (W : forall h e w, checkExtensionChunk (stack_checkChunk rg n) h c e w = checkExtensionChunk (IFF_checkChunk rg) h c e w).
  { intros h e' w'.
    assert (G : forall t s, IFF_checkGroup (stack_checkChunk rg n) t s c e' w' = IFF_checkGroup (IFF_checkChunk rg) t s c e' w').
    { intros t sc. unfold IFF_checkGroup. destruct c as [i s d|i s g subs|i s g props subs|i s v]; try reflexivity; simpl in L;
        (apply bind_same; [reflexivity|]; intros [] w2; try reflexivity; cbn [negb]; apply bind_same; [apply A; lia|reflexivity]). }
    destruct h; cbn [checkExtensionChunk]; try reflexivity; try apply G.
    unfold IFF_checkList, checkListPropChunks. destruct c as [i s d|i s g subs|i s g props subs|i s v]; try reflexivity. simpl in L.
    apply bind_same; [reflexivity|]. intros [] w2; try reflexivity. cbn [negb].
    apply bind_same; [apply A; lia|]. intros z w3. destruct (z =? -1); [reflexivity|].
    apply bind_same; [reflexivity|]. intros z2 w4. apply bind_same; [apply A; lia|reflexivity]. }
  cbn [stack_checkChunk].
  replace (IFF_checkChunk rg c ft) with (ok <- IFF_checkId (chunkId c) ;; if negb ok then ret false else
    h <- lift (find_handler rg ft (chunkId c)) ;; checkExtensionChunk (IFF_checkChunk rg) h c) by (destruct c; reflexivity).
  apply bind_same; [reflexivity|]. intros [] w1; [|reflexivity]. cbn [negb]. apply bind_same; [reflexivity|]. intros h w2. apply W.
Qed.

Lemma obind_same : forall A B (m m' : outcome A) (k k' : A -> outcome B), m = m' -> (forall a, k a = k' a) -> obind m k = obind m' k'.
Proof. intros A B m m' k k' -> K. destruct m'; cbn [obind]; auto. Qed.

Lemma stack_print : forall rg frames c level ft, (nesting c <= frames)%nat ->
  stack_printChunk rg frames c level ft = IFF_printChunk rg c level ft.
Proof.
  induction frames as [|n IH]; intros c level ft L; [pose proof (nesting_pos c); lia|].
  assert (A : forall l, (list_max (map nesting l) <= n)%nat -> forall lv ft,
    print_all (stack_printChunk rg n) l lv ft = print_all (IFF_printChunk rg) l lv ft).
  { induction l as [|x l IHl]; intros B lv ft'; [reflexivity|]. cbn [print_all]. simpl in B.
    apply obind_same; [apply IH; lia|]. intro. apply obind_same; [apply IHl; lia|reflexivity]. }
  assert (W : forall h lv, printExtensionChunk (stack_printChunk rg n) h c lv = printExtensionChunk (IFF_printChunk rg) h c lv).
  { intros h lv.
    assert (G : forall s, IFF_printGroup (stack_printChunk rg n) c lv s = IFF_printGroup (IFF_printChunk rg) c lv s).
    { intro nm. unfold IFF_printGroup, print_array. destruct c as [i s d|i s g subs|i s g props subs|i s v]; try reflexivity; simpl in L;
        (rewrite A by lia; reflexivity). }
    destruct h; cbn [printExtensionChunk]; try reflexivity; try apply G.
    unfold IFF_printList, print_array. destruct c as [i s d|i s g subs|i s g props subs|i s v]; try reflexivity. simpl in L.
    rewrite !A by lia. reflexivity. }
  cbn [stack_printChunk].
  replace (IFF_printChunk rg c level ft) with (h <-o find_handler rg ft (chunkId c) ;;
     s <-o printExtensionChunk (IFF_printChunk rg) h c level ;;
     Done (IFF_printIndent level "'" ++ IFF_printId (chunkId c) ++ "' = {" ++ nl
        ++ IFF_printIndent (S level) ("chunkSize = " ++ dec (chunkSize c) ++ ";" ++ nl)
        ++ s ++ IFF_printIndent level ("}" ++ nl ++ nl))%string) by (destruct c; reflexivity).
  apply obind_same; [reflexivity|]. intro h. rewrite W. reflexivity.
Qed.

Lemma stack_compare : forall e rg frames c1 c2 ft, (nesting c1 <= frames)%nat ->
  stack_compareChunk e rg frames c1 c2 ft = IFF_compareChunk e rg c1 c2 ft.
Proof.
  intros e rg. induction frames as [|n IH]; intros c1 c2 ft L; [pose proof (nesting_pos c1); lia|].
  assert (A : forall l1 l2, (list_max (map nesting l1) <= n)%nat -> forall ft,
    compare_all (stack_compareChunk e rg n) l1 l2 ft = compare_all (IFF_compareChunk e rg) l1 l2 ft).
  { induction l1 as [|x l1 IHl]; intros [|y l2] B ft'; try reflexivity. cbn [compare_all]. simpl in B.
    apply obind_same; [apply IH; lia|]. intros []; [|reflexivity]. apply IHl. lia. }
  assert (G : forall c c', (nesting c <= S n)%nat -> IFF_compareGroup (stack_compareChunk e rg n) c c' = IFF_compareGroup (IFF_compareChunk e rg) c c').
  { intros c c' B. unfold IFF_compareGroup. destruct c as [i s d|i s g subs|i s g props subs|i s v]; try reflexivity; simpl in B;
      (destruct (as_group c') as [[g2 l2]|]; [|reflexivity]; destruct (_ && _); [|reflexivity]; apply A; lia). }
  assert (P : forall p1 p2, (list_max (map nesting p1) <= n)%nat ->
    compare_props (stack_compareChunk e rg n) p1 p2 = compare_props (IFF_compareChunk e rg) p1 p2).
  { induction p1 as [|x p1 IHp]; intros [|y p2] B; try reflexivity. cbn [compare_props]. simpl in B.
    apply obind_same; [apply G; lia|]. intros []; [|reflexivity]. apply IHp. lia. }
  assert (W : forall h, compareExtensionChunk (stack_compareChunk e rg n) e h c1 c2 = compareExtensionChunk (IFF_compareChunk e rg) e h c1 c2).
  { intros h. destruct h; cbn [compareExtensionChunk]; try reflexivity; try (apply G; exact L).
    unfold IFF_compareList. destruct c1 as [i s d|i s g subs|i s g props subs|i s v]; try reflexivity. simpl in L.
    destruct c2 as [| |i2 s2 g2 props2 subs2|]; try reflexivity. rewrite P by lia. rewrite A by lia. reflexivity. }
  cbn [stack_compareChunk].
  replace (IFF_compareChunk e rg c1 c2 ft) with (if (chunkId c1 =? chunkId c2) && (chunkSize c1 =? chunkSize c2) then
    h <-o find_handler rg ft (chunkId c1) ;; compareExtensionChunk (IFF_compareChunk e rg) e h c1 c2 else Done false) by (destruct c1; reflexivity).
  destruct (_ && _); [|reflexivity]. apply obind_same; [reflexivity|]. exact W.
Qed.

Lemma stack_search : forall frames fts c, (nesting c <= frames)%nat -> stack_searchForms frames fts c = IFF_searchFormsFromArray fts c.
Proof.
  induction frames as [|n IH]; intros fts c L; [pose proof (nesting_pos c); lia|].
  assert (A : forall l acc, (list_max (map nesting l) <= n)%nat ->
    search_all (stack_searchForms n fts) l acc = search_all (IFF_searchFormsFromArray fts) l acc).
  { induction l as [|x l IHl]; intros acc B; [reflexivity|]. cbn [search_all]. simpl in B.
    apply obind_same; [apply IH; lia|]. intro. apply IHl; lia. }
  cbn [stack_searchForms].
  destruct c as [i s d|i s g subs|i s g props subs|i s v]; cbn [IFF_searchFormsFromArray chunkId];
    unfold IFF_searchFormsInForm, IFF_searchFormsInGroup; simpl in L; rewrite ?A by lia; reflexivity.
Qed.

(** ** Reading *)

Definition Gives {A} (P : A -> Prop) (m : M A) : Prop := forall e w a w', m e w = Done (a, w') -> P a.
Lemma Gives_bind : forall A B (P : A -> Prop) (Q : B -> Prop) (m : M A) (f : A -> M B),
  Gives P m -> (forall a, P a -> Gives Q (f a)) -> Gives Q (bind m f).
Proof.
  intros A B P Q m f G K e w b w' E. unfold bind in E. destruct (m e w) as [[a w1]|u|] eqn:E1; [|discriminate|discriminate].
  exact (K a (G _ _ _ _ E1) e w1 b w' E).
Qed.
Lemma Gives_any : forall A B (Q : B -> Prop) (m : M A) (f : A -> M B), (forall a, Gives Q (f a)) -> Gives Q (bind m f).
Proof. intros A B Q m f K. apply Gives_bind with (P := fun _ => True); [intros e w a w' _; exact I|intros a _; apply K]. Qed.
Lemma Gives_ret : forall A (P : A -> Prop) a, P a -> Gives P (ret a).
Proof. intros A P a p e w b w' E. injection E as <- _. exact p. Qed.
Lemma Gives_undefined : forall A (P : A -> Prop) u, Gives P (undefined u).
Proof. intros A P u e w b w' E. discriminate. Qed.
Lemma Gives_nofuel : forall A (P : A -> Prop), Gives P nofuel.
Proof. intros A P e w b w' E. discriminate. Qed.
Lemma Gives_weaken : forall A (P Q : A -> Prop) m, Gives P m -> (forall a, P a -> Q a) -> Gives Q m.
Proof. intros A P Q m G W e w a w' E. exact (W _ (G _ _ _ _ E)). Qed.

Definition Overflows {A} (o : outcome A) : Prop := o = Undefined UB_stack_overflow.

(** [Lim n P m1 m]: [m1] does what [m] does, or overflows the stack; in the
    latter case at least [n] bytes were left and the result of [m] meets [P] *)
Definition Lim {A} (n : nat) (P : A -> Prop) (m1 m : M A) : Prop := forall e w,
  m1 e w = m e w \/ (Overflows (m1 e w) /\ (n <= left w)%nat /\ forall a w', m e w = Done (a, w') -> P a).

Lemma Lim_refl : forall A n (P : A -> Prop) m, Lim n P m m.
Proof. intros A n P m e w. left. reflexivity. Qed.
Lemma Lim_weaken : forall A n n' (P P' : A -> Prop) m1 m, Lim n P m1 m -> (n' <= n)%nat -> (forall a, P a -> P' a) -> Lim n' P' m1 m.
Proof.
  intros A n n' P P' m1 m K L W e w. destruct (K e w) as [E|(O & N & G)]; [left; exact E|right].
  split; [exact O|split; [lia|]]. intros a w' E. exact (W _ (G _ _ E)).
Qed.
Lemma Lim_bind : forall A B n (k : A -> nat) (P : A -> Prop) (Q : B -> Prop) (m1 m : M A) (f1 f : A -> M B),
  Lim n P m1 m -> Eats 0 k m -> (forall a, P a -> Gives Q (f a)) -> (forall a, Lim (n - k a) Q (f1 a) (f a)) ->
  Lim n Q (bind m1 f1) (bind m f).
Proof.
  intros A B n k P Q m1 m f1 f K EA G F e w. unfold bind. destruct (K e w) as [E|(O & N & R)].
  - rewrite E. specialize (EA e w). destruct (m e w) as [[a w1]|u|]; [|left; reflexivity|left; reflexivity].
    destruct (F a e w1) as [E1|(O1 & N1 & R1)]; [left; exact E1|right]. split; [exact O1|split; [lia|exact R1]].
  - right. rewrite O. split; [reflexivity|split; [exact N|]]. intros b w' E.
    destruct (m e w) as [[a w1]|u|]; [|discriminate|discriminate]. exact (G a (R a w1 eq_refl) e w1 b w' E).
Qed.
(** the same first part on both sides *)
Lemma Lim_same : forall A B n (k : A -> nat) (Q : B -> Prop) (m : M A) (f1 f : A -> M B),
  Eats 0 k m -> (forall a, Lim (n - k a) Q (f1 a) (f a)) -> Lim n Q (bind m f1) (bind m f).
Proof. intros A B n k Q m f1 f EA F. apply Lim_bind with (k := k) (P := fun _ => False); [apply Lim_refl|exact EA|intros a []|exact F]. Qed.
Lemma Lim_same_gives : forall A B n (k : A -> nat) (P : A -> Prop) (Q : B -> Prop) (m : M A) (f1 f : A -> M B),
  Eats 0 k m -> Gives P m -> (forall a, P a -> Lim (n - k a) Q (f1 a) (f a)) -> Lim n Q (bind m f1) (bind m f).
Proof.
  intros A B n k P Q m f1 f EA G F e w. unfold bind. specialize (EA e w). destruct (m e w) as [[a w1]|u|] eqn:E; [|left; reflexivity|left; reflexivity].
  destruct (F a (G _ _ _ _ E) e w1) as [E1|(O1 & N1 & R1)]; [left; exact E1|right]. split; [exact O1|split; [lia|exact R1]].
Qed.
Lemma Lim_step : forall A B n (Q : B -> Prop) (m : M A) (f1 f : A -> M B),
  Eats 0 zero m -> (forall a, Lim n Q (f1 a) (f a)) -> Lim n Q (bind m f1) (bind m f).
Proof. intros A B n Q m f1 f EA F. apply Lim_same with (k := zero); [exact EA|]. intro a. unfold zero. rewrite Nat.sub_0_r. apply F. Qed.

(** A bounded free does the same or overflows. *)
Lemma free_all_or : forall (f g : chunk -> Z -> outcome unit) l ft,
  (forall c ft, f c ft = g c ft \/ Overflows (f c ft)) -> free_all f l ft = free_all g l ft \/ Overflows (free_all f l ft).
Proof.
  intros f g l ft O. induction l as [|c l IH]; [left; reflexivity|]. simpl. destruct (O c ft) as [E|E]; rewrite E.
  - destruct (g c ft); cbn [obind]; [exact IH|left; reflexivity|left; reflexivity].
  - right. reflexivity.
Qed.
Lemma stack_free_or : forall rg frames c ft, stack_freeChunk rg frames c ft = IFF_freeChunk rg c ft \/ Overflows (stack_freeChunk rg frames c ft).
Proof.
  intros rg. induction frames as [|n IH]; intros c ft; [right; reflexivity|].
  cbn [stack_freeChunk].
  replace (IFF_freeChunk rg c ft) with (h <-o find_handler rg ft (chunkId c) ;; freeExtensionChunk (IFF_freeChunk rg) h c) by (destruct c; reflexivity).
  destruct (find_handler rg ft (chunkId c)) as [h|u|]; cbn [obind]; [|left; reflexivity|left; reflexivity].
  assert (G : IFF_freeGroup (stack_freeChunk rg n) c = IFF_freeGroup (IFF_freeChunk rg) c \/ Overflows (IFF_freeGroup (stack_freeChunk rg n) c)).
  { destruct c; cbn [IFF_freeGroup]; try (left; reflexivity); apply free_all_or; exact IH. }
  destruct h; cbn [freeExtensionChunk]; try exact G; try (left; reflexivity).
  destruct c as [| |i s g props subs|]; cbn [IFF_freeList]; try (left; reflexivity).
  destruct (free_all_or _ _ subs g IH) as [E|E]; rewrite E; [|right; reflexivity].
  destruct (free_all (IFF_freeChunk rg) subs g); cbn [obind]; [|left; reflexivity|left; reflexivity].
  apply free_all_or; exact IH.
Qed.

(** What a chunk of a given nesting takes to read. *)
Definition tall (o : option chunk) : nat := match o with Some c => (12 * nesting c - 4)%nat | None => O end.
Definition grown (g : chunk) (r : bool * chunk * Z) : nat :=
  let '(_, g', _) := r in if (nesting g' <=? nesting g)%nat then O else (12 * nesting g' - 16)%nat.

Lemma attach_nesting : forall g c, Gives (fun g' => nesting g' = Nat.max (nesting g) (S (nesting c))) (IFF_attachToGroup g c).
Proof.
  intros g c. unfold IFF_attachToGroup. destruct g as [|i s t subs|i s t props subs|]; cbn [as_group]; try apply Gives_undefined;
    apply Gives_any; intros []; try apply Gives_undefined; apply Gives_ret; simpl; rewrite map_app, list_max_app; simpl; lia.
Qed.
Lemma addProp_nesting : forall g c, Gives (fun g' => nesting g' = Nat.max (nesting g) (S (nesting c))) (addPropToList g c).
Proof.
  intros g c. unfold addPropToList. destruct g as [|i s t subs|i s t props subs|]; try apply Gives_undefined;
    apply Gives_any; intros []; try apply Gives_undefined; apply Gives_ret; simpl; rewrite map_app, list_max_app; simpl; lia.
Qed.
Lemma set_groupType_nesting : forall c g, nesting (set_groupType c g) = nesting c.
Proof. destruct c; reflexivity. Qed.

(** combining what is consumed with what is returned *)
Lemma Eats_gives : forall A n (P : A -> Prop) (k k' : A -> nat) m, Eats n k m -> Gives P m -> (forall a, P a -> (k' a <= k a)%nat) -> Eats n k' m.
Proof.
  intros A n P k k' m E G W e w. specialize (E e w). destruct (m e w) as [[a w1]|u|] eqn:Q; [|exact I|exact E].
  specialize (W a (G _ _ _ _ Q)). lia.
Qed.
Lemma Eats_bind_gives : forall A B n (P : A -> Prop) (k : A -> nat) (k2 : B -> nat) (m : M A) (f : A -> M B),
  Eats n k m -> Gives P m -> (forall a, P a -> Eats (n - k a) (fun b => k2 b - k a)%nat (f a)) -> Eats n k2 (bind m f).
Proof.
  intros A B n P k k2 m f E G F e w. unfold bind. specialize (E e w).
  destruct (m e w) as [[a w1]|u|] eqn:Q; [|exact I|exact E].
  specialize (F a (G _ _ _ _ Q) e w1). destruct (f a e w1) as [[b w2]|u|]; [|exact I|]; lia.
Qed.

Lemma field_id_eats : forall n i s a bp, Eats n (fun r => match r with (FIELD_MORE, Some _, _) => 4%nat | _ => O end) (IFF_readField FId i s a bp).
Proof.
  intros n i s a bp. unfold IFF_readField. apply Eats_0; [apply Eats_ask|]. intro e. destruct (fieldDoesNotFitInChunk _ _ _ _); [apply Eats_ret; reflexivity|].
  eapply Eats_bind; [apply read_prim_eats|]. intros [v|]; apply Eats_ret; reflexivity.
Qed.

Section Loops.
  Variable rc : Z -> M (option chunk).
  Hypothesis RC : forall ft, Eats 0 tall (rc ft).

  Lemma group_loop_tall : forall f g gt bp, Eats 0 (grown g) (readGroupSubChunks rc f g gt bp).
  Proof.
    induction f as [|f IH]; intros g gt bp; cbn [readGroupSubChunks]; destruct (bp <? chunkSize g).
    - intros e w. exact (Nat.le_0_l _).
    - apply Eats_0; [destruct (_ <? _); [apply warning_eats|apply Eats_ret; reflexivity]|]. intro. apply Eats_ret. simpl. rewrite Nat.leb_refl. reflexivity.
    - eapply Eats_bind; [apply RC|].
      intros [c|]; [|apply Eats_ret; simpl; rewrite Nat.leb_refl; reflexivity]. cbn [tall].
      eapply Eats_bind_gives; [apply attach_eats|apply attach_nesting|]. intros g2 N. cbv beta in N.
      apply Eats_0; [eapply Eats_weaken; [apply (Eats_lift _ O), increment_fuel|lia|unfold zero; intro; lia]|]. intro b2.
      eapply Eats_weaken; [apply (IH g2)|unfold zero; lia|]. intros [[ok g'] b3]. unfold grown, zero.
      destruct (Nat.leb_spec (nesting g') (nesting g)), (Nat.leb_spec (nesting g') (nesting g2)); lia.
    - apply Eats_0; [destruct (_ <? _); [apply warning_eats|apply Eats_ret; reflexivity]|]. intro. apply Eats_ret. simpl. rewrite Nat.leb_refl. reflexivity.
  Qed.
  Lemma list_loop_tall : forall f g gt bp, Eats 0 (grown g) (readListSubChunks rc f g gt bp).
  Proof.
    induction f as [|f IH]; intros g gt bp; cbn [readListSubChunks]; destruct (bp <? chunkSize g).
    - intros e w. exact (Nat.le_0_l _).
    - apply Eats_0; [destruct (_ <? _); [apply warning_eats|apply Eats_ret; reflexivity]|]. intro. apply Eats_ret. simpl. rewrite Nat.leb_refl. reflexivity.
    - eapply Eats_bind; [apply RC|].
      intros [c|]; [|apply Eats_ret; simpl; rewrite Nat.leb_refl; reflexivity]. cbn [tall].
      eapply Eats_bind_gives with (P := fun g' => nesting g' = Nat.max (nesting g) (S (nesting c))) (k := zero);
        [destruct (_ =? _); [apply addProp_eats|apply attach_eats]|destruct (_ =? _); [apply addProp_nesting|apply attach_nesting]|]. intros g2 N.
      apply Eats_0; [eapply Eats_weaken; [apply (Eats_lift _ O), increment_fuel|lia|unfold zero; intro; lia]|]. intro b2.
      eapply Eats_weaken; [apply (IH g2)|unfold zero; lia|]. intros [[ok g'] b3]. unfold grown, zero.
      destruct (Nat.leb_spec (nesting g') (nesting g)), (Nat.leb_spec (nesting g') (nesting g2)); lia.
    - apply Eats_0; [destruct (_ <? _); [apply warning_eats|apply Eats_ret; reflexivity]|]. intro. apply Eats_ret. simpl. rewrite Nat.leb_refl. reflexivity.
  Qed.

  Definition flat (r : bool * chunk * Z) : nat := let '(_, c, _) := r in (12 * nesting c - 12)%nat.

  Lemma fields_tall : forall f h c, nesting c = 1%nat -> Eats 0 flat (readExtensionChunkFields rc f h c 0).
  Proof.
    intros f h c N.
    assert (Z : forall ok bp, flat (ok, c, bp) = O) by (intros; unfold flat; lia).
    assert (G : forall s, Eats 0 flat (IFF_readGroup rc f c s 0)).
    { intro s. unfold IFF_readGroup. destruct (as_group c); [|apply Eats_undefined]. eapply Eats_bind; [apply field_id_eats|].
      intros [[st o] b2]. destruct st, o; try (apply Eats_ret; rewrite Z; reflexivity). cbv beta iota.
      eapply Eats_weaken; [apply group_loop_tall|lia|]. intros [[ok g'] b3]. unfold grown, flat. rewrite set_groupType_nesting.
      destruct (Nat.leb_spec (nesting g') (nesting c)); lia. }
    destruct h; cbn [readExtensionChunkFields]; try apply G.
    - unfold IFF_readList. destruct c as [| |i s g props subs|]; try apply Eats_undefined. eapply Eats_bind; [apply field_id_eats|].
      intros [[st o] b2]. destruct st, o; try (apply Eats_ret; rewrite Z; reflexivity). cbv beta iota.
      eapply Eats_bind with (k := fun r => (flat r - 4)%nat).
      + eapply Eats_weaken; [apply list_loop_tall|lia|]. intros [[ok g'] b3]. unfold grown, flat. rewrite set_groupType_nesting.
        destruct (Nat.leb_spec (nesting g') (nesting (CList i s g props subs))); lia.
      + intros [[[] g'] b3]; [apply Eats_ret; lia|]. apply Eats_0; [apply Eats_error|]. intro. apply Eats_ret. lia.
    - unfold IFF_readRawChunk. destruct c as [i s d| | |]; try apply Eats_undefined. simpl in N. unfold flat. eats; try (apply Eats_ret; simpl; lia).
    - unfold read_fields_chunk. destruct c as [| | |i sz v]; try apply Eats_undefined. destruct (fkinds_eqb _ _); [|apply Eats_undefined].
      apply Eats_0; [apply read_fields_eats|]. intros [[ok vs] b]. apply Eats_ret. reflexivity.
  Qed.
End Loops.

Lemma create_nesting : forall h i s, Gives (fun oc => match oc with Some c => nesting c = 1%nat | None => True end) (createExtensionChunk h i s).
Proof.
  intros h i s. destruct h; cbn [createExtensionChunk];
    unfold IFF_createUnparsedGroup, IFF_createGroup, IFF_createUnparsedList, IFF_createList, IFF_createRawChunk, create_fields;
    repeat (cbv beta; match goal with
      | |- Gives _ (bind _ _) => apply Gives_any; intro
      | |- Gives _ (if ?b then _ else _) => destruct b
      | |- Gives _ (ret (if ?b then _ else _)) => destruct b
      | |- Gives _ (ret _) => apply Gives_ret; try exact I; reflexivity
      end).
Qed.

Theorem readChunk_tall : forall rg fuel ft, Eats 0 tall (IFF_readChunk rg fuel ft).
Proof.
  intros rg. induction fuel as [|f IH]; intros ft; cbn [IFF_readChunk].
  - intros e w. exact (Nat.le_0_l _).
  - change (IFF_readId ID_EMPTY "") with (read_prim FId ID_EMPTY "").
    eapply Eats_bind; [apply read_prim_eats|]. intros [i|]; [|apply Eats_ret; reflexivity].
    change (IFF_readLong i "chunkSize") with (read_prim FLong i "chunkSize").
    eapply Eats_bind; [apply read_prim_eats|]. intros [s|]; [|apply Eats_ret; reflexivity].
    cbn [osize fieldSize]. change (Z.to_nat 4) with 4%nat. unfold readChunkBody.
    apply Eats_0; [eapply Eats_weaken; [apply (Eats_lift _ O), find_handler_fuel|lia|unfold zero; intro; lia]|]. intro h.
    eapply Eats_bind_gives; [apply create_eats|apply create_nesting|]. intros [c|] N; [|apply Eats_ret; reflexivity]. unfold zero.
    eapply Eats_bind; [eapply Eats_weaken; [apply (fields_tall _ IH f h c N)|lia|intro; apply le_n]|].
    intros [[ok c1] bp]. apply Eats_0.
    + apply andM_eats; [apply Eats_ret; reflexivity|]. apply andM_eats; [apply skip_eats|apply pad_eats].
    + intros [|].
      * apply Eats_ret. unfold flat, tall. lia.
      * apply Eats_0; [eapply Eats_weaken; [apply (Eats_lift _ O), free_fuel|lia|unfold zero; intro; lia]|]. intro. apply Eats_ret. reflexivity.
Qed.

(** ** The bounded reader against the unbounded one *)

Definition above (f : nat) (oc : option chunk) : Prop := match oc with Some c => (f < nesting c)%nat | None => True end.
Definition above3 (f : nat) (r : bool * chunk * Z) : Prop := let '(ok, c, _) := r in ok = true -> (f < nesting c)%nat.

Section Limited.
  Variables rc1 rc : Z -> M (option chunk).
  Variable f : nat.
  Hypothesis LC : forall ft, Lim (12 * f - 4) (above f) (rc1 ft) (rc ft).
  Hypothesis RC : forall ft, Eats 0 tall (rc ft).

  Lemma group_loop_mono : forall n g gt bp, Gives (fun r => (nesting g <= nesting (snd (fst r)))%nat) (readGroupSubChunks rc n g gt bp).
  Proof.
    induction n as [|n IH]; intros g gt bp; cbn [readGroupSubChunks]; destruct (bp <? chunkSize g).
    - apply Gives_nofuel.
    - apply Gives_any. intro. apply Gives_ret. simpl. lia.
    - apply Gives_any. intros [c|]; [|apply Gives_ret; simpl; lia]. eapply Gives_bind; [apply attach_nesting|]. intros g2 N. cbv beta in N.
      apply Gives_any. intro b2. eapply Gives_weaken; [apply IH|]. intros [[ok g'] b3]. simpl. lia.
    - apply Gives_any. intro. apply Gives_ret. simpl. lia.
  Qed.
  Lemma list_loop_mono : forall n g gt bp, Gives (fun r => (nesting g <= nesting (snd (fst r)))%nat) (readListSubChunks rc n g gt bp).
  Proof.
    induction n as [|n IH]; intros g gt bp; cbn [readListSubChunks]; destruct (bp <? chunkSize g).
    - apply Gives_nofuel.
    - apply Gives_any. intro. apply Gives_ret. simpl. lia.
    - apply Gives_any. intros [c|]; [|apply Gives_ret; simpl; lia].
      eapply Gives_bind with (P := fun g' => nesting g' = Nat.max (nesting g) (S (nesting c))); [destruct (_ =? _); [apply addProp_nesting|apply attach_nesting]|].
      intros g2 N. apply Gives_any. intro b2. eapply Gives_weaken; [apply IH|]. intros [[ok g'] b3]. simpl. lia.
    - apply Gives_any. intro. apply Gives_ret. simpl. lia.
  Qed.

  Lemma rc_zero : forall ft, Eats 0 zero (rc ft).
  Proof. intro ft. eapply Eats_weaken; [apply RC|lia|unfold zero; intro; lia]. Qed.

  Lemma group_loop_lim : forall n g gt bp,
    Lim (12 * f - 4) (above3 (S f)) (readGroupSubChunks rc1 n g gt bp) (readGroupSubChunks rc n g gt bp).
  Proof.
    induction n as [|n IH]; intros g gt bp; cbn [readGroupSubChunks]; destruct (bp <? chunkSize g); try apply Lim_refl.
    apply Lim_bind with (k := zero) (P := above f); [apply LC|apply rc_zero| |].
    - intros [c|] A; [|apply Gives_ret; intro; discriminate]. cbn [above] in A. eapply Gives_bind; [apply attach_nesting|]. intros g2 N. cbv beta in N.
      apply Gives_any. intro b2. eapply Gives_weaken; [apply group_loop_mono|]. intros [[ok g'] b3] L _. simpl in L. lia.
    - unfold zero. intros [c|]; [|apply Lim_refl]. rewrite Nat.sub_0_r. apply Lim_step; [apply attach_eats|]. intro g2.
      apply Lim_step; [apply Eats_lift, increment_fuel|]. intro b2. apply IH.
  Qed.
  Lemma list_loop_lim : forall n g gt bp,
    Lim (12 * f - 4) (above3 (S f)) (readListSubChunks rc1 n g gt bp) (readListSubChunks rc n g gt bp).
  Proof.
    induction n as [|n IH]; intros g gt bp; cbn [readListSubChunks]; destruct (bp <? chunkSize g); try apply Lim_refl.
    apply Lim_bind with (k := zero) (P := above f); [apply LC|apply rc_zero| |].
    - intros [c|] A; [|apply Gives_ret; intro; discriminate]. cbn [above] in A.
      eapply Gives_bind with (P := fun g' => nesting g' = Nat.max (nesting g) (S (nesting c))); [destruct (_ =? _); [apply addProp_nesting|apply attach_nesting]|].
      intros g2 N. apply Gives_any. intro b2. eapply Gives_weaken; [apply list_loop_mono|]. intros [[ok g'] b3] L _. simpl in L. lia.
    - unfold zero. intros [c|]; [|apply Lim_refl]. rewrite Nat.sub_0_r. apply Lim_step; [destruct (_ =? _); [apply addProp_eats|apply attach_eats]|]. intro g2.
      apply Lim_step; [apply Eats_lift, increment_fuel|]. intro b2. apply IH.
  Qed.

  Lemma fields_lim : forall n h c,
    Lim (12 * f) (above3 (S f)) (readExtensionChunkFields rc1 n h c 0) (readExtensionChunkFields rc n h c 0).
  Proof.
    intros n h c.
    assert (G : forall s, Lim (12 * f) (above3 (S f)) (IFF_readGroup rc1 n c s 0) (IFF_readGroup rc n c s 0)).
    { intro s. unfold IFF_readGroup. destruct (as_group c); [|apply Lim_refl]. eapply Lim_same; [apply field_id_eats|].
      intros [[st o] b2]. destruct st, o; try apply Lim_refl. apply group_loop_lim. }
    destruct h; cbn [readExtensionChunkFields]; try apply G; try apply Lim_refl.
    unfold IFF_readList. destruct c as [| |i s g props subs|]; try apply Lim_refl. eapply Lim_same; [apply field_id_eats|].
    intros [[st o] b2]. destruct st, o; try apply Lim_refl. cbv beta iota.
    apply Lim_bind with (k := zero) (P := above3 (S f)); [apply list_loop_lim| | |intros [[[] g'] b3]; apply Lim_refl].
    - eapply Eats_weaken; [apply (list_loop_tall _ RC)|lia|unfold zero; intro; lia].
    - intros [[[] g'] b3] A; [apply Gives_ret; exact A|]. apply Gives_any. intro. apply Gives_ret. intro; discriminate.
  Qed.

  Lemma body_lim : forall rg n i s ft,
    Lim (12 * f) (above (S f)) (stack_readChunkBody f rc1 rg n i s ft) (readChunkBody rc rg n i s ft).
  Proof.
    intros rg n i s ft. unfold stack_readChunkBody, readChunkBody.
    apply Lim_step; [apply Eats_lift, find_handler_fuel|]. intro h.
    eapply Lim_same_gives; [apply create_eats|apply create_nesting|]. intros [c|] CN; [|apply Lim_refl]. cbv beta iota in CN.
    unfold zero. rewrite Nat.sub_0_r.
    apply Lim_bind with (k := flat) (P := above3 (S f)); [apply fields_lim|apply (fields_tall _ RC), CN| |].
    - intros [[ok c1] bp] A. apply Gives_bind with (P := fun b => b = true -> ok = true).
      + destruct ok; [intros e' w' b w2 _ _; reflexivity|]. apply Gives_ret. intro; discriminate.
      + intros [] B; [apply Gives_ret; exact (A (B eq_refl))|]. apply Gives_any. intro. apply Gives_ret. exact I.
    - intros [[ok c1] bp]. apply Lim_step.
      + apply andM_eats; [apply Eats_ret; reflexivity|]. apply andM_eats; [apply skip_eats|apply pad_eats].
      + intros []; [apply Lim_refl|]. intros e' w'. unfold bind, lift.
        destruct (Nat.leb_spec (nesting c1) f) as [L|L].
        * left. rewrite stack_free by exact L. reflexivity.
        * destruct (stack_free_or rg f c1 ft) as [E|E]; rewrite E; [left; reflexivity|right].
          split; [reflexivity|split; [unfold flat; lia|]]. intros a w2 Q. destruct (IFF_freeChunk rg c1 ft); [|discriminate|discriminate].
          injection Q as <- _. exact I.
  Qed.
End Limited.

Theorem stack_read_lim : forall rg fuel frames ft,
  Lim (12 * frames - 4) (above frames) (stack_readChunk rg frames fuel ft) (IFF_readChunk rg fuel ft).
Proof.
  intros rg. induction fuel as [|n IH]; intros frames ft; [apply Lim_refl|]. cbn [stack_readChunk].
  destruct frames as [|f].
  - intros e w. right. split; [reflexivity|split; [lia|]]. intros [c|] w' _; [|exact I]. pose proof (nesting_pos c). unfold above. lia.
  - cbn [IFF_readChunk].
    change (IFF_readId ID_EMPTY "") with (read_prim FId ID_EMPTY "").
    eapply Lim_same; [apply read_prim_eats|]. intros [i|]; [|apply Lim_refl].
    change (IFF_readLong i "chunkSize") with (read_prim FLong i "chunkSize").
    eapply Lim_same; [apply read_prim_eats|]. intros [s|]; [|apply Lim_refl].
    eapply Lim_weaken; [apply body_lim; [intro; apply IH|apply readChunk_tall]| |intros a A; exact A].
    cbn [osize fieldSize]. change (Z.to_nat 4) with 4%nat. lia.
Qed.

(** ** A bounded reader returns no tree that needs more calls *)

Definition within (f : nat) (oc : option chunk) : Prop := match oc with Some c => (nesting c <= f)%nat | None => True end.

Section Within.
  Variable rc : Z -> M (option chunk).
  Variable f : nat.
  Hypothesis RC : forall ft, Gives (within f) (rc ft).

  Lemma group_loop_within : forall n g gt bp, (nesting g <= S f)%nat ->
    Gives (fun r => (nesting (snd (fst r)) <= S f)%nat) (readGroupSubChunks rc n g gt bp).
  Proof.
    induction n as [|n IH]; intros g gt bp L; cbn [readGroupSubChunks]; destruct (bp <? chunkSize g).
    - apply Gives_nofuel.
    - apply Gives_any. intro. apply Gives_ret. exact L.
    - eapply Gives_bind; [apply RC|]. intros [c|] W; [|apply Gives_ret; exact L]. cbn [within] in W.
      eapply Gives_bind; [apply attach_nesting|]. intros g2 N. cbv beta in N. apply Gives_any. intro b2. apply IH. lia.
    - apply Gives_any. intro. apply Gives_ret. exact L.
  Qed.
  Lemma list_loop_within : forall n g gt bp, (nesting g <= S f)%nat ->
    Gives (fun r => (nesting (snd (fst r)) <= S f)%nat) (readListSubChunks rc n g gt bp).
  Proof.
    induction n as [|n IH]; intros g gt bp L; cbn [readListSubChunks]; destruct (bp <? chunkSize g).
    - apply Gives_nofuel.
    - apply Gives_any. intro. apply Gives_ret. exact L.
    - eapply Gives_bind; [apply RC|]. intros [c|] W; [|apply Gives_ret; exact L]. cbn [within] in W.
      eapply Gives_bind with (P := fun g' => nesting g' = Nat.max (nesting g) (S (nesting c))); [destruct (_ =? _); [apply addProp_nesting|apply attach_nesting]|].
      intros g2 N. apply Gives_any. intro b2. apply IH. lia.
    - apply Gives_any. intro. apply Gives_ret. exact L.
  Qed.
  Lemma fields_within : forall n h c, nesting c = 1%nat ->
    Gives (fun r => (nesting (snd (fst r)) <= S f)%nat) (readExtensionChunkFields rc n h c 0).
  Proof.
    intros n h c N. assert (L : (nesting c <= S f)%nat) by lia.
    assert (G : forall z, Gives (fun r => (nesting (snd (fst r)) <= S f)%nat) (IFF_readGroup rc n c z 0)).
    { intro z. unfold IFF_readGroup. destruct (as_group c); [|apply Gives_undefined]. apply Gives_any.
      intros [[st o] b2]. destruct st, o; try (apply Gives_ret; exact L). apply group_loop_within. rewrite set_groupType_nesting. exact L. }
    destruct h; cbn [readExtensionChunkFields]; try apply G.
    - unfold IFF_readList. destruct c as [| |i z g props subs|]; try apply Gives_undefined. apply Gives_any.
      intros [[st o] b2]. destruct st, o; try (apply Gives_ret; exact L). cbv beta iota.
      eapply Gives_bind; [apply list_loop_within; rewrite set_groupType_nesting; exact L|].
      intros [[[] g'] b3] A; [apply Gives_ret; exact A|]. apply Gives_any. intro. apply Gives_ret. exact A.
    - unfold IFF_readRawChunk. destruct c as [i z d| | |]; try apply Gives_undefined.
      repeat (cbv beta zeta; match goal with
        | |- Gives _ (bind _ _) => apply Gives_any; intro
        | |- Gives _ (if ?b then _ else _) => destruct b
        | |- Gives _ (undefined _) => apply Gives_undefined
        | |- Gives _ (ret _) => apply Gives_ret; simpl; lia
        end).
    - unfold read_fields_chunk. destruct c as [| | |i z v]; try apply Gives_undefined. destruct (fkinds_eqb _ _); [|apply Gives_undefined].
      apply Gives_any. intros [[ok vs] b]. apply Gives_ret. simpl. lia.
  Qed.
End Within.

Theorem stack_read_within : forall rg fuel frames ft, Gives (within frames) (stack_readChunk rg frames fuel ft).
Proof.
  intros rg. induction fuel as [|n IH]; intros frames ft; [apply Gives_nofuel|]. cbn [stack_readChunk].
  destruct frames as [|f]; [apply Gives_undefined|].
  apply Gives_any. intros [i|]; [|apply Gives_ret; exact I]. apply Gives_any. intros [s|]; [|apply Gives_ret; exact I].
  unfold stack_readChunkBody. apply Gives_any. intro h. eapply Gives_bind; [apply create_nesting|]. intros [c|] N; [|apply Gives_ret; exact I].
  eapply Gives_bind; [apply (fields_within _ f); [intro; apply IH|exact N]|]. intros [[ok c1] bp] L. cbn [fst snd] in L.
  apply Gives_any. intros []; [apply Gives_ret; exact L|]. apply Gives_any. intro. apply Gives_ret. exact I.
Qed.

(** ** A tree that is nested more deeply cannot be freed *)

Lemma list_max_above : forall l n, (n < list_max l)%nat -> exists x, In x l /\ (n < x)%nat.
Proof.
  induction l as [|x l IH]; intros n L; simpl in L; [lia|]. destruct (Nat.lt_ge_cases n x) as [K|K]; [exists x; split; [left; reflexivity|exact K]|].
  destruct (IH n) as (y & I & B); [lia|]. exists y. split; [right; exact I|exact B].
Qed.
Lemma member_above : forall l n, (n < list_max (map nesting l))%nat -> exists c, In c l /\ (n < nesting c)%nat.
Proof. intros l n L. destruct (list_max_above _ _ L) as (x & I & B). apply in_map_iff in I. destruct I as (c & <- & I). exists c. auto. Qed.

Lemma free_all_short : forall rg n l g,
  (forall c, In c l -> IFF_freeChunk rg c g = Done tt) ->
  (forall c, In c l -> (n < nesting c)%nat -> Overflows (stack_freeChunk rg n c g)) ->
  (n < list_max (map nesting l))%nat -> Overflows (free_all (stack_freeChunk rg n) l g).
Proof.
  intros rg n l g D O L. apply member_above in L. destruct L as (x & I & B). revert D O. induction l as [|c l IH]; intros D O; [destruct I|]. simpl.
  destruct (stack_free_or rg n c g) as [E|E]; rewrite E; [|reflexivity]. rewrite (D c (or_introl eq_refl)). cbn [obind].
  destruct I as [->|I].
  - rewrite (O x (or_introl eq_refl) B) in E. rewrite (D x (or_introl eq_refl)) in E. discriminate.
  - apply IH; [exact I|intros; apply D; right; assumption|intros; apply O; [right|]; assumption].
Qed.

Theorem stack_free_short : forall rg app, Realises rg app -> forall frames c ft, Typed app ft c -> (frames < nesting c)%nat ->
  Overflows (stack_freeChunk rg frames c ft).
Proof.
  intros rg app RG. induction frames as [|n IH]; intros c ft T L; [reflexivity|]. cbn [stack_freeChunk]. rewrite RG. cbn [obind].
  assert (S1 : forall l g, (forall c, In c l -> Typed app g c) -> (n < list_max (map nesting l))%nat -> Overflows (free_all (stack_freeChunk rg n) l g)).
  { intros l g TL B. apply free_all_short; [|intros; apply IH; auto|exact B]. intros x I. apply (free_typed rg app RG). auto. }
  assert (O1 : forall l g, (forall c, In c l -> Typed app g c) -> free_all (stack_freeChunk rg n) l g = Done tt \/ Overflows (free_all (stack_freeChunk rg n) l g)).
  { intros l g TL. destruct (free_all_or (stack_freeChunk rg n) (IFF_freeChunk rg) l g (stack_free_or rg n)) as [E|E]; [left|right; exact E].
    rewrite E. clear E. induction l as [|x l IHl]; [reflexivity|]. simpl. rewrite (free_typed rg app RG x g) by (apply TL; left; reflexivity).
    apply IHl. intros; apply TL; right; assumption. }
  inversion T as [ft' i s d N A|ft' i s spec vals N A K|ft' i s g subs I TS|ft' s g props subs TP TS]; subst; simpl in L; try lia.
  - cbn [chunkId]. destruct (WriteProofs.group_handler app ft i I) as (h & E & HI). rewrite E.
    assert (G : Overflows (free_all (stack_freeChunk rg n) subs g)) by (apply S1; [exact TS|lia]).
    cbn [In] in HI. repeat destruct HI as [<-|HI]; try exact G; contradiction.
  - cbn [chunkId]. change (expected_handler app ft LIST_ID) with HList. cbn [freeExtensionChunk IFF_freeList].
    destruct (O1 subs g TS) as [E|E]; rewrite E; [|reflexivity]. cbn [obind].
    apply S1; [intros x I; apply TP, I|].
    destruct (Nat.lt_ge_cases n (list_max (map nesting subs))) as [B|B]; [rewrite (S1 _ _ TS B) in E; discriminate|lia].
Qed.

(** ** Whatever the stack, an operation does the same or overflows *)

Definition or_overflows {A} (o1 o : outcome A) : Prop := o1 = o \/ Overflows o1.
Definition OrM {A} (m1 m : M A) : Prop := forall e w, or_overflows (m1 e w) (m e w).

Lemma or_refl : forall A (o : outcome A), or_overflows o o.
Proof. intros. left. reflexivity. Qed.
Lemma or_bind : forall A B (o1 o : outcome A) (f1 f : A -> outcome B), or_overflows o1 o -> (forall a, or_overflows (f1 a) (f a)) ->
  or_overflows (obind o1 f1) (obind o f).
Proof. intros A B o1 o f1 f [->| ->] F; [|right; reflexivity]. destruct o; cbn [obind]; [apply F|left; reflexivity|left; reflexivity]. Qed.
Lemma OrM_refl : forall A (m : M A), OrM m m.
Proof. intros A m e w. left. reflexivity. Qed.
Lemma OrM_bind : forall A B (m1 m : M A) (f1 f : A -> M B), OrM m1 m -> (forall a, OrM (f1 a) (f a)) -> OrM (bind m1 f1) (bind m f).
Proof.
  intros A B m1 m f1 f K F e w. unfold bind. destruct (K e w) as [->| ->]; [|right; reflexivity].
  destruct (m e w) as [[a w1]|u|]; [apply F|left; reflexivity|left; reflexivity].
Qed.
Lemma OrM_and : forall m n1 n, OrM n1 n -> OrM (andM m n1) (andM m n).
Proof. intros m n1 n K. apply OrM_bind; [apply OrM_refl|]. intros []; [exact K|apply OrM_refl]. Qed.

Ltac ors := repeat (cbv beta; match goal with
  | |- or_overflows ?a ?a => apply or_refl
  | |- OrM ?a ?a => apply OrM_refl
  | |- or_overflows (obind _ _) (obind _ _) => apply or_bind; [|intro]
  | |- OrM (bind _ _) (bind _ _) => apply OrM_bind; [|intro]
  | |- or_overflows (if ?b then _ else _) _ => destruct b
  | |- OrM (if ?b then _ else _) _ => destruct b
  | |- or_overflows (match ?x with _ => _ end) _ => destruct x
  | |- OrM (match ?x with _ => _ end) _ => destruct x
  end).

Lemma stack_write_or : forall rg frames c ft, OrM (stack_writeChunk rg frames c ft) (IFF_writeChunk rg c ft).
Proof.
  intros rg. induction frames as [|n IH]; intros c ft; [intros e w; right; reflexivity|]. cbn [stack_writeChunk].
  replace (IFF_writeChunk rg c ft) with (andM (IFF_writeId (chunkId c) (chunkId c) "chunkId")
    (andM (IFF_writeLong (chunkSize c) (chunkId c) "chunkSize") (writeChunkBody (IFF_writeChunk rg) rg c ft))) by (destruct c; reflexivity).
  assert (A : forall msg l ft bp, OrM (write_all (stack_writeChunk rg n) msg l ft bp) (write_all (IFF_writeChunk rg) msg l ft bp)).
  { induction l as [|x l IHl]; intros g bp; cbn [write_all]; ors; [apply IH|apply IHl]. }
  apply OrM_and, OrM_and. unfold writeChunkBody. ors.
  match goal with |- OrM (_ _ ?h _ _) _ => destruct h end; cbn [writeExtensionChunkFields]; unfold IFF_writeGroup, IFF_writeList, IFF_writeGroupSubChunks, writeListPropChunks; ors; apply A.
Qed.

Lemma stack_check_or : forall rg frames c ft, OrM (stack_checkChunk rg frames c ft) (IFF_checkChunk rg c ft).
Proof.
  intros rg. induction frames as [|n IH]; intros c ft; [intros e w; right; reflexivity|]. cbn [stack_checkChunk].
  replace (IFF_checkChunk rg c ft) with (ok <- IFF_checkId (chunkId c) ;; if negb ok then ret false else
    h <- lift (find_handler rg ft (chunkId c)) ;; checkExtensionChunk (IFF_checkChunk rg) h c) by (destruct c; reflexivity).
  assert (A : forall sub l ft bp, OrM (check_subs (stack_checkChunk rg n) sub l ft bp) (check_subs (IFF_checkChunk rg) sub l ft bp)).
  { induction l as [|x l IHl]; intros g bp; cbn [check_subs]; ors; [apply IH|apply IHl]. }
  ors. match goal with |- OrM (_ _ ?h _) _ => destruct h end; cbn [checkExtensionChunk];
    unfold IFF_checkForm, IFF_checkCAT, IFF_checkProp, IFF_checkGroup, IFF_checkList, checkListPropChunks; ors; apply A.
Qed.

Lemma stack_print_or : forall rg frames c level ft, or_overflows (stack_printChunk rg frames c level ft) (IFF_printChunk rg c level ft).
Proof.
  intros rg. induction frames as [|n IH]; intros c level ft; [right; reflexivity|]. cbn [stack_printChunk].
  replace (IFF_printChunk rg c level ft) with (h <-o find_handler rg ft (chunkId c) ;;
     s <-o printExtensionChunk (IFF_printChunk rg) h c level ;;
     Done (IFF_printIndent level "'" ++ IFF_printId (chunkId c) ++ "' = {" ++ nl
        ++ IFF_printIndent (S level) ("chunkSize = " ++ dec (chunkSize c) ++ ";" ++ nl)
        ++ s ++ IFF_printIndent level ("}" ++ nl ++ nl))%string) by (destruct c; reflexivity).
  assert (A : forall l lv ft, or_overflows (print_all (stack_printChunk rg n) l lv ft) (print_all (IFF_printChunk rg) l lv ft)).
  { induction l as [|x l IHl]; intros lv g; cbn [print_all]; ors; [apply IH|apply IHl]. }
  ors. match goal with |- or_overflows (_ _ ?h _ _) _ => destruct h end; cbn [printExtensionChunk];
    unfold IFF_printGroup, IFF_printList, print_array; ors; apply A.
Qed.

Lemma stack_compare_or : forall e rg frames c1 c2 ft, or_overflows (stack_compareChunk e rg frames c1 c2 ft) (IFF_compareChunk e rg c1 c2 ft).
Proof.
  intros e rg. induction frames as [|n IH]; intros c1 c2 ft; [right; reflexivity|]. cbn [stack_compareChunk].
  replace (IFF_compareChunk e rg c1 c2 ft) with (if (chunkId c1 =? chunkId c2) && (chunkSize c1 =? chunkSize c2) then
    h <-o find_handler rg ft (chunkId c1) ;; compareExtensionChunk (IFF_compareChunk e rg) e h c1 c2 else Done false) by (destruct c1; reflexivity).
  assert (A : forall l1 l2 ft, or_overflows (compare_all (stack_compareChunk e rg n) l1 l2 ft) (compare_all (IFF_compareChunk e rg) l1 l2 ft)).
  { induction l1 as [|x l IHl]; intros [|y l2] g; cbn [compare_all]; ors; [apply IH|apply IHl]. }
  assert (G : forall a b, or_overflows (IFF_compareGroup (stack_compareChunk e rg n) a b) (IFF_compareGroup (IFF_compareChunk e rg) a b)).
  { intros a b. unfold IFF_compareGroup. ors; apply A. }
  assert (P : forall l1 l2, or_overflows (compare_props (stack_compareChunk e rg n) l1 l2) (compare_props (IFF_compareChunk e rg) l1 l2)).
  { induction l1 as [|x l IHl]; intros [|y l2]; cbn [compare_props]; ors; [apply G|apply IHl]. }
  ors. match goal with |- or_overflows (_ _ _ ?h _ _) _ => destruct h end; cbn [compareExtensionChunk]; try apply G; unfold IFF_compareList; ors; auto.
Qed.

Lemma stack_search_or : forall frames fts c, or_overflows (stack_searchForms frames fts c) (IFF_searchFormsFromArray fts c).
Proof.
  induction frames as [|n IH]; intros fts c; [right; reflexivity|].
  assert (A : forall l acc, or_overflows (search_all (stack_searchForms n fts) l acc) (search_all (IFF_searchFormsFromArray fts) l acc)).
  { induction l as [|x l IHl]; intro acc; cbn [search_all]; ors; [apply IH|apply IHl]. }
  cbn [stack_searchForms].
  destruct c as [i s d|i s g subs|i s g props subs|i s v]; cbn [IFF_searchFormsFromArray chunkId]; unfold IFF_searchFormsInForm, IFF_searchFormsInGroup; ors; apply A.
Qed.

(** ** A tree that is nested more deeply cannot be printed *)

Lemma print_all_short : forall rg n l lv g t,
  print_all (IFF_printChunk rg) l lv g = Done t ->
  (forall c t, In c l -> IFF_printChunk rg c lv g = Done t -> (n < nesting c)%nat -> Overflows (stack_printChunk rg n c lv g)) ->
  (n < list_max (map nesting l))%nat -> Overflows (print_all (stack_printChunk rg n) l lv g).
Proof.
  intros rg n l lv g t D O L. apply member_above in L. destruct L as (x & I & B). revert t D O. induction l as [|c l IH]; intros t D O; [destruct I|].
  cbn [print_all] in *. destruct (IFF_printChunk rg c lv g) as [s|u|] eqn:E1; try discriminate. cbn [obind] in D.
  destruct (print_all (IFF_printChunk rg) l lv g) as [s2|u|] eqn:E2; try discriminate.
  destruct (stack_print_or rg n c lv g) as [E|E]; rewrite E; [|reflexivity]. rewrite E1. cbn [obind].
  destruct I as [->|I].
  - rewrite (O x _ (or_introl eq_refl) E1 B) in E. rewrite E1 in E. discriminate.
  - rewrite (IH I _ eq_refl); [reflexivity|]. intros; apply (O _ t0); [right| |]; assumption.
Qed.

Theorem stack_print_short : forall rg app, Realises rg app -> forall frames c lv ft t, Typed app ft c -> (frames < nesting c)%nat ->
  IFF_printChunk rg c lv ft = Done t -> Overflows (stack_printChunk rg frames c lv ft).
Proof.
  intros rg app RG. induction frames as [|n IH]; intros c lv ft t T L D; [reflexivity|]. cbn [stack_printChunk].
  assert (S1 : forall l g lv t, (forall c, In c l -> Typed app g c) -> (n < list_max (map nesting l))%nat ->
    print_all (IFF_printChunk rg) l lv g = Done t -> Overflows (print_all (stack_printChunk rg n) l lv g)).
  { intros l g lv' t' TL B D'. eapply print_all_short; [exact D'| |exact B]. intros x t2 I D2 B2. apply (IH x lv' g t2); auto. }
  assert (SP : forall A (o : outcome A) B (k : A -> outcome B) b, obind o k = Done b -> exists a, o = Done a) by (intros A o B k b K; destruct o; [eexists; reflexivity|discriminate|discriminate]).
  inversion T as [ft' i s d N A|ft' i s spec vals N A K|ft' i s g subs I TS|ft' s g props subs TP TS]; subst; simpl in L; try lia;
    cbn [IFF_printChunk chunkId] in D; rewrite RG in D |- *; cbn [obind chunkId] in D |- *.
  - destruct (WriteProofs.group_handler app ft i I) as (h & E & HI). rewrite E in D |- *. clear E.
    assert (P : exists t, print_all (IFF_printChunk rg) subs (S lv) g = Done t).
    { destruct (SP _ _ _ _ _ D) as [t1 D1]. cbn [In] in HI. repeat destruct HI as [<-|HI]; try contradiction; cbn [printExtensionChunk IFF_printGroup] in D1;
        destruct (SP _ _ _ _ _ D1) as [t2 D2]; exact (SP _ _ _ _ _ D2). }
    destruct P as [t' P]. assert (G := S1 _ _ _ _ TS (proj2 (Nat.succ_lt_mono _ _) L) P).
    cbn [In] in HI. repeat destruct HI as [<-|HI]; try contradiction; cbn [printExtensionChunk IFF_printGroup]; unfold print_array; rewrite G; reflexivity.
  - change (expected_handler app ft LIST_ID) with HList in D |- *. cbn [printExtensionChunk IFF_printList] in D |- *.
    destruct (SP _ _ _ _ _ D) as [t1 D1]. unfold print_array in D1 |- *.
    destruct (SP _ _ _ _ _ D1) as [t2 D2]. destruct (SP _ _ _ _ _ D2) as [t3 D3].
    rewrite D3 in D1. cbn [obind] in D1. destruct (SP _ _ _ _ _ D1) as [t4 D4]. destruct (SP _ _ _ _ _ D4) as [t5 D5].
    assert (TP' : forall c, In c props -> Typed app g c) by (intros x I; apply TP, I).
    assert (PO : or_overflows (print_all (stack_printChunk rg n) props (S lv) g) (print_all (IFF_printChunk rg) props (S lv) g)).
    { clear -n rg. induction props as [|x l IHl]; cbn [print_all]; ors; [apply stack_print_or|apply IHl]. }
    destruct (Nat.lt_ge_cases n (list_max (map nesting props))) as [B|B].
    + rewrite (S1 _ _ _ _ TP' B D3). reflexivity.
    + assert (B2 : (n < list_max (map nesting subs))%nat) by lia.
      destruct PO as [E|E]; rewrite E; [|reflexivity]. rewrite D3. cbn [obind]. rewrite (S1 _ _ _ _ TS B2 D5). reflexivity.
Qed.
