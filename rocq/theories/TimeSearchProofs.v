(** * What searching for FORMs costs *)

From Coq Require Import ZArith List Bool String Lia.
From Coq Require Import Strings.Byte.
From Verif Require Import Machine Io Types Build Read Search Iff Spec Lemmas IoProofs SoundProofs PropSearch
  Heap HeapSpec HeapProofs HeapBuildProofs HeapReadProofs HeapAddProofs HeapReachProofs HeapPathProofs HeapSearch HeapUpdateProofs HeapLookupProofs HeapFormsProofs
  SessionSpec ThreadSpec ThreadStepProofs TimeSpec TimeProofs.
Import ListNotations.
Open Scope Z_scope.

(** ** How the calls are taken apart *)

Definition tchunk (a : addr) : task (header * body) :=
  TLoad a (fun o => match o with OChunk hd b => TRet (hd, b) | _ => TUndefined UB_type_confusion end).
Definition telements (p : ptr) (n : nat) : task (list addr) :=
  match n with
  | O => TRet []
  | _ =>
      match p with
      | None => TUndefined UB_null_deref
      | Some a => TLoad a (fun o =>
          match o with
          | OArray l => if Nat.leb n (List.length l) then TRet (firstn n l) else TUndefined UB_out_of_bounds
          | _ => TUndefined UB_type_confusion
          end)
      end
  end.
Definition tfree (p : ptr) : task unit := match p with None => TRet tt | Some a => TFree a (TRet tt) end.
Definition tmerge (target : ptr) (n : nat) (source : ptr) (m : nat) : task (ptr * nat) :=
  tbind (telements target n) (fun t =>
  TIo (malloc (Z.of_nat (n + m) * sizeof_pointer)) (fun ok : bool =>
  if ok then
    tbind (tfree target) (fun _ => tbind (telements source m) (fun s => TPlace (OArray (t ++ s)) (fun a => TRet (Some a, (n + m)%nat))))
  else match (n + m)%nat with
  | O => tbind (tfree target) (fun _ => TRet (None, O))
  | _ => TUndefined UB_null_deref
  end)).
Section Search.
  Variable sc : addr -> task (ptr * nat).
  Fixpoint tall (l : list addr) (forms : ptr) (n : nat) : task (ptr * nat) :=
    match l with
    | [] => TRet (forms, n)
    | c :: r => tbind (sc c) (fun '(result, k) => tbind (tmerge forms n result k) (fun '(forms', n') => tall r forms' n'))
    end.
  Definition tgroup (group : addr) : task (ptr * nat) :=
    tbind (tchunk group) (fun '(_, b) =>
    match b with
    | BGroup _ n arr | BList _ n arr _ _ => tbind (telements arr n) (fun l => tall l None 0)
    | _ => TUndefined UB_type_confusion
    end).
  Definition tform (types : list Z) (form : addr) : task (ptr * nat) :=
    tbind (tchunk form) (fun '(_, b) =>
    match type_of b with
    | None => TUndefined UB_type_confusion
    | Some g =>
        if existsb (fun formType => g =? formType) types then
          TIo (malloc sizeof_pointer) (fun ok : bool => if ok then TPlace (OArray [form]) (fun a => TRet (Some a, 1%nat)) else TUndefined UB_null_deref)
        else tgroup form
    end).
End Search.
Fixpoint tsearch (fuel : nat) (types : list Z) (c : addr) : task (ptr * nat) :=
  match fuel with
  | O => TNoFuel
  | S f =>
      tbind (tchunk c) (fun '(hd, _) =>
      if o_id hd =? IFF_ID_FORM then tform (tsearch f types) types c
      else if o_id hd =? IFF_ID_CAT then tgroup (tsearch f types) c
      else if o_id hd =? IFF_ID_LIST then tgroup (tsearch f types) c
      else TRet (None, O))
  end.

Lemma ap_bind : forall A C (t : task A) (m : H A) (k : A -> task C) (f : A -> H C),
  takes_apart t m -> (forall a, takes_apart (k a) (f a)) -> takes_apart (tbind t k) (hbind m f).
Proof. intros A C t m k f T K e w h. rewrite perform_bind. unfold hbind. rewrite (T e w h). destruct (m e w h) as [[[a w'] h']|u|]; [apply K|reflexivity|reflexivity]. Qed.
Lemma ap_io : forall A C (m : M A) (k : A -> task C) (f : A -> H C), (forall a, takes_apart (k a) (f a)) -> takes_apart (TIo m k) (hbind (io m) f).
Proof. intros A C m k f K e w h. cbn [perform]. unfold hbind, io. destruct (m e w) as [[a w']|u|]; [apply K|reflexivity|reflexivity]. Qed.
Lemma ap_chunk : forall a, takes_apart (tchunk a) (hchunk a).
Proof. intros a e w h. unfold tchunk, hchunk. cbn [perform]. unfold hbind, hload. destruct (lookup h a) as [[]|]; reflexivity. Qed.
Lemma ap_elements : forall p n, takes_apart (telements p n) (helements p n).
Proof.
  intros p n e w h. unfold telements, helements, harray. destruct n as [|n]; [reflexivity|]. destruct p as [a|]; [|reflexivity].
  cbn [perform]. unfold hbind, hload. destruct (lookup h a) as [[| |l]|]; try reflexivity. cbn [hret]. destruct (Nat.leb _ _); reflexivity.
Qed.
Lemma ap_free : forall p, takes_apart (tfree p) (hfree p).
Proof. intros [a|] e w h; [|reflexivity]. cbn [tfree perform]. unfold hbind, hfree. destruct (lookup h a); reflexivity. Qed.
Lemma ap_merge : forall t n s m, takes_apart (tmerge t n s m) (hmergeFormArray t n s m).
Proof.
  intros t n s m. unfold tmerge, hmergeFormArray. apply ap_bind; [apply ap_elements|]. intro l. apply ap_io. intros [].
  - apply ap_bind; [apply ap_free|]. intros _. apply ap_bind; [apply ap_elements|]. intros l2 e2 w2 h2. reflexivity.
  - destruct (n + m)%nat; [|intros e w h; reflexivity]. apply ap_bind; [apply ap_free|]. intros _ e2 w2 h2. reflexivity.
Qed.
Lemma ap_all : forall sc hs, (forall c, takes_apart (sc c) (hs c)) -> forall l p n, takes_apart (tall sc l p n) (hsearch_all hs l p n).
Proof.
  intros sc hs S l. induction l as [|c l IH]; intros p n; [intros e w h; reflexivity|]. cbn [tall hsearch_all]. apply ap_bind; [apply S|]. intros [r k].
  apply ap_bind; [apply ap_merge|]. intros [p' n']. apply IH.
Qed.
Lemma ap_group : forall sc hs, (forall c, takes_apart (sc c) (hs c)) -> forall c, takes_apart (tgroup sc c) (hsearchFormsInGroup hs c).
Proof.
  intros sc hs S c. unfold tgroup, hsearchFormsInGroup. apply ap_bind; [apply ap_chunk|]. intros [hd b].
  destruct b; try (intros e w h; reflexivity); (apply ap_bind; [apply ap_elements|]; intro l; apply ap_all; exact S).
Qed.
Lemma ap_form : forall sc hs, (forall c, takes_apart (sc c) (hs c)) -> forall ts c, takes_apart (tform sc ts c) (hsearchFormsInForm hs ts c).
Proof.
  intros sc hs S ts c. unfold tform, hsearchFormsInForm. apply ap_bind; [apply ap_chunk|]. intros [hd b]. destruct (type_of b); [|intros e w h; reflexivity].
  destruct (existsb _ _); [|apply ap_group; exact S]. intros e w h. cbn [perform]. unfold hmalloc, hbind, io. destruct (malloc _ e w) as [[[] w1]|u|]; reflexivity.
Qed.
Lemma ap_search : forall n ts c, takes_apart (tsearch n ts c) (hsearchFormsFromArray n ts c).
Proof.
  induction n as [|n IH]; intros ts c; [intros e w h; reflexivity|]. cbn [tsearch hsearchFormsFromArray]. apply ap_bind; [apply ap_chunk|]. intros [hd b].
  destruct (_ =? _); [apply ap_form; intro; apply IH|]. destruct (_ =? _); [apply ap_group; intro; apply IH|]. destruct (_ =? _); [apply ap_group; intro; apply IH|]. intros e w h. reflexivity.
Qed.

(** ** The pointers copied, as a number *)

Definition found (types : list Z) (c : chunk) : nat := List.length (positions types c).
Section Pointers.
  Variable types : list Z.
  Variable one : chunk -> nat.
  Fixpoint merged (n : nat) (l : list chunk) : nat :=
    match l with
    | [] => 0
    | x :: r => one x + (n + found types x) + merged (n + found types x) r
    end%nat.
End Pointers.
Fixpoint pointers (types : list Z) (c : chunk) : nat :=
  if is_wanted types c then 1%nat
  else match c with
  | CGroup i _ _ l => if i =? IFF_ID_PROP then 0%nat else merged types (pointers types) 0 l
  | CList _ _ _ _ l => merged types (pointers types) 0 l
  | _ => 0%nat
  end.

(** ** The costs of the parts *)

Definition does {A} (t : task A) e w h a w' h' (E C : nat) : Prop :=
  perform t e w h = Done (a, w', h') -> (effort t e w h <= E)%nat /\ copied t e w h = C.

Lemma do_bind : forall A D (t : task A) (k : A -> task D) e w h a w1 h1 b w' h' E1 C1 E2 C2,
  perform t e w h = Done (a, w1, h1) -> does t e w h a w1 h1 E1 C1 -> does (k a) e w1 h1 b w' h' E2 C2 ->
  does (tbind t k) e w h b w' h' (E1 + E2) (C1 + C2).
Proof.
  intros A D t k e w h a w1 h1 b w' h' E1 C1 E2 C2 P D1 D2 R. rewrite effort_bind, copied_bind. rewrite perform_bind in R. unfold hbind in R. rewrite P in *.
  destruct (D1 P) as (X1 & Y1). destruct (D2 R) as (X2 & Y2). lia.
Qed.
Lemma do_chunk : forall a e w h r w' h', does (tchunk a) e w h r w' h' 1 0.
Proof. intros a e w h r w' h' R. cbn [tchunk effort copied]. destruct (lookup h a) as [[]|]; cbn; lia. Qed.
Lemma do_elements : forall p n e w h r w' h', does (telements p n) e w h r w' h' 1 0.
Proof.
  intros p n e w h r w' h' R. unfold telements in *. destruct n; [cbn; lia|]. destruct p as [a|]; [|cbn; lia]. cbn [effort copied]. destruct (lookup h a) as [[| |l]|]; try (cbn; lia).
  destruct (Nat.leb _ _); cbn; lia.
Qed.
Lemma do_free : forall p e w h r w' h', does (tfree p) e w h r w' h' 1 0.
Proof. intros [a|] e w h r w' h' R; cbn [tfree effort copied]; [|lia]. destruct (lookup h a); cbn; lia. Qed.
Lemma elements_length : forall p n e w h l w' h', perform (telements p n) e w h = Done (l, w', h') -> List.length l = n /\ w' = w /\ h' = h.
Proof.
  intros p n e w h l w' h' R. unfold telements in R. destruct n; [injection R as <- <- <-; split; [reflexivity|split; reflexivity]|]. destruct p as [a|]; [|discriminate].
  cbn [perform] in R. unfold hbind, hload in R. destruct (lookup h a) as [[| |m]|]; try discriminate. destruct (Nat.leb (S n) (List.length m)) eqn:LE; [|discriminate].
  apply Nat.leb_le in LE. pose proof (firstn_length (S n) m) as FL. rewrite Nat.min_l in FL by exact LE. injection R as <- <- <-. split; [exact FL|split; reflexivity].
Qed.
Lemma do_merge : forall t n s m e w h r w' h', does (tmerge t n s m) e w h r w' h' 5 (n + m).
Proof.
  intros t n s m e w h r w' h' R. pose proof R as R0. unfold tmerge in R. rewrite perform_bind in R. unfold hbind at 1 in R.
  destruct (perform (telements t n) e w h) as [[[l w1] h1]|u|] eqn:P; [|discriminate|discriminate].
  destruct (elements_length _ _ _ _ _ _ _ _ P) as (LN & -> & ->).
  refine (do_bind _ _ _ _ e w h l w h r w' h' 1 0 4 (n + m) P (do_elements _ _ _ _ _ _ _ _) _ R0). clear R R0. intro R.
  cbn [perform effort copied] in *. unfold hbind at 1, io, malloc in R. unfold malloc. set (w1 := mkWorld _ _ _ _) in *.
  assert (U : unread w1 = unread w /\ messages w1 = messages w) by (split; reflexivity). destruct U as (U1 & U2). rewrite U1, U2. rewrite !Nat.sub_diag.
  destruct (_ && _) eqn:OK.
  - rewrite perform_bind in R. pose proof R as R1. unfold hbind at 1 in R. destruct (perform (tfree t) e w1 h) as [[[[] w2] h2]|u|] eqn:PF; [|discriminate|discriminate].
    rewrite <- perform_bind in R1.
    assert (X : does (tbind (telements s m) (fun s0 => TPlace (OArray (l ++ s0)) (fun a => TRet (Some a, (n + m)%nat)))) e w2 h2 r w' h' 2 (n + m)).
    { intro R2. rewrite perform_bind in R2. pose proof R2 as R3. unfold hbind in R2. destruct (perform (telements s m) e w2 h2) as [[[l2 w3] h3]|u|] eqn:PS; [|discriminate|discriminate].
      destruct (elements_length _ _ _ _ _ _ _ _ PS) as (LS & -> & ->). rewrite <- perform_bind in R3.
      refine (do_bind _ _ _ _ e w2 h2 l2 w2 h2 r w' h' 1 0 1 (n + m) PS (do_elements _ _ _ _ _ _ _ _) _ R3). intros _. cbn [effort copied]. rewrite app_length. lia. }
    destruct (do_bind _ _ _ _ e w1 h tt w2 h2 r w' h' 1 0 2 (n + m) PF (do_free _ _ _ _ _ _ _) X R1) as (Y1 & Y2). split; [exact (le_n_S _ _ Y1)|exact Y2].
  - destruct (n + m)%nat; [|discriminate]. rewrite perform_bind in R. pose proof R as R1. unfold hbind at 1 in R. destruct (perform (tfree t) e w1 h) as [[[[] w2] h2]|u|] eqn:PF; [|discriminate|discriminate].
    rewrite <- perform_bind in R1.
    destruct (do_bind _ _ (tfree t) (fun _ => TRet (None : ptr, O)) e w1 h tt w2 h2 r w' h' 1 0 0 0 PF (do_free _ _ _ _ _ _ _) ltac:(intro; cbn; lia) R1) as (Y1 & Y2). split; [refine (Nat.le_trans _ _ _ (le_n_S _ _ Y1) _); lia|exact Y2].
Qed.

(** ** The whole search *)

Definition searched_cheaply (types : list Z) (x : chunk) (t : task (ptr * nat)) e w h : Prop :=
  forall r n w' h', perform t e w h = Done ((r, n), w', h') -> (effort t e w h + 5 <= 9 * chunks x)%nat /\ copied t e w h = pointers types x /\ n = found types x.

Lemma all_cost : forall types sc hs l pg la Fl acc lacc Facc h e w, trees_at (tree_at h) l pg la Fl -> NoDup Fl ->
  array_at h acc lacc Facc -> NoDup Facc -> (forall x, In x Facc -> In x Fl -> False) -> (forall b, takes_apart (sc b) (hs b)) ->
  (forall x b p Fx h e w, In x l -> tree_at h x p b Fx -> NoDup Fx -> searched types x b h e (hs b e w h) /\ searched_cheaply types x (sc b) e w h) ->
  forall r n w' h', perform (tall sc la acc (List.length lacc)) e w h = Done ((r, n), w', h') ->
  (effort (tall sc la acc (List.length lacc)) e w h <= 9 * list_sum (map chunks l))%nat /\
  copied (tall sc la acc (List.length lacc)) e w h = merged types (pointers types) (List.length lacc) l.
Proof.
  intros types sc hs. induction l as [|y l IH]; intros pg la Fl acc lacc Facc h e w T ND A NDA DJ AP SC r n w' h' R; destruct la as [|b la]; cbn [trees_at] in T; try contradiction.
  - cbn. lia.
  - destruct T as (F1 & F2 & T1 & T2 & ->). cbn [tall] in R. pose proof R as R0.
    destruct (SC y b pg F1 h e w (or_introl eq_refl) T1 (NoDup_app_l _ _ _ ND)) as (S & C). unfold searched in S. rewrite <- (AP b e w h) in S.
    rewrite perform_bind in R. unfold hbind at 1 in R.
    destruct (perform (sc b) e w h) as [[[[arr1 n1] w1] h1]|u|] eqn:P1; [|discriminate|discriminate].
    destruct (C _ _ _ _ P1) as (CE & CC & CN). destruct S as (la1 & Fa1 & L1 & EN0 & A1 & FA1 & B1 & ND1 & LV1 & _).
    assert (EN : found types y = List.length la1) by congruence. clear EN0. subst n1.
    assert (KEEP1 : forall x, lookup h x <> None -> lookup h1 x = lookup h x) by (intros x LV; apply (becomes_kept _ _ _ _ _ B1 LV); intros []).
    assert (NEW1 : forall x, In x (Fa1 ++ L1) -> lookup h x = None) by (intros x I; apply (becomes_new _ _ _ _ _ B1 I); intros []).
    assert (AA : array_at h1 acc lacc Facc) by (apply (array_frame h); [exact A|]; intros x I; apply KEEP1; exact (array_live _ _ _ _ _ A I)).
    rewrite perform_bind in R. unfold hbind at 1 in R. rewrite (ap_merge _ _ _ _ e w1 h1) in R. rewrite EN in R.
    destruct (merge_at h1 acc lacc Facc arr1 la1 Fa1 e w1 AA A1) as [(h2 & w2 & arr2 & Fa2 & E2 & A2 & B2 & NEW2 & ND2 & Z2)|(E2 & _)].
    { intros x I J. apply (array_live _ _ _ _ _ A I). apply NEW1, in_or_app. left. exact J. }
    2:{ rewrite E2 in R. discriminate. }
    rewrite E2 in R.
    assert (KEEP2 : forall x, In x F2 -> lookup h2 x = lookup h x).
    { intros x I. rewrite (becomes_kept _ _ _ _ _ B2).
      - apply KEEP1. exact (trees_live _ _ _ _ _ _ T2 I).
      - rewrite KEEP1; exact (trees_live _ _ _ _ _ _ T2 I).
      - intro J. apply (DJ x J), in_or_app. right. exact I. }
    assert (T2' : trees_at (tree_at h2) l pg la F2) by (apply (trees_frame h); [exact T2|exact KEEP2]).
    destruct (IH pg la F2 arr2 (lacc ++ la1) Fa2 h2 e w2 T2' (NoDup_app_r _ _ _ ND) A2 ND2
      ltac:(intros x I J; destruct (NEW2 x I) as [Q|Q]; [apply (DJ x Q), in_or_app; right; exact J|]; apply (trees_live _ _ _ _ _ _ T2 J); rewrite <- KEEP1; [exact Q|exact (trees_live _ _ _ _ _ _ T2 J)])
      AP (fun x b p Fx h e w I => SC x b p Fx h e w (or_intror I)) r n w' h' R) as (XE & XC).
    assert (LM : List.length (lacc ++ la1) = (List.length lacc + found types y)%nat) by (rewrite app_length; lia).
    rewrite LM in *. cbn [tall].
    assert (M : does (tmerge acc (List.length lacc) arr1 (found types y)) e w1 h1 (arr2, (List.length lacc + found types y)%nat) w2 h2 5 (List.length lacc + found types y)) by apply do_merge.
    assert (PM : perform (tmerge acc (List.length lacc) arr1 (found types y)) e w1 h1 = Done ((arr2, (List.length lacc + found types y)%nat), w2, h2)) by (rewrite (ap_merge _ _ _ _ e w1 h1); rewrite <- EN in E2; exact E2).
    destruct (do_bind _ _ (sc b) (fun '(result, k) => tbind (tmerge acc (List.length lacc) result k) (fun '(forms', n') => tall sc la forms' n')) e w h (arr1, found types y) w1 h1 (r, n) w' h'
      (9 * chunks y - 5) (pointers types y) (5 + 9 * list_sum (map chunks l)) ((List.length lacc + found types y) + merged types (pointers types) (List.length lacc + found types y) l) P1
      ltac:(intros _; split; [lia|exact CC])) as (U & V).
    + cbv beta iota. apply (do_bind _ _ _ _ e w1 h1 (arr2, (List.length lacc + found types y)%nat) w2 h2 (r, n) w' h' 5 _ _ _ PM M). intros _. split; [exact XE|exact XC].
    + exact R0.
    + cbn [map merged]. change (list_sum (chunks y :: map chunks l)) with (chunks y + list_sum (map chunks l))%nat. lia.
Qed.

Lemma group_cost : forall types sc hs c p a F h e w, tree_at h c p a F -> NoDup F -> as_group c <> None ->
  searched_members c = group_members c -> (forall b, takes_apart (sc b) (hs b)) ->
  (forall x b p Fx h e w, In x (searched_members c) -> tree_at h x p b Fx -> NoDup Fx -> searched types x b h e (hs b e w h) /\ searched_cheaply types x (sc b) e w h) ->
  forall r n w' h', perform (tgroup sc a) e w h = Done ((r, n), w', h') ->
  (effort (tgroup sc a) e w h <= 2 + 9 * list_sum (map chunks (searched_members c)))%nat /\
  copied (tgroup sc a) e w h = merged types (pointers types) 0 (searched_members c).
Proof.
  intros types sc hs c p a F h e w T ND AG SM AP SC r n w' h' R. unfold tgroup in *.
  assert (X : exists hd b arr la Fa Fl, lookup h a = Some (OChunk hd b) /\
     (match b with BGroup _ n arr | BList _ n arr _ _ => tbind (telements arr n) (fun l => tall sc l None 0) | _ => TUndefined UB_type_confusion end) = tbind (telements arr (List.length la)) (fun l => tall sc l None 0) /\
     array_at h arr la Fa /\ trees_at (tree_at h) (searched_members c) (Some a) la Fl /\ NoDup Fl).
  { rewrite SM. destruct c as [i s d|i s t l|i s t ps l|i s v]; try (cbn in AG; congruence); cbn [tree_at group_members] in *.
    - destruct T as (arr & la & Fa & Fl & L & A & TT & EF). eexists. eexists. exists arr, la, Fa, Fl. split; [exact L|]. split; [reflexivity|]. split; [exact A|]. split; [exact TT|].
      rewrite EF in ND; inversion ND; eapply NoDup_app_r; eassumption.
    - destruct T as (arr & la & Fa & Fl & parr & pa & Fb & Fp & L & A & TT & PA & TP & EF). eexists. eexists. exists arr, la, Fa, Fl. split; [exact L|]. split; [reflexivity|]. split; [exact A|]. split; [exact TT|].
      rewrite EF in ND; inversion ND; eapply NoDup_app_r; eapply NoDup_app_l; eassumption. }
  destruct X as (hd & b & arr & la & Fa & Fl & L & EQ & A & TT & NDL).
  assert (PC : perform (tchunk a) e w h = Done ((hd, b), w, h)) by (rewrite (ap_chunk a e w h); exact (hchunk_at _ _ _ _ _ _ L)).
  assert (PE : perform (telements arr (List.length la)) e w h = Done (la, w, h)) by (rewrite (ap_elements _ _ e w h); exact (helements_at _ _ _ _ _ _ A)).
  apply (do_bind _ _ _ _ e w h (hd, b) w h (r, n) w' h' 1 0 (1 + 9 * list_sum (map chunks (searched_members c))) (merged types (pointers types) 0 (searched_members c)) PC (do_chunk _ _ _ _ _ _ _)); [|exact R].
  rewrite EQ. apply (do_bind _ _ _ _ e w h la w h (r, n) w' h' 1 0 _ _ PE (do_elements _ _ _ _ _ _ _ _)). intro R2.
  exact (all_cost types sc hs (searched_members c) (Some a) la Fl None [] [] h e w TT NDL (or_introl (conj eq_refl (conj eq_refl eq_refl))) (NoDup_nil _) (fun x I => False_ind _ I) AP SC r n w' h' R2).
Qed.

Lemma chunks_pos : forall c, (1 <= chunks c)%nat.
Proof. destruct c; cbn [chunks]; lia. Qed.

Lemma nothing_cost : forall types c e w h, pointers types c = 0%nat -> positions types c = [] -> forall hd b a, lookup h a = Some (OChunk hd b) ->
  forall k : header * body -> task (ptr * nat), k (hd, b) = TRet (None, O) -> searched_cheaply types c (tbind (tchunk a) k) e w h.
Proof.
  intros types c e w h P0 PN hd b a L k K r n w' h' R. unfold found. rewrite PN, P0. pose proof (chunks_pos c).
  assert (PC : perform (tchunk a) e w h = Done ((hd, b), w, h)) by (rewrite (ap_chunk a e w h); exact (hchunk_at _ _ _ _ _ _ L)).
  pose proof R as R0. rewrite perform_bind in R. unfold hbind in R. rewrite PC, K in R. injection R as <- <- <- <-.
  destruct (do_bind _ _ (tchunk a) k e w h (hd, b) w h (None, 0%nat) w h 1 0 0 0 PC (do_chunk _ _ _ _ _ _ _) ltac:(rewrite K; intro; cbn; lia) R0) as (X & Y).
  split; [lia|]. split; [exact Y|reflexivity].
Qed.

Lemma do_at : forall A a hd b (k : header * body -> task A) e w h r w' h' E C, lookup h a = Some (OChunk hd b) ->
  does (k (hd, b)) e w h r w' h' E C -> does (tbind (tchunk a) k) e w h r w' h' (1 + E) C.
Proof.
  intros A a hd b k e w h r w' h' E C L D. change C with (0 + C)%nat.
  apply (do_bind _ _ _ _ e w h (hd, b) w h r w' h' 1 0 E C); [rewrite (ap_chunk a e w h); exact (hchunk_at _ _ _ _ _ _ L)|apply do_chunk|exact D].
Qed.

Lemma chunks_members : forall c, (1 + list_sum (map chunks (searched_members c)) <= chunks c)%nat.
Proof. intro c. destruct c as [i s d|i s g l|i s g ps l|i s v]; cbn [searched_members chunks]; try (cbn; lia). destruct (i =? IFF_ID_PROP); cbn; lia. Qed.

Theorem search_cost : forall ap types c ft p a F h e w fuel, Typed ap ft c -> tree_at h c p a F -> NoDup F -> (height c <= fuel)%nat ->
  searched_cheaply types c (tsearch fuel types a) e w h.
Proof.
  intros ap types c. induction c as [i s d|i s g subs IH|i s g props subs IHp IHs|i s vals] using chunk_tree_ind; intros ft p a F h e w fuel TY T ND HF;
    pose proof (search_at ap types _ ft p a F h e w fuel TY T ND HF) as SA;
    (destruct fuel as [|fuel]; [cbn [height] in HF; lia|]); destruct (tree_header _ _ _ _ _ T) as (b & L); cbn [chunkId] in L.
  - inversion TY; subst. match goal with X : ~ In i group_ids |- _ => rename X into NG end.
    assert (i <> IFF_ID_FORM /\ i <> IFF_ID_CAT /\ i <> IFF_ID_LIST) as (N1 & N2 & N3) by (unfold group_ids in NG; simpl in NG; repeat split; intro; apply NG; subst; auto).
    cbn [tsearch]. apply (nothing_cost types (CRaw i s d) e w h eq_refl eq_refl _ _ _ L). cbn [o_id]. rewrite !(proj2 (Z.eqb_neq _ _)) by assumption. reflexivity.
  - assert (II : In i [FORM_ID; CAT_ID; PROP_ID] /\ forall c, In c subs -> Typed ap g c) by (inversion TY; subst; split; assumption). destruct II as [II TS].
    assert (SUB : forall x b p Fx h e w, In x subs -> tree_at h x p b Fx -> NoDup Fx -> searched types x b h e (hsearchFormsFromArray fuel types b e w h) /\ searched_cheaply types x (tsearch fuel types b) e w h).
    { intros x b0 p0 Fx h0 e0 w0 I TX NX. cbn [height] in HF. pose proof (height_member _ _ I). split.
      - apply (search_at ap types x g p0 b0 Fx); [exact (TS x I)|exact TX|exact NX|lia].
      - apply (IH x I g p0 b0 Fx); [exact (TS x I)|exact TX|exact NX|lia]. }
    intros r n w' h' R. rewrite <- (ap_search (S fuel) types a e w h) in SA. rewrite R in SA. destruct SA as (la & Fa & L0 & EN & _ & F2 & _).
    assert (NN : n = found types (CGroup i s g subs)) by (unfold found; rewrite (F2_length _ _ _ _ _ F2); exact EN). clear EN F2.
    assert (X : does (tsearch (S fuel) types a) e w h (r, n) w' h' (4 + 9 * list_sum (map chunks (searched_members (CGroup i s g subs)))) (pointers types (CGroup i s g subs))).
    { destruct II as [<-|[<-|[<-|[]]]]; cbn [tsearch]; apply (do_at _ a _ _ _ e w h (r, n) w' h' (3 + _) _ L); cbv beta iota; cbn [o_id chunkId].
      - change (FORM_ID =? IFF_ID_FORM) with true. cbv iota. unfold tform. apply (do_at _ a _ _ _ e w h (r, n) w' h' (2 + _) _ L). cbv beta iota.
        rewrite (tree_type_of _ _ _ _ _ _ _ T L). cbn [as_group]. cbn [pointers is_wanted]. change (FORM_ID =? IFF_ID_FORM) with true. cbn [andb].
        destruct (existsb (fun formType => g =? formType) types) eqn:X.
        + intro R1. cbn [perform effort copied] in *. unfold hbind, io, malloc in R1. unfold malloc. destruct (_ && _) eqn:OK; [|discriminate]. cbn [effort copied List.length messages unread w_log w_in].
          unfold messages, unread. cbn [w_log w_in]. rewrite !Nat.sub_diag. lia.
        + intro R1. destruct (group_cost types _ _ (CGroup FORM_ID s g subs) p a F h e w T ND ltac:(discriminate) eq_refl (ap_search fuel types) SUB _ _ _ _ R1) as (U & V). split; [exact U|exact V].
      - change (CAT_ID =? IFF_ID_FORM) with false. change (CAT_ID =? IFF_ID_CAT) with true. cbv iota. intro R1.
        destruct (group_cost types _ _ (CGroup CAT_ID s g subs) p a F h e w T ND ltac:(discriminate) eq_refl (ap_search fuel types) SUB _ _ _ _ R1) as (U & V). split; [lia|exact V].
      - change (PROP_ID =? IFF_ID_FORM) with false. change (PROP_ID =? IFF_ID_CAT) with false. change (PROP_ID =? IFF_ID_LIST) with false. cbv iota. intros _. split; [cbn [effort]; lia|reflexivity]. }
    destruct (X R) as (U & V). pose proof (chunks_members (CGroup i s g subs)). split; [lia|]. split; [exact V|exact NN].
  - assert (II : i = LIST_ID /\ forall c, In c subs -> Typed ap g c) by (inversion TY; subst; split; [reflexivity|assumption]). destruct II as [-> TS].
    assert (SUB : forall x b p Fx h e w, In x subs -> tree_at h x p b Fx -> NoDup Fx -> searched types x b h e (hsearchFormsFromArray fuel types b e w h) /\ searched_cheaply types x (tsearch fuel types b) e w h).
    { intros x b0 p0 Fx h0 e0 w0 I TX NX. cbn [height] in HF. pose proof (height_member _ _ I). split.
      - apply (search_at ap types x g p0 b0 Fx); [exact (TS x I)|exact TX|exact NX|lia].
      - apply (IHs x I g p0 b0 Fx); [exact (TS x I)|exact TX|exact NX|lia]. }
    intros r n w' h' R. rewrite <- (ap_search (S fuel) types a e w h) in SA. rewrite R in SA. destruct SA as (la & Fa & L0 & EN & _ & F2 & _).
    assert (NN : n = found types (CList LIST_ID s g props subs)) by (unfold found; rewrite (F2_length _ _ _ _ _ F2); exact EN). clear EN F2.
    assert (X : does (tsearch (S fuel) types a) e w h (r, n) w' h' (4 + 9 * list_sum (map chunks (searched_members (CList LIST_ID s g props subs)))) (pointers types (CList LIST_ID s g props subs))).
    { cbn [tsearch]; apply (do_at _ a _ _ _ e w h (r, n) w' h' (3 + _) _ L); cbv beta iota; cbn [o_id chunkId].
      change (LIST_ID =? IFF_ID_FORM) with false. change (LIST_ID =? IFF_ID_CAT) with false. change (LIST_ID =? IFF_ID_LIST) with true. cbv iota. intro R1.
      destruct (group_cost types _ _ (CList LIST_ID s g props subs) p a F h e w T ND ltac:(discriminate) eq_refl (ap_search fuel types) SUB _ _ _ _ R1) as (U & V). split; [lia|exact V]. }
    destruct (X R) as (U & V). pose proof (chunks_members (CList LIST_ID s g props subs)). split; [lia|]. split; [exact V|exact NN].
  - inversion TY; subst. match goal with X : ~ In i group_ids |- _ => rename X into NG end.
    assert (i <> IFF_ID_FORM /\ i <> IFF_ID_CAT /\ i <> IFF_ID_LIST) as (N1 & N2 & N3) by (unfold group_ids in NG; simpl in NG; repeat split; intro; apply NG; subst; auto).
    cbn [tsearch]. apply (nothing_cost types (CFields i s vals) e w h eq_refl eq_refl _ _ _ L). cbn [o_id]. rewrite !(proj2 (Z.eqb_neq _ _)) by assumption. reflexivity.
Qed.

(** ** The number of pointers *)

Lemma found_below : forall types l n, List.length (below (positions types) n l) = list_sum (map (found types) l).
Proof.
  intros types l. induction l as [|x l IH]; intro n; [reflexivity|]. cbn [below map]. rewrite app_length, map_length, IH. reflexivity.
Qed.
Lemma merged_most : forall types l n N, (forall x, In x l -> (pointers types x + found types x <= 2 * chunks x * found types x)%nat) ->
  (n + list_sum (map (found types) l) <= N)%nat -> (merged types (pointers types) n l <= 2 * list_sum (map chunks l) * N)%nat.
Proof.
  intros types l. induction l as [|x l IH]; intros n N F L; [cbn; lia|]. cbn [merged map] in *.
  change (list_sum (found types x :: map (found types) l)) with (found types x + list_sum (map (found types) l))%nat in L.
  change (list_sum (chunks x :: map chunks l)) with (chunks x + list_sum (map chunks l))%nat.
  pose proof (F x (or_introl eq_refl)) as X. pose proof (IH (n + found types x)%nat N (fun y I => F y (or_intror I)) ltac:(lia)) as Y.
  pose proof (chunks_pos x) as P.
  assert (2 * chunks x * found types x + n <= 2 * chunks x * N)%nat by nia. nia.
Qed.
Theorem pointers_most : forall types c, (pointers types c + found types c <= 2 * chunks c * found types c)%nat.
Proof.
  intros types c. induction c as [i s d|i s g subs IH|i s g props subs IHp IHs|i s vals] using chunk_tree_ind; try (cbn; lia).
  - unfold found. cbn [pointers is_wanted positions]. destruct ((i =? IFF_ID_FORM) && _) eqn:W.
    + cbn [List.length chunks]. lia.
    + destruct (i =? IFF_ID_PROP); [cbn; lia|]. rewrite found_below. pose proof (merged_most types subs 0 _ IH (Nat.le_refl _)) as M. cbn [chunks]. cbn [Nat.add] in M. nia.
  - unfold found. cbn [pointers is_wanted positions]. rewrite found_below. pose proof (merged_most types subs 0 _ IHs (Nat.le_refl _)) as M. cbn [chunks]. cbn [Nat.add] in M. nia.
Qed.
Lemma merged_least : forall types l n, (forall x, In x l -> found types x = 1%nat) ->
  (2 * merged types (pointers types) n l + n * (n + 1) >= (n + List.length l) * (n + List.length l + 1))%nat.
Proof.
  intros types l. induction l as [|x l IH]; intros n F; cbn [merged List.length]; [lia|]. rewrite (F x (or_introl eq_refl)).
  pose proof (IH (n + 1)%nat (fun y I => F y (or_intror I))) as X. nia.
Qed.

(** ** The chunks of a FORM with an ID *)

Definition tpush (p : ptr) (n : nat) (x : addr) : task ptr :=
  let last := fun (l : list addr) (free : task ptr -> task ptr) =>
    TIo (malloc ((Z.of_nat n + 1) * sizeof_pointer)) (fun ok : bool =>
      if ok then free (TPlace (OArray (firstn n l ++ [x])) (fun a => TRet (Some a))) else TUndefined UB_null_deref) in
  match p with
  | None => last [] (fun k => k)
  | Some a => TLoad a (fun o => match o with OArray l => last l (TFree a) | _ => TUndefined UB_type_confusion end)
  end.
Fixpoint tall_id (cid : Z) (l : list addr) (result : ptr) (n : nat) : task (ptr * nat) :=
  match l with
  | [] => TRet (result, n)
  | c :: r =>
      tbind (tchunk c) (fun '(hd, _) =>
      if o_id hd =? cid then tbind (tpush result n c) (fun result' => tall_id cid r result' (S n))
      else tall_id cid r result n)
  end.
Definition tgetChunks (form : addr) (cid : Z) : task (ptr * nat) :=
  tbind (tchunk form) (fun '(_, b) =>
  match b with
  | BGroup _ n arr | BList _ n arr _ _ => tbind (telements arr n) (fun l => tall_id cid l None 0)
  | _ => TUndefined UB_type_confusion
  end).

Lemma ap_push : forall p n x, takes_apart (tpush p n x) (hpush p n x).
Proof.
  intros p n x e w h. unfold tpush, hpush, harray. destruct p as [a|].
  - cbn [perform]. unfold hbind, hload. destruct (lookup h a) as [[| |l]|]; try reflexivity. cbn [perform hret]. unfold hbind, io. cbn [hret].
    destruct (malloc _ e w) as [[[] w1]|u|]; reflexivity.
  - cbn [perform]. unfold hbind, io. cbn [hret]. destruct (malloc _ e w) as [[[] w1]|u|]; reflexivity.
Qed.
Lemma ap_all_id : forall i l p n, takes_apart (tall_id i l p n) (hall_with_id i l p n).
Proof.
  intros i l. induction l as [|c l IH]; intros p n; [intros e w h; reflexivity|]. cbn [tall_id hall_with_id]. apply ap_bind; [apply ap_chunk|]. intros [hd b].
  destruct (_ =? _); [|apply IH]. apply ap_bind; [apply ap_push|]. intro r. apply IH.
Qed.
Lemma ap_getChunks : forall form cid, takes_apart (tgetChunks form cid) (hIFF_getChunksFromForm form cid).
Proof.
  intros form cid. unfold tgetChunks, hIFF_getChunksFromForm. apply ap_bind; [apply ap_chunk|]. intros [hd b].
  destruct b; try (intros e w h; reflexivity); (apply ap_bind; [apply ap_elements|]; intro l; apply ap_all_id).
Qed.

Lemma cost_bind : forall A D (t : task A) (k : A -> task D) e w h b w' h', perform (tbind t k) e w h = Done (b, w', h') ->
  exists a w1 h1, perform t e w h = Done (a, w1, h1) /\ perform (k a) e w1 h1 = Done (b, w', h') /\
    effort (tbind t k) e w h = (effort t e w h + effort (k a) e w1 h1)%nat /\ copied (tbind t k) e w h = (copied t e w h + copied (k a) e w1 h1)%nat.
Proof.
  intros A D t k e w h b w' h' R. rewrite effort_bind, copied_bind. rewrite perform_bind in R. unfold hbind in R.
  destruct (perform t e w h) as [[[a w1] h1]|u|]; [|discriminate|discriminate]. exists a, w1, h1. split; [reflexivity|]. split; [exact R|]. split; reflexivity.
Qed.
Lemma cost_push : forall p n x e w h r w' h', perform (tpush p n x) e w h = Done (r, w', h') -> (effort (tpush p n x) e w h <= 4 /\ copied (tpush p n x) e w h <= n + 1)%nat.
Proof.
  intros p n x e w h r w' h' R. unfold tpush in *. destruct p as [a|].
  - cbn [perform effort copied] in *. unfold hbind, hload in R. destruct (lookup h a) as [[| |l]|] eqn:L; try discriminate.
    cbn [perform effort copied] in *. unfold hbind, io, malloc in R. unfold malloc. destruct (_ && _) eqn:OK; [|discriminate]. cbn [effort copied]. rewrite L. cbn [effort copied].
    unfold messages, unread. cbn [w_log w_in]. rewrite !Nat.sub_diag, app_length, firstn_length. cbn [List.length]. lia.
  - cbn [perform effort copied] in *. unfold hbind, io, malloc in R. unfold malloc. destruct (_ && _) eqn:OK; [|discriminate]. cbn [effort copied].
    unfold messages, unread. cbn [w_log w_in]. rewrite !Nat.sub_diag, firstn_nil. cbn [List.app List.length]. lia.
Qed.
Lemma cost_all_id : forall i l p n e w h r m w' h', perform (tall_id i l p n) e w h = Done ((r, m), w', h') ->
  (effort (tall_id i l p n) e w h <= 5 * List.length l /\ n <= m /\ m <= n + List.length l /\ 2 * copied (tall_id i l p n) e w h + n * (n + 1) <= m * (m + 1))%nat.
Proof.
  intros i l. induction l as [|c l IH]; intros p n e w h r m w' h' R.
  - cbn [tall_id perform effort copied] in *. injection R as <- <- <- <-. cbn [List.length]. lia.
  - cbn [tall_id] in *. destruct (cost_bind _ _ _ _ _ _ _ _ _ _ R) as ([hd b] & w1 & h1 & P1 & R1 & E1 & C1). rewrite E1, C1.
    destruct (do_chunk c e w h _ _ _ P1) as (X1 & Y1). rewrite Y1. cbv beta iota in R1 |- *. cbn [List.length]. destruct (o_id hd =? i).
    + destruct (cost_bind _ _ _ _ _ _ _ _ _ _ R1) as (r2 & w2 & h2 & P2 & R2 & E2 & C2). rewrite E2, C2.
      destruct (cost_push _ _ _ _ _ _ _ _ _ P2) as (X2 & Y2). destruct (IH _ _ _ _ _ _ _ _ _ R2) as (U & V & W & Z). split; [lia|]. split; [lia|]. split; [lia|]. nia.
    + destruct (IH _ _ _ _ _ _ _ _ _ R1) as (U & V & W & Z). split; [lia|]. split; [lia|]. split; [lia|]. nia.
Qed.
Lemma cost_getChunks : forall c p a F i e w h r m w' h', tree_at h c p a F -> perform (tgetChunks a i) e w h = Done ((r, m), w', h') ->
  (effort (tgetChunks a i) e w h + 3 <= 5 * chunks c /\ m < chunks c /\ 2 * copied (tgetChunks a i) e w h <= m * (m + 1))%nat.
Proof.
  intros c p a F i e w h r m w' h' T R. unfold tgetChunks in *. destruct (cost_bind _ _ _ _ _ _ _ _ _ _ R) as ([hd b] & w1 & h1 & P1 & R1 & E1 & C1). rewrite E1, C1.
  destruct (do_chunk a e w h _ _ _ P1) as (X1 & Y1). rewrite Y1. cbv beta iota in R1 |- *.
  rewrite (ap_chunk a e w h) in P1. destruct (tree_header _ _ _ _ _ T) as (b' & L). rewrite (hchunk_at _ _ _ _ _ _ L) in P1. injection P1 as <- <- <- <-.
  assert (LEN : forall l p0 la Fl, trees_at (tree_at h) l p0 la Fl -> (List.length la <= list_sum (map chunks l))%nat).
  { induction l as [|x l IH]; intros p0 [|y la] Fl TR; cbn in TR; try contradiction; [cbn; lia|]. destruct TR as (F1 & F2 & _ & TR & _). specialize (IH _ _ _ TR). pose proof (chunks_pos x).
    cbn [List.length map]. change (list_sum (chunks x :: map chunks l)) with (chunks x + list_sum (map chunks l))%nat. lia. }
  assert (GO : forall n arr la Fa, array_at h arr la Fa -> n = List.length la -> (List.length la < chunks c)%nat ->
    perform (tbind (telements arr n) (fun l => tall_id i l None 0)) e w h = Done ((r, m), w', h') ->
    (effort (tchunk a) e w h + effort (tbind (telements arr n) (fun l => tall_id i l None 0)) e w h + 3 <= 5 * chunks c /\ m < chunks c /\
     2 * (0 + copied (tbind (telements arr n) (fun l => tall_id i l None 0)) e w h) <= m * (m + 1))%nat).
  { intros n arr la Fa A -> LT R2. destruct (cost_bind _ _ _ _ _ _ _ _ _ _ R2) as (l2 & w2 & h2 & P2 & R3 & E2 & C2). rewrite E2, C2.
    destruct (do_elements _ _ _ _ _ _ _ _ P2) as (X2 & Y2). rewrite Y2. rewrite (ap_elements _ _ e w h), (helements_at _ _ _ _ _ _ A) in P2. injection P2 as <- <- <-.
    destruct (cost_all_id _ _ _ _ _ _ _ _ _ _ _ R3) as (U & V & W & Z). split; [lia|]. split; [lia|]. lia. }
  destruct c as [ci s d|ci s g l|ci s g ps l|ci s v]; cbn [tree_at] in T.
  - destruct T as (x & size & LA & _). rewrite LA in L. injection L as <-. discriminate R1.
  - destruct T as (arr & la & Fa & Fl & LA & A & TT & _). rewrite LA in L. injection L as <-. apply (GO _ arr la Fa A eq_refl); [|exact R1]. pose proof (LEN _ _ _ _ TT). cbn [chunks]. lia.
  - destruct T as (arr & la & Fa & Fl & parr & pa & Fb & Fp & LA & A & TT & PA & TP & _). rewrite LA in L. injection L as <-. apply (GO _ arr la Fa A eq_refl); [|exact R1]. pose proof (LEN _ _ _ _ TT). cbn [chunks]. lia.
  - destruct T as (LA & _). rewrite LA in L. injection L as <-. discriminate R1.
Qed.
