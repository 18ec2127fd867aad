(** * Client programs in memory compute what they compute on values *)

From Coq Require Import ZArith List Bool String Lia Permutation.
From Coq Require Import Strings.Byte.
From Verif Require Import Machine Io Types Build Read Write Check Compare Print Search Iff Spec Lemmas IoProofs RegProofs SoundProofs ApiProofs Grammar PropRead CompareProofs
  Heap HeapSpec HeapProofs HeapBuildProofs HeapReadProofs HeapAddProofs HeapReachProofs HeapPathProofs HeapSearch HeapPass HeapPassProofs HeapUpdateProofs HeapLookupProofs HeapFormsProofs
  HeapToolsProofs PropHeapSearch HeapClient HeapClientProofs HeapFreeProofs SessionSpec SessionSearchProofs.
Import ListNotations.
Open Scope Z_scope.

(** ** Raw chunks whose data has the declared size *)

Inductive Fitted : chunk -> Prop :=
| Fit_raw : forall i s d, 0 <= s <= INT_MAX -> match d with Some l => zlength l = s | None => True end -> Fitted (CRaw i s d)
| Fit_group : forall i s g l, (forall x, In x l -> Fitted x) -> Fitted (CGroup i s g l)
| Fit_list : forall i s g ps l, (forall x, In x ps -> Fitted x) -> (forall x, In x l -> Fitted x) -> Fitted (CList i s g ps l)
| Fit_fields : forall i s v, Fitted (CFields i s v).

Lemma Fit_child : forall c s x, Fitted c -> get_child c s = Some x -> Fitted x.
Proof. intros c [n|n] x T G; inversion T as [|? ? ? ? B|? ? ? ? ? PB B|]; subst; try discriminate G; cbn [get_child] in G; apply nth_error_In in G; auto. Qed.
Lemma Fit_at : forall q c y, Fitted c -> at_path c q = Some y -> Fitted y.
Proof.
  induction q as [|s q IH]; intros c y T E; cbn [at_path] in E; [injection E as <-; exact T|].
  destruct (get_child c s) as [x|] eqn:G; [|discriminate]. exact (IH x y (Fit_child _ _ _ T G) E).
Qed.
Lemma Fit_set : forall c s x, Fitted c -> Fitted x -> Fitted (set_child c s x).
Proof.
  intros c [n|n] x T X; inversion T as [|? ? ? ? B|? ? ? ? ? PB B|]; subst; cbn [set_child]; try exact T; constructor; try assumption; intros z I; destruct (in_replaced _ _ _ _ _ I) as [->|J]; auto.
Qed.
Lemma Fit_replace : forall q c y y', Fitted c -> at_path c q = Some y -> Fitted y' -> Fitted (replace_at c q y').
Proof.
  induction q as [|s q IH]; intros c y y' T E Y; cbn [at_path replace_at] in *; [exact Y|].
  destruct (get_child c s) as [x|] eqn:G; [|discriminate]. apply Fit_set; [exact T|]. exact (IH _ _ _ (Fit_child _ _ _ T G) E Y).
Qed.
Lemma Fit_size : forall c s, (forall i z d, c <> CRaw i z d) -> Fitted c -> Fitted (set_chunkSize c s).
Proof. intros c s N T. inversion T; subst; cbn [set_chunkSize]; [exfalso; eapply N; reflexivity|constructor; assumption|constructor; assumption|constructor]. Qed.
Lemma own_raw : forall i z d c', update_own_size (CRaw i z d) = Done c' -> c' = CRaw i z d.
Proof. intros i z d c' E. unfold update_own_size in E. destruct (_ || _); [discriminate|]. destruct (_ =? _); [discriminate|]. injection E as <-. reflexivity. Qed.
Lemma Fit_own : forall c c', Fitted c -> update_own_size c = Done c' -> Fitted c'.
Proof.
  intros c c' T E. destruct c as [i z d|i z g l|i z g ps l|i z v]; [rewrite (own_raw _ _ _ _ E); exact T| | |];
    destruct (own_size _ _ E) as (s & ->); apply Fit_size; try exact T; discriminate.
Qed.
Lemma Fit_update : forall q c c', Fitted c -> IFF_updateChunkSizes c q = Done (Some c') -> Fitted c'.
Proof.
  induction q as [|s q IH]; intros c c' T E; cbn [IFF_updateChunkSizes] in E.
  - destruct (update_own_size c) as [d|u|] eqn:X; [|discriminate|discriminate]. injection E as <-. exact (Fit_own _ _ T X).
  - destruct (get_child c s) as [x|] eqn:G; [|discriminate]. destruct (IFF_updateChunkSizes x q) as [[x'|]|u|] eqn:X; try discriminate. cbn [obind] in E.
    destruct (update_own_size (set_child c s x')) as [d|u|] eqn:Y; [|discriminate|discriminate]. injection E as <-.
    apply (Fit_own _ _ (Fit_set c s x' T (IH _ _ (Fit_child _ _ _ T G) X)) Y).
Qed.

(** *** What reading leaves is such *)

Definition leaves {A} (m : M A) (Q : A -> Prop) : Prop := forall e w a w', m e w = Done (a, w') -> Q a.

Lemma leaves_bind : forall A B (m : M A) (k : A -> M B) Q R, leaves m Q -> (forall a, Q a -> leaves (k a) R) -> leaves (bind m k) R.
Proof. intros A B m k Q R L K e w b w' E. rewrite bind_eq in E. destruct (m e w) as [[a w1]|u|] eqn:X; [|discriminate|discriminate]. exact (K a (L _ _ _ _ X) _ _ _ _ E). Qed.
Lemma leaves_any : forall A B (m : M A) (k : A -> M B) R, (forall a, leaves (k a) R) -> leaves (bind m k) R.
Proof. intros A B m k R K. apply (leaves_bind _ _ _ _ (fun _ => True)); [intros e w a w' _; exact I|intros a _; apply K]. Qed.
Lemma leaves_ret : forall A (a : A) (Q : A -> Prop), Q a -> leaves (ret a) Q.
Proof. intros A a Q X e w b w' E. injection E as <- _. exact X. Qed.
Lemma leaves_undefined : forall A u (Q : A -> Prop), leaves (undefined u) Q.
Proof. intros A u Q e w b w' E. discriminate. Qed.

Definition fitted1 (r : bool * chunk * Z) : Prop := Fitted (snd (fst r)).
Definition fitted_some (o : option chunk) : Prop := match o with Some c => Fitted c | None => True end.

Lemma raw_fitted : forall cid size, in_range FLong size -> leaves (IFF_createRawChunk cid size) fitted_some.
Proof.
  intros cid size RG e w [c|] w' E; [|exact I]. pose proof (makes_raw cid size RG e w []) as MK. rewrite E in MK. destruct MK as (a & h' & F & _ & T & _).
  assert (EC : exists d, c = CRaw cid size d /\ d = None).
  { unfold IFF_createRawChunk in E. rewrite bind_eq in E. cbn [ask] in E. rewrite bind_eq in E. destruct (malloc _ e w) as [[[] w3]|u|]; try discriminate. rewrite bind_eq in E. destruct (malloc _ e w3) as [[[] w4]|u|]; try discriminate. injection E as <- <-. eexists. split; reflexivity. }
  destruct EC as (d & -> & ->). cbn [tree_at] in T. destruct T as (b & size' & _ & _ & (-> & GE) & _). constructor; [|exact I]. unfold in_range in RG. cbn in RG. unfold INT_MAX. lia.
Qed.
Lemma group_fitted : forall i s g, leaves (IFF_createGroup i s g) fitted_some.
Proof. intros i s g. unfold IFF_createGroup. apply leaves_any. intros []; apply leaves_ret; [|exact I]. constructor. intros x []. Qed.
Lemma list_fitted : forall s g, leaves (IFF_createList s g) fitted_some.
Proof. intros s g. unfold IFF_createList. apply leaves_any. intros []; apply leaves_ret; [|exact I]. constructor; intros x []. Qed.
Lemma fields_fitted : forall sp i s, leaves (create_fields sp i s) fitted_some.
Proof. intros sp i s. unfold create_fields. apply leaves_any. intros []; apply leaves_ret; [|exact I]. constructor. Qed.
Lemma extension_fitted : forall k i s, in_range FLong s -> leaves (createExtensionChunk k i s) fitted_some.
Proof.
  intros k i s R. destruct k as [| | | | |sp]; cbn [createExtensionChunk]; try apply group_fitted; [apply list_fitted|exact (raw_fitted i s R)|apply fields_fitted].
Qed.

Lemma attach_fitted : forall g c, Fitted g -> Fitted c -> leaves (IFF_attachToGroup g c) Fitted.
Proof.
  intros g c FG FC. unfold IFF_attachToGroup. destruct g as [i s d|i s t l|i s t ps l|i s v]; cbn [as_group]; try apply leaves_undefined;
    (apply leaves_any; intros []; [|apply leaves_undefined]; apply leaves_ret; inversion FG; subst; cbn [set_subs]; constructor; try assumption; intros x I; apply in_app_or in I; destruct I as [I|[<-|[]]]; auto).
Qed.
Lemma attach_prop_fitted : forall g c, Fitted g -> Fitted c -> leaves (addPropToList g c) Fitted.
Proof.
  intros g c FG FC. unfold addPropToList. destruct g as [i s d|i s t l|i s t ps l|i s v]; try apply leaves_undefined;
    (apply leaves_any; intros []; [|apply leaves_undefined]; apply leaves_ret; inversion FG; subst; constructor; try assumption; intros x I; apply in_app_or in I; destruct I as [I|[<-|[]]]; auto).
Qed.
Lemma Fit_retype : forall c g, Fitted c -> Fitted (set_groupType c g).
Proof. intros c g F. inversion F; subst; cbn [set_groupType]; constructor; assumption. Qed.

Lemma readRaw_fitted : forall c bp, Fitted c -> leaves (IFF_readRawChunk c bp) fitted1.
Proof.
  intros c bp F e w [[ok c'] bp'] w' E. unfold IFF_readRawChunk in E. destruct c as [i s d| | |]; try discriminate. inversion F as [? ? ? RS FD| | |]; subst. rewrite bind_eq in E. cbn [ask] in E.
  rewrite (wrap_u_small e s RS) in E. rewrite bind_eq in E. destruct (fread s e w) as [[l w1]|u|] eqn:R; [|discriminate|discriminate].
  destruct (Z.ltb_spec (zlength l) s) as [LT|GE].
  - assert (X : leaves (IFF_error "Error reading raw chunk body of chunk: '" ;;; IFF_errorId i ;;; IFF_error ("'" ++ nl)%string ;;; ret (false, CRaw i s d, bp)) fitted1) by (do 3 (apply leaves_any; intros ?); apply leaves_ret; exact F).
    exact (X _ _ _ _ E).
  - destruct (_ <? _); [discriminate|]. injection E as <- <- _ _. unfold fitted1. cbn [fst snd]. constructor; [exact RS|].
    unfold fread in R. injection R as <- _. rewrite zlength_ztake in *. lia.
Qed.

Lemma readFields_fitted : forall sp c bp, leaves (read_fields_chunk sp c bp) fitted1.
Proof.
  intros sp c bp. unfold read_fields_chunk. destruct c; try apply leaves_undefined. destruct (fkinds_eqb _ _); [|apply leaves_undefined]. apply leaves_any. intros [[ok vs] b]. apply leaves_ret. constructor.
Qed.

Section ReadFitted.
  Variable rc : Z -> M (option chunk).
  Hypothesis RC : forall g, leaves (rc g) fitted_some.

  Lemma groupSubs_fitted : forall fuel group g bp, Fitted group -> leaves (readGroupSubChunks rc fuel group g bp) fitted1.
  Proof.
    induction fuel as [|fuel IH]; intros group g bp F; cbn [readGroupSubChunks]; (destruct (bp <? chunkSize group); [|apply leaves_any; intros _; apply leaves_ret; exact F]).
    - intros e w a w' E. discriminate.
    - apply (leaves_bind _ _ _ _ fitted_some); [apply RC|]. intros [c|] FC; [|apply leaves_ret; exact F].
      apply (leaves_bind _ _ _ _ Fitted); [apply attach_fitted; assumption|]. intros g' FG. apply leaves_any. intro b. apply IH. exact FG.
  Qed.
  Lemma listSubs_fitted : forall fuel group g bp, Fitted group -> leaves (readListSubChunks rc fuel group g bp) fitted1.
  Proof.
    induction fuel as [|fuel IH]; intros group g bp F; cbn [readListSubChunks]; (destruct (bp <? chunkSize group); [|apply leaves_any; intros _; apply leaves_ret; exact F]).
    - intros e w a w' E. discriminate.
    - apply (leaves_bind _ _ _ _ fitted_some); [apply RC|]. intros [c|] FC; [|apply leaves_ret; exact F].
      apply (leaves_bind _ _ _ _ Fitted); [destruct (_ =? _); [apply attach_prop_fitted|apply attach_fitted]; assumption|]. intros g' FG. apply leaves_any. intro b. apply IH. exact FG.
  Qed.
  Lemma readGroup_fitted : forall fuel group n bp, Fitted group -> leaves (IFF_readGroup rc fuel group n bp) fitted1.
  Proof.
    intros fuel group n bp F. unfold IFF_readGroup. destruct (as_group group); [|apply leaves_undefined]. apply leaves_any. intros [[st og] b].
    destruct st; try (apply leaves_ret; exact F). destruct og as [g|]; [|apply leaves_ret; exact F]. apply groupSubs_fitted. apply Fit_retype. exact F.
  Qed.
  Lemma readList_fitted : forall fuel group bp, Fitted group -> leaves (IFF_readList rc fuel group bp) fitted1.
  Proof.
    intros fuel group bp F. unfold IFF_readList. destruct group as [| |i s g ps l|] eqn:EG; try apply leaves_undefined. rewrite <- EG in *. apply leaves_any. intros [[st og] b].
    destruct st; try (apply leaves_ret; exact F). destruct og as [g'|]; [|apply leaves_ret; exact F].
    apply (leaves_bind _ _ _ _ fitted1); [apply listSubs_fitted; apply Fit_retype; exact F|]. intros [[ok l'] b2] FL. destruct ok; [|apply leaves_any; intros _]; apply leaves_ret; exact FL.
  Qed.
  Lemma body_fitted : forall rg fuel i s ft, in_range FLong s -> leaves (readChunkBody rc rg fuel i s ft) fitted_some.
  Proof.
    intros rg fuel i s ft R. unfold readChunkBody. apply leaves_any. intro k. apply (leaves_bind _ _ _ _ fitted_some); [exact (extension_fitted k i s R)|]. intros [c|] FC; [|apply leaves_ret; exact I].
    apply (leaves_bind _ _ _ _ fitted1).
    - destruct k as [| | | | |sp]; cbn [readExtensionChunkFields]; [apply readGroup_fitted|apply readGroup_fitted|apply readList_fitted|apply readGroup_fitted|apply readRaw_fitted|apply readFields_fitted]; exact FC.
    - intros [[ok c1] bp] F1. apply leaves_any. intros []; [apply leaves_ret; exact F1|apply leaves_any; intros _; apply leaves_ret; exact I].
  Qed.
End ReadFitted.

Lemma readChunk_fitted : forall rg fuel ft, leaves (IFF_readChunk rg fuel ft) fitted_some.
Proof.
  intros rg. induction fuel as [|fuel IH]; intro ft; cbn [IFF_readChunk]; [intros e w a w' E; discriminate|].
  apply leaves_any. intros [i|]; [|apply leaves_ret; exact I]. apply (leaves_bind _ _ _ _ (fun o => match o with Some v => in_range FLong v | None => True end)).
  - intros e w [v|] w' E; [exact (readLong_range _ _ _ _ _ _ E)|exact I].
  - intros [s|] R; [|apply leaves_ret; exact I]. apply body_fitted; [exact IH|exact R].
Qed.
Lemma readFd_fitted : forall rg, leaves (IFF_readFd rg) fitted_some.
Proof.
  intros rg e w a w' E.
  assert (X : leaves (oc <- IFF_readChunk (selectChunkRegistry rg) (S (List.length (r_rest (w_in w)))) 0 ;;
     match oc with
     | None => IFF_error ("ERROR: cannot open main chunk!" ++ nl)%string ;;; ret None
     | Some c =>
         ob <- fgetc ;;
         match ob with
         | None => ret (Some c)
         | Some b =>
             IFF_error ("WARNING: Trailing IFF contents found: " ++ dec (b2z b) ++ "!" ++ nl)%string ;;;
             ret (Some c)
         end
     end) fitted_some).
  { apply (leaves_bind _ _ _ _ fitted_some); [apply readChunk_fitted|]. intros [c|] FC; apply leaves_any; [intros [b|]|intros _]; [apply leaves_any; intros _| |]; apply leaves_ret; exact FC. }
  exact (X e w a w' E).
Qed.

(** ** Programs' variables and their blocks *)

Definition entry (h : heap) (p : ptr) (o : option chunk) (F : list addr) : Prop :=
  match p, o with
  | Some a, Some c => tree_at h c None a F /\ NoDup F /\ Fitted c
  | None, None => F = []
  | _, _ => False
  end.

Definition Good (h : heap) (P : pointers) (C : vars) (F : nat -> list addr) : Prop :=
  (forall x, entry h (P x) (C x) (F x)) /\ (forall x y u, x <> y -> In u (F x) -> ~ In u (F y)).

Lemma entry_live : forall h p o F u, entry h p o F -> In u F -> lookup h u <> None.
Proof. intros h [a|] [c|] F u E I; try contradiction; [exact (tree_live _ _ _ _ _ _ (proj1 E) I)|cbn in E; subst; destruct I]. Qed.
Lemma entry_frame : forall h h' p o F, entry h p o F -> (forall u, In u F -> lookup h' u = lookup h u) -> entry h' p o F.
Proof. intros h h' [a|] [c|] F E K; try contradiction; [|exact E]. destruct E as (T & R). split; [exact (tree_frame _ _ _ _ _ _ T K)|exact R]. Qed.
Lemma entry_nodup : forall h p o F, entry h p o F -> NoDup F.
Proof. intros h [a|] [c|] F E; try contradiction; [exact (proj1 (proj2 E))|cbn in E; subst; constructor]. Qed.

(** What a statement may do to the memory: blocks of others are left alone, and
    what the variables own afterwards they owned before, or it is new. *)
Definition moves (h : heap) (F : nat -> list addr) (h' : heap) (F' : nat -> list addr) : Prop :=
  (List.length h <= List.length h')%nat /\
  (forall u, lookup h u <> None -> (forall x, ~ In u (F x)) -> lookup h' u = lookup h u) /\
  (forall x u, In u (F' x) -> (forall z, ~ In u (F z)) -> lookup h u = None).

Lemma set_same : forall A (f : nat -> A) x a, set f x a x = a.
Proof. intros. unfold set. rewrite Nat.eqb_refl. reflexivity. Qed.
Lemma set_other : forall A (f : nat -> A) x a y, y <> x -> set f x a y = f y.
Proof. intros A f x a y N. unfold set. destruct (Nat.eqb_spec y x); [contradiction|reflexivity]. Qed.

Lemma next : forall (keep : nat -> Prop) h h' P C F P' C' F' X X',
  (forall z, keep z \/ ~ keep z) -> Good h P C F -> becomes h h' X X' -> (forall u, In u X -> exists z, ~ keep z /\ In u (F z)) ->
  (forall z, keep z -> P' z = P z /\ C' z = C z /\ F' z = F z) ->
  (forall z, ~ keep z -> entry h' (P' z) (C' z) (F' z) /\ forall u, In u (F' z) -> In u X') ->
  (forall z z' u, ~ keep z -> ~ keep z' -> z <> z' -> In u (F' z) -> ~ In u (F' z')) ->
  Good h' P' C' F' /\ moves h F h' F'.
Proof.
  intros keep h h' P C F P' C' F' X X' DEC (G & D) B XS KP CH DJ. pose proof B as (LE & B1 & B2 & B3).
  assert (KX : forall z u, keep z -> In u (F z) -> ~ In u X).
  { intros z u KZ I IX. destruct (XS u IX) as (z' & NK & I'). assert (NE : z <> z') by (intros ->; contradiction). exact (D z z' u NE I I'). }
  assert (KX' : forall z u, keep z -> In u (F z) -> ~ In u X').
  { intros z u KZ I IX. destruct (B3 u IX) as [J|J]; [exact (KX z u KZ I J)|]. exact (entry_live _ _ _ _ _ (G z) I J). }
  split; [split|split; [exact LE|split]].
  - intro z. destruct (DEC z) as [KZ|NK]; [|exact (proj1 (CH z NK))]. destruct (KP z KZ) as (-> & -> & ->). apply (entry_frame h); [apply G|]. intros u I. apply B1; [exact (KX z u KZ I)|exact (KX' z u KZ I)].
  - intros x y u NE I J. destruct (DEC x) as [KZ|NK], (DEC y) as [KY|NY].
    + destruct (KP x KZ) as (_ & _ & EX), (KP y KY) as (_ & _ & EY). rewrite EX in I. rewrite EY in J. exact (D x y u NE I J).
    + destruct (KP x KZ) as (_ & _ & EX). rewrite EX in I. exact (KX' x u KZ I (proj2 (CH y NY) u J)).
    + destruct (KP y KY) as (_ & _ & EY). rewrite EY in J. exact (KX' y u KY J (proj2 (CH x NK) u I)).
    + exact (DJ x y u NK NY NE I J).
  - intros u L NI. apply (becomes_kept _ _ _ _ _ B L). intro IX. destruct (XS u IX) as (z & _ & I). exact (NI z I).
  - intros x u I NI. destruct (DEC x) as [KZ|NK].
    + destruct (KP x KZ) as (_ & _ & EX). rewrite EX in I. destruct (NI x I).
    + destruct (B3 u (proj2 (CH x NK) u I)) as [J|J]; [|exact J]. destruct (XS u J) as (z & _ & Z). destruct (NI z Z).
Qed.

Lemma stay : forall h P C F, Good h P C F -> Good h P C F /\ moves h F h F.
Proof. intros h P C F G. split; [exact G|]. split; [reflexivity|]. split; [reflexivity|]. intros x u I NI. destruct (NI x I). Qed.

(** one variable changes *)
Lemma next_one : forall h h' P C F x P' o' Fx X', Good h P C F -> becomes h h' (F x) X' \/ becomes h h' [] X' ->
  (forall z, z <> x -> P' z = P z) -> entry h' (P' x) o' Fx -> (forall u, In u Fx -> In u X') ->
  exists F', Good h' P' (set C x o') F' /\ moves h F h' F'.
Proof.
  intros h h' P C F x P' o' Fx X' G B KP E I. exists (set F x Fx).
  assert (Q : exists X, becomes h h' X X' /\ forall u, In u X -> In u (F x)) by (destruct B as [B|B]; [exists (F x)|exists []]; split; try exact B; [auto|intros u []]).
  destruct Q as (X & BX & IX). apply (next (fun z => z <> x) h h' P C F _ _ _ X X').
  - intro z. destruct (Nat.eq_dec z x) as [->|N]; [right; intro Q; apply Q; reflexivity|left; exact N].
  - exact G.
  - exact BX.
  - intros u J. exists x. split; [intro Q; apply Q; reflexivity|exact (IX u J)].
  - intros z N. rewrite !set_other by exact N. split; [exact (KP z N)|]. split; reflexivity.
  - intros z N. destruct (Nat.eq_dec z x) as [->|N']; [|contradiction]. rewrite !set_same. split; [exact E|exact I].
  - intros z z' u N N' NE. exfalso. destruct (Nat.eq_dec z x) as [->|N1]; [|contradiction]. destruct (Nat.eq_dec z' x) as [->|N2]; [|contradiction]. apply NE. reflexivity.
Qed.

(** ** Steps *)

Definition steps (m : M (answer * vars)) (hm : H (answer * pointers)) (e : env) (w : world) (h : heap) (F : nat -> list addr) : Prop :=
  match m e w with
  | Done ((a, C'), w') => exists P' h' F', hm e w h = Done ((a, P'), w', h') /\ Good h' P' C' F' /\ moves h F h' F'
  | Undefined u => hm e w h = Undefined u
  | OutOfFuel => hm e w h = OutOfFuel
  end.

Lemma steps_same : forall h P C F a e w, Good h P C F -> steps (ret (a, C)) (hret (a, P)) e w h F.
Proof. intros h P C F a e w G. unfold steps, ret, hret. exists P, h, F. split; [reflexivity|]. apply stay. exact G. Qed.

(** Making a tree *)
Lemma steps_make : forall m hm h P C F x e w, HeapBuildProofs.makes m hm -> leaves m fitted_some -> Good h P C F ->
  steps (o <- m ;; ret (got o, set C x o)) (p <-h hm ;; hret (got p, set P x p)) e w h F.
Proof.
  intros m hm h P C F x e w R FT G. unfold steps. rewrite bind_eq, hbind_eq. specialize (R e w h). specialize (FT e w). destruct (m e w) as [[[c|] w']|u|].
  - destruct R as (a & h' & Fx & E & T & ND & B). rewrite E. unfold ret, hret. cbn [got].
    destruct (next_one h h' P C F x (set P x (Some a)) (Some c) Fx Fx G) as (F' & G' & M).
    + right. exact B.
    + intros z N. apply set_other. exact N.
    + rewrite set_same. cbn [entry]. split; [exact T|]. split; [exact ND|]. exact (FT _ _ eq_refl).
    + auto.
    + exists (set P x (Some a)), h', F'. split; [reflexivity|]. split; [exact G'|exact M].
  - destruct R as (h' & E & B). rewrite E. unfold ret, hret. cbn [got].
    destruct (next_one h h' P C F x (set P x None) None [] [] G) as (F' & G' & M).
    + right. exact B.
    + intros z N. apply set_other. exact N.
    + rewrite set_same. reflexivity.
    + auto.
    + exists (set P x None), h', F'. split; [reflexivity|]. split; [exact G'|exact M].
  - rewrite R. reflexivity.
  - rewrite R. reflexivity.
Qed.

(** ** Walking down *)

Lemma trees_nth : forall h l p la Fl n, trees_at (tree_at h) l p la Fl ->
  match nth_error l n with
  | Some y => exists b F, nth_error la n = Some b /\ tree_at h y p b F
  | None => nth_error la n = None
  end.
Proof.
  induction l as [|c l IH]; intros p [|a la] Fl n T; cbn [trees_at] in T; try contradiction; [destruct n; reflexivity|].
  destruct T as (F1 & F2 & T1 & T2 & _). destruct n as [|n]; cbn [nth_error]; [exists a, F1; split; [reflexivity|exact T1]|]. exact (IH _ _ _ n T2).
Qed.

Lemma follow_at : forall q h c p a F e w, tree_at h c p a F ->
  match at_path c q with
  | Some y => exists b, hfollow q a e w h = Done (Some b, w, h) /\ Leads h a q b
  | None => hfollow q a e w h = Done (None, w, h)
  end.
Proof.
  induction q as [|s q IH]; intros h c p a F e w T; cbn [at_path hfollow]; [exists a; split; [reflexivity|constructor]|].
  assert (GO : forall l la arr Fa Fl n, array_at h arr la Fa -> trees_at (tree_at h) l (Some a) la Fl ->
    (forall b, element_is h arr (List.length la) n b -> child_is h a s b) ->
    match match nth_error l n with Some x => at_path x q | None => None end with
    | Some y => exists b, (if Nat.ltb n (List.length la) then l0 <-h helements arr (List.length la) ;; match nth_error l0 n with Some c0 => hfollow q c0 | None => hret None end else hret None) e w h = Done (Some b, w, h) /\ Leads h a (s :: q) b
    | None => (if Nat.ltb n (List.length la) then l0 <-h helements arr (List.length la) ;; match nth_error l0 n with Some c0 => hfollow q c0 | None => hret None end else hret None) e w h = Done (None, w, h)
    end).
  { intros l la arr Fa Fl n A TS CI. pose proof (trees_nth h l (Some a) la Fl n TS) as N. destruct (nth_error l n) as [y|] eqn:EN.
    - destruct N as (b & Fb & NB & TB). assert (LT : (n < List.length la)%nat) by (apply nth_error_Some; congruence). rewrite (proj2 (Nat.ltb_lt _ _) LT). rewrite hbind_eq, (helements_at _ _ _ _ e w A), NB.
      assert (CB : child_is h a s b).
      { apply CI. destruct A as [(-> & -> & ->)|(d & -> & L & ->)]; [destruct n; discriminate NB|]. exists d, la. split; [reflexivity|]. split; [exact L|]. split; [exact LT|exact NB]. }
      specialize (IH h y (Some a) b Fb e w TB). destruct (at_path y q) as [z|]; [|exact IH]. destruct IH as (b' & E & LD). exists b'. split; [exact E|]. exact (Leads_step _ _ _ _ _ _ CB LD).
    - destruct (Nat.ltb_spec n (List.length la)) as [LT|_]; [|reflexivity]. apply nth_error_Some in LT. contradiction. }
  destruct c as [i z d|i z g l|i z g ps l|i z v]; cbn [tree_at] in T.
  - destruct T as (b & size & L & _). rewrite hbind_eq, (hchunk_at _ _ _ _ e w L). destruct s; reflexivity.
  - destruct T as (arr & la & Fa & Fl & L & A & TS & _). rewrite hbind_eq, (hchunk_at _ _ _ _ e w L). destruct s as [n|n]; cbn [get_child]; [exact eq_refl|].
    apply (GO l la arr Fa Fl n A TS). intros b EI. exists (mkHeader p i z), (BGroup g (List.length la) arr). split; [exact L|exact EI].
  - destruct T as (arr & la & Fa & Fl & parr & pa & Fb & Fp & L & A & TS & PA & TP & _). rewrite hbind_eq, (hchunk_at _ _ _ _ e w L). destruct s as [n|n]; cbn [get_child].
    + apply (GO ps pa parr Fb Fp n PA TP). intros b EI. do 2 eexists. split; [exact L|exact EI].
    + apply (GO l la arr Fa Fl n A TS). intros b EI. do 2 eexists. split; [exact L|exact EI].
  - destruct T as (L & _). rewrite hbind_eq, (hchunk_at _ _ _ _ e w L). destruct s; reflexivity.
Qed.

(** The chunk a statement works on *)
Definition spot (h : heap) (c : chunk) (a : addr) (F : list addr) (q : path) (y : chunk) (b : addr) (pb : ptr) (F1 G : list addr) : Prop :=
  Leads h a q b /\ at_path c q = Some y /\ tree_at h y pb b F1 /\ same_blocks F (F1 ++ G) /\
  forall h' y' F1', tree_at h' y' pb b F1' -> (forall x, In x G -> lookup h' x = lookup h x) ->
      exists F', tree_at h' (replace_at c q y') None a F' /\ same_blocks F' (F1' ++ G).

Lemma steps_place : forall h P C F x q k hk e w, Good h P C F ->
  (forall a c y b pb F1 G, P x = Some a -> C x = Some c -> tree_at h c None a (F x) -> NoDup (F x) -> Fitted c -> spot h c a (F x) q y b pb F1 G ->
     Fitted y -> NoDup (F1 ++ G) -> steps (k c y) (hk b) e w h F) ->
  steps (at_place C x q k) (hat_place P x q hk) e w h F.
Proof.
  intros h P C F x q k hk e w GD K. unfold at_place, hat_place. pose proof (proj1 GD x) as EN. destruct (P x) as [a|] eqn:EP, (C x) as [c|] eqn:EC; try contradiction; [|apply steps_same; exact GD].
  destruct EN as (T & ND & FT). pose proof (follow_at q h c None a (F x) e w T) as FO. destruct (at_path c q) as [y|] eqn:AP.
  - destruct FO as (b & E & LD). destruct (path_split q h c None a (F x) y T AP) as (b' & pb & F1 & G & LD' & TB & S & _ & R).
    pose proof (Leads_det _ _ _ _ _ LD LD') as EB. subst b'. assert (ND1 : NoDup (F1 ++ G)) by (apply (same_nodup _ _ S); exact ND).
    unfold steps. rewrite hbind_eq, E. refine (K a c y b pb F1 G eq_refl eq_refl T ND FT _ (Fit_at _ _ _ FT AP) ND1).
    split; [exact LD'|]. split; [exact AP|]. split; [exact TB|]. split; [exact S|exact R].
  - unfold steps, ret. rewrite hbind_eq, FO. unfold hret. exists P, h, F. split; [reflexivity|]. apply stay. exact GD.
Qed.

(** A change at one place of a tree *)
Lemma local_tree : forall h h' c a F q y b pb F1 G y' F1' Fc L, spot h c a F q y b pb F1 G -> NoDup F -> Fitted c ->
  tree_at h c None a F ->
  becomes h h' (F1 ++ Fc) (F1' ++ L) -> (forall u, In u Fc -> ~ In u F) -> tree_at h' y' pb b F1' -> NoDup F1' ->
  (forall u, In u L -> ~ In u G) -> Fitted y' ->
  exists Fn, entry h' (Some a) (Some (replace_at c q y')) Fn /\ becomes h h' (F ++ Fc) (Fn ++ L).
Proof.
  intros h h' c a F q y b pb F1 G y' F1' Fc L (LD & AP & TB & S & R) ND FT T B DC T' ND' DL FT'.
  assert (NDB : NoDup (F1 ++ G)) by (apply (same_nodup _ _ S); exact ND). pose proof B as (LE & B1 & B2 & B3).
  assert (GF : forall u, In u G -> In u F) by (intros u I; apply (same_in _ _ u S); apply in_or_app; right; exact I).
  assert (GX : forall u, In u G -> ~ In u (F1 ++ Fc)).
  { intros u I J. apply in_app_or in J. destruct J as [J|J]; [exact (NoDup_app_disjoint _ _ _ u NDB J I)|exact (DC u J (GF u I))]. }
  assert (GN : forall u, In u G -> ~ In u (F1' ++ L)).
  { intros u I J. destruct (B3 u J) as [Q|Q]; [exact (GX u I Q)|]. exact (tree_live _ _ _ _ _ _ T (GF u I) Q). }
  destruct (R h' y' F1' T') as (Fn & TN & SN).
  - intros u I. apply B1; [exact (GX u I)|exact (GN u I)].
  - exists Fn. split.
    + cbn [entry]. split; [exact TN|]. split; [|exact (Fit_replace _ _ _ _ FT AP FT')].
      apply (same_nodup _ _ SN). apply NoDup_app; [exact ND'|exact (NoDup_app_r _ _ _ NDB)|]. intros u I J. apply (GN u J). apply in_or_app. left. exact I.
    + apply (becomes_equiv _ _ _ _ _ _ (becomes_frame _ _ _ _ G B)).
      * intro u. rewrite !in_app_iff, (same_in _ _ u S), in_app_iff. tauto.
      * intro u. rewrite !in_app_iff, (same_in _ _ u SN), in_app_iff. tauto.
Qed.

(** ** Adding *)

Lemma add_done : forall y tc e w y' w', Fitted y -> Fitted tc -> IFF_addToGroup y tc e w = Done (y', w') -> Fitted y'.
Proof.
  intros y tc e w y' w' FY FC E. assert (X : leaves (IFF_addToGroup y tc) Fitted); [|exact (X _ _ _ _ E)].
  unfold IFF_addToGroup. intros e1 w1 z w2 R. rewrite bind_eq in R. destruct (IFF_attachToGroup y tc e1 w1) as [[g w3]|u|] eqn:A; [|discriminate|discriminate].
  pose proof (attach_fitted y tc FY FC _ _ _ _ A) as FG. rewrite bind_eq in R. unfold lift in R. destruct (IFF_incrementChunkSize _ tc) as [n|u|]; [|discriminate|discriminate]. injection R as <- _. apply Fit_size; [|exact FG].
  intros i s d ->. unfold IFF_attachToGroup in A. destruct (as_group y) as [[t l]|] eqn:AG; [|discriminate]. rewrite bind_eq in A. destruct (malloc _ e1 w1) as [[[] w4]|u|]; try discriminate. injection A as Q _. destruct y; discriminate.
Qed.

Lemma addProp_done : forall y tc e w y' w', Fitted y -> Fitted tc -> IFF_addPropToList y tc e w = Done (y', w') -> Fitted y'.
Proof.
  intros y tc e w y' w' FY FC E. unfold IFF_addPropToList in E. rewrite bind_eq in E. destruct (addPropToList y tc e w) as [[g w3]|u|] eqn:A; [|discriminate|discriminate].
  pose proof (attach_prop_fitted y tc FY FC _ _ _ _ A) as FG. rewrite bind_eq in E. unfold lift in E. destruct (IFF_incrementChunkSize _ tc) as [n|u|]; [|discriminate|discriminate]. injection E as <- _. apply Fit_size; [|exact FG].
  intros i s d ->. unfold addPropToList in A. destruct y; try discriminate. rewrite bind_eq in A. destruct (malloc _ e w) as [[[] w4]|u|]; discriminate.
Qed.

Lemma addCAT_done : forall y tc e w y' w', Fitted y -> Fitted tc -> IFF_addToCATAndUpdateContentsType y tc e w = Done (y', w') -> Fitted y'.
Proof.
  intros y tc e w y' w' FY FC E. unfold IFF_addToCATAndUpdateContentsType in E. rewrite bind_eq in E. unfold lift in E. destruct (updateContentsType y tc) as [y1|u|] eqn:U; [|discriminate|discriminate].
  assert (RT : y1 = y \/ exists g, y1 = set_groupType y g).
  { unfold updateContentsType in U. destruct (checkValidCATSubChunkId _); [|injection U as <-; left; reflexivity].
    destruct (as_group y) as [[? ?]|]; [|discriminate]. destruct (as_group tc) as [[? ?]|]; [|discriminate]. destruct (_ =? 0); [injection U as <-; right; eexists; reflexivity|].
    destruct (negb _ && negb _); injection U as <-; [right; eexists; reflexivity|left; reflexivity]. }
  destruct RT as [->|(g & ->)]; [exact (add_done _ _ _ _ _ _ FY FC E)|]. exact (add_done _ _ _ _ _ _ (Fit_retype y g FY) FC E).
Qed.

Lemma steps_add : forall (m : chunk -> chunk -> M chunk) (hm : addr -> addr -> H unit) h P C F x y q e w c a gc b pb F1 G d ad, Good h P C F -> x <> y ->
  P x = Some a -> C x = Some c -> tree_at h c None a (F x) -> NoDup (F x) -> Fitted c -> spot h c a (F x) q gc b pb F1 G ->
  P y = Some ad -> C y = Some d ->
  (NoDup (F1 ++ F y) -> grows (m gc d) (hm b ad) h pb b F1 d ad (F y)) ->
  (forall g' w', m gc d e w = Done (g', w') -> Fitted g') ->
  steps (g' <- m gc d ;; ret (AOk, set (set C x (Some (replace_at c q g'))) y None)) (hm b ad ;;h hret (AOk, set P y None)) e w h F.
Proof.
  intros m hm h P C F x y q e w c a gc b pb F1 G d ad GD NE PX CX T ND FT SP PY CY GR OUT. pose proof SP as (_ & _ & TB & S & _).
  assert (DC : forall u, In u (F y) -> ~ In u (F x)) by (intros u I; exact (proj2 GD y x u (not_eq_sym NE) I)).
  assert (ND1 : NoDup (F1 ++ F y)).
  { apply NoDup_app; [exact (NoDup_app_l _ _ _ (proj1 (same_nodup _ _ S) ND))|exact (entry_nodup _ _ _ _ (proj1 GD y))|]. intros u I J. apply (DC u J). apply (same_in _ _ u S). apply in_or_app. left. exact I. }
  specialize (GR ND1 e w). unfold steps. rewrite bind_eq, hbind_eq. destruct (m gc d e w) as [[g' w']|u|]; [|rewrite GR; reflexivity|rewrite GR; reflexivity].
  destruct GR as (h' & F1' & E & T' & ND' & B & _). rewrite E. unfold ret, hret. pose proof (OUT g' w' eq_refl) as O3.
  destruct (local_tree h h' c a (F x) q gc b pb F1 G g' F1' (F y) [] SP ND FT T) as (Fn & EN & BN); try assumption.
  - rewrite app_nil_r. exact B.
  - intros u [].
  - rewrite app_nil_r in BN. exists (set P y None), h', (set (set F x Fn) y []). split; [reflexivity|].
    apply (next (fun z => z <> x /\ z <> y) h h' P C F _ _ _ (F x ++ F y) Fn).
    + intro z. destruct (Nat.eq_dec z x) as [->|N1]; [right; intros (Q & _); apply Q; reflexivity|]. destruct (Nat.eq_dec z y) as [->|N2]; [right; intros (_ & Q); apply Q; reflexivity|left; split; assumption].
    + exact GD.
    + exact BN.
    + intros u I. apply in_app_or in I. destruct I as [I|I]; [exists x|exists y]; (split; [intros (Q1 & Q2); congruence|exact I]).
    + intros z (N1 & N2). rewrite !set_other by assumption. auto.
    + intros z N. destruct (Nat.eq_dec z y) as [->|N2]; [rewrite !set_same; split; [reflexivity|intros u []]|]. destruct (Nat.eq_dec z x) as [->|N1]; [|exfalso; apply N; split; assumption].
      rewrite !(set_other _ _ y) by exact N2. rewrite !set_same, PX. split; [exact EN|auto].
    + intros z z' u N N' NZ I J. destruct (Nat.eq_dec z y) as [->|N2]; [rewrite set_same in I; destruct I|]. destruct (Nat.eq_dec z' y) as [->|N2']; [rewrite set_same in J; destruct J|].
      destruct (Nat.eq_dec z x) as [->|N1]; [|exfalso; apply N; split; assumption]. destruct (Nat.eq_dec z' x) as [->|N1']; [|exfalso; apply N'; split; assumption]. apply NZ. reflexivity.
Qed.

(** ** Changing data *)

Lemma steps_local : forall h h' P C F x q c a y b pb F1 G y' F1' L an e w w' (hm : H (answer * pointers)), Good h P C F -> P x = Some a -> C x = Some c ->
  tree_at h c None a (F x) -> NoDup (F x) -> Fitted c -> spot h c a (F x) q y b pb F1 G ->
  hm e w h = Done ((an, P), w', h') -> becomes h h' F1 (F1' ++ L) -> tree_at h' y' pb b F1' -> NoDup F1' -> (forall u, In u L -> ~ In u G) ->
  Fitted y' ->
  exists P' h'' F', hm e w h = Done ((an, P'), w', h'') /\ Good h'' P' (set C x (Some (replace_at c q y'))) F' /\ moves h F h'' F'.
Proof.
  intros h h' P C F x q c a y b pb F1 G y' F1' L an e w w' hm GD PX CX T ND FT SP E B T' ND' DL FT'.
  destruct (local_tree h h' c a (F x) q y b pb F1 G y' F1' [] L SP ND FT T) as (Fn & EN & BN); try assumption; [rewrite app_nil_r; exact B|intros u []|].
  rewrite app_nil_r in BN. destruct (next_one h h' P C F x P (Some (replace_at c q y')) Fn (Fn ++ L) GD) as (F' & G' & M).
  - left. exact BN.
  - reflexivity.
  - rewrite PX. exact EN.
  - intros u I. apply in_or_app. left. exact I.
  - exists P, h', F'. split; [exact E|]. split; assumption.
Qed.

(** the chunk at [b] gets a new block *)
Lemma steps_new : forall h P C F x q c a y b pb F1 G t z (an : answer) e w w1, Good h P C F -> P x = Some a -> C x = Some c ->
  tree_at h c None a (F x) -> NoDup (F x) -> Fitted c -> spot h c a (F x) q y b pb F1 G -> NoDup (F1 ++ G) -> z = zlength t -> 0 <= z <= INT_MAX ->
  hmalloc (zlength t) (OData (zlength t) (Some t)) e w h = Done (Some (address e w1 h), w1, fill h (address e w1 h) (OData (zlength t) (Some t))) ->
  let hm := hsetRawChunkData b (Some (address e w1 h)) z ;;h hret (an, P) in
  let h1 := fill h (address e w1 h) (OData (zlength t) (Some t)) in
  match IFF_setRawChunkData y t z with
  | Done y' => exists P' h'' F', hm e w1 h1 = Done ((an, P'), w1, h'') /\ Good h'' P' (set C x (Some (replace_at c q y'))) F' /\ moves h F h'' F'
  | Undefined u => hm e w1 h1 = Undefined u
  | OutOfFuel => hm e w1 h1 = OutOfFuel
  end.
Proof.
  intros h P C F x q c a y b pb F1 G t z an e w w1 GD PX CX T ND FT SP NDB ZE RZ EM hm h1. pose proof SP as (_ & _ & TB & S & _).
  pose proof (becomes_alloc e w1 h (OData (zlength t) (Some t))) as BA. fold h1 in BA.
  assert (K : forall u, lookup h u <> None -> lookup h1 u = lookup h u) by (intros u L; apply (becomes_kept _ _ _ _ _ BA L); intros []).
  assert (LB : lookup h b <> None) by exact (tree_live _ _ _ _ _ _ TB (tree_root_in _ _ _ _ _ TB)).
  unfold hm, IFF_setRawChunkData. rewrite hbind_eq. unfold hsetRawChunkData. rewrite hbind_eq.
  destruct y as [i s d|i s g l|i s g ps l|i s v]; cbn [tree_at] in TB.
  - destruct TB as (bd & size & L & LD & DF & EF). subst F1. rewrite (hchunk_at h1 b (mkHeader pb i s) (BRaw (Some bd)) e w1 (eq_trans (K b LB) L)). rewrite hstore_at by (rewrite K by exact LB; exact LB).
    assert (NB : b <> bd) by (intros ->; inversion NDB as [|u v NI _]; subst; apply NI; left; reflexivity).
    assert (LBD : lookup h bd <> None) by congruence.
    pose proof (address_free e w1 h) as AF. assert (BL : b <> address e w1 h) by congruence.
    set (o := OChunk (set_size (mkHeader pb i s) z) (BRaw (Some (address e w1 h)))).
    assert (LK : forall u, lookup (store h1 b o) u = if Nat.eqb u b then Some o else lookup h1 u) by (intro u; apply lookup_store; rewrite K by exact LB; exact LB).
    pose proof (data_becomes h h1 b bd (address e w1 h) o ltac:(rewrite K by exact LB; exact LB) BA NB LB LBD) as BD.
    refine (steps_local h (store h1 b o) P C F x q c a (CRaw i s d) b pb [b; bd] G (CRaw i z (Some t)) [b; address e w1 h] [bd] an e w w1 (fun _ _ _ => Done ((an, P), w1, store h1 b o)) GD PX CX T ND FT SP eq_refl BD _ _ _ _).
    + cbn [tree_at]. exists (address e w1 h), (zlength t). rewrite !LK, Nat.eqb_refl. split; [reflexivity|]. split; [|split; [reflexivity|reflexivity]].
      destruct (Nat.eqb_spec (address e w1 h) b) as [Q|_]; [congruence|]. unfold h1. rewrite lookup_new, Nat.eqb_refl. reflexivity.
    + constructor; [intros [Q|[]]; congruence|apply nodup_one].
    + intros u [<-|[]] I. apply (NoDup_app_disjoint _ _ _ bd NDB); [right; left; reflexivity|exact I].
    + constructor; [exact RZ|symmetry; exact ZE].
  - destruct TB as (arr & la & Fa & Fl & L & _). rewrite (hchunk_at h1 b _ _ e w1 (eq_trans (K b LB) L)). reflexivity.
  - destruct TB as (arr & la & Fa & Fl & parr & pa & Fb & Fp & L & _). rewrite (hchunk_at h1 b _ _ e w1 (eq_trans (K b LB) L)). reflexivity.
  - destruct TB as (L & _). rewrite (hchunk_at h1 b _ _ e w1 (eq_trans (K b LB) L)). reflexivity.
Qed.

Lemma steps_copy : forall h P C F x q c a y b pb F1 G t e w, Good h P C F -> P x = Some a -> C x = Some c ->
  tree_at h c None a (F x) -> NoDup (F x) -> Fitted c -> spot h c a (F x) q y b pb F1 G -> NoDup (F1 ++ G) -> Fitted y ->
  steps (e <- ask ;; y' <- lift (IFF_copyDataToRawChunkData e y t) ;; ret (AOk, set C x (Some (replace_at c q y')))) (hcopyData b t ;;h hret (AOk, P)) e w h F.
Proof.
  intros h P C F x q c a y b pb F1 G t e w GD PX CX T ND FT SP NDB FY. pose proof SP as (_ & _ & TB & _ & _).
  unfold steps. rewrite bind_eq. cbn [ask]. rewrite bind_eq. unfold lift, IFF_copyDataToRawChunkData. rewrite hbind_eq. unfold hcopyData. rewrite (hbind_done _ _ _ _ _ _ _ e w h (eq_refl : io ask e w h = Done (e, w, h))). rewrite hbind_eq.
  destruct y as [i s d|i s g l|i s g ps l|i s v]; cbn [tree_at] in TB.
  - destruct TB as (bd & size & L & LD & DF & EF). subst F1. rewrite (hchunk_at _ _ _ _ e w L). cbn [o_size]. inversion FY as [? ? ? RS FD| | |]; subst. rewrite (wrap_u_small e s RS). rewrite hbind_eq. unfold hload. rewrite LD.
    assert (SZ : size = s) by (destruct d as [l|]; cbn [data_fits] in DF; [congruence|exact (proj1 DF)]). subst size. rewrite Z.ltb_irrefl, Bool.orb_false_r.
    destruct (Z.ltb_spec (zlength t) s) as [LT|GE]; [reflexivity|]. rewrite hstore_at by congruence. unfold ret, hret.
    assert (EQ : ztake s t ++ zdrop s (match d with Some l => l | None => [] end) = ztake s t).
    { assert (ZD : zdrop s (match d with Some l => l | None => [] end) = []); [|rewrite ZD; apply app_nil_r]. rewrite zdrop_skipn. apply skipn_all2. destruct d as [l|]; [unfold zlength in FD; lia|cbn; lia]. }
    rewrite EQ. assert (NB : b <> bd) by (intros ->; inversion NDB as [|u v NI _]; subst; apply NI; left; reflexivity).
    assert (LT : zlength (ztake s t) = s) by (rewrite zlength_ztake; lia).
    set (h' := store h bd (OData s (Some (ztake s t)))).
    assert (LK : forall u, lookup h' u = if Nat.eqb u bd then Some (OData s (Some (ztake s t))) else lookup h u) by (intro u; unfold h'; apply lookup_store; congruence).
    refine (steps_local h h' P C F x q c a (CRaw i s d) b pb [b; bd] G (CRaw i s (Some (ztake s t))) [b; bd] [] AOk e w w (fun _ _ _ => Done ((AOk, P), w, h')) GD PX CX T ND FT SP eq_refl _ _ _ _ _).
    + rewrite app_nil_r. unfold h'. apply becomes_store; [congruence|right; left; reflexivity].
    + cbn [tree_at]. exists bd, s. rewrite !LK, Nat.eqb_refl. destruct (Nat.eqb_spec b bd) as [Q|_]; [contradiction|]. split; [exact L|]. split; [reflexivity|]. split; [cbn; lia|reflexivity].
    + exact (NoDup_app_l _ _ _ NDB).
    + intros u [].
    + constructor; [exact RS|exact LT].
  - destruct TB as (arr & la & Fa & Fl & L & _). rewrite (hchunk_at h b _ _ e w L). reflexivity.
  - destruct TB as (arr & la & Fa & Fl & parr & pa & Fb & Fp & L & _). rewrite (hchunk_at h b _ _ e w L). reflexivity.
  - destruct TB as (L & _). rewrite (hchunk_at h b _ _ e w L). reflexivity.
Qed.

Lemma sees_at : forall h c p a F e w, tree_at h c p a F -> hsees a e w h = Done (sees c, w, h).
Proof.
  intros h c p a F e w T. unfold hsees. rewrite hbind_eq. destruct c as [i s d|i s g l|i s g ps l|i s v]; cbn [tree_at] in T.
  - destruct T as (b & size & L & LD & _). rewrite (hchunk_at _ _ _ _ e w L). rewrite hbind_eq. unfold hload. rewrite LD. reflexivity.
  - destruct T as (arr & la & Fa & Fl & L & _). rewrite (hchunk_at h a _ _ e w L). reflexivity.
  - destruct T as (arr & la & Fa & Fl & parr & pa & Fb & Fp & L & _). rewrite (hchunk_at h a _ _ e w L). reflexivity.
  - destruct T as (L & _). rewrite (hchunk_at h a _ _ e w L). reflexivity.
Qed.

(** statements that only look *)
Lemma steps_agrees : forall A (m : M A) (hm : H A) (k : A -> answer) h P C F e w, Good h P C F -> agrees e h m hm ->
  steps (r <- m ;; ret (k r, C)) (r <-h hm ;; hret (k r, P)) e w h F.
Proof.
  intros A m hm k h P C F e w GD AG. unfold steps. rewrite bind_eq, hbind_eq, AG. unfold io. destruct (m e w) as [[r w']|u|]; [|reflexivity|reflexivity].
  unfold ret, hret. exists P, h, F. split; [reflexivity|]. apply stay. exact GD.
Qed.

(** what is found is looked at, and the array released *)
Lemma sees_all_at : forall h F l la e w, Forall2 (shown h F) l la -> hsees_all la e w h = Done (map sees l, w, h).
Proof.
  intros h F l la e w S. induction S as [|y b l la (pb & Fb & T & _) S IH]; cbn [hsees_all map]; [reflexivity|].
  rewrite hbind_eq, (sees_at _ _ _ _ _ e w T), hbind_eq, IH. reflexivity.
Qed.
Lemma steps_finds : forall (m : M (list chunk)) hm h P C F y pb b F1 e w, Good h P C F -> tree_at h y pb b F1 -> finds h F1 e (m e w) (hm e w h) ->
  steps (l <- m ;; ret (AAll (map sees l), C)) (r <-h hm ;; a <-h htake r ;; hret (a, P)) e w h F.
Proof.
  intros m hm h P C F y pb b F1 e w GD TB R. unfold steps. rewrite bind_eq, hbind_eq. unfold finds in R. destruct (m e w) as [[l w']|u|]; [|rewrite R; reflexivity|contradiction].
  destruct R as (arr & la & Fa & L & h' & -> & A & S & B). unfold ret. rewrite hbind_eq. unfold htake. cbn [fst snd]. rewrite hbind_eq, (helements_at _ _ _ _ e w' A).
  assert (S' : Forall2 (shown h' F1) l la).
  { clear A. induction S as [|z d l0 l1 S1 S2 IH]; constructor; [|exact IH]. apply (shown_frame h); [exact S1|]. intros u I. apply (becomes_kept _ _ _ _ _ B); [exact (tree_live _ _ _ _ _ _ TB I)|intros []]. }
  rewrite hbind_eq, (sees_all_at _ _ _ _ e w' S'). destruct (hfree_array h' arr la Fa e w' A) as (h2 & E2 & B2). rewrite hbind_eq, E2. unfold hret. exists P, h2, F. split; [reflexivity|].
  assert (B3 : becomes h h2 [] L).
  { apply (becomes_trans _ h' _ _ (Fa ++ L)); [exact B|]. apply (becomes_equiv _ _ (L ++ Fa) (L ++ [])); [apply becomes_frame; exact B2| |]; intro u; rewrite !in_app_iff; cbn [In]; tauto. }
  apply (next (fun _ => True) h h2 P C F P C F [] L).
  - intro z. left. exact I.
  - exact GD.
  - exact B3.
  - intros u [].
  - intros z _. auto.
  - intros z N. destruct (N I).
  - intros z z' u N. destruct (N I).
Qed.

Lemma readFd_makes : forall rg app, Realises (selectChunkRegistry rg) app -> HeapBuildProofs.makes (IFF_readFd rg) (hIFF_readFd rg).
Proof.
  intros rg app RG e w h. pose proof (readFd_at rg app RG e w h) as R. destruct (IFF_readFd rg e w) as [[[c|] w']|u|]; [|exact R|exact R|exact R].
  destruct R as (a & h' & F & E & T & ND & B & _). exists a, h', F. auto.
Qed.

(** assigning a field *)
Lemma steps_assign : forall h P C F x q c a y b pb F1 G n z e w, Good h P C F -> P x = Some a -> C x = Some c ->
  tree_at h c None a (F x) -> NoDup (F x) -> Fitted c -> spot h c a (F x) q y b pb F1 G -> NoDup (F1 ++ G) ->
  steps (match y with
      | CFields i s vals =>
          match assign n z vals with
          | Some vals' => ret (AOk, set C x (Some (replace_at c q (CFields i s vals'))))
          | None => ret (ANull, C)
          end
      | _ => undefined UB_type_confusion
      end)
   ('(hd, bd) <-h hchunk b ;;
      match bd with
      | BFields vals =>
          match assign n z vals with
          | Some vals' => hstore b (OChunk hd (BFields vals')) ;;h hret (AOk, P)
          | None => hret (ANull, P)
          end
      | _ => hundefined UB_type_confusion
      end) e w h F.
Proof.
  intros h P C F x q c a y b pb F1 G n z e w GD PX CX T ND FT SP NDB. pose proof SP as (_ & _ & TB & _ & _). unfold steps. rewrite hbind_eq.
  destruct y as [i s d|i s g l|i s g ps l|i s v]; cbn [tree_at] in TB.
  - destruct TB as (bd & size & L & _). rewrite (hchunk_at h b _ _ e w L). reflexivity.
  - destruct TB as (arr & la & Fa & Fl & L & _). rewrite (hchunk_at h b _ _ e w L). reflexivity.
  - destruct TB as (arr & la & Fa & Fl & parr & pa & Fb & Fp & L & _). rewrite (hchunk_at h b _ _ e w L). reflexivity.
  - destruct TB as (L & EF). subst F1. rewrite (hchunk_at h b _ _ e w L). destruct (assign n z v) as [v'|]; [|unfold ret, hret; exists P, h, F; split; [reflexivity|]; apply stay; exact GD].
    rewrite hbind_eq, hstore_at by congruence. unfold ret, hret. set (o := OChunk (mkHeader pb i s) (BFields v')).
    refine (steps_local h (store h b o) P C F x q c a (CFields i s v) b pb [b] G (CFields i s v') [b] [] AOk e w w (fun _ _ _ => Done ((AOk, P), w, store h b o)) GD PX CX T ND FT SP eq_refl _ _ _ _ _).
    + rewrite app_nil_r. apply becomes_store; [congruence|left; reflexivity].
    + cbn [tree_at]. split; [|reflexivity]. rewrite lookup_store by congruence. rewrite Nat.eqb_refl. reflexivity.
    + apply nodup_one.
    + intros u [].
    + constructor.
Qed.

Theorem step_ok : forall rg app, Realises (selectChunkRegistry rg) app -> forall s h P C F e w, legal s -> Good h P C F -> steps (vexec rg s C) (hexec rg s P) e w h F.
Proof.
  intros rg app RG s h P C F e w LG GD. destruct s as [l k|x|x cid ty|x ty|x cid size|x sp cid size|x q n z|x q y|x q y|x q y|x q t|x q t|x q t|x q|x q cid|x q types|x q cid|x q|x|x|x lv|x y|x]; cbn [vexec hexec legal] in *.
  - unfold steps. exists P, h, F. split; [reflexivity|]. apply stay. exact GD.
  - apply steps_make; [exact (readFd_makes rg app RG)|apply readFd_fitted|exact GD].
  - apply steps_make; [exact (makes_group cid IFF_ID_SIZE ty)|apply group_fitted|exact GD].
  - apply steps_make; [exact (makes_list IFF_ID_SIZE ty)|apply list_fitted|exact GD].
  - apply steps_make; [exact (makes_raw cid size LG)|exact (raw_fitted cid size LG)|exact GD].
  - apply steps_make; [exact (makes_fields sp cid size)|apply fields_fitted|exact GD].
  - apply steps_place; [exact GD|]. intros a c y b pb F1 G PX CX T ND FT SP FY NDB. exact (steps_assign h P C F x q c a y b pb F1 G n z e w GD PX CX T ND FT SP NDB).
  - apply steps_place; [exact GD|]. intros a c y0 b pb F1 G PX CX T ND FT SP FY NDB. pose proof SP as (_ & _ & TB & _ & _).
    pose proof (proj1 GD y) as EY. destruct (P y) as [ad|] eqn:PY, (C y) as [d|] eqn:CY; try contradiction; [|apply steps_same; exact GD]. destruct EY as (TD & NDD & FD).
    apply (steps_add IFF_addToGroup haddToGroup h P C F x y q e w c a y0 b pb F1 G d ad); try assumption.
    + intro N. exact (add_at _ _ _ _ _ _ _ _ _ TB TD N).
    + intros g' w' E. exact (add_done _ _ _ _ _ _ FY FD E).
  - apply steps_place; [exact GD|]. intros a c y0 b pb F1 G PX CX T ND FT SP FY NDB. pose proof SP as (_ & _ & TB & _ & _).
    pose proof (proj1 GD y) as EY. destruct (P y) as [ad|] eqn:PY, (C y) as [d|] eqn:CY; try contradiction; [|apply steps_same; exact GD]. destruct EY as (TD & NDD & FD).
    apply (steps_add IFF_addPropToList haddPropToList h P C F x y q e w c a y0 b pb F1 G d ad); try assumption.
    + intro N. exact (addProp_at _ _ _ _ _ _ _ _ _ TB TD N).
    + intros g' w' E. exact (addProp_done _ _ _ _ _ _ FY FD E).
  - apply steps_place; [exact GD|]. intros a c y0 b pb F1 G PX CX T ND FT SP FY NDB. pose proof SP as (_ & _ & TB & _ & _).
    pose proof (proj1 GD y) as EY. destruct (P y) as [ad|] eqn:PY, (C y) as [d|] eqn:CY; try contradiction; [|apply steps_same; exact GD]. destruct EY as (TD & NDD & FD).
    apply (steps_add IFF_addToCATAndUpdateContentsType haddToCATAndUpdateContentsType h P C F x y q e w c a y0 b pb F1 G d ad); try assumption.
    + intro N. exact (addToCAT_at _ _ _ _ _ _ _ _ _ TB TD N).
    + intros g' w' E. exact (addCAT_done _ _ _ _ _ _ FY FD E).
  - destruct LG as (NE & LE). apply steps_place; [exact GD|]. intros a c y b pb F1 G PX CX T ND FT SP FY NDB.
    assert (WS : wrap_s 32 (zlength t) = zlength t) by (unfold wrap_s; pose proof (zlength_nonneg _ t); unfold INT_MAX in LE; rewrite Z.mod_small by lia; destruct (Z.ltb_spec (zlength t) (2 ^ (32 - 1))); lia).
    unfold steps. rewrite bind_eq. unfold hsetTextData. rewrite !hbind_eq. destruct (hmalloc_run (zlength t) (OData (zlength t) (Some t)) e w h) as (ok & w1 & M & _ & R). rewrite M. destruct ok.
    + rewrite R. rewrite bind_eq. unfold lift, IFF_setTextData. rewrite WS.
      pose proof (steps_new h P C F x q c a y b pb F1 G t (zlength t) AOk e w w1 GD PX CX T ND FT SP NDB eq_refl (conj (zlength_nonneg _ t) LE) R) as X. cbv zeta in X. rewrite hbind_eq in X.
      destruct (IFF_setRawChunkData y t (zlength t)) as [y'|u|]; [|exact X|exact X]. exact X.
    + rewrite R. destruct (Z.eqb_spec (zlength t) 0) as [Z0|_]; [|reflexivity]. destruct t as [|t0 t]; [congruence|]. unfold zlength in Z0. cbn [List.length] in Z0. lia.
  - apply steps_place; [exact GD|]. intros a c y b pb F1 G PX CX T ND FT SP FY NDB.
    unfold steps. rewrite bind_eq. rewrite !hbind_eq. destruct (hmalloc_run (zlength t) (OData (zlength t) (Some t)) e w h) as (ok & w1 & M & _ & R). rewrite M. destruct ok.
    + rewrite R. rewrite bind_eq. unfold lift.
      pose proof (steps_new h P C F x q c a y b pb F1 G t (zlength t) AOk e w w1 GD PX CX T ND FT SP NDB eq_refl (conj (zlength_nonneg _ t) LG) R) as X. cbv zeta in X.
      destruct (IFF_setRawChunkData y t (zlength t)) as [y'|u|]; [|exact X|exact X]. exact X.
    + rewrite R. unfold ret, hret. exists P, h, F. split; [reflexivity|]. apply stay. exact GD.
  - apply steps_place; [exact GD|]. intros a c y b pb F1 G PX CX T ND FT SP FY NDB. apply (steps_copy h P C F x q c a y b pb F1 G t e w); assumption.
  - apply steps_place; [exact GD|]. intros a c y b pb F1 G PX CX T ND FT SP FY NDB. pose proof SP as (LD & _).
    unfold steps. rewrite bind_eq, hbind_eq. unfold lift. pose proof (updateChunkSizes_at q c a (F x) h e w b T ND LD) as U. destruct (IFF_updateChunkSizes c q) as [[c'|]|u|] eqn:E; [|contradiction|rewrite U; reflexivity|rewrite U; reflexivity].
    destruct U as (h' & F' & EH & T' & S' & B). rewrite EH. unfold ret, hret. cbn [got].
    destruct (next_one h h' P C F x P (Some c') F' F' GD) as (F2 & G2 & M2).
    + left. exact B.
    + reflexivity.
    + rewrite PX. cbn [entry]. split; [exact T'|]. split; [apply (same_nodup _ _ S'); exact ND|]. exact (Fit_update _ _ _ FT E).
    + auto.
    + exists P, h', F2. split; [reflexivity|]. split; assumption.
  - apply steps_place; [exact GD|]. intros a c y b pb F1 G PX CX T ND FT SP FY NDB. pose proof SP as (LD & AP & _).
    unfold steps. rewrite bind_eq, hbind_eq. unfold lift. pose proof (getChunk_at cid c a (F x) q y b h e w T ND AP LD) as U. unfold looks_up in U.
    destruct (IFF_getChunkFromForm y (ancestors c q) cid) as [oc|u|]; [|rewrite U; reflexivity|rewrite U; reflexivity]. destruct U as (r & EH & FA). rewrite EH. unfold ret.
    destruct oc as [d|], r as [ad|]; try contradiction.
    + destruct FA as (q' & AP' & LD'). destruct (path_split q' h c None a (F x) d T AP') as (b' & pb' & F1' & G' & LD2 & TB' & _). pose proof (Leads_det _ _ _ _ _ LD' LD2) as EB. subst b'.
      rewrite hbind_eq, (sees_at _ _ _ _ _ e w TB'). unfold hret. exists P, h, F. split; [reflexivity|]. apply stay. exact GD.
    + unfold hret. exists P, h, F. split; [reflexivity|]. apply stay. exact GD.
  - apply steps_place; [exact GD|]. intros a c y b pb F1 G PX CX T ND FT SP FY NDB. pose proof SP as (_ & _ & TB & _).
    apply (steps_finds _ _ h P C F y pb b F1); [exact GD|exact TB|]. apply (search_sim types y pb b F1 h e w); [exact TB|]. pose proof (tree_depth _ _ _ _ _ TB (NoDup_app_l _ _ _ NDB)). lia.
  - apply steps_place; [exact GD|]. intros a c y b pb F1 G PX CX T ND FT SP FY NDB. pose proof SP as (_ & _ & TB & _).
    apply (steps_finds _ _ h P C F y pb b F1); [exact GD|exact TB|]. exact (gets_sim cid y pb b F1 h e w TB).
  - apply steps_place; [exact GD|]. intros a c y b pb F1 G PX CX T ND FT SP FY NDB. pose proof SP as (_ & _ & TB & _). unfold steps, ret. rewrite hbind_eq, (sees_at _ _ _ _ _ e w TB). unfold hret. exists P, h, F. split; [reflexivity|]. apply stay. exact GD.
  - pose proof (proj1 GD x) as EX. destruct (P x) as [a|], (C x) as [c|]; try contradiction; [|apply steps_same; exact GD]. destruct EX as (T & ND & _).
    apply (steps_agrees bool _ _ ABool); [exact GD|]. exact (writeFd_at rg e h c None a (F x) T ND).
  - pose proof (proj1 GD x) as EX. destruct (P x) as [a|], (C x) as [c|]; try contradiction; [|apply steps_same; exact GD]. destruct EX as (T & ND & _).
    apply (steps_agrees bool _ _ ABool); [exact GD|]. exact (check_at rg e h c None a (F x) T ND).
  - pose proof (proj1 GD x) as EX. destruct (P x) as [a|], (C x) as [c|]; try contradiction; [|apply steps_same; exact GD]. destruct EX as (T & ND & _).
    apply (steps_agrees string _ _ AText); [exact GD|]. exact (print_at rg e h c None a (F x) lv T ND).
  - pose proof (proj1 GD x) as EX. pose proof (proj1 GD y) as EY. destruct (P x) as [a|], (C x) as [c|]; try contradiction; [|apply steps_same; exact GD]. destruct EX as (T & ND & _).
    destruct (P y) as [a2|], (C y) as [c2|]; try contradiction; [|apply steps_same; exact GD]. destruct EY as (T2 & _).
    unfold steps. rewrite bind_eq. cbn [ask]. apply (steps_agrees bool _ _ ABool h P C F e w GD). exact (compare_at rg e h c None a (F x) c2 None a2 (F y) T ND T2).
  - pose proof (proj1 GD x) as EX. destruct (P x) as [a|] eqn:PX, (C x) as [c|] eqn:CX; try contradiction; [|apply steps_same; exact GD]. destruct EX as (T & ND & _).
    unfold steps. rewrite bind_eq, hbind_eq. unfold lift, IFF_free, hIFF_free. pose proof (freeTree_any _ app RG c 0 None a (F x) h e w T ND) as FR.
    destruct (IFF_freeChunk (selectChunkRegistry rg) c 0) as [[]|u|]; [|rewrite FR; reflexivity|contradiction]. destruct FR as (h' & L & E & B). rewrite E. unfold ret, hret.
    destruct (next_one h h' P C F x (set P x None) None [] L GD) as (F2 & G2 & M2).
    + left. exact B.
    + intros z N. apply set_other. exact N.
    + rewrite set_same. reflexivity.
    + intros u [].
    + exists (set P x None), h', F2. split; [reflexivity|]. split; assumption.
Qed.

(** ** Programs *)

Lemma moves_trans : forall h1 F1 h2 F2 h3 F3, moves h1 F1 h2 F2 -> moves h2 F2 h3 F3 -> moves h1 F1 h3 F3.
Proof.
  intros h1 F1 h2 F2 h3 F3 (L1 & K1 & N1) (L2 & K2 & N2). split; [lia|]. split.
  - intros u L NI. pose proof (K1 u L NI) as E. rewrite <- E. apply K2; [congruence|].
    intros x I. exact (L (N1 x u I NI)).
  - intros x u I NI. destruct (lookup h1 u) as [o|] eqn:E; [|reflexivity]. assert (LV : lookup h1 u <> None) by congruence.
    assert (N : forall z, ~ In u (F2 z)) by (intros z Z; exact (LV (N1 z u Z NI))). pose proof (N2 x u I N) as X. pose proof (K1 u LV NI) as Y. congruence.
Qed.

Lemma run_ok : forall rg app, Realises (selectChunkRegistry rg) app -> forall p h P C F e w, Forall legal p -> Good h P C F ->
  match vrun rg p C e w with
  | Done ((l, C'), w') => exists P' h' F', hrun rg p P e w h = Done ((l, P'), w', h') /\ Good h' P' C' F' /\ moves h F h' F'
  | Undefined u => hrun rg p P e w h = Undefined u
  | OutOfFuel => hrun rg p P e w h = OutOfFuel
  end.
Proof.
  intros rg app RG. induction p as [|s p IH]; intros h P C F e w LG GD; cbn [vrun hrun].
  - exists P, h, F. split; [reflexivity|]. apply stay. exact GD.
  - inversion LG as [|? ? L1 L2]; subst. rewrite bind_eq, hbind_eq. pose proof (step_ok rg app RG s h P C F e w L1 GD) as S. unfold steps in S.
    destruct (vexec rg s C e w) as [[[a C1] w1]|u|]; [|rewrite S; reflexivity|rewrite S; reflexivity]. destruct S as (P1 & h1 & F1 & E & G1 & M1). rewrite E.
    rewrite bind_eq, hbind_eq. pose proof (IH h1 P1 C1 F1 e w1 L2 G1) as R. destruct (vrun rg p C1 e w1) as [[[l C2] w2]|u|]; [|rewrite R; reflexivity|rewrite R; reflexivity].
    destruct R as (P2 & h2 & F2 & E2 & G2 & M2). rewrite E2. unfold ret, hret. exists P2, h2, F2. split; [reflexivity|]. split; [exact G2|exact (moves_trans _ _ _ _ _ _ M1 M2)].
Qed.

(** ** Several programs *)

Definition Together (h0 : heap) (m : machine) (C : nat -> vars) (F : nat -> nat -> list addr) : Prop :=
  (forall t, Good (m_heap m) (m_vars m t) (C t) (F t)) /\
  (forall t t' x y u, t <> t' -> In u (F t x) -> ~ In u (F t' y)) /\
  (forall u, lookup h0 u <> None -> lookup (m_heap m) u = lookup h0 u /\ forall t x, ~ In u (F t x)).

Lemma mine_cons : forall A t t' (s : A) r, mine t ((t', s) :: r) = if Nat.eqb t' t then s :: mine t r else mine t r.
Proof. intros A t t' s r. unfold mine. cbn [filter fst]. destruct (Nat.eqb t' t); reflexivity. Qed.

Lemma turns_ok : forall R A E h0, (forall t, Realises (selectChunkRegistry (R t)) (A t)) -> forall sch m C F, Forall (fun x => legal (snd x)) sch -> Together h0 m C F ->
  match take_turns R E sch m with
  | Done (l, m') => exists C' F', Together h0 m' C' F' /\ forall t, vrun (R t) (mine t sch) (C t) (E t) (m_world m t) = Done ((mine t l, C' t), m_world m' t)
  | Undefined u => exists t, vrun (R t) (mine t sch) (C t) (E t) (m_world m t) = Undefined u
  | OutOfFuel => exists t, vrun (R t) (mine t sch) (C t) (E t) (m_world m t) = OutOfFuel
  end.
Proof.
  intros R A E h0 RG. induction sch as [|[t s] r IH]; intros m C F LG TG; cbn [take_turns].
  - exists C, F. split; [exact TG|]. intro t. reflexivity.
  - inversion LG as [|? ? L1 L2]; subst. cbn [snd] in L1. destruct TG as (GD & DJ & OLD). pose proof (step_ok (R t) (A t) (RG t) s (m_heap m) (m_vars m t) (C t) (F t) (E t) (m_world m t) L1 (GD t)) as S. unfold steps in S.
    destruct (vexec (R t) s (C t) (E t) (m_world m t)) as [[[a C1] w1]|u|] eqn:EV.
    + destruct S as (P1 & h1 & F1 & EH & G1 & M1). rewrite EH. destruct M1 as (LE & K1 & N1).
      assert (TG1 : Together h0 (mkMachine h1 (set (m_world m) t w1) (set (m_vars m) t P1)) (set C t C1) (set F t F1)).
      { split; [|split].
        - intro t'. cbn [m_heap m_vars]. destruct (Nat.eq_dec t' t) as [->|N]; [rewrite !set_same; exact G1|]. rewrite !set_other by exact N. destruct (GD t') as (EN & D). split; [|exact D].
          intro x. apply (entry_frame (m_heap m)); [apply EN|]. intros u I. apply K1; [exact (entry_live _ _ _ _ _ (EN x) I)|]. intros z Z. exact (DJ t' t x z u N I Z).
        - assert (HALF : forall t' x y u, t' <> t -> In u (F t' x) -> ~ In u (F1 y)).
          { intros t' x y u N I J. exact (entry_live _ _ _ _ _ (proj1 (GD t') x) I (N1 y u J (fun z => DJ t' t x z u N I))). }
          intros t1 t2 x y u NE I J. destruct (Nat.eq_dec t1 t) as [->|N1'].
          + rewrite set_same in I. rewrite set_other in J by (intro Q; apply NE; symmetry; exact Q). exact (HALF t2 y x u (not_eq_sym NE) J I).
          + rewrite set_other in I by exact N1'. destruct (Nat.eq_dec t2 t) as [->|N2']; [rewrite set_same in J; exact (HALF t1 x y u N1' I J)|]. rewrite set_other in J by exact N2'. exact (DJ t1 t2 x y u NE I J).
        - intros u L. destruct (OLD u L) as (EQ & NI). cbn [m_heap]. split.
          + rewrite <- EQ. apply K1; [congruence|]. intros x I. exact (NI t x I).
          + intros t' x I. destruct (Nat.eq_dec t' t) as [->|N]; [|rewrite set_other in I by exact N; exact (NI t' x I)]. rewrite set_same in I.
            pose proof (N1 x u I (NI t)) as LB. congruence. }
      pose proof (IH _ _ _ L2 TG1) as X. cbn [m_world] in X.
      assert (ST : forall t', vrun (R t') (mine t' ((t, s) :: r)) (C t') (E t') (m_world m t') =
        match vrun (R t') (mine t' r) (set C t C1 t') (E t') (set (m_world m) t w1 t') with
        | Done ((l, C'), w') => Done ((if Nat.eqb t t' then a :: l else l, C'), w') | Undefined u => Undefined u | OutOfFuel => OutOfFuel end).
      { intro t'. rewrite mine_cons. destruct (Nat.eqb_spec t t') as [<-|N].
        - rewrite !set_same. cbn [vrun]. rewrite bind_eq, EV. rewrite bind_eq. destruct (vrun (R t) (mine t r) C1 (E t) w1) as [[[l C'] w']|u|]; reflexivity.
        - rewrite !set_other by (intro Q; apply N; symmetry; exact Q). destruct (vrun (R t') (mine t' r) (C t') (E t') (m_world m t')) as [[[l C'] w']|u|]; reflexivity. }
      destruct (take_turns R E r _) as [[l m']|u|].
      * destruct X as (C' & F' & TG' & X). exists C', F'. split; [exact TG'|]. intro t'. rewrite ST, X, mine_cons. destruct (Nat.eqb t t'); reflexivity.
      * destruct X as (t' & X). exists t'. rewrite ST, X. reflexivity.
      * destruct X as (t' & X). exists t'. rewrite ST, X. reflexivity.
    + rewrite S. exists t. rewrite mine_cons, Nat.eqb_refl. cbn [vrun]. rewrite bind_eq, EV. reflexivity.
    + rewrite S. exists t. rewrite mine_cons, Nat.eqb_refl. cbn [vrun]. rewrite bind_eq, EV. reflexivity.
Qed.

Lemma Good_holds : forall h P C F x, Good h P C F -> SessionSpec.holds h (P x) (C x).
Proof.
  intros h P C F x G. pose proof (proj1 G x) as E. unfold SessionSpec.holds. destruct (P x), (C x); try contradiction; [|exact I]. exists (F x). split; [exact (proj1 E)|exact (proj1 (proj2 E))].
Qed.

Lemma entries_apart : forall h p q o o' F G, entry h p o F -> entry h q o' G -> (forall u, In u F -> ~ In u G) -> apart h p q.
Proof.
  intros h p q o o' F G E1 E2 D x y u -> -> O1 O2. destruct o as [c|]; [|contradiction]. destruct o' as [d|]; [|contradiction].
  apply (D u); [apply (tree_blocks _ _ _ _ _ (proj1 E1)); exact O1|apply (tree_blocks _ _ _ _ _ (proj1 E2)); exact O2].
Qed.

Lemma Good_start : forall h, Good h nothing nothing (fun _ => []).
Proof. intro h. split; [intro x; reflexivity|intros x y u _ []]. Qed.

Lemma Together_start : forall h W, Together h (mkMachine h W (fun _ => nothing)) (fun _ => nothing) (fun _ _ => []).
Proof. intros h W. split; [intro t; apply Good_start|]. split; [intros t t' x y u _ []|]. intros u _. split; [reflexivity|intros t x []]. Qed.
