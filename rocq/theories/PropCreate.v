(** * Property C83: groups can be created with their final size, or grown *)

From Coq Require Import ZArith List Bool String Lia.
From Coq Require Import Strings.Byte.
From Verif Require Import Machine Io Types Build Spec Lemmas WriteProofs Examples CheckProofs ConfProofs BuiltProofs RoundProofs PropRead.
Import ListNotations.
Open Scope Z_scope.

(** [makes f c]: [f] touches no file and says nothing; it returns [c], or NULL
    if an allocation of at most 48 bytes fails. *)
Definition makes (f : M (option chunk)) (c : chunk) : Prop := forall e w,
  exists w', w_in w' = w_in w /\ w_out w' = w_out w /\ w_log w' = w_log w /\
    (f e w = Done (Some c, w') \/ f e w = Done (None, w') /\ exists n sz, 0 < sz <= 48 /\ malloc_ok e n sz = false).

(** Every creating function makes the kind of group its name says, with the size
    and type it was given and without members; the empty ones have the size of
    their type, and CATs and LISTs of no particular type get the type JJJJ. *)
Lemma group_makes : forall i s g, makes (IFF_createGroup i s g) (CGroup i s g []).
Proof.
  intros i s g e w. unfold IFF_createGroup, bind, malloc. eexists. split; [|split; [|split; [|
    destruct (malloc_ok e (w_allocs w) sizeof_Group) eqn:M]]]; [| | |left|right; split; [rewrite andb_false_r; reflexivity|exists (w_allocs w), sizeof_Group; split; [unfold sizeof_Group; lia|exact M]]];
    try reflexivity. replace (sizeof_Group <? _) with true by (unfold size_t_bits; destruct (lp64 e); reflexivity). reflexivity.
Qed.
Lemma list_makes : forall s g, makes (IFF_createList s g) (CList LIST_ID s g [] []).
Proof.
  intros s g e w. unfold IFF_createList, bind, malloc. eexists. split; [|split; [|split; [|
    destruct (malloc_ok e (w_allocs w) sizeof_List) eqn:M]]]; [| | |left|right; split; [rewrite andb_false_r; reflexivity|exists (w_allocs w), sizeof_List; split; [unfold sizeof_List; lia|exact M]]];
    try reflexivity. replace (sizeof_List <? _) with true by (unfold size_t_bits; destruct (lp64 e); reflexivity). reflexivity.
Qed.
Theorem C83_created : forall size type,
  makes (IFF_createForm size type) (CGroup FORM_ID size type []) /\ makes (IFF_createEmptyForm type) (CGroup FORM_ID 4 type []) /\
  makes (IFF_createProp size type) (CGroup PROP_ID size type []) /\ makes (IFF_createEmptyProp type) (CGroup PROP_ID 4 type []) /\
  makes (IFF_createCAT size type) (CGroup CAT_ID size type []) /\ makes (IFF_createEmptyCATWithContentsType type) (CGroup CAT_ID 4 type []) /\
  makes (IFF_createList size type) (CList LIST_ID size type [] []) /\ makes (IFF_createEmptyListWithContentsType type) (CList LIST_ID 4 type [] []) /\
  makes IFF_createEmptyCAT (CGroup CAT_ID 4 JJJJ_ID []) /\ makes IFF_createEmptyList (CList LIST_ID 4 JJJJ_ID [] []).
Proof. intros size type. repeat split; apply group_makes || apply list_makes. Qed.
Print Assumptions C83_created.

(** ** Growing and filling *)

(** Members are added one by one, the size growing with them; or attached to a
    group that already has its final size. *)
Fixpoint add_all (g : chunk) (cs : list chunk) : M chunk :=
  match cs with [] => ret g | c :: r => g' <- IFF_addToGroup g c ;; add_all g' r end.
Fixpoint attach_all (g : chunk) (cs : list chunk) : M chunk :=
  match cs with [] => ret g | c :: r => g' <- IFF_attachToGroup g c ;; attach_all g' r end.
Fixpoint add_props (l : chunk) (ps : list chunk) : M chunk :=
  match ps with [] => ret l | p :: r => l' <- IFF_addPropToList l p ;; add_props l' r end.
Fixpoint attach_props (l : chunk) (ps : list chunk) : M chunk :=
  match ps with [] => ret l | p :: r => l' <- addPropToList l p ;; attach_props l' r end.

Lemma attach_size : forall g c z e w, IFF_attachToGroup (set_chunkSize g z) c e w =
  match IFF_attachToGroup g c e w with Done (g', w') => Done (set_chunkSize g' z, w') | Undefined u => Undefined u | OutOfFuel => OutOfFuel end.
Proof.
  intros [i s d|i s t l|i s t pp l|i s v] c z e w; unfold IFF_attachToGroup, bind, undefined, lift; cbn [as_group set_chunkSize]; try reflexivity;
    unfold malloc; match goal with |- context [if ?b then ret _ else _] => destruct b end; reflexivity.
Qed.
Lemma set_size_twice : forall g y z, set_chunkSize (set_chunkSize g y) z = set_chunkSize g z.
Proof. destruct g; reflexivity. Qed.
Lemma set_own_size : forall g, set_chunkSize g (chunkSize g) = g.
Proof. destruct g; reflexivity. Qed.

Lemma add_attach : forall cs g e w c w', add_all g cs e w = Done (c, w') -> attach_all (set_chunkSize g (chunkSize c)) cs e w = Done (c, w').
Proof.
  induction cs as [|x r IH]; intros g e w c w' E; cbn [add_all attach_all] in *.
  - injection E as -> ->. unfold ret. rewrite set_own_size. reflexivity.
  - unfold bind in E |- *. rewrite attach_size. unfold IFF_addToGroup, bind in E. destruct (IFF_attachToGroup g x e w) as [[g' w1]|u|] eqn:A; try discriminate E.
    unfold lift in E. destruct (IFF_incrementChunkSize (chunkSize g') x) as [s|u|]; try discriminate E. unfold ret in E. apply IH in E. rewrite set_size_twice in E. exact E.
Qed.

Theorem C83_filled_as_grown : forall create empty cs e w g w1 c w',
  In (create, empty) [(IFF_createForm, IFF_createEmptyForm); (IFF_createProp, IFF_createEmptyProp);
                      (IFF_createCAT, IFF_createEmptyCATWithContentsType); (IFF_createList, IFF_createEmptyListWithContentsType)] ->
  forall type, empty type e w = Done (Some g, w1) -> add_all g cs e w1 = Done (c, w') ->
  exists g', create (chunkSize c) type e w = Done (Some g', w1) /\ attach_all g' cs e w1 = Done (c, w').
Proof.
  intros create empty cs e w g w1 c w' I type C A. exists (set_chunkSize g (chunkSize c)). split; [|exact (add_attach _ _ _ _ _ _ A)].
  revert C. cbn [In] in I. destruct I as [E|[E|[E|[E|[]]]]]; injection E as <- <-;
    unfold IFF_createForm, IFF_createEmptyForm, IFF_createProp, IFF_createEmptyProp, IFF_createCAT, IFF_createEmptyCATWithContentsType,
      IFF_createEmptyListWithContentsType, IFF_createList, IFF_createEmptyGroup, IFF_createGroup, bind, malloc, ret;
    match goal with |- context [if ?b then Some _ else _] => destruct b end; intro C; try discriminate C; injection C as <- <-; reflexivity.
Qed.
Print Assumptions C83_filled_as_grown.

Lemma attach_prop_size : forall g c z e w, addPropToList (set_chunkSize g z) c e w =
  match addPropToList g c e w with Done (g', w') => Done (set_chunkSize g' z, w') | Undefined u => Undefined u | OutOfFuel => OutOfFuel end.
Proof.
  intros [i s d|i s t l|i s t pp l|i s v] c z e w; unfold addPropToList, bind, undefined, lift; cbn [set_chunkSize]; try reflexivity;
    unfold malloc; match goal with |- context [if ?b then ret _ else _] => destruct b end; reflexivity.
Qed.
Lemma add_attach_props : forall cs g e w c w' z, add_props g cs e w = Done (c, w') -> attach_props (set_chunkSize g z) cs e w = Done (set_chunkSize c z, w').
Proof.
  induction cs as [|x r IH]; intros g e w c w' z E; cbn [add_props attach_props] in *.
  - injection E as -> ->. reflexivity.
  - unfold bind in E |- *. rewrite attach_prop_size. unfold IFF_addPropToList, bind in E. destruct (addPropToList g x e w) as [[g' w1]|u|] eqn:A; try discriminate E.
    unfold lift in E. destruct (IFF_incrementChunkSize (chunkSize g') x) as [s|u|]; try discriminate E. unfold ret in E. apply (IH _ _ _ _ _ z) in E. rewrite set_size_twice in E. exact E.
Qed.
Theorem C83_lists_with_properties : forall props cs type e w g w1 l w2 c w',
  IFF_createEmptyListWithContentsType type e w = Done (Some g, w1) -> add_props g props e w1 = Done (l, w2) -> add_all l cs e w2 = Done (c, w') ->
  exists g' l', IFF_createList (chunkSize c) type e w = Done (Some g', w1) /\ attach_props g' props e w1 = Done (l', w2) /\ attach_all l' cs e w2 = Done (c, w').
Proof.
  intros props cs type e w g w1 l w2 c w' C P A. exists (set_chunkSize g (chunkSize c)), (set_chunkSize l (chunkSize c)). split; [|split].
  - revert C. unfold IFF_createEmptyListWithContentsType, IFF_createList, bind, malloc, ret.
    match goal with |- context [if ?b then Some _ else _] => destruct b end; intro C; try discriminate C; injection C as <- <-; reflexivity.
  - apply add_attach_props. exact P.
  - apply add_attach. exact A.
Qed.
Print Assumptions C83_lists_with_properties.

(** What is announced must be right: a FORM announced too small is not a FORM
    that was grown. *)
Definition grown (type : Z) (cs : list chunk) : M (option chunk) :=
  g <- IFF_createEmptyForm type ;; match g with None => ret None | Some g => c <- add_all g cs ;; ret (Some c) end.
Definition filled (size type : Z) (cs : list chunk) : M (option chunk) :=
  g <- IFF_createForm size type ;; match g with None => ret None | Some g => c <- attach_all g cs ;; ret (Some c) end.
Definition result (m : M (option chunk)) : option chunk := match m (host false) (start []) with Done (c, _) => c | _ => None end.
Example C83_example :
  let cs := [raw "BODY" "xyz"; group "FORM" "TEST" []] in
  result (grown (ID_of "TEST") cs) = Some (group "FORM" "TEST" cs) /\ result (filled 28 (ID_of "TEST") cs) = Some (group "FORM" "TEST" cs) /\
  result (filled 27 (ID_of "TEST") cs) <> Some (group "FORM" "TEST" cs) /\ result (filled 27 (ID_of "TEST") cs) <> None.
Proof. cbv zeta. split; [vm_compute; reflexivity|]. split; [vm_compute; reflexivity|]. split; vm_compute; discriminate. Qed.
