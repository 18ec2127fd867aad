(** * Registries of application chunk types *)

From Coq Require Import ZArith List Bool String Lia.
From Coq Require Import Strings.Byte.
From Verif Require Import Machine Io Types Build Spec Lemmas RegProofs Ext ExtSpec.
Import ListNotations.
Open Scope Z_scope.

Lemma bsearch_find : forall A (arr : list (Z * A)) k, strictly_increasing (map fst arr) ->
  bsearch fst k arr = find (fun x => fst x =? k) arr.
Proof.
  intros A arr k S. destruct (bsearch_spec fst arr k (increasing_sorted _ _ _ S)) as [B1 B2].
  destruct (bsearch fst k arr) as [x|] eqn:B.
  - destruct (B1 x eq_refl) as [I K]. symmetry.
    destruct (find (fun y => fst y =? k) arr) as [y|] eqn:F.
    + apply find_some in F. destruct F as [J E]. apply Z.eqb_eq in E. f_equal.
      apply In_nth_error in I. apply In_nth_error in J. destruct I as [n I], J as [m J].
      pose proof (increasing_sorted _ _ _ S) as SO. destruct (Nat.lt_trichotomy n m) as [L|[->|L]].
      * specialize (SO n m x y L I J). lia.
      * congruence.
      * specialize (SO m n y x L J I). lia.
    + exfalso. apply (find_none _ _ F) in I. rewrite K, Z.eqb_refl in I. discriminate.
  - symmetry. destruct (find (fun y => fst y =? k) arr) as [y|] eqn:F; [|reflexivity].
    apply find_some in F. destruct F as [J E]. apply Z.eqb_eq in E. exfalso. exact (B2 eq_refl y J E).
Qed.

Fixpoint increasing (l : list Z) : bool :=
  match l with
  | [] => true
  | x :: r => forallb (fun y => x <? y) r && increasing r
  end.

Lemma increasing_spec : forall l, increasing l = true -> strictly_increasing l.
Proof.
  induction l as [|x l IH]; intros E i j a b L A B; [destruct i; discriminate|].
  cbn [increasing] in E. apply andb_true_iff in E. destruct E as [E1 E2].
  destruct j as [|j]; [lia|]. destruct i as [|i].
  - injection A as <-. rewrite forallb_forall in E1. apply Z.ltb_lt, E1. exact (nth_error_In l j B).
  - exact (IH E2 i j a b ltac:(lia) A B).
Qed.

Lemma find_map : forall A B (f : A -> B) (p : B -> bool) l, find p (map f l) = option_map f (find (fun x => p (f x)) l).
Proof. intros A B f p. induction l as [|x l IH]; [reflexivity|]. cbn. destruct (p (f x)); [reflexivity|exact IH]. Qed.

Section Reg.
  Context {U : Type}.

  Lemma global_handler : forall cid,
    xgetChunkType cid [@xglobalChunkTypes U] =
    if cid =? FORM_ID then Some (FORM_ID, XForm) else if cid =? CAT_ID then Some (CAT_ID, XCAT)
    else if cid =? LIST_ID then Some (LIST_ID, XLIST) else if cid =? PROP_ID then Some (PROP_ID, XProp) else None.
  Proof.
    intro cid. cbn [xgetChunkType]. rewrite bsearch_find by (apply increasing_spec; reflexivity).
    unfold xglobalChunkTypes. change IFF_ID_CAT with CAT_ID. change IFF_ID_FORM with FORM_ID.
    change IFF_ID_LIST with LIST_ID. change IFF_ID_PROP with PROP_ID.
    cbn [find fst]. rewrite !(Z.eqb_sym _ cid).
    destruct (Z.eqb_spec cid CAT_ID) as [->|]; [reflexivity|].
    destruct (Z.eqb_spec cid FORM_ID) as [->|]; [reflexivity|].
    destruct (Z.eqb_spec cid LIST_ID) as [->|]; [reflexivity|].
    destruct (Z.eqb_spec cid PROP_ID) as [->|]; reflexivity.
  Qed.

  Theorem registry_for_realises : forall forms : list (Z * app_table U), WellMade forms ->
    XRealises (registry_for forms) (exts_for forms).
  Proof.
    intros forms [SF ST] ft cid. unfold xfind_handler, registry_for, xextend, xexpected, exts_for. unfold app_table in *. cbn [xr_forms xr_global xr_default].
    rewrite bsearch_find by (rewrite map_map; cbn [fst]; exact SF).
    rewrite find_map. cbn [fst].
    destruct (find (fun f => fst f =? ft) forms) as [[f tbl]|] eqn:F; cbn [option_map snd fst].
    - apply find_some in F. destruct F as [I _]. destruct (ST f tbl I) as [S NG].
      cbn [xgetChunkType].
      rewrite (bsearch_find _ (map (fun t => (fst t, XCall (fst (snd t)))) tbl)) by (rewrite map_map; exact S).
      rewrite find_map. cbn [fst].
      destruct (find (fun t => fst t =? cid) tbl) as [[i [cb cd]]|] eqn:T; cbn [option_map snd fst].
      + apply find_some in T. destruct T as [J E]. cbn [fst] in E. apply Z.eqb_eq in E. subst i.
        specialize (NG cid (cb, cd) J). unfold group_ids in NG. cbn [In] in NG.
        rewrite !(proj2 (Z.eqb_neq _ _)) by (intro; apply NG; subst; auto). reflexivity.
      + pose proof (global_handler cid) as G. cbn [xgetChunkType] in G. rewrite G.
        destruct (cid =? FORM_ID); [reflexivity|]. destruct (cid =? CAT_ID); [reflexivity|].
        destruct (cid =? LIST_ID); [reflexivity|]. destruct (cid =? PROP_ID); reflexivity.
    - rewrite global_handler.
      destruct (cid =? FORM_ID); [reflexivity|]. destruct (cid =? CAT_ID); [reflexivity|].
      destruct (cid =? LIST_ID); [reflexivity|]. destruct (cid =? PROP_ID); reflexivity.
  Qed.

  Lemma exts_for_data : forall (forms : list (Z * app_table U)) ft i cb cd, WellMade forms ->
    exts_for forms ft i = Some (cb, cd) -> exists tbl, In (ft, tbl) forms /\ In (i, (cb, cd)) tbl.
  Proof.
    intros forms ft i cb cd _ E. unfold exts_for in E.
    destruct (find (fun f => fst f =? ft) forms) as [[f tbl]|] eqn:F; [|discriminate].
    apply find_some in F. destruct F as [I K]. cbn [fst snd] in *. apply Z.eqb_eq in K. subst f. exists tbl. split; [exact I|].
    destruct (find (fun t => fst t =? i) tbl) as [[j x]|] eqn:T; [|discriminate]. apply find_some in T.
    destruct T as [J K]. cbn [fst snd] in *. apply Z.eqb_eq in K. subst j. injection E as ->. exact J.
  Qed.
End Reg.
