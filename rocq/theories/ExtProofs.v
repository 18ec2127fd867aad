(** * Writing, checking, comparing, printing and freeing trees that hold chunks
    of an application *)

From Coq Require Import ZArith List Bool String Lia.
From Coq Require Import Strings.Byte.
From Verif Require Import Machine Io Types Build Read Write Check Compare Print Iff Spec Grammar Lemmas IoProofs
  RegProofs WriteProofs EncodeProofs CheckProofs CompareProofs HostProofs Ext ExtSpec ExtReadProofs.
Import ListNotations.
Open Scope Z_scope.

(** ** Views *)

Section Views.
  Context {U : Type} (ext : exts U).

  Lemma zlength_zeros : forall n, 0 <= n -> zlength (zeros n) = n.
  Proof. intros n H. unfold zeros, zlength. rewrite repeat_length. lia. Qed.

  Lemma ubody_length : forall (cd : codec U) i s u, Holds cd i s u -> zlength (ubody cd i s u) = s.
  Proof.
    intros cd i s u (_ & _ & L & _). unfold ubody. rewrite zlength_app, zlength_zeros by lia. lia.
  Qed.

  Lemma view_id : forall ft (x : xchunk U), chunkId (view ext ft x) = xid x.
  Proof. intros ft [i s d|i s g l|i s g p l|i s u]; reflexivity. Qed.
  Lemma view_size : forall ft (x : xchunk U), chunkSize (view ext ft x) = xsize x.
  Proof. intros ft [i s d|i s g l|i s g p l|i s u]; reflexivity. Qed.
  Lemma bare_id : forall x : xchunk U, chunkId (bare x) = xid x.
  Proof. intros [i s d|i s g l|i s g p l|i s u]; reflexivity. Qed.
  Lemma bare_size : forall x : xchunk U, chunkSize (bare x) = xsize x.
  Proof. intros [i s d|i s g l|i s g p l|i s u]; reflexivity. Qed.

  Lemma bare_group : forall ft (x : xchunk U),
    option_map fst (as_group (bare x)) = option_map fst (as_group (view ext ft x)).
  Proof. intros ft [i s d|i s g l|i s g p l|i s u]; reflexivity. Qed.

  Lemma increment_view : forall bp ft x, IFF_incrementChunkSize bp (bare x) = IFF_incrementChunkSize bp (view ext ft x).
  Proof. intros. unfold IFF_incrementChunkSize. rewrite bare_size, view_size. reflexivity. Qed.

  Lemma XTyped_Typed : forall (x : xchunk U) ft, XTyped ext ft x -> Typed no_apps ft (view ext ft x).
  Proof.
    induction x as [i s d|i s g subs IH|i s g props subs IHp IHs|i s u] using xchunk_tree_ind; intros ft T;
      inversion T; subst; cbn [view].
    - constructor; [assumption|reflexivity].
    - constructor; [assumption|]. intros c I. apply in_map_iff in I. destruct I as (y & <- & I). auto.
    - constructor; intros c I; apply in_map_iff in I; destruct I as (y & <- & I); [|auto].
      match goal with A : forall c, In c props -> _ |- _ => destruct (A y I) as [A1 A2] end.
      split; [auto|]. rewrite view_id. assumption.
    - constructor; [assumption|reflexivity].
  Qed.

  (** What is in a view can be decoded again. *)
  Lemma all_some_map : forall A B (f : A -> option B) (g : B -> A) l,
    (forall y, In y l -> f (g y) = Some y) -> all_some (map f (map g l)) = Some l.
  Proof.
    intros A B f g. induction l as [|y l IH]; intro H; [reflexivity|].
    cbn [map all_some]. rewrite H by (left; reflexivity). rewrite IH by (intros; apply H; right; assumption). reflexivity.
  Qed.

  Lemma decode_view : forall (x : xchunk U) ft, XTyped ext ft x -> WF no_apps ft (view ext ft x) ->
    decode ext ft (view ext ft x) = Some x.
  Proof.
    induction x as [i s d|i s g subs IH|i s g props subs IHp IHs|i s u] using xchunk_tree_ind; intros ft T W;
      inversion T; subst; cbn [view] in *; inversion W; subst; cbn [decode].
    - match goal with A : ext ft i = None |- _ => rewrite A end. reflexivity.
    - rewrite all_some_map; [reflexivity|]. intros y I. apply IH; auto.
      match goal with A : forall c, In c (map _ _) -> _ |- _ => apply A, in_map; assumption end.
    - rewrite !all_some_map; [reflexivity| |].
      + intros y I. apply IHs; auto.
        match goal with A : forall c, In c (map _ subs) -> _ |- _ => apply A, in_map; assumption end.
      + intros y I. apply IHp; auto.
        * match goal with A : forall c, In c props -> _ |- _ => apply A; assumption end.
        * match goal with A : forall c, In c (map _ props) -> _ |- _ => apply A, in_map; assumption end.
    - match goal with A : ext ft i = Some _ |- _ => rewrite A in * end.
      match goal with A : Holds _ _ _ _ |- _ => destruct A as (_ & _ & _ & D) end.
      match goal with A : Some _ = Some _ |- _ => injection A as -> end.
      rewrite D. reflexivity.
  Qed.

  Lemma Sized_view : forall (x : xchunk U) ft, XTyped ext ft x -> Sized ext ft (view ext ft x).
  Proof.
    induction x as [i s d|i s g subs IH|i s g props subs IHp IHs|i s u] using xchunk_tree_ind; intros ft T;
      inversion T; subst; cbn [view]; constructor.
    - intros. congruence.
    - intros c I. apply in_map_iff in I. destruct I as (y & <- & I). auto.
    - intros c I. apply in_map_iff in I. destruct I as (y & <- & I). apply IHp; [assumption|].
      match goal with A : forall c, In c props -> _ |- _ => apply A; assumption end.
    - intros c I. apply in_map_iff in I. destruct I as (y & <- & I). auto.
    - intros cb0 cd0 E. match goal with A : Holds _ _ _ _ |- _ => destruct A as (A & _) end. congruence.
  Qed.

  Lemma XTyped_prop : forall ft ft' (x : xchunk U), XTyped ext ft x -> xid x = PROP_ID ->
    XTyped ext ft' x /\ exists s g subs, x = XGroup PROP_ID s g subs.
  Proof.
    intros ft ft' x T E. destruct T as [ft i s d N A|ft i s u cb cd N A H|ft i s g subs GI TS|ft s g props subs TP TS];
      cbn [xid] in E; subst.
    - exfalso. apply N. unfold group_ids. simpl. auto.
    - exfalso. apply N. unfold group_ids. simpl. auto.
    - split; [constructor; assumption|]. exists s, g, subs. reflexivity.
    - discriminate.
  Qed.
End Views.

Section Sim.
  Context {U : Type} (rg : xregistry U) (ext : exts U) (e : env) (rg0 : option registry).
  Hypothesis RG : XRealises rg ext.
  Hypothesis HO : AllHonour ext.
  Hypothesis US : usual e.
  Hypothesis RG0 : Realises rg0 no_apps.

  Let NS : strict_c e = false := not_strict e US.

  Lemma alike_self : alike e e.
  Proof. constructor; auto. Qed.

  (** The same streams. *)
  Definition V (w wx : world) : Prop := w_in w = w_in wx /\ w_out w = w_out wx.

  (** Both runs have the same result and the same effect on the streams. *)
  Definition sim {A} (mb mx : M A) : Prop := forall w wx, V w wx ->
    match mb e w, mx e wx with
    | Done (a, v), Done (b, vx) => a = b /\ V v vx
    | Undefined u1, Undefined u2 => u1 = u2
    | OutOfFuel, OutOfFuel => True
    | _, _ => False
    end.

  Lemma sim_same : forall A (m1 m2 : M A), same e e false m1 m2 -> sim m1 m2.
  Proof.
    intros A m1 m2 H w wx [I O]. specialize (H w wx). unfold W in H.
    specialize (H ltac:(split; [exact I|split; [exact O|split; exact US]])).
    destruct (m1 e w) as [[a v]|u|]; destruct (m2 e wx) as [[b vx]|u2|]; try exact H.
    destruct H as (E & (I2 & O2 & _) & _). split; [exact E|]. split; assumption.
  Qed.

  Lemma sim_ret : forall A (a : A), sim (ret a) (ret a).
  Proof. intros A a w wx H. split; [reflexivity|exact H]. Qed.
  Lemma sim_lift : forall A (o : outcome A), sim (lift o) (lift o).
  Proof. intros. apply sim_same. apply same_lift. Qed.
  Lemma sim_bind : forall A B (m1 m2 : M A) (k1 k2 : A -> M B), sim m1 m2 -> (forall a, sim (k1 a) (k2 a)) ->
    sim (bind m1 k1) (bind m2 k2).
  Proof.
    intros A B m1 m2 k1 k2 H K w wx HV. specialize (H w wx HV). unfold bind.
    destruct (m1 e w) as [[a v1]|u1|]; destruct (m2 e wx) as [[b v2]|u2|]; try contradiction; try exact H.
    destruct H as (<- & HV2). exact (K a v1 v2 HV2).
  Qed.
  Lemma sim_andM : forall a1 a2 b1 b2, sim a1 a2 -> sim b1 b2 -> sim (andM a1 b1) (andM a2 b2).
  Proof. intros a1 a2 b1 b2 H K. apply sim_bind; [exact H|]. intros []; [exact K|apply sim_ret]. Qed.
  Lemma sim_error : forall s, sim (IFF_error s) (IFF_error s).
  Proof. intros. apply sim_same, same_error. Qed.

  (** ** Writing *)

  Lemma sim_write_all : forall msg ft (l : list (xchunk U)),
    (forall c, In c l -> sim (IFF_writeChunk rg0 (view ext ft c) ft) (xwriteChunk rg c ft)) ->
    forall bp, sim (write_all (IFF_writeChunk rg0) msg (map (view ext ft) l) ft bp)
                   (xwrite_all (xwriteChunk rg) msg l ft bp).
  Proof.
    intros msg ft. induction l as [|c l IH]; intros H bp; cbn [map write_all xwrite_all]; [apply sim_ret|].
    apply sim_bind; [apply H; left; reflexivity|]. intros [].
    - apply sim_bind; [rewrite (increment_view ext bp ft c); apply sim_lift|]. intro. apply IH. intros; apply H; right; assumption.
    - apply sim_bind; [apply sim_error|]. intro. apply sim_ret.
  Qed.

  (** The body of a chunk of the application, with what fills it up: the same
      bytes as those of the raw chunk. *)
  Lemma emits_run : forall m l w, emits e m l -> exists w1,
    m e w = Done (fst (put_bytes l (w_out w)), w1) /\ w_in w1 = w_in w /\ w_out w1 = snd (put_bytes l (w_out w)).
  Proof. intros m l w H. destruct (H w) as (lg & n & E & _). rewrite E. eexists. split; [reflexivity|auto]. Qed.

  Lemma raw_body_run : forall ft i s body w, ~ In i group_ids -> 0 <= s <= INT_MAX -> zlength body = s ->
    exists w1, V (mkWorld (w_in w) (snd (put_bytes body (w_out w))) [] O) w1 /\
      writeChunkBody (IFF_writeChunk rg0) rg0 (CRaw i s (Some body)) ft e w
      = if fst (put_bytes body (w_out w)) then IFF_writePaddingByte s i e w1 else Done (false, w1).
  Proof.
    intros ft i s body w N SB BL.
    assert (BB : block_bytes (Some body) (wrap_u (size_t_bits e) s) = Done body).
    { rewrite wrap_size_id by (unfold INT_MAX in *; lia). unfold block_bytes. destruct (Z.leb_spec s 0) as [L|L].
      - assert (zlength body = 0) as Z0 by lia. apply zlength_0 in Z0. rewrite Z0. reflexivity.
      - rewrite (proj2 (Z.ltb_ge _ _)) by lia. rewrite ztake_all by lia. reflexivity. }
    set (wb := mkWorld (w_in w) (snd (put_bytes body (w_out w))) (w_log w) (w_allocs w)).
    unfold writeChunkBody. cbn [chunkId chunkSize]. rewrite (bind_lift _ _ _ _ _ _ _ (RG0 ft i)).
    rewrite handler_data by assumption. unfold no_apps. cbn [writeExtensionChunkFields].
    unfold IFF_writeRawChunk. rewrite bind_assoc. rewrite (bind_done _ _ _ _ _ w e w) by reflexivity.
    rewrite bind_assoc, (bind_lift _ _ _ _ _ _ _ BB). rewrite bind_assoc.
    assert (FW : fwrite body e w = Done (fst (put_bytes body (w_out w)), wb)) by (rewrite fwrite_put, put_split; reflexivity).
    rewrite (bind_done _ _ _ _ _ _ _ _ FW).
    destruct (fst (put_bytes body (w_out w))).
    - exists wb. split; [split; reflexivity|]. rewrite (proj2 (Z.ltb_ge _ _)) by lia. rewrite bind_ret.
      unfold andM. rewrite bind_ret. unfold IFF_writeZeroFillerBytes. rewrite Z.add_0_l, Z.ltb_irrefl. reflexivity.
    - exists (add_log [("'" ++ nl)%string] (add_log (id_log i) (add_log ["Error writing raw chunk body of chunk '"%string] wb))).
      split; [split; reflexivity|]. unfold bind, IFF_error, andM, ret. rewrite run_errorId. reflexivity.
  Qed.

  Lemma user_body_run : forall ft i s u cb cd wx, ~ In i group_ids -> ext ft i = Some (cb, cd) -> Holds cd i s u ->
    exists w1, V (mkWorld (w_in wx) (snd (put_bytes (ubody cd i s u) (w_out wx))) [] O) w1 /\
      xwriteChunkBody (xwriteChunk rg) rg (XUser i s u) ft e wx
      = if fst (put_bytes (ubody cd i s u) (w_out wx)) then IFF_writePaddingByte s i e w1 else Done (false, w1).
  Proof.
    intros ft i s u cb cd wx N EX HD. pose proof HD as (_ & SB & EL & _).
    unfold xwriteChunkBody. cbn [xid xsize]. rewrite (bind_lift _ _ _ _ _ _ _ (RG ft i)).
    rewrite xexpected_data, EX by assumption. cbn [xwriteExtensionChunkFields].
    destruct (h_write cb cd (HO ft i cb cd EX) i s u e wx US HD) as (ok & k & wx1 & E1 & P1 & I1 & K1).
    rewrite (bind_done _ _ _ _ _ _ _ _ E1). unfold ubody. rewrite put_bytes_app, <- P1.
    unfold andM at 1. rewrite bind_ret. destruct ok.
    - specialize (K1 eq_refl). subst k. pose proof (zlength_nonneg _ (co_enc cd i s u)) as NN.
      destruct (emits_run _ _ wx1 (emits_filler e i s (zlength (co_enc cd i s u)) US NN ltac:(lia))) as (wx2 & E2 & I2 & O2).
      exists wx2. split; [split; cbn; congruence|]. unfold andM. rewrite (bind_done _ _ _ _ _ _ _ _ E2).
      destruct (fst _); reflexivity.
    - exists wx1. split; [split; cbn; congruence|reflexivity].
  Qed.

  Lemma sim_user_body : forall ft i s u cb cd, ~ In i group_ids -> ext ft i = Some (cb, cd) -> Holds cd i s u ->
    sim (writeChunkBody (IFF_writeChunk rg0) rg0 (CRaw i s (Some (ubody cd i s u))) ft)
        (xwriteChunkBody (xwriteChunk rg) rg (XUser i s u) ft).
  Proof.
    intros ft i s u cb cd N EX HD w wx [I O].
    destruct (raw_body_run ft i s (ubody cd i s u) w N ltac:(apply HD) (ubody_length cd i s u HD)) as (w1 & [A1 B1] & ->).
    destruct (user_body_run ft i s u cb cd wx N EX HD) as (w2 & [A2 B2] & ->).
    cbn [w_in w_out] in *. rewrite O in *.
    assert (HV : V w1 w2) by (split; congruence).
    destruct (fst (put_bytes (ubody cd i s u) (w_out wx))).
    - apply (sim_same _ _ _ (same_writePad e e false s i)). exact HV.
    - split; [reflexivity|exact HV].
  Qed.

  Lemma sim_writeField : forall k v i s n b, sim (IFF_writeField k v i s n b) (IFF_writeField k v i s n b).
  Proof. intros. apply sim_same, same_writeField, alike_self. Qed.

  Lemma sim_close : forall i s ok bp,
    sim (andM (ret ok) (andM (IFF_writeZeroFillerBytes i s bp) (IFF_writePaddingByte s i)))
        (andM (ret ok) (andM (IFF_writeZeroFillerBytes i s bp) (IFF_writePaddingByte s i))).
  Proof.
    intros. apply sim_andM; [apply sim_ret|].
    apply sim_andM; [apply sim_same, same_zero, alike_self|apply sim_same, same_writePad].
  Qed.

  Lemma sim_found : forall A H1 H2 (h1 : H1) (h2 : H2) (k1 : H1 -> M A) (k2 : H2 -> M A),
    sim (k1 h1) (k2 h2) -> sim (bind (lift (Done h1)) k1) (bind (lift (Done h2)) k2).
  Proof. intros A H1 H2 h1 h2 k1 k2 H w wx HV. exact (H w wx HV). Qed.

  Lemma sim_writeGroup : forall n i s g subs,
    (forall c, In c subs -> sim (IFF_writeChunk rg0 (view ext g c) g) (xwriteChunk rg c g)) ->
    sim (IFF_writeGroup (IFF_writeChunk rg0) (CGroup i s g (map (view ext g) subs)) n 0)
        (xwriteGroup (xwriteChunk rg) (XGroup i s g subs) n 0).
  Proof.
    intros n i s g subs H. cbn [IFF_writeGroup xwriteGroup]. apply sim_bind; [apply sim_writeField|].
    intros [[] bp]; try apply sim_ret. apply sim_write_all. assumption.
  Qed.

  Theorem sim_write : forall (x : xchunk U) ft, XTyped ext ft x ->
    sim (IFF_writeChunk rg0 (view ext ft x) ft) (xwriteChunk rg x ft).
  Proof.
    induction x as [i s d|i s g subs IH|i s g props subs IHp IHs|i s u] using xchunk_tree_ind; intros ft T;
      inversion T; subst; cbn [view IFF_writeChunk xwriteChunk chunkId chunkSize xid xsize];
      (apply sim_andM; [apply sim_same, (same_writeId _ _ _ alike_self)|]);
      (apply sim_andM; [apply sim_same, (same_writeLong _ _ _ alike_self)|]).
    - unfold writeChunkBody, xwriteChunkBody. cbn [chunkId chunkSize xid xsize]. rewrite RG0, RG.
      rewrite handler_data, xexpected_data by assumption. unfold no_apps at 1.
      match goal with A : ext ft i = None |- _ => rewrite A end.
      apply sim_found. cbn [writeExtensionChunkFields xwriteExtensionChunkFields].
      apply sim_bind; [apply sim_same, same_writeRaw, alike_self|]. intros [ok bp]. apply sim_close.
    - unfold writeChunkBody, xwriteChunkBody. cbn [chunkId chunkSize xid xsize]. rewrite RG0, RG.
      assert (G : forall n, sim (IFF_writeGroup (IFF_writeChunk rg0) (CGroup i s g (map (view ext g) subs)) n 0)
                                (xwriteGroup (xwriteChunk rg) (XGroup i s g subs) n 0))
        by (intro n; apply sim_writeGroup; auto).
      match goal with A : In i _ |- _ => destruct A as [<-|[<-|[<-|[]]]] end.
      + rewrite handler_FORM, xexpected_FORM. apply sim_found. apply sim_bind; [apply G|]. intros [ok bp]. apply sim_close.
      + rewrite handler_CAT, xexpected_CAT. apply sim_found. apply sim_bind; [apply G|]. intros [ok bp]. apply sim_close.
      + rewrite handler_PROP, xexpected_PROP. apply sim_found. apply sim_bind; [apply G|]. intros [ok bp]. apply sim_close.
    - unfold writeChunkBody, xwriteChunkBody. cbn [chunkId chunkSize xid xsize]. rewrite RG0, RG.
      rewrite handler_LIST, xexpected_LIST. apply sim_found.
      cbn [writeExtensionChunkFields xwriteExtensionChunkFields IFF_writeList xwriteList].
      apply sim_bind; [|intros [ok bp]; apply sim_close].
      apply sim_bind; [apply sim_writeField|]. intros [[] bp]; try apply sim_ret.
      match goal with A : forall c, In c props -> _ |- _ => rename A into TP end.
      apply sim_bind.
      + unfold writeListPropChunks. replace (map (view ext g) props) with (map (view ext 0) props).
        2:{ apply map_ext_in. intros c I. destruct (TP c I) as [T1 T2].
            destruct (XTyped_prop ext g 0 c T1 T2) as (_ & s' & g' & subs' & ->). reflexivity. }
        apply sim_write_all. intros c I. destruct (TP c I) as [T1 T2]. apply IHp; [assumption|].
        apply (XTyped_prop ext g 0 c T1 T2).
      + intros [[] bp2]; [|apply sim_ret]. apply sim_write_all. auto.
    - match goal with A : ext ft i = Some _ |- _ => rewrite A end. eapply sim_user_body; eassumption.
  Qed.

  (** ** Checking *)

  (** Where the check of the view has verdict [v], the application's has [v]
      too, unless [good] is false. *)
  Definition chk (mb mx : M bool) (good : bool) : Prop := forall w wx v w1, V w wx ->
    mb e w = Done (v, w1) -> exists wx1, mx e wx = Done (v && good, wx1) /\ V w wx1.

  Lemma V_trans : forall w1 w2 w3, V w2 w1 -> V w2 w3 -> V w1 w3.
  Proof. intros w1 w2 w3 [A B] [C D]. split; congruence. Qed.

  Lemma V_log : forall w wx lg, V (add_log lg w) wx -> V w wx.
  Proof. intros w wx lg [A B]. split; assumption. Qed.

  (** A step that both runs take. *)
  Lemma common : forall m w wx v w1, Verdict m -> same e e false m m -> V w wx -> m e w = Done (v, w1) ->
    V w w1 /\ exists wx1, m e wx = Done (v, wx1) /\ V w wx1.
  Proof.
    intros m w wx v w1 VM SM HV E. pose proof (VM e w) as A. rewrite E in A. destruct A as (lg & -> & _).
    pose proof (sim_same _ _ _ SM w wx HV) as B. rewrite E in B.
    destruct (m e wx) as [[b vx]| |]; try contradiction. destruct B as [<- B].
    split; [split; reflexivity|]. exists vx. split; [reflexivity|]. eapply V_log; exact B.
  Qed.

  (** The loops over members. *)
  Lemma chk_subs : forall (ck : chunk -> Z -> M bool) xck sub xsub g (l : list (xchunk U)),
    (forall c, In c l -> xsub (bare c) = sub (view ext g c)) ->
    (forall c, Verdict (sub c)) -> (forall c, same e e false (sub c) (sub c)) ->
    (forall c, In c l -> Verdict (ck (view ext g c) g)) ->
    (forall c, In c l -> chk (ck (view ext g c) g) (xck c g) (all_good ext g c)) ->
    forall acc w wx z w1, V w wx ->
    check_subs ck sub (map (view ext g) l) g acc e w = Done (z, w1) ->
    exists wx1, xcheck_subs xck xsub l g acc e wx
      = Done (if forallb (all_good ext g) l then z else -1, wx1) /\ V w wx1 /\ V w w1.
  Proof.
    intros ck xck sub xsub g. induction l as [|c l IH]; intros SUB VS SS VC CK acc w wx z w1 HV E.
    - cbn in E. injection E as <- <-. exists wx. split; [reflexivity|]. split; [exact HV|split; reflexivity].
    - cbn [map check_subs xcheck_subs forallb] in *. rewrite (SUB c (or_introl eq_refl)).
      unfold bind at 1 in E. destruct (sub (view ext g c) e w) as [[b1 v1]| |] eqn:E1; try discriminate.
      destruct (common _ _ _ _ _ (VS _) (SS _) HV E1) as (W1 & wx1 & X1 & HV1).
      unfold bind at 1. rewrite X1. destruct b1; cbn [negb] in *.
      2:{ cbn in E. injection E as <- <-. exists wx1. split; [destruct (_ && _); reflexivity|]. auto. }
      unfold bind at 1 in E. destruct (ck (view ext g c) g e v1) as [[b2 v2]| |] eqn:E2; try discriminate.
      assert (HV1' : V v1 wx1) by (eapply V_trans; [exact W1|]; assumption).
      destruct (CK c (or_introl eq_refl) _ _ _ _ HV1' E2) as (wx2 & X2 & HV2).
      pose proof (VC c (or_introl eq_refl) e v1) as W2. rewrite E2 in W2. destruct W2 as (lg & -> & _).
      unfold bind at 1. rewrite X2.
      assert (WW : V w (add_log lg v1)) by (destruct W1 as [A B]; split; assumption).
      assert (WX2 : V w wx2) by (destruct W1 as [A B], HV2 as [C D]; split; congruence).
      destruct b2; cbn [negb andb] in *.
      2:{ cbn in E. injection E as <- <-. exists wx2. split; [destruct (_ && _); reflexivity|]. auto. }
      unfold bind at 1, lift in E.
      destruct (IFF_incrementChunkSize acc (view ext g c)) as [a| |] eqn:INC; try discriminate.
      destruct (IH (fun c I => SUB c (or_intror I)) VS SS (fun c I => VC c (or_intror I)) (fun c I => CK c (or_intror I))
                  a (add_log lg v1) wx2 z w1 HV2 E) as (wx3 & X3 & HV3 & W3).
      destruct (all_good ext g c); cbn [negb andb].
      + exists wx3. split; [|split; [eapply V_trans; [|exact HV3]; destruct WW; split; congruence|destruct WW, W3; split; congruence]].
        unfold bind at 1, lift. rewrite (increment_view ext acc g c), INC. exact X3.
      + exists wx2. split; [reflexivity|]. split; [exact WX2|destruct WW, W3; split; congruence].
  Qed.

  Lemma sub_form : forall i s g (subs : list (xchunk U)) g2 (c : xchunk U) ft,
    form_subChunkCheck (bare (XGroup i s g subs)) (bare c) = form_subChunkCheck (CGroup i s g g2) (view ext ft c).
  Proof. intros. unfold form_subChunkCheck. rewrite bare_id, view_id. reflexivity. Qed.
  Lemma sub_prop : forall i s g (subs : list (xchunk U)) g2 (c : xchunk U) ft,
    prop_subChunkCheck (bare (XGroup i s g subs)) (bare c) = prop_subChunkCheck (CGroup i s g g2) (view ext ft c).
  Proof. intros. unfold prop_subChunkCheck. rewrite bare_id, view_id. reflexivity. Qed.
  Lemma sub_cat : forall b1 b2 (c : xchunk U) ft, option_map fst (as_group b1) = option_map fst (as_group b2) ->
    IFF_checkCATSubChunk b1 (bare c) = IFF_checkCATSubChunk b2 (view ext ft c).
  Proof.
    intros b1 b2 c ft E. unfold IFF_checkCATSubChunk. rewrite bare_id, view_id.
    pose proof (bare_group ext ft c) as G.
    destruct (as_group b1) as [[t1 l1]|], (as_group b2) as [[t2 l2]|]; cbn in E; try discriminate; [|reflexivity].
    injection E as <-.
    destruct (as_group (bare c)) as [[t3 l3]|], (as_group (view ext ft c)) as [[t4 l4]|]; cbn in G; try discriminate;
      [injection G as <-|]; reflexivity.
  Qed.

  Lemma same_formSub : forall g c, same e e false (form_subChunkCheck g c) (form_subChunkCheck g c).
  Proof. intros. unfold form_subChunkCheck. destruct (_ =? _); [apply same_notAllowed|apply same_ret]. Qed.
  Lemma same_propSub : forall g c, same e e false (prop_subChunkCheck g c) (prop_subChunkCheck g c).
  Proof. intros. unfold prop_subChunkCheck. destruct (_ || _); [apply same_notAllowed|apply same_ret]. Qed.

  (** Checking a group, its type and its members. *)
  Lemma chk_group : forall tc sc i s g subs,
    (forall t, Verdict (tc t)) -> (forall t, same e e false (tc t) (tc t)) ->
    (forall p c, Verdict (sc p c)) -> (forall p c, same e e false (sc p c) (sc p c)) ->
    (forall c, In c subs -> sc (bare (XGroup i s g subs)) (bare c) = sc (CGroup i s g (map (view ext g) subs)) (view ext g c)) ->
    (forall c, In c subs -> chk (IFF_checkChunk rg0 (view ext g c) g) (xcheckChunk rg c g) (all_good ext g c)) ->
    chk (IFF_checkGroup (IFF_checkChunk rg0) tc sc (CGroup i s g (map (view ext g) subs)))
        (xcheckGroup (xcheckChunk rg) tc sc (XGroup i s g subs)) (forallb (all_good ext g) subs).
  Proof.
    intros tc sc i s g subs VT ST VS SS SUB CK w wx v w1 HV E.
    cbn [IFF_checkGroup xcheckGroup] in *.
    unfold bind at 1 in E. destruct (tc g e w) as [[b1 v1]| |] eqn:E1; try discriminate.
    destruct (common _ _ _ _ _ (VT g) (ST g) HV E1) as (W1 & wx1 & X1 & HV1).
    unfold bind at 1. rewrite X1. destruct b1; cbn [negb] in *.
    2:{ cbn in E. injection E as <- <-. exists wx1. split; [reflexivity|]. exact HV1. }
    unfold bind at 1 in E.
    destruct (check_subs (IFF_checkChunk rg0) (sc (CGroup i s g (map (view ext g) subs))) (map (view ext g) subs) g 0 e v1)
      as [[z v2]| |] eqn:E2; try discriminate.
    assert (HV1' : V v1 wx1) by (eapply V_trans; [exact W1|]; assumption).
    destruct (chk_subs (IFF_checkChunk rg0) (xcheckChunk rg) (sc (CGroup i s g (map (view ext g) subs)))
      (sc (bare (XGroup i s g subs))) g subs SUB (VS _) (SS _) ltac:(intros; apply checkChunk_verdict) CK 0 v1 wx1 z v2 HV1' E2)
      as (wx2 & X2 & HV2 & W2).
    unfold bind at 1. rewrite X2.
    assert (WX2 : V w wx2) by (destruct W1 as [A B], HV2 as [C D]; split; congruence).
    destruct (forallb (all_good ext g) subs).
    - rewrite andb_true_r. destruct (z =? -1).
      + cbn in E. injection E as <- <-. exists wx2. split; [reflexivity|]. exact WX2.
      + unfold bind at 1, lift in E. unfold bind at 1, lift.
        destruct (add_int z IFF_ID_SIZE) as [a| |]; try discriminate.
        change (IFF_checkGroupChunkSize (bare (XGroup i s g subs)) a)
          with (IFF_checkGroupChunkSize (CGroup i s g (map (view ext g) subs)) a).
        assert (HV2' : V v2 wx2) by (destruct HV2, W2; split; congruence).
        destruct (common _ _ _ _ _ (groupSize_verdict _ _) (same_checkSize e e false _ _) HV2' E) as (W3 & wx3 & X3 & HV3).
        exists wx3. split; [exact X3|]. destruct WX2, HV2', HV3. split; congruence.
    - rewrite andb_false_r. exists wx2. split; [reflexivity|exact WX2].
  Qed.

  Theorem chk_check : forall (x : xchunk U) ft, XTyped ext ft x ->
    chk (IFF_checkChunk rg0 (view ext ft x) ft) (xcheckChunk rg x ft) (all_good ext ft x).
  Proof.
    assert (START : forall x ft h xh good,
      find_handler rg0 ft (xid x) = Done h -> xfind_handler rg ft (xid x) = Done xh ->
      chk (checkExtensionChunk (IFF_checkChunk rg0) h (view ext ft x)) (xcheckExtensionChunk (xcheckChunk rg) xh x) good ->
      chk (IFF_checkChunk rg0 (view ext ft x) ft) (xcheckChunk rg x ft) good).
    { intros x ft h xh good FH FX C w wx v w1 HV E.
      assert (EB : IFF_checkChunk rg0 (view ext ft x) ft = (ok <- IFF_checkId (xid x) ;;
         if negb ok then ret false else h <- lift (find_handler rg0 ft (xid x)) ;; checkExtensionChunk (IFF_checkChunk rg0) h (view ext ft x))).
      { rewrite <- (view_id ext ft x). destruct (view ext ft x); reflexivity. }
      assert (EX : xcheckChunk rg x ft = (ok <- IFF_checkId (xid x) ;;
         if negb ok then ret false else h <- lift (xfind_handler rg ft (xid x)) ;; xcheckExtensionChunk (xcheckChunk rg) h x))
        by (destruct x; reflexivity).
      rewrite EB in E. rewrite EX. clear EB EX.
      unfold bind at 1 in E. destruct (IFF_checkId (xid x) e w) as [[b1 v1]| |] eqn:E1; try discriminate.
      destruct (common _ _ _ _ _ (checkId_verdict _) (same_checkId e e false _) HV E1) as (W1 & wx1 & X1 & HV1).
      unfold bind at 1. rewrite X1. destruct b1; cbn [negb] in *.
      2:{ cbn in E. injection E as <- <-. exists wx1. split; [reflexivity|]. exact HV1. }
      rewrite FH in E. rewrite FX. unfold bind at 1, lift in E. unfold bind at 1, lift.
      assert (HV1' : V v1 wx1) by (eapply V_trans; [exact W1|]; assumption).
      destruct (C v1 wx1 v w1 HV1' E) as (wx2 & X2 & HV2). exists wx2. split; [exact X2|].
      destruct W1, HV2. split; congruence. }
    induction x as [i s d|i s g subs IH|i s g props subs IHp IHs|i s u] using xchunk_tree_ind; intros ft T;
      inversion T; subst.
    - eapply START; [apply RG0|apply RG|]. cbn [xid]. rewrite handler_data, xexpected_data by assumption. unfold no_apps at 1.
      match goal with A : ext ft i = None |- _ => rewrite A end. cbn [checkExtensionChunk xcheckExtensionChunk all_good].
      intros w wx v w1 HV E. cbn in E. injection E as <- <-. exists wx. split; [reflexivity|exact HV].
    - eapply START; [apply RG0|apply RG|]. cbn [xid all_good].
      match goal with A : In i _ |- _ => destruct A as [<-|[<-|[<-|[]]]] end.
      + rewrite handler_FORM, xexpected_FORM. apply chk_group; auto.
        * apply checkFormType_verdict.
        * apply (same_checkFormType e e false).
        * apply form_sub_verdict.
        * apply same_formSub.
        * intros. apply sub_form.
      + rewrite handler_CAT, xexpected_CAT. apply chk_group; auto.
        * apply checkId_verdict.
        * apply (same_checkId e e false).
        * apply cat_sub_verdict.
        * apply same_catSub.
        * intros. apply sub_cat. reflexivity.
      + rewrite handler_PROP, xexpected_PROP. apply chk_group; auto.
        * apply checkFormType_verdict.
        * apply (same_checkFormType e e false).
        * apply prop_sub_verdict.
        * apply same_propSub.
        * intros. apply sub_prop.
    - eapply START; [apply RG0|apply RG|]. cbn [xid all_good]. rewrite handler_LIST, xexpected_LIST.
      match goal with A : forall c, In c props -> _ |- _ => rename A into TP end.
      match goal with A : forall c, In c subs -> _ |- _ => rename A into TS end.
      intros w wx v w1 HV E.
      cbn [checkExtensionChunk xcheckExtensionChunk view IFF_checkList xcheckList] in *.
      unfold bind at 1 in E. destruct (IFF_checkId g e w) as [[b1 v1]| |] eqn:E1; try discriminate.
      destruct (common _ _ _ _ _ (checkId_verdict g) (same_checkId e e false g) HV E1) as (W1 & wx1 & X1 & HV1).
      unfold bind at 1. rewrite X1. destruct b1; cbn [negb] in *.
      2:{ cbn in E. injection E as <- <-. exists wx1. split; [reflexivity|]. exact HV1. }
      unfold bind at 1, checkListPropChunks at 1 in E.
      destruct (check_subs (IFF_checkChunk rg0) (fun _ => ret true) (map (view ext g) props) g 0 e v1)
        as [[z v2]| |] eqn:E2; try discriminate.
      assert (HV1' : V v1 wx1) by (eapply V_trans; [exact W1|]; assumption).
      destruct (chk_subs (IFF_checkChunk rg0) (xcheckChunk rg) (fun _ => ret true) (fun _ => ret true) g props
        ltac:(reflexivity) ltac:(intros; apply Verdict_true) ltac:(intros; apply same_ret)
        ltac:(intros; apply checkChunk_verdict) ltac:(intros c I; apply IHp; [assumption|apply TP; assumption])
        0 v1 wx1 z v2 HV1' E2) as (wx2 & X2 & HV2 & W2).
      unfold bind at 1. rewrite X2.
      assert (WX2 : V w wx2) by (destruct W1 as [A B], HV2 as [C D]; split; congruence).
      destruct (forallb (all_good ext g) props); cbn [andb].
      2:{ rewrite andb_false_r. exists wx2. split; [reflexivity|exact WX2]. }
      destruct (z =? -1).
      { cbn in E. injection E as <- <-. exists wx2. split; [reflexivity|]. exact WX2. }
      unfold bind at 1, lift in E. unfold bind at 1, lift.
      destruct (add_int IFF_ID_SIZE z) as [size1| |]; try discriminate.
      set (LV := CList LIST_ID s g (map (view ext g) props) (map (view ext g) subs)) in *.
      unfold bind at 1 in E.
      destruct (check_subs (IFF_checkChunk rg0) (IFF_checkCATSubChunk LV) (map (view ext g) subs) g 0 e v2)
        as [[z2 v3]| |] eqn:E3; try discriminate.
      assert (HV2' : V v2 wx2) by (destruct HV2, W2; split; congruence).
      destruct (chk_subs (IFF_checkChunk rg0) (xcheckChunk rg) (IFF_checkCATSubChunk LV)
        (IFF_checkCATSubChunk (bare (XList LIST_ID s g props subs))) g subs
        ltac:(intros; apply sub_cat; reflexivity) ltac:(intros; apply cat_sub_verdict) ltac:(intros; apply same_catSub)
        ltac:(intros; apply checkChunk_verdict) ltac:(intros c I; apply IHs; auto)
        0 v2 wx2 z2 v3 HV2' E3) as (wx3 & X3 & HV3 & W3).
      unfold bind at 1. rewrite X3.
      assert (WX3 : V w wx3) by (destruct WX2, HV2', HV3; split; congruence).
      destruct (forallb (all_good ext g) subs).
      2:{ rewrite andb_false_r. exists wx3. split; [reflexivity|exact WX3]. }
      rewrite andb_true_r. destruct (z2 =? -1).
      { cbn in E. injection E as <- <-. exists wx3. split; [reflexivity|]. exact WX3. }
      unfold bind at 1, lift in E. unfold bind at 1, lift.
      destruct (add_int size1 z2) as [a| |]; try discriminate.
      change (IFF_checkGroupChunkSize (bare (XList LIST_ID s g props subs)) a) with (IFF_checkGroupChunkSize LV a).
      assert (HV3' : V v3 wx3) by (destruct HV3, W3; split; congruence).
      destruct (common _ _ _ _ _ (groupSize_verdict _ _) (same_checkSize e e false _ _) HV3' E) as (W4 & wx4 & X4 & HV4).
      exists wx4. split; [exact X4|]. destruct WX3, HV3', HV4. split; congruence.
    - eapply START; [apply RG0|apply RG|]. cbn [xid all_good]. rewrite handler_data, xexpected_data by assumption. unfold no_apps at 1.
      match goal with A : ext ft i = Some (?cb, ?cd) |- _ => rewrite A; rename A into EX; pose proof (HO ft i cb cd EX) as HC end.
      cbn [checkExtensionChunk xcheckExtensionChunk].
      intros w wx v w1 HV E. cbn in E. injection E as <- <-.
      destruct (h_check _ _ HC i s u e wx ltac:(assumption)) as (wx1 & X1 & I1 & O1). exists wx1. split; [exact X1|].
      destruct HV. split; congruence.
  Qed.

  (** ** Comparing *)

  Lemma compare_all_view : forall g (l1 l2 : list (xchunk U)),
    (forall a b, In a l1 -> In b l2 ->
       xcompareChunk e rg a b g = IFF_compareChunk e rg0 (view ext g a) (view ext g b) g) ->
    xcompare_all (xcompareChunk e rg) l1 l2 g
    = compare_all (IFF_compareChunk e rg0) (map (view ext g) l1) (map (view ext g) l2) g.
  Proof.
    intros g. induction l1 as [|a l1 IH]; intros [|b l2] H; try reflexivity.
    cbn [xcompare_all compare_all map]. rewrite H by (left; reflexivity).
    destruct (IFF_compareChunk e rg0 (view ext g a) (view ext g b) g) as [[]| |]; cbn [obind]; try reflexivity.
    apply IH. intros. apply H; right; assumption.
  Qed.

  Lemma zlength_map : forall A B (f : A -> B) l, zlength (map f l) = zlength l.
  Proof. intros. unfold zlength. rewrite map_length. reflexivity. Qed.

  (** Two groups whose members compare as their views do. *)
  Lemma compare_group_view : forall i1 s1 g1 l1 i2 s2 g2 l2,
    (g1 = g2 -> forall a b, In a l1 -> In b l2 ->
       xcompareChunk e rg a b g1 = IFF_compareChunk e rg0 (view ext g1 a) (view ext g1 b) g1) ->
    xcompareGroup (xcompareChunk e rg) (XGroup i1 s1 g1 l1) (XGroup i2 s2 g2 l2)
    = IFF_compareGroup (IFF_compareChunk e rg0) (CGroup i1 s1 g1 (map (view ext g1) l1)) (CGroup i2 s2 g2 (map (view ext g2) l2)).
  Proof.
    intros i1 s1 g1 l1 i2 s2 g2 l2 H. cbn [xcompareGroup IFF_compareGroup as_group]. rewrite !zlength_map.
    destruct (Z.eqb_spec g1 g2) as [<-|N]; cbn [andb]; [|reflexivity].
    destruct (zlength l1 =? zlength l2); [|reflexivity]. apply compare_all_view. apply H. reflexivity.
  Qed.

  Lemma body_injective : forall cd i s u v, Holds cd i s u -> Holds cd i s v ->
    ubody cd i s u = ubody (U := U) cd i s v -> u = v.
  Proof. intros cd i s u v (_ & _ & _ & D1) (_ & _ & _ & D2) E. rewrite E, D2 in D1. congruence. Qed.

  Theorem compare_view : forall (a : xchunk U) ft b, XTyped ext ft a -> XTyped ext ft b ->
    xcompareChunk e rg a b ft = IFF_compareChunk e rg0 (view ext ft a) (view ext ft b) ft.
  Proof.
    induction a as [i s d|i s g subs IH|i s g props subs IHp IHs|i s u] using xchunk_tree_ind; intros ft b TA TB.
    - inversion TA as [? ? ? ? N A| | |]; subst.
      cbn [xcompareChunk view IFF_compareChunk chunkId chunkSize xid xsize]. rewrite view_id, view_size, RG, RG0.
      destruct (Z.eqb_spec i (xid b)) as [EI|]; cbn [andb]; [|reflexivity].
      destruct (s =? xsize b); [|reflexivity]. cbn [obind].
      rewrite handler_data, xexpected_data, A by assumption. unfold no_apps. cbn [compareExtensionChunk xcompareExtensionChunk].
      destruct TB as [ft i2 s2 d2 N2 A2|ft i2 s2 u2 cb cd N2 A2 H2|ft i2 s2 g2 subs2 GI TS|ft s2 g2 props2 subs2 TP TS];
        cbn [xid] in EI; subst.
      + reflexivity.
      + congruence.
      + exfalso. apply N. unfold group_ids. destruct GI as [<-|[<-|[<-|[]]]]; simpl; auto.
      + exfalso. apply N. unfold group_ids. simpl; auto.
    - inversion TA as [| |? ? ? ? ? GI TS|]; subst.
      cbn [xcompareChunk view IFF_compareChunk chunkId chunkSize xid xsize]. rewrite view_id, view_size, RG, RG0.
      destruct (Z.eqb_spec i (xid b)) as [EI|]; cbn [andb]; [|reflexivity].
      destruct (s =? xsize b); [|reflexivity]. cbn [obind].
      destruct TB as [ft i2 s2 d2 N2 A2|ft i2 s2 u2 cb cd N2 A2 H2|ft i2 s2 g2 subs2 GI2 TS2|ft s2 g2 props2 subs2 TP2 TS2];
        cbn [xid] in EI; subst.
      + exfalso. apply N2. unfold group_ids. destruct GI as [<-|[<-|[<-|[]]]]; simpl; auto.
      + exfalso. apply N2. unfold group_ids. destruct GI as [<-|[<-|[<-|[]]]]; simpl; auto.
      + assert (G : xcompareGroup (xcompareChunk e rg) (XGroup i2 s g subs) (XGroup i2 s2 g2 subs2)
            = IFF_compareGroup (IFF_compareChunk e rg0) (CGroup i2 s g (map (view ext g) subs)) (CGroup i2 s2 g2 (map (view ext g2) subs2))).
        { apply compare_group_view. intros -> a b I J. apply IH; auto. }
        destruct GI as [<-|[<-|[<-|[]]]].
        * rewrite handler_FORM, xexpected_FORM. exact G.
        * rewrite handler_CAT, xexpected_CAT. exact G.
        * rewrite handler_PROP, xexpected_PROP. exact G.
      + exfalso. destruct GI as [E|[E|[E|[]]]]; discriminate.
    - inversion TA as [| | |? ? ? ? ? TP TS]; subst.
      cbn [xcompareChunk view IFF_compareChunk chunkId chunkSize xid xsize]. rewrite view_id, view_size, RG, RG0.
      destruct (Z.eqb_spec LIST_ID (xid b)) as [EI|]; cbn [andb]; [|reflexivity].
      destruct (s =? xsize b); [|reflexivity]. cbn [obind]. rewrite handler_LIST, xexpected_LIST.
      destruct TB as [ft i2 s2 d2 N2 A2|ft i2 s2 u2 cb cd N2 A2 H2|ft i2 s2 g2 subs2 GI2 TS2|ft s2 g2 props2 subs2 TP2 TS2];
        cbn [xid] in EI; subst.
      + exfalso. apply N2. unfold group_ids. simpl; auto.
      + exfalso. apply N2. unfold group_ids. simpl; auto.
      + exfalso. destruct GI2 as [E|[E|[E|[]]]]; discriminate.
      + cbn [compareExtensionChunk xcompareExtensionChunk xcompareList IFF_compareList view]. rewrite !zlength_map.
        assert (P : forall q1 q2, (forall c, In c q1 -> In c props) -> (forall c, In c q2 -> In c props2) ->
           xcompare_props (xcompareChunk e rg) q1 q2
           = compare_props (IFF_compareChunk e rg0) (map (view ext g) q1) (map (view ext g2) q2)).
        { induction q1 as [|a q1 IQ]; intros [|b q2] I1 I2; try reflexivity.
          cbn [xcompare_props compare_props map].
          destruct (TP a (I1 a (or_introl eq_refl))) as [Ta Pa]. destruct (TP2 b (I2 b (or_introl eq_refl))) as [Tb Pb].
          pose proof (IHp a (I1 a (or_introl eq_refl))) as IA.
          destruct (XTyped_prop ext g 0 a Ta Pa) as (_ & sa & ga & la & ->).
          destruct (XTyped_prop ext g2 0 b Tb Pb) as (_ & sb & gb & lb & ->).
          assert (G : xcompareGroup (xcompareChunk e rg) (XGroup PROP_ID sa ga la) (XGroup PROP_ID sb gb lb)
            = IFF_compareGroup (IFF_compareChunk e rg0) (view ext g (XGroup PROP_ID sa ga la)) (view ext g2 (XGroup PROP_ID sb gb lb))).
          { pose (b' := XGroup PROP_ID sa gb lb).
            inversion Tb as [| |? ? ? ? ? _ TSb|]; subst.
            assert (Tb' : XTyped ext g b') by (constructor; [simpl; auto|exact TSb]).
            specialize (IA g b' Ta Tb'). unfold b' in IA.
            cbn [xcompareChunk view IFF_compareChunk chunkId chunkSize xid xsize] in IA. rewrite RG, RG0 in IA.
            rewrite !Z.eqb_refl in IA. cbn [andb obind] in IA. rewrite handler_PROP, xexpected_PROP in IA.
            cbn [compareExtensionChunk xcompareExtensionChunk xcompareGroup IFF_compareGroup as_group] in IA.
            cbn [view xcompareGroup IFF_compareGroup as_group]. exact IA. }
          rewrite G. destruct (IFF_compareGroup _ _ _) as [[]| |]; cbn [obind]; try reflexivity.
          apply IQ; intros; [apply I1|apply I2]; right; assumption. }
        rewrite (P props props2) by auto.
        destruct (zlength props =? zlength props2); cbn [obind]; [|reflexivity].
        destruct (compare_props _ _ _) as [[]| |]; cbn [obind]; try reflexivity.
        destruct (Z.eqb_spec g g2) as [<-|]; cbn [andb]; [|reflexivity].
        destruct (zlength subs =? zlength subs2); [|reflexivity]. apply compare_all_view. intros a b I J. apply IHs; auto.
    - inversion TA as [|? ? ? ? cb cd N A HD| |]; subst.
      cbn [xcompareChunk view IFF_compareChunk chunkId chunkSize xid xsize]. rewrite view_id, view_size, RG, RG0.
      destruct (Z.eqb_spec i (xid b)) as [EI|]; cbn [andb]; [|reflexivity].
      destruct (Z.eqb_spec s (xsize b)) as [ES|]; [|reflexivity]. cbn [obind].
      rewrite handler_data, xexpected_data, A by assumption. unfold no_apps. cbn [compareExtensionChunk xcompareExtensionChunk].
      destruct TB as [ft i2 s2 d2 N2 A2|ft i2 s2 u2 cb2 cd2 N2 A2 H2|ft i2 s2 g2 subs2 GI TS|ft s2 g2 props2 subs2 TP TS];
        cbn [xid xsize] in EI, ES; subst.
      + congruence.
      + assert (cd2 = cd) by congruence. subst cd2. cbn [view]. rewrite A.
        destruct (h_compare cb cd (HO ft i2 cb cd A) i2 s2 u u2 HD H2) as (bb & -> & BB).
        cbn [IFF_compareRawChunk]. pose proof HD as (_ & SB & _).
        assert (BL : forall x, Holds cd i2 s2 x ->
                  block_bytes (Some (ubody cd i2 s2 x)) (wrap_u (size_t_bits e) s2) = Done (ubody cd i2 s2 x)).
        { intros x HX. pose proof (ubody_length cd i2 s2 x HX) as BL.
          rewrite wrap_size_id by (unfold INT_MAX in *; lia). unfold block_bytes. destruct (Z.leb_spec s2 0) as [L|L].
          - assert (zlength (ubody cd i2 s2 x) = 0) as Z0 by lia. apply zlength_0 in Z0. rewrite Z0. reflexivity.
          - rewrite (proj2 (Z.ltb_ge _ _)) by lia. rewrite ztake_all by lia. reflexivity. }
        rewrite !BL by assumption. cbn [obind]. f_equal. apply eq_true_iff_eq. rewrite BB, bytes_eqb_spec.
        split; [intros ->; reflexivity|]. apply body_injective; assumption.
      + exfalso. apply N. unfold group_ids. destruct GI as [<-|[<-|[<-|[]]]]; simpl; auto.
      + exfalso. apply N. unfold group_ids. simpl; auto.
  Qed.

  (** ** Printing *)

  Lemma print_all_view : forall (l : list (xchunk U)) level g t,
    (forall c, In c l -> forall t, IFF_printChunk rg0 (view ext g c) level g = Done t -> exists t', xprintChunk rg c level g = Done t') ->
    print_all (IFF_printChunk rg0) (map (view ext g) l) level g = Done t ->
    exists t', xprint_all (xprintChunk rg) l level g = Done t'.
  Proof.
    induction l as [|c l IH]; intros level g t H E; [eexists; reflexivity|].
    cbn [xprint_all print_all map] in *.
    destruct (IFF_printChunk rg0 (view ext g c) level g) as [t1| |] eqn:E1; cbn [obind] in E; try discriminate.
    destruct (print_all (IFF_printChunk rg0) (map (view ext g) l) level g) as [t2| |] eqn:E2; cbn [obind] in E; try discriminate.
    destruct (H c (or_introl eq_refl) t1 E1) as [t1' ->]. cbn [obind].
    destruct (IH level g t2 (fun c I => H c (or_intror I)) E2) as [t2' ->]. eexists. reflexivity.
  Qed.

  Lemma print_array_view : forall o (l : list (xchunk U)) level g t,
    (forall c, In c l -> forall t, IFF_printChunk rg0 (view ext g c) (S level) g = Done t -> exists t', xprintChunk rg c (S level) g = Done t') ->
    print_array (IFF_printChunk rg0) o (map (view ext g) l) g level = Done t ->
    exists t', xprint_array (xprintChunk rg) o l g level = Done t'.
  Proof.
    intros o l level g t H E. unfold xprint_array, print_array in *.
    destruct (print_all (IFF_printChunk rg0) (map (view ext g) l) (S level) g) as [t1| |] eqn:E1; cbn [obind] in E; try discriminate.
    destruct (print_all_view l (S level) g t1 H E1) as [t' ->]. eexists. reflexivity.
  Qed.

  Theorem print_view : forall (a : xchunk U) ft level t, XTyped ext ft a ->
    IFF_printChunk rg0 (view ext ft a) level ft = Done t -> exists t', xprintChunk rg a level ft = Done t'.
  Proof.
    induction a as [i s d|i s g subs IH|i s g props subs IHp IHs|i s u] using xchunk_tree_ind; intros ft level t TA E.
    - inversion TA as [? ? ? ? N A| | |]; subst.
      cbn [xprintChunk view IFF_printChunk chunkId chunkSize xid xsize] in *. rewrite RG. rewrite RG0 in E.
      cbn [obind] in *. rewrite xexpected_data, A by assumption. rewrite handler_data in E by assumption.
      unfold no_apps in E. cbn [printExtensionChunk xprintExtensionChunk] in *.
      destruct (IFF_printRawChunk (CRaw i s d) level) as [t1| |]; cbn [obind] in *; try discriminate. eexists. reflexivity.
    - inversion TA as [| |? ? ? ? ? GI TS|]; subst.
      cbn [xprintChunk view IFF_printChunk chunkId chunkSize xid xsize] in *. rewrite RG. rewrite RG0 in E.
      assert (P : forall t, print_array (IFF_printChunk rg0) "[" (map (view ext g) subs) g level = Done t ->
                exists t', xprint_array (xprintChunk rg) "[" subs g level = Done t').
      { intros t1. apply print_array_view. intros c I t2. apply IH; auto. }
      destruct (print_array (IFF_printChunk rg0) "[" (map (view ext g) subs) g level) as [t1| |] eqn:E1.
      + destruct (P t1 eq_refl) as [t' E'].
        destruct GI as [<-|[<-|[<-|[]]]];
          [rewrite xexpected_FORM|rewrite xexpected_CAT|rewrite xexpected_PROP];
          cbn [obind xprintExtensionChunk xprintGroup]; rewrite E'; eexists; reflexivity.
      + exfalso. destruct GI as [<-|[<-|[<-|[]]]];
          [rewrite handler_FORM in E|rewrite handler_CAT in E|rewrite handler_PROP in E];
          cbn [obind printExtensionChunk IFF_printGroup] in E; rewrite E1 in E; discriminate.
      + exfalso. destruct GI as [<-|[<-|[<-|[]]]];
          [rewrite handler_FORM in E|rewrite handler_CAT in E|rewrite handler_PROP in E];
          cbn [obind printExtensionChunk IFF_printGroup] in E; rewrite E1 in E; discriminate.
    - inversion TA as [| | |? ? ? ? ? TP TS]; subst.
      cbn [xprintChunk view IFF_printChunk chunkId chunkSize xid xsize] in *. rewrite RG, xexpected_LIST. rewrite RG0, handler_LIST in E.
      cbn [obind xprintExtensionChunk printExtensionChunk xprintList IFF_printList] in *.
      destruct (print_array (IFF_printChunk rg0) "prop = [" (map (view ext g) props) g level) as [t1| |] eqn:E1;
        cbn [obind] in E; try discriminate.
      destruct (print_array (IFF_printChunk rg0) "[" (map (view ext g) subs) g level) as [t2| |] eqn:E2;
        cbn [obind] in E; try discriminate.
      destruct (print_array_view "prop = [" props level g t1) as [t1' ->]; [|exact E1|].
      { intros c I t3. apply IHp; [exact I|]. apply TP, I. }
      destruct (print_array_view "[" subs level g t2) as [t2' ->]; [|exact E2|].
      { intros c I t3. apply IHs; auto. }
      eexists. reflexivity.
    - inversion TA as [|? ? ? ? cb cd N A HD| |]; subst.
      cbn [xprintChunk chunkId chunkSize xid xsize]. rewrite RG, xexpected_data, A by assumption.
      cbn [obind xprintExtensionChunk]. destruct (h_print cb cd (HO ft i cb cd A) i s u level HD) as [t' ->]. eexists. reflexivity.
  Qed.
End Sim.

(** ** Trees that were read *)

Section Typed.
  Context {U : Type} (ext : exts U) (e : env).
  Hypothesis LAW : AllLawful ext.

  Theorem decode_typed :
    (forall ft l c lg, Parsed e no_apps ft l c lg -> Sized ext ft c -> forall x, decode ext ft c = Some x -> XTyped ext ft x) /\
    (forall g bp s l cs lg total, Members e no_apps g bp s l cs lg total ->
       forall c, In c cs -> Sized ext g c -> forall x, decode ext g c = Some x -> XTyped ext g x).
  Proof.
    apply (Parsed_Members_ind e no_apps).
    - intros ft i d p I NG A SR PL SZ x D. cbn [decode] in D.
      inversion SZ as [? ? ? ? CO| |]; subst.
      destruct (ext ft i) as [[cb cd]|] eqn:E.
      + destruct (co_dec cd i d) as [u|] eqn:CD; [|discriminate]. injection D as <-.
        eapply XT_user; [exact NG|exact E|]. apply (LAW ft i cb cd E i d u); [eapply CO; reflexivity|exact SR|exact CD].
      + injection D as <-. constructor; assumption.
    - intros ft i s spec vals skipped p I NG A. discriminate.
    - intros ft i s g l subs p lg total H1 H2 H3 H4 H5 H7 SZ x D. cbn [decode] in D.
      destruct (all_some (map (decode ext g) subs)) as [xs|] eqn:E; [|discriminate]. injection D as <-.
      inversion SZ as [|? ? ? ? ? SS|]; subst. apply all_some_spec in E.
      constructor; [assumption|]. intros y I. destruct (Forall2_right _ _ _ _ _ _ E I) as (a & J & Q). eauto.
    - intros ft s g l members p lg total H2 H3 H4 H5 H7 SZ x D. cbn [decode] in D.
      inversion SZ as [| |? ? ? ? ? ? SP SS]; subst.
      match type of D with context [all_some (map (decode ext g) ?ps)] => destruct (all_some (map (decode ext g) ps)) as [xp|] eqn:E1; [|discriminate] end.
      match type of D with context [all_some (map (decode ext g) ?ps)] => destruct (all_some (map (decode ext g) ps)) as [xs|] eqn:E2; [|discriminate] end.
      injection D as <-. apply all_some_spec in E1. apply all_some_spec in E2. constructor; intros y I.
      + destruct (Forall2_right _ _ _ _ _ _ E1 I) as (a & J & Q). pose proof (SP a J) as SA. apply filter_In in J.
        destruct J as [J K]. split; [eauto|].
        apply decode_id in Q. rewrite (proj1 Q). apply Z.eqb_eq. exact K.
      + destruct (Forall2_right _ _ _ _ _ _ E2 I) as (a & J & Q). pose proof (SS a J) as SA. apply filter_In in J.
        destruct J as [J K]. eauto.
    - intros g bp s H c [].
    - intros g bp s l c lg bp' l2 cs lg2 total H1 H2 H3 H4 H5 H6 d [<-|I]; [exact H3|exact (H6 d I)].
  Qed.
End Typed.
