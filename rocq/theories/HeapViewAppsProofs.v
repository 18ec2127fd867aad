(** * Lists of fields and colour maps do in memory what they do to values *)

From Coq Require Import ZArith List Bool String Lia.
From Coq Require Import Strings.Byte.
From Verif Require Import Machine Io Types Build Read Write Check Compare Print Iff Spec Lemmas IoProofs HeapProofs ReadProofs WriteProofs
  Ext ExtSpec ExtFields ExtReadProofs ExtFieldsProofs ExtSafeProofs ExtAgree Heap HeapExt HeapExtSpec HeapExtApps HeapExtProofs HeapExtReadProofs HeapExtAppsProofs
  HeapExtPassProofs HeapViewSpec HeapViewApps HeapViewProofs HeapViewReadProofs.
Import ListNotations.
Open Scope Z_scope.

(** ** Lists of fields *)

Theorem fields_refine : forall s, Refines (fields_rep s) (fields_callbacks s) (yfields_callbacks s).
Proof.
  intro s. constructor.
  - intros h a F u (-> & K & hd & L). split; [constructor; [intros []|constructor]|]. split; [left; reflexivity|].
    split; [intros x [<-|[]]; congruence|]. eauto.
  - intros h h' a F u (-> & K & hd & L) E. split; [reflexivity|]. split; [exact K|]. exists hd. rewrite E by (left; reflexivity). exact L.
  - intros h a F u hd v p (-> & K & hd' & L) L'. rewrite L in L'. injection L' as <- <-. split; [reflexivity|]. split; [exact K|].
    exists (set_parent hd' p). rewrite store_at by congruence. reflexivity.
  - intros i z e w h NS R. cbn [yfields_callbacks yc_create fields_callbacks cb_create]. unfold ycreateChunk, ymalloc, create_fields, bind, ybind, yio.
    destruct (run_malloc e w (sizeof_Fields s)) as (ok & w' & E & _). rewrite E. destruct ok; cbn.
    + eexists _, _. split; [reflexivity|]. eexists _, _. split; [apply Turns_new with (1 := placed _ _ _ _)|]. split; [|apply new_at]. split; [reflexivity|].
      split; [rewrite map_map; reflexivity|]. eexists. apply new_at.
    + eexists _, _. split; [reflexivity|]. apply Turns_refl. intros x [].
  - intros e w h a F u i z v NS R (-> & K & hd & L) L'. rewrite L in L'. injection L' as -> <-.
    assert (LN : ylookup h a <> None) by (rewrite L; discriminate).
    cbn [yfields_callbacks yc_read fields_callbacks cb_read read_fields_chunk]. unfold ybind at 1. rewrite (run_chunk e h a _ _ L). cbv beta iota.
    destruct (t_read _ _ (fields_tame s) i z u e w NS R K) as (ok & u' & k & w1 & E & _ & K1). cbn [fields_callbacks cb_read read_fields_chunk] in E.
    rewrite (proj2 (fkinds_eqb_spec _ _) K) in *. cbn [o_id o_size]. unfold bind in *. unfold ybind, yio.
    destruct (read_fields (fs_fields s) u i z 0 e w) as [[[[ok' vs] bp] w2]|x|]; [|discriminate..].
    cbn in *. injection E as <- <- <- <-. rewrite (run_put e h a _ LN).
    eexists _, _. split; [reflexivity|]. split; [reflexivity|]. split; [reflexivity|]. exists [a], vs.
    split; [apply Turns_store; exact LN|]. rewrite (store_at _ h a _ LN). split; [|reflexivity].
    split; [reflexivity|]. split; [exact K1|]. eexists. apply (store_at _ h a _ LN).
  - intros e w h a F u i z (-> & K & hd & L). split; [reflexivity|]. exists h. split; [reflexivity|].
    apply Turns_refl. intros x [<-|[]]. congruence.
  - intros e w h a F u p i z v (-> & K & hd & L) L'. rewrite L in L'. injection L' as -> <-.
    cbn [yfields_callbacks yc_write fields_callbacks cb_write write_fields_chunk]. unfold yfields_of, ybind. rewrite (run_chunk e h a _ _ L).
    cbv beta iota. rewrite (proj2 (fkinds_eqb_spec _ _) K). unfold yio. cbn [o_id o_size].
    destruct (write_fields _ _ _ _ _ e w) as [[r w1]|x|]; cbn [Mirror]; [|reflexivity|reflexivity].
    eexists _, _. split; [reflexivity|]. split; [reflexivity|apply Same_refl].
  - intros e w h a F u p i z v (-> & K & hd & L) L'. rewrite L in L'. injection L' as -> <-.
    cbn [yfields_callbacks yc_check fields_callbacks cb_check check_fields_chunk]. unfold yfields_of, ybind. rewrite (run_chunk e h a _ _ L).
    cbv beta iota. rewrite (proj2 (fkinds_eqb_spec _ _) K). 
    destruct (fs_check s (map snd u)); eexists _, _; (split; [reflexivity|]; split; [reflexivity|apply Same_refl]).
  - intros e w h a F u p i z v level (-> & K & hd & L) L'. rewrite L in L'. injection L' as -> <-.
    cbn [yfields_callbacks yc_print fields_callbacks cb_print print_fields_chunk]. unfold yfields_of, ybind. rewrite (run_chunk e h a _ _ L).
    cbv beta iota. rewrite (proj2 (fkinds_eqb_spec _ _) K). eexists. split; [reflexivity|apply Same_refl].
  - intros e w h a F u p b G t q i z v v' (-> & K & hd & L) (-> & K' & hd' & L') La Lb. rewrite L in La. injection La as -> <-. rewrite L' in Lb. injection Lb as -> <-.
    cbn [yfields_callbacks yc_compare fields_callbacks cb_compare compare_fields_chunk]. unfold ybind.
    rewrite (run_chunk e h a _ _ L). cbv beta iota. rewrite (run_chunk e h b _ _ L'). cbv beta iota.
    rewrite (proj2 (fkinds_eqb_spec _ _) K), (proj2 (fkinds_eqb_spec _ _) K'). cbn [andb].
    eexists. split; [reflexivity|apply Same_refl].
Qed.

(** ** Colour maps *)

Lemma cmap_rep_parts : forall h a F l, cmap_rep h a F l -> NoDup F /\ In a F /\ live h F.
Proof.
  intros h a F l (hd & p & L & [(-> & -> & ->)|(d & -> & LD & ->)]).
  - split; [constructor; [intros []|constructor]|]. split; [left; reflexivity|]. intros x [<-|[]]; congruence.
  - assert (AD : a <> d) by (intros ->; congruence).
    split; [constructor; [intros [X|[]]; congruence|constructor; [intros []|constructor]]|]. split; [left; reflexivity|].
    intros x [<-|[<-|[]]]; congruence.
Qed.

Lemma cmap_colours : forall h a F l, cmap_rep h a F l -> exists hd p, ylookup h a = Some (YChunk hd (YUser (CMap (List.length l) p))) /\
  forall e w, ycolours p e w h = Done (l, w, h).
Proof.
  intros h a F l (hd & p & L & [(-> & -> & ->)|(d & -> & LD & ->)]); exists hd; eexists; (split; [exact L|]); intros e w; [reflexivity|].
  unfold ycolours, ybind. rewrite (run_load e h d _ LD). reflexivity.
Qed.

Lemma cmap_of : forall A (k : header -> list colour -> Y cell A) h a F l, cmap_rep h a F l ->
  exists hd p, ylookup h a = Some (YChunk hd (YUser (CMap (List.length l) p))) /\ forall e w, ycolours_of a k e w h = k hd l e w h.
Proof.
  intros A k h a F l R. destruct (cmap_colours h a F l R) as (hd & p & L & Y). exists hd, p. split; [exact L|]. intros e w.
  unfold ycolours_of, ybind. rewrite (run_chunk e h a _ _ L). cbv beta iota. rewrite Y. reflexivity.
Qed.

(** What an added colour leaves *)
Definition Grown (h : yheap cell) (a : addr) (F : list addr) (hd : header) (l : list colour) (h' : yheap cell) : Prop :=
  exists F' v, Turns h F h' F' /\ cmap_rep h' a F' l /\ ylookup h' a = Some (YChunk hd (YUser v)).

Lemma add_colour_sim : forall e h a F hd v l col, cmap_rep h a F l -> ylookup h a = Some (YChunk hd (YUser v)) ->
  Sim e (fun (x ok : bool) h' => x = ok /\ Grown h a F hd (if ok then l ++ [col] else l) h') (malloc ((zlength l + 1) * 3)) (yadd_colour a col) h.
Proof.
  intros e h a F hd v l col O L'. destruct (cmap_rep_parts h a F l O) as (ND & IA & LV).
  destruct (cmap_colours h a F l O) as (hd0 & p0 & L0 & YC). rewrite L0 in L'. injection L' as -> <-.
  pose proof O as (hd' & p & L & D). rewrite L in L0. injection L0 as <- <-. unfold yadd_colour.
  eapply Sim_step; [apply (run_chunk e h a _ _ L)|]. cbv beta iota. eapply Sim_step; [apply YC|].
  apply Sim_left_eq with (m' := bind (malloc ((zlength l + 1) * 3)) (fun ok => ret ok)).
  { intro w. unfold bind. destruct (malloc _ e w) as [[? ?]|?|]; reflexivity. }
  apply Sim_io_bind. intros [|].
  2:{ apply Sim_ret. split; [reflexivity|]. exists F, (CMap (List.length l) p). split; [apply Turns_refl; exact LV|auto]. }
  set (h1 := match p with None => h | Some d => yrelease h d end).
  assert (T1 : Turns h F h1 [a] /\ ylookup h1 a = ylookup h a /\ forall w, yfree p e w h = Done (tt, w, h1)).
  { unfold h1. destruct D as [(-> & -> & ->)|(d & -> & LD & ->)].
    - split; [apply Turns_refl; exact LV|]. auto.
    - assert (AD : a <> d) by (intros ->; congruence).
      split; [|split; [rewrite ylookup_release; destruct (Nat.eqb_spec a d); [congruence|reflexivity]|]].
      + apply (Turns_within _ _ _ _ [a] _ _ (Turns_release h d)); [intros x [<-|[]]; congruence|intros x [<-|[]] [X|[]]; congruence|..];
          intro x; cbn; tauto.
      + intro w. apply run_free. congruence. }
  destruct T1 as (T1 & KA & FR). eapply Sim_step; [exact FR|]. rewrite L in KA.
  intro w. pose proof (placed e w h1 (YApp (Colours (l ++ [col])))) as P.
  set (q := address e w h1) in *. set (h2 := fill h1 q (YApp (Colours (l ++ [col])))) in *.
  destruct (Placed_other _ _ _ _ a P ltac:(congruence)) as [AN L2]. rewrite KA in L2. pose proof (Placed_at _ _ _ _ P) as LQ.
  assert (T2 : Turns h F h2 [a; q]) by exact (Turns_beside _ _ _ _ _ _ _ T1 P).
  refine ((_ : Sim e _ (ret true) (yput a (YChunk hd' (YUser (CMap (S (List.length l)) (Some q)))) ;;y yret true) h2) w).
  eapply Sim_step; [apply run_put; congruence|]. apply Sim_ret. split; [reflexivity|].
  exists [a; q], (CMap (S (List.length l)) (Some q)).
  split; [eapply Turns_trans; [exact T2|]; apply Turns_store_in; [left; reflexivity|exact (tu_live _ _ _ _ T2)]|].
  rewrite store_at by congruence. split; [|reflexivity].
  exists hd', (Some q). rewrite store_at by congruence. split; [rewrite app_length, Nat.add_comm; reflexivity|]. right.
  exists q. split; [reflexivity|]. split; [|reflexivity].
  rewrite ylookup_store by congruence. destruct (Nat.eqb_spec q a); [congruence|]. exact LQ.
Qed.

Definition ReadsAs (h : yheap cell) (a : addr) (F : list addr) (hd : header) (r : bool * list colour * Z) (q : bool * Z) (h' : yheap cell) : Prop :=
  fst (fst r) = fst q /\ snd r = snd q /\ Grown h a F hd (snd (fst r)) h'.

Lemma grow_sim : forall e k h a F hd v l i s bp, cmap_rep h a F l -> ylookup h a = Some (YChunk hd (YUser v)) ->
  Sim e (ReadsAs h a F hd) (grow_colours k i s l bp) (yread_colours k a i s bp) h.
Proof.
  intro e. induction k as [|k IH]; intros h a F hd v l i s bp O L; cbn [yread_colours grow_colours].
  all: assert (STOP : forall ok b, Sim e (ReadsAs h a F hd) (ret (ok, l, b)) (yret (ok, b)) h)
    by (intros ok b; apply Sim_ret; split; [reflexivity|]; split; [reflexivity|]; exists F, v;
        split; [apply Turns_refl; exact (proj2 (proj2 (cmap_rep_parts h a F l O)))|auto]).
  - apply STOP.
  - apply Sim_io_bind. intros [[st1 [r|]] b1]; destruct st1; try apply STOP.
    apply Sim_io_bind. intros [[st2 [g|]] b2]; destruct st2; try apply STOP.
    apply Sim_io_bind. intros [[st3 [b|]] b3]; destruct st3; try apply STOP.
    eapply Sim_bind; [apply (add_colour_sim e h a F hd v l (r, g, b) O L)|].
    intros x [|] h1 [-> (F1 & v1 & T1 & O1 & L1)].
    + eapply Sim_weaken; [apply (IH h1 a F1 hd v1 _ i s b3 O1 L1)|].
      intros q q' h2 (E1 & E2 & F2 & v2 & T2 & O2 & L2). split; [exact E1|]. split; [exact E2|]. exists F2, v2. split; [exact (Turns_trans _ _ _ _ _ _ T1 T2)|auto].
    + apply Sim_ret. split; [reflexivity|]. split; [reflexivity|]. exists F1, v1. auto.
Qed.

Theorem cmap_refine : Refines cmap_rep cmap_growing ycmap_grows.
Proof.
  constructor.
  - intros h a F u O. destruct (cmap_rep_parts h a F u O) as (ND & IA & LV). split; [exact ND|]. split; [exact IA|]. split; [exact LV|].
    destruct O as (hd & p & L & _). eauto.
  - intros h h' a F u O K. destruct (cmap_rep_parts h a F u O) as (_ & IA & _). destruct O as (hd & p & L & D).
    exists hd, p. rewrite (K a IA). split; [exact L|].
    destruct D as [D|(d & -> & LD & ->)]; [left; exact D|]. right. exists d. rewrite K by (right; left; reflexivity). auto.
  - intros h a F u hd v q O L'. destruct O as (hd' & p & L & D). rewrite L in L'. injection L' as <- <-.
    exists (set_parent hd' q), p. rewrite store_at by congruence. split; [reflexivity|].
    destruct D as [D|(d & -> & LD & ->)]; [left; exact D|]. right. exists d.
    rewrite ylookup_store by congruence. destruct (Nat.eqb_spec d a) as [->|_]; [congruence|auto].
  - intros i z e w h NS R. cbn [ycmap_grows ycmap_callbacks yc_create cmap_growing cmap_callbacks cb_create]. unfold ycreateChunk, ymalloc, bind, ybind, yio.
    destruct (run_malloc e w 64) as (ok & w' & E & _). rewrite E. destruct ok; cbn.
    + eexists _, _. split; [reflexivity|]. eexists _, _. split; [apply Turns_new with (1 := placed _ _ _ _)|]. split; [|apply new_at].
      eexists _, _. split; [apply new_at|]. left. auto.
    + eexists _, _. split; [reflexivity|]. apply Turns_refl. intros x [].
  - intros e w h a F u i s v NS R O L. cbn [ycmap_grows yc_read cmap_growing cb_read]. unfold ycmap_read.
    assert (H : Sim e (ReadsAs h a F (mkHeader None i s)) (if s mod 3 =? 0 then grow_colours (Z.to_nat (s / 3)) i s u 0 else ret (false, u, 0))
      (ycmap_read a 0) h).
    { unfold ycmap_read. eapply Sim_step; [apply (run_chunk e h a _ _ L)|]. cbv beta iota. cbn [o_id o_size].
      destruct (_ =? 0); [exact (grow_sim e _ h a F _ v u i s 0 O L)|].
      apply Sim_ret. split; [reflexivity|]. split; [reflexivity|]. exists F, v. split; [apply Turns_refl; exact (proj2 (proj2 (cmap_rep_parts h a F u O)))|auto]. }
    exact (H w).
  - intros e w h a F u i s O. split; [reflexivity|]. cbn [ycmap_grows yc_free]. unfold ycmap_free, ybind.
    destruct (cmap_rep_parts h a F u O) as (_ & _ & LV). destruct O as (hd & p & L & D). rewrite (run_chunk e h a _ _ L).
    destruct D as [(-> & -> & ->)|(d & -> & LD & ->)].
    + exists h. split; [reflexivity|apply Turns_refl; exact LV].
    + exists (yrelease h d). split; [apply run_free; congruence|].
      assert (AD : a <> d) by (intros ->; congruence).
      apply (Turns_within _ _ _ _ [a] _ _ (Turns_release h d)); [intros x [<-|[]]; congruence|intros x [<-|[]] [X|[]]; congruence|..];
        intro x; cbn; tauto.
  - intros e w h a F u p i s v O L. cbn [ycmap_grows yc_write cmap_growing cmap_callbacks cb_write]. unfold ycmap_write.
    match goal with |- context [ycolours_of a ?k] => destruct (cmap_of _ k h a F u O) as (hd & q & L' & E) end. rewrite E.
    rewrite L in L'. injection L' as <- _. unfold yio. cbn [o_id o_size].
    destruct (write_colours _ _ _ _ e w) as [[r w1]|x|]; cbn [Mirror]; [|reflexivity|reflexivity].
    eexists _, _. split; [reflexivity|]. split; [reflexivity|apply Same_refl].
  - intros e w h a F u p i s v O L. cbn [ycmap_grows yc_check cmap_growing cmap_callbacks cb_check].
    match goal with |- context [ycolours_of a ?k] => destruct (cmap_of _ k h a F u O) as (hd & q & L' & E) end. rewrite E.
    destruct (zlength u <=? 256); eexists _, _; (split; [reflexivity|]; split; [reflexivity|apply Same_refl]).
  - intros e w h a F u p i s v level O L. cbn [ycmap_grows yc_print cmap_growing cmap_callbacks cb_print]. unfold ycmap_print.
    match goal with |- context [ycolours_of a ?k] => destruct (cmap_of _ k h a F u O) as (hd & q & L' & E) end. rewrite E.
    eexists. split; [reflexivity|apply Same_refl].
  - intros e w h a F u p b G t q i s v v' O O' L L'. cbn [ycmap_grows yc_compare cmap_growing cmap_callbacks cb_compare]. unfold ycmap_compare.
    match goal with |- context [ycolours_of a ?k] => destruct (cmap_of _ k h a F u O) as (hd & x & _ & E) end. rewrite E.
    match goal with |- context [ycolours_of b ?k] => destruct (cmap_of _ k h b G t O') as (hd' & y & _ & E') end. rewrite E'.
    eexists. split; [reflexivity|apply Same_refl].
Qed.

(** ** The growing colour map keeps the contract for values, too *)

Lemma grow_colours_ok : forall e i s t, usual e -> s <= INT_MAX ->
  forall n body l bp w, zlength body = 3 * Z.of_nat n -> bp = 3 * zlength l -> bp + zlength body <= s -> rest w = body ++ t ->
  exists k, grow_colours n i s l bp e w = Done ((true, l ++ three body, bp + zlength body), after t [] k w).
Proof.
  intros e i s t US SM. pose proof (not_strict e US) as NS. induction n as [|n IH]; intros body l bp w L B S R.
  - destruct body as [|x body]; [|rewrite zlength_cons in L; pose proof (zlength_nonneg _ body); lia].
    cbn [grow_colours three]. cbn [Datatypes.app] in R. exists (w_allocs w). unfold ret, after. rewrite <- R, zlength_nil, Z.add_0_r, app_nil_r.
    destruct w as [[? ?] ? ? ?]. reflexivity.
  - destruct body as [|x [|y [|z body]]]; rewrite ?zlength_cons, ?zlength_nil in L; try lia.
    pose proof (zlength_nonneg _ body) as ZN. pose proof (zlength_nonneg _ l) as ZL. rewrite !zlength_cons in S. cbn [grow_colours Datatypes.app] in *.
    assert (B0 : 0 <= bp) by lia.
    erewrite bind_done; [|apply (readField_byte e w i s "red" bp x _ NS B0 ltac:(lia) R)].
    cbv iota beta.
    erewrite bind_done; [|eapply (readField_byte e _ i s "green" (bp + 1) y _ NS); [lia|lia|reflexivity]].
    cbv iota beta.
    erewrite bind_done; [|eapply (readField_byte e _ i s "blue" (bp + 1 + 1) z _ NS); [lia|lia|reflexivity]].
    cbv iota beta. pose proof (half_size_t e) as HS.
    erewrite bind_done; [|rewrite malloc_ok_usual by (assumption || (unfold INT_MAX in *; lia)); reflexivity].
    cbv iota beta.
    match goal with |- exists k, grow_colours _ _ _ ?l' ?b' _ ?w' = _ => destruct (IH body l' b' w') as (k & E) end;
      [lia|rewrite zlength_app, zlength_cons, zlength_nil; lia|lia|reflexivity|].
    exists k. rewrite E. rewrite <- app_assoc. cbn [three Datatypes.app]. rewrite !zlength_cons. unfold after. cbn [w_in w_out w_log w_allocs r_seekable r_rest Datatypes.app].
    do 3 f_equal. lia.
Qed.

Theorem growing_honours : Honours cmap_growing cmap_codec.
Proof.
  constructor; [|apply cmap_honours..].
  intros i body t e w US _ LE R. cbn [co_dec co_used cmap_codec cb_create cb_read cmap_growing cmap_callbacks].
  pose proof (half_size_t e) as HS. pose proof (zlength_nonneg _ body) as ZN.
  assert (MA : exists n, malloc 64 e w = Done (true, after (rest w) [] n w)).
  { eexists. rewrite malloc_ok_usual by (assumption || lia). reflexivity. }
  destruct MA as [n MA].
  destruct (Z.eqb_spec (zlength body mod 3) 0) as [C|C].
  - destruct (grow_colours_ok e i (zlength body) t US LE (Z.to_nat (zlength body / 3)) body [] 0 (after (rest w) [] n w)) as (k & E);
      [|reflexivity|lia|exact R|].
    { rewrite Z2Nat.id by (apply Z.div_pos; lia). pose proof (Z.div_mod (zlength body) 3 ltac:(lia)). lia. }
    do 6 eexists. split; [erewrite bind_done by exact MA; reflexivity|]. split; [exact E|].
    split; [|reflexivity]. rewrite Z.add_0_l. repeat split; try lia.
    rewrite zdrop_skipn, skipn_all2 by (unfold zlength; lia). reflexivity.
  - do 6 eexists. split; [erewrite bind_done by exact MA; reflexivity|]. split; [reflexivity|]. split; reflexivity.
Qed.
