(** * C100: editing a chunk of a file

    A program reads a file, gives one data chunk other contents, updates the sizes
    and writes the tree.  The new file is the old one but for that chunk and for
    the size fields of the groups it is in. *)

From Coq Require Import ZArith List Bool String Lia.
From Coq Require Import Strings.Byte.
From Verif Require Import Machine Io Types Build Read Write Check Iff Spec Lemmas HeapClientProofs EncodeProofs WriteProofs RegProofs RoundProofs ReadProofs SoundProofs ApiProofs CheckProofs ConfProofs UpdateProofs BuiltProofs Heap HeapSpec SessionSpec EditSpec EditProofs Examples CanonProofs PropRegistry PropRead PropWrite PropCheck PropBuild PropSession.
Import ListNotations.
Open Scope Z_scope.

(** ** C100.  The bytes: what comes before the chunk is as long as before, and the
    same but for the bytes of those sizes; what comes behind it is the same. *)
Theorem C100_bytes : forall old new q c c', Edited old new q c c' ->
  exists pre pre' post, encode c = pre ++ encode old ++ post /\ encode c' = pre' ++ encode new ++ post /\
    List.length pre = position c q /\ List.length pre' = position c q /\
    forall k, nth_error pre k <> nth_error pre' k -> In k (size_bytes c q).
Proof. exact edited_bytes. Qed.
Print Assumptions C100_bytes.

(** ** C100.  The tree: every chunk that is not the edited one, inside it or around
    it, is what it was; and if the old contents are put back, so is the tree. *)
Theorem C100_elsewhere : forall old new q c c', Edited old new q c c' ->
  forall r, (forall t, q <> r ++ t) -> (forall t, r <> q ++ t) -> at_path c' r = at_path c r.
Proof. exact edited_elsewhere. Qed.
Print Assumptions C100_elsewhere.

Theorem C100_undone : forall app ft old new q c c' c2, Conforms app ft c -> Edited old new q c c' -> Edited new old q c' c2 -> c2 = c.
Proof.
  intros app ft old new q c c' c2 C E E2. pose proof (edited_back _ _ _ _ _ (Conforms_Sized _ _ _ C) E) as B. exact (edited_unique _ _ _ _ _ E2 _ B).
Qed.
Print Assumptions C100_undone.

Lemma malloc_any : forall n e w, usual e -> n < 2 ^ (size_t_bits e - 1) -> exists m, malloc n e w = Done (true, after (r_rest (w_in w)) [] m w).
Proof. intros n e w U L. eexists. rewrite malloc_ok_usual by assumption. reflexivity. Qed.
Lemma vrun_step : forall rg s p v e w a v1 w1 l v2 w2, vexec rg s v e w = Done ((a, v1), w1) -> vrun rg p v1 e w1 = Done ((l, v2), w2) ->
  vrun rg (s :: p) v e w = Done ((a :: l, v2), w2).
Proof. intros rg s p v e w a v1 w1 l v2 w2 E R. cbn [vrun]. unfold bind at 1. rewrite E. unfold bind at 1. rewrite R. reflexivity. Qed.

(** ** C100.  The program: it succeeds, finds the edited tree valid, and writes it. *)
Theorem C100_edit : forall e w h root q i old contents seekable, usual e ->
  WF no_apps 0 root -> Conforms no_apps 0 root -> top_level root ->
  at_path root q = Some (CRaw i (zlength old) (Some old)) ->
  zlength (encode root) <= INT_MAX ->
  zlength (encode root) - physical (zlength old) + physical (zlength contents) <= INT_MAX ->
  o_room (w_out w) = None ->
  exists new P w' h',
    hrun None (edit_program (encode root) seekable q contents) nothing e w h = Done (([AOk; AOk; AOk; AOk; ABool true; ABool true; AOk], P), w', h') /\
    Edited (CRaw i (zlength old) (Some old)) (CRaw i (zlength contents) (Some contents)) q root new /\
    WF no_apps 0 new /\ Conforms no_apps 0 new /\
    handed (w_out w') = handed (w_out w) ++ encode new /\ w_log w' = w_log w /\ preserves h h'.
Proof.
  intros e w h root q i old t k U W C TL A LR LN NR.
  set (o := CRaw i (zlength old) (Some old)) in *. set (n := CRaw i (zlength t) (Some t)).
  destruct (WF_properties _ _ _ W) as (T & RP & LD). pose proof (LeafData_sizes _ LD) as LS.
  assert (ER : encoded_size root = zlength (encode root)) by (rewrite (WF_encode_length _ _ _ W); symmetry; exact (Conforms_size _ _ _ C LS)).
  assert (ES : encoded_size (replace_at root q n) <= INT_MAX) by (rewrite (replace_size _ _ _ n A); cbn [encoded_size o n]; lia).
  assert (SN : Sized n) by (intros v V; inversion V; exact I).
  pose proof (Conforms_Sized _ _ _ C) as SR.
  assert (TO : Typed no_apps 0 o) by exact (Ty_at q 0 root o T A).
  assert (IDS : ~ In i group_ids) by (inversion TO; assumption).
  assert (TN : Typed no_apps 0 n) by (apply Ty_raw; [exact IDS|reflexivity]).
  assert (TT : Typed no_apps 0 (replace_at root q n)) by (apply (Ty_replace q 0 root o n T A TN); reflexivity).
  assert (LL : LeafSizes (replace_at root q n)).
  { intros y Y LF. destruct (replace_leaf _ _ _ _ Y LF) as [Z|Z]; [exact (LS y Z LF)|]. inversion Z; subst. cbn. apply zlength_nonneg. }
  destruct (C39_path_repaired no_apps 0 (replace_at root q n) q n TT LL ES (at_replaced_here _ _ n _ A)) as (new & UP & S' & US).
  { intros r y Y. apply at_replaced in Y. destruct Y as [(r' & -> & Y)|[(r' & _ & E)|Y]].
    - left. apply SN. apply InTree_at_path. eauto.
    - right. eauto.
    - left. apply SR. apply InTree_at_path. eauto. }
  pose proof (edit_found q root new o n SR S' SN A US) as ED.
  assert (SH : same_head o n) by (split; reflexivity).
  assert (C' : Conforms no_apps 0 new).
  { apply (edited_conforms no_apps o n SH) with q root; [|exact ED|exact C]. intros ft X. inversion X; subst. apply Conf_raw; assumption. }
  assert (T' : Typed no_apps 0 new).
  { apply (edited_typed no_apps o n SH) with q root; [|exact ED|exact T]. intros ft X. inversion X; subst. apply Ty_raw; assumption. }
  assert (LD' : LeafData new).
  { intros y Y. destruct y as [a b d|a b d l|a b d p l|a b d]; try exact Logic.I.
    - destruct (edited_leaf _ _ _ _ _ ED _ Y Logic.I) as [Z|Z]; [exact (LD _ Z)|]. inversion Z; subst. exists t. split; reflexivity.
    - destruct (edited_leaf _ _ _ _ _ ED _ Y Logic.I) as [Z|Z]; [exact (LD _ Z)|]. inversion Z. }
  pose proof (LeafData_sizes _ LD') as LS'. pose proof (Conforms_size _ _ _ C' LS') as CS'.
  assert (EN : encoded_size new = encoded_size (replace_at root q n)) by (rewrite <- (encoded_unsized new), <- (encoded_unsized (replace_at root q n)), US; reflexivity).
  pose proof (physical_range (chunkSize new)) as PR. pose proof (Conforms_nonneg _ _ _ C' LS') as NN.
  assert (W' : WF no_apps 0 new) by (apply Conforms_WF; [exact T'|exact C'|exact LD'|lia]).
  assert (RP' : Represented new) by exact (Conforms_Represented _ _ _ C').
  assert (TL' : top_level new) by (unfold top_level; rewrite (proj1 (edited_head _ _ _ _ _ SH ED)); exact TL).
  assert (LT : zlength t <= INT_MAX).
  { destruct (edited_bytes _ _ _ _ _ ED) as (pre & pre' & post & E1 & _). assert (X : zlength (encode o) = physical (zlength old)) by (cbn [encode o data_of]; apply frame_length).
    rewrite E1, !zlength_app, X in LN. pose proof (zlength_nonneg _ pre). pose proof (zlength_nonneg _ post). pose proof (physical_range (zlength t)). lia. }
  (* the program on values *)
  set (w0 := mkWorld (mkRfile (encode root) k) (w_out w) (w_log w) (w_allocs w)).
  assert (S2 : INT_MAX < 2 ^ (size_t_bits e - 1)) by (unfold size_t_bits; destruct (lp64 e); reflexivity).
  destruct (WF_parsed e no_apps 0 root W) as (lg & P & CV).
  destruct (readFd_complete None no_apps e w0 (encode root) [] root lg default_registry U no_apps_sane P) as [m E].
  { rewrite app_nil_r. reflexivity. } { lia. } { right. left. exact (CV (no_apps_covered _ _ W)). }
  rewrite (CV (no_apps_covered _ _ W)) in E. cbn [trailing_warning app tl] in E.
  set (w1 := after [] [] m w0) in E.
  destruct (malloc_any (zlength t) e w1 U) as (m2 & ML); [lia|].
  set (w2 := after [] [] m2 w1) in ML.
  destruct (C21_writing_succeeds None no_apps e new w2 default_registry U W') as (w3 & WR); [exact NR|].
  destruct (C21_written_is_the_encoding None no_apps e new w2 w3 default_registry U W' WR) as (HD & _ & LG).
  assert (V : exists V, vrun None (edit_program (encode root) k q t) nothing e w = Done (([AOk; AOk; AOk; AOk; ABool true; ABool true; AOk], V), w3)).
  { set (v := set (set (set nothing 0%nat (Some root)) 0%nat (Some (replace_at root q n))) 0%nat (Some new)).
    exists (set v 0%nat None). unfold edit_program. apply vrun_step with (v1 := nothing) (w1 := w0); [reflexivity|].
    apply vrun_step with (v1 := set nothing 0 (Some root)) (w1 := w1); [cbn [vexec]; unfold bind; rewrite E; reflexivity|].
    apply vrun_step with (v1 := set (set nothing 0 (Some root)) 0 (Some (replace_at root q n))) (w1 := w2).
    { cbn [vexec]. unfold at_place. cbn [set Nat.eqb]. rewrite A. unfold bind at 1. rewrite ML. unfold bind, lift. cbn [IFF_setRawChunkData o]. reflexivity. }
    apply vrun_step with (v1 := v) (w1 := w2).
    { cbn [vexec]. unfold at_place. cbn [set Nat.eqb]. rewrite (at_replaced_here _ _ n _ A). unfold bind, lift. rewrite UP. reflexivity. }
    assert (VN : v 0%nat = Some new) by reflexivity. clearbody v.
    apply vrun_step with (v1 := v) (w1 := w2).
    { cbn [vexec]. rewrite VN. unfold bind. rewrite check_root by exact TL'. destruct (check_decides _ _ default_registry new 0 T' RP' LS' ltac:(lia) e w2) as [[_ X]|[X _]]; [rewrite X; reflexivity|contradiction]. }
    apply vrun_step with (v1 := v) (w1 := w3); [cbn [vexec]; rewrite VN; unfold bind; rewrite WR; reflexivity|].
    apply vrun_step with (v1 := set v 0%nat None) (w1 := w3); [cbn [vexec]; rewrite VN; unfold bind, lift, IFF_free; rewrite (free_typed _ _ default_registry new 0 T'); reflexivity|].
    reflexivity. }
  destruct V as (V & VR).
  pose proof (C90_program None no_apps (edit_program (encode root) k q t) e w h default_registry) as CP. rewrite VR in CP.
  destruct CP as (PP & h' & HR & _ & _ & PV & _).
  { unfold edit_program. repeat apply Forall_cons; try exact Logic.I; [exact LT|apply Forall_nil]. }
  exists new, PP, w3, h'. split; [exact HR|]. split; [exact ED|]. split; [exact W'|]. split; [exact C'|]. split; [exact HD|]. split; [exact LG|exact PV].
Qed.
Print Assumptions C100_edit.

(** Reading the file that was written gives the edited tree, on this host or any. *)
Theorem C100_read_back : forall e w root q old_chunk new_chunk new, usual e -> WF no_apps 0 new ->
  Edited old_chunk new_chunk q root new ->
  zlength (encode new) <= INT_MAX -> r_rest (w_in w) = encode new ->
  exists w', IFF_readFd None e w = Done (Some new, w') /\ at_path new q = Some new_chunk.
Proof.
  intros e w root q o n new U W ED L R. 
  assert (S2 : INT_MAX < 2 ^ (size_t_bits e - 1)) by (unfold size_t_bits; destruct (lp64 e); reflexivity).
  destruct (WF_parsed e no_apps 0 new W) as (lg & P & CV).
  destruct (readFd_complete None no_apps e w (encode new) [] new lg default_registry U no_apps_sane P) as [m E].
  { rewrite app_nil_r. exact R. } { lia. } { right. left. exact (CV (no_apps_covered _ _ W)). }
  eexists. split; [exact E|]. clear - ED. induction ED as [|s q c x x' z G E IH D]; [reflexivity|]. cbn [at_path].
  assert (G' : get_child (set_chunkSize (set_child c s x') z) s = Some x').
  { pose proof (get_set_child _ _ x' _ G) as X. destruct (set_child c s x'), s; exact X. }
  rewrite G'. exact IH.
Qed.
Print Assumptions C100_read_back.

Lemma ex_form_conforms : Conforms no_apps 0 ex_form.
Proof.
  destruct (WF_properties _ _ _ ex_form_wf) as (T & R & D).
  destruct (C26_check_decides_conformance None no_apps ex_form (host false) (start []) default_registry T R (LeafData_sizes _ D)) as (b & w' & E & B); [vm_compute; discriminate|].
  vm_compute in E. injection E as <- _. exact (proj2 (proj1 B eq_refl)).
Qed.

(** ** An example: the data of the first chunk of the FORM of [ex_form] *)
Example C100_example : WF no_apps 0 ex_form /\ Conforms no_apps 0 ex_form /\ top_level ex_form /\
  at_path ex_form [InSub 0] = Some (CRaw (ID_of "HELO") (zlength (bytes "abc")) (Some (bytes "abc"))) /\
  position ex_form [InSub 0] = 12%nat /\ size_bytes ex_form [InSub 0] = [4; 5; 6; 7]%nat /\
  match hrun None (edit_program (encode ex_form) true [InSub 0] (bytes "hello")) nothing (host false) (start []) [] with
  | Done ((_, _), w, _) => handed (w_out w) =
        bytes "FORM" ++ [x00; x00; x00; x1e] ++ bytes "TEST"
        ++ bytes "HELO" ++ [x00; x00; x00; x05] ++ bytes "hello" ++ [x00]
        ++ bytes "BYE " ++ [x00; x00; x00; x04] ++ bytes "wxyz"
  | _ => False
  end.
Proof.
  split; [exact ex_form_wf|]. split; [exact ex_form_conforms|]. split; [left; reflexivity|]. vm_compute. repeat split.
Qed.

(** ** C100.  Adding a chunk at the end of a group: the new file is the old one with
    the chunk inserted, but for the size fields of that group and those around it. *)
Theorem C100_added_bytes : forall i s s' g l c q root new, Edited (CGroup i s g l) (CGroup i s' g (l ++ [c])) q root new ->
  exists pre pre' post, encode root = pre ++ post /\ encode new = pre' ++ encode c ++ post /\
    List.length pre = (position root q + List.length (encode (CGroup i s g l)))%nat /\ List.length pre' = List.length pre /\
    forall k, nth_error pre k <> nth_error pre' k -> In k (size_bytes root q) \/ In k (map (Nat.add (position root q)) [4; 5; 6; 7]%nat).
Proof.
  intros i s s' g l c q root new E. destruct (edited_bytes _ _ _ _ _ E) as (pre & pre' & post & E1 & E2 & L1 & L2 & D).
  assert (L : forall v, List.length (be32 v) = 4%nat) by (intro v; pose proof (be32_length v) as X; unfold zlength in X; lia).
  assert (F1 : encode (CGroup i s g l) = be32 i ++ be32 s ++ be32 g ++ flat_map encode l).
  { cbn [encode]. apply frame_even. rewrite zlength_app, be32_length, Z.odd_add, even_all. reflexivity. }
  assert (F2 : encode (CGroup i s' g (l ++ [c])) = be32 i ++ be32 s' ++ (be32 g ++ flat_map encode l) ++ encode c).
  { cbn [encode]. rewrite flat_map_app. cbn [flat_map]. rewrite app_nil_r. rewrite frame_even; [rewrite <- !app_assoc; reflexivity|].
    rewrite !zlength_app, be32_length, !Z.odd_add, even_all, even_encode. reflexivity. }
  exists (pre ++ encode (CGroup i s g l)), (pre' ++ be32 i ++ be32 s' ++ be32 g ++ flat_map encode l), post.
  split; [rewrite E1, <- app_assoc; reflexivity|]. split; [rewrite E2, F2, <- !app_assoc; reflexivity|].
  split; [rewrite app_length, L1; reflexivity|]. split; [rewrite F1, !app_length, !L, L1, L2; reflexivity|].
  intros k N. rewrite F1 in N. destruct (Nat.ltb_spec k (position root q)) as [K|K].
  - left. apply D. rewrite !nth_error_app1 in N by lia. exact N.
  - right. rewrite !(nth_error_app2 pre), !(nth_error_app2 pre') in N by lia. rewrite L1, L2 in N.
    destruct (Nat.ltb_spec (k - position root q) 4) as [K4|K4]; [destruct N; rewrite !nth_error_app1 by (rewrite L; exact K4); reflexivity|].
    destruct (Nat.ltb_spec (k - position root q) 8) as [K8|K8].
    + apply in_map_iff. exists (k - position root q)%nat. split; [lia|]. assert (J : (k - position root q = 4 \/ k - position root q = 5 \/ k - position root q = 6 \/ k - position root q = 7)%nat) by lia. destruct J as [->|[->|[->| ->]]]; cbn; tauto.
    + destruct N. rewrite !(nth_error_app2 (be32 i)), (nth_error_app2 (be32 s)), (nth_error_app2 (be32 s')) by (rewrite ?L; lia). rewrite !L. reflexivity.
Qed.
Print Assumptions C100_added_bytes.

(** What IFF_updateChunkSizes makes of a tree in which one chunk has been replaced *)
Lemma edit_result : forall root q o n, WF no_apps 0 root -> Conforms no_apps 0 root -> at_path root q = Some o ->
  zlength (encode root) - encoded_size o + encoded_size n <= INT_MAX ->
  same_head o n -> Sized n -> Typed no_apps 0 n -> (forall ft, Typed no_apps ft o -> Typed no_apps ft n) -> (forall ft, Conforms no_apps ft o -> Conforms no_apps ft n) ->
  LeafData n ->
  exists new, IFF_updateChunkSizes (replace_at root q n) q = Done (Some new) /\ Edited o n q root new /\
    WF no_apps 0 new /\ Conforms no_apps 0 new /\ Typed no_apps 0 new /\ Represented new /\ LeafSizes new /\ encoded_size new <= INT_MAX.
Proof.
  intros root q o n W C A LN SH SN TN TC CC LDN.
  destruct (WF_properties _ _ _ W) as (T & RP & LD). pose proof (LeafData_sizes _ LD) as LS. pose proof (LeafData_sizes _ LDN) as LSN.
  assert (ER : encoded_size root = zlength (encode root)) by (rewrite (WF_encode_length _ _ _ W); symmetry; exact (Conforms_size _ _ _ C LS)).
  assert (ES : encoded_size (replace_at root q n) <= INT_MAX) by (rewrite (replace_size _ _ _ n A); lia).
  pose proof (Conforms_Sized _ _ _ C) as SR.
  assert (TT : Typed no_apps 0 (replace_at root q n)) by (apply (Ty_replace q 0 root o n T A TN); exact (proj1 SH)).
  assert (LL : LeafSizes (replace_at root q n)).
  { intros y Y LF. destruct (replace_leaf _ _ _ _ Y LF) as [Z|Z]; [exact (LS y Z LF)|exact (LSN y Z LF)]. }
  destruct (C39_path_repaired no_apps 0 (replace_at root q n) q n TT LL ES (at_replaced_here _ _ n _ A)) as (new & UP & S' & US).
  { intros r y Y. apply at_replaced in Y. destruct Y as [(r' & -> & Y)|[(r' & _ & E)|Y]].
    - left. apply SN. apply InTree_at_path. eauto.
    - right. eauto.
    - left. apply SR. apply InTree_at_path. eauto. }
  pose proof (edit_found q root new o n SR S' SN A US) as ED. exists new. split; [exact UP|]. split; [exact ED|].
  assert (C' : Conforms no_apps 0 new) by (apply (edited_conforms no_apps o n SH CC q root new ED); exact C).
  assert (T' : Typed no_apps 0 new) by (apply (edited_typed no_apps o n SH TC q root new ED); exact T).
  assert (LD' : LeafData new).
  { intros y Y. destruct y as [a b d|a b d l|a b d p l|a b d]; try exact Logic.I; (destruct (edited_leaf _ _ _ _ _ ED _ Y Logic.I) as [Z|Z]; [exact (LD _ Z)|exact (LDN _ Z)]). }
  pose proof (LeafData_sizes _ LD') as LS'. pose proof (Conforms_size _ _ _ C' LS') as CS'.
  assert (EN : encoded_size new = encoded_size (replace_at root q n)) by (rewrite <- (encoded_unsized new), <- (encoded_unsized (replace_at root q n)), US; reflexivity).
  pose proof (physical_range (chunkSize new)) as PR. pose proof (Conforms_nonneg _ _ _ C' LS') as NN.
  split; [apply Conforms_WF; [exact T'|exact C'|exact LD'|lia]|]. split; [exact C'|]. split; [exact T'|]. split; [exact (Conforms_Represented _ _ _ C')|]. split; [exact LS'|lia].
Qed.

Lemma Conforms_at : forall q c y ft, Conforms no_apps ft c -> at_path c q = Some y -> exists ft', Conforms no_apps ft' y.
Proof.
  induction q as [|s q IH]; intros c y ft C A; cbn [at_path] in A; [injection A as ->; exists ft; exact C|].
  destruct (get_child c s) as [x|] eqn:G; [|discriminate].
  assert (X : exists ft', Conforms no_apps ft' x).
  { destruct s as [n|n], c; cbn in G; try discriminate; apply nth_error_In in G; inversion C; subst;
      match goal with K : forall c, In c ?l -> _ |- _ => match type of G with In _ l => eexists; apply K; exact G end end. }
  destruct X as (ft' & X). exact (IH x y ft' X A).
Qed.
Lemma replace_same : forall q c x, at_path c q = Some x -> replace_at c q x = c.
Proof.
  induction q as [|s q IH]; intros c x A; cbn [at_path replace_at] in *; [injection A as ->; reflexivity|].
  destruct (get_child c s) as [y|] eqn:G; [|discriminate]. rewrite (IH y x A). apply set_same_child. exact G.
Qed.

Lemma encoded_at : forall q c x, LeafSizes c -> at_path c q = Some x -> encoded_size x <= encoded_size c.
Proof.
  assert (IN : forall l x, (forall c, In c l -> LeafSizes c) -> In x l -> encoded_size x <= sum (map encoded_size l)).
  { induction l as [|c l IH]; intros x L I; [destruct I|]. cbn [map sum fold_right]. fold (sum (map encoded_size l)).
    pose proof (sum_encoded_pos l (fun c H => L c (or_intror H))). pose proof (encoded_size_pos c (L c (or_introl eq_refl))).
    destruct I as [->|I]; [lia|]. specialize (IH x (fun c H => L c (or_intror H)) I). lia. }
  induction q as [|s q IH]; intros c x L A; cbn [at_path] in A; [injection A as ->; lia|].
  destruct (get_child c s) as [y|] eqn:G; [|discriminate].
  assert (X : LeafSizes y /\ encoded_size y <= encoded_size c).
  { destruct s as [n|n], c as [i z d|i z g l|i z g p l|i z v]; cbn in G; try discriminate; apply nth_error_In in G; cbn [encoded_size].
    - assert (LP : forall c, In c p -> LeafSizes c) by (intros c H v V; apply L; eapply In_list_prop; eassumption).
      assert (LL : forall c, In c l -> LeafSizes c) by (intros c H v V; apply L; eapply In_list_sub; eassumption).
      split; [exact (LP y G)|]. pose proof (IN p y LP G). pose proof (sum_encoded_pos l LL). lia.
    - assert (LL : forall c, In c l -> LeafSizes c) by (intros c H v V; apply L; eapply In_group; eassumption).
      split; [exact (LL y G)|]. pose proof (IN l y LL G). lia.
    - assert (LP : forall c, In c p -> LeafSizes c) by (intros c H v V; apply L; eapply In_list_prop; eassumption).
      assert (LL : forall c, In c l -> LeafSizes c) by (intros c H v V; apply L; eapply In_list_sub; eassumption).
      split; [exact (LL y G)|]. pose proof (IN l y LL G). pose proof (sum_encoded_pos p LP). lia. }
  destruct X as (LY & X). specialize (IH y x LY A). lia.
Qed.

Lemma in_group : forall i s g l y, InTree y (CGroup i s g l) -> y = CGroup i s g l \/ exists x, In x l /\ InTree y x.
Proof. intros i s g l y Y. inversion Y; subst; [left; reflexivity|right; eauto]. Qed.

Theorem C100_add : forall e w h root q s g l i contents seekable, usual e ->
  WF no_apps 0 root -> Conforms no_apps 0 root -> top_level root ->
  at_path root q = Some (CGroup FORM_ID s g l) -> ValidId i -> ~ In i group_ids ->
  zlength (encode root) + physical (zlength contents) <= INT_MAX ->
  o_room (w_out w) = None ->
  exists new P w' h',
    hrun None (add_program (encode root) seekable q i contents) nothing e w h = Done (([AOk; AOk; AOk; AOk; AOk; AOk; ABool true; ABool true; AOk], P), w', h') /\
    Edited (CGroup FORM_ID s g l) (CGroup FORM_ID (s + physical (zlength contents)) g (l ++ [CRaw i (zlength contents) (Some contents)])) q root new /\
    WF no_apps 0 new /\ Conforms no_apps 0 new /\
    handed (w_out w') = handed (w_out w) ++ encode new /\ w_log w' = w_log w /\ preserves h h'.
Proof.
  intros e w h root q s g l i t k U W C TL A VI NG LN NR.
  set (o := CGroup FORM_ID s g l) in *. set (c := CRaw i (zlength t) (Some t)). set (n := CGroup FORM_ID (s + physical (zlength t)) g (l ++ [c])).
  destruct (WF_properties _ _ _ W) as (T & RP & LD). pose proof (LeafData_sizes _ LD) as LS.
  destruct (Conforms_at q root o 0 C A) as (fo & CO).
  assert (SO : s = 4 + body_size l) by (exact (Conforms_Sized _ _ _ CO o (In_here _))).
  assert (IO : forall y, InTree y o -> InTree y root) by (intros y Y; apply InTree_at_path in Y; destruct Y as (r & Y); apply InTree_at_path; exists (q ++ r); rewrite (HeapLookupProofs.at_path_app _ _ _ _ A); exact Y).
  assert (LDO : LeafData o) by (intros y Y; exact (LD y (IO y Y))). assert (LSO : LeafSizes o) by exact (LeafData_sizes _ LDO).
  assert (LDC : LeafData c) by (intros y Y; inversion Y; subst; exists t; split; reflexivity).
  assert (CC : Conforms no_apps g c) by (apply Conf_raw; [exact VI|exact NG|reflexivity]).
  assert (NP : chunkId c <> PROP_ID) by (cbn; intro X; apply NG; rewrite X; cbn; tauto).
  assert (ER : encoded_size root = zlength (encode root)) by (rewrite (WF_encode_length _ _ _ W); symmetry; exact (Conforms_size _ _ _ C LS)).
  assert (EN : encoded_size n = encoded_size o + physical (zlength t)).
  { cbn [encoded_size n o]. rewrite map_app, FileProofs.sum_app. cbn [map c encoded_size sum fold_right]. lia. }
  assert (EO : encoded_size o <= zlength (encode root)).
  { rewrite <- ER. exact (encoded_at q root o LS A). }
  destruct (edit_result root q o n W C A) as (new & UP & ED & W' & C' & T' & RP' & LS' & SZ').
  { lia. }
  { split; reflexivity. }
  { intros y Y. destruct (in_group _ _ _ _ _ Y) as [->|(y' & H3 & H4)]; [cbn [declares n]; rewrite body_snoc; cbn [chunkSize c]; lia|]. apply in_app_or in H3. destruct H3 as [H3|[<-|[]]]; [|inversion H4; subst; exact Logic.I].
    apply (Conforms_Sized _ _ _ C). apply IO. eapply In_group; eassumption. }
  { apply Ty_group; [left; reflexivity|]. intros y Y. apply in_app_or in Y. destruct Y as [Y|[<-|[]]]; [|apply Ty_raw; [exact NG|reflexivity]].
    pose proof (Ty_at q 0 root o T A) as TO. inversion TO; subst; auto. }
  { intros ft TO. apply Ty_group; [left; reflexivity|]. intros y Y. apply in_app_or in Y. destruct Y as [Y|[<-|[]]]; [|apply Ty_raw; [exact NG|reflexivity]]. inversion TO; subst; auto. }
  { intros ft X. apply Conf_form.
    - inversion X; subst; assumption.
    - intros y Y. apply in_app_or in Y. destruct Y as [Y|[<-|[]]]; [|split; [exact NP|exact CC]]. inversion X; subst; auto.
    - rewrite body_snoc. cbn [chunkSize c]. lia. }
  { intros y Y. destruct (in_group _ _ _ _ _ Y) as [->|(y' & H3 & H4)]; [exact Logic.I|]. apply in_app_or in H3. destruct H3 as [H3|[<-|[]]]; [apply LDO; eapply In_group; eassumption|exact (LDC y H4)]. }
  assert (TL' : top_level new) by (unfold top_level; rewrite (proj1 (edited_head o n q root new (conj eq_refl eq_refl) ED)); exact TL).
  assert (LT : zlength t <= INT_MAX).
  { pose proof (encoded_size_pos root LS). pose proof (physical_range (zlength t)). lia. }
  (* the program on values *)
  set (w0 := mkWorld (mkRfile (encode root) k) (w_out w) (w_log w) (w_allocs w)).
  assert (S2 : INT_MAX < 2 ^ (size_t_bits e - 1)) by (unfold size_t_bits; destruct (lp64 e); reflexivity).
  assert (PT : 0 <= physical (zlength t)) by (pose proof (physical_range (zlength t)); pose proof (zlength_nonneg _ t); lia).
  destruct (WF_parsed e no_apps 0 root W) as (lg & P & CV).
  destruct (readFd_complete None no_apps e w0 (encode root) [] root lg default_registry U no_apps_sane P) as [m E].
  { rewrite app_nil_r. reflexivity. } { lia. } { right. left. exact (CV (no_apps_covered _ _ W)). }
  rewrite (CV (no_apps_covered _ _ W)) in E. cbn [trailing_warning app tl] in E.
  set (w1 := after [] [] m w0) in E.
  assert (MK : exists w2, IFF_createRawChunk i 0 e w1 = Done (Some (CRaw i 0 None), w2) /\ w_log w2 = w_log w1 /\ w_out w2 = w_out w1).
  { unfold IFF_createRawChunk, bind at 1, ask at 1. destruct (malloc_any sizeof_RawChunk e w1 U) as (ma & MA); [unfold size_t_bits; destruct (lp64 e); reflexivity|].
    unfold bind at 1. rewrite MA. cbn iota. destruct (malloc_any (wrap_u (size_t_bits e) 0) e (after (r_rest (w_in w1)) [] ma w1) U) as (mb & MB); [unfold size_t_bits; destruct (lp64 e); reflexivity|].
    unfold bind at 1. rewrite MB. eexists. split; [reflexivity|]. cbn. rewrite ?app_nil_r. split; reflexivity. }
  destruct MK as (w2 & MK & LG2 & OU2).
  destruct (malloc_any (zlength t) e w2 U) as (m3 & ML); [lia|].
  set (w3 := after (r_rest (w_in w2)) [] m3 w2) in ML.
  destruct (addToGroup_succeeds no_apps fo g o g l c e w3 U CO CC LSO (LeafData_sizes _ LDC) eq_refl) as (w4 & AD & LG4 & _ & OU4).
  { cbn [encoded_size c] in *. lia. }
  change (set_chunkSize (set_subs o (l ++ [c])) (chunkSize o + physical (chunkSize c))) with n in AD.
  assert (LG5 : w_log w4 = w_log w) by (rewrite LG4; cbn; rewrite ?app_nil_r; rewrite LG2; cbn; rewrite ?app_nil_r; reflexivity).
  assert (OU5 : w_out w4 = w_out w) by (rewrite OU4; cbn; rewrite OU2; reflexivity).
  destruct (C21_writing_succeeds None no_apps e new w4 default_registry U W') as (w5 & WR); [rewrite OU5; exact NR|].
  destruct (C21_written_is_the_encoding None no_apps e new w4 w5 default_registry U W' WR) as (HD & _ & LG).
  assert (V : exists V, vrun None (add_program (encode root) k q i t) nothing e w = Done (([AOk; AOk; AOk; AOk; AOk; AOk; ABool true; ABool true; AOk], V), w5)).
  { set (v1 := set nothing 0%nat (Some root)). set (v2 := set v1 1%nat (Some (CRaw i 0 None))). set (v3 := set v2 1%nat (Some c)).
    set (v4 := set (set v3 0%nat (Some (replace_at root q n))) 1%nat None). set (v := set v4 0%nat (Some new)).
    exists (set v 0%nat None). unfold add_program. apply vrun_step with (v1 := nothing) (w1 := w0); [reflexivity|].
    apply vrun_step with (v1 := v1) (w1 := w1); [cbn [vexec]; unfold bind; rewrite E; reflexivity|].
    apply vrun_step with (v1 := v2) (w1 := w2); [cbn [vexec]; unfold bind; rewrite MK; reflexivity|].
    apply vrun_step with (v1 := v3) (w1 := w3).
    { cbn [vexec]. unfold at_place. change (v2 1%nat) with (Some (CRaw i 0 None)). cbn iota. cbn [at_path]. unfold bind at 1. rewrite ML. reflexivity. }
    apply vrun_step with (v1 := v4) (w1 := w4).
    { cbn [vexec]. unfold at_place. change (v3 0%nat) with (Some root). cbn iota. rewrite A. change (v3 1%nat) with (Some c). cbn iota. unfold bind. rewrite AD. reflexivity. }
    apply vrun_step with (v1 := v) (w1 := w4).
    { cbn [vexec]. unfold at_place. change (v4 0%nat) with (Some (replace_at root q n)). cbn iota. rewrite (at_replaced_here _ _ n _ A). unfold bind, lift. rewrite UP. reflexivity. }
    assert (VN : v 0%nat = Some new) by reflexivity. clearbody v.
    apply vrun_step with (v1 := v) (w1 := w4).
    { cbn [vexec]. rewrite VN. unfold bind. rewrite check_root by exact TL'. destruct (check_decides _ _ default_registry new 0 T' RP' LS' ltac:(lia) e w4) as [[_ X]|[X _]]; [rewrite X; reflexivity|contradiction]. }
    apply vrun_step with (v1 := v) (w1 := w5); [cbn [vexec]; rewrite VN; unfold bind; rewrite WR; reflexivity|].
    apply vrun_step with (v1 := set v 0%nat None) (w1 := w5); [cbn [vexec]; rewrite VN; unfold bind, lift, IFF_free; rewrite (free_typed _ _ default_registry new 0 T'); reflexivity|].
    reflexivity. }
  destruct V as (V & VR).
  pose proof (C90_program None no_apps (add_program (encode root) k q i t) e w h default_registry) as CP. rewrite VR in CP.
  destruct CP as (PP & h' & HR & _ & _ & PV & _).
  { unfold add_program. apply Forall_cons; [exact Logic.I|]. apply Forall_cons; [exact Logic.I|]. apply Forall_cons; [cbn; lia|]. apply Forall_cons; [exact LT|].
    apply Forall_cons; [cbn; discriminate|]. repeat apply Forall_cons; try exact Logic.I. apply Forall_nil. }
  exists new, PP, w5, h'. split; [exact HR|]. split; [exact ED|]. split; [exact W'|]. split; [exact C'|]. split; [rewrite HD, OU5; reflexivity|]. split; [rewrite LG; exact LG5|exact PV].
Qed.
Print Assumptions C100_add.

(** An example: a chunk of three bytes more for the FORM of [ex_form] *)
Example C100_add_example : WF no_apps 0 ex_form /\ Conforms no_apps 0 ex_form /\ top_level ex_form /\
  (exists s g l, at_path ex_form [] = Some (CGroup FORM_ID s g l)) /\ ValidId (ID_of "NEW ") /\ ~ In (ID_of "NEW ") group_ids /\
  match hrun None (add_program (encode ex_form) true [] (ID_of "NEW ") (bytes "new")) nothing (host false) (start []) [] with
  | Done ((_, _), w, _) => handed (w_out w) =
        bytes "FORM" ++ [x00; x00; x00; x28] ++ skipn 8 (encode ex_form) ++ bytes "NEW " ++ [x00; x00; x00; x03] ++ bytes "new" ++ [x00]
  | _ => False
  end.
Proof.
  split; [exact ex_form_wf|]. split; [exact ex_form_conforms|]. split; [left; reflexivity|]. split; [eexists; eexists; eexists; reflexivity|].
  split; [exists 78, 69, 87, 32; split; [reflexivity|]; split; [intros x HX; cbn in HX; lia|lia]|]. split; [vm_compute; intros [X|[X|[X|[X|[]]]]]; discriminate X|]. vm_compute. reflexivity.
Qed.

(** ** Without the update it goes wrong.  IFF_check objects, but IFF_writeFd writes
    the tree all the same; and reading the file can give a valid tree from which
    chunks are missing. *)
Theorem C100_without_update_refuted : exists root q i old contents, WF no_apps 0 root /\ Conforms no_apps 0 root /\ top_level root /\
  at_path root q = Some (CRaw i (zlength old) (Some old)) /\
  zlength (encode root) - physical (zlength old) + physical (zlength contents) <= INT_MAX /\
  match hrun None (edit_without_update (encode root) true q contents) nothing (host false) (start []) [] with
  | Done ((answers, _), w, _) => answers = [AOk; AOk; AOk; ABool false; ABool true; AOk] /\
      match IFF_readFd None (host false) (start (handed (w_out w))) with
      | Done (Some c, w') => c = group "FORM" "TEST" [raw "HELO" "sixteen letters."] /\
          match IFF_check c None (host false) w' with Done (b, _) => b = true | _ => False end
      | _ => False
      end
  | _ => False
  end.
Proof.
  exists ex_form, [InSub 0], (ID_of "HELO"), (bytes "abc"), (bytes "sixteen letters."). split; [exact ex_form_wf|]. split; [exact ex_form_conforms|]. split; [left; reflexivity|].
  split; [reflexivity|]. split; [vm_compute; discriminate|]. vm_compute. repeat split.
Qed.
Print Assumptions C100_without_update_refuted.
