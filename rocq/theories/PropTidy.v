(** * C59, continued: what saving a file that was read does to it *)

From Coq Require Import ZArith List Bool String Lia.
From Coq Require Import Strings.Byte.
From Verif Require Import Machine Io Types Read Write Iff Spec Lemmas IoProofs RegProofs EncodeProofs Grammar DetProofs RoundProofs FileProofs CanonProofs WriteProofs SoundProofs ApiProofs ConfProofs CheckProofs CutProofs TidySpec Examples
  PropRegistry PropRead PropWrite PropCheck.
Import ListNotations.
Open Scope Z_scope.

Lemma stored_starts : forall c l, Stored c l -> StartsWith (chunkId c) l.
Proof. intros c l S. destruct S; eexists; reflexivity. Qed.
Lemma WF_id : forall app ft c, WF app ft c -> in_range FId (chunkId c).
Proof.
  intros app ft c W. inversion W; subst; cbn [chunkId]; try assumption.
  - match goal with X : In i _ |- _ => destruct X as [<-|[<-|[<-|[]]]] end; vm_compute; split; congruence.
  - vm_compute; split; congruence.
Qed.

Definition tidies (c : chunk) : Prop := forall l ft, Stored c l -> WF no_apps ft c -> Tidied l (encode c) /\ zlength l = zlength (encode c).

Lemma tidy_members : forall g cs ls, Forall2 Stored cs ls -> (forall c, In c cs -> tidies c /\ WF no_apps g c) ->
  Forall2 Tidied ls (map encode cs) /\ zlength (List.concat ls) = zlength (flat_map encode cs).
Proof.
  intros g cs ls F. induction F as [|c l cs ls S F IH]; intro OK; [split; [constructor|reflexivity]|].
  destruct (OK c (or_introl eq_refl)) as (TC & WC). destruct (TC l g S WC) as (T & Z). destruct (IH (fun x I => OK x (or_intror I))) as (X & Y).
  split; [constructor; assumption|]. cbn [List.concat flat_map]. rewrite !zlength_app. lia.
Qed.

Definition triple (c : chunk) (l : list byte) : member := (chunkId c, l, encode c).
Fixpoint triples (cs : list chunk) (ls : list (list byte)) : list member :=
  match cs, ls with c :: cs, l :: ls => triple c l :: triples cs ls | _, _ => [] end.

Lemma triples_old : forall cs ls, Forall2 Stored cs ls -> map m_old (triples cs ls) = ls.
Proof. intros cs ls F. induction F as [|c l cs ls S F IH]; [reflexivity|]. cbn. f_equal. exact IH. Qed.
Lemma triples_new : forall (f : Z -> bool) cs ls, Forall2 Stored cs ls ->
  map m_new (filter (fun m => f (m_id m)) (triples cs ls)) = map encode (filter (fun c => f (chunkId c)) cs).
Proof.
  intros f cs ls F. induction F as [|c l cs ls S F IH]; [reflexivity|]. cbn [triples filter]. change (m_id (triple c l)) with (chunkId c).
  destruct (f (chunkId c)); [cbn [map]; f_equal; exact IH|exact IH].
Qed.
Lemma triples_good : forall g cs ls, Forall2 Stored cs ls -> (forall c, In c cs -> tidies c /\ WF no_apps g c) ->
  Forall (fun m => in_range FId (m_id m) /\ StartsWith (m_id m) (m_old m) /\ Tidied (m_old m) (m_new m)) (triples cs ls).
Proof.
  intros g cs ls F. induction F as [|c l cs ls S F IH]; intro OK; [constructor|].
  destruct (OK c (or_introl eq_refl)) as (TC & WC). cbn [triples]. constructor; [|exact (IH (fun x I => OK x (or_intror I)))].
  split; [exact (WF_id _ _ _ WC)|]. split; [exact (stored_starts _ _ S)|exact (proj1 (TC l g S WC))].
Qed.
Lemma length_parts : forall (f : chunk -> bool) cs, zlength (flat_map encode cs) =
  zlength (flat_map encode (filter f cs)) + zlength (flat_map encode (filter (fun c => negb (f c)) cs)).
Proof. intros f cs. induction cs as [|c cs IH]; [reflexivity|]. cbn [flat_map filter]. rewrite zlength_app, IH. destruct (f c); cbn [negb flat_map]; rewrite zlength_app; lia. Qed.

Lemma even_members : forall g cs, (forall c, In c cs -> WF no_apps g c) -> (zlength (flat_map encode cs)) mod 2 = 0.
Proof.
  intros g cs. induction cs as [|c cs IH]; intro W; [reflexivity|]. cbn [flat_map]. rewrite zlength_app, (WF_encode_length no_apps g c) by (apply W; left; reflexivity).
  rewrite Z.add_mod, PropWrite.physical_even, IH by (try lia; intros; apply W; right; assumption). reflexivity.
Qed.
Lemma pad_none : forall l, zlength l mod 2 = 0 -> pad l = [].
Proof. intros l E. unfold pad. rewrite Zmod_odd in E. destruct (Z.odd (zlength l)); [discriminate|reflexivity]. Qed.
Lemma no_bytes : forall (p : list byte) n, zlength p = n -> n = 0 -> p = [].
Proof. intros [|x p] n E Z; [reflexivity|]. exfalso. rewrite zlength_cons in E. pose proof (zlength_nonneg _ p). lia. Qed.

Theorem tidy_stored : forall c, tidies c.
Proof.
  intro c. induction c as [i s d|i s g subs IH|i s g props subs IHp IHs|i s vals] using chunk_tree_ind; intros l ft S W.
  - inversion S as [i0 data p ZP| |]; subst. inversion W; subst. cbn [encode data_of]. unfold frame.
    assert (P : pad data = repeat x00 (List.length p) /\ zlength (pad data) = zlength p).
    { unfold pad. rewrite Zmod_odd in ZP. destruct (Z.odd (zlength data)); destruct p as [|a [|b p]]; rewrite ?zlength_cons in ZP; try (pose proof (zlength_nonneg _ p)); try (cbn in ZP; lia); split; reflexivity. }
    destruct P as (P1 & P2). split; [|rewrite !zlength_app, P2; lia]. rewrite P1. constructor; assumption.
  - inversion S as [|i0 s0 g0 subs0 ls p F ZP|]; subst. inversion W; subst.
    match goal with X : forall c, In c subs -> WF _ _ _ |- _ => rename X into WS end. match goal with X : In i _ |- _ => rename X into II end.
    destruct (tidy_members g subs ls F (fun c I => conj (IH c I) (WS c I))) as (T & Z). pose proof (even_members g subs WS) as EV.
    assert (EB : (4 + zlength (flat_map encode subs)) mod 2 = 0) by (rewrite Z.add_mod, EV by lia; reflexivity).
    rewrite (no_bytes p _ ZP EB), app_nil_r in *. cbn [encode]. unfold frame. rewrite (pad_none (be32 g ++ flat_map encode subs)) by (rewrite zlength_app, EncodeProofs.be32_length; exact EB).
    rewrite app_nil_r. rewrite <- Z. split; [|rewrite !zlength_app; lia]. rewrite (flat_map_concat_map encode subs). exact (Td_group i g ls (map encode subs) II T).
  - inversion S as [| |i0 s0 g0 members ls p F ZP]; subst. inversion W; subst.
    match goal with X : forall x, In x (filter (fun y => chunkId y =? PROP_ID) members) -> WF _ _ _ /\ _ |- _ => rename X into WP end.
    match goal with X : forall x, In x (filter (fun y => negb (chunkId y =? PROP_ID)) members) -> WF _ _ _ /\ _ |- _ => rename X into WS end.
    assert (OK : forall c, In c members -> tidies c /\ WF no_apps g c).
    { intros c I. destruct (chunkId c =? PROP_ID) eqn:E.
      - assert (J : In c (filter (fun c => chunkId c =? PROP_ID) members)) by (apply filter_In; split; assumption). split; [exact (IHp c J)|exact (proj1 (WP c J))].
      - assert (J : In c (filter (fun c => negb (chunkId c =? PROP_ID)) members)) by (apply filter_In; split; [exact I|rewrite E; reflexivity]). split; [exact (IHs c J)|exact (proj1 (WS c J))]. }
    destruct (tidy_members g members ls F OK) as (T & Z). pose proof (length_parts (fun c => chunkId c =? PROP_ID) members) as LP.
    set (props := filter (fun c => chunkId c =? PROP_ID) members) in *. set (others := filter (fun c => negb (chunkId c =? PROP_ID)) members) in *.
    pose proof (even_members g members (fun c I => proj2 (OK c I))) as EV. rewrite LP in EV.
    assert (EB : (4 + zlength (flat_map encode props) + zlength (flat_map encode others)) mod 2 = 0) by (rewrite <- Z.add_assoc, Z.add_mod, EV by lia; reflexivity).
    rewrite (no_bytes p _ ZP EB), app_nil_r in *. cbn [encode]. unfold frame.
    rewrite (pad_none (be32 g ++ flat_map encode props ++ flat_map encode others)) by (rewrite !zlength_app, EncodeProofs.be32_length; rewrite Z.add_assoc; exact EB).
    rewrite app_nil_r. replace (4 + zlength (flat_map encode props) + zlength (flat_map encode others)) with (4 + zlength (List.concat ls)) by lia.
    split; [|rewrite !zlength_app; lia]. pose proof (Td_list g (triples members ls) (triples_good g members ls F OK)) as TD. rewrite (triples_old _ _ F) in TD.
    rewrite (triples_new (fun i => i =? PROP_ID) _ _ F : map m_new (filter m_prop (triples members ls)) = _) in TD.
    rewrite (triples_new (fun i => negb (i =? PROP_ID)) _ _ F : map m_new (filter (fun m => negb (m_prop m)) (triples members ls)) = _) in TD.
    rewrite <- !flat_map_concat_map in TD. exact TD.
  - inversion S.
Qed.

(** ** C59.  Reading a file, and writing the tree if it is valid: the new file is the
    old one, except that pad bytes are zero, the PROPs of LISTs have moved in front
    of the other members, and what came behind the chunk is gone. *)
Theorem C59_saved_file : forall e0 e1 e2 w0 w0' w1 w1' c w2,
  usual e0 -> zlength (r_rest (w_in w0)) <= INT_MAX -> IFF_readFd None e0 w0 = Done (Some c, w0') ->
  IFF_check c None e1 w1 = Done (true, w1') -> usual e2 -> o_room (w_out w2) = None ->
  exists file behind tidy w3, r_rest (w_in w0) = file ++ behind /\ Tidied file tidy /\
    IFF_writeFd c None e2 w2 = Done (true, w3) /\ handed (w_out w3) = handed (w_out w2) ++ tidy /\
    zlength tidy = zlength file /\ Canonical tidy.
Proof.
  intros e0 e1 e2 w0 w0' w1 w1' c w2 U0 LM H CK U2 NR.
  destruct (readFd_sound None no_apps e0 w0 c w0' default_registry (not_strict _ U0) no_apps_sane (or_intror no_apps_none) H)
    as (l & t & lg & n & P & R & _).
  destruct (proj1 (Parsed_properties e0 no_apps no_apps_none) _ _ _ _ P) as (RP & LD & SZ).
  pose proof (proj1 (Parsed_Typed e0 no_apps) _ _ _ _ P) as T.
  assert (SZ2 : encoded_size c <= INT_MAX) by (rewrite R, zlength_app in LM; pose proof (zlength_nonneg _ t); lia).
  assert (W : WF no_apps 0 c).
  { destruct (C26_check_decides_conformance None no_apps c e1 w1 default_registry T RP (LeafData_sizes _ LD) SZ2) as (b & wb & E & B).
    rewrite E in CK. injection CK as -> _. destruct (proj1 B eq_refl) as [_ C]. apply Conforms_WF; auto.
    pose proof (Conforms_size _ _ _ C (LeafData_sizes _ LD)). pose proof (physical_range (chunkSize c)). lia. }
  destruct (C21_writing_succeeds None no_apps e2 c w2 default_registry U2 W NR) as (w3 & WR).
  destruct (C21_written_is_the_encoding None no_apps e2 c w2 w3 default_registry U2 W WR) as (HD & _).
  destruct (tidy_stored c l 0 (proj1 (Parsed_Stored e0 no_apps no_apps_none) _ _ _ _ P) W) as (TD & ZL).
  exists l, t, (encode c), w3. split; [exact R|]. split; [exact TD|]. split; [exact WR|]. split; [exact HD|]. split; [symmetry; exact ZL|]. exact (WF_Canonical c 0 W).
Qed.
Print Assumptions C59_saved_file.

(** [Tidied] is a function of the file: there is only one way to tidy it. *)
Definition shaped (o n : list byte) : Prop := exists i s body new, o = be32 i ++ be32 s ++ body /\ n = be32 i ++ be32 s ++ new /\
  in_range FId i /\ 0 <= s /\ zlength body = s + s mod 2.
Lemma group_id_range : forall i, In i [FORM_ID; CAT_ID; PROP_ID] -> in_range FId i.
Proof. intros i [<-|[<-|[<-|[]]]]; vm_compute; split; congruence. Qed.
Lemma shaped_even : forall o n, shaped o n -> zlength o mod 2 = 0 /\ 8 <= zlength o.
Proof.
  intros o n (i & s & body & new & -> & _ & _ & S0 & Z). rewrite !zlength_app, !EncodeProofs.be32_length, Z.
  pose proof (Z.mod_pos_bound s 2 eq_refl). split; [|lia]. replace (4 + (4 + (s + s mod 2))) with (s mod 2 + s mod 2 + (4 + s / 2) * 2 ) by (pose proof (Z.div_mod s 2 ltac:(lia)); lia).
  rewrite Z.mod_add by lia. assert (X : s mod 2 = 0 \/ s mod 2 = 1) by lia. destruct X as [-> | ->]; reflexivity.
Qed.
Lemma even_concat : forall ls : list (list byte), Forall (fun l => zlength l mod 2 = 0) ls -> zlength (List.concat ls) mod 2 = 0.
Proof. intros ls F. induction F as [|l ls E F IH]; [reflexivity|]. cbn [List.concat]. rewrite zlength_app, Z.add_mod, E, IH by lia. reflexivity. Qed.
Lemma short_member : forall (x : list byte) ls, In x ls -> (List.length x <= List.length (List.concat ls))%nat.
Proof. intros x ls. induction ls as [|l ls IH]; intros []; cbn [List.concat]; rewrite app_length; [subst; lia|specialize (IH H); lia]. Qed.
Lemma group_even : forall s, s mod 2 = 0 -> 4 + s = 4 + s + (4 + s) mod 2.
Proof. intros s E. rewrite (Z.add_mod 4 s), E by lia. change ((4 mod 2 + 0) mod 2) with 0. lia. Qed.
Lemma group_length : forall g (l : list byte), zlength (be32 g ++ l) = 4 + zlength l.
Proof. intros. rewrite zlength_app, EncodeProofs.be32_length. reflexivity. Qed.

Lemma tidied_shaped : forall k o n, (List.length o <= k)%nat -> Tidied o n -> shaped o n.
Proof.
  induction k as [|k IH]; intros o n L T.
  - exfalso. assert (E : o = []) by (destruct o; [reflexivity|cbn in L; lia]). rewrite E in T. inversion T.
  - inversion T as [i data p R NG Z|i g olds news II F|g ms F]; subst.
    + exists i, (zlength data), (data ++ p), (data ++ repeat x00 (List.length p)). split; [reflexivity|]. split; [reflexivity|]. split; [exact R|].
      split; [apply zlength_nonneg|]. rewrite zlength_app, Z. reflexivity.
    + eexists i, _, (be32 g ++ List.concat olds), (be32 g ++ List.concat news). split; [reflexivity|]. split; [reflexivity|]. split; [exact (group_id_range i II)|].
      split; [pose proof (zlength_nonneg _ (List.concat olds)); lia|]. rewrite group_length. apply group_even. apply even_concat.
      apply Forall_forall. intros x I. destruct (In_nth_error _ _ I) as (j & J). assert (TX : exists y, Tidied x y).
      { clear - F I. induction F as [|a b la lb A F IH]; [destruct I|]. destruct I as [->|I]; [exists b; exact A|exact (IH I)]. }
      destruct TX as (y & TX). refine (proj1 (shaped_even x y (IH x y _ TX))). pose proof (short_member x olds I). rewrite !app_length in L. cbn in L. lia.
    + eexists LIST_ID, _, (be32 g ++ List.concat (map m_old ms)), _. split; [reflexivity|]. split; [reflexivity|]. split; [vm_compute; split; congruence|].
      split; [pose proof (zlength_nonneg _ (List.concat (map m_old ms))); lia|]. rewrite group_length. apply group_even. apply even_concat.
      apply Forall_forall. intros x I. pose proof (short_member x _ I) as SM. apply in_map_iff in I. destruct I as (m & <- & I). destruct (proj1 (Forall_forall _ _) F m I) as (_ & _ & TX).
      refine (proj1 (shaped_even _ _ (IH _ _ _ TX))). rewrite !app_length in L. cbn in L. lia.
Qed.

Lemma same_start : forall (a b r1 r2 : list byte), zlength a = zlength b -> a ++ r1 = b ++ r2 -> a = b /\ r1 = r2.
Proof.
  induction a as [|x a IH]; intros [|y b] r1 r2 L E; rewrite ?zlength_cons in L.
  - split; [reflexivity|exact E].
  - exfalso. pose proof (zlength_nonneg _ b). change (zlength (@nil byte)) with 0 in L. lia.
  - exfalso. pose proof (zlength_nonneg _ a). change (zlength (@nil byte)) with 0 in L. lia.
  - injection E as -> E. destruct (IH b r1 r2 ltac:(lia) E) as (-> & ->). split; reflexivity.
Qed.
Lemma small_id : forall s, 0 <= s <= INT_MAX -> in_range FId s.
Proof. intros s S. unfold INT_MAX in S. cbn [in_range]. change (2 ^ 32) with 4294967296. lia. Qed.

Lemma shaped_same : forall o1 n1 o2 n2 r1 r2, shaped o1 n1 -> shaped o2 n2 -> zlength o1 <= INT_MAX -> zlength o2 <= INT_MAX ->
  o1 ++ r1 = o2 ++ r2 -> o1 = o2 /\ r1 = r2.
Proof.
  intros o1 n1 o2 n2 r1 r2 (i & s & b & x & -> & _ & R & S0 & Z) (i2 & s2 & b2 & x2 & -> & _ & R2 & S2 & Z2) L1 L2 E.
  rewrite !zlength_app, !EncodeProofs.be32_length in L1, L2. pose proof (Z.mod_pos_bound s 2 eq_refl). pose proof (Z.mod_pos_bound s2 2 eq_refl).
  rewrite <- !app_assoc in E. apply (be32_split FId) in E; [|exact R|exact R2|auto]. destruct E as (-> & E).
  apply (be32_split FId) in E; [|apply small_id; lia|apply small_id; lia|auto]. destruct E as (-> & E).
  apply same_start in E; [|lia]. destruct E as (-> & ->). split; reflexivity.
Qed.

Definition once (k : nat) : Prop := forall o n1 n2, (List.length o <= k)%nat -> zlength o <= INT_MAX -> Tidied o n1 -> Tidied o n2 -> n1 = n2.

Lemma cut_member : forall o1 n1 o2 n2 (r1 r2 : list byte), Tidied o1 n1 -> Tidied o2 n2 -> zlength (o1 ++ r1) <= INT_MAX ->
  o1 ++ r1 = o2 ++ r2 -> o1 = o2 /\ r1 = r2.
Proof.
  intros o1 n1 o2 n2 r1 r2 T1 T2 L E. pose proof (f_equal (@zlength byte) E) as LE. rewrite !zlength_app in *. pose proof (zlength_nonneg _ r1). pose proof (zlength_nonneg _ r2).
  exact (shaped_same o1 n1 o2 n2 r1 r2 (tidied_shaped _ _ _ (le_n _) T1) (tidied_shaped _ _ _ (le_n _) T2) ltac:(lia) ltac:(lia) E).
Qed.
Lemma tidied_some : forall o n, Tidied o n -> o <> [].
Proof. intros o n T ->. inversion T. Qed.

Lemma once_members : forall k, once k -> forall o1 n1, Forall2 Tidied o1 n1 -> forall o2 n2, Forall2 Tidied o2 n2 ->
  (List.length (List.concat o1) <= k)%nat -> zlength (List.concat o1) <= INT_MAX -> List.concat o1 = List.concat o2 -> n1 = n2.
Proof.
  intros k IH o1 n1 F1. induction F1 as [|x y o1 n1 T1 F1 IHF]; intros o2 n2 F2 L Z E.
  - inversion F2 as [|x2 y2 o2' n2' T2 F2']; subst; [reflexivity|]. exfalso. cbn in E. destruct x2; [exact (tidied_some _ _ T2 eq_refl)|discriminate].
  - inversion F2 as [|x2 y2 o2' n2' T2 F2']; subst; [exfalso; cbn in E; destruct x; [exact (tidied_some _ _ T1 eq_refl)|discriminate]|].
    cbn [List.concat] in *. destruct (cut_member _ _ _ _ _ _ T1 T2 Z E) as (<- & E2). rewrite app_length in L. rewrite zlength_app in Z.
    pose proof (zlength_nonneg _ x). pose proof (zlength_nonneg _ (List.concat o1)).
    f_equal; [exact (IH x y y2 ltac:(lia) ltac:(lia) T1 T2)|exact (IHF o2' n2' F2' ltac:(lia) ltac:(lia) E2)].
Qed.

Definition good_member (m : member) : Prop := in_range FId (m_id m) /\ StartsWith (m_id m) (m_old m) /\ Tidied (m_old m) (m_new m).
Lemma once_list : forall k, once k -> forall m1, Forall good_member m1 -> forall m2, Forall good_member m2 ->
  (List.length (List.concat (map m_old m1)) <= k)%nat -> zlength (List.concat (map m_old m1)) <= INT_MAX ->
  List.concat (map m_old m1) = List.concat (map m_old m2) -> m1 = m2.
Proof.
  intros k IH m1 F1. induction F1 as [|a m1 G1 F1 IHF]; intros m2 F2 L Z E.
  - destruct F2 as [|b m2 (_ & _ & T2) F2]; [reflexivity|]. exfalso. cbn in E. destruct (m_old b); [exact (tidied_some _ _ T2 eq_refl)|discriminate].
  - destruct G1 as (R1 & S1 & T1). destruct F2 as [|b m2 (R2 & S2 & T2) F2]; [exfalso; cbn in E; destruct (m_old a); [exact (tidied_some _ _ T1 eq_refl)|discriminate]|].
    cbn [List.concat map] in *. destruct (cut_member _ _ _ _ _ _ T1 T2 Z E) as (EO & E2). rewrite app_length in L. rewrite zlength_app in Z.
    pose proof (zlength_nonneg _ (m_old a)). pose proof (zlength_nonneg _ (List.concat (map m_old m1))).
    f_equal; [|exact (IHF m2 F2 ltac:(lia) ltac:(lia) E2)]. rewrite <- EO in T2, S2. pose proof (IH (m_old a) _ _ ltac:(lia) ltac:(lia) T1 T2) as EN.
    destruct S1 as (x & S1). destruct S2 as (y & S2). rewrite S1 in S2. apply (be32_split FId) in S2; [|exact R1|exact R2|auto]. destruct S2 as (EI & _).
    destruct a as [[ai ao] an], b as [[bi bo] bn]. unfold m_id, m_old, m_new in *. cbn [fst snd] in *. congruence.
Qed.

Lemma group_not_data : forall i, ~ In i group_ids -> In i [FORM_ID; CAT_ID; PROP_ID] -> False.
Proof. intros i NG [<-|[<-|[<-|[]]]]; apply NG; vm_compute; tauto. Qed.
Lemma list_range : in_range FId LIST_ID.
Proof. vm_compute; split; congruence. Qed.
Lemma tidied_once : forall k, once k.
Proof.
  induction k as [|k IH]; intros o n1 n2 L Z T1 T2.
  - exfalso. assert (E : o = []) by (destruct o; [reflexivity|cbn in L; lia]). exact (tidied_some _ _ T1 E).
  - inversion T1 as [i data p R NG ZP E1 N1|i g olds news II F E1 N1|g ms F E1 N1]; subst n1;
      inversion T2 as [i2 data2 p2 R2 NG2 ZP2 E2 N2|i2 g2 olds2 news2 II2 F2 E2 N2|g2 ms2 F2 E2 N2]; subst n2; pose proof Z as Z2; rewrite <- E1 in L, Z; rewrite <- E2 in Z2; rewrite <- E1 in E2;
      rewrite !app_length in L; cbn [be32 List.length] in L; rewrite !zlength_app, !EncodeProofs.be32_length in Z, Z2.
    + apply (be32_split FId) in E2; [|exact R2|exact R|auto]. destruct E2 as (-> & E2).
      pose proof (zlength_nonneg _ data). pose proof (zlength_nonneg _ data2). pose proof (zlength_nonneg _ p). pose proof (zlength_nonneg _ p2).
      apply (be32_split FId) in E2; [|apply small_id; lia|apply small_id; lia|auto]. destruct E2 as (ES & E2).
      apply same_start in E2; [|exact ES]. destruct E2 as (-> & ->). reflexivity.
    + exfalso. apply (be32_split FId) in E2; [|exact (group_id_range _ II2)|exact R|auto]. destruct E2 as (-> & _). exact (group_not_data _ NG II2).
    + exfalso. apply (be32_split FId) in E2; [|exact list_range|exact R|auto]. destruct E2 as (<- & _). apply NG. vm_compute. tauto.
    + exfalso. apply (be32_split FId) in E2; [|exact R2|exact (group_id_range _ II)|auto]. destruct E2 as (-> & _). exact (group_not_data _ NG2 II).
    + apply (be32_split FId) in E2; [|exact (group_id_range _ II2)|exact (group_id_range _ II)|auto]. destruct E2 as (-> & E2).
      apply app_split in E2; [|reflexivity]. destruct E2 as (ES & E2). rewrite ES. apply app_split in E2; [|reflexivity]. destruct E2 as (EG & E2). rewrite EG.
      do 3 f_equal. f_equal. exact (once_members k IH olds news F olds2 news2 F2 ltac:(lia) ltac:(lia) (eq_sym E2)).
    + exfalso. apply (be32_split FId) in E2; [|exact list_range|exact (group_id_range _ II)|auto]. destruct E2 as (<- & _). destruct II as [X|[X|[X|[]]]]; discriminate X.
    + exfalso. apply (be32_split FId) in E2; [|exact R2|exact list_range|auto]. destruct E2 as (-> & _). apply NG2. vm_compute. tauto.
    + exfalso. apply (be32_split FId) in E2; [|exact (group_id_range _ II2)|exact list_range|auto]. destruct E2 as (-> & _). destruct II2 as [X|[X|[X|[]]]]; discriminate X.
    + apply app_inv_head in E2. apply app_split in E2; [|reflexivity]. destruct E2 as (ES & E2). apply app_split in E2; [|reflexivity]. destruct E2 as (EG & E2).
      rewrite (once_list k IH ms F ms2 F2 ltac:(lia) ltac:(lia) (eq_sym E2)), EG. reflexivity.
Qed.
Theorem C59_tidying_is_a_function : forall file tidy1 tidy2, zlength file <= INT_MAX -> Tidied file tidy1 -> Tidied file tidy2 -> tidy1 = tidy2.
Proof. intros file t1 t2 L. exact (tidied_once _ file t1 t2 (le_n _) L). Qed.
Print Assumptions C59_tidying_is_a_function.


(** Files in the canonical form are left as they are, and of the valid ones no
    others are. *)
Theorem C59_canonical_kept : forall l, Canonical l -> Tidied l l.
Proof.
  intros l CN. destruct (Canonical_tree l CN) as (c & W & E). destruct (WF_parsed (host false) no_apps 0 c (W 0)) as (lg & P & _).
  rewrite <- E. exact (proj1 (tidy_stored c _ 0 (proj1 (Parsed_Stored (host false) no_apps no_apps_none) _ _ _ _ P) (W 0))).
Qed.
Print Assumptions C59_canonical_kept.

Theorem C59_unchanged_iff_canonical : forall e0 e1 e2 w0 w0' w1 w1' c w2,
  usual e0 -> zlength (r_rest (w_in w0)) <= INT_MAX -> IFF_readFd None e0 w0 = Done (Some c, w0') ->
  IFF_check c None e1 w1 = Done (true, w1') -> usual e2 -> o_room (w_out w2) = None ->
  exists file behind tidy w3, r_rest (w_in w0) = file ++ behind /\ IFF_writeFd c None e2 w2 = Done (true, w3) /\
    handed (w_out w3) = handed (w_out w2) ++ tidy /\ zlength tidy = zlength file /\ (tidy = file <-> Canonical file).
Proof.
  intros e0 e1 e2 w0 w0' w1 w1' c w2 U0 LM H CK U2 NR.
  destruct (C59_saved_file e0 e1 e2 w0 w0' w1 w1' c w2 U0 LM H CK U2 NR) as (file & behind & tidy & w3 & R & T & W & HD & Z & CN).
  exists file, behind, tidy, w3. split; [exact R|]. split; [exact W|]. split; [exact HD|]. split; [exact Z|]. split; [intros <-; exact CN|].
  intro CF. rewrite R, zlength_app in LM. pose proof (zlength_nonneg _ behind). exact (C59_tidying_is_a_function file tidy file ltac:(lia) T (C59_canonical_kept file CF)).
Qed.
Print Assumptions C59_unchanged_iff_canonical.

(** The file of [C59_example]: its PROP moves and its pad byte becomes zero. *)
Example C59_example_saved :
  (exists w, IFF_writeFd reordered None (host true) (start []) = Done (true, w) /\
     handed (w_out w) = be32 LIST_ID ++ be32 38 ++ bytes "TEST"
       ++ (be32 PROP_ID ++ be32 14 ++ bytes "TEST" ++ bytes "COLR" ++ be32 1 ++ [x72; x00])
       ++ (be32 FORM_ID ++ be32 4 ++ bytes "TEST")) /\
  Tidied disordered (encode reordered) /\ ~ Tidied disordered disordered.
Proof.
  split; [eexists; split; vm_compute; reflexivity|].
  assert (T : Tidied disordered (encode reordered)).
  { refine (Td_list (ID_of "TEST")
      [(FORM_ID, be32 FORM_ID ++ be32 4 ++ bytes "TEST", be32 FORM_ID ++ be32 4 ++ bytes "TEST");
       (PROP_ID, be32 PROP_ID ++ be32 14 ++ bytes "TEST" ++ bytes "COLR" ++ be32 1 ++ [x72; xff], be32 PROP_ID ++ be32 14 ++ bytes "TEST" ++ bytes "COLR" ++ be32 1 ++ [x72; x00])] _).
    constructor; [|constructor; [|constructor]]; (split; [vm_compute; split; congruence|]; split; [eexists; reflexivity|]).
    - refine (Td_group FORM_ID (ID_of "TEST") [] [] _ _); [left; reflexivity|constructor].
    - refine (Td_group PROP_ID (ID_of "TEST") [bytes "COLR" ++ be32 1 ++ [x72; xff]] [bytes "COLR" ++ be32 1 ++ [x72; x00]] _ _); [right; right; left; reflexivity|].
      constructor; [|constructor]. refine (Td_data (ID_of "COLR") [x72] [xff] _ _ _); [vm_compute; split; congruence| |reflexivity].
      intro X. vm_compute in X. intuition discriminate. }
  split; [exact T|]. intro N. assert (L : zlength disordered <= INT_MAX) by (vm_compute; discriminate).
  pose proof (C59_tidying_is_a_function _ _ _ L T N) as E. vm_compute in E. discriminate E.
Qed.
