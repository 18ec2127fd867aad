(** * The diagnostics of IFF_check are true *)

From Coq Require Import ZArith List Bool String Lia.
From Coq Require Import Strings.Byte.
From Verif Require Import Machine Io Types Build Check Iff Spec Lemmas IoProofs RegProofs WriteProofs IdProofs
  CheckProofs DiagSpec.
Import ListNotations.
Open Scope Z_scope.

Definition text (lg : list string) : string := String.concat "" (rev lg).

(** TRUE is silent, FALSE comes with a text that [P] holds of. *)
Definition Says (m : M bool) (P : string -> Prop) : Prop := forall e w,
  match m e w with
  | Done (true, w') => w' = w
  | Done (false, w') => exists lg, w' = add_log lg w /\ P (text lg)
  | _ => True
  end.

(** The same for sizes; the size is even, an int, and right modulo 2^32. *)
Definition SaysZ (m : M Z) (P : string -> Prop) (n : Z) : Prop := forall e w,
  match m e w with
  | Done (z, w') => (w' = w /\ Z.even z = true /\ INT_MIN <= z <= INT_MAX /\ z mod 2 ^ 32 = n mod 2 ^ 32) \/
                    (z = -1 /\ exists lg, w' = add_log lg w /\ P (text lg))
  | _ => True
  end.

Lemma Says_true : forall P, Says (ret true) P.
Proof. intros P e w. reflexivity. Qed.
Lemma Says_undefined : forall u P, Says (undefined u) P.
Proof. intros u P e w. exact I. Qed.
Lemma Says_error : forall s (P : string -> Prop), P s -> Says (IFF_error s ;;; ret false) P.
Proof. intros s P H e w. exists [s]. split; [reflexivity|exact H]. Qed.
Lemma Says_weaken : forall m (P Q : string -> Prop), (forall t, P t -> Q t) -> Says m P -> Says m Q.
Proof.
  intros m P Q H S e w. specialize (S e w). destruct (m e w) as [[[] w']|u|]; [exact S| |exact I|exact I].
  destruct S as (lg & E & X). exists lg. auto.
Qed.
Lemma Says_and : forall m1 m2 P, Says m1 P -> Says m2 P -> Says (ok <- m1 ;; if negb ok then ret false else m2) P.
Proof.
  intros m1 m2 P H1 H2 e w. unfold bind. specialize (H1 e w). destruct (m1 e w) as [[[] w1]|u|]; [| |exact I|exact I]; cbn [negb].
  - subst w1. apply H2.
  - exact H1.
Qed.
Lemma Says_lift : forall A (o : outcome A) k P, (forall a, o = Done a -> Says (k a) P) -> Says (a <- lift o ;; k a) P.
Proof. intros A o k P H e w. unfold bind, lift. destruct o as [a|u|]; [apply (H a eq_refl)|exact I|exact I]. Qed.
Lemma Says_Z : forall m (k : Z -> M bool) P n, SaysZ m P n ->
  (forall z, INT_MIN <= z <= INT_MAX -> z mod 2 ^ 32 = n mod 2 ^ 32 -> Says (k z) P) ->
  Says (z <- m ;; if z =? -1 then ret false else k z) P.
Proof.
  intros m k P n H K e w. unfold bind. specialize (H e w). destruct (m e w) as [[z w1]|u|]; [|exact I|exact I].
  destruct H as [(-> & EV & R & MD)|(-> & lg & E & X)].
  - destruct (Z.eqb_spec z (-1)) as [->|N]; [discriminate EV|]. apply K; assumption.
  - cbn. exists lg. auto.
Qed.

(** ** Texts *)

Lemma append_assoc : forall a b c : string, ((a ++ b) ++ c)%string = (a ++ b ++ c)%string.
Proof. induction a as [|x a IH]; intros b c; cbn; [reflexivity|]. rewrite IH. reflexivity. Qed.
Lemma append_nil : forall a : string, (a ++ "")%string = a.
Proof. induction a as [|x a IH]; cbn; [reflexivity|]. rewrite IH. reflexivity. Qed.

Lemma chr_eq : forall x y, x mod 256 = y mod 256 -> chr x = chr y.
Proof. intros x y H. unfold chr. rewrite (z2b_eq x y H). reflexivity. Qed.

Lemma id_log_spec : forall i, id_log i = [chr i; chr (i / 2 ^ 8); chr (i / 2 ^ 16); chr (i / 2 ^ 24)].
Proof.
  intro i. unfold id_log. change 0xff0000 with (255 * 2 ^ 16). change 0xff00 with (255 * 2 ^ 8). rewrite !land_field by lia.
  change 0xff with (Z.ones 8). rewrite Z.land_ones, Z.shiftr_div_pow2 by lia. change (2 ^ 8) with 256 at 1.
  rewrite (chr_eq (i mod 256) i) by apply Zmod_mod. rewrite (chr_eq ((i / 2 ^ 8) mod 256) (i / 2 ^ 8)) by apply Zmod_mod.
  rewrite (chr_eq ((i / 2 ^ 16) mod 256) (i / 2 ^ 16)) by apply Zmod_mod. reflexivity.
Qed.

Lemma text_id : forall a i b, text (framed_log a i b) = (a ++ id_name i ++ b)%string.
Proof.
  intros a i b. unfold framed_log. rewrite id_log_spec. unfold text, id_name, be32, chr.
  cbn [app rev]. cbn [string_of_list_byte map]. 
  cbn. reflexivity.
Qed.

Lemma Says_framed : forall a i b (P : string -> Prop), P (a ++ id_name i ++ b)%string ->
  Says (IFF_error a ;;; IFF_errorId i ;;; IFF_error b ;;; ret false) P.
Proof. intros a i b P H e w. rewrite run_framed_ret. eexists. split; [reflexivity|]. rewrite text_id. exact H. Qed.

Lemma Says_misplaced : forall i name (P : string -> Prop), P (misplaced i name) -> Says (not_allowed i name) P.
Proof. intros i name P H. unfold not_allowed. apply Says_framed. exact H. Qed.

(** ** IDs *)

Lemma id_chars : forall a b c d, byte_val a -> byte_val b -> byte_val c -> byte_val d ->
  map b2z (be32 (id4 a b c d)) = [a; b; c; d].
Proof.
  intros a b c d A B C D. destruct (id4_div a b c d A B C D) as (E1 & E2 & E3 & E4).
  unfold be32. cbn [map]. rewrite !b2z_z2b, E1, E2, E3, E4. rewrite Z.mod_small by exact A. reflexivity.
Qed.

Lemma chars_say : forall e l (P : string -> Prop), (forall x, In x l -> byte_val x) ->
  (forall x, In x l -> ~ (0x20 <= x <= 0x7e) -> P ("Illegal character: '" ++ string_of_list_byte [z2b x] ++ "' in ID!" ++ nl)%string) ->
  Says (checkIdChars (map (to_char e) l)) P.
Proof.
  intros e l P. induction l as [|x l IH]; intros B H; cbn [map checkIdChars]; [apply Says_true|].
  rewrite bad_char by (apply B; left; reflexivity). destruct (printable x) eqn:PX; cbn [negb].
  - apply IH; intros; [apply B|apply H]; try assumption; right; assumption.
  - apply Says_error. rewrite chr_to_char. apply (H x); [left; reflexivity|]. unfold printable in PX.
    intro R. rewrite (proj2 (Z.leb_le 32 x)), (proj2 (Z.leb_le x 126)) in PX by lia. discriminate.
Qed.

Lemma checkId_says : forall i, in_range FId i -> Says (IFF_checkId i) (IdFault i).
Proof.
  intros i R e w. destruct (id4_surj i R) as (a & b & c & d & A & B & C & D & ->).
  unfold IFF_checkId. unfold bind at 1. unfold ask. cbv zeta. rewrite idToString_bytes by assumption.
  refine (Says_and _ _ _ _ _ e w).
  - apply (chars_say e [a; b; c; d]).
    + intros x [<-|[<-|[<-|[<-|[]]]]]; assumption.
    + intros x I N. apply ID_char; [|exact N]. unfold id_char. rewrite id_chars by assumption. exact I.
  - cbn [hd]. destruct (Z.eqb_spec (to_char e a) 0x20) as [E|N]; [|apply Says_true]. apply Says_error. apply ID_space.
    assert (a = 32) by (destruct (to_char_cases e a A) as [[L X]|[L [X|X]]]; unfold byte_val in *; lia). subst a.
    unfold be32. cbn [hd_error]. destruct (id4_div 32 b c d A B C D) as (E1 & _). rewrite E1. reflexivity.
Qed.

Lemma form_char : forall e x, byte_val x ->
  (((0x61 <=? to_char e x) && (to_char e x <=? 0x7a)) || (to_char e x =? 0x2e)) = true -> 97 <= x <= 122 \/ x = 46.
Proof.
  intros e x B H. unfold byte_val in B. rewrite orb_true_iff, andb_true_iff, !Z.leb_le, Z.eqb_eq in H.
  destruct (to_char_cases e x B) as [[L X]|[L [X|X]]]; rewrite X in H; lia.
Qed.

Lemma form_chars_say : forall e l (P : string -> Prop), (forall x, In x l -> byte_val x) ->
  (forall x, In x l -> 97 <= x <= 122 \/ x = 46 ->
     P ("No lowercase characters or punctuation marks allowed in a form type ID!" ++ nl)%string) ->
  Says (checkFormTypeChars (map (to_char e) l)) P.
Proof.
  intros e l P. induction l as [|x l IH]; intros B H; cbn [map checkFormTypeChars]; [apply Says_true|].
  destruct (((0x61 <=? to_char e x) && (to_char e x <=? 0x7a)) || (to_char e x =? 0x2e)) eqn:F.
  - apply Says_error. apply (H x); [left; reflexivity|]. apply (form_char e); [apply B; left; reflexivity|exact F].
  - apply IH; intros x' I; [apply B; right; exact I|apply H; right; exact I].
Qed.

Lemma checkFormType_says : forall g, in_range FId g -> Says (IFF_checkFormType g) (FormTypeFault g).
Proof.
  intros g R. unfold IFF_checkFormType. apply Says_and.
  - eapply Says_weaken; [|apply checkId_says; exact R]. intros t H. apply FT_id. exact H.
  - intros e w. unfold bind at 1. unfold ask.
    destruct (id4_surj g R) as (a & b & c & d & A & B & C & D & ->). rewrite idToString_bytes by assumption.
    refine (Says_and _ _ _ _ _ e w).
    + apply (form_chars_say e [a; b; c; d]).
      * intros x [<-|[<-|[<-|[<-|[]]]]]; assumption.
      * intros x I L. apply (FT_char _ x); [|exact L]. unfold id_char. rewrite id_chars by assumption. exact I.
    + set (g := id4 a b c d) in *. clearbody g. destruct (is_reserved_form_type g) eqn:RS; [|apply Says_true]. apply Says_framed. apply FT_reserved.
      unfold is_reserved_form_type in RS. apply existsb_exists in RS. destruct RS as (x & I & E). apply Z.eqb_eq in E. subst x.
      vm_compute in I. vm_compute. intuition.
Qed.

(** ** Groups *)

Lemma body_size_cons : forall c l, body_size (c :: l) = physical (chunkSize c) + body_size l.
Proof. reflexivity. Qed.
Lemma body_size_app : forall a b, body_size (a ++ b) = body_size a + body_size b.
Proof. induction a as [|x a IH]; intro b; [reflexivity|]. cbn [app]. rewrite !body_size_cons, IH. lia. Qed.

Lemma increment_mod : forall acc c z, INT_MIN <= acc <= INT_MAX -> IFF_incrementChunkSize acc c = Done z ->
  INT_MIN <= z <= INT_MAX /\ z mod 2 ^ 32 = (acc + physical (chunkSize c)) mod 2 ^ 32.
Proof.
  intros acc c z A H. unfold IFF_incrementChunkSize in H. destruct (Z.ltb_spec INT_MAX (acc + IFF_ID_SIZE)) as [|L]; [discriminate|].
  set (r := wrap_s 32 (acc + IFF_ID_SIZE + 4 + chunkSize c)) in *.
  assert (RR : INT_MIN <= r <= INT_MAX).
  { pose proof (wrap_s_range 32 (acc + IFF_ID_SIZE + 4 + chunkSize c) ltac:(lia)) as X. fold r in X. unfold INT_MIN, INT_MAX.
    change (2 ^ (32 - 1)) with 2147483648 in X. lia. }
  assert (RM : r mod 2 ^ 32 = (acc + 8 + chunkSize c) mod 2 ^ 32).
  { unfold r. rewrite wrap_s_mod by lia. f_equal. unfold IFF_ID_SIZE. lia. }
  rewrite c_odd_odd in H. unfold physical, round_even. rewrite mod2_odd. destruct (Z.odd (chunkSize c)).
  - destruct (Z.eqb_spec r INT_MAX) as [|N]; [discriminate|]. injection H as <-. split; [lia|].
    rewrite Z.add_mod, RM by lia. rewrite <- Z.add_mod by lia. f_equal. lia.
  - injection H as <-. split; [exact RR|]. rewrite RM. f_equal. lia.
Qed.

Lemma check_subs_says : forall ck sub l ft acc P,
  (forall c, In c l -> Says (sub c) P) -> (forall c, In c l -> Says (ck c ft) P) ->
  Z.even acc = true -> INT_MIN <= acc <= INT_MAX ->
  SaysZ (check_subs ck sub l ft acc) P (acc + body_size l).
Proof.
  intros ck sub l ft acc P. revert acc. induction l as [|c l IH]; intros acc HS HC EV R e w; cbn [check_subs].
  - left. split; [reflexivity|]. split; [exact EV|]. split; [exact R|]. f_equal. unfold body_size. cbn. lia.
  - unfold bind at 1. pose proof (HS c (or_introl eq_refl) e w) as S1. destruct (sub c e w) as [[[] w1]|u|]; [| |exact I|exact I]; cbn [negb].
    2:{ right. split; [reflexivity|exact S1]. }
    subst w1. unfold bind at 1. pose proof (HC c (or_introl eq_refl) e w) as S2.
    destruct (ck c ft e w) as [[[] w1]|u|]; [| |exact I|exact I]; cbn [negb].
    2:{ right. split; [reflexivity|exact S2]. }
    subst w1. unfold bind at 1, lift. destruct (IFF_incrementChunkSize acc c) as [z|u|] eqn:INC; [|exact I|exact I].
    destruct (increment_mod _ _ _ R INC) as [RZ MZ].
    specialize (IH z (fun x X => HS x (or_intror X)) (fun x X => HC x (or_intror X)) (increment_even _ _ _ EV INC) RZ e w).
    destruct (check_subs ck sub l ft z e w) as [[y w1]|u|]; [|exact I|exact I].
    destruct IH as [(A & B & C & D)|X]; [left|right; exact X]. split; [exact A|]. split; [exact B|]. split; [exact C|].
    rewrite D, body_size_cons, Z.add_assoc. rewrite Z.add_mod, MZ by lia. rewrite <- Z.add_mod by lia. reflexivity.
Qed.

Lemma int_wrap : forall z n, INT_MIN <= z <= INT_MAX -> z mod 2 ^ 32 = n mod 2 ^ 32 -> z = wrap_s 32 n.
Proof.
  intros z n R M. assert (W : wrap_s 32 z = z) by (apply wrap_s_id; [lia|]; unfold INT_MIN, INT_MAX in R; change (2 ^ (32 - 1)) with 2147483648; lia).
  rewrite <- W. unfold wrap_s. rewrite (Z.add_mod z), (Z.add_mod n), M by lia. reflexivity.
Qed.

Lemma groupSize_says : forall c z n (P : string -> Prop), in_range FLong (chunkSize c) -> INT_MIN <= z <= INT_MAX -> z mod 2 ^ 32 = n mod 2 ^ 32 ->
  (chunkSize c <> n -> P (wrong_size (chunkId c) (chunkSize c) n)) -> Says (IFF_checkGroupChunkSize c z) P.
Proof.
  intros c z n P RC RZ M H. unfold IFF_checkGroupChunkSize. destruct (Z.eqb_spec z (chunkSize c)) as [->|N]; [apply Says_true|].
  apply Says_framed. rewrite (int_wrap z n RZ M) in *. apply H. intro E. apply N. rewrite <- E.
  apply wrap_s_id; [lia|]. cbn in RC. change (2 ^ (32 - 1)) with 2147483648. lia.
Qed.

Lemma add_int_says : forall a b (k : Z -> M bool) P, (INT_MIN <= a + b <= INT_MAX -> Says (k (a + b)) P) ->
  Says (z <- lift (add_int a b) ;; k z) P.
Proof.
  intros a b k P H. apply Says_lift. intros z E. unfold add_int in E.
  destruct (Z.ltb_spec INT_MAX (a + b)), (Z.ltb_spec (a + b) INT_MIN); cbn [orb] in E; try discriminate. injection E as <-. apply H. lia.
Qed.

Lemma plus_mod : forall a b n k, a mod k = n mod k -> k <> 0 -> (b + a) mod k = (b + n) mod k.
Proof. intros a b n k H K. rewrite Z.add_mod, H by exact K. rewrite <- Z.add_mod by exact K. reflexivity. Qed.

Lemma cat_sub_says : forall app ft grp g l c (P : string -> Prop), as_group grp = Some (g, l) -> Typed app ft c ->
  (~ In (chunkId c) [FORM_ID; CAT_ID; LIST_ID] -> P (misplaced (chunkId c) "CAT")) ->
  (g <> JJJJ_ID -> group_type_of c <> Some g -> P ("Sub form does not match contentsType of the CAT!" ++ nl)%string) ->
  Says (IFF_checkCATSubChunk grp c) P.
Proof.
  intros app ft grp g l c P AG T H1 H2. unfold IFF_checkCATSubChunk. rewrite AG. change IFF_ID_JJJJ with JJJJ_ID.
  destruct (checkValidCATSubChunkId (chunkId c)) eqn:V; cbn [negb].
  - apply valid_cat_id in V.
    destruct (Typed_group_type app ft c T) as (g2 & l2 & A2 & G2); [unfold group_ids; simpl in *; tauto|]. rewrite A2.
    destruct (Z.eqb_spec g JJJJ_ID) as [->|NJ]; cbn [negb]; [apply Says_true|].
    destruct (Z.eqb_spec g2 g) as [->|NE]; cbn [negb]; [apply Says_true|]. apply Says_error. apply H2; [exact NJ|]. congruence.
  - apply Says_misplaced. apply H1. rewrite <- valid_cat_id. congruence.
Qed.

Lemma form_sub_says : forall g c (P : string -> Prop), (chunkId c = PROP_ID -> P (misplaced (chunkId c) "FORM")) -> Says (form_subChunkCheck g c) P.
Proof.
  intros g c P H. unfold form_subChunkCheck. change IFF_ID_PROP with PROP_ID. destruct (Z.eqb_spec (chunkId c) PROP_ID) as [E|]; [|apply Says_true].
  apply Says_misplaced. apply H. exact E.
Qed.
Lemma prop_sub_says : forall g c (P : string -> Prop), (In (chunkId c) group_ids -> P (misplaced (chunkId c) "PROP")) -> Says (prop_subChunkCheck g c) P.
Proof.
  intros g c P H. unfold prop_subChunkCheck. change IFF_ID_PROP with PROP_ID. change IFF_ID_FORM with FORM_ID. change IFF_ID_LIST with LIST_ID. change IFF_ID_CAT with CAT_ID.
  destruct ((chunkId c =? FORM_ID) || (chunkId c =? LIST_ID) || (chunkId c =? CAT_ID) || (chunkId c =? PROP_ID)) eqn:E; [|apply Says_true].
  apply Says_misplaced. apply H. rewrite !orb_true_iff, !Z.eqb_eq in E. unfold group_ids. simpl. intuition congruence.
Qed.

Lemma IntSizes_sub : forall c p, IntSizes p -> (forall x, InTree x c -> InTree x p) -> IntSizes c.
Proof. intros c p L H x I. apply L. apply H. exact I. Qed.

Theorem check_says : forall rg app, Realises rg app -> forall c ft, Typed app ft c -> Represented c -> IntSizes c ->
  Says (IFF_checkChunk rg c ft) (Fault app ft c).
Proof.
  intros rg app RG.
  induction c as [i s d|i s g subs IH|i s g props subs IHp IHs|i s vals] using chunk_tree_ind; intros ft T RP IS; cbn [IFF_checkChunk];
    destruct (RP _ (In_here _)) as [RI RGT]; (apply Says_and; [eapply Says_weaken; [intros t X; apply F_id; exact X|apply checkId_says; exact RI]|]);
    apply Says_lift; intros h EH; rewrite RG in EH; injection EH as <-; cbn [chunkId].
  - inversion T as [? ? ? ? NG A| | |]; subst. rewrite data_handler by assumption. rewrite A. apply Says_true.
  - specialize (RGT g eq_refl). inversion T as [| |? ? ? ? ? II TS|]; subst.
    assert (CK : forall c, In c subs -> Says (IFF_checkChunk rg c g) (Fault app ft (CGroup i s g subs))).
    { intros c Hc. eapply Says_weaken; [|apply IH; [exact Hc|apply TS; exact Hc| |]].
      - intros t X. apply (F_below _ _ (CGroup i s g subs) g c); [reflexivity|exact Hc|exact X].
      - eapply Represented_sub; [exact RP|]. intros; eapply In_group; eassumption.
      - eapply IntSizes_sub; [exact IS|]. intros; eapply In_group; eassumption. }
    assert (GRP : forall tc sc, Says (tc g) (Fault app ft (CGroup i s g subs)) ->
       (forall c, In c subs -> Says (sc (CGroup i s g subs) c) (Fault app ft (CGroup i s g subs))) ->
       Says (IFF_checkGroup (IFF_checkChunk rg) tc sc (CGroup i s g subs)) (Fault app ft (CGroup i s g subs))).
    { intros tc sc DT DS. cbn [IFF_checkGroup]. apply Says_and; [exact DT|].
      eapply Says_Z; [apply check_subs_says; [exact DS|exact CK|reflexivity|unfold INT_MIN, INT_MAX; lia]|].
      intros z RZ MZ. apply add_int_says. intro RS.
      apply groupSize_says with (n := 4 + body_size subs); [exact (IS _ (In_here _))|exact RS| |].
      - rewrite Z.add_comm. unfold IFF_ID_SIZE. apply plus_mod; [rewrite MZ; reflexivity|lia].
      - intro N. apply (F_size _ _ (CGroup i s g subs) g); [reflexivity|exact N]. }
    assert (EH : expected_handler app ft i = (if i =? FORM_ID then HForm else if i =? CAT_ID then HCAT else HProp)).
    { rewrite RegProofs.group_handler by (unfold group_ids; simpl in *; tauto). destruct II as [<-|[<-|[<-|[]]]]; reflexivity. }
    rewrite EH. destruct II as [<-|[<-|[<-|[]]]].
    + change (FORM_ID =? FORM_ID) with true. cbv iota. cbn [checkExtensionChunk]. unfold IFF_checkForm. apply GRP.
      * eapply Says_weaken; [|apply checkFormType_says; exact RGT]. intros t X. apply (F_form_type _ _ (CGroup _ _ g _) g); [left; reflexivity|reflexivity|exact X].
      * intros c Hc. apply form_sub_says. intro E. apply F_in_form; [reflexivity|exact Hc|exact E].
    + change (CAT_ID =? FORM_ID) with false. change (CAT_ID =? CAT_ID) with true. cbv iota. cbn [checkExtensionChunk]. unfold IFF_checkCAT. apply GRP.
      * eapply Says_weaken; [|apply checkId_says; exact RGT]. intros t X. apply (F_contents_type _ _ (CGroup _ _ g _) g); [left; reflexivity|reflexivity|exact X].
      * intros c Hc. eapply cat_sub_says; [reflexivity|apply TS; exact Hc| |].
        -- intro N. apply F_in_cat; [left; reflexivity|exact Hc|exact N].
        -- intros NJ N. apply (F_contents _ _ _ g c); [left; reflexivity|reflexivity|exact NJ|exact Hc|exact N].
    + change (PROP_ID =? FORM_ID) with false. change (PROP_ID =? CAT_ID) with false. cbv iota. cbn [checkExtensionChunk]. unfold IFF_checkProp. apply GRP.
      * eapply Says_weaken; [|apply checkFormType_says; exact RGT]. intros t X. apply (F_form_type _ _ (CGroup _ _ g _) g); [right; left; reflexivity|reflexivity|exact X].
      * intros c Hc. apply prop_sub_says. intro E. apply F_in_prop; [reflexivity|exact Hc|exact E].
  - specialize (RGT g eq_refl). inversion T as [| | |? ? ? ? ? TP TS]; subst.
    set (c0 := CList LIST_ID s g props subs) in *.
    assert (CP : forall c, In c props -> Says (IFF_checkChunk rg c g) (Fault app ft c0)).
    { intros c Hc. eapply Says_weaken; [|apply IHp; [exact Hc|apply TP; exact Hc| |]].
      - intros t X. apply (F_below _ _ c0 g c); [reflexivity|apply in_or_app; left; exact Hc|exact X].
      - eapply Represented_sub; [exact RP|]. intros; eapply In_list_prop; eassumption.
      - eapply IntSizes_sub; [exact IS|]. intros; eapply In_list_prop; eassumption. }
    assert (CS : forall c, In c subs -> Says (IFF_checkChunk rg c g) (Fault app ft c0)).
    { intros c Hc. eapply Says_weaken; [|apply IHs; [exact Hc|apply TS; exact Hc| |]].
      - intros t X. apply (F_below _ _ c0 g c); [reflexivity|apply in_or_app; right; exact Hc|exact X].
      - eapply Represented_sub; [exact RP|]. intros; eapply In_list_sub; eassumption.
      - eapply IntSizes_sub; [exact IS|]. intros; eapply In_list_sub; eassumption. }
    rewrite RegProofs.group_handler by (unfold group_ids; simpl; tauto).
    change (Says (IFF_checkList (IFF_checkChunk rg) c0) (Fault app ft c0)). cbn [IFF_checkList c0]. apply Says_and.
    + eapply Says_weaken; [|apply checkId_says; exact RGT]. intros t X. apply (F_contents_type _ _ c0 g); [right; left; reflexivity|reflexivity|exact X].
    + eapply Says_Z; [apply check_subs_says; [intros; apply Says_true|exact CP|reflexivity|unfold INT_MIN, INT_MAX; lia]|].
      intros z RZ MZ. apply add_int_says. intro RS.
      eapply Says_Z; [apply check_subs_says; [|exact CS|reflexivity|unfold INT_MIN, INT_MAX; lia]|].
      * intros c Hc. eapply cat_sub_says; [reflexivity|apply TS; exact Hc| |].
        -- intro N. apply F_in_cat; [right; left; reflexivity|exact Hc|exact N].
        -- intros NJ N. apply (F_contents _ _ _ g c); [right; left; reflexivity|reflexivity|exact NJ|exact Hc|exact N].
      * intros z2 RZ2 MZ2. apply add_int_says. intro RS2.
        apply groupSize_says with (n := 4 + body_size (props ++ subs)); [exact (IS _ (In_here _))|exact RS2| |].
        -- rewrite body_size_app. rewrite Z.add_assoc. rewrite (Z.add_mod (IFF_ID_SIZE + z)), MZ2 by lia. rewrite <- Z.add_mod by lia.
           rewrite <- !Z.add_assoc. apply plus_mod; [|lia]. rewrite Z.add_mod, MZ by lia. rewrite <- Z.add_mod by lia. reflexivity.
        -- intro N. apply (F_size _ _ c0 g); [reflexivity|exact N].
  - inversion T as [|? ? ? ? ? NG A KM| |]; subst. rewrite data_handler by assumption. rewrite A. cbn [checkExtensionChunk check_fields_chunk].
    destruct (fkinds_eqb _ _); [|apply Says_undefined]. destruct (fs_check spec (map snd vals)) as [t|] eqn:F; [|apply Says_true].
    apply Says_error. apply (F_fields _ _ _ _ _ spec); assumption.
Qed.

(** ** Faults are faults *)

Lemma IdFault_invalid : forall i t, IdFault i t -> ~ ValidId i.
Proof.
  intros i t F (a & b & c & d & -> & R & N).
  assert (BV : forall x, In x [a; b; c; d] -> byte_val x) by (intros x I; unfold byte_val; specialize (R x I); lia).
  assert (E : map b2z (be32 (id4 a b c d)) = [a; b; c; d]) by (apply id_chars; apply BV; simpl; tauto).
  destruct F as [x I X|H].
  - apply X. apply R. unfold id_char in I. rewrite E in I. exact I.
  - destruct (be32 (id4 a b c d)) as [|y l] eqn:EB; [discriminate|]. cbn [hd_error] in H. injection H as ->. injection E as E _. apply N. symmetry. exact E.
Qed.

Lemma FormTypeFault_invalid : forall g t, FormTypeFault g t -> ~ ValidFormType g.
Proof.
  intros g t F (V & C & R). destruct F as [t F|x I L|I].
  - exact (IdFault_invalid _ _ F V).
  - destruct V as (a & b & c & d & -> & RG & N).
    assert (BV : forall x, In x [a; b; c; d] -> 0 <= x < 256) by (intros y J; specialize (RG y J); lia).
    unfold id_char in I. rewrite id_chars in I by (apply BV; simpl; tauto). destruct (C a b c d eq_refl BV x I). lia.
  - exact (R I).
Qed.

Ltac conf C := inversion C; subst; cbn [chunkId members other_members group_type_of chunkSize] in *.

Lemma Fault_broken : forall app ft c t, Fault app ft c t -> ~ Conforms app ft c.
Proof.
  assert (VG : forall i, In i group_ids -> ValidId i).
  { intros i I. unfold group_ids in I. simpl in I. destruct I as [<-|[<-|[<-|[<-|[]]]]]; eexists _, _, _, _; (split; [reflexivity|]);
      (split; [|cbv; discriminate]); intros x Hx; simpl in Hx; repeat destruct Hx as [<-|Hx]; try contradiction; split; vm_compute; discriminate. }
  assert (GI : In FORM_ID group_ids /\ In CAT_ID group_ids /\ In LIST_ID group_ids /\ In PROP_ID group_ids) by (unfold group_ids; simpl; tauto).
  destruct GI as (GF & GC & GL & GP).
  intros app ft c t F. induction F as [ft c t F|ft i s vals spec t A FC|ft c g t I G F|ft c g t I G F|ft c x E I X|ft c x E I X|ft c x I J X|ft c g x I G NJ J X|ft c g G S|ft c g x t G I F IH]; intro C.
  - apply (IdFault_invalid _ _ F). conf C; auto.
  - conf C. congruence.
  - apply (FormTypeFault_invalid _ _ F). conf C; try discriminate; injection G as <-; try assumption;
      exfalso; destruct I as [I|[I|[]]]; vm_compute in I; discriminate.
  - apply (IdFault_invalid _ _ F). conf C; try discriminate; injection G as <-; try assumption;
      exfalso; destruct I as [I|[I|[]]]; vm_compute in I; discriminate.
  - conf C; try (vm_compute in E; discriminate); try contradiction.
    match goal with H : forall c, In c ?l -> _, J : In x ?l |- _ => destruct (H x J) as [Y _]; exact (Y X) end.
  - conf C; try (vm_compute in E; discriminate); try contradiction.
    match goal with H : forall c, In c ?l -> _, J : In x ?l |- _ => destruct (H x J) as [Y _]; exact (Y X) end.
  - conf C; try contradiction.
    + destruct I as [I|[I|[]]]; vm_compute in I; discriminate.
    + match goal with H : forall c, In c _ -> cat_member _ _ /\ _ |- _ => destruct (H x J) as [[Y _] _]; exact (X Y) end.
    + destruct I as [I|[I|[]]]; vm_compute in I; discriminate.
    + match goal with H : forall c, In c _ -> cat_member _ _ /\ _ |- _ => destruct (H x J) as [[Y _] _]; exact (X Y) end.
  - conf C; try contradiction; injection G as ->.
    + destruct I as [I|[I|[]]]; vm_compute in I; discriminate.
    + match goal with H : forall c, In c _ -> cat_member _ _ /\ _ |- _ => destruct (H x J) as [[_ [Y|Y]] _]; [exact (NJ Y)|exact (X Y)] end.
    + destruct I as [I|[I|[]]]; vm_compute in I; discriminate.
    + match goal with H : forall c, In c _ -> cat_member _ _ /\ _ |- _ => destruct (H x J) as [[_ [Y|Y]] _]; [exact (NJ Y)|exact (X Y)] end.
  - conf C; try discriminate; apply S; try reflexivity. rewrite body_size_app. lia.
  - apply IH. conf C; try contradiction; injection G as <-.
    + match goal with H : forall c, In c _ -> _ |- _ => apply H; exact I end.
    + match goal with H : forall c, In c _ -> _ |- _ => apply H; exact I end.
    + match goal with H : forall c, In c _ -> _ |- _ => apply H; exact I end.
    + apply in_app_or in I. destruct I as [I|I]; match goal with H : forall c, In c ?l -> _, J : In x ?l |- _ => apply H; exact J end.
Qed.
