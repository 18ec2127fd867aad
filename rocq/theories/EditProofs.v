(** * Proofs for C100: editing a chunk in place *)

From Coq Require Import ZArith List Bool Lia.
From Coq Require Import Strings.Byte.
From Verif Require Import Machine Types Build Spec Lemmas EncodeProofs WriteProofs ConfProofs UpdateProofs EditSpec.
Import ListNotations.
Open Scope Z_scope.

(** ** Finding the edit in a tree whose sizes have been updated *)

Lemma replaced_members : forall l l' n y x, (forall c, In c l -> Sized c) -> (forall c, In c l' -> Sized c) ->
  nth_error l n = Some x -> map unsized l' = map unsized (replace_nth n y l) ->
  exists x', l' = replace_nth n x' l /\ unsized x' = unsized y /\ Sized x'.
Proof.
  assert (ALL : forall l l', (forall c, In c l -> Sized c) -> (forall c, In c l' -> Sized c) -> map unsized l' = map unsized l -> l' = l).
  { induction l as [|c l IH]; intros [|d l'] S1 S2 E; cbn in E; try discriminate; [reflexivity|]. injection E as E1 E2.
    f_equal; [apply Sized_unique; auto using in_eq|]. apply IH; auto using in_cons. }
  induction l as [|c l IH]; intros l' n y x S1 S2 N E; [destruct n; discriminate|]. destruct n as [|n]; cbn in N, E; destruct l' as [|d l']; try discriminate; cbn in E; injection E as E1 E2.
  - exists d. cbn. split; [f_equal; apply ALL; auto using in_cons|]. split; [exact E1|auto using in_eq].
  - destruct (IH l' n y x) as (x' & -> & U & S); auto using in_cons. exists x'. cbn. split; [|auto]. f_equal. apply Sized_unique; auto using in_eq.
Qed.

Lemma found : forall c c' s x y, Sized c -> Sized c' -> get_child c s = Some x -> unsized c' = unsized (set_child c s y) ->
  exists x', c' = set_chunkSize (set_child c s x') (chunkSize c') /\ unsized x' = unsized y /\ Sized x' /\ Sized x.
Proof.
  intros c c' s x y S S' G U.
  destruct s as [n|n], c as [i z d|i z g l|i z g p l|i z v]; cbn in G; try discriminate; cbn [set_child unsized] in U;
    destruct c' as [i' z' d'|i' z' g' l'|i' z' g' p' l'|i' z' v']; cbn [unsized] in U; try discriminate; injection U as.
  - destruct (replaced_members p p' n y x) as (x' & -> & U & SX).
    + intros c I. intros v V. apply S. eapply In_list_prop; eassumption.
    + intros c I. intros v V. apply S'. eapply In_list_prop; eassumption.
    + exact G.
    + assumption.
    + assert (l' = l).
      { clear - S S' H2. assert (ALL : forall l l', (forall c, In c l -> Sized c) -> (forall c, In c l' -> Sized c) -> map unsized l' = map unsized l -> l' = l).
        { induction l0 as [|c l0 IH]; intros [|d l0'] S1 S2 E; cbn in E; try discriminate; [reflexivity|]. injection E as E1 E2.
          f_equal; [apply Sized_unique; auto using in_eq|]. apply IH; auto using in_cons. }
        apply ALL; [|intros c I v V; apply S'; eapply In_list_sub; eassumption|assumption]. intros c I v V. apply S. eapply In_list_sub; eassumption. }
      subst. exists x'. split; [reflexivity|]. split; [exact U|]. split; [exact SX|]. intros v V. apply S. eapply In_list_prop; [eapply nth_error_In; exact G|exact V].
  - destruct (replaced_members l l' n y x) as (x' & -> & U & SX).
    + intros c I. intros v V. apply S. eapply In_group; eassumption.
    + intros c I. intros v V. apply S'. eapply In_group; eassumption.
    + exact G.
    + assumption.
    + subst. exists x'. split; [reflexivity|]. split; [exact U|]. split; [exact SX|]. intros v V. apply S. eapply In_group; [eapply nth_error_In; exact G|exact V].
  - destruct (replaced_members l l' n y x) as (x' & -> & U & SX).
    + intros c I. intros v V. apply S. eapply In_list_sub; eassumption.
    + intros c I. intros v V. apply S'. eapply In_list_sub; eassumption.
    + exact G.
    + assumption.
    + assert (p' = p).
      { clear - S S' H1. assert (ALL : forall l l', (forall c, In c l -> Sized c) -> (forall c, In c l' -> Sized c) -> map unsized l' = map unsized l -> l' = l).
        { induction l0 as [|c l0 IH]; intros [|d l0'] S1 S2 E; cbn in E; try discriminate; [reflexivity|]. injection E as E1 E2.
          f_equal; [apply Sized_unique; auto using in_eq|]. apply IH; auto using in_cons. }
        apply ALL; [|intros c I v V; apply S'; eapply In_list_prop; eassumption|assumption]. intros c I v V. apply S. eapply In_list_prop; eassumption. }
      subst. exists x'. split; [reflexivity|]. split; [exact U|]. split; [exact SX|]. intros v V. apply S. eapply In_list_sub; [eapply nth_error_In; exact G|exact V].
Qed.

Lemma edit_found : forall q c c' old new, Sized c -> Sized c' -> Sized new -> at_path c q = Some old ->
  unsized c' = unsized (replace_at c q new) -> Edited old new q c c'.
Proof.
  induction q as [|s q IH]; intros c c' old new S S' SN A U; cbn [at_path replace_at] in *.
  - injection A as ->. rewrite (Sized_unique c' new S' SN U). constructor.
  - destruct (get_child c s) as [x|] eqn:G; [|discriminate]. destruct (found c c' s x _ S S' G U) as (x' & E & U' & SX' & SX).
    rewrite E. apply Ed_inside with x; [exact G|apply (IH x x' old new SX SX' SN A U')|]. rewrite <- E. apply S'. apply In_here.
Qed.

(** ** The bytes *)

Lemma even_frame : forall i s b, Z.odd (zlength (frame i s b)) = false.
Proof.
  intros i s b. unfold frame. rewrite !zlength_app, !be32_length. unfold pad.
  rewrite !Z.odd_add. destruct (Z.odd (zlength b)); reflexivity.
Qed.
Lemma even_encode : forall c, Z.odd (zlength (encode c)) = false.
Proof. destruct c; apply even_frame. Qed.
Lemma even_all : forall l, Z.odd (zlength (flat_map encode l)) = false.
Proof. induction l as [|c l IH]; [reflexivity|]. cbn [flat_map]. rewrite zlength_app, Z.odd_add, even_encode, IH. reflexivity. Qed.

Lemma frame_even : forall i s b, Z.odd (zlength b) = false -> frame i s b = be32 i ++ be32 s ++ b.
Proof. intros i s b E. unfold frame, pad. rewrite E, app_nil_r. reflexivity. Qed.

Lemma encode_replaced : forall n l x, nth_error l n = Some x -> forall y,
  flat_map encode (replace_nth n y l) = flat_map encode (firstn n l) ++ encode y ++ flat_map encode (skipn (S n) l).
Proof.
  induction n as [|n IH]; intros [|c l] x N y; try discriminate; [reflexivity|]. cbn in N. cbn [replace_nth flat_map firstn]. rewrite (IH l x N y), <- app_assoc. reflexivity.
Qed.

(** A group is stored as its head, the members before, the member, the members after *)
Lemma stored : forall c s x, get_child c s = Some x -> exists head tail, List.length head = (member_offset c s - 8)%nat /\ (8 <= member_offset c s)%nat /\
  forall y z, encode (set_chunkSize (set_child c s y) z) = be32 (chunkId c) ++ be32 z ++ head ++ encode y ++ tail.
Proof.
  intros c s x G. assert (L : forall v, List.length (be32 v) = 4%nat) by (intro v; pose proof (be32_length v) as X; unfold zlength in X; lia).
  destruct s as [n|n], c as [i z d|i z g l|i z g p l|i z v]; cbn in G; try discriminate.
  - exists (be32 g ++ flat_map encode (firstn n p)), (flat_map encode (skipn (S n) p) ++ flat_map encode l).
    split; [rewrite app_length, L; unfold member_offset; cbn [before]; lia|]. split; [unfold member_offset; lia|].
    intros y z'. cbn [set_child set_chunkSize encode chunkId]. rewrite frame_even; [rewrite (encode_replaced n p x G y), <- !app_assoc; reflexivity|].
    rewrite !zlength_app, be32_length, !Z.odd_add, !even_all. reflexivity.
  - exists (be32 g ++ flat_map encode (firstn n l)), (flat_map encode (skipn (S n) l)).
    split; [rewrite app_length, L; unfold member_offset; cbn [before]; lia|]. split; [unfold member_offset; lia|].
    intros y z'. cbn [set_child set_chunkSize encode chunkId]. rewrite frame_even; [rewrite (encode_replaced n l x G y), <- !app_assoc; reflexivity|].
    rewrite !zlength_app, be32_length, !Z.odd_add, !even_all. reflexivity.
  - exists (be32 g ++ flat_map encode p ++ flat_map encode (firstn n l)), (flat_map encode (skipn (S n) l)).
    split; [rewrite !app_length, L; unfold member_offset; cbn [before]; rewrite flat_map_app, app_length; lia|]. split; [unfold member_offset; lia|].
    intros y z'. cbn [set_child set_chunkSize encode chunkId]. rewrite frame_even; [rewrite (encode_replaced n l x G y), <- !app_assoc; reflexivity|].
    rewrite !zlength_app, be32_length, !Z.odd_add, !even_all. reflexivity.
Qed.

Lemma same_again : forall c s x, get_child c s = Some x -> set_chunkSize (set_child c s x) (chunkSize c) = c.
Proof. intros c s x G. rewrite (set_same_child _ _ _ G). destruct c; reflexivity. Qed.

Lemma nth_error_shift : forall A (a b : list A) k, nth_error (a ++ b) (List.length a + k) = nth_error b k.
Proof. intros. rewrite nth_error_app2 by lia. f_equal. lia. Qed.

Lemma edited_bytes : forall old new q c c', Edited old new q c c' ->
  exists pre pre' post, encode c = pre ++ encode old ++ post /\ encode c' = pre' ++ encode new ++ post /\
    List.length pre = position c q /\ List.length pre' = position c q /\
    forall k, nth_error pre k <> nth_error pre' k -> In k (size_bytes c q).
Proof.
  intros old new q c c' E. induction E as [|s q c x x' z G E (pre & pre' & post & E1 & E2 & L1 & L2 & D) DC].
  - exists [], [], []. cbn. rewrite !app_nil_r. repeat split. intros k N. contradiction.
  - destruct (stored c s x G) as (head & tail & LH & LM & ST). assert (L : forall v, List.length (be32 v) = 4%nat) by (intro v; pose proof (be32_length v) as X; unfold zlength in X; lia).
    pose proof (ST x (chunkSize c)) as EC. rewrite (same_again _ _ _ G) in EC. exists (be32 (chunkId c) ++ be32 (chunkSize c) ++ head ++ pre), (be32 (chunkId c) ++ be32 z ++ head ++ pre'), (post ++ tail).
    cbn [position size_bytes]. rewrite G. split; [rewrite EC, E1, <- !app_assoc; reflexivity|]. split; [rewrite ST, E2, <- !app_assoc; reflexivity|].
    split; [rewrite !app_length, !L, L1; lia|]. split; [rewrite !app_length, !L, L2; lia|].
    intros k N. destruct (Nat.ltb_spec k 4) as [K|K].
    + destruct N. rewrite !nth_error_app1 by (rewrite L; exact K). reflexivity.
    + destruct (Nat.ltb_spec k 8) as [K8|K8].
      * apply in_or_app. left. assert (k = 4 \/ k = 5 \/ k = 6 \/ k = 7)%nat as [->|[->|[->| ->]]] by lia; cbn; tauto.
      * rewrite !(nth_error_app2 (be32 _)) in N by (rewrite ?L; lia). rewrite !L in N.
        destruct (Nat.ltb_spec k (member_offset c s)) as [KO|KO].
        -- destruct N. rewrite !nth_error_app1 by lia. reflexivity.
        -- rewrite !(nth_error_app2 head) in N by lia. apply D in N. apply in_or_app. right. apply in_map_iff. exists (k - 4 - 4 - List.length head)%nat. split; [lia|exact N].
Qed.

(** ** The tree *)

Lemma in_replaced : forall A n (x y : A) l, In y (replace_nth n x l) -> y = x \/ In y l.
Proof. intros A n x y l H. apply replace_nth_In in H. destruct H as [->|(m & _ & N)]; [left; reflexivity|right; exact (nth_error_In _ _ N)]. Qed.

Definition same_head (c c' : chunk) : Prop := chunkId c' = chunkId c /\ group_type_of c' = group_type_of c.

Lemma edited_head : forall old new q c c', same_head old new -> Edited old new q c c' -> same_head c c'.
Proof. intros old new q c c' SH E. destruct E as [|s q c x x' z G _ _]; [exact SH|]. destruct s, c; try discriminate; split; reflexivity. Qed.

Lemma edited_conforms : forall app old new, same_head old new -> (forall ft, Conforms app ft old -> Conforms app ft new) ->
  forall q c c', Edited old new q c c' -> forall ft, Conforms app ft c -> Conforms app ft c'.
Proof.
  intros app old new SH CN q c c' E. induction E as [|s q c x x' z G E IH D]; intros ft C; [apply CN; exact C|].
  destruct (edited_head _ _ _ _ _ SH E) as (HI & HG).
  assert (CM : forall g, cat_member g x -> cat_member g x') by (intros g (A & B); split; [rewrite HI; exact A|rewrite HG; exact B]).
  destruct s as [n|n]; destruct c as [i s d|i s g l|i s g p l|i s v]; cbn in G; try discriminate; cbn [set_child set_chunkSize declares] in *; pose proof (nth_error_In _ _ G) as IN; inversion C; subst; constructor; try assumption; try reflexivity.
  all: intros y I; try apply in_replaced in I; try destruct I as [->|I]; auto.
  - destruct (H5 x IN) as (A & B). split; [congruence|auto].
  - destruct (H5 x IN) as (A & B). auto.
  - destruct (H5 x IN) as (A & B). split; [congruence|auto].
  - destruct (H7 x IN) as (A & B). auto.
Qed.

Lemma edited_typed : forall app old new, same_head old new -> (forall ft, Typed app ft old -> Typed app ft new) ->
  forall q c c', Edited old new q c c' -> forall ft, Typed app ft c -> Typed app ft c'.
Proof.
  intros app old new SH CN q c c' E. induction E as [|s q c x x' z G E IH D]; intros ft C; [apply CN; exact C|].
  destruct (edited_head _ _ _ _ _ SH E) as (HI & HG).
  destruct s as [n|n]; destruct c as [i s d|i s g l|i s g p l|i s v]; cbn in G; try discriminate; cbn [set_child set_chunkSize] in *; pose proof (nth_error_In _ _ G) as IN; inversion C; subst; constructor; try assumption.
  all: intros y I; try apply in_replaced in I; try destruct I as [->|I]; auto.
  match goal with K : forall c, In c p -> Typed _ _ c /\ _ |- _ => destruct (K x IN) as (A & B) end. split; [auto|congruence].
Qed.

Lemma edited_leaf : forall old new q c c', Edited old new q c c' -> forall y, InTree y c' -> is_leaf y -> InTree y c \/ InTree y new.
Proof.
  intros old new q c c' E. induction E as [|s q c x x' z G E IH D]; intros y I LF; [right; exact I|].
  destruct s as [n|n]; destruct c as [i s d|i s g l|i s g p l|i s v]; cbn in G; try discriminate; cbn [set_child set_chunkSize] in *; pose proof (nth_error_In _ _ G) as IN;
    inversion I; subst; try contradiction; cbn in LF;
    try match goal with H : In _ (replace_nth _ _ _) |- _ => apply in_replaced in H; destruct H as [->|H]; [destruct (IH y) as [X|X]; [assumption|assumption|left|right; exact X]|left] end;
    first [left; solve [eapply In_list_prop; eassumption|eapply In_list_sub; eassumption|eapply In_group; eassumption] | solve [eapply In_list_prop; eassumption|eapply In_list_sub; eassumption|eapply In_group; eassumption]].
Qed.

(** Taking it back *)
Lemma edited_back : forall old new q c c', Sized c -> Edited old new q c c' -> Edited new old q c' c.
Proof.
  intros old new q c c' S E. induction E as [|s q c x x' z G E IH D]; [constructor|].
  assert (G' : get_child (set_chunkSize (set_child c s x') z) s = Some x').
  { pose proof (get_set_child _ _ x' _ G) as X. destruct (set_child c s x'), s; exact X. }
  assert (EQ : c = set_chunkSize (set_child (set_chunkSize (set_child c s x') z) s x) (chunkSize c)).
  { clear - G. assert (RR : forall l n (u y : chunk), nth_error l n = Some y -> replace_nth n y (replace_nth n u l) = l).
    { induction l as [|a l IH]; intros [|n] u y N; cbn in *; try discriminate; [injection N as ->; reflexivity|]. f_equal. apply IH. exact N. }
    destruct s as [n|n], c; cbn in G; try discriminate; cbn [set_child set_chunkSize]; rewrite RR by exact G; reflexivity. }
  rewrite EQ at 2. apply Ed_inside with x'; [exact G'|apply IH|rewrite <- EQ; apply S; apply In_here].
  intros v V. apply S. clear - G V. destruct s as [n|n], c; cbn in G; try discriminate; apply nth_error_In in G; [eapply In_list_prop|eapply In_group|eapply In_list_sub]; eassumption.
Qed.

(** There is only one such tree *)
Lemma edited_unique : forall old new q c c1, Edited old new q c c1 -> forall c2, Edited old new q c c2 -> c1 = c2.
Proof.
  intros old new q c c1 E. induction E as [|s q c x x' z G E IH D]; intros c2 E2; inversion E2; subst; [reflexivity|].
  assert (x0 = x) by congruence. subst x0. match goal with K : Edited old new q x _ |- _ => match K with E => fail 1 | _ => rewrite <- (IH _ K) in * end end.
  destruct s as [n|n], c; cbn in G; try discriminate; cbn [set_child set_chunkSize declares] in *; congruence.
Qed.

(** All chunks elsewhere are as they were *)
Lemma edited_elsewhere : forall old new q c c', Edited old new q c c' -> forall r, (forall t, q <> r ++ t) -> (forall t, r <> q ++ t) -> at_path c' r = at_path c r.
Proof.
  intros old new q c c' E. induction E as [|s q c x x' z G E IH D]; intros r N1 N2; [destruct (N2 r); reflexivity|].
  destruct r as [|s' r]; [destruct (N1 (s :: q)); reflexivity|]. cbn [at_path].
  assert (SAME : s' = s \/ s' <> s) by (destruct s as [n|n], s' as [m|m]; try (right; congruence); (destruct (Nat.eq_dec m n); [left; congruence|right; congruence])).
  destruct SAME as [->|NE].
  - assert (G' : get_child (set_chunkSize (set_child c s x') z) s = Some x').
    { pose proof (get_set_child _ _ x' _ G) as X. destruct (set_child c s x'), s; exact X. }
    rewrite G', G. apply IH; intros t X; [apply (N1 t); rewrite X; reflexivity|apply (N2 t); rewrite X; reflexivity].
  - assert (G' : get_child (set_chunkSize (set_child c s x') z) s' = get_child c s').
    { destruct s as [n|n], s' as [m|m], c; cbn in G; try discriminate; cbn; try reflexivity; apply nth_replace_other; congruence. }
    rewrite G'. reflexivity.
Qed.

(** ** Before the sizes have been updated *)

Lemma replace_leaf : forall q c x y, InTree y (replace_at c q x) -> is_leaf y -> InTree y c \/ InTree y x.
Proof.
  induction q as [|s q IH]; intros c x y I LF; cbn [replace_at] in I; [right; exact I|].
  destruct (get_child c s) as [z|] eqn:G; [|left; exact I].
  destruct s as [n|n]; destruct c as [i w d|i w g l|i w g p l|i w v]; cbn in G; try discriminate; cbn [set_child] in *; pose proof (nth_error_In _ _ G) as IN;
    inversion I; subst; try contradiction; cbn in LF;
    try match goal with H : In _ (replace_nth _ _ _) |- _ => apply in_replaced in H; destruct H as [->|H]; [destruct (IH z x y) as [X|X]; [assumption|assumption|left|right; exact X]|left] end;
    first [left; solve [eapply In_list_prop; eassumption|eapply In_list_sub; eassumption|eapply In_group; eassumption] | solve [eapply In_list_prop; eassumption|eapply In_list_sub; eassumption|eapply In_group; eassumption]].
Qed.

Lemma sum_replaced : forall n l x y, nth_error l n = Some x -> sum (map encoded_size (replace_nth n y l)) = sum (map encoded_size l) - encoded_size x + encoded_size y.
Proof. induction n as [|n IH]; intros [|c l] x y N; cbn in N; try discriminate; cbn [replace_nth map sum fold_right]; [injection N as ->; fold (sum (map encoded_size l)); lia|]. fold (sum (map encoded_size (replace_nth n y l))). fold (sum (map encoded_size l)). rewrite (IH l x y N). lia. Qed.

Lemma replace_size : forall q c x y, at_path c q = Some x -> encoded_size (replace_at c q y) = encoded_size c - encoded_size x + encoded_size y.
Proof.
  induction q as [|s q IH]; intros c x y A; cbn [at_path replace_at] in *; [injection A as ->; lia|].
  destruct (get_child c s) as [z|] eqn:G; [|discriminate]. specialize (IH z x y A).
  destruct s as [n|n]; destruct c as [i w d|i w g l|i w g p l|i w v]; cbn in G; try discriminate; cbn [set_child encoded_size]; rewrite (sum_replaced _ _ _ _ G); lia.
Qed.

Lemma leaf_at : forall q c, (exists i s d, at_path c q = Some (CRaw i s d)) -> forall r y, at_path c (q ++ r) = Some y -> r = [].
Proof.
  induction q as [|s q IH]; intros c (i & z & d & A) r y B; cbn [at_path app] in *.
  - injection A as ->. destruct r as [|[n|n] r]; [reflexivity|discriminate|discriminate].
  - destruct (get_child c s) as [x|]; [|discriminate]. eapply IH; [exists i, z, d; exact A|exact B].
Qed.
