(** * What calls cost *)

From Coq Require Import ZArith List Bool String Lia.
From Coq Require Import Strings.Byte.
From Verif Require Import Machine Io Types Build Read Heap HeapSpec HeapProofs SessionSpec ThreadSpec ThreadStepProofs TimeSpec.
Import ListNotations.
Open Scope Z_scope.

(** Every byte read gives [K] to spend, and every block released gives [B]. *)
Definition K : Z := 11.
Definition B : Z := 7.

(** ** Input and messages *)

Definition rest (w : world) : Z := Z.of_nat (unread w).
Definition said (w : world) : Z := Z.of_nat (messages w).

Definition pays {A} (m : M A) (c : A -> Z) : Prop := forall e w a w', m e w = Done (a, w') ->
  said w <= said w' /\ rest w' <= rest w /\ said w' - said w <= c a + (K - 1) * (rest w - rest w').

Lemma pa_weaken : forall A (m : M A) c c', pays m c -> (forall a, c a <= c' a) -> pays m c'.
Proof. intros A m c c' P L e w a w' R. destruct (P e w a w' R) as (X & Y & Z). specialize (L a). lia. Qed.
Lemma pa_ret : forall A (a : A), pays (ret a) (fun _ => 0).
Proof. intros A a e w b w' R. injection R as _ <-. unfold K. lia. Qed.
Lemma pa_ret' : forall A (a : A) (c : A -> Z), 0 <= c a -> pays (ret a) c.
Proof. intros A a c L e w b w' R. injection R as <- <-. unfold K. lia. Qed.
Lemma pa_undefined : forall A u c, pays (@undefined A u) c.
Proof. intros A u c e w a w' R. discriminate. Qed.
Lemma pa_ask : pays ask (fun _ => 0).
Proof. intros e w b w' R. injection R as _ <-. unfold K. lia. Qed.
Lemma pa_lift : forall A (o : outcome A), pays (lift o) (fun _ => 0).
Proof. intros A [a|u|] e w b w' R; try discriminate. injection R as _ <-. unfold K. lia. Qed.
Lemma pa_malloc : forall n, pays (malloc n) (fun _ => 0).
Proof. intros n e w b w' R. injection R as _ <-. unfold rest, said, unread, messages, K. cbn. lia. Qed.
Lemma pa_error : forall s, pays (IFF_error s) (fun _ => 1).
Proof. intros s e w b w' R. injection R as _ <-. unfold rest, said, unread, messages, K. cbn [w_in w_log List.length]. lia. Qed.
Lemma pa_bind : forall A C (m : M A) (k : A -> M C) c1 c, pays m c1 -> (forall a, pays (k a) (fun b => c b - c1 a)) -> pays (bind m k) c.
Proof.
  intros A C m k c1 c P Q e w b w2 R. unfold bind in R. destruct (m e w) as [[a w']|u|] eqn:RM; [|discriminate|discriminate].
  destruct (P e w a w' RM) as (X & Y & Z). destruct (Q a e w' b w2 R) as (X' & Y' & Z'). cbv beta in Z'. unfold K in *. lia.
Qed.

Lemma cut_length : forall (n : Z) (l : list byte), zlength (ztake n l) + Z.of_nat (List.length (zdrop n l)) = Z.of_nat (List.length l).
Proof. intros n l. revert n. induction l as [|x l IH]; intro n; cbn [ztake zdrop]; [reflexivity|]. destruct (n <=? 0); [reflexivity|]. specialize (IH (n - 1)). unfold zlength in *. cbn [List.length]. lia. Qed.

Lemma pa_fgetc : pays fgetc (fun r => match r with Some _ => - 10 | None => 0 end).
Proof.
  intros e w b w' R. unfold fgetc in R. unfold rest, said, unread, messages, K. destruct (r_rest (w_in w)) as [|x r] eqn:W; injection R as <- <-.
  - rewrite W. cbn. lia.
  - cbn [set_in w_in w_log r_rest List.length]. lia.
Qed.
Lemma pa_fread : forall n, pays (fread n) (fun l => - 10 * zlength l).
Proof.
  intros n e w b w' R. injection R as <- <-. unfold rest, said, unread, messages, K. cbn [set_in w_in w_log r_rest].
  pose proof (cut_length n (r_rest (w_in w))). assert (0 <= zlength (ztake n (r_rest (w_in w)))) by (unfold zlength; lia). lia.
Qed.
Lemma pa_fseek : forall n, pays (fseek_cur n) (fun _ => 0).
Proof.
  intros n e w b w' R. unfold fseek_cur in R. destruct (r_seekable (w_in w)); injection R as <- <-; unfold rest, said, unread, messages, K; [|lia]. cbn [set_in w_in w_log r_rest].
  pose proof (cut_length n (r_rest (w_in w))). assert (0 <= zlength (ztake n (r_rest (w_in w)))) by (unfold zlength; lia). lia.
Qed.

Definition got {A} (n : Z) (r : option A) : Z := match r with Some _ => - 10 * n | None => 6 end.

Create HintDb pa.
#[export] Hint Resolve pa_ret pa_undefined pa_ask pa_lift pa_malloc pa_error pa_fgetc pa_fread pa_fseek : pa.
Ltac pa_leaf := intros; unfold got; cbv iota; repeat match goal with |- context [match ?x with _ => _ end] => is_var x; destruct x end; try lia.
Ltac pa_one :=
  first
    [ match goal with |- pays (bind _ _) _ => eapply pa_bind; [solve [eauto 2 with pa]|intros; cbv beta] end
    | match goal with |- pays (if ?x then _ else _) _ => destruct x eqn:? end
    | match goal with |- pays (match ?x with _ => _ end) _ => destruct x eqn:? end
    | match goal with |- pays (let x := _ in _) _ => cbv zeta end
    | apply pa_undefined
    | apply pa_ret'; pa_leaf
    | eapply pa_weaken; [solve [eauto 2 with pa]|pa_leaf] ].
Ltac pa := intros; repeat pa_one.

Lemma pa_errorId : forall i, pays (IFF_errorId i) (fun _ => 4).
Proof. intro i. unfold IFF_errorId. eapply pa_bind; [apply pa_ask|]. intros e. unfold IFF_idToString. pa. Qed.
#[export] Hint Resolve pa_errorId : pa.
Lemma pa_readError : forall i a, pays (IFF_readError i a) (fun _ => 6).
Proof. unfold IFF_readError. pa. Qed.
#[export] Hint Resolve pa_readError : pa.

Lemma pa_readUByte : forall i a, pays (IFF_readUByte i a) (got 1).
Proof. unfold IFF_readUByte, got. pa. Qed.
Lemma pa_readUWord : forall i a, pays (IFF_readUWord i a) (got 2).
Proof. unfold IFF_readUWord, got. pa; try (apply Z.eqb_eq in Heqb; lia); unfold zlength; lia. Qed.
Lemma pa_readWord : forall i a, pays (IFF_readWord i a) (got 2).
Proof. unfold IFF_readWord, got. pa; try (apply Z.eqb_eq in Heqb; lia); unfold zlength; lia. Qed.
Lemma pa_readULong : forall i a, pays (IFF_readULong i a) (got 4).
Proof. unfold IFF_readULong, got. pa; try (apply Z.eqb_eq in Heqb; lia); unfold zlength; lia. Qed.
Lemma pa_swap : forall e v, pays (swap_long e v) (fun _ => 0).
Proof. unfold swap_long. pa. Qed.
#[export] Hint Resolve pa_swap : pa.
Lemma pa_readLong : forall i a, pays (IFF_readLong i a) (got 4).
Proof. unfold IFF_readLong, got. pa; try (apply Z.eqb_eq in Heqb; lia); unfold zlength; lia. Qed.
Lemma pa_readId : forall i a, pays (IFF_readId i a) (got 4).
Proof. exact pa_readULong. Qed.
#[export] Hint Resolve pa_readUByte pa_readUWord pa_readWord pa_readULong pa_readLong pa_readId : pa.
Lemma pa_prim : forall k i a, pays (read_prim k i a) (got 1).
Proof.
  intros k i a. destruct k; cbn [read_prim]; (eapply pa_weaken; [solve [eauto 2 with pa]|intros [v|]; unfold got; lia]).
Qed.
#[export] Hint Resolve pa_prim : pa.
Lemma pa_readField : forall k i s a b, pays (IFF_readField k i s a b) (fun _ => 6).
Proof. unfold IFF_readField. pa. Qed.
#[export] Hint Resolve pa_readField : pa.
Lemma pa_readField' : forall k i s a b, pays (IFF_readField k i s a b) (fun r => match r with (FIELD_FAILURE, _, _) => 6 | _ => 0 end).
Proof. unfold IFF_readField. pa. Qed.
Lemma pa_read_fields : forall ds vals i s b, pays (read_fields ds vals i s b) (fun _ => 6).
Proof.
  induction ds as [|d ds IH]; intros [|v vals] i s b; cbn [read_fields]; try (apply pa_ret'; lia).
  eapply pa_bind; [apply pa_readField'|]. intros [[[] [x|]] bp]; cbv beta iota; try (apply pa_ret'; lia).
  eapply pa_bind; [apply IH|]. intros [[ok vs] bp2]. apply pa_ret'. lia.
Qed.
#[export] Hint Resolve pa_read_fields : pa.
Lemma pa_skip : forall i s b, pays (Io.IFF_skipUnknownBytes i s b) (fun _ => 6).
Proof. unfold Io.IFF_skipUnknownBytes. pa. Qed.
Lemma pa_padding : forall s i, pays (Io.IFF_readPaddingByte s i) (fun _ => 6).
Proof. unfold Io.IFF_readPaddingByte. pa. Qed.
#[export] Hint Resolve pa_skip pa_padding : pa.
Lemma pa_tail : forall (ok : bool) i s b n j, pays (andM (ret ok) (andM (Io.IFF_skipUnknownBytes i s b) (Io.IFF_readPaddingByte n j))) (fun _ => 12).
Proof. unfold andM. pa. Qed.
#[export] Hint Resolve pa_tail : pa.
Lemma pa_truncated : forall s n, pays (truncated_warning s n) (fun _ => 1).
Proof. unfold truncated_warning. pa. Qed.
#[export] Hint Resolve pa_truncated : pa.

(** ** Memory *)

Definition held (h : heap) : Z := Z.of_nat (blocks h).

Lemma blocks_app : forall h g, blocks (h ++ g) = (blocks h + blocks g)%nat.
Proof. induction h as [|[o|] h IH]; intro g; cbn [List.app blocks]; [reflexivity|rewrite IH; reflexivity|apply IH]. Qed.
Lemma blocks_replace : forall h a (o' : option object), (a < List.length h)%nat ->
  (blocks (replace_nth a o' h) + (match lookup h a with Some _ => 1 | None => 0 end) = blocks h + (match o' with Some _ => 1 | None => 0 end))%nat.
Proof.
  unfold lookup. induction h as [|o h IH]; intros [|a] o' L; cbn [List.length] in L; try lia.
  - cbn [replace_nth nth_error blocks]. destruct o, o'; lia.
  - cbn [replace_nth nth_error blocks]. specialize (IH a o' ltac:(lia)). destruct o; lia.
Qed.
Lemma lookup_length : forall h a (o : object), lookup h a = Some o -> (a < List.length h)%nat.
Proof. intros h a o L. apply nth_error_Some. unfold lookup in L. intro N. rewrite N in L. discriminate. Qed.
Lemma held_store : forall h a o o', lookup h a = Some o -> held (store h a o') = held h.
Proof. intros h a o o' L. unfold held, store. pose proof (blocks_replace h a (Some o') (lookup_length h a o L)) as X. rewrite L in X. lia. Qed.
Lemma held_release : forall h a o, lookup h a = Some o -> held (release h a) = held h - 1.
Proof. intros h a o L. unfold held, release. pose proof (blocks_replace h a None (lookup_length h a o L)) as X. rewrite L in X. lia. Qed.
Lemma held_fill : forall e w h (o : object), held (fill h (address e w h) o) = held h + 1.
Proof.
  intros e w h o. unfold held, fill. pose proof (address_free e w h) as N. destruct (Nat.ltb_spec (address e w h) (List.length h)) as [LT|GE].
  - pose proof (blocks_replace h (address e w h) (Some o) LT) as X. rewrite N in X. lia.
  - rewrite blocks_app. cbn [blocks]. lia.
Qed.

(** Twice the pointers that are copied while the arrays in memory grow one by one *)
Definition sq (o : option object) : Z := match o with Some (OArray l) => zlength l * (zlength l + 1) | _ => 0 end.
Fixpoint squares (h : heap) : Z := match h with [] => 0 | o :: r => sq o + squares r end.
Lemma sq_pos : forall o, 0 <= sq o.
Proof. intros [[| |l]|]; cbn [sq]; try lia. unfold zlength. nia. Qed.
Lemma squares_app : forall h g, squares (h ++ g) = squares h + squares g.
Proof. induction h as [|o h IH]; intro g; cbn [List.app squares]; [reflexivity|]. rewrite IH. lia. Qed.
Lemma squares_replace : forall h a (o' : option object), (a < List.length h)%nat -> squares (replace_nth a o' h) + sq (lookup h a) = squares h + sq o'.
Proof.
  unfold lookup. induction h as [|o h IH]; intros [|a] o' L; cbn [List.length] in L; try lia.
  - cbn [replace_nth nth_error squares]. lia.
  - cbn [replace_nth nth_error squares]. specialize (IH a o' ltac:(lia)). lia.
Qed.
Lemma squares_store : forall h a o o', lookup h a = Some o -> squares (store h a o') + sq (Some o) = squares h + sq (Some o').
Proof. intros h a o o' L. unfold store. rewrite <- L. apply squares_replace. exact (lookup_length h a o L). Qed.
Lemma squares_release : forall h a o, lookup h a = Some o -> squares (release h a) + sq (Some o) = squares h.
Proof. intros h a o L. unfold release. rewrite <- L. rewrite squares_replace by exact (lookup_length h a o L). cbn [sq]. lia. Qed.
Lemma squares_fill : forall e w h (o : object), squares (fill h (address e w h) o) = squares h + sq (Some o).
Proof.
  intros e w h o. unfold fill. pose proof (address_free e w h) as N. destruct (Nat.ltb_spec (address e w h) (List.length h)) as [LT|GE].
  - pose proof (squares_replace h (address e w h) (Some o) LT) as X. rewrite N in X. cbn [sq] in *. lia.
  - rewrite squares_app. cbn [squares]. lia.
Qed.

(** What a call costs, beyond what the bytes it reads and the blocks it releases pay for *)
Definition costs {A} (m : H A) (c : A -> Z) : Type :=
  { t : task A | takes_apart t m /\ forall e w h a w' h', perform t e w h = Done (a, w', h') ->
      (rest w' <= rest w /\ squares h' <= squares h + 2 * Z.of_nat (copied t e w h)) /\
      Z.of_nat (effort t e w h) + K * rest w' + B * held h' <= c a + K * rest w + B * held h }.

Lemma co_weaken : forall A (m : H A) c c', costs m c -> (forall a, c a <= c' a) -> costs m c'.
Proof. intros A m c c' [t [T C]] L. exists t. split; [exact T|]. intros e w h a w' h' R. destruct (C e w h a w' h' R) as (X & Y). specialize (L a). lia. Defined.
Lemma co_ret : forall A (a : A), costs (hret a) (fun _ => 0).
Proof. intros A a. exists (TRet a). split; [intros e w h; reflexivity|]. intros e w h b w' h' R. injection R as _ <- <-. cbn [effort copied]. lia. Defined.
Lemma co_ret' : forall A (a : A) (c : A -> Z), 0 <= c a -> costs (hret a) c.
Proof. intros A a c L. exists (TRet a). split; [intros e w h; reflexivity|]. intros e w h b w' h' R. injection R as <- <- <-. cbn [effort copied]. lia. Defined.
Lemma co_undefined : forall A u c, costs (@hundefined A u) c.
Proof. intros A u c. exists (TUndefined u). split; [intros e w h; reflexivity|]. discriminate. Defined.
Lemma co_nofuel : forall A c, costs (@hnofuel A) c.
Proof. intros A c. exists TNoFuel. split; [intros e w h; reflexivity|]. discriminate. Defined.
Lemma co_io : forall A (m : M A) c, pays m c -> costs (io m) (fun a => 1 + c a).
Proof.
  intros A m c P. exists (TIo m TRet). split; [intros e w h; cbn; unfold hbind, io, hret; destruct (m e w) as [[x w']|u|]; reflexivity|].
  intros e w h a w' h' R. cbn [perform effort copied] in *. unfold hbind, io, hret in R. destruct (m e w) as [[x w1]|u|] eqn:RM; [|discriminate|discriminate]. injection R as <- <- <-.
  destruct (P e w x w1 RM) as (X & Y & Z). split; [lia|]. unfold rest, said, K in *. lia.
Defined.
Lemma co_load : forall a, costs (hload a) (fun _ => 1).
Proof.
  intro a. exists (TLoad a TRet). split; [intros e w h; cbn; unfold hbind, hload, hret; destruct (lookup h a); reflexivity|].
  intros e w h o w' h' R. cbn [perform effort copied] in *. unfold hbind, hload, hret in R. destruct (lookup h a); [|discriminate]. injection R as _ <- <-. lia.
Defined.
Lemma co_store : forall a o, sq (Some o) = 0 -> costs (hstore a o) (fun _ => 1).
Proof.
  intros a o NA. exists (TStore a o (TRet tt)). split; [intros e w h; cbn; unfold hbind, hstore, hret; destruct (lookup h a); reflexivity|].
  intros e w h x w' h' R. cbn [perform effort copied] in *. unfold hbind, hstore, hret in R. destruct (lookup h a) eqn:L; [|discriminate]. injection R as _ <- <-. rewrite (held_store h a _ o L). pose proof (squares_store h a _ o L) as SS. pose proof (sq_pos (Some o0)). lia.
Defined.
Lemma co_free : forall p, costs (hfree p) (fun _ => match p with Some _ => 1 - B | None => 0 end).
Proof.
  intros [a|]; [|apply co_ret]. exists (TFree a (TRet tt)). split; [intros e w h; cbn; unfold hbind, hret; destruct (lookup h a); reflexivity|].
  intros e w h x w' h' R. cbn [perform effort copied] in *. unfold hbind, hfree, hret in R. destruct (lookup h a) eqn:L; [|discriminate]. injection R as _ <- <-. rewrite (held_release h a _ L). pose proof (squares_release h a _ L) as SS. pose proof (sq_pos (Some o)). unfold B. lia.
Defined.
Lemma co_place : forall A (f : addr -> A) o c, sq (Some o) = 0 -> (forall a, 1 + B <= c (f a)) -> costs (fun e w h => Done (f (address e w h), w, fill h (address e w h) o)) c.
Proof.
  intros A f o c NA L. exists (TPlace o (fun a => TRet (f a))). split; [intros e w h; reflexivity|].
  intros e w h x w' h' R. cbn [perform effort copied] in *. unfold hret in R. injection R as <- <- <-. rewrite held_fill, squares_fill. specialize (L (address e w h)). unfold B in *. lia.
Defined.
Lemma effort_bind : forall A C (t : task A) (k : A -> task C) e w h,
  effort (tbind t k) e w h = match perform t e w h with Done (a, w', h') => (effort t e w h + effort (k a) e w' h')%nat | _ => effort t e w h end.
Proof.
  intros A C t k. induction t as [a|u| |D m j IH|a j IH|a o j IH|a j IH|o j IH|j IH]; intros e w h; cbn [tbind effort perform].
  - reflexivity.
  - reflexivity.
  - reflexivity.
  - unfold hbind, io. destruct (m e w) as [[x w']|u|]; [|reflexivity|reflexivity]. rewrite IH. destruct (perform (j x) e w' h) as [[[a w2] h2]|u|]; [|reflexivity|reflexivity]. lia.
  - unfold hbind, hload. destruct (lookup h a) as [o|]; [|reflexivity]. rewrite IH. destruct (perform (j o) e w h) as [[[b w2] h2]|u|]; reflexivity.
  - unfold hbind, hstore. destruct (lookup h a); [|reflexivity]. rewrite IH. destruct (perform j e w _) as [[[b w2] h2]|u|]; reflexivity.
  - unfold hbind, hfree. destruct (lookup h a); [|reflexivity]. rewrite IH. destruct (perform j e w _) as [[[b w2] h2]|u|]; reflexivity.
  - rewrite IH. destruct (perform _ e w _) as [[[b w2] h2]|u|]; reflexivity.
  - apply IH.
Qed.
Lemma copied_bind : forall A C (t : task A) (k : A -> task C) e w h,
  copied (tbind t k) e w h = match perform t e w h with Done (a, w', h') => (copied t e w h + copied (k a) e w' h')%nat | _ => copied t e w h end.
Proof.
  intros A C t k. induction t as [a|u| |D m j IH|a j IH|a o j IH|a j IH|o j IH|j IH]; intros e w h; cbn [tbind copied perform].
  - reflexivity.
  - reflexivity.
  - reflexivity.
  - unfold hbind, io. destruct (m e w) as [[x w']|u|]; [apply IH|reflexivity|reflexivity].
  - unfold hbind, hload. destruct (lookup h a) as [o|]; [apply IH|reflexivity].
  - unfold hbind, hstore. destruct (lookup h a); [apply IH|reflexivity].
  - unfold hbind, hfree. destruct (lookup h a); [apply IH|reflexivity].
  - rewrite IH. destruct (perform _ e w _) as [[[b w2] h2]|u|]; [lia|reflexivity|reflexivity].
  - apply IH.
Qed.
Lemma co_bind : forall A C (m : H A) (k : A -> H C) c1 c, costs m c1 -> (forall a, costs (k a) (fun b => c b - c1 a)) -> costs (hbind m k) c.
Proof.
  intros A C m k c1 c [t [T P]] Q. exists (tbind t (fun a => proj1_sig (Q a))). split.
  - intros e w h. rewrite perform_bind. unfold hbind. rewrite T. destruct (m e w h) as [[[a w'] h']|u|]; [apply (proj2_sig (Q a))|reflexivity|reflexivity].
  - intros e w h b w2 h2 R. rewrite effort_bind, copied_bind. rewrite perform_bind in R. unfold hbind in R. destruct (perform t e w h) as [[[a w'] h']|u|] eqn:RT; [|discriminate|discriminate].
    destruct (P e w h a w' h' RT) as (X & Y). destruct (proj2 (proj2_sig (Q a)) e w' h' b w2 h2 R) as (X' & Y'). cbv beta in Y'. split; [lia|]. lia.
Defined.
Lemma co_size : forall A (f : nat -> H A) c, (forall n, costs (f n) c) -> costs (fun e w h => f (List.length h) e w h) c.
Proof.
  intros A f c F. exists (TSize (fun n => proj1_sig (F n))). split; [intros e w h; cbn [perform]; apply (proj2_sig (F _))|].
  intros e w h a w' h' R. cbn [perform effort copied] in *. exact (proj2 (proj2_sig (F _)) e w h a w' h' R).
Defined.
Lemma co_world : forall A C (g : world -> C) (f : C -> H A) c, (forall n, costs (f n) (fun a => c a - 1)) -> costs (fun e w h => f (g w) e w h) c.
Proof.
  intros A C g f c F. exists (TIo (fun _ w => Done (g w, w)) (fun n => proj1_sig (F n))). split; [intros e w h; cbn [perform]; unfold hbind, io; apply (proj2_sig (F _))|].
  intros e w h a w' h' R. cbn [perform effort copied] in *. unfold hbind, io in R. destruct (proj2 (proj2_sig (F (g w))) e w h a w' h' R) as (X & Y). cbv beta in Y. split; [exact X|]. lia.
Defined.

Definition made (r : ptr) : Z := match r with Some _ => 2 + B | None => 1 end.
(** Reading a chunk: what is left over pays for adding it to its group; a failure is cheap. *)
Definition readcost (r : ptr) : Z := match r with Some _ => - 17 | None => 7 end.

Create HintDb co.
#[export] Hint Resolve co_ret co_undefined co_nofuel co_load co_free : co.
#[export] Hint Extern 1 (costs (hstore _ _) _) => (apply co_store; reflexivity) : co.
#[export] Hint Extern 2 (costs (io _) _) => (apply co_io; solve [eauto 2 with pa]) : co.
Ltac co_leaf := intros; unfold readcost, made, B, zlength; unfold got; cbv iota; repeat match goal with |- context [match ?x with _ => _ end] => is_var x; destruct x end; try lia.
Ltac co_one :=
  first
    [ match goal with |- costs (hbind _ _) _ => eapply co_bind; [solve [eauto 2 with co]|intros; cbv beta] end
    | match goal with |- costs (if ?x then _ else _) _ => destruct x eqn:? end
    | match goal with |- costs (match ?x with _ => _ end) _ => destruct x eqn:? end
    | match goal with |- costs (let x := _ in _) _ => cbv zeta end
    | apply co_undefined
    | apply co_nofuel
    | apply co_ret'; co_leaf
    | apply co_place; [reflexivity|co_leaf]
    | eapply co_weaken; [solve [eauto 2 with co]|co_leaf] ].
Ltac co := intros; repeat co_one.

Lemma co_malloc : forall n o, sq (Some o) = 0 -> costs (hmalloc n o) made.
Proof. intros n o NA. unfold hmalloc, made. repeat first [apply co_place; [exact NA|co_leaf] | co_one]. Defined.
#[export] Hint Extern 1 (costs (hmalloc _ _) _) => (apply co_malloc; reflexivity) : co.
Lemma co_lift : forall A (o : outcome A), costs (hlift o) (fun _ => 1).
Proof. unfold hlift. intros A o. eapply co_weaken; [apply co_io; apply pa_lift|]. intros; lia. Defined.
Lemma co_array : forall p, costs (harray p) (fun _ => 1).
Proof. unfold harray. co. Defined.
Lemma co_chunk : forall a, costs (hchunk a) (fun _ => 1).
Proof. unfold hchunk. co. Defined.
#[export] Hint Resolve co_lift co_array co_chunk : co.
Lemma co_elements : forall p n, costs (helements p n) (fun _ => 1).
Proof. unfold helements. co. Defined.
Lemma co_push : forall p n x, costs (hpush p n x) (fun _ => 3 + B).
Proof.
  intros p n x.
  set (last := fun (l : list addr) (free : task ptr -> task ptr) => TIo (malloc ((Z.of_nat n + 1) * sizeof_pointer)) (fun ok : bool => if ok then free (TPlace (OArray (firstn n l ++ [x])) (fun a => TRet (Some a))) else TUndefined UB_null_deref)).
  exists (match p with
          | None => last [] (fun k => k)
          | Some a => TLoad a (fun o => match o with OArray l => last l (TFree a) | _ => TUndefined UB_type_confusion end)
          end).
  assert (MS : forall k, said {| w_in := w_in k; w_out := w_out k; w_log := w_log k; w_allocs := S (w_allocs k) |} = said k /\ rest {| w_in := w_in k; w_out := w_out k; w_log := w_log k; w_allocs := S (w_allocs k) |} = rest k) by (intro k; split; reflexivity).
  split.
  - intros e w h. unfold hpush, harray, last. destruct p as [a|].
    + cbn [perform]. unfold hbind, hload. destruct (lookup h a) as [[| |l]|]; try reflexivity. cbn [perform hret]. unfold hbind, io. cbn [hret].
      destruct (malloc _ e w) as [[[] w1]|u|]; try reflexivity.
    + cbn [perform]. unfold hbind, io. cbn [hret]. destruct (malloc _ e w) as [[[] w1]|u|]; try reflexivity.
  - intros e w h r w' h' R. unfold last in *. destruct p as [a|].
    + cbn [perform effort copied] in *. unfold hbind, hload in R. destruct (lookup h a) as [[| |l]|] eqn:L; try discriminate.
      cbn [perform effort copied] in *. unfold hbind, io, malloc in R. unfold malloc. destruct (_ && _) eqn:OK; [|discriminate]. cbn [perform effort copied] in *. unfold hbind, hfree in R. rewrite L in *. cbn [perform effort copied] in *.
      unfold hret in R. injection R as <- <- <-. destruct (MS w) as (M1 & M2). rewrite held_fill, squares_fill. rewrite (held_release h a _ L). pose proof (squares_release h a _ L) as SS.
      rewrite M2. unfold said, rest in M1, M2. apply Nat2Z.inj in M1. apply Nat2Z.inj in M2. rewrite M1, M2. unfold B. cbn [sq] in *.
      assert (LN : zlength (firstn n l ++ [x]) = Z.of_nat (Nat.min n (List.length l)) + 1) by (unfold zlength; rewrite app_length, firstn_length; cbn [List.length]; lia).
      assert (LM : Z.of_nat (Nat.min n (List.length l)) <= zlength l) by (unfold zlength; lia). fold (zlength (firstn n l ++ [x])). 
      rewrite <- (Nat2Z.id (List.length (firstn n l ++ [x]))). fold (zlength (firstn n l ++ [x])). rewrite LN. split; [split; [lia|]|lia]. nia.
    + cbn [perform effort copied] in *. unfold hbind, io, malloc in R. unfold malloc. destruct (_ && _) eqn:OK; [|discriminate]. cbn [perform effort copied] in *.
      unfold hret in R. injection R as <- <- <-. destruct (MS w) as (M1 & M2). rewrite held_fill, squares_fill. rewrite M2. unfold said, rest in M1, M2. apply Nat2Z.inj in M1. apply Nat2Z.inj in M2. rewrite M1, M2.
      unfold B. rewrite firstn_nil. cbn. lia.
Defined.
#[export] Hint Resolve co_elements co_push : co.

(** ** Releasing *)

Lemma co_free_all : forall f, (forall c g, costs (f c g) (fun _ => 0)) -> forall l g, costs (hfree_all f l g) (fun _ => 0).
Proof. intros f F l. induction l as [|c l IH]; intro g; cbn [hfree_all]; co. Defined.
Lemma co_freeGroup : forall f, (forall c g, costs (f c g) (fun _ => 0)) -> forall c, costs (hfreeGroup f c) (fun _ => 2).
Proof. intros f F c. pose proof (co_free_all f F) as FA. unfold hfreeGroup. co. Defined.
Lemma co_freeList : forall f, (forall c g, costs (f c g) (fun _ => 0)) -> forall c, costs (hfreeList f c) (fun _ => 4).
Proof. intros f F c. pose proof (co_free_all f F) as FA. pose proof (co_freeGroup f F) as FG. unfold hfreeList. co. Defined.
Lemma co_freeRaw : forall c, costs (hfreeRawChunk c) (fun _ => 1).
Proof. unfold hfreeRawChunk. co. Defined.
#[export] Hint Resolve co_freeRaw : co.
Lemma co_freeExtension : forall f, (forall c g, costs (f c g) (fun _ => 0)) -> forall k c, costs (hfreeExtensionChunk f k c) (fun _ => 4).
Proof. intros f F k c. pose proof (co_freeGroup f F) as FG. pose proof (co_freeList f F) as FL. unfold hfreeExtensionChunk. destruct k; co. Defined.
Lemma co_freeChunk : forall rg n c g, costs (hfreeChunk rg n c g) (fun _ => 0).
Proof. intros rg n. induction n as [|n IH]; intros c g; cbn [hfreeChunk]; [co|]. pose proof (co_freeExtension _ IH) as FE. co. Defined.
Lemma co_freeTree : forall rg c g, costs (hfreeTree rg c g) (fun _ => 0).
Proof. intros rg c g. unfold hfreeTree. apply (co_size unit (fun n => hfreeChunk rg (S n) c g)). intro n. apply co_freeChunk. Defined.
#[export] Hint Resolve co_freeTree : co.

(** ** Creating and adding *)

Lemma co_createChunk : forall i s n b, costs (hcreateChunk i s n b) made.
Proof. unfold hcreateChunk. co. Defined.
#[export] Hint Resolve co_createChunk : co.
Lemma co_createRaw : forall i s, costs (hcreateRawChunk i s) (fun _ => 6 + 2 * B).
Proof. unfold hcreateRawChunk. co. Defined.
#[export] Hint Resolve co_createRaw : co.
Lemma co_createExtension : forall k i s, costs (hcreateExtensionChunk k i s) (fun _ => 6 + 2 * B).
Proof. unfold hcreateExtensionChunk, hcreateGroup, hcreateList, hcreate_fields. destruct k; co. Defined.
#[export] Hint Resolve co_createExtension : co.
Lemma co_set_parent : forall c p, costs (hset_parent c p) (fun _ => 2).
Proof. unfold hset_parent. co. Defined.
#[export] Hint Resolve co_set_parent : co.
Lemma co_increment : forall s c, costs (hincrementChunkSize s c) (fun _ => 1).
Proof. unfold hincrementChunkSize. co. Defined.
Lemma co_attach : forall g c, costs (hattachToGroup g c) (fun _ => 7 + B).
Proof. unfold hattachToGroup. co. Defined.
Lemma co_attachProp : forall g c, costs (hattachProp g c) (fun _ => 7 + B).
Proof. unfold hattachProp. co. Defined.
#[export] Hint Resolve co_increment co_attach co_attachProp : co.

(** ** Reading *)

Lemma pa_message : forall a i b, pays (IFF_error a ;;; IFF_errorId i ;;; IFF_error b) (fun _ => 6).
Proof. pa. Qed.
#[export] Hint Resolve pa_message : pa.
Lemma co_readRaw : forall c b, costs (hreadRawChunk c b) (fun _ => 11).
Proof. unfold hreadRawChunk. co. Defined.
Lemma co_read_fields : forall s c b, costs (hread_fields_chunk s c b) (fun _ => 11).
Proof. unfold hread_fields_chunk. co. Defined.
#[export] Hint Resolve co_readRaw co_read_fields : co.

Lemma co_warn : forall (b : bool) what s, costs (if b then io (truncated_warning what s) else hret tt) (fun _ => 2).
Proof. co. Defined.
Lemma co_either : forall (b : bool) l c, costs (if b then hattachProp l c else hattachToGroup l c) (fun _ => 7 + B).
Proof. co. Defined.
#[export] Hint Resolve co_warn co_either : co.

Section Read.
  Variable read_chunk : Z -> H ptr.
  Hypothesis RC : forall g, costs (read_chunk g) readcost.

  Lemma co_readGroupSubs : forall n g b, costs (hreadGroupSubChunks read_chunk n g b) (fun _ => 8).
  Proof. induction n as [|n IH]; intros g b; cbn [hreadGroupSubChunks]; co. Defined.
  Lemma co_readListSubs : forall n g b, costs (hreadListSubChunks read_chunk n g b) (fun _ => 8).
  Proof. induction n as [|n IH]; intros g b; cbn [hreadListSubChunks]; co. Defined.
  Lemma co_readGroup : forall n g a b, costs (hreadGroup read_chunk n g a b) (fun _ => 17).
  Proof. pose proof co_readGroupSubs as GS. unfold hreadGroup. co. Defined.
  Lemma co_readList : forall n g b, costs (hreadList read_chunk n g b) (fun _ => 19).
  Proof. pose proof co_readListSubs as LS. unfold hreadList. co. Defined.
  Lemma co_readExtension : forall n k c b, costs (hreadExtensionChunkFields read_chunk n k c b) (fun _ => 19).
  Proof. pose proof co_readGroup as RG. pose proof co_readList as RL. intros n k c b. unfold hreadExtensionChunkFields. destruct k; co. Defined.
  Lemma co_readBody : forall rg n i s g, costs (hreadChunkBody read_chunk rg n i s g) (fun _ => 54).
  Proof. pose proof co_readExtension as RE. unfold hreadChunkBody. co. Defined.
End Read.

Lemma co_readChunk : forall rg n g, costs (hreadChunk rg n g) readcost.
Proof. intros rg n. induction n as [|n IH]; intro g; cbn [hreadChunk]; [co|]. pose proof (co_readBody _ IH) as RB. co. Defined.
#[export] Hint Resolve co_readChunk : co.
Lemma co_readFd : forall rg, costs (hIFF_readFd rg) (fun _ => 10).
Proof.
  intro rg. unfold hIFF_readFd. apply (co_world _ _ (fun w => List.length (r_rest (w_in w))) (fun n => p <-h hreadChunk (selectChunkRegistry rg) (S n) 0 ;; _)).
  intro n. co.
Defined.
Lemma co_IFF_free : forall rg c, costs (hIFF_free c rg) (fun _ => 0).
Proof. unfold hIFF_free. co. Defined.

(** ** From what is paid to what is done *)

Lemma lookup_cons : forall o h a, lookup (o :: h) (S a) = lookup h a.
Proof. reflexivity. Qed.
Lemma held_kept : forall h h', (forall x, lookup h x <> None -> lookup h' x = lookup h x) -> held h <= held h'.
Proof.
  induction h as [|o h IH]; intros h' K; [cbn; unfold held; lia|]. destruct h' as [|o' h'].
  - assert (E : held h <= held []) by (apply IH; intros x N; specialize (K (S x)); rewrite lookup_cons in K; specialize (K N); destruct x; exact K).
    assert (o = None) as -> by (destruct o as [o|]; [|reflexivity]; specialize (K 0%nat); cbn in K; symmetry; apply K; discriminate). unfold held in *. cbn [blocks] in *. lia.
  - assert (E : held h <= held h') by (apply IH; intros x N; exact (K (S x) N)).
    pose proof (K 0%nat) as K0. unfold lookup in K0. cbn [nth_error] in K0.
    destruct o as [o|]; [rewrite K0 by discriminate|]; unfold held in *; cbn [blocks]; [lia|]. destruct o'; lia.
Qed.
Lemma squares_pos : forall h, 0 <= squares h.
Proof. induction h as [|o h IH]; cbn [squares]; [lia|]. pose proof (sq_pos o). lia. Qed.
Lemma squares_kept : forall h h', (forall x, lookup h x <> None -> lookup h' x = lookup h x) -> squares h <= squares h'.
Proof.
  induction h as [|o h IH]; intros h' K; [cbn; apply squares_pos|]. destruct h' as [|o' h'].
  - assert (E : squares h <= squares []) by (apply IH; intros x N; specialize (K (S x)); rewrite lookup_cons in K; specialize (K N); destruct x; exact K).
    assert (o = None) as -> by (destruct o as [o|]; [|reflexivity]; specialize (K 0%nat); cbn in K; symmetry; apply K; discriminate). cbn [squares sq] in *. lia.
  - assert (E : squares h <= squares h') by (apply IH; intros x N; exact (K (S x) N)).
    pose proof (K 0%nat) as K0. unfold lookup in K0. cbn [nth_error] in K0. pose proof (sq_pos o').
    destruct o as [o|]; [rewrite K0 by discriminate|]; cbn [squares]; cbn [sq]; lia.
Qed.
Lemma squares_new : forall h' h d o, (forall x, lookup h x <> None -> lookup h' x = lookup h x) -> lookup h d = None -> lookup h' d = Some o ->
  squares h + sq (Some o) <= squares h'.
Proof.
  intros h' h d o K N L. pose proof (squares_release h' d o L) as R. enough (squares h <= squares (release h' d)) by lia.
  apply squares_kept. intros x X. rewrite lookup_release. destruct (Nat.eqb_spec x d) as [->|NE]; [contradiction|]. exact (K x X).
Qed.

(** Releasing reads nothing and says nothing. *)
Definition still {A} (m : H A) : Prop := forall e w h a w' h', m e w h = Done (a, w', h') -> w' = w.
Lemma st_bind : forall A C (m : H A) (k : A -> H C), still m -> (forall a, still (k a)) -> still (hbind m k).
Proof. intros A C m k S T e w h b w2 h2 R. unfold hbind in R. destruct (m e w h) as [[[a w1] h1]|u|] eqn:E; [|discriminate|discriminate]. rewrite (T a _ _ _ _ _ _ R). exact (S _ _ _ _ _ _ E). Qed.
Lemma st_ret : forall A (a : A), still (hret a).
Proof. intros A a e w h b w' h' R. injection R as _ <- _. reflexivity. Qed.
Lemma st_undefined : forall A u, still (@hundefined A u).
Proof. intros A u e w h b w' h' R. discriminate. Qed.
Lemma st_nofuel : forall A, still (@hnofuel A).
Proof. intros A e w h b w' h' R. discriminate. Qed.
Lemma st_load : forall a, still (hload a).
Proof. intros a e w h b w' h' R. unfold hload in R. destruct (lookup h a); [|discriminate]. injection R as _ <- _. reflexivity. Qed.
Lemma st_free : forall p, still (hfree p).
Proof. intros [a|]; [|apply st_ret]. intros e w h b w' h' R. unfold hfree in R. destruct (lookup h a); [|discriminate]. injection R as _ <- _. reflexivity. Qed.
Lemma st_lift : forall A (o : outcome A), still (hlift o).
Proof. intros A o e w h b w' h' R. unfold hlift, io, lift in R. destruct o as [x|u|]; try discriminate. injection R as _ <- _. reflexivity. Qed.
Create HintDb st.
#[export] Hint Resolve st_ret st_undefined st_nofuel st_load st_free st_lift : st.
Ltac st := intros; repeat first
  [ solve [eauto 2 with st]
  | match goal with |- still (hbind _ _) => apply st_bind; intros end
  | match goal with |- still (match ?x with _ => _ end) => destruct x end ].
Lemma st_array : forall p, still (harray p).
Proof. unfold harray. st. Qed.
Lemma st_chunk : forall a, still (hchunk a).
Proof. unfold hchunk. st. Qed.
#[export] Hint Resolve st_array st_chunk : st.
Lemma st_elements : forall p n, still (helements p n).
Proof. unfold helements. st. Qed.
#[export] Hint Resolve st_elements : st.
Lemma st_free_all : forall f, (forall c g, still (f c g)) -> forall l g, still (hfree_all f l g).
Proof. intros f F l. induction l as [|c l IH]; intro g; cbn [hfree_all]; st. Qed.
Lemma st_freeExtension : forall f, (forall c g, still (f c g)) -> forall k c, still (hfreeExtensionChunk f k c).
Proof. intros f F k c. pose proof (st_free_all f F) as FA. unfold hfreeExtensionChunk, hfreeGroup, hfreeList, hfreeGroup, hfreeRawChunk. destruct k; st. Qed.
Lemma st_freeChunk : forall rg n c g, still (hfreeChunk rg n c g).
Proof. intros rg n. induction n as [|n IH]; intros c g; cbn [hfreeChunk]; [st|]. pose proof (st_freeExtension _ IH) as FE. st. Qed.
Lemma st_IFF_free : forall rg c, still (hIFF_free c rg).
Proof. intros rg c e w h a w' h' R. exact (st_freeChunk _ _ _ _ _ _ _ _ _ _ R). Qed.
