(** * IFF_readFd decides the grammar, and consequences *)

From Coq Require Import ZArith List Bool String Lia.
From Coq Require Import Strings.Byte.
From Verif Require Import Machine Io Types Build Read Write Iff Spec Lemmas IoProofs RegProofs WriteProofs
  EncodeProofs Grammar ReadProofs DetProofs SoundProofs RoundProofs.
Import ListNotations.
Open Scope Z_scope.

(** What is reported about bytes behind the main chunk. *)
Definition trailing_warning (t : list byte) : list string :=
  match t with
  | [] => []
  | b :: _ => [("WARNING: Trailing IFF contents found: " ++ dec (b2z b) ++ "!" ++ nl)%string]
  end.

Lemma readFd_some : forall rg e w c w1,
  IFF_readChunk (selectChunkRegistry rg) (S (List.length (rest w))) 0 e w = Done (Some c, w1) ->
  IFF_readFd rg e w = Done (Some c, after (tl (rest w1)) (trailing_warning (rest w1)) (w_allocs w1) w1).
Proof.
  intros rg e w c w1 H. unfold IFF_readFd, bind. fold (rest w). rewrite H.
  destruct w1 as [[[|b r] sk] o lg n]; reflexivity.
Qed.

Lemma readFd_none : forall rg e w w1,
  IFF_readChunk (selectChunkRegistry rg) (S (List.length (rest w))) 0 e w = Done (None, w1) ->
  IFF_readFd rg e w
  = Done (None, add_log [("ERROR: cannot open main chunk!" ++ nl)%string] w1).
Proof. intros rg e w w1 H. unfold IFF_readFd, bind. fold (rest w). rewrite H. reflexivity. Qed.

Lemma readFd_undefined : forall rg e w u,
  IFF_readChunk (selectChunkRegistry rg) (S (List.length (rest w))) 0 e w = Undefined u ->
  IFF_readFd rg e w = Undefined u.
Proof. intros rg e w u H. unfold IFF_readFd, bind. fold (rest w). rewrite H. reflexivity. Qed.

Lemma readFd_cases : forall rg e w,
  match IFF_readChunk (selectChunkRegistry rg) (S (List.length (rest w))) 0 e w with
  | Done (Some c, w1) =>
      IFF_readFd rg e w = Done (Some c, after (tl (rest w1)) (trailing_warning (rest w1)) (w_allocs w1) w1)
  | Done (None, w1) =>
      IFF_readFd rg e w = Done (None, add_log [("ERROR: cannot open main chunk!" ++ nl)%string] w1)
  | Undefined u => IFF_readFd rg e w = Undefined u
  | OutOfFuel => IFF_readFd rg e w = OutOfFuel
  end.
Proof.
  intros rg e w.
  destruct (IFF_readChunk (selectChunkRegistry rg) (S (List.length (rest w))) 0 e w) as [[[c|] w1]|u|] eqn:H.
  - apply readFd_some; assumption.
  - apply readFd_none; assumption.
  - apply readFd_undefined; assumption.
  - unfold IFF_readFd, bind. fold (rest w). rewrite H. reflexivity.
Qed.

(** The input stream cannot be moved beyond its end: it is not seekable, or
    there are no application chunks to skip bytes of. *)
Definition ExactInput (app : apps) (w : world) : Prop :=
  r_seekable (w_in w) = false \/ forall ft i, app ft i = None.

Theorem readFd_complete : forall rg app e w l t c lg,
  Realises (selectChunkRegistry rg) app -> usual e -> SaneApps app ->
  Parsed e app 0 l c lg -> rest w = l ++ t -> zlength l < 2 ^ (size_t_bits e - 1) ->
  SkipOk app (r_seekable (w_in w)) lg ->
  exists n, IFF_readFd rg e w = Done (Some c, after (tl t) (trailing_warning t ++ lg) n w).
Proof.
  intros rg app e w l t c lg RG U SA P R L SK.
  destruct (proj1 (read_complete _ app e RG U SA) _ _ _ _ P (S (List.length (rest w))) w t) as [n H]; try assumption.
  - rewrite R, app_length. lia.
  - apply readFd_some in H. rewrite after_after in H. eexists. exact H.
Qed.

Lemma step_after_eq : forall app w w1 l lg, rest w = l ++ rest w1 -> step app w w1 l lg ->
  exists n, w1 = after (rest w1) lg n w.
Proof.
  intros app w w1 l lg R [_ _ O SK LG]. destruct w1 as [[r sk] o g n]. simpl in *. subst.
  exists n. reflexivity.
Qed.

Theorem readFd_sound : forall rg app e w c w',
  Realises (selectChunkRegistry rg) app -> strict_c e = false -> SaneApps app -> ExactInput app w ->
  IFF_readFd rg e w = Done (Some c, w') ->
  exists l t lg n, Parsed e app 0 l c lg /\ rest w = l ++ t /\
    w' = after (tl t) (trailing_warning t ++ lg) n w.
Proof.
  intros rg app e w c w' RG NS SA K H.
  pose proof (readFd_cases rg e w) as RC.
  pose proof (read_outcomes _ app e RG NS SA (S (List.length (rest w))) 0 w ltac:(lia)) as O. unfold chunk_outcome in O.
  destruct (IFF_readChunk (selectChunkRegistry rg) (S (List.length (rest w))) 0 e w) as [[[c1|] w1]|u|]; try congruence.
  rewrite RC in H. injection H as <- <-.
  destruct O as (l & lg & ST & P & _). pose proof (exact_step _ _ _ _ _ K ST) as R.
  destruct (step_after_eq _ _ _ _ _ R ST) as [n E]. exists l, (rest w1), lg, (w_allocs w1). split; [assumption|].
  split; [assumption|]. rewrite E at 4. rewrite after_after. reflexivity.
Qed.

Theorem readFd_outcome : forall rg app e w,
  Realises (selectChunkRegistry rg) app -> strict_c e = false -> SaneApps app ->
  match IFF_readFd rg e w with
  | Done (Some c, w') => True
  | Done (None, w') => exists lg, lg <> [] /\ w_log w' = lg ++ w_log w /\ w_out w' = w_out w
  | Undefined u => bad e (Safe app (rest w) (r_seekable (w_in w))) (zlength (rest w)) u
  | OutOfFuel => False
  end.
Proof.
  intros rg app e w RG NS SA.
  pose proof (readFd_cases rg e w) as RC.
  pose proof (read_outcomes _ app e RG NS SA (S (List.length (rest w))) 0 w ltac:(lia)) as O. unfold chunk_outcome in O.
  destruct (IFF_readChunk (selectChunkRegistry rg) (S (List.length (rest w))) 0 e w) as [[[c1|] w1]|u|];
    rewrite RC; try assumption; [exact I|].
  destruct O as (lg & F). exists (("ERROR: cannot open main chunk!" ++ nl)%string :: lg).
  split; [discriminate|]. destruct F as [_ OU _ LG]. cbn [add_log w_log w_out]. rewrite LG. split; [reflexivity|assumption].
Qed.

(** ** Truncation *)

Theorem readFd_prefix : forall rg app e w l c lg pre suf,
  Realises (selectChunkRegistry rg) app -> usual e -> SaneApps app -> ExactInput app w ->
  Parsed e app 0 l c lg -> zlength l < 2 ^ (size_t_bits e - 1) ->
  pre ++ suf = l -> suf <> [] -> rest w = pre ->
  exists lg', lg' <> [] /\ exists w', IFF_readFd rg e w = Done (None, w') /\ w_log w' = lg' ++ w_log w.
Proof.
  intros rg app e w l c lg pre suf RG U SA K P L E NE R.
  pose proof (readFd_cases rg e w) as RC.
  pose proof (read_prefix_outcomes _ app e RG (not_strict _ U) SA (S (List.length (rest w))) 0 w ltac:(lia)) as O.
  unfold chunk_outcome in O.
  assert (PC : PrefixC e app 0 (rest w) (r_seekable (w_in w))).
  { split; [exact K|]. exists suf, l, c, lg, []. rewrite app_nil_r, R. split; assumption. }
  destruct (IFF_readChunk (selectChunkRegistry rg) (S (List.length (rest w))) 0 e w) as [[[c1|] w1]|u|].
  - exfalso. destruct O as (l1 & lg1 & ST & P1 & _). pose proof (exact_step _ _ _ _ _ K ST) as R1.
    rewrite R in R1.
    assert (EQ : l1 ++ (rest w1 ++ suf) = l ++ []).
    { rewrite app_nil_r, <- E, R1, <- app_assoc. reflexivity. }
    destruct (proj1 (Parsed_det e app) _ _ _ _ P1 _ _ _ _ _ P EQ) as (_ & _ & _ & X).
    apply app_eq_nil in X. destruct X. contradiction.
  - destruct O as (lg1 & F). exists (("ERROR: cannot open main chunk!" ++ nl)%string :: lg1).
    split; [discriminate|]. eexists. split; [exact RC|]. destruct F as [_ _ _ LG]. cbn [add_log w_log]. rewrite LG.
    reflexivity.
  - exfalso. destruct O as [[_ N]|[_ (n & sz & BB & [N|N])]].
    + apply N. exact PC.
    + rewrite (memory _ U) in N. discriminate.
    + rewrite R in BB. rewrite <- E, zlength_app in L. pose proof (zlength_nonneg _ suf). lia.
  - destruct O.
Qed.

Lemma firstn_app_le : forall A (a b : list A) n, (n <= List.length a)%nat -> firstn n (a ++ b) = firstn n a.
Proof. intros. rewrite firstn_app. replace (n - List.length a)%nat with O by lia. rewrite app_nil_r. reflexivity. Qed.

(** Every readable input has a length [n] that matters: shorter prefixes are
    rejected, and what follows these [n] bytes makes no difference. *)
Theorem readFd_extent : forall rg app e w c w',
  Realises (selectChunkRegistry rg) app -> usual e -> SaneApps app -> (forall ft i, app ft i = None) ->
  zlength (rest w) < 2 ^ (size_t_bits e - 1) ->
  IFF_readFd rg e w = Done (Some c, w') ->
  exists n, (n <= List.length (rest w))%nat /\
    (forall k, (k < n)%nat -> exists w2, IFF_readFd rg e (with_input (firstn k (rest w)) w) = Done (None, w2)) /\
    (forall t, exists lg m,
       IFF_readFd rg e (with_input (firstn n (rest w) ++ t) w)
       = Done (Some c, after (tl t) (trailing_warning t ++ lg) m w)).
Proof.
  intros rg app e w c w' RG U SA NA L H.
  destruct (readFd_sound _ _ _ _ _ _ RG (not_strict _ U) SA (or_intror NA) H) as (l & t & lg & n & P & R & E).
  assert (LL : zlength l < 2 ^ (size_t_bits e - 1)).
  { rewrite R, zlength_app in L. pose proof (zlength_nonneg _ t). lia. }
  exists (List.length l). split; [rewrite R, app_length; lia|]. split.
  - intros k LT. rewrite R, firstn_app_le by lia.
    destruct (readFd_prefix rg app e (with_input (firstn k l) w) l c lg (firstn k l) (skipn k l))
      as (_ & _ & w2 & H2 & _); try assumption; try reflexivity.
    + right. exact NA.
    + apply firstn_skipn.
    + intro X. apply (f_equal (@List.length byte)) in X. rewrite skipn_length in X. simpl in X. lia.
    + exists w2. exact H2.
  - intro t2. rewrite R, firstn_app, firstn_all, Nat.sub_diag. cbn [firstn]. rewrite app_nil_r.
    destruct (readFd_complete rg app e (with_input (l ++ t2) w) l t2 c lg RG U SA P eq_refl LL) as [m Q].
    { right; right; exact NA. }
    exists lg, m. rewrite Q. reflexivity.
Qed.

(** ** What reaches the device *)

Definition Prefix (a b : list byte) : Prop := exists q, a ++ q = b.

Lemma flush_device : forall f,
  (fst (flush f) = true /\ o_dev (snd (flush f)) = o_dev f ++ o_buf f \/
   fst (flush f) = false /\ exists p q, o_buf f = p ++ q /\ q <> [] /\ o_dev (snd (flush f)) = o_dev f ++ p)
  /\ o_buf (snd (flush f)) = [] /\ o_bufsize (snd (flush f)) = o_bufsize f
  /\ (o_room f = None -> fst (flush f) = true /\ o_room (snd (flush f)) = None).
Proof.
  intros [d b z [r|]]; unfold flush; simpl.
  - split; [|split; [reflexivity|split; [reflexivity|discriminate]]].
    destruct (Nat.leb_spec (List.length b) r).
    + left. split; [reflexivity|]. rewrite firstn_all2 by assumption. reflexivity.
    + right. split; [reflexivity|]. exists (firstn r b), (skipn r b). rewrite firstn_skipn.
      split; [reflexivity|]. split; [|reflexivity].
      intro X. apply (f_equal (@List.length byte)) in X. rewrite skipn_length in X. simpl in X. lia.
  - split; [left; split; reflexivity|]. repeat split; reflexivity.
Qed.

Lemma put_bytes_device : forall l f,
  (fst (put_bytes l f) = true /\
     o_dev (snd (put_bytes l f)) ++ o_buf (snd (put_bytes l f)) = o_dev f ++ o_buf f ++ l \/
   fst (put_bytes l f) = false /\ o_buf (snd (put_bytes l f)) = [] /\
     exists q, q <> [] /\ o_dev (snd (put_bytes l f)) ++ q = o_dev f ++ o_buf f ++ l)
  /\ (o_room f = None -> fst (put_bytes l f) = true /\ o_room (snd (put_bytes l f)) = None).
Proof.
  induction l as [|b l IH]; intro f.
  - simpl. split; [left|tauto]. split; [reflexivity|]. rewrite app_nil_r. reflexivity.
  - cbn [put_bytes]. unfold put_byte.
    set (f1 := mkWfile (o_dev f) (o_buf f ++ [b]) (o_bufsize f) (o_room f)).
    destruct (Nat.ltb (List.length (o_buf f1)) (o_bufsize f1)).
    + destruct (IH f1) as [A B]. split; [|exact B]. simpl in A. rewrite <- !app_assoc in A. exact A.
    + destruct (flush_device f1) as (C & EB & _ & N). destruct (flush f1) as [ok f2]. simpl in *.
      destruct ok.
      * destruct C as [[_ C]|[C _]]; [|discriminate].
        destruct (IH f2) as [A B]. rewrite C, EB in A. simpl in A. rewrite <- !app_assoc in A. simpl in A.
        split; [exact A|]. intro R. apply B. apply N. exact R.
      * destruct C as [[C _]|[_ (p & q & C1 & C2 & C3)]]; [discriminate|].
        split.
        -- right. split; [reflexivity|]. split; [assumption|]. exists (q ++ l). split.
           ++ intro X. apply app_eq_nil in X. tauto.
           ++ simpl. rewrite C3, <- !app_assoc. f_equal. rewrite app_assoc, <- C1, <- app_assoc. reflexivity.
        -- intro R. destruct (N R) as [X _]. discriminate.
Qed.

Definition fresh (bufsize : nat) (room : option nat) : wfile := mkWfile [] [] bufsize room.

(** Writing all of [l] to a fresh stream and closing it. *)
Lemma fresh_device : forall l z room,
  Prefix (o_dev (snd (put_bytes l (fresh z room)))) l /\
  Prefix (o_dev (snd (flush (snd (put_bytes l (fresh z room)))))) l /\
  (fst (put_bytes l (fresh z room)) = true -> fst (flush (snd (put_bytes l (fresh z room)))) = true ->
   o_dev (snd (flush (snd (put_bytes l (fresh z room))))) = l) /\
  (room = None -> fst (put_bytes l (fresh z room)) = true /\
     o_dev (snd (flush (snd (put_bytes l (fresh z room))))) = l).
Proof.
  intros l z room. destruct (put_bytes_device l (fresh z room)) as [A B].
  set (f := snd (put_bytes l (fresh z room))) in *. set (ok := fst (put_bytes l (fresh z room))) in *.
  simpl in A. destruct (flush_device f) as (C & _ & _ & N).
  split; [|split; [|split]].
  - destruct A as [[_ A]|(_ & _ & q & _ & A)]; eexists; exact A.
  - destruct A as [[_ A]|(_ & E & q & _ & A)].
    + destruct C as [[_ C]|[_ (p & q & C1 & _ & C2)]].
      * exists []. rewrite app_nil_r, C. exact A.
      * exists q. rewrite C2, <- app_assoc, <- C1. exact A.
    + destruct C as [[_ C]|[_ (p & q' & C1 & X & C2)]].
      * exists q. rewrite C, E, app_nil_r. exact A.
      * rewrite E in C1. symmetry in C1. apply app_eq_nil in C1. tauto.
  - intros OK FL. destruct A as [[_ A]|(X & _)]; [|congruence].
    destruct C as [[_ C]|[X _]]; [|congruence]. rewrite C. exact A.
  - intro R. subst room. destruct (B eq_refl) as [B1 B2]. split; [exact B1|].
    destruct A as [[_ A]|(X & _)]; [|congruence].
    destruct (N B2) as [N1 _]. destruct C as [[_ C]|[X _]]; [|congruence]. rewrite C. exact A.
Qed.
