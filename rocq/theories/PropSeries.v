(** * Property C98: several trees in one stream *)

From Coq Require Import ZArith List Bool String Lia.
From Coq Require Import Strings.Byte.
From Verif Require Import Machine Io Types Build Read Write Iff Spec Lemmas IoProofs RegProofs WriteProofs EncodeProofs Grammar ReadProofs SoundProofs RoundProofs ApiProofs Examples
  PropRegistry PropRead PropWrite PropCut.
Import ListNotations.
Open Scope Z_scope.

(** A program that calls IFF_writeFd, or IFF_readFd, several times on the same
    stream *)
Fixpoint write_series (l : list chunk) : M (list bool) :=
  match l with
  | [] => ret []
  | c :: r => ok <- IFF_writeFd c None ;; oks <- write_series r ;; ret (ok :: oks)
  end.
Fixpoint read_series (n : nat) : M (list (option chunk)) :=
  match n with
  | O => ret []
  | S n => x <- IFF_readFd None ;; r <- read_series n ;; ret (x :: r)
  end.

(** Written one after another, the encodings follow each other. *)
Theorem C98_written : forall l e w, usual e -> Forall (WF no_apps 0) l -> o_room (w_out w) = None ->
  exists w', write_series l e w = Done (map (fun _ => true) l, w') /\ handed (w_out w') = handed (w_out w) ++ flat_map encode l.
Proof.
  intros l e w U F. revert w. induction F as [|c l W F IH]; intros w R; [exists w; split; [reflexivity|cbn; rewrite app_nil_r; reflexivity]|].
  destruct (write_result None no_apps e c w default_registry U W) as (lg & n & X & L).
  destruct (put_bytes_device (encode c) (w_out w)) as [_ T]. destruct (T R) as (OK & RM). rewrite OK in X.
  pose proof (C21_written_is_the_encoding None no_apps e c w _ default_registry U W X) as (H & _).
  match type of X with _ = Done (_, ?v) => set (w1 := v) in * end.
  destruct (IH w1) as (w' & E & H'); [exact RM|]. exists w'. split.
  - cbn [write_series map]. unfold bind at 1. rewrite X. unfold bind. rewrite E. reflexivity.
  - rewrite H', H, <- app_assoc. reflexivity.
Qed.
Print Assumptions C98_written.

(** ** With one byte after each tree, they can be read one after another

    IFF_readFd looks for one more byte behind the chunk, to warn about it, and
    does not give it back.  Whatever that byte is, it is what the next call does
    not see. *)
Definition spaced (l : list (chunk * byte)) : list byte := flat_map (fun x => encode (fst x) ++ [snd x]) l.
Lemma read_next : forall e w c b more, usual e -> WF no_apps 0 c -> zlength (encode c) < 2 ^ (size_t_bits e - 1) -> r_rest (w_in w) = encode c ++ b :: more ->
  exists lg n, lg <> [] /\ IFF_readFd None e w = Done (Some c, after more lg n w).
Proof.
  intros e w c b more U W L R. destruct (WF_parsed e no_apps 0 c W) as (lg & P & _).
  destruct (readFd_complete None no_apps e w (encode c) (b :: more) c lg default_registry U no_apps_sane P R L) as (n & X); [right; right; exact no_apps_none|].
  exists (trailing_warning (b :: more) ++ lg), n. split; [discriminate|exact X].
Qed.
Theorem C98_one_byte_between : forall l e w more, usual e -> Forall (fun x => WF no_apps 0 (fst x) /\ zlength (encode (fst x)) < 2 ^ (size_t_bits e - 1)) l ->
  r_rest (w_in w) = spaced l ++ more ->
  exists w' lg, read_series (List.length l) e w = Done (map (fun x => Some (fst x)) l, w') /\ r_rest (w_in w') = more /\
    w_log w' = lg ++ w_log w /\ (List.length l <= List.length lg)%nat.
Proof.
  intros l e w more U F. revert w. induction F as [|[c b] l (W & L) F IH]; intros w R; [exists w, []; repeat split; [exact R|reflexivity]|].
  unfold spaced in R. cbn [flat_map fst snd] in *. fold (spaced l) in R. rewrite <- !app_assoc in R. cbn [app] in R. destruct (read_next e w c b (spaced l ++ more) U W L R) as (lg & n & NE & X).
  destruct (IH (after (spaced l ++ more) lg n w) eq_refl) as (w' & lg' & E & R' & LG & LE). exists w', (lg' ++ lg). split; [|split; [exact R'|split]].
  - cbn [List.length read_series map fst]. unfold bind at 1. rewrite X. unfold bind. rewrite E. reflexivity.
  - rewrite LG. cbn. rewrite app_assoc. reflexivity.
  - rewrite app_length. cbn [List.length]. destruct lg; [destruct (NE eq_refl)|cbn [List.length]; lia].
Qed.
Print Assumptions C98_one_byte_between.

(** ** Without it, they cannot

    The next call begins at the second byte: of FORM it sees ORM and the first
    byte of the size, and takes the other three and the first of the type for a
    size, which is larger than all that follows. *)
Lemma size_bytes : forall s g, 0 <= s < 2 ^ 23 ->
  exists b1 b2 b3 g0 gs, be32 s = [z2b 0; b1; b2; b3] /\ be32 g = g0 :: gs /\
    b2z b1 * 2 ^ 24 + b2z b2 * 2 ^ 16 + b2z b3 * 2 ^ 8 + b2z g0 = 256 * s + b2z g0.
Proof.
  intros s g R. eexists _, _, _, _, _. split; [unfold be32; replace (s / 2 ^ 24) with 0 by (symmetry; apply Z.div_small; lia); reflexivity|]. split; [reflexivity|].
  rewrite !b2z_z2b. set (q := (g / 2 ^ 24) mod 256). clearbody q.
  change (2 ^ 8) with 256. change (2 ^ 16) with 65536. change (2 ^ 24) with 16777216. change (2 ^ 23) with 8388608 in R.
  pose proof (Z.div_mod s 256 ltac:(lia)). pose proof (Z.div_mod (s / 256) 256 ltac:(lia)) as H0. rewrite Z.div_div in H0 by lia. change (256 * 256) with 65536 in H0.
  rewrite (Z.mod_small (s / 65536) 256) by (split; [apply Z.div_pos; lia|apply Z.div_lt_upper_bound; lia]). lia.
Qed.
Lemma header_shifted : forall i, In i group_ids -> exists a0 a1 a2 a3, be32 i = [a0; a1; a2; a3] /\
  forall x, 0 <= x < 2 ^ 24 -> ~ In (b2z a1 * 2 ^ 24 + x) group_ids.
Proof.
  intros i I. cbn in I. repeat destruct I as [<-|I]; try contradiction; (eexists _, _, _, _; split; [reflexivity|]; intros x R J;
    match type of J with In (b2z ?b * _ + _) _ => let v := eval vm_compute in (b2z b) in change (b2z b) with v in J end;
    unfold group_ids in J; repeat destruct J as [J|J]; try contradiction; (match type of J with ?a = _ => let v := eval vm_compute in a in change a with v in J end); lia).
Qed.
Lemma group_bytes : forall app ft c, WF app ft c -> In (chunkId c) group_ids ->
  exists g body, encode c = be32 (chunkId c) ++ be32 (chunkSize c) ++ be32 g ++ body /\ 4 <= chunkSize c /\ zlength body <= chunkSize c - 3.
Proof.
  intros app ft c W I. pose proof (WF_encode_length _ _ _ W) as LE. destruct W; cbn [chunkId chunkSize] in *; try contradiction.
  - eexists g, _. split; [cbn [encode]; unfold frame; rewrite <- !app_assoc; reflexivity|]. cbn [encode] in LE. unfold frame in LE. rewrite <- !app_assoc in LE. rewrite !zlength_app, !be32_length in LE.
    unfold physical, round_even in LE. pose proof (Z.mod_pos_bound s 2 ltac:(lia)). pose proof (zlength_nonneg _ (flat_map encode subs)). rewrite !zlength_app. lia.
  - eexists g, _. split; [cbn [encode]; unfold frame; rewrite <- !app_assoc; reflexivity|]. cbn [encode] in LE. unfold frame in LE. rewrite <- !app_assoc in LE. rewrite !zlength_app, !be32_length in LE.
    unfold physical, round_even in LE. pose proof (Z.mod_pos_bound s 2 ltac:(lia)). pose proof (zlength_nonneg _ (flat_map encode subs)). pose proof (zlength_nonneg _ (flat_map encode props)). rewrite !zlength_app. lia.
Qed.

Lemma second_fails : forall e w c, usual e -> WF no_apps 0 c -> In (chunkId c) group_ids -> chunkSize c < 2 ^ 23 -> 32 <= size_t_bits e ->
  r_rest (w_in w) = tl (encode c) -> exists w' lg, IFF_readFd None e w = Done (None, w') /\ lg <> [] /\ w_log w' = lg ++ w_log w.
Proof.
  intros e w c U W I S SB R. destruct (group_bytes _ _ _ W I) as (g & body & E & L4 & LB).
  destruct (header_shifted _ I) as (a0 & a1 & a2 & a3 & EI & NG). destruct (size_bytes (chunkSize c) g ltac:(lia)) as (b1 & b2 & b3 & g0 & gs & ES & EG & V).
  assert (GS : zlength gs = 3). { apply (f_equal (@zlength byte)) in EG. rewrite be32_length in EG. unfold zlength in *. cbn [List.length] in EG. lia. }
  rewrite E, EI, ES, EG in R. cbn [app tl] in R.
  set (id := b2z a1 * 2 ^ 24 + b2z a2 * 2 ^ 16 + b2z a3 * 2 ^ 8 + b2z (z2b 0)) in *. set (n := b2z b1 * 2 ^ 24 + b2z b2 * 2 ^ 16 + b2z b3 * 2 ^ 8 + b2z g0) in *.
  pose proof (b2z_range a1). pose proof (b2z_range a2). pose proof (b2z_range a3). pose proof (b2z_range (z2b 0)). pose proof (b2z_range g0). pose proof (zlength_nonneg _ body).
  set (data := (gs ++ body) ++ repeat (z2b 0) (Z.to_nat (n - 3 - zlength body))).
  assert (LD : zlength data = n). { unfold data. rewrite !zlength_app, GS. unfold zlength at 2. rewrite repeat_length. lia. }
  assert (WD : WF no_apps 0 (CRaw id (zlength data) (Some data))).
  { constructor; [cbv [in_range]; cbn; unfold id; lia| |reflexivity|rewrite LD; unfold INT_MAX; lia].
    replace id with (b2z a1 * 2 ^ 24 + (b2z a2 * 2 ^ 16 + b2z a3 * 2 ^ 8 + b2z (z2b 0))) by (unfold id; lia). apply NG. lia. }
  destruct (C80_truncation_located e w _ (r_rest (w_in w)) (repeat (z2b 0) (Z.to_nat (n - 3 - zlength body)) ++ pad data) U WD) as (t & w' & lg & X & _ & LG & TX).
  - rewrite R. cbn [encode data_of]. unfold frame. rewrite LD. rewrite (be32_of_bytes a1 a2 a3 (z2b 0) : be32 id = _). rewrite (be32_of_bytes b1 b2 b3 g0 : be32 n = _). unfold data at 2. cbn [app]. rewrite <- !app_assoc. reflexivity.
  - replace (Z.to_nat (n - 3 - zlength body)) with (Datatypes.S (Z.to_nat (n - 4 - zlength body))) by lia. discriminate.
  - rewrite R. unfold zlength in *. cbn [List.length]. rewrite app_length. apply Z.lt_le_trans with (2 ^ 31); [lia|apply Z.pow_le_mono_r; lia].
  - exists w', lg. assert (with_input (r_rest (w_in w)) w = w) as WE by (destruct w as [[r s] o l a]; reflexivity). rewrite WE in X. split; [exact X|]. split; [|exact LG].
    intros ->. cbn in TX. destruct t; discriminate TX.
Qed.
Theorem C98_adjacent_refuted : forall c1 c2 e w, usual e -> 32 <= size_t_bits e -> WF no_apps 0 c1 -> WF no_apps 0 c2 -> zlength (encode c1) < 2 ^ (size_t_bits e - 1) ->
  In (chunkId c2) [FORM_ID; CAT_ID; LIST_ID; PROP_ID] -> chunkSize c2 < 2 ^ 23 -> r_rest (w_in w) = encode c1 ++ encode c2 ->
  exists w' lg, read_series 2 e w = Done ([Some c1; None], w') /\ lg <> [] /\ w_log w' = lg ++ w_log w.
Proof.
  intros c1 c2 e w U SB W1 W2 L I S R. assert (I' : In (chunkId c2) group_ids) by (cbn in I |- *; tauto).
  assert (exists b, encode c2 = b :: tl (encode c2)) as (b & EB). { destruct (group_bytes _ _ _ W2 I') as (g & body & E & _). rewrite E. eexists. reflexivity. }
  rewrite EB in R. destruct (read_next e w c1 b (tl (encode c2)) U W1 L R) as (lg & n & NE & X).
  destruct (second_fails e (after (tl (encode c2)) lg n w) c2 U W2 I' S SB eq_refl) as (w' & lg' & X' & NE' & LG).
  exists w', (lg' ++ lg). split; [|split; [destruct lg'; [destruct (NE' eq_refl)|discriminate]|rewrite LG; cbn; rewrite app_assoc; reflexivity]].
  cbn [read_series]. unfold bind at 1. rewrite X. unfold bind. rewrite X'. reflexivity.
Qed.
Print Assumptions C98_adjacent_refuted.

(** With more behind, the second call may even succeed, with a tree nobody wrote. *)
Definition ex_small : chunk := group "FORM" "TEST" [].
Definition ex_large : chunk := group "FORM" "TEST" [CRaw (ID_of "BODY") 1200 (Some (repeat (z2b 120) 1200))].
Theorem C98_wrong_tree_refuted : exists w data w', write_series [ex_small; ex_small; ex_large] (host false) (start []) = Done ([true; true; true], w) /\
  read_series 2 (host false) (start (handed (w_out w))) = Done ([Some ex_small; Some (CRaw 1330793728 1108 (Some data))], w') /\ Forall (WF no_apps 0) [ex_small; ex_small; ex_large].
Proof.
  eexists _, _, _. split; [vm_compute; reflexivity|]. split; [vm_compute; reflexivity|]. 
  assert (S : WF no_apps 0 ex_small) by (unfold ex_small; prove_wf). assert (B : WF no_apps 0 ex_large) by (unfold ex_large; prove_wf). auto.
Qed.
Print Assumptions C98_wrong_tree_refuted.

(** The hypotheses are met. *)
Example C98_example : usual (host true) /\ 32 <= size_t_bits (host true) /\ Forall (fun x => WF no_apps 0 (fst x) /\ zlength (encode (fst x)) < 2 ^ (size_t_bits (host true) - 1)) [(ex_form, z2b 0); (ex_cat, z2b 10); (ex_list, z2b 255)] /\
  exists w', read_series 3 (host true) (start (spaced [(ex_form, z2b 0); (ex_cat, z2b 10); (ex_list, z2b 255)])) = Done ([Some ex_form; Some ex_cat; Some ex_list], w') /\ List.length (w_log w') = 3%nat.
Proof.
  split; [split; reflexivity|]. split; [vm_compute; congruence|]. split; [constructor; [split; [exact ex_form_wf|reflexivity]|]; constructor; [split; [exact ex_cat_wf|reflexivity]|]; constructor; [split; [exact ex_list_wf|reflexivity]|]; constructor|].
  eexists. split; [vm_compute; reflexivity|]. reflexivity.
Qed.
