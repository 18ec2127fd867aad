(** * C75, continued: what the application of the project's tests accepts

    tests/hello.c, tests/bye.c and tests/test.c, with the registry as it is there
    (and in README.md): the greetings are the only thing that is ever refused in a
    document of this application, and the boundaries are 0 and 1024, both allowed. *)

From Coq Require Import ZArith List Bool String Lia.
From Coq Require Import Strings.Byte.
From Verif Require Import Machine Io Types Build Check Iff Spec Lemmas FileProofs Examples TestExt PropCheck.
Import ListNotations.
Open Scope Z_scope.

(** What the application's documents consist of *)
Inductive item := Hello (a b c : Z) | Bye (one two : Z).
Definition item_chunk (it : item) : chunk :=
  match it with
  | Hello a b c => CFields (ID_of "HELO") 4 [(FUByte, a); (FUByte, b); (FUWord, c)]
  | Bye one two => CFields (ID_of "BYE ") 8 [(FLong, one); (FLong, two)]
  end.
Definition item_bytes (it : item) : Z := match it with Hello _ _ _ => 12 | Bye _ _ => 16 end.
Definition document (l : list item) : chunk :=
  CGroup FORM_ID (4 + sum (map item_bytes l)) (ID_of "TEST") (map item_chunk l).
Definition polite (it : item) : Prop := match it with Hello _ _ c => 0 <= c <= 1024 | Bye _ _ => True end.
Definition complaint : string := ("'HELO'.c must be between 0 and 1024" ++ nl)%string.
Definition complained (w : world) : world := mkWorld (w_in w) (w_out w) (complaint :: w_log w) (w_allocs w).

Lemma polite_dec : forall it, {polite it} + {~ polite it}.
Proof.
  intros [a b c|one two]; [|left; exact Logic.I]. cbn. destruct (Z_le_dec 0 c), (Z_le_dec c 1024); [left; lia|right; lia|right; lia|right; lia].
Qed.
Lemma item_checked : forall it e w, IFF_checkChunk (Some TEST_chunkRegistry) (item_chunk it) (ID_of "TEST") e w =
  if polite_dec it then Done (true, w) else Done (false, complained w).
Proof.
  intros it e w. assert (Y : IFF_checkId (chunkId (item_chunk it)) e w = Done (true, w)) by (destruct it, w, e as [[] [] ll st mo ga]; vm_compute; reflexivity).
  assert (F : find_handler (Some TEST_chunkRegistry) (ID_of "TEST") (chunkId (item_chunk it)) = Done (HFields match it with Hello _ _ _ => TEST_Hello | _ => TEST_Bye end)) by (destruct it; reflexivity).
  destruct it as [a b c|one two]; cbn [IFF_checkChunk item_chunk] in *; unfold bind; rewrite Y; cbn [negb]; unfold lift; rewrite F.
  - unfold checkExtensionChunk, check_fields_chunk. cbn [map fst snd fkinds_eqb fs_fields TEST_Hello fd_kind fkind_eqb andb fs_check].
    destruct (polite_dec (Hello a b c)) as [P|P]; cbn in P.
    + replace ((c <? 0) || (1024 <? c)) with false by (symmetry; apply orb_false_intro; apply Z.ltb_ge; lia). reflexivity.
    + replace ((c <? 0) || (1024 <? c)) with true by (symmetry; apply orb_true_iff; rewrite !Z.ltb_lt; lia). reflexivity.
  - destruct (polite_dec (Bye one two)) as [P|P]; [reflexivity|destruct P; exact Logic.I].
Qed.

Lemma items_checked : forall g l acc e w, 0 <= acc -> acc + sum (map item_bytes l) <= INT_MAX - 4 ->
  (Forall polite l /\ check_subs (IFF_checkChunk (Some TEST_chunkRegistry)) (form_subChunkCheck g) (map item_chunk l) (ID_of "TEST") acc e w = Done (acc + sum (map item_bytes l), w)) \/
  (~ Forall polite l /\ check_subs (IFF_checkChunk (Some TEST_chunkRegistry)) (form_subChunkCheck g) (map item_chunk l) (ID_of "TEST") acc e w = Done (-1, complained w)).
Proof.
  intros g l. induction l as [|it l IH]; intros acc e w A S.
  - left. split; [constructor|]. cbn. rewrite Z.add_0_r. reflexivity.
  - cbn [map] in *. change (sum (item_bytes it :: map item_bytes l)) with (item_bytes it + sum (map item_bytes l)) in *. cbn [check_subs]. unfold bind.
    assert (F : form_subChunkCheck g (item_chunk it) e w = Done (true, w)) by (destruct it; reflexivity). rewrite F. cbn [negb]. rewrite item_checked.
    destruct (polite_dec it) as [P|P]; [|right; split; [intro Q; inversion Q; contradiction|reflexivity]]. cbn [negb]. unfold lift.
    assert (B : 0 <= sum (map item_bytes l)) by (clear; induction l as [|x l IH]; [cbn; lia|]; cbn [map]; change (sum (item_bytes x :: map item_bytes l)) with (item_bytes x + sum (map item_bytes l)); destruct x; cbn [item_bytes] in *; lia).
    assert (G : IFF_incrementChunkSize acc (item_chunk it) = Done (acc + item_bytes it)).
    { unfold IFF_incrementChunkSize. replace (INT_MAX <? acc + IFF_ID_SIZE) with false by (symmetry; apply Z.ltb_ge; change IFF_ID_SIZE with 4; destruct it; cbn [item_bytes] in *; lia).
      destruct it; cbn [item_chunk chunkSize item_bytes] in *; change (c_odd _) with false; cbv iota; f_equal; rewrite wrap_s_id; change IFF_ID_SIZE with 4; unfold INT_MAX in *; try lia. }
    rewrite G. cbv beta iota. destruct (IH (acc + item_bytes it) e w) as [(Q & E)|(Q & E)]; [destruct it; cbn [item_bytes] in *; lia|lia| |]; rewrite E.
    + left. split; [constructor; assumption|]. rewrite Z.add_assoc. reflexivity.
    + right. split; [|reflexivity]. intro X. inversion X. contradiction.
Qed.

(** ** C75.  A document of the application of any number of greetings and
    farewells: it passes exactly if every greeting's number is between 0 and 1024,
    and otherwise there is one complaint. *)
Theorem C75_tests_application : forall l e w, 4 + sum (map item_bytes l) <= INT_MAX ->
  (Forall polite l -> IFF_check (document l) (Some TEST_chunkRegistry) e w = Done (true, w)) /\
  (~ Forall polite l -> IFF_check (document l) (Some TEST_chunkRegistry) e w = Done (false, complained w)).
Proof.
  intros l e w S. rewrite check_root by (left; reflexivity). change (selectChunkRegistry (Some TEST_chunkRegistry)) with (Some TEST_chunkRegistry).
  assert (B : 0 <= sum (map item_bytes l)) by (clear; induction l as [|x l IH]; [cbn; lia|]; cbn [map]; change (sum (item_bytes x :: map item_bytes l)) with (item_bytes x + sum (map item_bytes l)); destruct x; cbn [item_bytes] in *; lia).
  assert (Y : IFF_checkId (chunkId (document l)) e w = Done (true, w)) by (destruct w, e as [[] [] ll st mo ga]; vm_compute; reflexivity).
  assert (F : find_handler (Some TEST_chunkRegistry) 0 (chunkId (document l)) = Done HForm) by reflexivity.
  assert (Z : IFF_checkFormType (ID_of "TEST") e w = Done (true, w)) by (destruct w, e as [[] [] ll st mo ga]; vm_compute; reflexivity).
  split; intro P'; unfold document in *; cbn [IFF_checkChunk chunkId] in *; unfold bind at 1; rewrite Y; cbn [negb]; unfold bind at 1; unfold lift at 1; rewrite F; cbv beta iota;
    unfold checkExtensionChunk, IFF_checkForm, IFF_checkGroup; unfold bind at 1; rewrite Z; cbn [negb]; unfold bind at 1;
  (match goal with |- context [form_subChunkCheck ?g] => destruct (items_checked g l 0 e w ltac:(lia) ltac:(lia)) as [(P & E)|(P & E)] end); rewrite E; try contradiction.
  - replace (0 + sum (map item_bytes l) =? -1) with false by (symmetry; apply Z.eqb_neq; lia). unfold bind, lift, add_int. change IFF_ID_SIZE with 4.
    replace ((INT_MAX <? 0 + sum (map item_bytes l) + 4) || (0 + sum (map item_bytes l) + 4 <? INT_MIN)) with false by (symmetry; apply orb_false_intro; apply Z.ltb_ge; unfold INT_MIN; lia).
    unfold IFF_checkGroupChunkSize. cbn [chunkSize]. replace (0 + sum (map item_bytes l) + 4 =? 4 + sum (map item_bytes l)) with true by (symmetry; apply Z.eqb_eq; lia). reflexivity.
  - reflexivity.
Qed.
Print Assumptions C75_tests_application.

(** The two documents at the boundary *)
Example C75_tests_example :
  Forall polite [Hello 97 98 0; Bye (-1) 2; Hello 97 98 1024] /\ ~ Forall polite [Hello 97 98 1024; Hello 97 98 1025] /\
  4 + sum (map item_bytes [Hello 97 98 0; Bye (-1) 2; Hello 97 98 1024]) = 44 /\
  encoded_size (document [Hello 97 98 0; Bye (-1) 2; Hello 97 98 1024]) = 52.
Proof.
  split; [repeat constructor; cbn; lia|]. split; [|split; reflexivity]. intro X. inversion X as [|? ? _ Y]. inversion Y as [|? ? Z _]. cbn in Z. lia.
Qed.
