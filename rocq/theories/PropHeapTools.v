(** * Properties C54, C61 and C62: memory in the command-line tools, and
    functions that only look *)

From Coq Require Import ZArith List Bool String Lia.
From Coq Require Import Strings.Byte.
From Verif Require Import Machine Io Types Build Read Write Check Compare Print Iff Spec Lemmas Examples HostProofs PropCheck PropTools
  Heap HeapSpec HeapProofs HeapReachProofs HeapPass HeapPassProofs HeapPureProofs HeapTools HeapToolsProofs.
Import ListNotations.
Open Scope Z_scope.

(** ** C61.  Writing, checking, printing and comparing change no block of
    memory, whatever the heap holds, valid chunks or not. *)
Theorem C61_writing_only_looks : forall rg a e w h ok w' h', hIFF_writeFd a rg e w h = Done (ok, w', h') -> h' = h.
Proof. intros rg a e w h ok w' h' E. exact (lk_writeFd a rg _ _ _ _ _ _ E). Qed.
Print Assumptions C61_writing_only_looks.

Theorem C61_checking_only_looks : forall rg a e w h ok w' h', hIFF_check a rg e w h = Done (ok, w', h') -> h' = h.
Proof. intros rg a e w h ok w' h' E. exact (lk_check a rg _ _ _ _ _ _ E). Qed.
Print Assumptions C61_checking_only_looks.

Theorem C61_printing_only_looks : forall rg a level e w h t w' h', hIFF_print a level rg e w h = Done (t, w', h') -> h' = h.
Proof. intros rg a lv e w h ok w' h' E. exact (lk_print a lv rg _ _ _ _ _ _ E). Qed.
Print Assumptions C61_printing_only_looks.

Theorem C61_comparing_only_looks : forall rg a b e w h r w' h', hIFF_compare a b rg e w h = Done (r, w', h') -> h' = h.
Proof. intros rg a b e w h ok w' h' E. exact (lk_compare a b rg _ _ _ _ _ _ E). Qed.
Print Assumptions C61_comparing_only_looks.

(** And their results depend on the tree only, not on where its blocks lie:
    two copies of a tree at different places, in different heaps, are treated
    alike.  The blocks of one copy must be distinct. *)
Theorem C61_place_independent : forall rg e w c p1 a1 F1 h1 p2 a2 F2 h2,
  tree_at h1 c p1 a1 F1 -> NoDup F1 -> tree_at h2 c p2 a2 F2 -> NoDup F2 ->
  (forall ok w', hIFF_writeFd a1 rg e w h1 = Done (ok, w', h1) <-> hIFF_writeFd a2 rg e w h2 = Done (ok, w', h2)) /\
  (forall ok w', hIFF_check a1 rg e w h1 = Done (ok, w', h1) <-> hIFF_check a2 rg e w h2 = Done (ok, w', h2)) /\
  (forall level t w', hIFF_print a1 level rg e w h1 = Done (t, w', h1) <-> hIFF_print a2 level rg e w h2 = Done (t, w', h2)).
Proof.
  intros rg e w c p1 a1 F1 h1 p2 a2 F2 h2 T1 N1 T2 N2.
  assert (X : forall A (m : M A) hm1 hm2, agrees e h1 m hm1 -> agrees e h2 m hm2 ->
    forall r w', hm1 e w h1 = Done (r, w', h1) <-> hm2 e w h2 = Done (r, w', h2)).
  { intros A m hm1 hm2 G1 G2 r w'. rewrite G1, G2. unfold io. destruct (m e w) as [[x v]|u|]; [|split; discriminate..].
    split; intro E; injection E as <- <-; reflexivity. }
  split; [|split].
  - exact (X _ _ _ _ (writeFd_at rg e h1 c p1 a1 F1 T1 N1) (writeFd_at rg e h2 c p2 a2 F2 T2 N2)).
  - exact (X _ _ _ _ (check_at rg e h1 c p1 a1 F1 T1 N1) (check_at rg e h2 c p2 a2 F2 T2 N2)).
  - intro lv. exact (X _ _ _ _ (print_at rg e h1 c p1 a1 F1 lv T1 N1) (print_at rg e h2 c p2 a2 F2 lv T2 N2)).
Qed.
Print Assumptions C61_place_independent.

(** They are the functions of the tree model, for every tree in memory. *)
Theorem C61_write_refines : forall rg e w c p a F h, tree_at h c p a F -> NoDup F ->
  hIFF_writeFd a rg e w h = match IFF_writeFd c rg e w with
                            | Done (ok, w') => Done (ok, w', h) | Undefined u => Undefined u | OutOfFuel => OutOfFuel end.
Proof. intros rg e w c p a F h T N. exact (writeFd_at rg e h c p a F T N w). Qed.
Print Assumptions C61_write_refines.

Theorem C61_check_refines : forall rg e w c p a F h, tree_at h c p a F -> NoDup F ->
  hIFF_check a rg e w h = match IFF_check c rg e w with
                          | Done (ok, w') => Done (ok, w', h) | Undefined u => Undefined u | OutOfFuel => OutOfFuel end.
Proof. intros rg e w c p a F h T N. exact (check_at rg e h c p a F T N w). Qed.
Print Assumptions C61_check_refines.

Theorem C61_print_refines : forall rg e w c p a F h level, tree_at h c p a F -> NoDup F ->
  hIFF_print a level rg e w h = match IFF_print c level rg with
                                | Done t => Done (t, w, h) | Undefined u => Undefined u | OutOfFuel => OutOfFuel end.
Proof. intros rg e w c p a F h lv T N. rewrite (print_at rg e h c p a F lv T N w). unfold io, lift. destruct (IFF_print c lv rg); reflexivity. Qed.
Print Assumptions C61_print_refines.

(** The second tree may overlap the first: comparing a chunk with itself is fine. *)
Theorem C61_compare_refines : forall rg e w c1 p1 a1 F1 c2 p2 a2 F2 h, tree_at h c1 p1 a1 F1 -> NoDup F1 -> tree_at h c2 p2 a2 F2 ->
  hIFF_compare a1 a2 rg e w h = match IFF_compare e c1 c2 rg with
                                | Done t => Done (t, w, h) | Undefined u => Undefined u | OutOfFuel => OutOfFuel end.
Proof. intros rg e w c1 p1 a1 F1 c2 p2 a2 F2 h T1 N T2. rewrite (compare_at rg e h c1 p1 a1 F1 c2 p2 a2 F2 T1 N T2 w). unfold io, lift. destruct (IFF_compare e c1 c2 rg); reflexivity. Qed.
Print Assumptions C61_compare_refines.

Definition read_heap (h : heap) : option (addr * heap) :=
  match hIFF_readFd None (host false) (start (encode ex_cat)) h with Done (Some a, _, h') => Some (a, h') | _ => None end.

(** A file read into two different heaps: the same text, the same bytes, no change *)
Example C61_example :
  match read_heap [], read_heap [Some (OData 1 None); None] with
  | Some (a1, h1), Some (a2, h2) =>
      a1 <> a2 /\
      (exists t, hIFF_print a1 0 None (host false) (start []) h1 = Done (t, start [], h1) /\
                 hIFF_print a2 0 None (host false) (start []) h2 = Done (t, start [], h2) /\ t <> EmptyString) /\
      (exists w, hIFF_writeFd a1 None (host false) (start []) h1 = Done (true, w, h1) /\
                 hIFF_writeFd a2 None (host false) (start []) h2 = Done (true, w, h2) /\ o_dev (snd (flush (w_out w))) = encode ex_cat) /\
      hIFF_compare a1 a1 None (host false) (start []) h1 = Done (true, start [], h1)
  | _, _ => False
  end.
Proof.
  vm_compute. split; [discriminate|]. split; [eexists; split; [reflexivity|]; split; [reflexivity|discriminate]|].
  split; [eexists; split; [reflexivity|]; split; reflexivity|reflexivity].
Qed.

(** ** C62.  iffpp releases everything it allocates, whatever the input, the
    options and the results of malloc; and it computes what the tree model computes. *)
Theorem C62_iffpp_releases_all : forall f disable_check e s h r s' h',
  hIFF_prettyPrint f disable_check e s h = Done (r, s', h') -> same_heap h h'.
Proof.
  intros f d e s h r s' h' E. pose proof (sim_prettyPrint f d e s h) as S. unfold simS in S.
  destruct (IFF_prettyPrint f d e s) as [[x s1]|u|]; [|congruence|congruence]. destruct S as (y & h1 & E1 & _ & B). rewrite E in E1. injection E1 as <- <- <-.
  intro x0. apply (proj1 (proj2 B)); intros [].
Qed.
Print Assumptions C62_iffpp_releases_all.

Theorem C62_iffpp_refines : forall f disable_check e s h,
  match hIFF_prettyPrint f disable_check e s h with
  | Done (r, s', _) => IFF_prettyPrint f disable_check e s = Done (r, s')
  | Undefined u => IFF_prettyPrint f disable_check e s = Undefined u
  | OutOfFuel => IFF_prettyPrint f disable_check e s = OutOfFuel
  end.
Proof.
  intros f d e s h. pose proof (sim_prettyPrint f d e s h) as S. unfold simS in S.
  destruct (IFF_prettyPrint f d e s) as [[x s1]|u|]; [|rewrite S; reflexivity|rewrite S; reflexivity]. destruct S as (y & h1 & -> & <- & _). reflexivity.
Qed.
Print Assumptions C62_iffpp_refines.

Theorem C62_iffjoin_refines : forall inputs output e s h,
  match hIFF_join inputs output e s h with
  | Done (r, s', _) => IFF_join inputs output e s = Done (r, s')
  | Undefined u => IFF_join inputs output e s = Undefined u
  | OutOfFuel => IFF_join inputs output e s = OutOfFuel
  end.
Proof.
  intros inputs output e s h. pose proof (sim_join inputs output e s h) as S. unfold simS in S.
  destruct (IFF_join inputs output e s) as [[x s1]|u|]; [|rewrite S; reflexivity|rewrite S; reflexivity]. destruct S as (y & h1 & -> & <- & _). reflexivity.
Qed.
Print Assumptions C62_iffjoin_refines.

(** When iffjoin succeeds it has released everything. *)
Theorem C62_iffjoin_success : forall inputs output e s h s' h',
  hIFF_join inputs output e s h = Done (0, s', h') -> same_heap h h'.
Proof.
  intros inputs output e s h s' h' E. pose proof (sim_join inputs output e s h) as S. unfold simS in S.
  destruct (IFF_join inputs output e s) as [[x s1]|u|]; [|congruence|congruence]. destruct S as (y & h1 & E1 & -> & L). rewrite E in E1. injection E1 as <- <- <-.
  destruct L as [[B _]|[Z _]]; [|discriminate]. intro x. apply (proj1 (proj2 B)); intros [].
Qed.
Print Assumptions C62_iffjoin_success.

(** ** C54.  Exactly what iffjoin leaks: if all inputs are accepted, nothing;
    else, with [f] the first input that is not accepted, nothing if [f] cannot
    be read, and all blocks of the tree read from [f] if it can. *)
Theorem C54_join_exact : forall inputs output e s h z s' h', usual e ->
  hIFF_join inputs output e s h = Done (z, s', h') ->
  ((forall f, In f inputs -> exists c, accepted e s f c) -> same_heap h h') /\
  (forall good f rest, inputs = good ++ f :: rest ->
     (forall g, In g good -> exists c, accepted e s g c) -> (forall c, ~ accepted e s f c) ->
     ((exists s1, IFF_readFile f None e s = Done (None, s1)) -> same_heap h h') /\
     (forall c s1, IFF_readFile f None e s = Done (Some c, s1) ->
        exists a F, tree_at h' c None a F /\ NoDup F /\
          (forall x, In x F <-> Owns h' a x) /\
          (forall x, In x F -> lookup h x = None /\ lookup h' x <> None) /\
          (forall x, ~ In x F -> lookup h' x = lookup h x))).
Proof.
  intros inputs output e s h z s' h' U E. pose proof (sim_join inputs output e s h) as S. unfold simS in S.
  destruct (IFF_join inputs output e s) as [[x s1]|u|]; [|congruence|congruence]. destruct S as (y & h1 & E1 & -> & L). rewrite E in E1. injection E1 as <- <- <-.
  assert (SAME : becomes h h' [] [] -> same_heap h h') by (intros B x; apply (proj1 (proj2 B)); intros []).
  assert (REJ : forall f s1 oc s2, IFF_readFile f None e s1 = Done (oc, s2) -> untouched s s1 ->
     (forall c, oc = Some c -> exists s3, no_streams (IFF_check c None) e s2 = Done (false, s3)) ->
     (exists s4, IFF_readFile f None e s = Done (oc, s4)) /\ forall c, ~ accepted e s f c).
  { intros f sa oc sb R UT CK. destruct (readFile_frame e sa s f oc sb U (f_equal (fun g => g f) (proj1 UT)) R) as [UB (s4 & R4)]. split; [eauto|].
    intros c [[s5 R5] [s6 K6]]. rewrite R4 in R5. injection R5 as -> _. destruct (CK c eq_refl) as (s7 & K7).
    destruct (no_streams_frame _ _ _ _ _ _ K7) as [U7 _].
    pose proof (no_streams_indep _ _ e s sb _ _ U (same_check e e false c None) K6) as [s8 K8]. congruence. }
  destruct L as [[B FA]|(-> & good & f & rest & sa & oc & sb & EI & RD & US & L)].
  - specialize (FA U). split; [intros _; exact (SAME B)|]. intros good f rest -> _ NA. exfalso.
    rewrite Forall_forall in FA. destruct (FA f) as (c & A); [apply in_or_app; right; left; reflexivity|]. exact (NA c A).
  - destruct (US U) as [UT FA]. rewrite Forall_forall in FA.
    destruct (REJ f sa oc sb RD UT) as [(s4 & R4) NA].
    { intros c ->. exact (proj1 L). }
    split.
    + intro ALL. exfalso. destruct (ALL f) as (c & A); [rewrite EI; apply in_or_app; right; left; reflexivity|]. exact (NA c A).
    + intros good' f' rest' EI' GA' NA'.
      assert (EQ : good' = good /\ f' = f).
      { clear - EI EI' FA GA' NA NA'. subst inputs. revert good' EI' FA GA'. induction good as [|g good IH]; intros [|g' good'] EI' FA GA'; cbn in EI'.
        - injection EI' as -> _. auto.
        - injection EI' as -> _. exfalso. destruct (GA' g') as (c & A); [left; reflexivity|]. exact (NA c A).
        - injection EI' as -> _. exfalso. destruct (FA f') as (c & A); [left; reflexivity|]. exact (NA' c A).
        - injection EI' as -> EI'. destruct (IH good' EI') as [-> ->]; [intros; apply FA; right; assumption|intros; apply GA'; right; assumption|auto]. }
      destruct EQ as [-> ->]. split.
      * intros (s1' & R1). rewrite R4 in R1. injection R1 as -> _. exact (SAME L).
      * intros c s1' R1. rewrite R4 in R1. injection R1 as -> _. destruct L as [_ (b & F & T & ND & B)]. exists b, F.
        split; [exact T|]. split; [exact ND|]. split; [exact (tree_blocks _ _ _ _ _ T)|]. split.
        -- intros x I. split; [apply (becomes_new _ _ _ _ _ B I); intros []|exact (tree_live _ _ _ _ _ _ T I)].
        -- intros x NI. apply (proj1 (proj2 B)); [intros []|exact NI].
Qed.
Print Assumptions C54_join_exact.

(** iffjoin does leak: with a readable but invalid second input, the struct of
    the chunk read from it, that of its member, and the array holding the
    pointer to the member are still allocated when it returns. *)
Theorem C54_join_leak_refuted : exists inputs output e s h z s' h', usual e /\
  hIFF_join inputs output e s h = Done (z, s', h') /\ z = 1 /\ ~ same_heap h h'.
Proof.
  exists ["a.iff"%string; "b.iff"%string], (Some "o.iff"%string), (host false), (two_files (encode bad_cat)), [].
  eexists 1, _, _. split; [apply usual_host|]. split; [vm_compute; reflexivity|]. split; [reflexivity|].
  intro S. specialize (S 9%nat). vm_compute in S. discriminate S.
Qed.
Print Assumptions C54_join_leak_refuted.

Definition live_blocks (h : heap) : nat := List.length (filter (fun o => match o with Some _ => true | None => false end) h).

(** Both outcomes of the exact theorem occur: valid inputs, an unreadable one, an invalid one *)
Example C54_join_example :
  let run d := match hIFF_join ["a.iff"%string; "b.iff"%string] (Some "o.iff"%string) (host false) (two_files d) [] with
               | Done (z, _, h) => Some (z, live_blocks h) | _ => None end in
  run (encode ex_cat) = Some (0, 0%nat) /\ run (bytes "no IFF") = Some (1, 0%nat) /\ run (encode bad_cat) = Some (1, 3%nat).
Proof. vm_compute. repeat split. Qed.

Example C62_example :
  let run f d := match hIFF_prettyPrint (Some f) d (host false) (two_files (encode bad_cat)) [] with
                 | Done ((z, t), _, h) => Some (z, live_blocks h, List.length h) | _ => None end in
  run "a.iff"%string false = Some (0, 0%nat, 7%nat) /\ run "b.iff"%string false = Some (1, 0%nat, 3%nat) /\ run "c.iff"%string true = Some (1, 0%nat, 0%nat).
Proof. vm_compute. repeat split. Qed.
