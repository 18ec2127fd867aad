(** * C94, continued: how much work a whole run of iffpp does

    Reading a stream, checking and printing what is in it, and releasing it again,
    takes work in proportion to the bytes of the stream. *)

From Coq Require Import ZArith List Bool String Lia.
From Coq Require Import Strings.Byte.
From Verif Require Import Machine Io Types Read Iff Spec Lemmas RegProofs RoundProofs ApiProofs Heap HeapSpec HeapProofs HeapReadProofs SessionSpec ThreadSpec ThreadStepProofs TimeSpec TimeProofs HeapPass TimePassProofs Examples CanonProofs PropRegistry PropRead PropHeap PropTime.
Import ListNotations.
Open Scope Z_scope.

(** pp.c 25-55 IFF_prettyPrint, from the point where the input has been opened:
    all calls find the one stream (opening and closing it is not counted) *)
Definition hinspect (disable_check : bool) : H (Z * string) :=
  p <-h hIFF_readFd None ;;
  match p with
  | None =>
      u <-h io (IFF_error ("Cannot open IFF file!" ++ nl)%string) ;;
      hret (1, EmptyString)
  | Some c =>
      ok <-h (if disable_check then hret true else hIFF_check c None) ;;
      r <-h (if ok then t <-h hIFF_print c 0 None ;; hret (0, t) else hret (1, EmptyString)) ;;
      u <-h hIFF_free c None ;;
      hret r
  end.

(** The two ways of counting the chunks of a tree *)
Lemma chunks_same : forall c, Spec.chunks c = Z.of_nat (TimeSpec.chunks c).
Proof.
  assert (L : forall l, (forall c, In c l -> Spec.chunks c = Z.of_nat (TimeSpec.chunks c)) ->
    sum (map Spec.chunks l) = Z.of_nat (list_sum (map TimeSpec.chunks l))).
  { induction l as [|c l IH]; intro F; [reflexivity|]. cbn [map sum fold_right]. unfold list_sum. cbn [fold_right]. fold (list_sum (map TimeSpec.chunks l)).
    rewrite (F c (or_introl eq_refl)). rewrite Nat2Z.inj_add, <- IH by (intros d D; apply F; right; exact D). reflexivity. }
  intro c. induction c using chunk_tree_ind; cbn [Spec.chunks TimeSpec.chunks]; rewrite ?L by assumption; lia.
Qed.

(** How the run is taken apart, given how its calls are *)
Section Parts.
  Variable R : task ptr.
  Variable C : addr -> task bool.
  Variable P : addr -> task string.
  Variable F : addr -> task unit.
  Variable dc : bool.

  Definition inspection : task (Z * string) :=
    tbind R (fun p =>
      match p with
      | None => TIo (IFF_error ("Cannot open IFF file!" ++ nl)%string) (fun _ => TRet (1, EmptyString))
      | Some c =>
          tbind (if dc then TRet true else C c) (fun ok =>
          tbind (if ok then tbind (P c) (fun t => TRet (0, t)) else TRet (1, EmptyString)) (fun r =>
          tbind (F c) (fun _ => TRet r)))
      end).

  Hypothesis HR : takes_apart R (hIFF_readFd None).
  Hypothesis HC : forall a, takes_apart (C a) (hIFF_check a None).
  Hypothesis HP : forall a, takes_apart (P a) (hIFF_print a 0 None).
  Hypothesis HF : forall a, takes_apart (F a) (hIFF_free a None).

  Lemma apart_bind : forall A B (t : task A) (m : H A) (k : A -> task B) (f : A -> H B),
    takes_apart t m -> (forall a, takes_apart (k a) (f a)) -> takes_apart (tbind t k) (hbind m f).
  Proof.
    intros A B t m k f E K e w h. rewrite perform_bind. unfold hbind. rewrite (E e w h).
    destruct (m e w h) as [[[a w'] h']|u|]; [apply K|reflexivity|reflexivity].
  Qed.

  Lemma inspection_apart : takes_apart inspection (hinspect dc).
  Proof.
    unfold inspection, hinspect. apply apart_bind; [exact HR|]. intros [c|].
    - apply apart_bind; [destruct dc; [intros e w h; reflexivity|apply HC]|]. intro ok. apply apart_bind.
      + destruct ok; [|intros e w h; reflexivity]. apply apart_bind; [apply HP|]. intros t e w h. reflexivity.
      + intro r. apply apart_bind; [apply HF|]. intros u e w h. reflexivity.
    - intros e w h. cbn [perform]. unfold hbind, io. destruct (IFF_error _ e w) as [[u w']|u|]; reflexivity.
  Qed.
End Parts.

(** ** C94.  Whatever the bytes of the stream are, and whether there is an IFF file
    in it or not: at most 24 accesses, messages and calls for every byte, and 12
    more. *)
Theorem C94_whole_run : forall disable_check,
  exists D : task (Z * string), takes_apart D (hinspect disable_check) /\
  forall e w h r w' h', strict_c e = false -> hinspect disable_check e w h = Done (r, w', h') ->
    (effort D e w h <= 24 * unread w + 12)%nat.
Proof.
  intro dc. pose (R := proj1_sig (co_readFd None)). pose (C := fun a => proj1_sig (se_check a None)).
  pose (P := fun a => proj1_sig (se_print a 0 None)). pose (F := fun a => proj1_sig (co_IFF_free None a)).
  assert (HR : takes_apart R (hIFF_readFd None)) by exact (proj1 (proj2_sig (co_readFd None))).
  assert (HC : forall a, takes_apart (C a) (hIFF_check a None)) by (intro a; exact (proj1 (proj2_sig (se_check a None)))).
  assert (HP : forall a, takes_apart (P a) (hIFF_print a 0 None)) by (intro a; exact (proj1 (proj2_sig (se_print a 0 None)))).
  assert (HF : forall a, takes_apart (F a) (hIFF_free a None)) by (intro a; exact (proj1 (proj2_sig (co_IFF_free None a)))).
  pose proof (inspection_apart R C P F dc HR HC HP HF) as TA.
  exists (inspection R C P F dc). split; [exact TA|].
  intros e w h r w' h' NS E. pose proof (proj2 (proj2_sig (co_readFd None)) e w h) as XR. fold R in XR.
  unfold inspection. rewrite effort_bind. unfold hinspect, hbind in E. rewrite <- (HR e w h) in E.
  destruct (perform R e w h) as [[[p w1] h1]|u|] eqn:ER; [|discriminate E|discriminate E]. destruct (XR _ _ _ eq_refl) as ((R1 & _) & R2). clear XR.
  pose proof (readFd_at None no_apps default_registry e w h) as RA. rewrite (HR e w h) in ER.
  pose proof (held_kept _ _ (C50_read_keeps None no_apps e w h p w1 h1 default_registry ER)) as HK.
  destruct p as [a|].
  - destruct (IFF_readFd None e w) as [[[c|] w0]|u|] eqn:RM; [|destruct RA as (h0 & X & _); congruence|congruence|congruence].
    destruct RA as (a0 & h0 & G & X & TR & ND & BC & TY). rewrite ER in X. injection X as <- <- <-.
    pose proof (C12_tree_bounded None no_apps e w c w1 default_registry NS no_apps_sane (or_intror no_apps_none) RM) as CB. rewrite chunks_same in CB.
    pose proof (tree_depth h1 c None a G TR ND) as L.
    assert (LO : TimePassProofs.lo h1 a = Z.of_nat (TimeSpec.chunks c)) by (unfold lo; rewrite (load_tree h1 (List.length h1) c None a G TR L); reflexivity).
    assert (TH : TimePassProofs.T h1 a) by (exists c, None, G; split; [exact TR|exact L]).
    (* the check *)
    assert (S1 : exists ok w2, (if dc then hret true else hIFF_check a None) e w1 h1 = Done (ok, w2, h1) /\ w_in w2 = w_in w1 /\
       perform (if dc then TRet true else C a) e w1 h1 = Done (ok, w2, h1) /\
       Z.of_nat (effort (if dc then TRet true else C a) e w1 h1) <= 52 * Z.of_nat (TimeSpec.chunks c)).
    { destruct dc; [exists true, w1; cbn; repeat split; lia|]. unfold hbind in E. rewrite <- (HC a e w1 h1) in E.
      destruct (perform (C a) e w1 h1) as [[[ok w2] h2]|u|] eqn:EC; [|discriminate E|discriminate E].
      destruct (proj2 (proj2_sig (se_check a None)) e w1 h1 ok w2 h2 TH EC) as (-> & Y & Z). exists ok, w2. rewrite <- (HC a e w1 h1). split; [first [exact EC|reflexivity]|]. split; [exact Y|]. split; [first [exact EC|reflexivity]|].
      rewrite LO in Z. exact Z. }
    destruct S1 as (ok & w2 & M1 & I1 & P1 & F1). rewrite M1 in E. rewrite effort_bind, P1.
    (* the text *)
    assert (S2 : exists q w3, (if ok then hbind (hIFF_print a 0 None) (fun t => hret (0, t)) else hret (1, EmptyString)) e w2 h1 = Done (q, w3, h1) /\ w_in w3 = w_in w2 /\
       perform (if ok then tbind (P a) (fun t => TRet (0, t)) else TRet (1, EmptyString)) e w2 h1 = Done (q, w3, h1) /\
       Z.of_nat (effort (if ok then tbind (P a) (fun t => TRet (0, t)) else TRet (1, EmptyString)) e w2 h1) <= 52 * Z.of_nat (TimeSpec.chunks c)).
    { destruct ok; [|exists (1, EmptyString), w2; cbn; repeat split; lia]. unfold hbind. rewrite effort_bind, perform_bind. unfold hbind. rewrite <- (HP a e w2 h1).
      rewrite <- (HP a e w2 h1) in E. destruct (perform (P a) e w2 h1) as [[[t w3] h3]|u|] eqn:EP; [|discriminate E|discriminate E].
      destruct (proj2 (proj2_sig (se_print a 0 None)) e w2 h1 t w3 h3 TH EP) as (-> & Y & Z). exists (0, t), w3. split; [reflexivity|]. split; [exact Y|]. split; [reflexivity|].
      cbn [effort]. rewrite Nat.add_0_r. rewrite LO in Z. exact Z. }
    destruct S2 as (q & w3 & M2 & I2 & P2 & F2). unfold hbind in M2. rewrite M2 in E. rewrite effort_bind, P2.
    (* the release *)
    destruct (C50_read_free None no_apps e w h a w1 h1 e w3 default_registry ER) as (h2 & EF & SH).
    rewrite effort_bind. pose proof EF as EF'. rewrite <- (HF a e w3 h1) in EF'. rewrite EF'. cbn [effort]. rewrite Nat.add_0_r.
    destruct (proj2 (proj2_sig (co_IFF_free None a)) e w3 h1 tt w3 h2 EF') as (_ & X3). fold (F a) in X3.
    assert (H2 : held h <= held h2) by (apply held_kept; intros x N; unfold same_heap in SH; apply SH).
    unfold TimeProofs.K, TimeProofs.B in *. unfold zlength in CB. fold (unread w) in CB.
    assert (RW : TimeProofs.rest w = Z.of_nat (unread w)) by reflexivity. assert (0 <= TimeProofs.rest w1) by (unfold TimeProofs.rest; lia). lia.
  - cbn [effort]. destruct (IFF_error _ e w1) as [[u w2]|u|] eqn:EE; [|unfold TimeProofs.K, TimeProofs.B, TimeProofs.rest in *; fold (unread w) in *; lia|unfold TimeProofs.K, TimeProofs.B, TimeProofs.rest in *; fold (unread w) in *; lia].
    assert (EW : (messages w2 - messages w1 <= 1 /\ unread w1 - unread w2 = 0)%nat).
    { unfold IFF_error in EE. injection EE as _ <-. unfold messages, unread. cbn [w_log w_in]. rewrite ?app_length. cbn [List.length]. lia. }
    unfold TimeProofs.K, TimeProofs.B in *. unfold TimeProofs.rest in *. fold (unread w) in *. fold (unread w1) in *. lia.
Qed.
Print Assumptions C94_whole_run.

(** A file of 92 bytes: the bound is 2220 *)
Example C94_whole_run_example :
  strict_c (host false) = false /\ unread (start (encode (flat 10))) = 92%nat /\
  match hinspect false (host false) (start (encode (flat 10))) [] with
  | Done ((status, _), w, h) => status = 0 /\ unread w = 0%nat /\ blocks h = 0%nat
  | _ => False
  end.
Proof. split; [reflexivity|]. split; [reflexivity|]. vm_compute. repeat split. Qed.
