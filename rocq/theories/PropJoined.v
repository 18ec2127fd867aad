(** * C45, continued: the bytes of the file iffjoin writes *)

From Coq Require Import ZArith List Bool String Lia.
From Coq Require Import Strings.Byte.
From Verif Require Import Machine Io Types Read Write Iff Spec Lemmas IoProofs RegProofs EncodeProofs Grammar FileProofs CanonProofs WriteProofs SoundProofs ApiProofs TidySpec Examples
  PropRegistry PropRead PropWrite PropCheck PropTools PropTidy.
Import ListNotations.
Open Scope Z_scope.

(** A file starts with a chunk, and these are the bytes of the chunk, tidied. *)
Definition contributes (s : sys) (name : string) (part : list byte) : Prop :=
  exists file behind, sy_files s name = Some (file ++ behind) /\ Tidied file part /\ zlength part = zlength file /\ (part = file <-> Canonical file).

Lemma accepted_contributes : forall e s f c g, usual e -> input_size s f <= INT_MAX -> accepted e s f c -> WF no_apps g c -> contributes s f (encode c).
Proof.
  intros e s f c g U L [[s' H] _] W. unfold input_size in *. unfold IFF_readFile in H. destruct (sy_files s f) as [data|] eqn:D; [|discriminate].
  unfold bindS, with_streams in H.
  destruct (IFF_readFd None e (mkWorld (mkRfile data true) no_out (sy_log s) (sy_allocs s))) as [[a v]|u|] eqn:R; try discriminate.
  unfold retS in H. cbn [fst] in H. injection H as -> _.
  destruct (readFd_sound None no_apps e _ c v default_registry (not_strict _ U) no_apps_sane (or_intror no_apps_none) R) as (l & t & lg & n & P & RR & _).
  unfold rest in RR. cbn in RR. destruct (tidy_stored c l g (proj1 (Parsed_Stored e no_apps no_apps_none) _ _ _ _ P) W) as (TD & ZL).
  rewrite RR, zlength_app in L. pose proof (zlength_nonneg _ t). exists l, t. split; [rewrite D, RR; reflexivity|]. split; [exact TD|]. split; [symmetry; exact ZL|].
  split; [intros <-; exact (WF_Canonical c g W)|]. intro CN. exact (C59_tidying_is_a_function l _ l ltac:(lia) TD (C59_canonical_kept l CN)).
Qed.

Lemma size_each : forall s inputs, 0 <= total_size s inputs /\ forall f, In f inputs -> input_size s f <= total_size s inputs.
Proof.
  intros s inputs. unfold total_size. induction inputs as [|f fs (IH0 & IH)]; [split; [cbn; lia|intros f []]|]. cbn [map sum fold_right]. change (fold_right Z.add 0) with sum.
  assert (N : 0 <= input_size s f) by (unfold input_size; destruct (sy_files s f) as [d|]; [apply zlength_nonneg|lia]).
  split; [lia|]. intros x [<-|I]; [lia|]. specialize (IH x I). lia.
Qed.

(** ** C45.  The output is the header of a CAT and, behind it, the bytes of the input
    files, one after the other, each as saving it alone would write it. *)
Theorem C45_bytes : forall e inputs out s s', usual e -> 12 + total_size s inputs <= INT_MAX -> sy_room s out = None ->
  IFF_join inputs (Some out) e s = Done (0, s') ->
  exists g parts, Forall2 (contributes s) inputs parts /\
    sy_files s' out = Some (be32 CAT_ID ++ be32 (4 + zlength (List.concat parts)) ++ be32 g ++ List.concat parts).
Proof.
  intros e inputs out s s' U S NR H. destruct (joined_file e inputs out s s' U S NR H) as (cs & cat & F & J & W & L & D & _).
  destruct J as [(g & -> & V & M) G]. assert (WS : forall c, In c cs -> WF no_apps g c) by (inversion W; assumption).
  exists g, (map encode cs). split.
  - destruct (size_each s inputs) as (_ & SE). assert (SI : forall f, In f inputs -> input_size s f <= INT_MAX) by (intros f I; specialize (SE f I); lia).
    clear - F WS SI U. induction F as [|f c fs cs A F IH]; [constructor|]. cbn [map]. constructor.
    + exact (accepted_contributes e s f c g U (SI f (or_introl eq_refl)) A (WS c (or_introl eq_refl))).
    + exact (IH (fun c I => WS c (or_intror I)) (fun f I => SI f (or_intror I))).
  - rewrite D. f_equal. cbn [encode]. unfold frame. rewrite <- flat_map_concat_map.
    rewrite (pad_none (be32 g ++ flat_map encode cs)) by (rewrite group_length, Z.add_mod, (even_members g cs WS) by lia; reflexivity).
    rewrite app_nil_r. replace (4 + body_size cs) with (4 + zlength (flat_map encode cs)); [reflexivity|]. inversion W; congruence.
Qed.
Print Assumptions C45_bytes.

(** The file of C59's example, and one that ends in something else. *)
Definition untidy_files : sys :=
  mkSys (fun n => if String.eqb n "a.iff" then Some disordered else if String.eqb n "b.iff" then Some (encode ex_form ++ bytes "junk") else None)
    (fun _ => true) (fun _ => None) 16 no_in no_out [] 0.
Example C45_example_bytes :
  12 + total_size untidy_files ["a.iff"; "b.iff"]%string <= INT_MAX /\ sy_room untidy_files "c.iff" = None /\
  match IFF_join ["a.iff"; "b.iff"]%string (Some "c.iff"%string) (host false) untidy_files with
  | Done (z, s') => z = 0 /\ sy_files s' "c.iff" =
      Some (be32 CAT_ID ++ be32 (4 + zlength disordered + zlength (encode ex_form)) ++ bytes "TEST" ++ encode reordered ++ encode ex_form)
  | _ => False
  end.
Proof. split; [vm_compute; discriminate|]. split; [reflexivity|]. vm_compute. split; reflexivity. Qed.
