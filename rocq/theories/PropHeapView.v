(** * Property C84: what is in memory is what the file says *)

From Coq Require Import ZArith List Bool String Lia.
From Coq Require Import Strings.Byte.
From Verif Require Import Machine Io Types Build Read Write Check Compare Print Iff TestExt Spec Examples Lemmas Ext ExtSpec ExtFields ExtRegProofs ExtAgree ExtFieldsProofs ExtProofs
  PropWrite PropExt Heap HeapExt HeapExtSpec HeapExtPass HeapExtApps HeapExtProofs HeapExtPassProofs PropHeapExt PropHeapExtPass
  HeapViewSpec HeapViewApps HeapViewProofs HeapViewReadProofs HeapViewPassProofs HeapViewAppsProofs.
Import ListNotations.
Open Scope Z_scope.

(** ** C84.  The functions of Ext.v work on values, those of HeapExt.v on blocks
    of memory.  If the application's functions do in memory what others do to
    values ([Refines]), so do all of the library's: same outcome, same bytes, same
    messages, and memory that shows the same tree. *)

(** Reading: NULL and nothing new, or new blocks that show exactly the tree. *)
Theorem C84_read : forall U V rep (rg : xregistry U) (find : yfind V) e w h, Registered rep rg find -> strict_c e = false ->
  Mirror (fun ox p h' =>
      match ox, p with
      | None, None => Turns h [] h' []
      | Some x, Some a => exists F, Turns h [] h' F /\ NoDup F /\ Shows rep find h' x 0 None a F
      | _, _ => False
      end)
    (xreadFd rg e w) (yIFF_readFd find e w h).
Proof. intros U V rep rg find e w h RG NS. exact (readFd_sim rep rg find RG e NS w h). Qed.
Print Assumptions C84_read.

(** Whatever happens to other memory, the tree is still shown. *)
Theorem C84_stays : forall U V rep (rg : xregistry U) (find : yfind V) h h' x ft p a F, Registered rep rg find ->
  Shows rep find h x ft p a F -> (forall b, In b F -> ylookup h' b = ylookup h b) -> Shows rep find h' x ft p a F.
Proof. intros U V rep rg find h h' x ft p a F RG T K. exact (proj1 (Shows_same rep rg find RG h h') _ _ _ _ _ T K). Qed.
Print Assumptions C84_stays.

(** A block shows one tree only, if the application's structs hold one value only. *)
Theorem C84_one_tree : forall U V (rep : Z -> Z -> yheap V -> addr -> list addr -> U -> Prop) (find : yfind V) h (x y : xchunk U) ft p q a F G,
  (forall ft i a F G u t, rep ft i h a F u -> rep ft i h a G t -> u = t) ->
  Shows rep find h x ft p a F -> Shows rep find h y ft q a G -> x = y.
Proof. intros U V rep find h x y ft p q a F G D T T'. exact (one_view rep find h D x ft p a F T y q G T'). Qed.
Print Assumptions C84_one_tree.

(** Writing, checking, printing and comparing *)
Theorem C84_write : forall U V rep (rg : xregistry U) (find : yfind V) e w h x p a F, Registered rep rg find -> GroupsAsUsual find ->
  Shows rep find h x 0 p a F -> NoDup F ->
  Mirror (Alike h) (xwriteChunk rg x 0 e w) (yIFF_writeFd a find e w h).
Proof. intros U V rep rg find e w h x p a F RG GU T N. exact (writeFd_sim rep rg find RG GU e h x p a F w T N). Qed.
Print Assumptions C84_write.

Theorem C84_check : forall U V rep (rg : xregistry U) (find : yfind V) e w h x p a F, Registered rep rg find ->
  Shows rep find h x 0 p a F -> NoDup F ->
  Mirror (Alike h) (xcheck rg x e w) (yIFF_check a find e w h).
Proof. intros U V rep rg find e w h x p a F RG T N. exact (check_sim rep rg find RG e h x p a F w T N). Qed.
Print Assumptions C84_check.

Theorem C84_print : forall U V rep (rg : xregistry U) (find : yfind V) e w h x p a F level, Registered rep rg find ->
  Shows rep find h x 0 p a F -> NoDup F ->
  Mirror0 h w (xprintChunk rg x level 0) (yIFF_print a level find e w h).
Proof. intros U V rep rg find e w h x p a F level RG T N. exact (print_sim rep rg find RG e h x p a F level w T N). Qed.
Print Assumptions C84_print.

Theorem C84_compare : forall U V rep (rg : xregistry U) (find : yfind V) e w h x p a F y q b G, Registered rep rg find -> GroupsAsUsual find ->
  Shows rep find h x 0 p a F -> NoDup F -> Shows rep find h y 0 q b G ->
  Mirror0 h w (xcompareChunk e rg x y 0) (yIFF_compare a b find e w h).
Proof. intros U V rep rg find e w h x p a F y q b G RG GU T N T'. exact (compare_sim rep rg find RG GU e h x p a F y q b G w T N T'). Qed.
Print Assumptions C84_compare.

(** Freeing works on both sides, says nothing, and releases exactly the blocks of
    the tree. *)
Theorem C84_free : forall U V rep (rg : xregistry U) (find : yfind V) e w h x p a F, Registered rep rg find ->
  Shows rep find h x 0 p a F -> NoDup F ->
  xfreeChunk rg x 0 = Done tt /\ exists h', yIFF_free a find e w h = Done (tt, w, h') /\ Turns h F h' [].
Proof.
  intros U V rep rg find e w h x p a F RG T N. split; [exact (proj1 (xfree_done rep rg find RG h) _ _ _ _ _ T)|].
  destruct (freeTree_quiet rep rg find RG e x 0 p a F h T N w) as ([] & h' & E & TU). exists h'. auto.
Qed.
Print Assumptions C84_free.

(** *** So the properties of values (C73, C74) are properties of memory. *)

(** After reading, memory holds what the application's format says of the file. *)
Theorem C84_read_in_memory : forall U V rep (rg : xregistry U) (find : yfind V) ext e w h c w',
  Registered rep rg find -> XRealises rg ext -> AllHonour ext -> usual e ->
  zlength (r_rest (w_in w)) < 2 ^ (size_t_bits e - 1) -> CanSkip ext w ->
  IFF_readFd None e w = Done (Some c, w') -> Sized ext 0 c ->
  exists p w2 h', yIFF_readFd find e w h = Done (p, w2, h') /\ w_out w2 = w_out w /\
    match decode ext 0 c with
    | Some x => w_in w2 = w_in w' /\
        exists a F, p = Some a /\ Turns h [] h' F /\ NoDup F /\ Shows rep find h' x 0 None a F
    | None => p = None /\ Same h h'
    end.
Proof.
  intros U V rep rg find ext e w h c w' RG XR HO US LM CS E SZ.
  destruct (C73_reading U rg ext e w c w' XR HO US LM CS E SZ) as (w2 & EX & EO & D).
  pose proof (C84_read U V rep rg find e w h RG (not_strict _ US)) as M. rewrite EX in M. cbn [Mirror] in M.
  destruct M as (p & h' & EY & R). exists p, w2, h'. split; [exact EY|]. split; [exact EO|].
  destruct (decode ext 0 c) as [x|], p as [a|]; try contradiction.
  - split; [exact D|]. destruct R as (F & T & N & S). exists a, F. auto.
  - split; [reflexivity|]. apply Turns_same. exact R.
Qed.
Print Assumptions C84_read_in_memory.

(** The file written from memory says what memory holds; read again, in whatever
    memory, it shows the same tree. *)
Theorem C84_written_from_memory : forall U V rep (rg : xregistry U) (find : yfind V) ext x e1 e2 w1 h1 p a F w2 h2,
  Registered rep rg find -> GroupsAsUsual find -> XRealises rg ext -> AllHonour ext -> usual e1 -> usual e2 ->
  XTyped ext 0 x -> WF no_apps 0 (view ext 0 x) -> zlength (encode (view ext 0 x)) < 2 ^ (size_t_bits e2 - 1) ->
  Shows rep find h1 x 0 p a F -> NoDup F -> new_output w1 ->
  yIFF_writeFd a find e1 w1 h1 = Done (true, w2, h2) ->
  Same h1 h2 /\ handed (w_out w2) = encode (view ext 0 x) /\
  forall w3 t h3, r_rest (w_in w3) = handed (w_out w2) ++ t -> CanSkip ext w3 ->
  exists b w4 h4 G, yIFF_readFd find e2 w3 h3 = Done (Some b, w4, h4) /\ r_rest (w_in w4) = tl t /\
    Turns h3 [] h4 G /\ NoDup G /\ Shows rep find h4 x 0 None b G.
Proof.
  intros U V rep rg find ext x e1 e2 w1 h1 p a F w2 h2 RG GU XR HO U1 U2 TX WX LX T N NO E.
  pose proof (C84_write U V rep rg find e1 w1 h1 x p a F RG GU T N) as M. rewrite E in M.
  destruct (xwriteChunk rg x 0 e1 w1) as [[ok v]|?|] eqn:EX; cbn [Mirror] in M; try discriminate.
  destruct M as (b0 & h0 & EQ & <- & S). injection EQ as <- <- <-.
  destruct (C74_write_then_read U rg ext x e1 e2 w1 w2 XR HO U1 U2 TX WX LX NO EX) as [HD RD].
  split; [exact S|]. split; [exact HD|]. intros w3 t h3 R CS. destruct (RD w3 t R CS) as (w4 & E4 & R4 & _).
  pose proof (C84_read U V rep rg find e2 w3 h3 RG (not_strict _ U2)) as M. rewrite E4 in M. cbn [Mirror] in M.
  destruct M as ([b|] & h4 & EY & G); [|contradiction]. destruct G as (G & TU & NG & SG). exists b, w4, h4, G. auto 6.
Qed.
Print Assumptions C84_written_from_memory.

(** *** Who refines whom *)

(** Chunks that are lists of fields (tests/hello.c, tests/bye.c) *)
Theorem C84_field_lists : forall s, Refines (fields_rep s) (fields_callbacks s) (yfields_callbacks s).
Proof. exact fields_refine. Qed.
Print Assumptions C84_field_lists.

(** so every registry of the other model files, that of the tests included *)
Theorem C84_registries : forall rg, ListsAreLists (selectChunkRegistry rg) ->
  (forall ft cid, exists k, find_handler (selectChunkRegistry rg) ft cid = Done k) ->
  Registered (fields_reps rg) (conv_reg (selectChunkRegistry rg)) (yconv_find rg).
Proof.
  intros rg LL TOT ft cid. destruct (TOT ft cid) as (k & E). exists (conv_handler k), (yconv_handler k).
  rewrite conv_find. unfold yconv_find, fields_reps. rewrite E. split; [reflexivity|]. split; [reflexivity|].
  destruct k; cbn [conv_handler yconv_handler]; try exact Logic.I; [exact (LL _ _ E)|apply fields_refine].
Qed.
Print Assumptions C84_registries.

(** Colour maps that keep their colours in a block of their own, grown for each
    colour; they honour the contract for values as well. *)
Theorem C84_arrays : Refines cmap_rep cmap_growing ycmap_grows /\ Honours cmap_growing cmap_codec.
Proof. split; [exact cmap_refine|exact growing_honours]. Qed.
Print Assumptions C84_arrays.

(** *** Pictures with a colour map *)

Definition grown : list (Z * app_table (list colour)) := [(ILBM_ID, [(CMAP_ID, (cmap_growing, cmap_codec))])].
Notation grown_find := (ycmap_find ILBM_ID CMAP_ID ycmap_grows).
Definition grown_rep (ft cid : Z) : yheap cell -> addr -> list addr -> list colour -> Prop := cmap_rep.

Lemma grown_made : WellMade grown.
Proof.
  split; [apply increasing_spec; reflexivity|]. intros ft tbl [E|[]]. injection E as <- <-.
  split; [apply increasing_spec; reflexivity|]. intros i t [E|[]]. injection E as <- <-.
  unfold group_ids. cbn [In]. intros [X|[X|[X|[X|[]]]]]; discriminate.
Qed.

Lemma grown_honour : AllHonour (exts_for grown).
Proof.
  intros ft i cb cd E. destruct (exts_for_data grown ft i cb cd grown_made E) as (tbl & [I|[]] & J).
  injection I as <- <-. destruct J as [J|[]]. injection J as <- <- <-. exact growing_honours.
Qed.

Lemma grown_registered : Registered grown_rep (registry_for grown) grown_find.
Proof.
  intros ft cid. exists (xexpected (exts_for grown) ft cid). eexists.
  split; [apply C73_registries; exact grown_made|]. split; [reflexivity|]. unfold xexpected.
  change FORM_ID with IFF_ID_FORM. change CAT_ID with IFF_ID_CAT. change LIST_ID with IFF_ID_LIST. change PROP_ID with IFF_ID_PROP.
  destruct (cid =? IFF_ID_FORM); [exact Logic.I|]. destruct (cid =? IFF_ID_CAT); [exact Logic.I|].
  destruct (Z.eqb_spec cid IFF_ID_LIST) as [E|]; [exact E|]. destruct (cid =? IFF_ID_PROP); [exact Logic.I|].
  unfold exts_for, grown. cbn [List.find fst snd]. rewrite (Z.eqb_sym ILBM_ID).
  destruct (ft =? ILBM_ID); cbn [andb List.find fst snd]; [|exact Logic.I].
  rewrite (Z.eqb_sym CMAP_ID). destruct (cid =? CMAP_ID); cbn [fst snd]; [exact cmap_refine|exact Logic.I].
Qed.

Lemma grown_one : forall h (ft i : Z) a F G u t, grown_rep ft i h a F u -> grown_rep ft i h a G t -> u = t.
Proof.
  intros h ft i a F G u t (hd & p & L & D) (hd' & p' & L' & D'). rewrite L in L'. injection L' as _ _ <-.
  destruct D as [(-> & -> & _)|(d & -> & E & _)], D' as [(X & -> & _)|(d' & X & E' & _)]; congruence.
Qed.

Example C84_example :
  Registered grown_rep (registry_for grown) grown_find /\ GroupsAsUsual grown_find /\
  XRealises (registry_for grown) (exts_for grown) /\ AllHonour (exts_for grown) /\
  (* the file is read into memory ... *)
  match yIFF_readFd grown_find (host false) (start two_colour_file) before with
  | Done (Some a, w, h) =>
      (exists F, Shows grown_rep grown_find h (picture two_colours) 0 None a F) /\
      (* ... which shows no other tree, ... *)
      (forall x p F, Shows grown_rep grown_find h x 0 p a F -> x = picture two_colours) /\
      (* ... and written again *)
      match yIFF_writeFd a grown_find (host false) w h with
      | Done (true, w', h') => handed (w_out w') = two_colour_file
      | _ => False
      end
  | _ => False
  end.
Proof.
  split; [exact grown_registered|]. split; [apply cmap_groups|]. split; [apply C73_registries; exact grown_made|]. split; [exact grown_honour|].
  pose proof (C84_read _ _ grown_rep (registry_for grown) grown_find (host false) (start two_colour_file) before grown_registered eq_refl) as M.
  assert (EX : exists w, xreadFd (registry_for grown) (host false) (start two_colour_file) = Done (Some (picture two_colours), w)).
  { eexists. vm_compute. reflexivity. }
  destruct EX as (w0 & EX). rewrite EX in M. cbn [Mirror] in M. destruct M as (p & h & EY & R).
  destruct p as [a|]; [|contradiction]. rewrite EY. destruct R as (F & TU & N & S).
  split; [exists F; exact S|]. split.
  - intros x p G T. exact (C84_one_tree _ _ grown_rep grown_find h x _ 0 p None a G F (grown_one h) T S).
  - clear TU N S F. vm_compute in EY. injection EY as <- <- <-. vm_compute. reflexivity.
Qed.

(** The tests' registry, which finds a type for every chunk *)
Example C84_registries_example :
  Registered (fields_reps (Some TEST_chunkRegistry)) (conv_reg (selectChunkRegistry (Some TEST_chunkRegistry))) (yconv_find (Some TEST_chunkRegistry)).
Proof.
  apply C84_registries; [exact (proj1 C73_field_lists_example)|].
  intros ft cid. unfold find_handler, IFF_findChunkType, getFormChunkTypes, bsearch.
  cbn -[Z.ltb TEST_ID_TEST TEST_ID_HELO TEST_ID_BYE IFF_ID_FORM IFF_ID_CAT IFF_ID_LIST IFF_ID_PROP].
  repeat (match goal with |- context [?a <? ?b] => destruct (Z.ltb_spec a b) end;
          cbn -[Z.ltb TEST_ID_TEST TEST_ID_HELO TEST_ID_BYE IFF_ID_FORM IFF_ID_CAT IFF_ID_LIST IFF_ID_PROP]);
    eexists; reflexivity.
Qed.
