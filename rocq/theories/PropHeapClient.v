(** * Property C66: programs that follow the ownership rules *)

From Coq Require Import ZArith List Bool String Lia Permutation.
From Coq Require Import Strings.Byte.
From Verif Require Import Machine Io Types Build Read Write Search Iff Spec Lemmas IoProofs RegProofs SoundProofs Examples
  Heap HeapSpec HeapProofs HeapReachProofs HeapSearch HeapClient HeapClientProofs.
Import ListNotations.
Open Scope Z_scope.

(** The calls that add up sizes, and those that use the result of an
    allocation without looking at it *)
Definition adds_sizes (k : call) : bool :=
  match k with ReadFile | Add _ _ | AddProp _ _ | AddToCAT _ _ | Update _ => true | _ => false end.
Definition trusts_malloc (k : call) : bool :=
  match k with ReadFile | Add _ _ | AddProp _ _ | AddToCAT _ _ | SetText _ _ | GetChunks _ _ | Search _ _ => true | _ => false end.

(** ** C66.  Whatever a program that follows the rules has done so far, with
    whatever input and whichever allocations failed: the next call returns, or
    a size overflows, or the call uses the NULL of a failed allocation of a
    bounded number of bytes.  No other undefined behaviour (dangling pointers,
    double frees, wrong types, accesses out of bounds) and no endless loop. *)
Theorem C66_safe : forall h0 h s k e w, strict_c e = false -> Run h0 h s -> allowed h s k ->
  (exists r w' h', perform k e w h = Done (r, w', h')) \/
  (perform k e w h = Undefined UB_signed_overflow /\ adds_sizes k = true) \/
  (perform k e w h = Undefined UB_null_deref /\ trusts_malloc k = true /\ out_of_memory e (request h w k)).
Proof.
  intros h0 h s k e w NS R AL. pose proof (run_ok _ _ _ R) as HS. pose proof (call_ok h0 h s k e w HS AL) as C. pose proof (call_kinds h0 h s k e w HS AL) as K.
  destruct (perform k e w h) as [[[r w'] h']|u|]; [left; eauto|right|destruct C]. destruct (C NS) as [->|(-> & M)]; [left|right]; (split; [reflexivity|]).
  - exact K.
  - split; [exact K|exact M].
Qed.
Print Assumptions C66_safe.

(** Calls that can only succeed: creating (where failure is a NULL result),
    handing over and copying data, looking up a chunk, releasing and freeing. *)
Theorem C66_always_returns : forall h0 h s k e w, strict_c e = false -> Run h0 h s -> allowed h s k -> adds_sizes k = false -> trusts_malloc k = false ->
  exists r w' h', perform k e w h = Done (r, w', h').
Proof. intros h0 h s k e w NS R AL A T. destruct (C66_safe h0 h s k e w NS R AL) as [X|[(_ & X)|(_ & X & _)]]; [exact X|congruence|congruence]. Qed.
Print Assumptions C66_always_returns.

(** At any time: what is allocated is what was allocated at the start, the
    blocks of the client's trees, and its loose blocks; these do not overlap;
    and nothing that was there at the start has been touched. *)
Theorem C66_accounts : forall h0 h s, Run h0 h s ->
  (forall x, lookup h x <> None <-> lookup h0 x <> None \/ In x (loose s) \/ exists r, In r (owned s) /\ Owns h r x) /\
  (forall x, lookup h0 x <> None -> lookup h x = lookup h0 x /\ ~ In x (loose s) /\ forall r, In r (owned s) -> ~ Owns h r x) /\
  (forall r x, In r (owned s) -> Owns h r x -> ~ In x (loose s) /\ forall r', In r' (owned s) -> Owns h r' x -> r' = r) /\
  NoDup (owned s) /\ NoDup (loose s).
Proof. intros h0 h s R. exact (Has_accounts _ _ _ (run_ok _ _ _ R)). Qed.
Print Assumptions C66_accounts.

(** The parent pointers are right: NULL in what the client owns, the enclosing
    group everywhere below. *)
Theorem C66_parents : forall h0 h s r, Run h0 h s -> In r (owned s) ->
  parent_is h r None /\ forall g c, Reaches h r g -> has_member h g c -> parent_is h c (Some g).
Proof.
  intros h0 h s r R I. destruct (Has_tree _ _ _ _ (run_ok _ _ _ R) I) as (c & F & T & _ & _). exact (tree_parents _ _ _ _ _ T).
Qed.
Print Assumptions C66_parents.

(** Each owned chunk is the root of a finite tree without sharing, and of the
    C types its IDs call for: the theorems about trees apply to it. *)
Theorem C66_trees : forall h0 h s r, Run h0 h s -> In r (owned s) ->
  exists c F, tree_at h c None r F /\ NoDup F /\ Typed no_apps 0 c.
Proof. intros h0 h s r R I. exact (Has_tree _ _ _ _ (run_ok _ _ _ R) I). Qed.
Print Assumptions C66_trees.

(** A program that has freed what it owns and released its loose blocks has
    left memory as it found it ... *)
Theorem C66_clean : forall h0 h, Run h0 h (mkClient [] []) -> same_heap h0 h.
Proof.
  intros h0 h R x. destruct (C66_accounts _ _ _ R) as (A & B & _). destruct (lookup h0 x) eqn:E0.
  - rewrite <- E0. apply B. congruence.
  - destruct (lookup h x) eqn:E; [|reflexivity]. exfalso. assert (N : lookup h x <> None) by congruence. apply A in N. destruct N as [N|[[]|(r & [] & _)]]. congruence.
Qed.
Print Assumptions C66_clean.

(** ... and every program can do so at any time. *)
Theorem C66_can_finish : forall h0 h s, Run h0 h s -> exists h', Run h0 h' (mkClient [] []) /\ same_heap h0 h'.
Proof.
  intros h0 h s R. assert (X : exists h', Run h0 h' (mkClient [] [])).
  { remember (List.length (owned s) + List.length (loose s))%nat as n eqn:N. revert h s R N. induction n as [n IH] using lt_wf_ind. intros h s R N.
    assert (STEP : forall k, allowed h s k -> adds_sizes k = false -> trusts_malloc k = false ->
      (forall h' r, (List.length (owned (after h h' s k r)) + List.length (loose (after h h' s k r)) < n)%nat) -> exists h', Run h0 h' (mkClient [] [])).
    { intros k AL A T LT. destruct (C66_always_returns h0 h s k (host false) (start []) eq_refl R AL A T) as (r & w' & h' & E).
      exact (IH _ (LT h' r) h' (after h h' s k r) (Run_call _ _ _ _ _ _ _ _ _ R AL E) eq_refl). }
    destruct s as [[|r ow] [|x lo]]; cbn [owned loose] in *.
    - exists h. exact R.
    - apply (STEP (Release x)); [left; reflexivity|reflexivity|reflexivity|]. intros h' r. cbn [after owned loose]. subst n. pose proof (drop_shorter x (x :: lo) (or_introl eq_refl)). cbn [List.length] in *. lia.
    - apply (STEP (Free r)); [left; reflexivity|reflexivity|reflexivity|]. intros h' r'. cbn [after owned loose]. subst n. pose proof (drop_shorter r (r :: ow) (or_introl eq_refl)). cbn [List.length] in *. lia.
    - apply (STEP (Free r)); [left; reflexivity|reflexivity|reflexivity|]. intros h' r'. cbn [after owned loose]. subst n. pose proof (drop_shorter r (r :: ow) (or_introl eq_refl)). cbn [List.length] in *. lia. }
  destruct X as (h' & R'). exists h'. split; [exact R'|exact (C66_clean _ _ R')].
Qed.
Print Assumptions C66_can_finish.

(** A program that follows the rules: build a FORM holding a text, look the
    text up, collect all such chunks, replace the text, search, and clean up.
    The blocks: 1 the FORM, 2 and 3 the chunk and its first data, 4 the text,
    5 the array of the FORM, 6 the array of results. *)
Definition example_calls : list call :=
  [CreateGroup FORM_ID (ID_of "TEST"); CreateRaw (ID_of "NAME") 3; SetText 2%nat (list_byte_of_string "libiff"); Release 3%nat;
   Add 1%nat 2%nat; Update 2%nat; GetChunk 1%nat (ID_of "NAME"); GetChunks 1%nat (ID_of "NAME"); Release 6%nat; Free 1%nat].

Fixpoint go (l : list call) (h : heap) (s : client) : option (heap * client) :=
  match l with
  | [] => Some (h, s)
  | k :: r => match perform k (host false) (start []) h with Done (p, _, h') => go r h' (after h h' s k p) | _ => None end
  end.

Inductive all_allowed : list call -> heap -> client -> Prop :=
| aa_nil : forall h s, all_allowed [] h s
| aa_cons : forall k r h s p w' h', allowed h s k -> perform k (host false) (start []) h = Done (p, w', h') ->
    all_allowed r h' (after h h' s k p) -> all_allowed (k :: r) h s.

Lemma all_allowed_run : forall h0 l h s h' s', Run h0 h s -> all_allowed l h s -> go l h s = Some (h', s') -> Run h0 h' s'.
Proof.
  intros h0 l. induction l as [|k l IH]; intros h s h' s' R A G; cbn [go] in G; [injection G as <- <-; exact R|].
  inversion A as [|k1 r1 h1 s1 p w1 h2 AL E AA]; subst. rewrite E in G. exact (IH _ _ _ _ (Run_call _ _ _ _ _ _ _ _ _ R AL E) AA G).
Qed.

Definition example_start : heap := [Some (OArray [])].

Ltac member := do 2 eexists; (split; [reflexivity|]); do 3 eexists; (split; [reflexivity|]); (split; [reflexivity|]); (split; [|instantiate (1 := O); reflexivity]); repeat constructor.
Ltac call_step := eapply aa_cons; [| vm_compute; reflexivity | vm_compute].

Example C66_example : exists h, all_allowed example_calls example_start (mkClient [] []) /\ go example_calls example_start (mkClient [] []) = Some (h, mkClient [] []).
Proof.
  eexists. split; [|vm_compute; reflexivity]. unfold example_calls.
  call_step; [left; reflexivity|].
  call_step; [split; [intros [X|[X|[X|[X|[]]]]]; discriminate X|vm_compute; split; [discriminate|reflexivity]]|].
  call_step; [split; [exists 2%nat; split; [left; reflexivity|apply Reaches_root]|split; [do 2 eexists; reflexivity|discriminate]]|].
  call_step; [left; reflexivity|].
  call_step; [split; [split; [left; reflexivity|exists 1%nat; split; [right; left; reflexivity|split; [discriminate|apply Reaches_root]]]|do 2 eexists; split; [reflexivity|left; reflexivity]]|].
  call_step; [exists 1%nat; split; [left; reflexivity|eapply Reaches_member; [apply Reaches_root|member]]|].
  call_step; [split; [exists 1%nat; split; [left; reflexivity|apply Reaches_root]|do 2 eexists; split; [reflexivity|left; reflexivity]]|].
  call_step; [split; [exists 1%nat; split; [left; reflexivity|apply Reaches_root]|do 2 eexists; split; [reflexivity|left; reflexivity]]|].
  call_step; [left; reflexivity|].
  call_step; [left; reflexivity|].
  constructor.
Qed.
