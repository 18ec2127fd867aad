(** * Properties C63 - C65: sizes, lookups and searches through pointers *)

From Coq Require Import ZArith List Bool String Lia.
From Coq Require Import Strings.Byte.
From Verif Require Import Machine Io Types Build Read Write Search Iff Spec Lemmas IoProofs RegProofs WriteProofs SoundProofs Examples PropSearch
  Heap HeapSpec HeapProofs HeapBuildProofs HeapReadProofs HeapAddProofs HeapReachProofs HeapPathProofs HeapSearch HeapUpdateProofs HeapLookupProofs HeapFormsProofs PropHeap.
Import ListNotations.
Open Scope Z_scope.

(** ** C63.  IFF_updateChunkSizes, which finds its way up by parent pointers,
    computes what the tree model computes: it neither allocates nor releases,
    and the tree stays where it is. *)
Theorem C63_refines : forall root a F h q b e w, tree_at h root None a F -> NoDup F -> Leads h a q b ->
  match hIFF_updateChunkSizes b e w h with
  | Done (_, w', h') => w' = w /\ exists root', IFF_updateChunkSizes root q = Done (Some root') /\
      exists F', tree_at h' root' None a F' /\ (forall x, In x F' <-> In x F)
  | Undefined u => IFF_updateChunkSizes root q = Undefined u
  | OutOfFuel => IFF_updateChunkSizes root q = OutOfFuel
  end.
Proof.
  intros root a F h q b e w T ND L. pose proof (updateChunkSizes_at q root a F h e w b T ND L) as U.
  destruct (IFF_updateChunkSizes root q) as [[c'|]|u|]; [|contradiction|rewrite U; reflexivity|rewrite U; reflexivity].
  destruct U as (h' & F' & -> & T' & S & B). split; [reflexivity|]. exists c'. split; [reflexivity|]. exists F'. split; [exact T'|]. intro x. exact (same_in _ _ x S).
Qed.
Print Assumptions C63_refines.

(** On any heap whatsoever: when it returns, only declared sizes have changed,
    and only those of the chunk and of the chunks its parent pointers lead to. *)
Theorem C63_only_sizes : forall c e w h r w' h', hIFF_updateChunkSizes c e w h = Done (r, w', h') ->
  resized_only (Up h c) h h'.
Proof. intros c e w h r w' h' E. exact (proj1 (update_resizes _ _ _ _ _ _ _ _ E)). Qed.
Print Assumptions C63_only_sizes.

(** If the parent pointers never end, it never returns, however long it runs. *)
Theorem C63_cycle_never_returns : forall c h, (forall x, Up h c x -> ~ parent_is h x None) ->
  forall fuel e w out, hupdateChunkSizes fuel c e w h <> Done out.
Proof.
  intros c h N fuel e w [[r w'] h'] E. destruct (update_resizes _ _ _ _ _ _ _ _ E) as (_ & top & U & P). exact (N top U P).
Qed.
Print Assumptions C63_cycle_never_returns.

(** A client that adds a FORM to itself builds such a cycle. *)
Definition self_client : H ptr :=
  p <-h hcreateEmptyGroup IFF_ID_FORM (ID_of "TEST") ;;
  match p with
  | None => hret None
  | Some a => haddToGroup a a ;;h hret (Some a)
  end.

Theorem C63_self_member_refuted : exists e w h a w' h', self_client e w h = Done (Some a, w', h') /\
  forall fuel e2 w2 out, hupdateChunkSizes fuel a e2 w2 h' <> Done out.
Proof.
  exists (host false), (start []), [], 0%nat. do 2 eexists. split; [vm_compute; reflexivity|]. apply C63_cycle_never_returns.
  assert (X : forall h x, Up h 0%nat x -> lookup h 0%nat = Some (OChunk (mkHeader (Some 0%nat) IFF_ID_FORM 16) (BGroup (ID_of "TEST") 1 (Some 1%nat))) -> x = 0%nat).
  { intros h x U L. induction U as [|x p U IH (hd & b & LX & P)]; [reflexivity|]. rewrite IH, L in LX. injection LX as <- <-. cbn in P. congruence. }
  intros x U (hd & b & L & P). rewrite (X _ x U eq_refl) in L. vm_compute in L. injection L as <- <-. discriminate P.
Qed.
Print Assumptions C63_self_member_refuted.

Ltac solve_child := do 2 eexists; (split; [reflexivity|]); do 2 eexists; (split; [reflexivity|]); (split; [reflexivity|]); (split; [repeat constructor|reflexivity]).

(** A tree read from a file, with a wrong size put into its innermost group *)
Example C63_example :
  match hIFF_readFd None (host false) (start (encode ex_cat)) some_heap with
  | Done (Some a, w, h) => a = 2%nat /\ Leads h 2%nat [InSub 0; InSub 0; InSub 0] 10%nat /\ Leads h 2%nat [InSub 0; InSub 0] 9%nat /\
      match hset_size 9%nat 1000 (host false) w h with
      | Done (_, w1, h1) =>
          match hIFF_updateChunkSizes 10%nat (host false) w1 h1 with Done (_, _, h2) => h1 <> h /\ h2 = h | _ => False end
      | _ => False
      end
  | _ => False
  end.
Proof.
  vm_compute. split; [reflexivity|]. split; [|split; [|split; [discriminate|reflexivity]]].
  - econstructor; [solve_child|]. econstructor; [solve_child|]. econstructor; [solve_child|]. constructor.
  - econstructor; [solve_child|]. econstructor; [solve_child|]. constructor.
Qed.

(** ** C64.  Lookups in memory

    IFF_getChunkFromForm returns the address of the chunk that applies to the
    form: its own first chunk of that ID, else the shared one of the innermost
    enclosing LIST that sets it (found through the parent pointers), else
    NULL; nothing is modified. *)
Theorem C64_getChunk : forall app root ra F h q form b ft members cid e w,
  Typed app 0 root -> tree_at h root None ra F -> NoDup F ->
  at_path root q = Some form -> Leads h ra q b -> as_group form = Some (ft, members) ->
  exists r, hIFF_getChunkFromForm b cid e w h = Done (r, w, h) /\
  match r with
  | Some x => exists c q', at_path root q' = Some c /\ Leads h ra q' x /\
      (first_member members cid c \/
       (forall y, In y members -> chunkId y <> cid) /\ shared_setting ft cid (ancestors root q) c)
  | None => (forall y, In y members -> chunkId y <> cid) /\
      forall a c, In a (ancestors root q) -> ~ shares a ft cid c
  end.
Proof.
  intros app root ra F h q form b ft members cid e w TY T ND AP LD AG.
  pose proof (ancestors_enclosed root q root [] form (enclosed_root root) AP) as EN. rewrite app_nil_r in EN.
  destruct (C38_shared_properties app root form (ancestors root q) ft members cid TY EN AG) as (r & E & S & N).
  pose proof (getChunk_at cid root ra F q form b h e w T ND AP LD) as G. unfold looks_up in G. rewrite E in G.
  destruct G as (x & EX & FD). exists x. split; [exact EX|]. destruct r as [c|], x as [y|]; try contradiction FD.
  - destruct FD as (q' & A' & L'). exists c, q'. split; [exact A'|]. split; [exact L'|]. apply S. reflexivity.
  - apply N. reflexivity.
Qed.
Print Assumptions C64_getChunk.

(** In any tree, typed or not, the pointer program and the tree program agree. *)
Theorem C64_refines : forall root ra F h q form b cid e w, tree_at h root None ra F -> NoDup F ->
  at_path root q = Some form -> Leads h ra q b ->
  match hIFF_getChunkFromForm b cid e w h with
  | Done (r, w', h') => w' = w /\ h' = h /\
      exists o, IFF_getChunkFromForm form (ancestors root q) cid = Done o /\
      match o, r with
      | Some c, Some x => exists q', at_path root q' = Some c /\ Leads h ra q' x
      | None, None => True
      | _, _ => False
      end
  | Undefined u => IFF_getChunkFromForm form (ancestors root q) cid = Undefined u
  | OutOfFuel => IFF_getChunkFromForm form (ancestors root q) cid = OutOfFuel
  end.
Proof.
  intros root ra F h q form b cid e w T ND AP LD. pose proof (getChunk_at cid root ra F q form b h e w T ND AP LD) as G. unfold looks_up in G.
  destruct (IFF_getChunkFromForm form (ancestors root q) cid) as [o|u|]; [|rewrite G; reflexivity|rewrite G; reflexivity].
  destruct G as (r & -> & FD). split; [reflexivity|]. split; [reflexivity|]. exists o. split; [reflexivity|exact FD].
Qed.
Print Assumptions C64_refines.

(** IFF_getChunksFromForm returns an array, in one new block (or NULL), of the
    addresses of all members with the ID, in order; nothing else changes.  It
    can only fail for want of memory. *)
Theorem C64_getChunks : forall cid form g members p a F h e w, as_group form = Some (g, members) -> tree_at h form p a F ->
  match hIFF_getChunksFromForm a cid e w h with
  | Done ((arr, n), _, h') => exists la Fa, n = List.length la /\ array_at h' arr la Fa /\ becomes h h' [] Fa /\
      Forall2 (fun c b => exists k, nth_error members k = Some c /\ child_is h a (InSub k) b)
              (filter (fun c => chunkId c =? cid) members) la
  | Undefined u => u = UB_null_deref /\
      exists k n, (0 < n <= List.length (filter (fun c => (chunkId c =? cid)%Z) members))%nat /\ fails e k (Z.of_nat n * sizeof_pointer)
  | OutOfFuel => False
  end.
Proof.
  intros cid form g members p a F h e w AG T.
  destruct (getChunks_at cid form g members p a F h e w AG T) as [(h' & w' & arr & la & Fa & -> & A & ND & B & FA)|(-> & R)].
  - exists la, Fa. split; [reflexivity|]. split; [exact A|]. split; [exact B|exact FA].
  - split; [reflexivity|exact R].
Qed.
Print Assumptions C64_getChunks.

(** A LIST with a PROP; the FORM inside has no such chunk of its own. *)
Definition shared_tree : chunk :=
  listc "TEST" [group "PROP" "TEST" [raw "COLR" "red"]] [group "FORM" "TEST" [raw "NAME" "x"; raw "BODY" "1"; raw "BODY" "2"]].

Example C64_example :
  match hIFF_readFd None (host false) (start (encode shared_tree)) some_heap with
  | Done (Some a, w, h) => a = 2%nat /\ Leads h 2%nat [InSub 0] 8%nat /\ Leads h 2%nat [InProp 0; InSub 0] 4%nat /\
      hIFF_getChunkFromForm 8%nat (ID_of "COLR") (host false) w h = Done (Some 4%nat, w, h) /\
      hIFF_getChunkFromForm 8%nat (ID_of "NONE") (host false) w h = Done (None, w, h) /\
      match hIFF_getChunksFromForm 8%nat (ID_of "BODY") (host false) w h with
      | Done ((Some arr, n), _, h') => n = 2%nat /\ lookup h' arr = Some (OArray [12%nat; 15%nat])
      | _ => False
      end
  | _ => False
  end.
Proof.
  vm_compute. split; [reflexivity|]. split; [|split; [|repeat split]].
  - econstructor; [solve_child|]. constructor.
  - econstructor; [solve_child|]. econstructor; [solve_child|]. constructor.
Qed.

(** ** C65.  Searching FORMs in memory

    IFF_searchForms returns an array of the addresses of the outermost FORMs
    of the type, in document order, and leaves the rest of memory as it is,
    except that it also leaves behind [L]: blocks that were allocated and that
    nothing refers to.  It can only fail for want of memory. *)
Theorem C65_search : forall app ft c p a F h e w formType, Typed app ft c -> tree_at h c p a F -> NoDup F ->
  match hIFF_searchForms a formType e w h with
  | Done ((arr, n), _, h') => exists ps la Fa L,
      in_order ps /\ (forall q, In q ps <-> outermost [formType] c q) /\
      n = List.length la /\ array_at h' arr la Fa /\ Forall2 (fun q b => Leads h a (map InSub q) b) ps la /\
      becomes h h' [] (Fa ++ L)
  | Undefined u => u = UB_null_deref /\
      exists ps k n, in_order ps /\ (forall q, In q ps <-> outermost [formType] c q) /\
        (0 < n <= List.length ps)%nat /\ fails e k (Z.of_nat n * sizeof_pointer)
  | OutOfFuel => False
  end.
Proof.
  intros app ft c p a F h e w formType TY T ND. destruct (positions_right app [formType] c ft TY) as (O & I). pose proof (search_at app [formType] c ft p a F h e w (S (List.length h)) TY T ND) as R.
  specialize (R ltac:(pose proof (tree_depth _ _ _ _ _ T ND); lia)). unfold searched in R. unfold hIFF_searchForms.
  destruct (hsearchFormsFromArray _ _ _ e w h) as [[[[arr n] w'] h']|u|]; [| |exact R].
  - destruct R as (la & Fa & L & -> & A & FA & B & _).
    exists (positions [formType] c), la, Fa, L. split; [exact O|]. split; [exact I|]. split; [reflexivity|]. split; [exact A|]. split; [exact FA|exact B].
  - destruct R as (-> & k & n & LE & FK). split; [reflexivity|]. exists (positions [formType] c), k, n. split; [exact O|]. split; [exact I|]. split; [exact LE|exact FK].
Qed.
Print Assumptions C65_search.

(** The leak, exactly.  When the caller has released the array that was
    returned, every block that was there before is as before, and exactly
    [arrays_lost] new blocks are still allocated (for an allocator that gives a
    block for a request of 0 bytes) - one at least for every FORM found below
    the chunk. *)
Theorem C65_leak_exact : forall app ft c p a F h e w formType arr n w1 h1, Typed app ft c -> tree_at h c p a F -> NoDup F ->
  hIFF_searchForms a formType e w h = Done ((arr, n), w1, h1) ->
  forall e2 w2, exists h2 L, hfree arr e2 w2 h1 = Done (tt, w2, h2) /\ NoDup L /\
    (forall x, lookup h x <> None -> lookup h2 x = lookup h x) /\
    (forall x, In x L <-> lookup h x = None /\ lookup h2 x <> None) /\
    (is_wanted [formType] c = false -> (n <= List.length L)%nat) /\
    ((forall k, malloc_ok e k 0 = true) -> List.length L = arrays_lost [formType] c).
Proof.
  intros app ft c p a F h e w formType arr n w1 h1 TY T ND E e2 w2. pose proof (search_at app [formType] c ft p a F h e w (S (List.length h)) TY T ND) as R.
  specialize (R ltac:(pose proof (tree_depth _ _ _ _ _ T ND); lia)). unfold searched in R. unfold hIFF_searchForms in E. rewrite E in R.
  destruct R as (la & Fa & L & -> & A & FA & B & NDL & LV & W1 & W2 & Z).
  destruct (hfree_array h1 arr la Fa e2 w2 A) as (h2 & E2 & B2). exists h2, L. split; [exact E2|]. split; [exact (NoDup_app_r _ _ _ NDL)|].
  assert (NEW : forall x, In x (Fa ++ L) -> lookup h x = None) by (intros x I; apply (becomes_new _ _ _ _ _ B I); intros []).
  assert (LV2 : forall x, In x L -> lookup h2 x <> None).
  { intros x I. rewrite (becomes_kept _ _ _ _ _ B2 (LV x I)); [exact (LV x I)|]. intro J. exact (NoDup_app_disjoint _ _ _ _ NDL J I). }
  assert (K : forall x, lookup h x <> None -> lookup h2 x = lookup h x).
  { intros x X. assert (X1 : lookup h1 x = lookup h x) by (apply (becomes_kept _ _ _ _ _ B X); intros []).
    rewrite (becomes_kept _ _ _ _ _ B2); [exact X1|congruence|]. intro J. apply X, NEW, in_or_app. left. exact J. }
  split; [exact K|]. split; [|split].
  - intro x. split; [intro I; split; [apply NEW, in_or_app; right; exact I|exact (LV2 x I)]|]. intros [N1 N2].
    destruct (in_dec Nat.eq_dec x (Fa ++ L)) as [I|N].
    + apply in_app_or in I. destruct I as [I|I]; [|exact I]. exfalso. apply N2. destruct B2 as (_ & _ & GONE & _). apply GONE; [exact I|intros []].
    + exfalso. apply N2. assert (X1 : lookup h1 x = lookup h x) by (destruct B as (_ & KK & _); apply KK; [intros []|exact N]).
      destruct (in_dec Nat.eq_dec x Fa) as [J|J]; [exfalso; apply N, in_or_app; left; exact J|]. destruct B2 as (_ & KK & _). rewrite (KK x J); [congruence|intros []].
  - intro W. rewrite <- (F2_length _ _ _ _ _ FA). exact (W2 W).
  - intro ZK. exact (proj2 (Z ZK)).
Qed.
Print Assumptions C65_leak_exact.

(** Refuted: a client that reads a file, searches it and releases both the
    array it was given and the chunk leaves memory as it found it. *)
Definition search_client : H unit :=
  p <-h hIFF_readFd None ;;
  match p with
  | None => hret tt
  | Some a =>
      r <-h hIFF_searchForms a (ID_of "TEST") ;;
      hfree (fst r) ;;h
      hIFF_free a None
  end.

Theorem C65_no_leak_refuted :
  match search_client (host false) (start (encode nested)) [] with
  | Done (_, _, h) => List.length (filter (fun o => match o with Some _ => true | None => false end) h) = arrays_lost [ID_of "TEST"] nested /\
      arrays_lost [ID_of "TEST"] nested <> O
  | _ => False
  end.
Proof. vm_compute. split; [reflexivity|discriminate]. Qed.
Print Assumptions C65_no_leak_refuted.

Example C65_example :
  match hIFF_readFd None (host false) (start (encode nested)) some_heap with
  | Done (Some a, w, h) =>
      match hIFF_searchForms a (ID_of "TEST") (host false) w h with
      | Done ((Some _, n), _, h') => n <> O /\ (List.length h < List.length h')%nat
      | _ => False
      end
  | _ => False
  end.
Proof. vm_compute. split; [discriminate|repeat constructor]. Qed.
