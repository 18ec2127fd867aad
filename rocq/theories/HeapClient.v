(** * Programs that use the library (definitions only)

    What a client may call, given what it owns, and what it owns afterwards.
    The chunk kinds are those of the library itself (default registry). *)

From Coq Require Import ZArith List Bool String.
From Coq Require Import Strings.Byte.
From Verif Require Import Machine Io Types Build Spec Heap HeapSpec HeapSearch.
Import ListNotations.
Open Scope Z_scope.

(** [owned]: root chunks the client has to pass on or to free.
    [loose]: other blocks the client has to release itself. *)
Record client := mkClient { owned : list addr; loose : list addr }.

Inductive call :=
| CreateGroup (cid ty : Z)               (* IFF_createEmptyForm, IFF_createEmptyCAT, IFF_createEmptyProp *)
| CreateList (ty : Z)                    (* IFF_createEmptyList *)
| CreateRaw (cid size : Z)               (* IFF_createRawChunk *)
| ReadFile                               (* IFF_readFd *)
| Add (g c : addr)                       (* IFF_addToForm, IFF_addToCAT, IFF_addToList, IFF_addToProp *)
| AddProp (l p : addr)                   (* IFF_addPropToList *)
| AddToCAT (g c : addr)                  (* IFF_addToCATAndUpdateContentsType *)
| SetText (c : addr) (text : list byte)  (* IFF_setTextData *)
| Buffer (data : list byte)              (* malloc, and the bytes are filled in *)
| SetData (c d : addr) (size : Z)        (* IFF_setRawChunkData *)
| CopyData (c : addr) (data : list byte) (* IFF_copyDataToRawChunkData *)
| Update (c : addr)                      (* IFF_updateChunkSizes *)
| GetChunk (c : addr) (cid : Z)          (* IFF_getChunkFromForm *)
| GetChunks (c : addr) (cid : Z)         (* IFF_getChunksFromForm *)
| Search (c : addr) (ty : Z)             (* IFF_searchForms *)
| Release (x : addr)                     (* free *)
| Free (r : addr).                       (* IFF_free *)

Definition perform (k : call) : H ptr :=
  match k with
  | CreateGroup cid ty => hcreateEmptyGroup cid ty
  | CreateList ty => hcreateList IFF_ID_SIZE ty
  | CreateRaw cid size => hcreateRawChunk cid size
  | ReadFile => hIFF_readFd None
  | Add g c => haddToGroup g c ;;h hret None
  | AddProp l p => haddPropToList l p ;;h hret None
  | AddToCAT g c => haddToCATAndUpdateContentsType g c ;;h hret None
  | SetText c text => hsetTextData c text ;;h hret None
  | Buffer data => hmalloc (zlength data) (OData (zlength data) (Some data))
  | SetData c d size => hsetRawChunkData c (Some d) size ;;h hret None
  | CopyData c data => hcopyData c data ;;h hret None
  | Update c => hIFF_updateChunkSizes c ;;h hret None
  | GetChunk c cid => hIFF_getChunkFromForm c cid
  | GetChunks c cid => r <-h hIFF_getChunksFromForm c cid ;; hret (fst r)
  | Search c ty => r <-h hIFF_searchForms c ty ;; hret (fst r)
  | Release x => hfree (Some x) ;;h hret None
  | Free r => hIFF_free r None ;;h hret None
  end.

(** A chunk that belongs to one of the client's trees *)
Definition in_use (h : heap) (s : client) (c : addr) : Prop :=
  exists r, In r (owned s) /\ Reaches h r c.

Definition is_raw (h : heap) (c : addr) : Prop :=
  exists hd d, lookup h c = Some (OChunk hd (BRaw d)).
Definition is_list (h : heap) (c : addr) : Prop :=
  exists hd g n arr pn parr, lookup h c = Some (OChunk hd (BList g n arr pn parr)).
Definition has_id (h : heap) (c : addr) (i : Z) : Prop :=
  exists hd b, lookup h c = Some (OChunk hd b) /\ o_id hd = i.

(** The rules: chunks are only added while the client owns them, and not to
    themselves; only owned chunks are freed, only loose blocks are released;
    everything else may be done to any chunk of an owned tree that has the
    right C type. *)
Definition may_add (h : heap) (s : client) (g c : addr) : Prop :=
  In c (owned s) /\ exists r, In r (owned s) /\ r <> c /\ Reaches h r g.

Definition allowed (h : heap) (s : client) (k : call) : Prop :=
  match k with
  | CreateGroup cid _ => In cid [FORM_ID; CAT_ID; PROP_ID]
  | CreateList _ => True
  | CreateRaw cid size => ~ In cid group_ids /\ in_range FLong size
  | ReadFile => True
  | Add g c => may_add h s g c /\ is_group h g
  | AddProp l p => may_add h s l p /\ is_list h l /\ has_id h p PROP_ID
  | AddToCAT g c => may_add h s g c /\ is_group h g
  | SetText c text => in_use h s c /\ is_raw h c /\ text <> []
  | Buffer _ => True
  | SetData c d size => in_use h s c /\ is_raw h c /\ In d (loose s) /\
      exists z l, lookup h d = Some (OData z l) /\ data_fits size z l
  | CopyData c data => in_use h s c /\
      exists hd d z l, lookup h c = Some (OChunk hd (BRaw (Some d))) /\ lookup h d = Some (OData z l) /\
        0 <= o_size hd <= INT_MAX /\ o_size hd <= z /\ o_size hd <= zlength data
  | Update c => in_use h s c
  | GetChunk c _ => in_use h s c /\ is_group h c
  | GetChunks c _ => in_use h s c /\ is_group h c
  | Search c _ => in_use h s c
  | Release x => In x (loose s)
  | Free r => In r (owned s)
  end.

(** The data block of a chunk, and the blocks allocated between two heaps *)
Definition data_block (h : heap) (c : addr) : list addr :=
  match lookup h c with Some (OChunk _ (BRaw (Some d))) => [d] | _ => [] end.
Definition new_blocks (h h' : heap) : list addr :=
  filter (fun x => match lookup h x, lookup h' x with None, Some _ => true | _, _ => false end)
         (seq 0 (List.length h')).

Definition drop (x : addr) (l : list addr) : list addr := remove Nat.eq_dec x l.
Definition opt (r : ptr) : list addr := match r with Some a => [a] | None => [] end.

(** What the client owns after a call: adding a chunk and setting data hand
    over; replaced data, and what searches allocate, become loose. *)
Definition after (h h' : heap) (s : client) (k : call) (r : ptr) : client :=
  match k with
  | CreateGroup _ _ | CreateList _ | CreateRaw _ _ | ReadFile => mkClient (opt r ++ owned s) (loose s)
  | Add _ c | AddProp _ c | AddToCAT _ c => mkClient (drop c (owned s)) (loose s)
  | SetText c _ => mkClient (owned s) (data_block h c ++ loose s)
  | Buffer _ => mkClient (owned s) (opt r ++ loose s)
  | SetData c d _ => mkClient (owned s) (data_block h c ++ drop d (loose s))
  | CopyData _ _ | Update _ | GetChunk _ _ => s
  | GetChunks _ _ | Search _ _ => mkClient (owned s) (new_blocks h h' ++ loose s)
  | Release x => mkClient (owned s) (drop x (loose s))
  | Free r => mkClient (drop r (owned s)) (loose s)
  end.

(** Everything such a program can have reached, from the heap [h0]: the host,
    the streams and the success of allocations may differ from call to call. *)
Inductive Run (h0 : heap) : heap -> client -> Prop :=
| Run_start : Run h0 h0 (mkClient [] [])
| Run_call : forall h s k e w r w' h', Run h0 h s -> allowed h s k ->
    perform k e w h = Done (r, w', h') -> Run h0 h' (after h h' s k r).

(** An allocation of at most [n] bytes fails *)
Definition out_of_memory (e : env) (n : Z) : Prop :=
  exists k sz, 0 < sz <= n /\ (malloc_ok e k sz = false \/ 2 ^ (size_t_bits e - 1) <= sz).
Definition request (h : heap) (w : world) (k : call) : Z :=
  match k with
  | ReadFile => zlength (r_rest (w_in w))
  | SetText _ text => zlength text
  | _ => 8 * (1 + Z.of_nat (List.length h))
  end.
