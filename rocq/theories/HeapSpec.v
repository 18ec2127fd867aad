(** * What it means for a block of memory to hold a chunk tree (definitions only) *)

From Coq Require Import ZArith List Bool String.
From Coq Require Import Strings.Byte.
From Verif Require Import Machine Io Types Build Heap.
Import ListNotations.
Open Scope Z_scope.

(** The array [p] of [n] pointers holds [l]; [F] is the block it occupies. *)
Definition array_at (h : heap) (p : ptr) (l : list addr) (F : list addr) : Prop :=
  (p = None /\ l = [] /\ F = []) \/
  (exists d, p = Some d /\ lookup h d = Some (OArray l) /\ F = [d]).

(** Data blocks: written ones have the size of what they hold, unwritten ones
    the declared size of the chunk. *)
Definition data_fits (declared size : Z) (d : option (list byte)) : Prop :=
  match d with Some l => size = zlength l | None => size = declared /\ 0 <= declared end.

Section Trees.
  Variable one : chunk -> ptr -> addr -> list addr -> Prop.

  (** the chunks [l], with parent [p], are at the addresses [la]; [F] are
      their blocks *)
  Fixpoint trees_at (l : list chunk) (p : ptr) (la : list addr) (F : list addr) : Prop :=
    match l, la with
    | [], [] => F = []
    | c :: r, a :: ra => exists F1 F2, one c p a F1 /\ trees_at r p ra F2 /\ F = F1 ++ F2
    | _, _ => False
    end.
End Trees.

(** The tree [c], with parent pointer [p], is at address [a] of heap [h]; [F]
    lists the blocks it occupies: structs, data blocks and arrays. *)
Fixpoint tree_at (h : heap) (c : chunk) (p : ptr) (a : addr) (F : list addr) {struct c} : Prop :=
  match c with
  | CRaw i s d => exists b size,
      lookup h a = Some (OChunk (mkHeader p i s) (BRaw (Some b))) /\
      lookup h b = Some (OData size d) /\ data_fits s size d /\ F = [a; b]
  | CFields i s v =>
      lookup h a = Some (OChunk (mkHeader p i s) (BFields v)) /\ F = [a]
  | CGroup i s g l => exists arr la Fa Fl,
      lookup h a = Some (OChunk (mkHeader p i s) (BGroup g (List.length la) arr)) /\
      array_at h arr la Fa /\ trees_at (tree_at h) l (Some a) la Fl /\ F = a :: Fa ++ Fl
  | CList i s g ps l => exists arr la Fa Fl parr pa Fb Fp,
      lookup h a = Some (OChunk (mkHeader p i s) (BList g (List.length la) arr (List.length pa) parr)) /\
      array_at h arr la Fa /\ trees_at (tree_at h) l (Some a) la Fl /\
      array_at h parr pa Fb /\ trees_at (tree_at h) ps (Some a) pa Fp /\
      F = a :: (Fa ++ Fl) ++ (Fb ++ Fp)
  end.

(** From heap [h] to heap [h']: the blocks [F] become the blocks [F'] (some
    kept, possibly modified, some released, some new); every other block is as
    before. *)
Definition becomes (h h' : heap) (F F' : list addr) : Prop :=
  (List.length h <= List.length h')%nat /\
  (forall x, ~ In x F -> ~ In x F' -> lookup h' x = lookup h x) /\
  (forall x, In x F -> ~ In x F' -> lookup h' x = None) /\
  (forall x, In x F' -> In x F \/ lookup h x = None).

(** No block is allocated twice over: same contents at every address. *)
Definition same_heap (h h' : heap) : Prop := forall x, lookup h' x = lookup h x.

(** ** Following pointers *)

(** [c] is one of the first [n] elements of the array [arr]. *)
Definition elem (h : heap) (arr : ptr) (n : nat) (c : addr) : Prop :=
  exists d l k, arr = Some d /\ lookup h d = Some (OArray l) /\ (k < n)%nat /\ nth_error l k = Some c.

(** The group at [g] contains the chunk at [c], among its chunks or, for a
    list, its shared properties. *)
Definition has_member (h : heap) (g c : addr) : Prop :=
  exists hd b, lookup h g = Some (OChunk hd b) /\
    match b with
    | BGroup _ n arr => elem h arr n c
    | BList _ n arr pn parr => elem h arr n c \/ elem h parr pn c
    | _ => False
    end.

(** The struct at [s] owns the data block or array at [x]. *)
Definition has_block (h : heap) (s x : addr) : Prop :=
  exists hd b, lookup h s = Some (OChunk hd b) /\
    match b with
    | BRaw d => d = Some x
    | BGroup _ _ arr => arr = Some x
    | BList _ _ arr _ parr => arr = Some x \/ parr = Some x
    | BFields _ => False
    end.

(** The chunks reachable from the chunk at [r]: itself, and the members of
    reachable ones *)
Inductive Reaches (h : heap) (r : addr) : addr -> Prop :=
| Reaches_root : Reaches h r r
| Reaches_member : forall g c, Reaches h r g -> has_member h g c -> Reaches h r c.

(** The blocks that make up the tree below the chunk at [r] *)
Definition Owns (h : heap) (r x : addr) : Prop :=
  exists s, Reaches h r s /\ (x = s \/ has_block h s x).

(** The parent pointer of the chunk at [c] *)
Definition parent_is (h : heap) (c : addr) (p : ptr) : Prop :=
  exists hd b, lookup h c = Some (OChunk hd b) /\ o_parent hd = p.

(** The struct at [a] is a group of the kind its ID says. *)
Definition is_group (h : heap) (a : addr) : Prop :=
  exists hd b, lookup h a = Some (OChunk hd b) /\
    match b with
    | BGroup _ _ _ => o_id hd = IFF_ID_FORM \/ o_id hd = IFF_ID_CAT \/ o_id hd = IFF_ID_PROP
    | BList _ _ _ _ _ => o_id hd = IFF_ID_LIST
    | _ => False
    end.

(** The [n]-th of the first [m] elements of the array [arr] is [b]. *)
Definition element_is (h : heap) (arr : ptr) (m n : nat) (b : addr) : Prop :=
  exists d l, arr = Some d /\ lookup h d = Some (OArray l) /\ (n < m)%nat /\ nth_error l n = Some b.

(** One step of a path, and a path, followed through the arrays *)
Definition child_is (h : heap) (a : addr) (s : step) (b : addr) : Prop :=
  exists hd bd, lookup h a = Some (OChunk hd bd) /\
    match s, bd with
    | InSub n, BGroup _ m arr => element_is h arr m n b
    | InSub n, BList _ m arr _ _ => element_is h arr m n b
    | InProp n, BList _ _ _ m arr => element_is h arr m n b
    | _, _ => False
    end.

Inductive Leads (h : heap) : addr -> path -> addr -> Prop :=
| Leads_here : forall a, Leads h a [] a
| Leads_step : forall a s b q c, child_is h a s b -> Leads h b q c -> Leads h a (s :: q) c.

(** The groups around the chunk at a path, innermost first *)
Fixpoint ancestors (c : chunk) (q : path) : list chunk :=
  match q with
  | [] => []
  | s :: r => match get_child c s with Some y => ancestors y r ++ [c] | None => [] end
  end.

(** The [k]-th allocation, of [sz] bytes, fails. *)
Definition fails (e : env) (k : nat) (sz : Z) : Prop :=
  (sz <? 2 ^ (size_t_bits e - 1)) && malloc_ok e k sz = false.

(** ** What a search for FORMs leaves behind

    A FORM of one of the types ... *)
Definition is_wanted (types : list Z) (c : chunk) : bool :=
  match c with
  | CGroup i _ g _ => (i =? IFF_ID_FORM) && existsb (fun t => g =? t) types
  | _ => false
  end.
(** ... the groups the search goes into ... *)
Definition searched_members (c : chunk) : list chunk :=
  match c with
  | CGroup i _ _ l => if i =? IFF_ID_PROP then [] else l
  | CList _ _ _ _ l => l
  | _ => []
  end.
(** ... the number of arrays a search of [c] returns (none or one) when a
    request for 0 bytes yields a block ... *)
Definition arrays_returned (types : list Z) (c : chunk) : nat :=
  if is_wanted types c then 1%nat else match searched_members c with [] => 0%nat | _ => 1%nat end.
(** ... and the number of arrays it allocates, does not return and does not
    release: those returned for the members. *)
Fixpoint arrays_lost (types : list Z) (c : chunk) : nat :=
  let fix all (l : list chunk) : nat :=
    match l with
    | [] => 0
    | x :: r => arrays_returned types x + arrays_lost types x + all r
    end%nat in
  if is_wanted types c then 0%nat
  else match c with
       | CGroup i _ _ l => if i =? IFF_ID_PROP then 0%nat else all l
       | CList _ _ _ _ l => all l
       | _ => 0%nat
       end.

(** Following parent pointers from the chunk at [c] *)
Inductive Up (h : heap) (c : addr) : addr -> Prop :=
| Up_self : Up h c c
| Up_parent : forall x p, Up h c x -> parent_is h x (Some p) -> Up h c p.

(** From [h] to [h'] nothing changes but declared sizes of chunks in [S]. *)
Definition resized_only (S : addr -> Prop) (h h' : heap) : Prop :=
  forall x, lookup h' x = lookup h x \/
    (S x /\ exists hd b s, lookup h x = Some (OChunk hd b) /\ lookup h' x = Some (OChunk (set_size hd s) b)).
