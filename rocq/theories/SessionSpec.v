(** * Client programs, on values and in memory (definitions only)

    A program is a list of statements about numbered variables, each of which
    holds a chunk tree or NULL.  The same program can be run in two ways: on
    values, where the variables hold trees (Build.v, Read.v, ...), and in memory,
    where they hold pointers (Heap.v, HeapPass.v, ...).  The chunk kinds are those
    of the library itself and those an application registers: [rg] is the
    registry the program passes to the library, NULL included. *)

From Coq Require Import ZArith List Bool String.
From Coq Require Import Strings.Byte.
From Verif Require Import Machine Io Types Build Read Write Check Compare Print Search Iff Spec Heap HeapSpec HeapSearch HeapPass.
Import ListNotations.
Open Scope Z_scope.

(** A chunk is designated by a variable and the way down from it: [x->chunk[2]]. *)
Inductive stmt :=
| SOpen (l : list byte) (seekable : bool)     (* open the next file *)
| SRead (x : nat)                             (* x = IFF_readFd(file, rg) *)
| SGroup (x : nat) (cid ty : Z)               (* x = IFF_createEmptyForm(ty), ...CAT..., ...Prop... *)
| SList (x : nat) (ty : Z)                    (* x = IFF_createEmptyListWithContentsType(ty) *)
| SRaw (x : nat) (cid size : Z)               (* x = IFF_createRawChunk(cid, size) *)
| SFields (x : nat) (sp : fspec) (cid size : Z) (* x = a new struct of an application's chunk kind: TEST_createHello(size) *)
| SSet (x : nat) (q : path) (n : nat) (v : Z) (* x->q.field = v, for the n-th field of a struct of that sort *)
| SAdd (x : nat) (q : path) (y : nat)         (* IFF_addToForm(x->q, y), ...CAT..., ...List..., ...Prop...; y = NULL *)
| SAddProp (x : nat) (q : path) (y : nat)     (* IFF_addPropToList(x->q, y); y = NULL *)
| SAddCAT (x : nat) (q : path) (y : nat)      (* IFF_addToCATAndUpdateContentsType(x->q, y); y = NULL *)
| SText (x : nat) (q : path) (t : list byte)  (* IFF_setTextData(x->q, t) *)
| SData (x : nat) (q : path) (t : list byte)  (* d = malloc(n); memcpy(d, t, n); IFF_setRawChunkData(x->q, d, n) *)
| SCopy (x : nat) (q : path) (t : list byte)  (* IFF_copyDataToRawChunkData(x->q, t) *)
| SUpdate (x : nat) (q : path)                (* IFF_updateChunkSizes(x->q) *)
| SFind (x : nat) (q : path) (cid : Z)        (* IFF_getChunkFromForm(x->q, cid), and look at it *)
| SSearch (x : nat) (q : path) (types : list Z) (* a = IFF_searchFormsFromArray(x->q, types), look at every form of a, free(a) *)
| SChunks (x : nat) (q : path) (cid : Z)      (* a = IFF_getChunksFromForm(x->q, cid), look at every chunk of a, free(a) *)
| SLook (x : nat) (q : path)                  (* look at x->q *)
| SWrite (x : nat)                            (* IFF_writeFd(file, x, rg) *)
| SCheck (x : nat)                            (* IFF_check(x, rg) *)
| SPrint (x : nat) (level : nat)              (* IFF_print(x, level, rg) *)
| SCompare (x y : nat)                        (* IFF_compare(x, y, rg) *)
| SFree (x : nat).                            (* IFF_free(x, rg); x = NULL *)

(** What a program must observe: a chunk is not added to a tree it is the root
    of; sizes fit their type and lengths fit in an int; texts are not empty. *)
Definition legal (s : stmt) : Prop :=
  match s with
  | SRaw _ _ size => in_range FLong size
  | SAdd x _ y | SAddProp x _ y | SAddCAT x _ y => x <> y
  | SText _ _ t => t <> [] /\ zlength t <= INT_MAX
  | SData _ _ t => zlength t <= INT_MAX
  | _ => True
  end.

(** What a program learns from a statement.  [ANull]: a variable was NULL, or
    there is no such chunk (so nothing was done), or the result was NULL. *)
Inductive answer :=
| ANull
| AOk
| ABool (b : bool)
| AText (t : string)
| ASees (cid size : Z) (data : option (option (list byte))) (fields : list (fkind * Z))
| AAll (l : list answer).

Definition set {A} (f : nat -> A) (x : nat) (a : A) : nat -> A := fun y => if Nat.eqb y x then a else f y.
Definition got {A} (o : option A) : answer := match o with Some _ => AOk | None => ANull end.

(** A C assignment converts the value to the type of the field (IFF_ID is a
    32-bit type). *)
Definition convert (k : fkind) (v : Z) : Z :=
  match k with
  | FUByte => wrap_u 8 v
  | FUWord => wrap_u 16 v
  | FWord => wrap_s 16 v
  | FULong | FId => wrap_u 32 v
  | FLong => wrap_s 32 v
  end.

(** The fields of a struct after an assignment to the n-th, if there is one *)
Definition assign (n : nat) (v : Z) (vals : list (fkind * Z)) : option (list (fkind * Z)) :=
  match nth_error vals n with
  | Some (k, _) => Some (replace_nth n (k, convert k v) vals)
  | None => None
  end.

(** ** On values *)

Definition vars : Type := nat -> option chunk.

Definition sees (c : chunk) : answer :=
  ASees (chunkId c) (chunkSize c) (match c with CRaw _ _ d => Some d | _ => None end)
        (match c with CFields _ _ vals => vals | _ => [] end).

(** *** Searching, with the allocations of the arrays

    Search.v, in which these succeed and are not counted, says which chunks are
    found.  Whether an allocation succeeds depends on how many were made before. *)

(** form.c 194-207 IFF_mergeFormArray *)
Definition vmerge (target source : list chunk) : M (list chunk) :=
  let n := (List.length target + List.length source)%nat in
  ok <- malloc (Z.of_nat n * sizeof_pointer) ;;
  if ok then ret (target ++ source)
  else match n with O => ret [] | _ => undefined UB_null_deref end.

Section Searching.
  Variable search_chunk : chunk -> M (list chunk).

  (** group.c 252-268 IFF_searchFormsInGroup: the loop *)
  Fixpoint vsearch_all (l forms : list chunk) : M (list chunk) :=
    match l with
    | [] => ret forms
    | c :: r =>
        result <- search_chunk c ;;
        forms' <- vmerge forms result ;;
        vsearch_all r forms'
    end.

  Definition vsearchFormsInGroup (c : chunk) : M (list chunk) :=
    match c with
    | CGroup _ _ _ l | CList _ _ _ _ l => vsearch_all l []
    | _ => undefined UB_type_confusion
    end.

  (** form.c 209-229 IFF_searchFormsInForm *)
  Definition vsearchFormsInForm (formTypes : list Z) (c : chunk) : M (list chunk) :=
    match c with
    | CGroup _ _ g l | CList _ _ g _ l =>
        if existsb (fun formType => g =? formType) formTypes then
          ok <- malloc sizeof_pointer ;;
          if ok then ret [c] else undefined UB_null_deref
        else vsearch_all l []
    | _ => undefined UB_type_confusion
    end.
End Searching.

(** group.c 291-305 IFF_searchFormsFromArray *)
Fixpoint vsearchFormsFromArray (formTypes : list Z) (c : chunk) {struct c} : M (list chunk) :=
  if chunkId c =? IFF_ID_FORM then
    vsearchFormsInForm (vsearchFormsFromArray formTypes) formTypes c
  else if chunkId c =? IFF_ID_CAT then
    vsearchFormsInGroup (vsearchFormsFromArray formTypes) c
  else if chunkId c =? IFF_ID_LIST then
    vsearchFormsInGroup (vsearchFormsFromArray formTypes) c
  else ret [].

(** form.c 316-334 IFF_getChunksFromForm *)
Fixpoint vall_with_id (cid : Z) (l result : list chunk) : M (list chunk) :=
  match l with
  | [] => ret result
  | c :: r =>
      if chunkId c =? cid then
        ok <- malloc ((Z.of_nat (List.length result) + 1) * sizeof_pointer) ;;
        if ok then vall_with_id cid r (result ++ [c]) else undefined UB_null_deref
      else vall_with_id cid r result
  end.

Definition vgetChunksFromForm (form : chunk) (cid : Z) : M (list chunk) :=
  match as_group form with
  | None => undefined UB_type_confusion
  | Some (_, l) => vall_with_id cid l []
  end.

(** The chunk at [q] below the tree in [x], if there is one, and what to do with it *)
Definition at_place (v : vars) (x : nat) (q : path) (k : chunk -> chunk -> M (answer * vars)) : M (answer * vars) :=
  match v x with
  | None => ret (ANull, v)
  | Some c => match at_path c q with None => ret (ANull, v) | Some y => k c y end
  end.

Definition vexec (rg : option registry) (s : stmt) (v : vars) : M (answer * vars) :=
  match s with
  | SOpen l k => fun _ w => Done ((AOk, v), mkWorld (mkRfile l k) (w_out w) (w_log w) (w_allocs w))
  | SRead x => o <- IFF_readFd rg ;; ret (got o, set v x o)
  | SGroup x cid ty => o <- IFF_createEmptyGroup cid ty ;; ret (got o, set v x o)
  | SList x ty => o <- IFF_createEmptyListWithContentsType ty ;; ret (got o, set v x o)
  | SRaw x cid size => o <- IFF_createRawChunk cid size ;; ret (got o, set v x o)
  | SFields x sp cid size => o <- create_fields sp cid size ;; ret (got o, set v x o)
  | SSet x q n z => at_place v x q (fun c y =>
      match y with
      | CFields i s vals =>
          match assign n z vals with
          | Some vals' => ret (AOk, set v x (Some (replace_at c q (CFields i s vals'))))
          | None => ret (ANull, v)
          end
      | _ => undefined UB_type_confusion
      end)
  | SAdd x q y => at_place v x q (fun c g =>
      match v y with
      | None => ret (ANull, v)
      | Some d => g' <- IFF_addToGroup g d ;; ret (AOk, set (set v x (Some (replace_at c q g'))) y None)
      end)
  | SAddProp x q y => at_place v x q (fun c g =>
      match v y with
      | None => ret (ANull, v)
      | Some d => g' <- IFF_addPropToList g d ;; ret (AOk, set (set v x (Some (replace_at c q g'))) y None)
      end)
  | SAddCAT x q y => at_place v x q (fun c g =>
      match v y with
      | None => ret (ANull, v)
      | Some d => g' <- IFF_addToCATAndUpdateContentsType g d ;; ret (AOk, set (set v x (Some (replace_at c q g'))) y None)
      end)
  | SText x q t => at_place v x q (fun c y =>
      ok <- malloc (zlength t) ;;
      if ok then y' <- lift (IFF_setTextData y t) ;; ret (AOk, set v x (Some (replace_at c q y')))
      else undefined UB_null_deref)
  | SData x q t => at_place v x q (fun c y =>
      ok <- malloc (zlength t) ;;
      if ok then y' <- lift (IFF_setRawChunkData y t (zlength t)) ;; ret (AOk, set v x (Some (replace_at c q y')))
      else ret (ANull, v))
  | SCopy x q t => at_place v x q (fun c y =>
      e <- ask ;;
      y' <- lift (IFF_copyDataToRawChunkData e y t) ;; ret (AOk, set v x (Some (replace_at c q y'))))
  | SUpdate x q => at_place v x q (fun c _ =>
      o <- lift (IFF_updateChunkSizes c q) ;; ret (got o, set v x o))
  | SFind x q cid => at_place v x q (fun c y =>
      o <- lift (IFF_getChunkFromForm y (ancestors c q) cid) ;;
      ret (match o with Some d => sees d | None => ANull end, v))
  | SSearch x q types => at_place v x q (fun _ y => l <- vsearchFormsFromArray types y ;; ret (AAll (map sees l), v))
  | SChunks x q cid => at_place v x q (fun _ y => l <- vgetChunksFromForm y cid ;; ret (AAll (map sees l), v))
  | SLook x q => at_place v x q (fun _ y => ret (sees y, v))
  | SWrite x => match v x with None => ret (ANull, v) | Some c => b <- IFF_writeFd c rg ;; ret (ABool b, v) end
  | SCheck x => match v x with None => ret (ANull, v) | Some c => b <- IFF_check c rg ;; ret (ABool b, v) end
  | SPrint x level => match v x with None => ret (ANull, v) | Some c => t <- lift (IFF_print c level rg) ;; ret (AText t, v) end
  | SCompare x y =>
      match v x, v y with
      | Some c, Some d => e <- ask ;; b <- lift (IFF_compare e c d rg) ;; ret (ABool b, v)
      | _, _ => ret (ANull, v)
      end
  | SFree x => match v x with None => ret (ANull, v) | Some c => lift (IFF_free c rg) ;;; ret (AOk, set v x None) end
  end.

(** A whole program *)
Fixpoint vrun (rg : option registry) (p : list stmt) (v : vars) : M (list answer * vars) :=
  match p with
  | [] => ret ([], v)
  | s :: r => '(a, v1) <- vexec rg s v ;; '(l, v2) <- vrun rg r v1 ;; ret (a :: l, v2)
  end.

(** ** In memory *)

Definition pointers : Type := nat -> ptr.

(** Looking at the chunk at [a] *)
Definition hsees (a : addr) : H answer :=
  '(hd, b) <-h hchunk a ;;
  match b with
  | BRaw (Some d) =>
      o <-h hload d ;;
      match o with
      | OData _ l => hret (ASees (o_id hd) (o_size hd) (Some l) [])
      | _ => hundefined UB_type_confusion
      end
  | BRaw None => hundefined UB_null_deref
  | BFields vals => hret (ASees (o_id hd) (o_size hd) None vals)
  | _ => hret (ASees (o_id hd) (o_size hd) None [])
  end.

(** Looking at the [n] chunks of the array [arr], and releasing the array *)
Fixpoint hsees_all (l : list addr) : H (list answer) :=
  match l with
  | [] => hret []
  | a :: r => s <-h hsees a ;; t <-h hsees_all r ;; hret (s :: t)
  end.
Definition htake (r : ptr * nat) : H answer :=
  l <-h helements (fst r) (snd r) ;;
  t <-h hsees_all l ;;
  hfree (fst r) ;;h
  hret (AAll t).

(** Walking down from [a]: the members' arrays are read, the lengths checked *)
Fixpoint hfollow (q : path) (a : addr) : H ptr :=
  match q with
  | [] => hret (Some a)
  | s :: r =>
      '(_, b) <-h hchunk a ;;
      match s, b with
      | InSub n, BGroup _ m arr | InSub n, BList _ m arr _ _ | InProp n, BList _ _ _ m arr =>
          if Nat.ltb n m then
            l <-h helements arr m ;;
            match nth_error l n with Some c => hfollow r c | None => hret None end
          else hret None
      | _, _ => hret None
      end
  end.

Definition hat_place (v : pointers) (x : nat) (q : path) (k : addr -> H (answer * pointers)) : H (answer * pointers) :=
  match v x with
  | None => hret (ANull, v)
  | Some a => p <-h hfollow q a ;; match p with None => hret (ANull, v) | Some b => k b end
  end.

Definition hexec (rg : option registry) (s : stmt) (v : pointers) : H (answer * pointers) :=
  match s with
  | SOpen l k => fun _ w h => Done ((AOk, v), mkWorld (mkRfile l k) (w_out w) (w_log w) (w_allocs w), h)
  | SRead x => p <-h hIFF_readFd rg ;; hret (got p, set v x p)
  | SGroup x cid ty => p <-h hcreateEmptyGroup cid ty ;; hret (got p, set v x p)
  | SList x ty => p <-h hcreateList IFF_ID_SIZE ty ;; hret (got p, set v x p)
  | SRaw x cid size => p <-h hcreateRawChunk cid size ;; hret (got p, set v x p)
  | SFields x sp cid size => p <-h hcreate_fields sp cid size ;; hret (got p, set v x p)
  | SSet x q n z => hat_place v x q (fun c =>
      '(hd, b) <-h hchunk c ;;
      match b with
      | BFields vals =>
          match assign n z vals with
          | Some vals' => hstore c (OChunk hd (BFields vals')) ;;h hret (AOk, v)
          | None => hret (ANull, v)
          end
      | _ => hundefined UB_type_confusion
      end)
  | SAdd x q y => hat_place v x q (fun g =>
      match v y with
      | None => hret (ANull, v)
      | Some d => haddToGroup g d ;;h hret (AOk, set v y None)
      end)
  | SAddProp x q y => hat_place v x q (fun g =>
      match v y with
      | None => hret (ANull, v)
      | Some d => haddPropToList g d ;;h hret (AOk, set v y None)
      end)
  | SAddCAT x q y => hat_place v x q (fun g =>
      match v y with
      | None => hret (ANull, v)
      | Some d => haddToCATAndUpdateContentsType g d ;;h hret (AOk, set v y None)
      end)
  | SText x q t => hat_place v x q (fun c => hsetTextData c t ;;h hret (AOk, v))
  | SData x q t => hat_place v x q (fun c =>
      p <-h hmalloc (zlength t) (OData (zlength t) (Some t)) ;;
      match p with
      | None => hret (ANull, v)
      | Some d => hsetRawChunkData c (Some d) (zlength t) ;;h hret (AOk, v)
      end)
  | SCopy x q t => hat_place v x q (fun c => hcopyData c t ;;h hret (AOk, v))
  | SUpdate x q => hat_place v x q (fun c => hIFF_updateChunkSizes c ;;h hret (AOk, v))
  | SFind x q cid => hat_place v x q (fun c =>
      p <-h hIFF_getChunkFromForm c cid ;;
      match p with None => hret (ANull, v) | Some d => a <-h hsees d ;; hret (a, v) end)
  | SSearch x q types => hat_place v x q (fun c => r <-h hIFF_searchFormsFromArray c types ;; a <-h htake r ;; hret (a, v))
  | SChunks x q cid => hat_place v x q (fun c => r <-h hIFF_getChunksFromForm c cid ;; a <-h htake r ;; hret (a, v))
  | SLook x q => hat_place v x q (fun c => a <-h hsees c ;; hret (a, v))
  | SWrite x => match v x with None => hret (ANull, v) | Some c => b <-h hIFF_writeFd c rg ;; hret (ABool b, v) end
  | SCheck x => match v x with None => hret (ANull, v) | Some c => b <-h hIFF_check c rg ;; hret (ABool b, v) end
  | SPrint x level => match v x with None => hret (ANull, v) | Some c => t <-h hIFF_print c level rg ;; hret (AText t, v) end
  | SCompare x y =>
      match v x, v y with
      | Some c, Some d => b <-h hIFF_compare c d rg ;; hret (ABool b, v)
      | _, _ => hret (ANull, v)
      end
  | SFree x => match v x with None => hret (ANull, v) | Some c => hIFF_free c rg ;;h hret (AOk, set v x None) end
  end.

Fixpoint hrun (rg : option registry) (p : list stmt) (v : pointers) : H (list answer * pointers) :=
  match p with
  | [] => hret ([], v)
  | s :: r => '(a, v1) <-h hexec rg s v ;; '(l, v2) <-h hrun rg r v1 ;; hret (a :: l, v2)
  end.

(** The variable that holds [p] in memory [h] shows the tree [o]. *)
Definition holds (h : heap) (p : ptr) (o : option chunk) : Prop :=
  match p, o with
  | Some a, Some c => exists F, tree_at h c None a F /\ NoDup F
  | None, None => True
  | _, _ => False
  end.

(** Nothing is shared between two variables, and what was in memory before is
    left as it was. *)
Definition apart (h : heap) (a b : ptr) : Prop :=
  forall x y u, a = Some x -> b = Some y -> Owns h x u -> ~ Owns h y u.
Definition preserves (h h' : heap) : Prop := forall u, lookup h u <> None -> lookup h' u = lookup h u.

Definition nothing {A} : nat -> option A := fun _ => None.

(** ** Several programs that take turns

    Every program has variables, streams, an error log, a registry and an
    environment (which of its allocations fail, for instance) of its own; they
    share the memory.  A
    schedule says whose statement is executed next.  Simplification: a statement
    is executed as a whole, calls do not overlap in time (ThreadSpec.v does without
    this); and which allocations fail does not depend on the schedule. *)
Definition schedule : Type := list (nat * stmt).

Record machine := mkMachine { m_heap : heap; m_world : nat -> world; m_vars : nat -> pointers }.

Fixpoint take_turns (R : nat -> option registry) (E : nat -> env) (sch : schedule) (m : machine) : outcome (list (nat * answer) * machine) :=
  match sch with
  | [] => Done ([], m)
  | (t, s) :: r =>
      match hexec (R t) s (m_vars m t) (E t) (m_world m t) (m_heap m) with
      | Done ((a, v), w, h) =>
          match take_turns R E r (mkMachine h (set (m_world m) t w) (set (m_vars m) t v)) with
          | Done (l, m') => Done ((t, a) :: l, m')
          | Undefined u => Undefined u
          | OutOfFuel => OutOfFuel
          end
      | Undefined u => Undefined u
      | OutOfFuel => OutOfFuel
      end
  end.

(** What belongs to program [t]: its statements, its answers *)
Definition mine {A} (t : nat) (l : list (nat * A)) : list A :=
  map snd (filter (fun x => Nat.eqb (fst x) t) l).
