(** * Calls that overlap in time (definitions only)

    In Heap.v a call is executed as a whole.  Here it is taken apart into the
    single accesses to memory it consists of, so that several threads can be
    anywhere inside a call at the same time. *)

From Coq Require Import ZArith List Bool String.
From Coq Require Import Strings.Byte.
From Verif Require Import Machine Io Types Build Iff Spec Heap HeapSpec SessionSpec.
Import ListNotations.
Open Scope Z_scope.

(** ** What a thread does, access by access *)

Inductive task (A : Type) : Type :=
| TRet (a : A)                                          (* finished *)
| TUndefined (u : ub)
| TNoFuel
| TIo {B : Type} (m : M B) (k : B -> task A)            (* its own streams and error log; may memory be had? *)
| TLoad (a : addr) (k : object -> task A)               (* read the block at [a] *)
| TStore (a : addr) (o : object) (k : task A)           (* write the block at [a] *)
| TFree (a : addr) (k : task A)                         (* release the block at [a] *)
| TPlace (o : object) (k : addr -> task A)              (* a new block, wherever the allocator puts it *)
| TSize (k : nat -> task A).                            (* how large memory is: the bound on the nesting of calls,
                                                           which is a device of the model *)
Arguments TRet {A}. Arguments TUndefined {A}. Arguments TNoFuel {A}. Arguments TIo {A B}. Arguments TLoad {A}.
Arguments TStore {A}. Arguments TFree {A}. Arguments TPlace {A}. Arguments TSize {A}.

(** The accesses one after the other, with nothing in between *)
Fixpoint perform {A} (t : task A) : H A :=
  match t with
  | TRet a => hret a
  | TUndefined u => hundefined u
  | TNoFuel => hnofuel
  | TIo m k => x <-h io m ;; perform (k x)
  | TLoad a k => o <-h hload a ;; perform (k o)
  | TStore a o k => hstore a o ;;h perform k
  | TFree a k => hfree (Some a) ;;h perform k
  | TPlace o k => fun e w h => perform (k (address e w h)) e w (fill h (address e w h) o)
  | TSize k => fun e w h => perform (k (List.length h)) e w h
  end.

(** A call of Heap.v, HeapPass.v, ... and a way to take it apart *)
Definition takes_apart {A} (t : task A) (m : H A) : Prop := forall e w h, perform t e w h = m e w h.

(** ** Several threads

    Memory is shared and of a fixed size; blocks are read and written one at a
    time, in some order (sequential consistency: C92_races shows that no block is
    ever accessed by two threads, so the order does not matter).  Every thread
    has streams, an error log and an environment of its own; the environment
    says where its next block is put.  That may be anywhere, but only where
    there is no block: until then the thread waits. *)

Record threads (A : Type) := mkThreads { th_heap : heap; th_task : nat -> task A; th_world : nat -> world }.
Arguments mkThreads {A}. Arguments th_heap {A}. Arguments th_task {A}. Arguments th_world {A}.

Definition goes_on {A} (s : threads A) (t : nat) (h : heap) (k : task A) (w : world) : threads A :=
  mkThreads h (set (th_task s) t k) (set (th_world s) t w).

(** The next access of thread [t] *)
Definition access {A} (E : nat -> env) (t : nat) (s : threads A) : outcome (threads A) :=
  let h := th_heap s in
  let w := th_world s t in
  match th_task s t with
  | TRet _ => Done s
  | TUndefined u => Undefined u
  | TNoFuel => OutOfFuel
  | TIo m k =>
      match m (E t) w with
      | Done (x, w') => Done (goes_on s t h (k x) w')
      | Undefined u => Undefined u
      | OutOfFuel => OutOfFuel
      end
  | TLoad a k => match lookup h a with Some o => Done (goes_on s t h (k o) w) | None => Undefined UB_dangling end
  | TStore a o k => match lookup h a with Some _ => Done (goes_on s t (store h a o) k w) | None => Undefined UB_dangling end
  | TFree a k => match lookup h a with Some _ => Done (goes_on s t (release h a) k w) | None => Undefined UB_invalid_free end
  | TPlace o k =>
      let a := place (E t) (w_allocs w) in
      match nth_error h a with
      | Some None => Done (goes_on s t (store h a o) (k a) w)
      | _ => Done s
      end
  | TSize k => Done (goes_on s t h (k (List.length h)) w)
  end.

(** A schedule says whose access comes next. *)
Fixpoint overlap {A} (E : nat -> env) (sch : list nat) (s : threads A) : outcome (threads A) :=
  match sch with
  | [] => Done s
  | t :: r =>
      match access E t s with
      | Done s' => overlap E r s'
      | Undefined u => Undefined u
      | OutOfFuel => OutOfFuel
      end
  end.

(** The block a thread is about to read, write or release *)
Definition next_block {A} (k : task A) : ptr :=
  match k with
  | TLoad a _ | TStore a _ _ | TFree a _ => Some a
  | _ => None
  end.

(** A thread waits for the place of its next block. *)
Definition waits {A} (E : nat -> env) (s : threads A) (t : nat) : Prop :=
  match th_task s t with
  | TPlace _ _ => lookup (th_heap s) (place (E t) (w_allocs (th_world s t))) <> None
                  \/ (List.length (th_heap s) <= place (E t) (w_allocs (th_world s t)))%nat
  | _ => False
  end.

(** ** Threads that look at the same trees *)

(** Statements that only look at the variables they mention *)
Definition looks (s : stmt) : Prop :=
  match s with
  | SFind _ _ _ | SSearch _ _ _ | SChunks _ _ _ | SLook _ _ | SWrite _ | SCheck _ | SPrint _ _ | SCompare _ _ => True
  | _ => False
  end.

(** Alone, from memory [h] on, the task neither writes nor releases a block of [S]. *)
Fixpoint spares {A} (S : addr -> Prop) (t : task A) (e : env) (w : world) (h : heap) : Prop :=
  match t with
  | TRet _ | TUndefined _ | TNoFuel => True
  | TIo m k => match m e w with Done (x, w') => spares S (k x) e w' h | _ => True end
  | TLoad a k => match lookup h a with Some o => spares S (k o) e w h | None => True end
  | TStore a o k => ~ S a /\ match lookup h a with Some _ => spares S k e w (store h a o) | None => True end
  | TFree a k => ~ S a /\ match lookup h a with Some _ => spares S k e w (release h a) | None => True end
  | TPlace o k => spares S (k (address e w h)) e w (fill h (address e w h) o)
  | TSize k => spares S (k (List.length h)) e w h
  end.

(** The blocks of memory [h] *)
Definition blocks_of (h : heap) (u : addr) : Prop := lookup h u <> None.

(** The block a thread is about to write or release *)
Definition next_change {A} (k : task A) : ptr :=
  match k with
  | TStore a _ _ | TFree a _ => Some a
  | _ => None
  end.
