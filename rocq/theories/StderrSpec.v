(** * What threads print on the same standard error (definitions only)

    error.c 23-28: unless the application installs a callback of its own, every
    thread prints its diagnostics on the one standard error of the process.  A
    call of IFF_error (error.c 32-39) is one vfprintf, which no other thread can
    interrupt; but a diagnostic consists of several of them (error.c 41-64). *)

From Coq Require Import ZArith List Bool String.
From Verif Require Import Machine Heap SessionSpec ThreadSpec.
Import ListNotations.
Open Scope Z_scope.

(** The access prints nothing, or prints by one call of IFF_error. *)
Definition at_most_one {B} (m : M B) : Prop :=
  forall e w x w', m e w = Done (x, w') -> w_log w' = w_log w \/ exists s, w_log w' = s :: w_log w.

(** Every access of the task does. *)
Fixpoint one_by_one {A} (t : task A) : Prop :=
  match t with
  | TRet _ | TUndefined _ | TNoFuel => True
  | TIo m k => at_most_one m /\ forall x, one_by_one (k x)
  | TLoad _ k => forall o, one_by_one (k o)
  | TStore _ _ k | TFree _ k => one_by_one k
  | TPlace _ k => forall a, one_by_one (k a)
  | TSize k => forall n, one_by_one (k n)
  end.

(** What was printed between [w] and [w'], the oldest first *)
Definition printed (w w' : world) : list string :=
  rev (firstn (List.length (w_log w') - List.length (w_log w)) (w_log w')).

(** Standard error during a schedule: who printed what, in the order in which it
    was printed *)
Fixpoint stderr {A} (E : nat -> env) (sch : list nat) (s : threads A) : list (nat * string) :=
  match sch with
  | [] => []
  | t :: r =>
      match access E t s with
      | Done s' => map (pair t) (printed (th_world s t) (th_world s' t)) ++ stderr E r s'
      | _ => []
      end
  end.

(** What thread [t] printed of it *)
Definition said_by (t : nat) (l : list (nat * string)) : list string :=
  map snd (filter (fun x => Nat.eqb (fst x) t) l).

(** All the text *)
Definition text_of (l : list string) : string := fold_right append EmptyString l.

(** Its lines *)
Fixpoint lines_from (line text : string) : list string :=
  match text with
  | EmptyString => if String.eqb line EmptyString then [] else [line]
  | String c r => if Ascii.eqb c (Ascii.ascii_of_nat 10) then line :: lines_from EmptyString r else lines_from (line ++ String c EmptyString) r
  end.
Definition lines_of (text : string) : list string := lines_from EmptyString text.
