(** * What saving a file that was read does to it (definitions only) *)

From Coq Require Import ZArith List Bool String.
From Coq Require Import Strings.Byte.
From Verif Require Import Machine Types Spec.
Import ListNotations.
Open Scope Z_scope.

(** A member of a LIST: its ID, and its bytes before and after *)
Definition member : Type := (Z * list byte * list byte)%type.
Definition m_id (m : member) : Z := fst (fst m).
Definition m_old (m : member) : list byte := snd (fst m).
Definition m_new (m : member) : list byte := snd m.
Definition m_prop (m : member) : bool := m_id m =? PROP_ID.

(** [Tidied old new]: the bytes [new] are the bytes [old] of a chunk, but pad bytes
    are zero and the PROPs of every LIST stand in front of its other members; both
    kinds keep their order. *)
Inductive Tidied : list byte -> list byte -> Prop :=
| Td_data : forall i data p,
    in_range FId i -> ~ In i group_ids -> zlength p = zlength data mod 2 ->
    Tidied (be32 i ++ be32 (zlength data) ++ data ++ p) (be32 i ++ be32 (zlength data) ++ data ++ repeat x00 (List.length p))
| Td_group : forall i g olds news,
    In i [FORM_ID; CAT_ID; PROP_ID] -> Forall2 Tidied olds news ->
    Tidied (be32 i ++ be32 (4 + zlength (List.concat olds)) ++ be32 g ++ List.concat olds)
           (be32 i ++ be32 (4 + zlength (List.concat olds)) ++ be32 g ++ List.concat news)
| Td_list : forall g members,
    Forall (fun m => in_range FId (m_id m) /\ StartsWith (m_id m) (m_old m) /\ Tidied (m_old m) (m_new m)) members ->
    Tidied (be32 LIST_ID ++ be32 (4 + zlength (List.concat (map m_old members))) ++ be32 g ++ List.concat (map m_old members))
           (be32 LIST_ID ++ be32 (4 + zlength (List.concat (map m_old members))) ++ be32 g
              ++ List.concat (map m_new (filter m_prop members)) ++ List.concat (map m_new (filter (fun m => negb (m_prop m)) members))).
