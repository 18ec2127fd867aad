(** * The grammar of files the reader accepts (specification only).

    [Parsed e app ft l c lg]: the bytes [l], met where a member of a group of
    type [ft] is expected, are read as the chunk [c], with the diagnostics [lg]
    (newest first).  Nothing here mentions the reader; ReadProofs.v shows that
    the reader decides exactly this relation.

    The grammar is more liberal than the standard: pad bytes may be anything, a
    group may be larger than its members suggest ("truncated"), and declared
    sizes are C ints whose running sum is computed with wrap-around. *)

From Coq Require Import ZArith List Bool String.
From Coq Require Import Strings.Byte.
From Verif Require Import Machine Types Spec.
Import ListNotations.
Open Scope Z_scope.

(** ** Diagnostics *)

Definition id_text (id : Z) : list string :=
  [chr id; chr (id / 2 ^ 8); chr (id / 2 ^ 16); chr (id / 2 ^ 24)].

Definition pad_warning (p : list byte) : list string :=
  match p with
  | [b] => if b2z b =? 0 then [] else [("WARNING: Padding byte is non-zero!" ++ nl)%string]
  | _ => []
  end.

Definition size_warning (e : env) (what : string) (size total : Z) : list string :=
  if size <? total then
    [("WARNING: truncated " ++ what ++ " chunk! The size specifies: " ++ dec size
      ++ " but the total amount of its sub chunks is: " ++ dec (garbage e)
      ++ " bytes. The parser may get confused!" ++ nl)%string]
  else [].

Definition skip_warning (id n : Z) : list string :=
  if 0 <? n then
    ("'" ++ nl)%string :: id_text id
    ++ [("Cannot skip: " ++ dec n ++ " bytes in data chunk: '")%string]
  else [].

(** ** Running totals *)

(** The position after a member of declared size [s], when the members before
    it account for [bp] bytes.  [None]: the C addition overflows. *)
Definition advance (bp s : Z) : option Z :=
  if INT_MAX <? bp + 4 then None
  else
    let t := wrap_s 32 (bp + 8 + s) in
    if Z.odd s then (if t =? INT_MAX then None else Some (t + 1)) else Some t.

(** ** Fields of an application chunk present in a chunk of [size] bytes, from
    position [bp]: those that fit; a field wider than the whole chunk is always
    taken to be present. *)
Fixpoint present (size bp : Z) (vals : list (fkind * Z)) : list (fkind * Z) :=
  match vals with
  | [] => []
  | (k, v) :: r =>
      if (size <? fieldSize k) || (bp + fieldSize k <=? size)
      then (k, v) :: present size (bp + fieldSize k) r
      else []
  end.

(** Fields that are absent have the value 0. *)
Definition absent_zero (size : Z) (vals : list (fkind * Z)) : Prop :=
  forall n kv, nth_error vals n = Some kv ->
    (List.length (present size 0 vals) <= n)%nat -> snd kv = 0.

Definition is_prop (c : chunk) : bool := chunkId c =? PROP_ID.

(** ** The grammar *)

Inductive Parsed (e : env) (app : apps) : Z -> list byte -> chunk -> list string -> Prop :=
| P_raw : forall ft i data p,
    in_range FId i -> ~ In i group_ids -> app ft i = None ->
    zlength data <= INT_MAX -> zlength p = zlength data mod 2 ->
    Parsed e app ft (be32 i ++ be32 (zlength data) ++ data ++ p)
      (CRaw i (zlength data) (Some data)) (pad_warning p)
| P_fields : forall ft i s spec vals skipped p,
    in_range FId i -> ~ In i group_ids -> app ft i = Some spec -> in_range FLong s ->
    kinds_match spec vals -> Forall (fun kv => in_range (fst kv) (snd kv)) vals ->
    absent_zero s vals ->
    zlength skipped = Z.max 0 (s - zlength (fields_bytes (present s 0 vals))) ->
    zlength p = s mod 2 ->
    Parsed e app ft (be32 i ++ be32 s ++ fields_bytes (present s 0 vals) ++ skipped ++ p)
      (CFields i s vals) (pad_warning p ++ skip_warning i (zlength skipped))
| P_group : forall ft i s g l subs p lg total,
    In i [FORM_ID; CAT_ID; PROP_ID] -> in_range FLong s -> in_range FId g ->
    Members e app g 4 s l subs lg total -> zlength p = s mod 2 ->
    Parsed e app ft (be32 i ++ be32 s ++ be32 g ++ l ++ p)
      (CGroup i s g subs) (pad_warning p ++ size_warning e "group" s total ++ lg)
| P_list : forall ft s g l members p lg total,
    in_range FLong s -> in_range FId g ->
    Members e app g 4 s l members lg total -> zlength p = s mod 2 ->
    Parsed e app ft (be32 LIST_ID ++ be32 s ++ be32 g ++ l ++ p)
      (CList LIST_ID s g (filter is_prop members) (filter (fun c => negb (is_prop c)) members))
      (pad_warning p ++ size_warning e "LIST" s total ++ lg)
(** [Members e app g bp s l cs lg total]: from position [bp] of a group of
    declared size [s], the bytes [l] are the members [cs] and bring the position
    to [total]. *)
with Members (e : env) (app : apps) : Z -> Z -> Z -> list byte -> list chunk -> list string -> Z -> Prop :=
| M_end : forall g bp s, s <= bp -> Members e app g bp s [] [] [] bp
| M_next : forall g bp s l c lg bp' l2 cs lg2 total,
    bp < s -> Parsed e app g l c lg -> advance bp (chunkSize c) = Some bp' ->
    Members e app g bp' s l2 cs lg2 total ->
    Members e app g bp s (l ++ l2) (c :: cs) (lg2 ++ lg) total.

Scheme Parsed_mut := Minimality for Parsed Sort Prop
  with Members_mut := Minimality for Members Sort Prop.
Combined Scheme Parsed_Members_ind from Parsed_mut, Members_mut.

(** Application layouts of sensible size: at most 2^28 fields per chunk. *)
Definition SaneApps (app : apps) : Prop :=
  forall ft i spec, app ft i = Some spec -> zlength (fs_fields spec) <= 2 ^ 28.

(** Inputs that nowhere contain the ID of a group (or of an application chunk)
    directly followed by a negative size. *)
Definition Benign (app : apps) (l : list byte) : Prop :=
  forall pre i s post, l = pre ++ be32 i ++ be32 s ++ post ->
    in_range FId i -> in_range FLong s ->
    In i group_ids \/ (exists ft spec, app ft i = Some spec) -> 0 <= s.
