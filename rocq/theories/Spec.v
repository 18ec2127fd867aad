(** * Independent specification of the IFF format and of the library's claims.

    Nothing here mentions the state monad or the C functions: only integers,
    bytes, lists and the chunk tree. *)

From Coq Require Import ZArith List Bool String.
From Coq Require Import Strings.Byte.
From Verif Require Import Machine Types.
Import ListNotations.
Open Scope Z_scope.

(** ** Identifiers *)

Definition id4 (a b c d : Z) : Z := a * 2 ^ 24 + b * 2 ^ 16 + c * 2 ^ 8 + d.

Definition ID_of (s : string) : Z :=
  match map b2z (list_byte_of_string s) with
  | [a; b; c; d] => id4 a b c d
  | _ => -1
  end.

Definition FORM_ID : Z := ID_of "FORM".
Definition CAT_ID : Z := ID_of "CAT ".
Definition LIST_ID : Z := ID_of "LIST".
Definition PROP_ID : Z := ID_of "PROP".
Definition JJJJ_ID : Z := ID_of "JJJJ".
Definition TEXT_ID : Z := ID_of "TEXT".

Definition group_ids : list Z := [FORM_ID; CAT_ID; LIST_ID; PROP_ID].

(** IDs are four characters in 0x20..0x7e not starting with a space. *)
Definition ValidId (i : Z) : Prop :=
  exists a b c d, i = id4 a b c d /\
    (forall x, In x [a; b; c; d] -> 0x20 <= x <= 0x7e) /\ a <> 0x20.

Definition digits19 : list Z := [49; 50; 51; 52; 53; 54; 55; 56; 57]. (* '1'..'9' *)

(** The universally reserved IDs: FORM LIST CAT PROP JJJJ and FOR1..9, LIS1..9, CAT1..9 *)
Definition reserved_ids : list Z :=
  group_ids ++ [JJJJ_ID]
  ++ map (id4 70 79 82) digits19 ++ map (id4 76 73 83) digits19 ++ map (id4 67 65 84) digits19.

(** FORM types: valid IDs without lower case letters or full stops, not reserved. *)
Definition ValidFormType (i : Z) : Prop :=
  ValidId i /\
  (forall a b c d, i = id4 a b c d -> (forall x, In x [a; b; c; d] -> 0 <= x < 256) ->
     forall x, In x [a; b; c; d] -> ~ (97 <= x <= 122) /\ x <> 46) /\
  ~ In i reserved_ids.

(** ** Integers on the wire *)

Definition be16 (v : Z) : list byte := [z2b (v / 2 ^ 8); z2b v].
Definition be32 (v : Z) : list byte :=
  [z2b (v / 2 ^ 24); z2b (v / 2 ^ 16); z2b (v / 2 ^ 8); z2b v].

Definition be_field (k : fkind) (v : Z) : list byte :=
  match k with
  | FUByte => [z2b v]
  | FUWord | FWord => be16 v
  | FULong | FLong | FId => be32 v
  end.

Definition in_range (k : fkind) (v : Z) : Prop :=
  match k with
  | FUByte => 0 <= v < 2 ^ 8
  | FUWord => 0 <= v < 2 ^ 16
  | FWord => - 2 ^ 15 <= v < 2 ^ 15
  | FULong | FId => 0 <= v < 2 ^ 32
  | FLong => - 2 ^ 31 <= v < 2 ^ 31
  end.

(** The number a byte string denotes, most significant byte first. *)
Definition be_value (l : list byte) : Z := fold_left (fun acc b => 256 * acc + b2z b) l 0.

(** [l] is the big-endian two's-complement form of [v] in the type [k]. *)
Definition Wire (k : fkind) (v : Z) (l : list byte) : Prop :=
  in_range k v /\ zlength l = fieldSize k /\ be_value l = v mod 2 ^ (8 * fieldSize k).

(** ** The encoding of a chunk: id, size, body, pad *)

(** The fields of an application chunk that fit in [size] bytes. *)
Fixpoint fitting (size : Z) (vals : list (fkind * Z)) : list (fkind * Z) :=
  match vals with
  | [] => []
  | (k, v) :: r => if fieldSize k <=? size then (k, v) :: fitting (size - fieldSize k) r else []
  end.

Definition fields_bytes (vals : list (fkind * Z)) : list byte :=
  flat_map (fun kv => be_field (fst kv) (snd kv)) vals.

(** Known fields, then zero bytes up to the declared size. *)
Definition fields_body (size : Z) (vals : list (fkind * Z)) : list byte :=
  let l := fields_bytes (fitting size vals) in
  l ++ repeat x00 (Z.to_nat (size - zlength l)).

Definition pad (body : list byte) : list byte :=
  if Z.odd (zlength body) then [x00] else [].

Definition frame (id size : Z) (body : list byte) : list byte :=
  be32 id ++ be32 size ++ body ++ pad body.

Definition data_of (d : option (list byte)) : list byte := match d with Some l => l | None => [] end.

Fixpoint encode (c : chunk) : list byte :=
  match c with
  | CRaw i s d => frame i s (data_of d)
  | CGroup i s g subs => frame i s (be32 g ++ flat_map encode subs)
  | CList i s g props subs => frame i s (be32 g ++ flat_map encode props ++ flat_map encode subs)
  | CFields i s vals => frame i s (fields_body s vals)
  end.

(** ** Application chunks

    [app] says which data chunk IDs have an application-defined field layout
    in which group type; all other non-group chunks are raw data. *)
Definition apps := Z -> Z -> option fspec.
Definition no_apps : apps := fun _ _ => None.

Definition expected_handler (app : apps) (formType cid : Z) : handler :=
  if cid =? FORM_ID then HForm
  else if cid =? CAT_ID then HCAT
  else if cid =? LIST_ID then HList
  else if cid =? PROP_ID then HProp
  else match app formType cid with Some s => HFields s | None => HRaw end.

(** A registry realises [app] when it dispatches accordingly. *)
Definition Realises (rg : option registry) (app : apps) : Prop :=
  forall ft cid, find_handler rg ft cid = Done (expected_handler app ft cid).

(** ** Well-formed trees: structures, sizes and data agree *)

Definition kinds_match (s : fspec) (vals : list (fkind * Z)) : Prop :=
  map fst vals = map fd_kind (fs_fields s).

(** Fields beyond the declared size have their initial value 0. *)
Definition rest_zero (size : Z) (vals : list (fkind * Z)) : Prop :=
  forall n kv, nth_error vals n = Some kv ->
    (List.length (fitting size vals) <= n)%nat -> snd kv = 0.

Inductive WF (app : apps) : Z -> chunk -> Prop :=
| WF_raw : forall ft i l,
    in_range FId i -> ~ In i group_ids -> app ft i = None ->
    zlength l <= INT_MAX ->
    WF app ft (CRaw i (zlength l) (Some l))
| WF_fields : forall ft i s spec vals,
    in_range FId i -> ~ In i group_ids -> app ft i = Some spec ->
    kinds_match spec vals ->
    Forall (fun kv => in_range (fst kv) (snd kv)) vals ->
    Forall (fun kv => fieldSize (fst kv) <= s) vals ->
    rest_zero s vals ->
    0 <= s <= INT_MAX ->
    WF app ft (CFields i s vals)
| WF_group : forall ft i s g subs,
    In i [FORM_ID; CAT_ID; PROP_ID] -> in_range FId g ->
    (forall c, In c subs -> WF app g c) ->
    s = 4 + zlength (flat_map encode subs) -> s <= INT_MAX ->
    WF app ft (CGroup i s g subs)
| WF_list : forall ft s g props subs,
    in_range FId g ->
    (forall c, In c props -> WF app g c /\ chunkId c = PROP_ID) ->
    (forall c, In c subs -> WF app g c /\ chunkId c <> PROP_ID) ->
    s = 4 + zlength (flat_map encode props) + zlength (flat_map encode subs) -> s <= INT_MAX ->
    WF app ft (CList LIST_ID s g props subs).

(** ** Chunks in a tree *)

Inductive InTree (x : chunk) : chunk -> Prop :=
| In_here : InTree x x
| In_group : forall i s g subs c, In c subs -> InTree x c -> InTree x (CGroup i s g subs)
| In_list_prop : forall i s g props subs c, In c props -> InTree x c -> InTree x (CList i s g props subs)
| In_list_sub : forall i s g props subs c, In c subs -> InTree x c -> InTree x (CList i s g props subs).

(** How deep chunks are nested: 1 for a chunk without sub chunks. *)
Fixpoint nesting (c : chunk) : nat :=
  match c with
  | CRaw _ _ _ | CFields _ _ _ => 1
  | CGroup _ _ _ subs => S (list_max (map nesting subs))
  | CList _ _ _ props subs => S (Nat.max (list_max (map nesting props)) (list_max (map nesting subs)))
  end.

(** No application chunk is longer than its fields. *)
Definition Covered (c : chunk) : Prop :=
  forall i s vals, InTree (CFields i s vals) c -> s <= zlength (fields_bytes (fitting s vals)).

(** ** Encodings with any pad bytes, and any bytes behind the known fields of
    an application chunk *)
Inductive Encoding : chunk -> list byte -> Prop :=
| En_raw : forall i s d p,
    zlength p = s mod 2 ->
    Encoding (CRaw i s d) (be32 i ++ be32 s ++ data_of d ++ p)
| En_fields : forall i s vals extra p,
    zlength extra = Z.max 0 (s - zlength (fields_bytes (fitting s vals))) -> zlength p = s mod 2 ->
    Encoding (CFields i s vals) (be32 i ++ be32 s ++ fields_bytes (fitting s vals) ++ extra ++ p)
| En_group : forall i s g subs ls p,
    Forall2 Encoding subs ls -> zlength p = s mod 2 ->
    Encoding (CGroup i s g subs) (be32 i ++ be32 s ++ be32 g ++ List.concat ls ++ p)
| En_list : forall i s g props subs lp ls p,
    Forall2 Encoding props lp -> Forall2 Encoding subs ls -> zlength p = s mod 2 ->
    Encoding (CList i s g props subs) (be32 i ++ be32 s ++ be32 g ++ List.concat lp ++ List.concat ls ++ p).

(** ** Well-typed trees: every struct has the type its ID (and, for data
    chunks, the application) requires.  Sizes and data are not looked at. *)
Inductive Typed (app : apps) : Z -> chunk -> Prop :=
| Ty_raw : forall ft i s d,
    ~ In i group_ids -> app ft i = None -> Typed app ft (CRaw i s d)
| Ty_fields : forall ft i s spec vals,
    ~ In i group_ids -> app ft i = Some spec -> kinds_match spec vals ->
    Typed app ft (CFields i s vals)
| Ty_group : forall ft i s g subs,
    In i [FORM_ID; CAT_ID; PROP_ID] -> (forall c, In c subs -> Typed app g c) ->
    Typed app ft (CGroup i s g subs)
| Ty_list : forall ft s g props subs,
    (forall c, In c props -> Typed app g c /\ chunkId c = PROP_ID) ->
    (forall c, In c subs -> Typed app g c) ->
    Typed app ft (CList LIST_ID s g props subs).

(** ** Sizes *)

Definition round_even (n : Z) : Z := n + n mod 2.

(** Encoded size of a chunk with a body of [n] bytes: header, body, pad. *)
Definition physical (n : Z) : Z := 8 + round_even n.

Definition sum (l : list Z) : Z := fold_right Z.add 0 l.

(** What the members of a group add to its size. *)
Definition body_size (subs : list chunk) : Z := sum (map (fun c => physical (chunkSize c)) subs).

(** ** What is written for a tree whose sizes need not be consistent

    The declared sizes rule: a body shorter than declared is filled with zero
    bytes, a longer one is written in full. *)

Definition zeros (n : Z) : list byte := repeat x00 (Z.to_nat n).
Definition pad_for (size : Z) : list byte := if Z.odd size then [x00] else [].
Fixpoint emitted (c : chunk) : list byte :=
  match c with
  | CRaw i s d => be32 i ++ be32 s ++ ztake s (data_of d) ++ pad_for s
  | CGroup i s g subs =>
      be32 i ++ be32 s ++ (be32 g ++ flat_map emitted subs)
      ++ zeros (s - (4 + body_size subs)) ++ pad_for s
  | CList i s g props subs =>
      be32 i ++ be32 s ++ (be32 g ++ flat_map emitted props ++ flat_map emitted subs)
      ++ zeros (s - (4 + body_size props + body_size subs)) ++ pad_for s
  | CFields i s vals => be32 i ++ be32 s ++ fields_body s vals ++ pad_for s
  end.

(** Trees that can be written: each struct has the type its ID requires, sizes
    are representable and data chunks hold at least as many bytes as declared. *)
Inductive Writable (app : apps) : Z -> chunk -> Prop :=
| Wr_raw : forall ft i s l,
    ~ In i group_ids -> app ft i = None -> 0 <= s <= INT_MAX -> s <= zlength l ->
    Writable app ft (CRaw i s (Some l))
| Wr_fields : forall ft i s spec vals,
    ~ In i group_ids -> app ft i = Some spec -> kinds_match spec vals ->
    Forall (fun kv => fieldSize (fst kv) <= s) vals -> 0 <= s <= INT_MAX ->
    Writable app ft (CFields i s vals)
| Wr_group : forall ft i s g subs,
    In i [FORM_ID; CAT_ID; PROP_ID] -> 0 <= s <= INT_MAX -> 4 + body_size subs <= INT_MAX ->
    (forall c, In c subs -> Writable app g c) ->
    Writable app ft (CGroup i s g subs)
| Wr_list : forall ft s g props subs,
    0 <= s <= INT_MAX -> 4 + body_size props + body_size subs <= INT_MAX ->
    (forall c, In c props -> Writable app g c /\ chunkId c = PROP_ID) ->
    (forall c, In c subs -> Writable app g c) ->
    Writable app ft (CList LIST_ID s g props subs).

(** ** Conformance: what IFF_check is supposed to decide *)

Definition group_type_of (c : chunk) : option Z :=
  match c with CGroup _ _ g _ | CList _ _ g _ _ => Some g | _ => None end.

(** Members of a CAT or LIST: FORM, CAT or LIST, of the contents type unless
    that is JJJJ. *)
Definition cat_member (contentsType : Z) (c : chunk) : Prop :=
  In (chunkId c) [FORM_ID; CAT_ID; LIST_ID] /\
  (contentsType = JJJJ_ID \/ group_type_of c = Some contentsType).

Inductive Conforms (app : apps) : Z -> chunk -> Prop :=
| Conf_raw : forall ft i s d,
    ValidId i -> ~ In i group_ids -> app ft i = None ->
    Conforms app ft (CRaw i s d)
| Conf_fields : forall ft i s spec vals,
    ValidId i -> ~ In i group_ids -> app ft i = Some spec ->
    fs_check spec (map snd vals) = None ->
    Conforms app ft (CFields i s vals)
| Conf_form : forall ft s g subs,
    ValidFormType g ->
    (forall c, In c subs -> chunkId c <> PROP_ID /\ Conforms app g c) ->
    s = 4 + body_size subs ->
    Conforms app ft (CGroup FORM_ID s g subs)
| Conf_cat : forall ft s g subs,
    ValidId g ->
    (forall c, In c subs -> cat_member g c /\ Conforms app g c) ->
    s = 4 + body_size subs ->
    Conforms app ft (CGroup CAT_ID s g subs)
| Conf_prop : forall ft s g subs,
    ValidFormType g ->
    (forall c, In c subs -> ~ In (chunkId c) group_ids /\ Conforms app g c) ->
    s = 4 + body_size subs ->
    Conforms app ft (CGroup PROP_ID s g subs)
| Conf_list : forall ft s g props subs,
    ValidId g ->
    (forall c, In c props -> Conforms app g c) ->
    (forall c, In c subs -> cat_member g c /\ Conforms app g c) ->
    s = 4 + body_size props + body_size subs ->
    Conforms app ft (CList LIST_ID s g props subs).

(** ** Registries *)

Definition Registered (tbl : list chunktype) (cid : Z) (ct : chunktype) : Prop :=
  In ct tbl /\ ct_id ct = cid.

(** The innermost scope registering [cid] decides. *)
Inductive Resolves (cid : Z) : chain -> option chunktype -> Prop :=
| Res_none : Resolves cid [] None
| Res_here : forall tbl up ct, Registered tbl cid ct -> Resolves cid (tbl :: up) (Some ct)
| Res_up : forall tbl up r, (forall ct, ~ Registered tbl cid ct) -> Resolves cid up r ->
    Resolves cid (tbl :: up) r.

(** The scope in which the members of a group of type [ft] are looked up. *)
Inductive ScopeOf (r : registry) (ft : Z) : chain -> Prop :=
| Scope_form : forall node, In (ft, node) (rg_forms r) -> ScopeOf r ft node
| Scope_global : (forall node, ~ In (ft, node) (rg_forms r)) -> ScopeOf r ft (rg_global r).

Definition strictly_increasing (l : list Z) : Prop :=
  forall i j x y, (i < j)%nat -> nth_error l i = Some x -> nth_error l j = Some y -> x < y.

(** What chunkregistry.h demands of the arrays. *)
Definition SortedRegistry (r : registry) : Prop :=
  strictly_increasing (map fst (rg_forms r)) /\
  (forall node, (node = rg_global r \/ exists ft, In (ft, node) (rg_forms r)) ->
     forall tbl, In tbl node -> strictly_increasing (map ct_id tbl)).

(** ** Streams *)

(** Everything handed to an output stream so far. *)
Definition handed (f : wfile) : list byte := o_dev f ++ o_buf f.

(** The same state with other bytes waiting in the input stream. *)
Definition with_input (l : list byte) (w : world) : world :=
  set_in (mkRfile l (r_seekable (w_in w))) w.

(** [w2] has at least one more diagnostic than [w1]. *)
Definition reported (w1 w2 : world) : Prop :=
  exists lg, lg <> [] /\ w_log w2 = lg ++ w_log w1.

(** The same host, with all the memory one could wish for. *)
Definition plenty (e : env) : env :=
  mkEnv (big_endian e) (char_signed e) (lp64 e) (strict_c e) (fun _ _ => true) (garbage e) (place e).

(** ** Usual platforms: two's complement shifts and lenient printf, and enough
    memory *)
Record usual (e : env) : Prop := mkUsual {
  not_strict : strict_c e = false;
  memory : forall n sz, malloc_ok e n sz = true }.

(** Per-form tables that end in the global table, and whose own entries are
    for data chunks. *)
Definition HandlesData (h : handler) : Prop := h = HRaw \/ exists s, h = HFields s.

Definition ExtendsGlobal (forms : list (Z * chain)) : Prop :=
  forall ft node, In (ft, node) forms ->
    exists tbls, node = tbls ++ [IFF_globalChunkTypes] /\
      forall tbl ct, In tbl tbls -> In ct tbl -> ~ In (ct_id ct) group_ids /\ HandlesData (ct_handler ct).

(** ** Files

    [Stored c l]: the bytes [l] hold the tree [c]: ids, sizes, group types and
    data in file order.  Pad bytes may have any value, and PROPs may stand
    anywhere among the other members of a LIST (a LIST keeps both kinds in
    arrays of their own). *)
Inductive Stored : chunk -> list byte -> Prop :=
| St_raw : forall i data p,
    zlength p = zlength data mod 2 ->
    Stored (CRaw i (zlength data) (Some data)) (be32 i ++ be32 (zlength data) ++ data ++ p)
| St_group : forall i s g subs ls p,
    Forall2 Stored subs ls -> zlength p = s mod 2 ->
    Stored (CGroup i s g subs) (be32 i ++ be32 s ++ be32 g ++ List.concat ls ++ p)
| St_list : forall i s g members ls p,
    Forall2 Stored members ls -> zlength p = s mod 2 ->
    Stored (CList i s g (filter (fun c => chunkId c =? PROP_ID) members)
                        (filter (fun c => negb (chunkId c =? PROP_ID)) members))
           (be32 i ++ be32 s ++ be32 g ++ List.concat ls ++ p).

(** The number of chunks in a tree. *)
Fixpoint chunks (c : chunk) : Z :=
  match c with
  | CRaw _ _ _ | CFields _ _ _ => 1
  | CGroup _ _ _ subs => 1 + sum (map chunks subs)
  | CList _ _ _ props subs => 1 + sum (map chunks props) + sum (map chunks subs)
  end.

(** ** Canonical files, described without reference to trees: pad bytes are
    zero, group sizes are exact, and the PROPs of a LIST come first. *)
Definition StartsWith (i : Z) (l : list byte) : Prop := exists r, l = be32 i ++ r.

Inductive Canonical : list byte -> Prop :=
| Can_data : forall i data,
    in_range FId i -> ~ In i group_ids -> zlength data <= INT_MAX ->
    Canonical (frame i (zlength data) data)
| Can_group : forall i g ls,
    In i [FORM_ID; CAT_ID; PROP_ID] -> in_range FId g -> Forall Canonical ls ->
    zlength (be32 g ++ List.concat ls) <= INT_MAX ->
    Canonical (frame i (zlength (be32 g ++ List.concat ls)) (be32 g ++ List.concat ls))
| Can_list : forall g lp ls,
    in_range FId g -> Forall Canonical lp -> Forall Canonical ls ->
    Forall (StartsWith PROP_ID) lp -> Forall (fun l => ~ StartsWith PROP_ID l) ls ->
    zlength (be32 g ++ List.concat (lp ++ ls)) <= INT_MAX ->
    Canonical (frame LIST_ID (zlength (be32 g ++ List.concat (lp ++ ls))) (be32 g ++ List.concat (lp ++ ls))).

(** No LIST of the tree has both PROPs and other members. *)
Definition NoMixedList (c : chunk) : Prop :=
  forall i s g props subs, InTree (CList i s g props subs) c -> props = [] \/ subs = [].

(** ** Sizes recomputed from the leaves: the length of the encoding once all
    group sizes are right *)
Fixpoint encoded_size (c : chunk) : Z :=
  match c with
  | CRaw _ s _ | CFields _ s _ => physical s
  | CGroup _ _ _ subs => 12 + sum (map encoded_size subs)
  | CList _ _ _ props subs => 12 + sum (map encoded_size props) + sum (map encoded_size subs)
  end.

Definition is_leaf (c : chunk) : Prop :=
  match c with CRaw _ _ _ | CFields _ _ _ => True | _ => False end.

(** Data chunks do not have negative sizes. *)
Definition LeafSizes (c : chunk) : Prop := forall x, InTree x c -> is_leaf x -> 0 <= chunkSize x.

(** The data of raw chunks is as long as declared; fields hold values of their
    types, and those that are not stored are zero. *)
Definition LeafData (c : chunk) : Prop := forall x, InTree x c ->
  match x with
  | CRaw _ s d => exists l, d = Some l /\ zlength l = s
  | CFields _ s vals =>
      0 <= s /\ Forall (fun kv => in_range (fst kv) (snd kv)) vals /\
      Forall (fun kv => fieldSize (fst kv) <= s) vals /\ rest_zero s vals
  | _ => True
  end.

(** Every ID and group type is a value of its C type. *)
Definition Represented (c : chunk) : Prop := forall x, InTree x c ->
  in_range FId (chunkId x) /\ forall g, group_type_of x = Some g -> in_range FId g.

(** ** What IFF_compare looks at: everything but the size fields of the PROPs
    of a LIST, and data behind the declared size *)
Fixpoint visible (c : chunk) : chunk :=
  match c with
  | CRaw i s d => CRaw i s (Some (ztake s (data_of d)))
  | CGroup i s g subs => CGroup i s g (map visible subs)
  | CList i s g props subs => CList i s g (map (fun p => set_chunkSize (visible p) 0) props) (map visible subs)
  | CFields i s vals => CFields i s vals
  end.

(** Every raw chunk has a block of at least the declared size. *)
Definition LeafBlocks (c : chunk) : Prop := forall i s d, InTree (CRaw i s d) c ->
  0 <= s <= INT_MAX /\ s <= zlength (data_of d).

(** ** Positions in a tree

    The contents of a group: its members, without the PROPs of a LIST (which
    hold shared settings) and without what is inside a PROP. *)
Definition contents (c : chunk) : list chunk :=
  match c with
  | CGroup i _ _ l => if i =? PROP_ID then [] else l
  | CList _ _ _ _ l => l
  | _ => []
  end.

(** A position: which member of the root, which member of that, ... *)
Fixpoint at_position (c : chunk) (p : list nat) : option chunk :=
  match p with
  | [] => Some c
  | n :: q => match nth_error (contents c) n with Some x => at_position x q | None => None end
  end.

(** Document order: a chunk before its members, earlier members first. *)
Inductive before : list nat -> list nat -> Prop :=
| before_inside : forall n q, before [] (n :: q)
| before_left : forall m n p q, (m < n)%nat -> before (m :: p) (n :: q)
| before_deeper : forall n p q, before p q -> before (n :: p) (n :: q).

Definition in_order (ps : list (list nat)) : Prop :=
  forall i j p q, (i < j)%nat -> nth_error ps i = Some p -> nth_error ps j = Some q -> before p q.

(** A FORM of one of the given types ... *)
Definition wanted (types : list Z) (c : chunk) : Prop :=
  chunkId c = FORM_ID /\ exists g, group_type_of c = Some g /\ In g types.
(** ... and a position of one that is not inside another one. *)
Definition outermost (types : list Z) (root : chunk) (p : list nat) : Prop :=
  (exists c, at_position root p = Some c /\ wanted types c) /\
  forall q r x, p = q ++ r -> r <> [] -> at_position root q = Some x -> ~ wanted types x.

(** The first member with an ID. *)
Definition first_member (members : list chunk) (cid : Z) (c : chunk) : Prop :=
  exists pre post, members = pre ++ c :: post /\ chunkId c = cid /\ forall x, In x pre -> chunkId x <> cid.

(** ** Shared properties

    [shares a ft cid c]: [a] is a LIST whose PROP for FORMs of type [ft] sets
    [cid] to [c]. *)
Definition group_members (c : chunk) : list chunk :=
  match c with CGroup _ _ _ l | CList _ _ _ _ l => l | _ => [] end.
Definition shares (a : chunk) (ft cid : Z) (c : chunk) : Prop :=
  exists i s g props subs pre prop post, a = CList i s g props subs /\ props = pre ++ prop :: post /\
    group_type_of prop = Some ft /\ (forall x, In x pre -> group_type_of x <> Some ft) /\
    first_member (group_members prop) cid c.

(** The innermost enclosing LIST that sets it decides; [ancestors] from the
    inside out. *)
Inductive shared_setting (ft cid : Z) : list chunk -> chunk -> Prop :=
| shared_here : forall a up c, shares a ft cid c -> shared_setting ft cid (a :: up) c
| shared_above : forall a up c, (forall x, ~ shares a ft cid x) -> shared_setting ft cid up c -> shared_setting ft cid (a :: up) c.

(** [enclosing root p form up]: [form] is somewhere in [root] (also inside
    PROPs), and [up] are the groups around it, innermost first. *)
Inductive enclosed (root : chunk) : chunk -> list chunk -> Prop :=
| enclosed_root : enclosed root root []
| enclosed_member : forall c x up, enclosed root c up -> In x (group_members c) -> enclosed root x (c :: up)
| enclosed_prop : forall i s g props subs x up, enclosed root (CList i s g props subs) up -> In x props ->
    enclosed root x (CList i s g props subs :: up).

(** ** Sizes

    A group declares the size of its contents: the type, the PROPs and the
    members, each with its header and padding. *)
Definition declares (c : chunk) : Prop :=
  match c with
  | CGroup _ s _ subs => s = 4 + body_size subs
  | CList _ s _ props subs => s = 4 + body_size props + body_size subs
  | _ => True
  end.
Definition Sized (c : chunk) : Prop := forall x, InTree x c -> declares x.

(** The tree without the declared sizes of its groups. *)
Fixpoint unsized (c : chunk) : chunk :=
  match c with
  | CGroup i _ g subs => CGroup i 0 g (map unsized subs)
  | CList i _ g props subs => CList i 0 g (map unsized props) (map unsized subs)
  | _ => c
  end.

(** The chunk at a path, and the tree with another chunk there. *)
Fixpoint at_path (c : chunk) (p : path) : option chunk :=
  match p with
  | [] => Some c
  | s :: q => match get_child c s with Some x => at_path x q | None => None end
  end.
Fixpoint replace_at (c : chunk) (p : path) (x : chunk) : chunk :=
  match p with
  | [] => x
  | s :: q => match get_child c s with Some y => set_child c s (replace_at y q x) | None => c end
  end.
