(** * What diagnostics say (specification only).

    [Fault app ft c t]: the text [t] truthfully names a rule of EA IFF 85 (or of
    the application) that the tree [c] breaks, read as a member of a group of
    type [ft]. *)

From Coq Require Import ZArith List Bool String.
From Coq Require Import Strings.Byte.
From Verif Require Import Machine Io Types Build Spec.
Import ListNotations.
Open Scope Z_scope.

(** [text] and nothing else was handed to the error callback; no stream was
    touched.  (The latest call comes first in the log.) *)
Definition wrote (w w' : world) (text : string) : Prop :=
  w_in w' = w_in w /\ w_out w' = w_out w /\ w_allocs w' = w_allocs w /\
  exists lg, w_log w' = lg ++ w_log w /\ String.concat "" (rev lg) = text.

(** The four characters of an ID *)
Definition id_name (i : Z) : string := string_of_list_byte (be32 i).
Definition id_char (i x : Z) : Prop := In x (map b2z (be32 i)).

Inductive IdFault (i : Z) : string -> Prop :=
| ID_char : forall x, id_char i x -> ~ (0x20 <= x <= 0x7e) ->
    IdFault i ("Illegal character: '" ++ string_of_list_byte [z2b x] ++ "' in ID!" ++ nl)
| ID_space : hd_error (be32 i) = Some x20 -> IdFault i ("Spaces may not precede an ID!" ++ nl).

Inductive FormTypeFault (g : Z) : string -> Prop :=
| FT_id : forall t, IdFault g t -> FormTypeFault g t
| FT_char : forall x, id_char g x -> 97 <= x <= 122 \/ x = 46 ->
    FormTypeFault g ("No lowercase characters or punctuation marks allowed in a form type ID!" ++ nl)
| FT_reserved : In g reserved_ids ->
    FormTypeFault g ("Form type: '" ++ id_name g ++ "' not allowed!" ++ nl).

(** A chunk [i] in a group called [name] *)
Definition misplaced (i : Z) (name : string) : string :=
  "ERROR: Element with chunk Id: '" ++ id_name i ++ "' not allowed in " ++ name ++ " chunk!" ++ nl.

(** [body]: the size computed from the contents, reduced to an int *)
Definition wrong_size (i size body : Z) : string :=
  "Chunk size mismatch! " ++ id_name i ++ " size: " ++ dec size ++ ", while body has: " ++ dec (wrap_s 32 body) ++ nl.

(** The chunks directly in a chunk, and the size that they give it *)
Definition members (c : chunk) : list chunk :=
  match c with
  | CGroup _ _ _ subs => subs
  | CList _ _ _ props subs => props ++ subs
  | _ => []
  end.
Definition other_members (c : chunk) : list chunk :=
  match c with
  | CGroup _ _ _ subs | CList _ _ _ _ subs => subs
  | _ => []
  end.

Inductive Fault (app : apps) : Z -> chunk -> string -> Prop :=
(* its ID, the application's opinion of its fields *)
| F_id : forall ft c t, IdFault (chunkId c) t -> Fault app ft c t
| F_fields : forall ft i s vals spec t,
    app ft i = Some spec -> fs_check spec (map snd vals) = Some t -> Fault app ft (CFields i s vals) t
(* its type *)
| F_form_type : forall ft c g t, In (chunkId c) [FORM_ID; PROP_ID] -> group_type_of c = Some g ->
    FormTypeFault g t -> Fault app ft c t
| F_contents_type : forall ft c g t, In (chunkId c) [CAT_ID; LIST_ID] -> group_type_of c = Some g ->
    IdFault g t -> Fault app ft c t
(* what is in it *)
| F_in_form : forall ft c x, chunkId c = FORM_ID -> In x (members c) -> chunkId x = PROP_ID ->
    Fault app ft c (misplaced (chunkId x) "FORM")
| F_in_prop : forall ft c x, chunkId c = PROP_ID -> In x (members c) -> In (chunkId x) group_ids ->
    Fault app ft c (misplaced (chunkId x) "PROP")
| F_in_cat : forall ft c x, In (chunkId c) [CAT_ID; LIST_ID] -> In x (other_members c) ->
    ~ In (chunkId x) [FORM_ID; CAT_ID; LIST_ID] ->
    Fault app ft c (misplaced (chunkId x) "CAT")
| F_contents : forall ft c g x, In (chunkId c) [CAT_ID; LIST_ID] -> group_type_of c = Some g -> g <> JJJJ_ID ->
    In x (other_members c) -> group_type_of x <> Some g ->
    Fault app ft c ("Sub form does not match contentsType of the CAT!" ++ nl)
| F_size : forall ft c g, group_type_of c = Some g -> chunkSize c <> 4 + body_size (members c) ->
    Fault app ft c (wrong_size (chunkId c) (chunkSize c) (4 + body_size (members c)))
(* the same further down *)
| F_below : forall ft c g x t, group_type_of c = Some g -> In x (members c) -> Fault app g x t -> Fault app ft c t.

(** The whole file *)
Inductive FileFault (app : apps) (c : chunk) : string -> Prop :=
| FF_top : ~ In (chunkId c) [FORM_ID; CAT_ID; LIST_ID] ->
    FileFault app c ("Not a valid IFF-85 file: First bytes should start with either: 'FORM', 'CAT ' or 'LIST'" ++ nl)
| FF_tree : forall t, Fault app 0 c t -> FileFault app c t.

(** Size fields hold ints. *)
Definition IntSizes (c : chunk) : Prop := forall x, InTree x c -> in_range FLong (chunkSize x).

(** ** Files that end too early.  [Cut c pre t]: [pre] is the beginning of the
    file for [c], and [t] says where it ends: in which chunk and in which part of
    it. *)
Inductive Cut : chunk -> list byte -> string -> Prop :=
| Cut_id : forall c pre, zlength pre < 4 -> Cut c pre ("Error reading '    '." ++ nl)
| Cut_size : forall c pre, 4 <= zlength pre < 8 ->
    Cut c pre ("Error reading '" ++ id_name (chunkId c) ++ "'.chunkSize" ++ nl)
| Cut_data : forall i s d pre, 8 <= zlength pre < 8 + s ->
    Cut (CRaw i s d) pre ("Error reading raw chunk body of chunk: '" ++ id_name i ++ "'" ++ nl)
| Cut_padding : forall i s d pre, 0 <= s -> zlength pre = 8 + s -> Z.odd s = true ->
    Cut (CRaw i s d) pre ("Unexpected end of file, while reading padding byte of '" ++ id_name i ++ "'" ++ nl)
| Cut_form_type : forall i s g subs pre, In i [FORM_ID; PROP_ID] -> 8 <= zlength pre < 12 ->
    Cut (CGroup i s g subs) pre ("Error reading '" ++ id_name i ++ "'.formType" ++ nl)
| Cut_contents_type : forall s g subs pre, 8 <= zlength pre < 12 ->
    Cut (CGroup CAT_ID s g subs) pre ("Error reading 'CAT '.contentsType" ++ nl)
| Cut_list_type : forall i s g props subs pre, 8 <= zlength pre < 12 ->
    Cut (CList i s g props subs) pre ("Error reading 'LIST'.contentsType" ++ nl)
| Cut_member : forall i s g before x behind q r t,
    q ++ r = encode x -> r <> [] -> Cut x q t ->
    Cut (CGroup i s g (before ++ x :: behind)) (be32 i ++ be32 s ++ be32 g ++ flat_map encode before ++ q) t
| Cut_list_member : forall i s g props subs before x behind q r t,
    props ++ subs = before ++ x :: behind -> q ++ r = encode x -> r <> [] -> Cut x q t ->
    Cut (CList i s g props subs) (be32 i ++ be32 s ++ be32 g ++ flat_map encode before ++ q)
      (t ++ "Error reading chunk in list!" ++ nl).
