(** * The parts of a file, and what is said when one cannot be written
    (specification only). *)

From Coq Require Import ZArith List Bool String.
From Coq Require Import Strings.Byte.
From Verif Require Import Machine Io Types Build Spec DiagSpec.
Import ListNotations.
Open Scope Z_scope.

(** A part: the text reported when the output takes no more in the middle of
    it, and its bytes. *)
Definition part : Type := string * list byte.

Definition cannot_write (i : Z) (name : string) : string :=
  "Error writing '" ++ id_name i ++ "'." ++ name ++ nl.
Definition filler (i n : Z) : part :=
  (("Cannot write: " ++ dec n ++ " zero bytes in data chunk: '") ++ id_name i ++ "'" ++ nl, zeros n)%string.
Definition pad_part (i s : Z) : part := (("Cannot write padding byte of '" ++ id_name i ++ "'" ++ nl)%string, pad_for s).

(** Part of a member: the group adds a line of its own *)
Definition within (line : string) (p : part) : part := ((fst p ++ line ++ nl)%string, snd p).

Definition field_names (app : apps) (ft i : Z) : list string :=
  match app ft i with Some spec => map fd_name (fs_fields spec) | None => [] end.

Fixpoint parts (app : apps) (ft : Z) (c : chunk) : list part :=
  let i := chunkId c in
  let s := chunkSize c in
  (cannot_write i "chunkId", be32 i) :: (cannot_write i "chunkSize", be32 s) ::
  match c with
  | CRaw _ _ d =>
      [(("Error writing raw chunk body of chunk '" ++ id_name i ++ "'" ++ nl)%string, ztake s (data_of d))]
  | CFields _ _ vals =>
      map (fun f => (cannot_write i (fst f), be_field (fst (snd f)) (snd (snd f)))) (combine (field_names app ft i) (fitting s vals))
      ++ [filler i (s - zlength (fields_bytes (fitting s vals)))]
  | CGroup _ _ g subs =>
      (cannot_write i (if i =? CAT_ID then "contentsType" else "formType"), be32 g)
      :: flat_map (fun x => map (within "Error writing chunk!") (parts app g x)) subs
      ++ [filler i (s - (4 + body_size subs))]
  | CList _ _ g props subs =>
      (cannot_write i "contentsType", be32 g)
      :: flat_map (fun x => map (within "Error writing PROP!") (parts app g x)) props
      ++ flat_map (fun x => map (within "Error writing chunk!") (parts app g x)) subs
      ++ [filler i (s - (4 + body_size props + body_size subs))]
  end
  ++ [pad_part i s].

(** The text for the first part that the output [f] does not take in full;
    nothing if it takes them all *)
Fixpoint complaint (ps : list part) (f : wfile) : string :=
  match ps with
  | [] => ""
  | (t, l) :: r => let '(ok, f1) := put_bytes l f in if ok then complaint r f1 else t
  end.
