(** * Callbacks of chunks that are lists of fields, as in /repo/tests, and of a
    chunk that is an array (definitions only). *)

From Coq Require Import ZArith List Bool String.
From Coq Require Import Strings.Byte.
From Verif Require Import Machine Io Types Build Read Write Check Print Compare Spec Ext ExtSpec.
Import ListNotations.
Open Scope Z_scope.

(** ** Lists of fields: tests/hello.c, tests/bye.c *)

Definition vals_of (c : chunk) : option (list (fkind * Z)) :=
  match c with CFields _ _ vals => Some vals | _ => None end.

(** tests/hello.c 29-123: the functions of Build.v, Read.v, Write.v, Check.v,
    Print.v and Compare.v for such chunks *)
Definition fields_callbacks (spec : fspec) : callbacks (list (fkind * Z)) :=
  mkCallbacks
    (fun i s => oc <- create_fields spec i s ;; ret (match oc with Some c => vals_of c | None => None end))
    (fun i s u bp =>
       r <- read_fields_chunk spec (CFields i s u) bp ;;
       match r with
       | (ok, c, bp') => match vals_of c with
                         | Some u' => ret (ok, u', bp')
                         | None => undefined UB_type_confusion
                         end
       end)
    (fun i s u bp => write_fields_chunk spec (CFields i s u) bp)
    (fun i s u => check_fields_chunk spec (CFields i s u))
    (fun i s u => Done tt)
    (fun i s u level => print_fields_chunk spec (CFields i s u) level)
    (fun i s u v => compare_fields_chunk spec (CFields i s u) (CFields i s v)).

(** What bytes mean as a field. *)
Definition field_value (k : fkind) (l : list byte) : Z :=
  match k with
  | FWord => wrap_s 16 (be_value l)
  | FLong => wrap_s 32 (be_value l)
  | _ => be_value l
  end.

(** The fields of a body; those it has no room for are zero. *)
Fixpoint take_fields (ks : list fkind) (l : list byte) : list (fkind * Z) :=
  match ks with
  | [] => []
  | k :: r =>
      if fieldSize k <=? zlength l
      then (k, field_value k (ztake (fieldSize k) l)) :: take_fields r (zdrop (fieldSize k) l)
      else map (fun k => (k, 0)) ks
  end.

Definition kinds_of (spec : fspec) : list fkind := map fd_kind (fs_fields spec).

(** Made for chunks that are at least as long as each single field. *)
Definition fields_codec (spec : fspec) : codec (list (fkind * Z)) :=
  mkCodec
    (fun i s => forall k, In k (kinds_of spec) -> fieldSize k <= s)
    (fun i body => Some (take_fields (kinds_of spec) body))
    (fun i body => zlength (fields_bytes (fitting (zlength body) (take_fields (kinds_of spec) body))))
    (fun i s vals => fields_bytes (fitting s vals))
    (fun i s vals => match fs_check spec (map snd vals) with None => true | Some _ => false end).

(** ** An array of records: the colour map of ILBM files, three bytes per
    colour, as many as the size says.  Not in the repository; its functions call
    IFF_readField and IFF_writeField in the same way. *)

Definition colour := (Z * Z * Z)%type.

(** for(i = 0; i < chunkSize / 3; i++) { readField red; readField green; readField blue } *)
Fixpoint read_colours (n : nat) (i s bp : Z) : M (bool * list colour * Z) :=
  match n with
  | O => ret (true, [], bp)
  | S n' =>
      r <- IFF_readField FUByte i s "red" bp ;;
      match r with
      | (FIELD_MORE, Some red, bp1) =>
          g <- IFF_readField FUByte i s "green" bp1 ;;
          match g with
          | (FIELD_MORE, Some green, bp2) =>
              b <- IFF_readField FUByte i s "blue" bp2 ;;
              match b with
              | (FIELD_MORE, Some blue, bp3) =>
                  t <- read_colours n' i s bp3 ;;
                  match t with (ok, l, bp4) => ret (ok, (red, green, blue) :: l, bp4) end
              | (st, _, bp3) => ret (IFF_deriveSuccess st, [], bp3)
              end
          | (st, _, bp2) => ret (IFF_deriveSuccess st, [], bp2)
          end
      | (st, _, bp1) => ret (IFF_deriveSuccess st, [], bp1)
      end
  end.

Fixpoint write_colours (l : list colour) (i s bp : Z) : M (bool * Z) :=
  match l with
  | [] => ret (true, bp)
  | (red, green, blue) :: t =>
      r <- IFF_writeField FUByte red i s "red" bp ;;
      match r with
      | (FIELD_MORE, bp1) =>
          g <- IFF_writeField FUByte green i s "green" bp1 ;;
          match g with
          | (FIELD_MORE, bp2) =>
              b <- IFF_writeField FUByte blue i s "blue" bp2 ;;
              match b with
              | (FIELD_MORE, bp3) => write_colours t i s bp3
              | (st, bp3) => ret (IFF_deriveSuccess st, bp3)
              end
          | (st, bp2) => ret (IFF_deriveSuccess st, bp2)
          end
      | (st, bp1) => ret (IFF_deriveSuccess st, bp1)
      end
  end.

Definition colour_eqb (a b : colour) : bool :=
  match a, b with (r1, g1, b1), (r2, g2, b2) => (r1 =? r2) && (g1 =? g2) && (b1 =? b2) end.

Fixpoint colours_eqb (a b : list colour) : bool :=
  match a, b with
  | [], [] => true
  | x :: a', y :: b' => colour_eqb x y && colours_eqb a' b'
  | _, _ => false
  end.

(** At most 256 colours pass the check; a size that is not a multiple of three
    is an error. *)
Definition cmap_callbacks : callbacks (list colour) :=
  mkCallbacks
    (fun i s => ok <- malloc 64 ;; ret (if ok then Some [] else None))
    (fun i s u bp =>
       if s mod 3 =? 0 then read_colours (Z.to_nat (s / 3)) i s bp
       else IFF_error ("Invalid colour map size" ++ nl)%string ;;; ret (false, [], bp))
    (fun i s u bp => write_colours u i s bp)
    (fun i s u => if zlength u <=? 256 then ret true
                  else IFF_error ("Too many colours" ++ nl)%string ;;; ret false)
    (fun i s u => Done tt)
    (fun i s u level => Done (dec (zlength u) ++ " colours" ++ nl)%string)
    (fun i s u v => Done (colours_eqb u v)).

Fixpoint three (l : list byte) : list colour :=
  match l with
  | r :: g :: b :: t => (b2z r, b2z g, b2z b) :: three t
  | _ => []
  end.

Definition colour_bytes (c : colour) : list byte :=
  match c with (r, g, b) => [z2b r; z2b g; z2b b] end.

Definition cmap_codec : codec (list colour) :=
  mkCodec
    (fun i s => True)
    (fun i body => if zlength body mod 3 =? 0 then Some (three body) else None)
    (fun i body => zlength body)
    (fun i s u => flat_map colour_bytes u)
    (fun i s u => zlength u <=? 256).

(** ** The trees and registries of the other model files, with the callbacks of
    field lists in place of their handlers *)

Definition fvals := list (fkind * Z).

Fixpoint conv (c : chunk) : xchunk fvals :=
  match c with
  | CRaw i s d => XRaw i s d
  | CGroup i s g l => XGroup i s g (map conv l)
  | CList i s g p l => XList i s g (map conv p) (map conv l)
  | CFields i s v => XUser i s v
  end.

Definition conv_handler (h : handler) : xhandler fvals :=
  match h with
  | HForm => XForm | HCAT => XCAT | HList => XLIST | HProp => XProp | HRaw => XRAW
  | HFields s => XCall (fields_callbacks s)
  end.

Definition conv_type (t : chunktype) : xchunktype fvals := (ct_id t, conv_handler (ct_handler t)).
Definition conv_chain (n : chain) : xchain fvals := map (map conv_type) n.
Definition conv_registry (r : registry) : xregistry fvals :=
  mkXRegistry (map (fun f => (fst f, conv_chain (snd f))) (rg_forms r)) (conv_chain (rg_global r))
    (option_map conv_type (rg_default r)).

Definition conv_reg (rg : option registry) : xregistry fvals :=
  match rg with Some r => conv_registry r | None => mkXRegistry [] [] None end.

(** The functions for LISTs are registered for the ID LIST only, as
    IFF_createUnparsedList requires (list.c 55-58 ignores the ID it is given). *)
Definition ListsAreLists (rg : option registry) : Prop :=
  forall ft cid, find_handler rg ft cid = Done HList -> cid = IFF_ID_LIST.
