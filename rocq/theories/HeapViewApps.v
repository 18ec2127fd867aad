(** * Applications twice: what they do to values, and how they do it in memory
    (definitions only). *)

From Coq Require Import ZArith List Bool String.
From Coq Require Import Strings.Byte.
From Verif Require Import Machine Io Types Build Read Iff Ext ExtSpec ExtFields Heap HeapExt HeapExtApps.
Import ListNotations.
Open Scope Z_scope.

(** ** Lists of fields: the struct holds the values. *)
Definition fields_rep (s : fspec) (h : yheap fvals) (a : addr) (F : list addr) (u : fvals) : Prop :=
  F = [a] /\ map fst u = map fd_kind (fs_fields s) /\ exists hd, ylookup h a = Some (YChunk hd (YUser u)).

Definition fields_reps (rg : option registry) (ft cid : Z) : yheap fvals -> addr -> list addr -> fvals -> Prop :=
  match find_handler (selectChunkRegistry rg) ft cid with
  | Done (HFields s) => fields_rep s
  | _ => fun _ _ _ _ => False
  end.

(** ** Colour maps: the colours of ExtFields.v, read one by one, with memory for
    each.  Not in the repository. *)
Fixpoint grow_colours (k : nat) (i s : Z) (l : list colour) (bp : Z) : M (bool * list colour * Z) :=
  match k with
  | O => ret (true, l, bp)
  | S k' =>
      r <- IFF_readField FUByte i s "red" bp ;;
      match r with
      | (FIELD_MORE, Some red, bp1) =>
          g <- IFF_readField FUByte i s "green" bp1 ;;
          match g with
          | (FIELD_MORE, Some green, bp2) =>
              b <- IFF_readField FUByte i s "blue" bp2 ;;
              match b with
              | (FIELD_MORE, Some blue, bp3) =>
                  ok <- malloc ((zlength l + 1) * 3) ;;
                  if ok : bool then grow_colours k' i s (l ++ [(red, green, blue)]) bp3 else ret (false, l, bp3)
              | (st, _, bp3) => ret (IFF_deriveSuccess st, l, bp3)
              end
          | (st, _, bp2) => ret (IFF_deriveSuccess st, l, bp2)
          end
      | (st, _, bp1) => ret (IFF_deriveSuccess st, l, bp1)
      end
  end.

Definition cmap_growing : callbacks (list colour) :=
  mkCallbacks (cb_create cmap_callbacks)
    (fun i s u bp => if s mod 3 =? 0 then grow_colours (Z.to_nat (s / 3)) i s u bp else ret (false, u, bp))
    (cb_write cmap_callbacks) (cb_check cmap_callbacks) (cb_free cmap_callbacks) (cb_print cmap_callbacks) (cb_compare cmap_callbacks).

(** The callbacks of HeapExtApps.v, but with a check that needs no memory *)
Definition ycmap_grows : ycallbacks cell :=
  mkYCallbacks (yc_create ycmap_callbacks) ycmap_read ycmap_free ycmap_write
    (fun c => ycolours_of c (fun _ l =>
       if zlength l <=? 256 then yret true else yio (IFF_error ("Too many colours" ++ nl)%string) ;;y yret false))
    ycmap_print ycmap_compare.

Definition cmap_rep (h : yheap cell) (a : addr) (F : list addr) (l : list colour) : Prop :=
  exists hd p, ylookup h a = Some (YChunk hd (YUser (CMap (List.length l) p))) /\
    ((p = None /\ l = [] /\ F = [a]) \/
     (exists d, p = Some d /\ ylookup h d = Some (YApp (Colours l)) /\ F = [a; d])).
