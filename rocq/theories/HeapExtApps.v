(** * Applications for the memory model with callbacks: lists of fields, and a
    colour map that keeps its colours in a block of its own (definitions
    only). *)

From Coq Require Import ZArith List Bool String.
From Coq Require Import Strings.Byte.
From Verif Require Import Machine Io Types Build Read Write Check Compare Print Iff Heap ExtFields HeapExt.
Import ListNotations.
Open Scope Z_scope.

(** ** Lists of fields: tests/hello.c 29-123, as in Heap.v and HeapPass.v *)

(** the fields of a struct of the right type *)
Definition yfields_of {A} (s : fspec) (c : addr) (k : header -> fvals -> Y fvals A) : Y fvals A :=
  '(hd, b) <-y ychunk c ;;
  match b with
  | YUser vals =>
      if fkinds_eqb (map fst vals) (map fd_kind (fs_fields s)) then k hd vals else yundefined UB_type_confusion
  | _ => yundefined UB_type_confusion
  end.

Definition yfields_callbacks (s : fspec) : ycallbacks fvals :=
  mkYCallbacks
    (fun cid size => ycreateChunk cid size (sizeof_Fields s) (YUser (map (fun d => (fd_kind d, 0)) (fs_fields s))))
    (fun c bytesProcessed =>
       '(hd, b) <-y ychunk c ;;
       match b with
       | YUser vals =>
           if fkinds_eqb (map fst vals) (map fd_kind (fs_fields s)) then
             '(ok, vs, bp) <-y yio (read_fields (fs_fields s) vals (o_id hd) (o_size hd) bytesProcessed) ;;
             yput c (YChunk hd (YUser vs)) ;;y
             yret (ok, bp)
           else yundefined UB_type_confusion
       | _ => yundefined UB_type_confusion
       end)
    (fun c => yret tt)
    (fun c bytesProcessed =>
       yfields_of s c (fun hd vals => yio (write_fields (fs_fields s) vals (o_id hd) (o_size hd) bytesProcessed)))
    (fun c =>
       yfields_of s c (fun _ vals =>
         match fs_check s (map snd vals) with
         | None => yret true
         | Some msg => yio (IFF_error msg) ;;y yret false
         end))
    (fun c level => yfields_of s c (fun _ vals => yret (print_fields (fs_fields s) vals level)))
    (fun c1 c2 =>
       '(_, b1) <-y ychunk c1 ;;
       '(_, b2) <-y ychunk c2 ;;
       match b1, b2 with
       | YUser v1, YUser v2 =>
           if fkinds_eqb (map fst v1) (map fd_kind (fs_fields s))
              && fkinds_eqb (map fst v2) (map fd_kind (fs_fields s))
           then yret (vals_eqb v1 v2)
           else yundefined UB_type_confusion
       | _, _ => yundefined UB_type_confusion
       end).

(** The blocks and registries of Heap.v *)
Definition yconv_body (b : body) : ybody fvals :=
  match b with
  | BRaw d => YRaw d
  | BGroup g n arr => YGroup g n arr
  | BList g n arr pn parr => YList g n arr pn parr
  | BFields v => YUser v
  end.

Definition yconv_object (o : object) : yobject fvals :=
  match o with
  | OChunk hd b => YChunk hd (yconv_body b)
  | OData size c => YData size c
  | OArray l => YArray l
  end.

Definition yconv (h : heap) : yheap fvals := map (option_map yconv_object) h.

Definition yconv_handler (h : handler) : yhandler fvals :=
  match h with
  | HForm => YFORM | HCAT => YCAT | HList => YLIST | HProp => YPROP | HRaw => YRAW
  | HFields s => YCALL (yfields_callbacks s)
  end.

Definition yconv_find (rg : option registry) : yfind fvals :=
  fun ft cid => h <-o find_handler (selectChunkRegistry rg) ft cid ;; Done (yconv_handler h).

(** An outcome, with its heap *)
Definition yconv_outcome {A} (o : outcome (A * world * heap)) : outcome (A * world * yheap fvals) :=
  x <-o o ;; (let '(a, w, h) := x in Done (a, w, yconv h)).

(** ** A colour map.  Not in the repository; it does what ILBM_addColorRegister
    style functions do: struct { IFF_Chunk members; unsigned int n; Colour
    *colours; }, grown with realloc for every colour. *)

Inductive cell := CMap (n : nat) (colours : ptr) | Colours (l : list colour).

(** colours, as the struct's pointer designates them *)
Definition ycolours (p : ptr) : Y cell (list colour) :=
  match p with
  | None => yret []
  | Some d =>
      o <-y yload d ;;
      match o with YApp (Colours l) => yret l | _ => yundefined UB_type_confusion end
  end.

(** new = realloc(map->colours, (n + 1) * 3); if(new == NULL) return FALSE; ... *)
Definition yadd_colour (c : addr) (col : colour) : Y cell bool :=
  '(hd, b) <-y ychunk c ;;
  match b with
  | YUser (CMap n p) =>
      l <-y ycolours p ;;
      ok <-y yio (malloc ((Z.of_nat n + 1) * 3)) ;;
      if ok : bool then
        yfree p ;;y
        q <-y (fun e w h => Done (address e w h, w, fill h (address e w h) (YApp (Colours (l ++ [col]))))) ;;
        yput c (YChunk hd (YUser (CMap (S n) (Some q)))) ;;y
        yret true
      else yret false
  | _ => yundefined UB_type_confusion
  end.

Fixpoint yread_colours (k : nat) (c : addr) (i s bp : Z) : Y cell (bool * Z) :=
  match k with
  | O => yret (true, bp)
  | S k' =>
      r <-y yio (IFF_readField FUByte i s "red" bp) ;;
      match r with
      | (FIELD_MORE, Some red, bp1) =>
          g <-y yio (IFF_readField FUByte i s "green" bp1) ;;
          match g with
          | (FIELD_MORE, Some green, bp2) =>
              b <-y yio (IFF_readField FUByte i s "blue" bp2) ;;
              match b with
              | (FIELD_MORE, Some blue, bp3) =>
                  ok <-y yadd_colour c (red, green, blue) ;;
                  if ok : bool then yread_colours k' c i s bp3 else yret (false, bp3)
              | (st, _, bp3) => yret (IFF_deriveSuccess st, bp3)
              end
          | (st, _, bp2) => yret (IFF_deriveSuccess st, bp2)
          end
      | (st, _, bp1) => yret (IFF_deriveSuccess st, bp1)
      end
  end.

Definition ycmap_read (c : addr) (bp : Z) : Y cell (bool * Z) :=
  '(hd, _) <-y ychunk c ;;
  if o_size hd mod 3 =? 0 then yread_colours (Z.to_nat (o_size hd / 3)) c (o_id hd) (o_size hd) bp
  else yret (false, bp).

Definition ycmap_free (c : addr) : Y cell unit :=
  '(_, b) <-y ychunk c ;;
  match b with
  | YUser (CMap _ p) => yfree p
  | _ => yundefined UB_type_confusion
  end.

(** the colours of a struct of the right type *)
Definition ycolours_of {A} (c : addr) (k : header -> list colour -> Y cell A) : Y cell A :=
  '(hd, b) <-y ychunk c ;;
  match b with
  | YUser (CMap n p) => l <-y ycolours p ;; k hd l
  | _ => yundefined UB_type_confusion
  end.

(** The functions that look: as in ExtFields.v.  Checking sorts a copy of the
    colours first, say: it needs memory for a while. *)
Definition ycmap_write (c : addr) (bp : Z) : Y cell (bool * Z) :=
  ycolours_of c (fun hd l => yio (write_colours l (o_id hd) (o_size hd) bp)).
Definition ycmap_check (c : addr) : Y cell bool :=
  ycolours_of c (fun _ l =>
    p <-y ymalloc (3 * zlength l) (YApp (Colours l)) ;;
    match p with
    | None => yret false
    | Some _ =>
        yfree p ;;y
        if zlength l <=? 256 then yret true
        else yio (IFF_error ("Too many colours" ++ nl)%string) ;;y yret false
    end).
Definition ycmap_print (c : addr) (level : nat) : Y cell string :=
  ycolours_of c (fun _ l => yret (dec (zlength l) ++ " colours" ++ nl)%string).
Definition ycmap_compare (c1 c2 : addr) : Y cell bool :=
  ycolours_of c1 (fun _ l1 => ycolours_of c2 (fun _ l2 => yret (colours_eqb l1 l2))).

Definition ycmap_callbacks : ycallbacks cell :=
  mkYCallbacks (fun cid size => ycreateChunk cid size 64 (YUser (CMap 0 None))) ycmap_read ycmap_free
    ycmap_write ycmap_check ycmap_print ycmap_compare.

(** Two that do not do what is asked of them: one forgets its colours, one
    releases the struct as well, which is the library's business. *)
Definition ycmap_forgets : ycallbacks cell :=
  mkYCallbacks (yc_create ycmap_callbacks) ycmap_read (fun c => yret tt)
    ycmap_write ycmap_check ycmap_print ycmap_compare.
Definition ycmap_frees_twice : ycallbacks cell :=
  mkYCallbacks (yc_create ycmap_callbacks) ycmap_read (fun c => ycmap_free c ;;y yfree (Some c))
    ycmap_write ycmap_check ycmap_print ycmap_compare.

(** And one that keeps the copy it made. *)
Definition ycmap_hoards : ycallbacks cell :=
  mkYCallbacks (yc_create ycmap_callbacks) ycmap_read ycmap_free ycmap_write
    (fun c => ycolours_of c (fun _ l => ymalloc (3 * zlength l) (YApp (Colours l)) ;;y yret true))
    ycmap_print ycmap_compare.

(** CMAP chunks in FORMs of a type, everything else as in the default
    registry *)
Definition ycmap_find (form cmap : Z) (cb : ycallbacks cell) : yfind cell :=
  fun ft cid => Done
    (if cid =? IFF_ID_FORM then YFORM
     else if cid =? IFF_ID_CAT then YCAT
     else if cid =? IFF_ID_LIST then YLIST
     else if cid =? IFF_ID_PROP then YPROP
     else if (ft =? form) && (cid =? cmap) then YCALL cb
     else YRAW).
