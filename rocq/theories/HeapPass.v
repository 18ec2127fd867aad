(** * Writing, checking, printing and comparing on the level of heap blocks
    (definitions only).

    The same functions as in Write.v, Check.v, Print.v and Compare.v, following
    pointers instead of matching on trees. *)

From Coq Require Import ZArith List Bool String.
From Coq Require Import Strings.Byte.
From Verif Require Import Machine Io Types Build Read Write Check Compare Print Iff Heap.
Import ListNotations.
Open Scope Z_scope.

(** The first [n] bytes of a data block, as fwrite, memcmp and the loops of the
    printing functions read them; a block holds no more than its contents *)
Definition hblock_bytes (p : ptr) (n : Z) : H (list byte) :=
  if n <=? 0 then hret []
  else match p with
       | None => hundefined UB_null_deref
       | Some d =>
           o <-h hload d ;;
           match o with
           | OData _ contents => hlift (block_bytes contents n)
           | _ => hundefined UB_type_confusion
           end
       end.

(** a && b *)
Definition handM (m1 m2 : H bool) : H bool := b <-h m1 ;; if b : bool then m2 else hret false.

(** A call tree is never deeper than there are blocks. *)
Definition hbounded {A} (f : nat -> H A) : H A := fun e w h => f (S (List.length h)) e w h.

(** ** Writing *)

(** rawchunk.c 86-102 IFF_writeRawChunk *)
Definition hwriteRawChunk (c : addr) (bytesProcessed : Z) : H (bool * Z) :=
  '(hd, b) <-h hchunk c ;;
  match b with
  | BRaw d =>
      e <-h io ask ;;
      l <-h hblock_bytes d (wrap_u (size_t_bits e) (o_size hd)) ;;
      ok <-h io (fwrite l) ;;
      if ok : bool then
        if INT_MAX <? bytesProcessed + o_size hd then hundefined UB_signed_overflow
        else hret (true, bytesProcessed + o_size hd)
      else
        io (IFF_error "Error writing raw chunk body of chunk '" ;;;
            IFF_errorId (o_id hd) ;;;
            IFF_error ("'" ++ nl)%string) ;;h
        hret (false, bytesProcessed)
  | _ => hundefined UB_type_confusion
  end.

(** tests/hello.c 65-80 TEST_writeHello *)
Definition hwrite_fields_chunk (s : fspec) (c : addr) (bytesProcessed : Z) : H (bool * Z) :=
  '(hd, b) <-h hchunk c ;;
  match b with
  | BFields vals =>
      if fkinds_eqb (map fst vals) (map fd_kind (fs_fields s))
      then io (write_fields (fs_fields s) vals (o_id hd) (o_size hd) bytesProcessed)
      else hundefined UB_type_confusion
  | _ => hundefined UB_type_confusion
  end.

Section Write.
  Variable write_chunk : addr -> Z -> H bool.

  (** the loops of group.c 117-127 and list.c 134-144 *)
  Fixpoint hwrite_all (msg : string) (l : list addr) (formType bytesProcessed : Z) : H (bool * Z) :=
    match l with
    | [] => hret (true, bytesProcessed)
    | c :: r =>
        ok <-h write_chunk c formType ;;
        if ok : bool then
          bp <-h hincrementChunkSize bytesProcessed c ;;
          hwrite_all msg r formType bp
        else io (IFF_error (msg ++ nl)%string) ;;h hret (false, bytesProcessed)
    end.

  (** group.c 132-144 IFF_writeGroup with 113-130 IFF_writeGroupSubChunks *)
  Definition hwriteGroup (c : addr) (groupTypeName : string) (bytesProcessed : Z) : H (bool * Z) :=
    '(hd, b) <-h hchunk c ;;
    match b with
    | BGroup g n arr | BList g n arr _ _ =>
        r <-h io (IFF_writeField FId g (o_id hd) (o_size hd) groupTypeName bytesProcessed) ;;
        match r with
        | (FIELD_MORE, bp) => l <-h helements arr n ;; hwrite_all "Error writing chunk!" l g bp
        | (st, bp) => hret (IFF_deriveSuccess st, bp)
        end
    | _ => hundefined UB_type_confusion
    end.

  (** list.c 149-164 IFF_writeList with 130-147 writeListPropChunks *)
  Definition hwriteList (c : addr) (bytesProcessed : Z) : H (bool * Z) :=
    '(hd, b) <-h hchunk c ;;
    match b with
    | BList g n arr pn parr =>
        r <-h io (IFF_writeField FId g (o_id hd) (o_size hd) "contentsType" bytesProcessed) ;;
        match r with
        | (FIELD_MORE, bp) =>
            pl <-h helements parr pn ;;
            r2 <-h hwrite_all "Error writing PROP!" pl 0 bp ;;
            match r2 with
            | (true, bp2) => l <-h helements arr n ;; hwrite_all "Error writing chunk!" l g bp2
            | (false, bp2) => hret (false, bp2)
            end
        | (st, bp) => hret (IFF_deriveSuccess st, bp)
        end
    | _ => hundefined UB_type_confusion
    end.

  (** chunkType->writeExtensionChunkFields *)
  Definition hwriteExtensionChunkFields (k : handler) (c : addr) (bytesProcessed : Z) : H (bool * Z) :=
    match k with
    | HForm | HProp => hwriteGroup c "formType" bytesProcessed
    | HCAT => hwriteGroup c "contentsType" bytesProcessed
    | HList => hwriteList c bytesProcessed
    | HRaw => hwriteRawChunk c bytesProcessed
    | HFields s => hwrite_fields_chunk s c bytesProcessed
    end.

  (** chunk.c 80-88 writeChunkBody *)
  Definition hwriteChunkBody (rg : option registry) (c : addr) (formType : Z) : H bool :=
    '(hd, _) <-h hchunk c ;;
    k <-h hlift (find_handler rg formType (o_id hd)) ;;
    r <-h hwriteExtensionChunkFields k c 0 ;;
    match r with
    | (ok, bp) =>
        handM (hret ok)
          (handM (io (IFF_writeZeroFillerBytes (o_id hd) (o_size hd) bp))
                 (io (IFF_writePaddingByte (o_size hd) (o_id hd))))
    end.
End Write.

(** chunk.c 90-95 IFF_writeChunk; [fuel] bounds the nesting *)
Fixpoint hwriteChunk (rg : option registry) (fuel : nat) (c : addr) (formType : Z) : H bool :=
  match fuel with
  | O => hnofuel
  | S f =>
      '(hd, _) <-h hchunk c ;;
      handM (io (IFF_writeId (o_id hd) (o_id hd) "chunkId"))
        (handM (io (IFF_writeLong (o_size hd) (o_id hd) "chunkSize"))
           (hwriteChunkBody (hwriteChunk rg f) rg c formType))
  end.

(** iff.c 93-96 IFF_writeFd *)
Definition hIFF_writeFd (c : addr) (rg : option registry) : H bool :=
  hbounded (fun n => hwriteChunk (selectChunkRegistry rg) n c 0).

(** ** Checking *)

(** form.c 160-172 subChunkCheck *)
Definition hform_subChunkCheck (group sub : addr) : H bool :=
  '(hd, _) <-h hchunk sub ;;
  if o_id hd =? IFF_ID_PROP then io (not_allowed (o_id hd) "FORM") else hret true.

(** prop.c 64-79 subChunkCheck *)
Definition hprop_subChunkCheck (group sub : addr) : H bool :=
  '(hd, _) <-h hchunk sub ;;
  if (o_id hd =? IFF_ID_FORM) || (o_id hd =? IFF_ID_LIST)
     || (o_id hd =? IFF_ID_CAT) || (o_id hd =? IFF_ID_PROP)
  then io (not_allowed (o_id hd) "PROP") else hret true.

(** cat.c 89-120 IFF_checkCATSubChunk *)
Definition hcheckCATSubChunk (group sub : addr) : H bool :=
  '(hd, b) <-h hchunk sub ;;
  if negb (checkValidCATSubChunkId (o_id hd)) then io (not_allowed (o_id hd) "CAT")
  else
    '(_, bg) <-h hchunk group ;;
    match type_of bg with
    | None => hundefined UB_type_confusion
    | Some contentsType =>
        if negb (contentsType =? IFF_ID_JJJJ) then
          if checkValidCATSubChunkId (o_id hd) then
            match type_of b with
            | None => hundefined UB_type_confusion
            | Some groupType =>
                if negb (groupType =? contentsType) then
                  io (IFF_error ("Sub form does not match contentsType of the CAT!" ++ nl)%string) ;;h
                  hret false
                else hret true
            end
          else hret true
        else hret true
    end.

(** group.c 146-157 IFF_checkGroupChunkSize *)
Definition hcheckGroupChunkSize (group : addr) (size : Z) : H bool :=
  '(hd, _) <-h hchunk group ;;
  if size =? o_size hd then hret true
  else
    io (IFF_error "Chunk size mismatch! " ;;;
        IFF_errorId (o_id hd) ;;;
        IFF_error (" size: " ++ dec (o_size hd) ++ ", while body has: " ++ dec size ++ nl)%string) ;;h
    hret false.

Section Check.
  Variable check_chunk : addr -> Z -> H bool.

  (** the loop of group.c 164-176 *)
  Fixpoint hcheck_subs (subChunkCheck : addr -> H bool) (l : list addr) (formType acc : Z) : H Z :=
    match l with
    | [] => hret acc
    | c :: r =>
        ok <-h subChunkCheck c ;;
        if negb ok then hret (-1) else
        ok2 <-h check_chunk c formType ;;
        if negb ok2 then hret (-1) else
        acc' <-h hincrementChunkSize acc c ;;
        hcheck_subs subChunkCheck r formType acc'
    end.

  (** group.c 181-197 IFF_checkGroup with 159-179 IFF_checkGroupSubChunks *)
  Definition hcheckGroup (groupTypeCheck : Z -> M bool) (subChunkCheck : addr -> addr -> H bool)
      (group : addr) : H bool :=
    '(hd, b) <-h hchunk group ;;
    match b with
    | BGroup g n arr | BList g n arr _ _ =>
        ok <-h io (groupTypeCheck g) ;;
        if negb ok then hret false else
        l <-h helements arr n ;;
        size <-h hcheck_subs (subChunkCheck group) l g 0 ;;
        if size =? -1 then hret false else
        size' <-h hlift (add_int size IFF_ID_SIZE) ;;
        hcheckGroupChunkSize group size'
    | _ => hundefined UB_type_confusion
    end.

  (** list.c 184-211 IFF_checkList with 166-182 checkListPropChunks *)
  Definition hcheckList (c : addr) : H bool :=
    '(hd, b) <-h hchunk c ;;
    match b with
    | BList g n arr pn parr =>
        ok <-h io (IFF_checkId g) ;;
        if negb ok then hret false else
        pl <-h helements parr pn ;;
        s1 <-h hcheck_subs (fun _ => hret true) pl g 0 ;;
        if s1 =? -1 then hret false else
        size1 <-h hlift (add_int IFF_ID_SIZE s1) ;;
        l <-h helements arr n ;;
        s2 <-h hcheck_subs (hcheckCATSubChunk c) l g 0 ;;
        if s2 =? -1 then hret false else
        size2 <-h hlift (add_int size1 s2) ;;
        hcheckGroupChunkSize c size2
    | _ => hundefined UB_type_confusion
    end.

  (** tests/hello.c 82-93 TEST_checkHello *)
  Definition hcheck_fields_chunk (s : fspec) (c : addr) : H bool :=
    '(_, b) <-h hchunk c ;;
    match b with
    | BFields vals =>
        if fkinds_eqb (map fst vals) (map fd_kind (fs_fields s)) then
          match fs_check s (map snd vals) with
          | None => hret true
          | Some msg => io (IFF_error msg) ;;h hret false
          end
        else hundefined UB_type_confusion
    | _ => hundefined UB_type_confusion
    end.

  (** chunkType->checkExtensionChunk; rawchunk.c 104-107 *)
  Definition hcheckExtensionChunk (k : handler) (c : addr) : H bool :=
    match k with
    | HForm => hcheckGroup IFF_checkFormType hform_subChunkCheck c
    | HCAT => hcheckGroup IFF_checkId hcheckCATSubChunk c
    | HProp => hcheckGroup IFF_checkFormType hprop_subChunkCheck c
    | HList => hcheckList c
    | HRaw => hret true
    | HFields s => hcheck_fields_chunk s c
    end.
End Check.

(** chunk.c 97-106 IFF_checkChunk; [fuel] bounds the nesting *)
Fixpoint hcheckChunk (rg : option registry) (fuel : nat) (c : addr) (formType : Z) : H bool :=
  match fuel with
  | O => hnofuel
  | S f =>
      '(hd, _) <-h hchunk c ;;
      ok <-h io (IFF_checkId (o_id hd)) ;;
      if negb ok then hret false
      else
        k <-h hlift (find_handler rg formType (o_id hd)) ;;
        hcheckExtensionChunk (hcheckChunk rg f) k c
  end.

(** iff.c 127-140 IFF_check *)
Definition hIFF_check (c : addr) (rg : option registry) : H bool :=
  '(hd, _) <-h hchunk c ;;
  if negb (o_id hd =? IFF_ID_FORM) && negb (o_id hd =? IFF_ID_CAT)
     && negb (o_id hd =? IFF_ID_LIST)
  then
    io (IFF_error ("Not a valid IFF-85 file: First bytes should start with either: 'FORM', 'CAT ' or 'LIST'"
                   ++ nl)%string) ;;h
    hret false
  else hbounded (fun n => hcheckChunk (selectChunkRegistry rg) n c 0).

(** ** Printing *)

(** rawchunk.c 115-168 IFF_printText, IFF_printRaw, IFF_printRawChunk *)
Definition hprintRawChunk (c : addr) (level : nat) : H string :=
  '(hd, b) <-h hchunk c ;;
  match b with
  | BRaw d =>
      l <-h hblock_bytes d (o_size hd) ;;
      hret (if o_id hd =? IFF_ID_TEXT then
              (IFF_printIndent level ("text = '" ++ nl) ++ IFF_printIndent (S level) ""
               ++ text_of l ++ nl ++ IFF_printIndent level ("';" ++ nl))%string
            else
              (IFF_printIndent level ("bytes = " ++ nl) ++ IFF_printIndent (S level) ""
               ++ print_bytes l 0 level ++ nl ++ IFF_printIndent level (";" ++ nl))%string)
  | _ => hundefined UB_type_confusion
  end.

(** tests/hello.c 99-106 TEST_printHello *)
Definition hprint_fields_chunk (s : fspec) (c : addr) (level : nat) : H string :=
  '(_, b) <-h hchunk c ;;
  match b with
  | BFields vals =>
      if fkinds_eqb (map fst vals) (map fd_kind (fs_fields s))
      then hret (print_fields (fs_fields s) vals level)
      else hundefined UB_type_confusion
  | _ => hundefined UB_type_confusion
  end.

Section Print.
  Variable print_chunk : addr -> nat -> Z -> H string.

  (** the loops of group.c 222-223 and list.c 236-237 *)
  Fixpoint hprint_all (l : list addr) (level : nat) (formType : Z) : H string :=
    match l with
    | [] => hret EmptyString
    | c :: r =>
        s <-h print_chunk c level formType ;;
        t <-h hprint_all r level formType ;;
        hret (s ++ t)%string
    end.

  (** group.c 216-226 IFF_printGroupSubChunks, list.c 230-240 printListPropChunks *)
  Definition hprint_array (opening : string) (arr : ptr) (n : nat) (formType : Z) (level : nat) : H string :=
    l <-h helements arr n ;;
    s <-h hprint_all l (S level) formType ;;
    hret (IFF_printIndent level (opening ++ nl) ++ s ++ IFF_printIndent level ("];" ++ nl))%string.

  (** group.c 228-232 IFF_printGroup *)
  Definition hprintGroup (c : addr) (level : nat) (groupTypeName : string) : H string :=
    '(_, b) <-h hchunk c ;;
    match b with
    | BGroup g n arr | BList g n arr _ _ =>
        s <-h hprint_array "[" arr n g level ;;
        hret (IFF_printGroupType groupTypeName g level ++ s)%string
    | _ => hundefined UB_type_confusion
    end.

  (** list.c 242-249 IFF_printList *)
  Definition hprintList (c : addr) (level : nat) : H string :=
    '(_, b) <-h hchunk c ;;
    match b with
    | BList g n arr pn parr =>
        s1 <-h hprint_array "prop = [" parr pn g level ;;
        s2 <-h hprint_array "[" arr n g level ;;
        hret (IFF_printGroupType "contentsType" g level ++ s1 ++ s2)%string
    | _ => hundefined UB_type_confusion
    end.

  (** chunkType->printExtensionChunk *)
  Definition hprintExtensionChunk (k : handler) (c : addr) (level : nat) : H string :=
    match k with
    | HForm | HProp => hprintGroup c level "formType"
    | HCAT => hprintGroup c level "contentsType"
    | HList => hprintList c level
    | HRaw => hprintRawChunk c level
    | HFields s => hprint_fields_chunk s c level
    end.
End Print.

(** chunk.c 115-125 IFF_printChunk; [fuel] bounds the nesting *)
Fixpoint hprintChunk (rg : option registry) (fuel : nat) (c : addr) (level : nat) (formType : Z) : H string :=
  match fuel with
  | O => hnofuel
  | S f =>
      '(hd, _) <-h hchunk c ;;
      k <-h hlift (find_handler rg formType (o_id hd)) ;;
      s <-h hprintExtensionChunk (hprintChunk rg f) k c level ;;
      hret (IFF_printIndent level "'" ++ IFF_printId (o_id hd) ++ "' = {" ++ nl
            ++ IFF_printIndent (S level) ("chunkSize = " ++ dec (o_size hd) ++ ";" ++ nl)
            ++ s ++ IFF_printIndent level ("}" ++ nl ++ nl))%string
  end.

(** iff.c 142-145 IFF_print *)
Definition hIFF_print (c : addr) (level : nat) (rg : option registry) : H string :=
  hbounded (fun n => hprintChunk (selectChunkRegistry rg) n c level 0).

(** ** Comparing *)

(** rawchunk.c 170-176 IFF_compareRawChunk *)
Definition hcompareRawChunk (c1 c2 : addr) : H bool :=
  '(hd1, b1) <-h hchunk c1 ;;
  '(_, b2) <-h hchunk c2 ;;
  match b1, b2 with
  | BRaw d1, BRaw d2 =>
      e <-h io ask ;;
      let n := wrap_u (size_t_bits e) (o_size hd1) in
      l1 <-h hblock_bytes d1 n ;;
      l2 <-h hblock_bytes d2 n ;;
      hret (bytes_eqb l1 l2)
  | _, _ => hundefined UB_type_confusion
  end.

(** tests/hello.c 108-123 TEST_compareHello *)
Definition hcompare_fields_chunk (s : fspec) (c1 c2 : addr) : H bool :=
  '(_, b1) <-h hchunk c1 ;;
  '(_, b2) <-h hchunk c2 ;;
  match b1, b2 with
  | BFields v1, BFields v2 =>
      if fkinds_eqb (map fst v1) (map fd_kind (fs_fields s))
         && fkinds_eqb (map fst v2) (map fd_kind (fs_fields s))
      then hret (vals_eqb v1 v2)
      else hundefined UB_type_confusion
  | _, _ => hundefined UB_type_confusion
  end.

Section Compare.
  Variable compare_chunk : addr -> addr -> Z -> H bool.

  (** the loop of group.c 240-244 *)
  Fixpoint hcompare_all (l1 l2 : list addr) (formType : Z) : H bool :=
    match l1, l2 with
    | c1 :: r1, c2 :: r2 =>
        b <-h compare_chunk c1 c2 formType ;;
        if b : bool then hcompare_all r1 r2 formType else hret false
    | _, _ => hret true
    end.

  Definition hcompare_members (g1 : Z) (n1 : nat) (arr1 : ptr) (g2 : Z) (n2 : nat) (arr2 : ptr) : H bool :=
    if (g1 =? g2) && Nat.eqb n1 n2 then
      l1 <-h helements arr1 n1 ;;
      l2 <-h helements arr2 n2 ;;
      hcompare_all l1 l2 g1
    else hret false.

  (** group.c 234-250 IFF_compareGroup *)
  Definition hcompareGroup (c1 c2 : addr) : H bool :=
    '(_, b1) <-h hchunk c1 ;;
    '(_, b2) <-h hchunk c2 ;;
    match b1, b2 with
    | BGroup g1 n1 arr1, BGroup g2 n2 arr2 | BGroup g1 n1 arr1, BList g2 n2 arr2 _ _
    | BList g1 n1 arr1 _ _, BGroup g2 n2 arr2 | BList g1 n1 arr1 _ _, BList g2 n2 arr2 _ _ =>
        hcompare_members g1 n1 arr1 g2 n2 arr2
    | _, _ => hundefined UB_type_confusion
    end.

  (** the loop of list.c 257-261 *)
  Fixpoint hcompare_props (p1 p2 : list addr) : H bool :=
    match p1, p2 with
    | c1 :: r1, c2 :: r2 =>
        b <-h hcompareGroup c1 c2 ;;
        if b : bool then hcompare_props r1 r2 else hret false
    | _, _ => hret true
    end.

  (** list.c 251-278 compareListPropChunks, IFF_compareList *)
  Definition hcompareList (c1 c2 : addr) : H bool :=
    '(_, b1) <-h hchunk c1 ;;
    '(_, b2) <-h hchunk c2 ;;
    match b1, b2 with
    | BList g1 n1 arr1 pn1 parr1, BList g2 n2 arr2 pn2 parr2 =>
        b <-h (if Nat.eqb pn1 pn2 then
                 l1 <-h helements parr1 pn1 ;;
                 l2 <-h helements parr2 pn2 ;;
                 hcompare_props l1 l2
               else hret false) ;;
        if b : bool then hcompare_members g1 n1 arr1 g2 n2 arr2 else hret false
    | _, _ => hundefined UB_type_confusion
    end.

  (** chunkType->compareExtensionChunk *)
  Definition hcompareExtensionChunk (k : handler) (c1 c2 : addr) : H bool :=
    match k with
    | HForm | HCAT | HProp => hcompareGroup c1 c2
    | HList => hcompareList c1 c2
    | HRaw => hcompareRawChunk c1 c2
    | HFields s => hcompare_fields_chunk s c1 c2
    end.
End Compare.

(** chunk.c 127-136 IFF_compareChunk; [fuel] bounds the nesting *)
Fixpoint hcompareChunk (rg : option registry) (fuel : nat) (c1 c2 : addr) (formType : Z) : H bool :=
  match fuel with
  | O => hnofuel
  | S f =>
      '(hd1, _) <-h hchunk c1 ;;
      '(hd2, _) <-h hchunk c2 ;;
      if (o_id hd1 =? o_id hd2) && (o_size hd1 =? o_size hd2) then
        k <-h hlift (find_handler rg formType (o_id hd1)) ;;
        hcompareExtensionChunk (hcompareChunk rg f) k c1 c2
      else hret false
  end.

(** iff.c 147-150 IFF_compare *)
Definition hIFF_compare (c1 c2 : addr) (rg : option registry) : H bool :=
  hbounded (fun n => hcompareChunk (selectChunkRegistry rg) n c1 c2 0).
