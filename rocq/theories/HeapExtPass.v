(** * Writing, checking, printing and comparing with application chunk types that
    own memory (definitions only).

    The functions of HeapPass.v once more, with the callbacks of HeapExt.v for
    the chunks of the application. *)

From Coq Require Import ZArith List Bool String.
From Coq Require Import Strings.Byte.
From Verif Require Import Machine Io Types Build Read Write Check Compare Print Iff Heap HeapExt.
Import ListNotations.
Open Scope Z_scope.

Section Pass.
  Context {V : Type}.

  (** The first [n] bytes of a data block, as fwrite, memcmp and the loops of the
      printing functions read them; a block holds no more than its contents *)
  Definition yblock_bytes (p : ptr) (n : Z) : Y V (list byte) :=
    if n <=? 0 then yret []
    else match p with
         | None => yundefined UB_null_deref
         | Some d =>
             o <-y yload d ;;
             match o with
             | YData _ contents => ylift (block_bytes contents n)
             | _ => yundefined UB_type_confusion
             end
         end.

  (** a && b *)
  Definition yandM (m1 m2 : Y V bool) : Y V bool := b <-y m1 ;; if b : bool then m2 else yret false.

  (** A call tree is never deeper than there are blocks. *)
  Definition ybounded {A} (f : nat -> Y V A) : Y V A := fun e w h => f (S (List.length h)) e w h.

  (** ** Writing *)

  (** rawchunk.c 86-102 IFF_writeRawChunk *)
  Definition ywriteRawChunk (c : addr) (bytesProcessed : Z) : Y V (bool * Z) :=
    '(hd, b) <-y ychunk c ;;
    match b with
    | YRaw d =>
        e <-y yio ask ;;
        l <-y yblock_bytes d (wrap_u (size_t_bits e) (o_size hd)) ;;
        ok <-y yio (fwrite l) ;;
        if ok : bool then
          if INT_MAX <? bytesProcessed + o_size hd then yundefined UB_signed_overflow
          else yret (true, bytesProcessed + o_size hd)
        else
          yio (IFF_error "Error writing raw chunk body of chunk '" ;;;
              IFF_errorId (o_id hd) ;;;
              IFF_error ("'" ++ nl)%string) ;;y
          yret (false, bytesProcessed)
    | _ => yundefined UB_type_confusion
    end.

  Section Write.
    Variable write_chunk : addr -> Z -> Y V bool.

    (** the loops of group.c 117-127 and list.c 134-144 *)
    Fixpoint ywrite_all (msg : string) (l : list addr) (formType bytesProcessed : Z) : Y V (bool * Z) :=
      match l with
      | [] => yret (true, bytesProcessed)
      | c :: r =>
          ok <-y write_chunk c formType ;;
          if ok : bool then
            bp <-y yincrementChunkSize bytesProcessed c ;;
            ywrite_all msg r formType bp
          else yio (IFF_error (msg ++ nl)%string) ;;y yret (false, bytesProcessed)
      end.

    (** group.c 132-144 IFF_writeGroup with 113-130 IFF_writeGroupSubChunks *)
    Definition ywriteGroup (c : addr) (groupTypeName : string) (bytesProcessed : Z) : Y V (bool * Z) :=
      '(hd, b) <-y ychunk c ;;
      match b with
      | YGroup g n arr | YList g n arr _ _ =>
          r <-y yio (IFF_writeField FId g (o_id hd) (o_size hd) groupTypeName bytesProcessed) ;;
          match r with
          | (FIELD_MORE, bp) => l <-y yelements arr n ;; ywrite_all "Error writing chunk!" l g bp
          | (st, bp) => yret (IFF_deriveSuccess st, bp)
          end
      | _ => yundefined UB_type_confusion
      end.

    (** list.c 149-164 IFF_writeList with 130-147 writeListPropChunks *)
    Definition ywriteList (c : addr) (bytesProcessed : Z) : Y V (bool * Z) :=
      '(hd, b) <-y ychunk c ;;
      match b with
      | YList g n arr pn parr =>
          r <-y yio (IFF_writeField FId g (o_id hd) (o_size hd) "contentsType" bytesProcessed) ;;
          match r with
          | (FIELD_MORE, bp) =>
              pl <-y yelements parr pn ;;
              r2 <-y ywrite_all "Error writing PROP!" pl 0 bp ;;
              match r2 with
              | (true, bp2) => l <-y yelements arr n ;; ywrite_all "Error writing chunk!" l g bp2
              | (false, bp2) => yret (false, bp2)
              end
          | (st, bp) => yret (IFF_deriveSuccess st, bp)
          end
      | _ => yundefined UB_type_confusion
      end.

    (** chunkType->writeExtensionChunkFields *)
    Definition ywriteExtensionChunkFields (k : yhandler V) (c : addr) (bytesProcessed : Z) : Y V (bool * Z) :=
      match k with
      | YFORM | YPROP => ywriteGroup c "formType" bytesProcessed
      | YCAT => ywriteGroup c "contentsType" bytesProcessed
      | YLIST => ywriteList c bytesProcessed
      | YRAW => ywriteRawChunk c bytesProcessed
      | YCALL cb => yc_write cb c bytesProcessed
      end.

    (** chunk.c 80-88 writeChunkBody *)
    Definition ywriteChunkBody (find : yfind V) (c : addr) (formType : Z) : Y V bool :=
      '(hd, _) <-y ychunk c ;;
      k <-y ylift (find formType (o_id hd)) ;;
      r <-y ywriteExtensionChunkFields k c 0 ;;
      match r with
      | (ok, bp) =>
          yandM (yret ok)
            (yandM (yio (IFF_writeZeroFillerBytes (o_id hd) (o_size hd) bp))
                   (yio (IFF_writePaddingByte (o_size hd) (o_id hd))))
      end.
  End Write.

  (** chunk.c 90-95 IFF_writeChunk; [fuel] bounds the nesting *)
  Fixpoint ywriteChunk (find : yfind V) (fuel : nat) (c : addr) (formType : Z) : Y V bool :=
    match fuel with
    | O => ynofuel
    | S f =>
        '(hd, _) <-y ychunk c ;;
        yandM (yio (IFF_writeId (o_id hd) (o_id hd) "chunkId"))
          (yandM (yio (IFF_writeLong (o_size hd) (o_id hd) "chunkSize"))
             (ywriteChunkBody (ywriteChunk find f) find c formType))
    end.

  (** iff.c 93-96 IFF_writeFd *)
  Definition yIFF_writeFd (c : addr) (find : yfind V) : Y V bool :=
    ybounded (fun n => ywriteChunk find n c 0).

  (** ** Checking *)

  (** form.c 160-172 subChunkCheck *)
  Definition yform_subChunkCheck (group sub : addr) : Y V bool :=
    '(hd, _) <-y ychunk sub ;;
    if o_id hd =? IFF_ID_PROP then yio (not_allowed (o_id hd) "FORM") else yret true.

  (** prop.c 64-79 subChunkCheck *)
  Definition yprop_subChunkCheck (group sub : addr) : Y V bool :=
    '(hd, _) <-y ychunk sub ;;
    if (o_id hd =? IFF_ID_FORM) || (o_id hd =? IFF_ID_LIST)
       || (o_id hd =? IFF_ID_CAT) || (o_id hd =? IFF_ID_PROP)
    then yio (not_allowed (o_id hd) "PROP") else yret true.

  (** cat.c 89-120 IFF_checkCATSubChunk *)
  Definition ycheckCATSubChunk (group sub : addr) : Y V bool :=
    '(hd, b) <-y ychunk sub ;;
    if negb (checkValidCATSubChunkId (o_id hd)) then yio (not_allowed (o_id hd) "CAT")
    else
      '(_, bg) <-y ychunk group ;;
      match ytype_of bg with
      | None => yundefined UB_type_confusion
      | Some contentsType =>
          if negb (contentsType =? IFF_ID_JJJJ) then
            if checkValidCATSubChunkId (o_id hd) then
              match ytype_of b with
              | None => yundefined UB_type_confusion
              | Some groupType =>
                  if negb (groupType =? contentsType) then
                    yio (IFF_error ("Sub form does not match contentsType of the CAT!" ++ nl)%string) ;;y
                    yret false
                  else yret true
              end
            else yret true
          else yret true
      end.

  (** group.c 146-157 IFF_checkGroupChunkSize *)
  Definition ycheckGroupChunkSize (group : addr) (size : Z) : Y V bool :=
    '(hd, _) <-y ychunk group ;;
    if size =? o_size hd then yret true
    else
      yio (IFF_error "Chunk size mismatch! " ;;;
          IFF_errorId (o_id hd) ;;;
          IFF_error (" size: " ++ dec (o_size hd) ++ ", while body has: " ++ dec size ++ nl)%string) ;;y
      yret false.

  Section Check.
    Variable check_chunk : addr -> Z -> Y V bool.

    (** the loop of group.c 164-176 *)
    Fixpoint ycheck_subs (subChunkCheck : addr -> Y V bool) (l : list addr) (formType acc : Z) : Y V Z :=
      match l with
      | [] => yret acc
      | c :: r =>
          ok <-y subChunkCheck c ;;
          if negb ok then yret (-1) else
          ok2 <-y check_chunk c formType ;;
          if negb ok2 then yret (-1) else
          acc' <-y yincrementChunkSize acc c ;;
          ycheck_subs subChunkCheck r formType acc'
      end.

    (** group.c 181-197 IFF_checkGroup with 159-179 IFF_checkGroupSubChunks *)
    Definition ycheckGroup (groupTypeCheck : Z -> M bool) (subChunkCheck : addr -> addr -> Y V bool)
        (group : addr) : Y V bool :=
      '(hd, b) <-y ychunk group ;;
      match b with
      | YGroup g n arr | YList g n arr _ _ =>
          ok <-y yio (groupTypeCheck g) ;;
          if negb ok then yret false else
          l <-y yelements arr n ;;
          size <-y ycheck_subs (subChunkCheck group) l g 0 ;;
          if size =? -1 then yret false else
          size' <-y ylift (add_int size IFF_ID_SIZE) ;;
          ycheckGroupChunkSize group size'
      | _ => yundefined UB_type_confusion
      end.

    (** list.c 184-211 IFF_checkList with 166-182 checkListPropChunks *)
    Definition ycheckList (c : addr) : Y V bool :=
      '(hd, b) <-y ychunk c ;;
      match b with
      | YList g n arr pn parr =>
          ok <-y yio (IFF_checkId g) ;;
          if negb ok then yret false else
          pl <-y yelements parr pn ;;
          s1 <-y ycheck_subs (fun _ => yret true) pl g 0 ;;
          if s1 =? -1 then yret false else
          size1 <-y ylift (add_int IFF_ID_SIZE s1) ;;
          l <-y yelements arr n ;;
          s2 <-y ycheck_subs (ycheckCATSubChunk c) l g 0 ;;
          if s2 =? -1 then yret false else
          size2 <-y ylift (add_int size1 s2) ;;
          ycheckGroupChunkSize c size2
      | _ => yundefined UB_type_confusion
      end.

    (** chunkType->checkExtensionChunk; rawchunk.c 104-107 *)
    Definition ycheckExtensionChunk (k : yhandler V) (c : addr) : Y V bool :=
      match k with
      | YFORM => ycheckGroup IFF_checkFormType yform_subChunkCheck c
      | YCAT => ycheckGroup IFF_checkId ycheckCATSubChunk c
      | YPROP => ycheckGroup IFF_checkFormType yprop_subChunkCheck c
      | YLIST => ycheckList c
      | YRAW => yret true
      | YCALL cb => yc_check cb c
      end.
  End Check.

  (** chunk.c 97-106 IFF_checkChunk; [fuel] bounds the nesting *)
  Fixpoint ycheckChunk (find : yfind V) (fuel : nat) (c : addr) (formType : Z) : Y V bool :=
    match fuel with
    | O => ynofuel
    | S f =>
        '(hd, _) <-y ychunk c ;;
        ok <-y yio (IFF_checkId (o_id hd)) ;;
        if negb ok then yret false
        else
          k <-y ylift (find formType (o_id hd)) ;;
          ycheckExtensionChunk (ycheckChunk find f) k c
    end.

  (** iff.c 127-140 IFF_check *)
  Definition yIFF_check (c : addr) (find : yfind V) : Y V bool :=
    '(hd, _) <-y ychunk c ;;
    if negb (o_id hd =? IFF_ID_FORM) && negb (o_id hd =? IFF_ID_CAT)
       && negb (o_id hd =? IFF_ID_LIST)
    then
      yio (IFF_error ("Not a valid IFF-85 file: First bytes should start with either: 'FORM', 'CAT ' or 'LIST'"
                     ++ nl)%string) ;;y
      yret false
    else ybounded (fun n => ycheckChunk find n c 0).

  (** ** Printing *)

  (** rawchunk.c 115-168 IFF_printText, IFF_printRaw, IFF_printRawChunk *)
  Definition yprintRawChunk (c : addr) (level : nat) : Y V string :=
    '(hd, b) <-y ychunk c ;;
    match b with
    | YRaw d =>
        l <-y yblock_bytes d (o_size hd) ;;
        yret (if o_id hd =? IFF_ID_TEXT then
                (IFF_printIndent level ("text = '" ++ nl) ++ IFF_printIndent (S level) ""
                 ++ text_of l ++ nl ++ IFF_printIndent level ("';" ++ nl))%string
              else
                (IFF_printIndent level ("bytes = " ++ nl) ++ IFF_printIndent (S level) ""
                 ++ print_bytes l 0 level ++ nl ++ IFF_printIndent level (";" ++ nl))%string)
    | _ => yundefined UB_type_confusion
    end.

  Section Print.
    Variable print_chunk : addr -> nat -> Z -> Y V string.

    (** the loops of group.c 222-223 and list.c 236-237 *)
    Fixpoint yprint_all (l : list addr) (level : nat) (formType : Z) : Y V string :=
      match l with
      | [] => yret EmptyString
      | c :: r =>
          s <-y print_chunk c level formType ;;
          t <-y yprint_all r level formType ;;
          yret (s ++ t)%string
      end.

    (** group.c 216-226 IFF_printGroupSubChunks, list.c 230-240 printListPropChunks *)
    Definition yprint_array (opening : string) (arr : ptr) (n : nat) (formType : Z) (level : nat) : Y V string :=
      l <-y yelements arr n ;;
      s <-y yprint_all l (S level) formType ;;
      yret (IFF_printIndent level (opening ++ nl) ++ s ++ IFF_printIndent level ("];" ++ nl))%string.

    (** group.c 228-232 IFF_printGroup *)
    Definition yprintGroup (c : addr) (level : nat) (groupTypeName : string) : Y V string :=
      '(_, b) <-y ychunk c ;;
      match b with
      | YGroup g n arr | YList g n arr _ _ =>
          s <-y yprint_array "[" arr n g level ;;
          yret (IFF_printGroupType groupTypeName g level ++ s)%string
      | _ => yundefined UB_type_confusion
      end.

    (** list.c 242-249 IFF_printList *)
    Definition yprintList (c : addr) (level : nat) : Y V string :=
      '(_, b) <-y ychunk c ;;
      match b with
      | YList g n arr pn parr =>
          s1 <-y yprint_array "prop = [" parr pn g level ;;
          s2 <-y yprint_array "[" arr n g level ;;
          yret (IFF_printGroupType "contentsType" g level ++ s1 ++ s2)%string
      | _ => yundefined UB_type_confusion
      end.

    (** chunkType->printExtensionChunk *)
    Definition yprintExtensionChunk (k : yhandler V) (c : addr) (level : nat) : Y V string :=
      match k with
      | YFORM | YPROP => yprintGroup c level "formType"
      | YCAT => yprintGroup c level "contentsType"
      | YLIST => yprintList c level
      | YRAW => yprintRawChunk c level
      | YCALL cb => yc_print cb c level
      end.
  End Print.

  (** chunk.c 115-125 IFF_printChunk; [fuel] bounds the nesting *)
  Fixpoint yprintChunk (find : yfind V) (fuel : nat) (c : addr) (level : nat) (formType : Z) : Y V string :=
    match fuel with
    | O => ynofuel
    | S f =>
        '(hd, _) <-y ychunk c ;;
        k <-y ylift (find formType (o_id hd)) ;;
        s <-y yprintExtensionChunk (yprintChunk find f) k c level ;;
        yret (IFF_printIndent level "'" ++ IFF_printId (o_id hd) ++ "' = {" ++ nl
              ++ IFF_printIndent (S level) ("chunkSize = " ++ dec (o_size hd) ++ ";" ++ nl)
              ++ s ++ IFF_printIndent level ("}" ++ nl ++ nl))%string
    end.

  (** iff.c 142-145 IFF_print *)
  Definition yIFF_print (c : addr) (level : nat) (find : yfind V) : Y V string :=
    ybounded (fun n => yprintChunk find n c level 0).

  (** ** Comparing *)

  (** rawchunk.c 170-176 IFF_compareRawChunk *)
  Definition ycompareRawChunk (c1 c2 : addr) : Y V bool :=
    '(hd1, b1) <-y ychunk c1 ;;
    '(_, b2) <-y ychunk c2 ;;
    match b1, b2 with
    | YRaw d1, YRaw d2 =>
        e <-y yio ask ;;
        let n := wrap_u (size_t_bits e) (o_size hd1) in
        l1 <-y yblock_bytes d1 n ;;
        l2 <-y yblock_bytes d2 n ;;
        yret (bytes_eqb l1 l2)
    | _, _ => yundefined UB_type_confusion
    end.

  Section Compare.
    Variable compare_chunk : addr -> addr -> Z -> Y V bool.

    (** the loop of group.c 240-244 *)
    Fixpoint ycompare_all (l1 l2 : list addr) (formType : Z) : Y V bool :=
      match l1, l2 with
      | c1 :: r1, c2 :: r2 =>
          b <-y compare_chunk c1 c2 formType ;;
          if b : bool then ycompare_all r1 r2 formType else yret false
      | _, _ => yret true
      end.

    Definition ycompare_members (g1 : Z) (n1 : nat) (arr1 : ptr) (g2 : Z) (n2 : nat) (arr2 : ptr) : Y V bool :=
      if (g1 =? g2) && Nat.eqb n1 n2 then
        l1 <-y yelements arr1 n1 ;;
        l2 <-y yelements arr2 n2 ;;
        ycompare_all l1 l2 g1
      else yret false.

    (** group.c 234-250 IFF_compareGroup *)
    Definition ycompareGroup (c1 c2 : addr) : Y V bool :=
      '(_, b1) <-y ychunk c1 ;;
      '(_, b2) <-y ychunk c2 ;;
      match b1, b2 with
      | YGroup g1 n1 arr1, YGroup g2 n2 arr2 | YGroup g1 n1 arr1, YList g2 n2 arr2 _ _
      | YList g1 n1 arr1 _ _, YGroup g2 n2 arr2 | YList g1 n1 arr1 _ _, YList g2 n2 arr2 _ _ =>
          ycompare_members g1 n1 arr1 g2 n2 arr2
      | _, _ => yundefined UB_type_confusion
      end.

    (** the loop of list.c 257-261 *)
    Fixpoint ycompare_props (p1 p2 : list addr) : Y V bool :=
      match p1, p2 with
      | c1 :: r1, c2 :: r2 =>
          b <-y ycompareGroup c1 c2 ;;
          if b : bool then ycompare_props r1 r2 else yret false
      | _, _ => yret true
      end.

    (** list.c 251-278 compareListPropChunks, IFF_compareList *)
    Definition ycompareList (c1 c2 : addr) : Y V bool :=
      '(_, b1) <-y ychunk c1 ;;
      '(_, b2) <-y ychunk c2 ;;
      match b1, b2 with
      | YList g1 n1 arr1 pn1 parr1, YList g2 n2 arr2 pn2 parr2 =>
          b <-y (if Nat.eqb pn1 pn2 then
                   l1 <-y yelements parr1 pn1 ;;
                   l2 <-y yelements parr2 pn2 ;;
                   ycompare_props l1 l2
                 else yret false) ;;
          if b : bool then ycompare_members g1 n1 arr1 g2 n2 arr2 else yret false
      | _, _ => yundefined UB_type_confusion
      end.

    (** chunkType->compareExtensionChunk *)
    Definition ycompareExtensionChunk (k : yhandler V) (c1 c2 : addr) : Y V bool :=
      match k with
      | YFORM | YCAT | YPROP => ycompareGroup c1 c2
      | YLIST => ycompareList c1 c2
      | YRAW => ycompareRawChunk c1 c2
      | YCALL cb => yc_compare cb c1 c2
      end.
  End Compare.

  (** chunk.c 127-136 IFF_compareChunk; [fuel] bounds the nesting *)
  Fixpoint ycompareChunk (find : yfind V) (fuel : nat) (c1 c2 : addr) (formType : Z) : Y V bool :=
    match fuel with
    | O => ynofuel
    | S f =>
        '(hd1, _) <-y ychunk c1 ;;
        '(hd2, _) <-y ychunk c2 ;;
        if (o_id hd1 =? o_id hd2) && (o_size hd1 =? o_size hd2) then
          k <-y ylift (find formType (o_id hd1)) ;;
          ycompareExtensionChunk (ycompareChunk find f) k c1 c2
        else yret false
    end.

  (** iff.c 147-150 IFF_compare *)
  Definition yIFF_compare (c1 c2 : addr) (find : yfind V) : Y V bool :=
    ybounded (fun n => ycompareChunk find n c1 c2 0).
End Pass.
