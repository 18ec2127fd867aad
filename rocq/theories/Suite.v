(** * The project's own test suite, run on the model

    Not a property: evidence that the model behaves like the code.  Every test
    of tests/Makefile.am 128-140 is transcribed, with the data files of
    /repo/tests byte by byte, and run on the heap model (which the theorems
    relate to the tree model).  Each must end with the exit status the test
    driver expects, 0, on every kind of host. *)

From Coq Require Import ZArith List Bool String.
From Coq Require Import Strings.Byte.
From Verif Require Import Machine Io Types Build Read Write Check Compare Print Iff Main
  Heap HeapSearch HeapPass HeapTools TestExt.
Import ListNotations.
Open Scope Z_scope.

(** The files of /repo/tests the test programs read: name and contents *)
Definition test_files : list (string * list byte) :=
  [ ("extension-otherform.TEST"%string,
     [x46; x4f; x52; x4d; x00; x00; x00; x20; x46; x4f; x4f; x20; x48; x45; x4c; x4f; x00; x00; x00; x04; x61; x62;
      x10; x00; x42; x59; x45; x20; x00; x00; x00; x08; x00; x00; x00; x01; x00; x00; x00; x02]);
    ("invalid.IFF"%string,
     [x41; x42; x43; x44; x00; x00; x00; x04; x61; x62; x63; x64]);
    ("invalidcat-contentstype.TEST"%string,
     [x43; x41; x54; x20; x00; x00; x00; x4e; x46; x49; x52; x53; x46; x4f; x52; x4d; x00; x00; x00; x1c; x46; x49;
      x52; x53; x48; x45; x4c; x4f; x00; x00; x00; x04; x61; x62; x63; x64; x42; x59; x45; x20; x00; x00; x00; x03;
      x45; x46; x47; x00; x46; x4f; x52; x4d; x00; x00; x00; x1e; x53; x45; x43; x4f; x48; x45; x4c; x4f; x00; x00;
      x00; x05; x61; x62; x63; x64; x65; x00; x42; x59; x45; x20; x00; x00; x00; x04; x46; x47; x48; x49]);
    ("invalidcat-prop.TEST"%string,
     [x43; x41; x54; x20; x00; x00; x00; x1c; x54; x45; x53; x54; x50; x52; x4f; x50; x00; x00; x00; x10; x54; x45;
      x53; x54; x41; x42; x43; x44; x00; x00; x00; x04; x61; x62; x63; x64]);
    ("invalidcat-raw.TEST"%string,
     [x43; x41; x54; x20; x00; x00; x00; x10; x54; x45; x53; x54; x41; x42; x43; x44; x00; x00; x00; x04; x61; x62;
      x63; x64]);
    ("invalidcat-size.TEST"%string,
     [x43; x41; x54; x20; x00; x00; x00; x4c; x54; x45; x53; x54; x46; x4f; x52; x4d; x00; x00; x00; x1c; x54; x45;
      x53; x54; x48; x45; x4c; x4f; x00; x00; x00; x04; x61; x62; x63; x64; x42; x59; x45; x20; x00; x00; x00; x03;
      x45; x46; x47; x00; x46; x4f; x52; x4d; x00; x00; x00; x1e; x54; x45; x53; x54; x48; x45; x4c; x4f; x00; x00;
      x00; x05; x61; x62; x63; x64; x65; x00; x42; x59; x45; x20; x00; x00; x00; x04; x46; x47; x48; x49]);
    ("invalidform-prop.TEST"%string,
     [x46; x4f; x52; x4d; x00; x00; x00; x1c; x54; x45; x53; x54; x50; x52; x4f; x50; x00; x00; x00; x10; x54; x45;
      x53; x54; x41; x42; x43; x44; x00; x00; x00; x04; x61; x62; x63; x64]);
    ("invalidform-size1.TEST"%string,
     [x46; x4f; x52; x4d; x00; x00; x00; x18; x54; x45; x53; x54; x48; x45; x4c; x4f; x00; x00; x00; x04; x61; x62;
      x63; x64; x42; x59; x45; x20; x00; x00; x00; x04; x45; x46; x47; x48]);
    ("invalidform-size2.TEST"%string,
     [x46; x4f; x52; x4d; x00; x00; x00; x1d; x54; x45; x53; x54; x48; x45; x4c; x4f; x00; x00; x00; x04; x61; x62;
      x63; x64; x42; x59; x45; x20; x00; x00; x00; x05; x45; x46; x47; x48; x49; x00]);
    ("invalidformtype1.TEST"%string,
     [x46; x4f; x52; x4d; x00; x00; x00; x10; x54; x65; x53; x74; x41; x42; x43; x44; x00; x00; x00; x04; x61; x62;
      x63; x64]);
    ("invalidformtype2.TEST"%string,
     [x46; x4f; x52; x4d; x00; x00; x00; x10; x2e; x54; x53; x54; x41; x42; x43; x44; x00; x00; x00; x04; x61; x62;
      x63; x64]);
    ("invalidformtype3.TEST"%string,
     [x46; x4f; x52; x4d; x00; x00; x00; x10; x54; x08; x53; x54; x41; x42; x43; x44; x00; x00; x00; x04; x61; x62;
      x63; x64]);
    ("invalidformtype4.TEST"%string,
     [x46; x4f; x52; x4d; x00; x00; x00; x10; x46; x4f; x52; x4d; x41; x42; x43; x44; x00; x00; x00; x04; x61; x62;
      x63; x64]);
    ("invalidid1.TEST"%string,
     [x46; x4f; x52; x4d; x00; x00; x00; x10; x54; x45; x53; x54; x41; x42; x43; x08; x00; x00; x00; x04; x61; x62;
      x63; x64]);
    ("invalidid2.TEST"%string,
     [x46; x4f; x52; x4d; x00; x00; x00; x10; x54; x45; x53; x54; x20; x41; x42; x43; x00; x00; x00; x04; x61; x62;
      x63; x64]);
    ("invalidlist-contentstype.TEST"%string,
     [x4c; x49; x53; x54; x00; x00; x00; x4c; x46; x49; x52; x53; x50; x52; x4f; x50; x00; x00; x00; x10; x54; x45;
      x53; x54; x48; x45; x4c; x4f; x00; x00; x00; x04; x71; x77; x65; x72; x46; x4f; x52; x4d; x00; x00; x00; x10;
      x46; x49; x52; x53; x42; x59; x45; x20; x00; x00; x00; x04; x61; x62; x63; x64; x46; x4f; x52; x4d; x00; x00;
      x00; x10; x53; x45; x43; x4f; x42; x59; x45; x20; x00; x00; x00; x04; x45; x46; x47; x48]);
    ("invalidlist-negsize.TEST"%string,
     [x4c; x49; x53; x54; x00; x00; x00; x4a; x54; x45; x53; x54; x50; x52; x4f; x50; x00; x00; x00; x10; x54; x45;
      x53; x54; x48; x45; x4c; x4f; xf0; x00; x00; x00; x04; x71; x77; x65; x72; x46; x4f; x52; x4d; x00; x00; x00;
      x10; x54; x45; x53; x54; x42; x59; x45; x20; x00; x00; x00; x04; x61; x62; x63; x64; x46; x4f; x52; x4d; x00;
      x00; x00; x10; x54; x45; x53; x54; x42; x59; x45; x20; x00; x00; x00; x04; x45; x46; x47; x48]);
    ("invalidlist-raw.TEST"%string,
     [x4c; x49; x53; x54; x00; x00; x00; x10; x54; x45; x53; x54; x41; x42; x43; x44; x00; x00; x00; x04; x61; x62;
      x63; x64]);
    ("invalidlist-size.TEST"%string,
     [x4c; x49; x53; x54; x00; x00; x00; x4a; x54; x45; x53; x54; x50; x52; x4f; x50; x00; x00; x00; x10; x54; x45;
      x53; x54; x48; x45; x4c; x4f; x00; x00; x00; x04; x71; x77; x65; x72; x46; x4f; x52; x4d; x00; x00; x00; x10;
      x54; x45; x53; x54; x42; x59; x45; x20; x00; x00; x00; x04; x61; x62; x63; x64; x46; x4f; x52; x4d; x00; x00;
      x00; x10; x54; x45; x53; x54; x42; x59; x45; x20; x00; x00; x00; x04; x45; x46; x47; x48]);
    ("invalidprop-size.TEST"%string,
     [x4c; x49; x53; x54; x00; x00; x00; x4c; x54; x45; x53; x54; x50; x52; x4f; x50; x00; x00; x00; x0e; x54; x45;
      x53; x54; x48; x45; x4c; x4f; x00; x00; x00; x04; x71; x77; x65; x72; x46; x4f; x52; x4d; x00; x00; x00; x10;
      x54; x45; x53; x54; x42; x59; x45; x20; x00; x00; x00; x04; x61; x62; x63; x64; x46; x4f; x52; x4d; x00; x00;
      x00; x10; x54; x45; x53; x54; x42; x59; x45; x20; x00; x00; x00; x04; x45; x46; x47; x48]);
    ("invalidprop.TEST"%string,
     [x4c; x49; x53; x54; x00; x00; x00; x28; x54; x45; x53; x54; x50; x52; x4f; x50; x00; x00; x00; x1c; x54; x45;
      x53; x54; x46; x4f; x52; x4d; x00; x00; x00; x10; x54; x45; x53; x54; x41; x42; x43; x44; x00; x00; x00; x04;
      x61; x62; x63; x64]);
    ("join.BYE"%string,
     [x46; x4f; x52; x4d; x00; x00; x00; x10; x42; x59; x45; x20; x51; x57; x45; x52; x00; x00; x00; x04; x71; x77;
      x65; x72]);
    ("join.HELO"%string,
     [x46; x4f; x52; x4d; x00; x00; x00; x10; x48; x45; x4c; x4f; x41; x42; x43; x44; x00; x00; x00; x04; x61; x62;
      x63; x64]);
    ("lookupproperty-nested.TEST"%string,
     [x4c; x49; x53; x54; x00; x00; x00; x58; x54; x45; x53; x54; x50; x52; x4f; x50; x00; x00; x00; x10; x54; x45;
      x53; x54; x48; x45; x4c; x4f; x00; x00; x00; x04; x31; x32; x33; x34; x46; x4f; x52; x4d; x00; x00; x00; x10;
      x54; x45; x53; x54; x42; x59; x45; x20; x00; x00; x00; x04; x61; x62; x63; x64; x4c; x49; x53; x54; x00; x00;
      x00; x1c; x54; x45; x53; x54; x46; x4f; x52; x4d; x00; x00; x00; x10; x54; x45; x53; x54; x42; x59; x45; x20;
      x00; x00; x00; x04; x71; x77; x65; x72]);
    ("lookupproperty-override.TEST"%string,
     [x4c; x49; x53; x54; x00; x00; x00; x58; x54; x45; x53; x54; x50; x52; x4f; x50; x00; x00; x00; x10; x54; x45;
      x53; x54; x48; x45; x4c; x4f; x00; x00; x00; x04; x71; x77; x65; x72; x46; x4f; x52; x4d; x00; x00; x00; x1c;
      x54; x45; x53; x54; x48; x45; x4c; x4f; x00; x00; x00; x04; x31; x32; x33; x34; x42; x59; x45; x20; x00; x00;
      x00; x04; x61; x62; x63; x64; x46; x4f; x52; x4d; x00; x00; x00; x10; x54; x45; x53; x54; x42; x59; x45; x20;
      x00; x00; x00; x04; x45; x46; x47; x48]);
    ("pp-text.TEST"%string,
     [x46; x4f; x52; x4d; x00; x00; x00; x18; x48; x45; x4c; x4f; x54; x45; x58; x54; x00; x00; x00; x0b; x48; x65;
      x6c; x6c; x6f; x20; x77; x6f; x72; x6c; x64; x00]);
    ("validcat-wildcard.TEST"%string,
     [x43; x41; x54; x20; x00; x00; x00; x4e; x4a; x4a; x4a; x4a; x46; x4f; x52; x4d; x00; x00; x00; x1c; x46; x49;
      x52; x53; x48; x45; x4c; x4f; x00; x00; x00; x04; x61; x62; x63; x64; x42; x59; x45; x20; x00; x00; x00; x03;
      x45; x46; x47; x00; x46; x4f; x52; x4d; x00; x00; x00; x1e; x53; x45; x43; x4f; x48; x45; x4c; x4f; x00; x00;
      x00; x05; x61; x62; x63; x64; x65; x00; x42; x59; x45; x20; x00; x00; x00; x04; x46; x47; x48; x49]);
    ("validlist-wildcard.TEST"%string,
     [x4c; x49; x53; x54; x00; x00; x00; x4c; x4a; x4a; x4a; x4a; x50; x52; x4f; x50; x00; x00; x00; x10; x54; x45;
      x53; x54; x48; x45; x4c; x4f; x00; x00; x00; x04; x71; x77; x65; x72; x46; x4f; x52; x4d; x00; x00; x00; x10;
      x46; x49; x52; x53; x42; x59; x45; x20; x00; x00; x00; x04; x61; x62; x63; x64; x46; x4f; x52; x4d; x00; x00;
      x00; x10; x53; x45; x43; x4f; x42; x59; x45; x20; x00; x00; x00; x04; x45; x46; x47; x48]) ].

(** ** The trees the tests build *)

Definition chars (s : string) : list byte := list_byte_of_string s.
Definition make_id (s : string) : Z := le_load (rev (chars s)).
Definition ID_HELO : Z := make_id "HELO".
Definition ID_BYE : Z := make_id "BYE ".
Definition ID_TEST : Z := make_id "TEST".
Definition ID_BLA : Z := make_id "BLA ".
Definition ID_ABCD : Z := make_id "ABCD".

(** The tests do not look at the results of the constructors *)
Definition need (m : H ptr) : H addr :=
  p <-h m ;; match p with Some a => hret a | None => hundefined UB_null_deref end.

(** createTestDataChunk: catdata.c 43-49, formdata.c 38-44, formdata-pad.c
    38-44, listdata.c 42-48, nestedformdata.c 43-49 *)
Definition data_chunk (cid : Z) (data : string) : H addr :=
  c <-h need (hcreateRawChunk cid (zlength (chars data))) ;;
  hcopyData c (chars data) ;;h
  hret c.

(** form.c 78-81 IFF_addToForm, cat.c 68-71 IFF_addToCAT, prop.c 49-52
    IFF_addToProp and list.c 74-77 IFF_addToList forward to IFF_addToGroup *)
Fixpoint add_each (group : addr) (l : list addr) : H unit :=
  match l with
  | [] => hret tt
  | c :: r => haddToGroup group c ;;h add_each group r
  end.
Definition group_of (cid groupType : Z) (members : list addr) : H addr :=
  g <-h need (hcreateEmptyGroup cid groupType) ;;
  add_each g members ;;h
  hret g.

(** formdata.c 56-66 and formdata-pad.c 56-66 IFF_createTestForm (the order of
    the allocations differs, and does not matter) *)
Definition test_form (bye : string) : H addr :=
  h <-h data_chunk ID_HELO "abcd" ;;
  b <-h data_chunk ID_BYE bye ;;
  group_of IFF_ID_FORM ID_TEST [h; b].

(** catdata.c 71-95 and nestedformdata.c 71-95 *)
Definition two_forms : H (addr * addr) :=
  h1 <-h data_chunk ID_HELO "abcd" ;;
  b1 <-h data_chunk ID_BYE "EFG" ;;
  f1 <-h group_of IFF_ID_FORM ID_TEST [h1; b1] ;;
  h2 <-h data_chunk ID_HELO "abcde" ;;
  b2 <-h data_chunk ID_BYE "FGHI" ;;
  f2 <-h group_of IFF_ID_FORM ID_TEST [h2; b2] ;;
  hret (f1, f2).
(** catdata.c 97-107 IFF_createTestCAT *)
Definition test_cat : H addr := '(f1, f2) <-h two_forms ;; group_of IFF_ID_CAT ID_TEST [f1; f2].
(** nestedformdata.c 97-107 IFF_createTestForm *)
Definition test_nested : H addr := '(f1, f2) <-h two_forms ;; group_of IFF_ID_FORM ID_BLA [f1; f2].

(** listdata.c 94-106 IFF_createTestList *)
Definition test_list : H addr :=
  h <-h data_chunk ID_HELO "qwer" ;;
  p <-h group_of IFF_ID_PROP ID_TEST [h] ;;
  b1 <-h data_chunk ID_BYE "abcd" ;;
  f1 <-h group_of IFF_ID_FORM ID_TEST [b1] ;;
  b2 <-h data_chunk ID_BYE "EFGH" ;;
  f2 <-h group_of IFF_ID_FORM ID_TEST [b2] ;;
  l <-h need (hcreateList IFF_ID_SIZE ID_TEST) ;;
  haddPropToList l p ;;h
  add_each l [f1; f2] ;;h
  hret l.

(** hello.h 31, bye.h 31; an application chunk of the given size whose fields
    are then set (those not mentioned are 0 after TEST_createHello) *)
Definition fields_chunk (s : fspec) (cid size : Z) (vals : list Z) : H addr :=
  c <-h need (hcreate_fields s cid size) ;;
  '(hd, b) <-h hchunk c ;;
  hstore c (OChunk hd (BFields (combine (map fd_kind (fs_fields s)) vals))) ;;h
  hret c.
(** extensiondata.c 28-59, extensiondata-truncated.c 28-57,
    extensiondata-truncated2.c 28-57, extensiondata-extended.c 28-57 *)
Definition test_extension (helloExtra byeExtra c two : Z) : H addr :=
  h <-h fields_chunk TEST_Hello TEST_ID_HELO (4 + helloExtra) [97; 98; c] ;;
  b <-h fields_chunk TEST_Bye TEST_ID_BYE (8 + byeExtra) [1; two] ;;
  group_of IFF_ID_FORM TEST_ID_TEST [h; b].

(** ** The test programs: each yields its exit status *)

Definition test := HS Z.
Definition not (b : bool) : Z := if b then 0 else 1.     (* !b, as an exit status *)
Definition if_read (f : string) (rg : option registry) (null : Z) (k : addr -> HS Z) : test :=
  p <-hs hIFF_read (Some f) rg ;;
  match p with None => hretS null | Some c => k c end.
Definition finally (c : addr) (rg : option registry) (status : Z) : HS Z :=
  u <-hs hno_streams (hIFF_free c rg) ;; hretS status.

(** writeform.c 27-33 and the other write*.c *)
Definition writes (f : string) (rg : option registry) (build : H addr) : test :=
  c <-hs hno_streams build ;;
  ok <-hs hIFF_write (Some f) c rg ;;
  finally c rg (not ok).

(** readform.c 26-45 and the other read*.c *)
Definition reads (f : string) (rg : option registry) (build : H addr) : test :=
  if_read f rg 1 (fun chunk =>
    form <-hs hno_streams build ;;
    same <-hs hno_streams (hIFF_compare chunk form rg) ;;
    u <-hs finally chunk rg 0 ;;
    finally form rg (not same)).

(** validiff.c 25-37 *)
Definition valid (f : string) : test :=
  if_read f None 1 (fun c => ok <-hs hno_streams (hIFF_check c None) ;; finally c None (not ok)).
(** invalidiff.c 25-37; checkextension.c 25-37 with another result for a file
    that cannot be read *)
Definition invalid_with (f : string) (rg : option registry) (null : Z) : test :=
  if_read f rg null (fun c => ok <-hs hno_streams (hIFF_check c rg) ;; finally c rg (if ok : bool then 1 else 0)).
Definition invalid (f : string) : test := invalid_with f None 0.

(** searchforms-form.c 30-52, searchforms-cat.c, searchforms-nestedform.c *)
Definition searches (f : string) (expected : nat) : test :=
  if_read f None 1 (fun c =>
    r <-hs hno_streams (hIFF_searchForms c ID_TEST) ;;
    finally c None (not (Nat.eqb (snd r) expected))).

(** The checks of lookupproperty-*.c on a chunk found: [contents] when the
    test looks at them.  [missing]: the status for NULL. *)
Definition looks_like (p : ptr) (cid : Z) (contents : option string) (missing : bool) : H bool :=
  match p with
  | None => hret missing
  | Some c =>
      '(hd, b) <-h hchunk c ;;
      match contents, b with
      | None, _ => hret (o_id hd =? cid)
      | Some s, BRaw d =>
          if (o_id hd =? cid) && (o_size hd =? 4) then
            l <-h hblock_bytes d 4 ;; hret (bytes_eqb l (chars s))
          else hret false
      | Some _, _ => hundefined UB_type_confusion
      end
  end.
(** lookupproperty-simple.c 30-61 *)
Definition lookup_simple : test :=
  if_read "hello.TEST" None 1 (fun c =>
    hb <-hs hno_streams (hchunk c) ;;
    if o_id (fst hb) =? IFF_ID_FORM then
      p <-hs hno_streams (hIFF_getChunkFromForm c ID_HELO) ;;
      ok <-hs hno_streams (looks_like p ID_HELO None false) ;;
      finally c None (not ok)
    else finally c None 1).
(** lookupproperty-prop.c 31-63, lookupproperty-override.c 34-85,
    lookupproperty-nested.c 36-110: [n] is the form looked at *)
Definition lookups (f : string) (enough : nat -> bool) (n : nat)
    (helo : option string) (bye : option string) : test :=
  if_read f None 1 (fun c =>
    r <-hs hno_streams (hIFF_searchForms c ID_TEST) ;;
    if enough (snd r) then
      l <-hs hno_streams (helements (fst r) (snd r)) ;;
      match nth_error l n with
      | None => hundefinedS UB_out_of_bounds
      | Some form =>
          p <-hs hno_streams (hIFF_getChunkFromForm form ID_HELO) ;;
          ok1 <-hs hno_streams (looks_like p ID_HELO helo false) ;;
          ok2 <-hs match bye with
                   | None => hretS true
                   | Some s =>
                       q <-hs hno_streams (hIFF_getChunkFromForm form ID_BYE) ;;
                       hno_streams (looks_like q ID_BYE (Some s) true)
                   end ;;
          finally c None (not (ok1 && ok2))
      end
    else finally c None 1).

(** updatechunksizes.c 35-94; the added byte is not written *)
Definition updates : test :=
  abcd <-hs hno_streams (data_chunk ID_ABCD "ABCD") ;;
  form <-hs hno_streams (group_of IFF_ID_FORM ID_TEST [abcd]) ;;
  cat <-hs hno_streams (group_of IFF_ID_CAT ID_TEST [form]) ;;
  hb <-hs hno_streams (hchunk abcd) ;;
  u <-hs match hb with
         | (hd, BRaw (Some d)) =>
             hno_streams (p <-h hmalloc 5 (OData 5 None) ;;
                          hfree (Some d) ;;h
                          hstore abcd (OChunk (set_size hd 5) (BRaw p)))
         | _ => hundefinedS UB_type_confusion
         end ;;
  before <-hs hno_streams (hIFF_check cat None) ;;
  if before : bool then finally cat None 1
  else
    v <-hs hno_streams (hIFF_updateChunkSizes abcd) ;;
    after <-hs hno_streams (hIFF_check cat None) ;;
    finally cat None (not after).

(** Whether grep would print a line for a text without newlines *)
Definition contains (s text : string) : bool :=
  match String.index 0 s text with Some _ => true | None => false end.

(** ppextension.c 25-37: status and standard output *)
Definition ppextension (f : string) : HS (Z * string) :=
  p <-hs hIFF_read (Some f) (Some TEST_chunkRegistry) ;;
  match p with
  | None => hretS (1, EmptyString)
  | Some c =>
      t <-hs hno_streams (hIFF_print c 0 (Some TEST_chunkRegistry)) ;;
      u <-hs hno_streams (hIFF_free c (Some TEST_chunkRegistry)) ;;
      hretS (0, t)
  end.
(** pp-text.sh, ppextension-c.sh, ppextension-otherform.sh: test looks at what
    grep printed *)
Definition greps (prog : HS (Z * string)) (s : string) (expected : bool) : test :=
  r <-hs prog ;; hretS (not (Bool.eqb (contains s (snd r)) expected)).

(** join-identical.sh, join-different.sh: the exit status is that of the last
    command; the command line is read by the model of iffjoin/main.c *)
Definition joins (a b : string) : test :=
  match join_options "" "iffjoin" (Getopt true true) ["-o"; "join.IFF"; a; b]%string with
  | Quit z _ => hretS z
  | Go (output, inputs) => z <-hs hIFF_join inputs output ;; valid "join.IFF"
  end.
(** iffpp with one operand *)
Definition iffpp (f : string) : HS (Z * string) :=
  match pp_options "" "iffpp" (Getopt true true) [f] with
  | Quit z t => hretS (z, t)
  | Go (options, filename) => hIFF_prettyPrint filename options
  end.

(** ** The suite: tests/Makefile.am 128-140, in its order *)

Definition TEST_ : option registry := Some TEST_chunkRegistry.
Definition suite : list (string * test) :=
  [ ("writeform", writes "hello.TEST" None (test_form "EFGH"));
    ("readform", reads "hello.TEST" None (test_form "EFGH"));
    ("writeform-pad", writes "hello-pad.TEST" None (test_form "EFGHI"));
    ("readform-pad", reads "hello-pad.TEST" None (test_form "EFGHI"));
    ("writenestedform", writes "nestedform.TEST" None test_nested);
    ("readnestedform", reads "nestedform.TEST" None test_nested);
    ("writecat", writes "cat.TEST" None test_cat);
    ("readcat", reads "cat.TEST" None test_cat);
    ("writelist", writes "list.TEST" None test_list);
    ("readlist", reads "list.TEST" None test_list);
    ("validform.sh", valid "hello.TEST");
    ("validcat.sh", valid "cat.TEST");
    ("validcat-wildcard.sh", valid "validcat-wildcard.TEST");
    ("validlist.sh", valid "list.TEST");
    ("validlist-wildcard.sh", valid "validlist-wildcard.TEST");
    ("invalidiff.sh", invalid "invalid.IFF");
    ("invalidid1.sh", invalid "invalidid1.TEST");
    ("invalidid2.sh", invalid "invalidid2.TEST");
    ("invalidformtype1.sh", invalid "invalidformtype1.TEST");
    ("invalidformtype2.sh", invalid "invalidformtype2.TEST");
    ("invalidformtype3.sh", invalid "invalidformtype3.TEST");
    ("invalidformtype4.sh", invalid "invalidformtype4.TEST");
    ("invalidform-prop.sh", invalid "invalidform-prop.TEST");
    ("invalidform-size1.sh", invalid "invalidform-size1.TEST");
    ("invalidform-size2.sh", invalid "invalidform-size2.TEST");
    ("invalidcat-raw.sh", invalid "invalidcat-raw.TEST");
    ("invalidcat-prop.sh", invalid "invalidcat-prop.TEST");
    ("invalidcat-contentstype.sh", invalid "invalidcat-contentstype.TEST");
    ("invalidcat-size.sh", invalid "invalidcat-size.TEST");
    ("invalidlist-raw.sh", invalid "invalidlist-raw.TEST");
    ("invalidlist-contentstype.sh", invalid "invalidlist-contentstype.TEST");
    ("invalidlist-size.sh", invalid "invalidlist-size.TEST");
    ("invalidprop.sh", invalid "invalidprop.TEST");
    ("invalidprop-size.sh", invalid "invalidprop-size.TEST");
    ("invalidlist-negsize.sh", invalid "invalidlist-negsize.TEST");
    ("pp-text.sh", greps (iffpp "pp-text.TEST") "Hello world" true);
    ("searchforms-form", searches "hello.TEST" 1);
    ("searchforms-cat", searches "cat.TEST" 2);
    ("searchforms-nestedform", searches "nestedform.TEST" 2);
    ("updatechunksizes", updates);
    ("lookupproperty-simple", lookup_simple);
    ("lookupproperty-prop", lookups "list.TEST" (fun n => Nat.ltb 0 n) 0 None None);
    ("lookupproperty-override", lookups "lookupproperty-override.TEST" (Nat.eqb 2) 0 (Some "1234"%string) None);
    ("lookupproperty-nested", lookups "lookupproperty-nested.TEST" (Nat.eqb 2) 1 (Some "1234"%string) (Some "qwer"%string));
    ("join-identical.sh", joins "join.HELO" "join.HELO");
    ("join-different.sh", joins "join.HELO" "join.BYE");
    ("writeextension", writes "extension.TEST" TEST_ (test_extension 0 0 4096 2));
    ("readextension", reads "extension.TEST" TEST_ (test_extension 0 0 4096 2));
    ("checkextension", invalid_with "extension.TEST" TEST_ 1);
    ("ppextension-c.sh", greps (ppextension "extension.TEST") "4096" true);
    ("ppextension-otherform.sh", greps (ppextension "extension-otherform.TEST") "4096" false);
    ("writeextension-truncated", writes "extension-truncated.TEST" TEST_ (test_extension (-2) (-4) 0 0));
    ("readextension-truncated", reads "extension-truncated.TEST" TEST_ (test_extension (-2) (-4) 0 0));
    ("writeextension-truncated2", writes "extension-truncated2.TEST" TEST_ (test_extension (-1) (-2) 0 0));
    ("readextension-truncated2", reads "extension-truncated2.TEST" TEST_ (test_extension (-1) (-2) 0 0));
    ("writeextension-extended", writes "extension-extended.TEST" TEST_ (test_extension 2 4 0 0));
    ("readextension-extended", reads "extension-extended.TEST" TEST_ (test_extension 2 4 0 0)) ]%string.

(** Each test is a process with memory of its own; the files stay.  For each:
    its name, its exit status, and how many blocks it leaves allocated. *)
Definition still_allocated (h : heap) : nat :=
  List.length (filter (fun o => match o with Some _ => true | None => false end) h).
Fixpoint run_suite (l : list (string * test)) (e : env) (s : sys) : outcome (list (string * Z * nat)) :=
  match l with
  | [] => Done []
  | (name, t) :: r =>
      match t e s [] with
      | Done (z, s', h) => rest <-o run_suite r e s' ;; Done ((name, z, still_allocated h) :: rest)
      | Undefined u => Undefined u
      | OutOfFuel => OutOfFuel
      end
  end.

(** The directory of the tests before they are run *)
Definition tests_dir (bufsize : nat) : sys :=
  mkSys (fun n => match find (fun f => String.eqb (fst f) n) test_files with
                  | Some f => Some (snd f)
                  | None => None
                  end)
        (fun _ => true) (fun _ => None) bufsize (mkRfile [] true) (mkWfile [] [] bufsize None) [] 0.

Definition all_pass (r : outcome (list (string * Z * nat))) : bool :=
  match r with
  | Done l => Nat.eqb (List.length l) 57 && forallb (fun t => snd (fst t) =? 0) l
  | _ => false
  end.

(** Whatever the byte order, the signedness of char, the size of long and what
    printing a pointer shows, with buffered and with unbuffered output, with an
    allocator that never uses an address again and with two that do *)
Theorem suite_passes : forall be cs long g pl bufsize, In pl [(fun n => n); (fun _ => 0%nat); (fun n => Nat.modulo (7 * n) 11)] -> bufsize = 0%nat \/ bufsize = 16%nat ->
  all_pass (run_suite suite (mkEnv be cs long false (fun _ _ => true) g pl) (tests_dir bufsize)) = true.
Proof. intros be cs long g pl bufsize [<-|[<-|[<-|[]]]] [->| ->]; destruct be, cs, long; vm_compute; reflexivity. Qed.
Print Assumptions suite_passes.

(** The tests that leave memory allocated are those that search forms: the
    arrays of the searches (C65) *)
Example suite_leaks :
  match run_suite suite (mkEnv false true true false (fun _ _ => true) 0 (fun _ => 0%nat)) (tests_dir 16) with
  | Done l => map (fun t => fst (fst t)) (filter (fun t => negb (Nat.eqb (snd t) 0)) l)
  | _ => []
  end = ["searchforms-form"; "searchforms-cat"; "searchforms-nestedform";
         "lookupproperty-prop"; "lookupproperty-override"; "lookupproperty-nested"]%string.
Proof. vm_compute. reflexivity. Qed.
