(** * C90: programs in memory compute what they compute on values, and programs
    that share the memory do not disturb each other

    The models of the other files that talk about chunk trees as values are
    models of what a program that uses the library observes: whatever sequence of
    calls it makes, the pointers it holds stand for the trees the value model
    gives, the answers are the same, and nothing else in memory changes.  And if
    several programs (or several parts of one program) use the library in turn,
    in any order, every one of them observes what it would observe alone. *)

From Coq Require Import ZArith List Bool String Lia.
From Coq Require Import Strings.Byte.
From Verif Require Import Machine Io Types Build Read Write Search Spec Heap HeapSpec SessionSpec SessionSearchProofs SessionProofs Examples TestExt PropFields.
Import ListNotations.
Open Scope Z_scope.

(** One program, any legal list of statements, with the library's own chunk kinds
    or with those of any registry that finds what it registers, and any memory to
    begin with.  The
    run in memory ends as the run on values does: with the same answers, the
    same output, log and position in the input, and with every variable
    pointing at the tree it holds; or with the same undefined behaviour. *)
Theorem C90_program : forall rg app p e w h, Realises (selectChunkRegistry rg) app -> Forall legal p ->
  match vrun rg p nothing e w with
  | Done ((l, V), w') => exists P h', hrun rg p nothing e w h = Done ((l, P), w', h') /\
      (forall x, holds h' (P x) (V x)) /\ (forall x y, x <> y -> apart h' (P x) (P y)) /\
      preserves h h' /\ (forall x a u, P x = Some a -> Owns h' a u -> lookup h u = None)
  | Undefined u => hrun rg p nothing e w h = Undefined u
  | OutOfFuel => hrun rg p nothing e w h = OutOfFuel
  end.
Proof.
  intros rg app p e w h RG LG. pose proof (run_ok rg app RG p h nothing nothing (fun _ => []) e w LG (Good_start h)) as R.
  destruct (vrun rg p nothing e w) as [[[l V] w']|u|]; [|exact R|exact R]. destruct R as (P & h' & F & E & G & (LE & K & N)). exists P, h'.
  split; [exact E|]. split; [intro x; exact (Good_holds _ _ _ _ x G)|]. split; [|split].
  - intros x y NE. apply (entries_apart h' (P x) (P y) (V x) (V y) (F x) (F y)); [apply G|apply G|]. intros u I. exact (proj2 G x y u NE I).
  - intros u L. apply K; [exact L|]. intros x [].
  - intros x a u PX O. pose proof (proj1 G x) as EN. rewrite PX in EN. destruct (V x) as [c|]; [|contradiction].
    assert (I : In u (F x)) by (apply (HeapReachProofs.tree_blocks _ _ _ _ _ (proj1 EN)); exact O). apply (N x u I). intros z [].
Qed.
Print Assumptions C90_program.

(** Several programs in any order: if each of them, alone and on values, comes to
    its end, then together in memory they do too.  Every one gets the answers it
    gets alone, produces the same output and the same log; its variables point at
    the trees they hold; no two variables, of one program or of two, share a
    block; and the memory that was there before is as it was. *)
Theorem C90_schedules : forall R A E W sch h L V W', (forall t, Realises (selectChunkRegistry (R t)) (A t)) -> Forall (fun x => legal (snd x)) sch ->
  (forall t, vrun (R t) (mine t sch) nothing (E t) (W t) = Done ((L t, V t), W' t)) ->
  exists l m, take_turns R E sch (mkMachine h W (fun _ => nothing)) = Done (l, m) /\
    (forall t, mine t l = L t /\ m_world m t = W' t /\ forall x, holds (m_heap m) (m_vars m t x) (V t x)) /\
    (forall t x t' x', (t, x) <> (t', x') -> apart (m_heap m) (m_vars m t x) (m_vars m t' x')) /\
    preserves h (m_heap m).
Proof.
  intros R A E W sch h L V W' RG LG AL. pose proof (turns_ok R A E h RG sch _ _ _ LG (Together_start h W)) as X. cbn [m_world] in X.
  destruct (take_turns R E sch _) as [[l m]|u|]; [|destruct X as (t & X); rewrite AL in X; discriminate|destruct X as (t & X); rewrite AL in X; discriminate].
  destruct X as (C & F & (GD & DJ & OLD) & X). exists l, m. split; [reflexivity|]. split; [|split].
  - intro t. specialize (X t). rewrite AL in X. injection X as -> EC ->. split; [reflexivity|]. split; [reflexivity|]. intro x. rewrite EC. exact (Good_holds _ _ _ _ x (GD t)).
  - intros t x t' x' NE. apply (entries_apart (m_heap m) _ _ (C t x) (C t' x') (F t x) (F t' x')); [apply GD|apply GD|]. intros u I J.
    destruct (Nat.eq_dec t t') as [<-|NT]; [|exact (DJ t t' x x' u NT I J)]. apply (proj2 (GD t) x x' u); [congruence|exact I|exact J].
  - intros u LU. exact (proj1 (OLD u LU)).
Qed.
Print Assumptions C90_schedules.

(** And conversely: what happens together happens alone.  If the programs come to
    their end together, each does alone, with the same answers; if they meet
    undefined behaviour, one of them does alone. *)
Theorem C90_alone : forall R A E W sch h, (forall t, Realises (selectChunkRegistry (R t)) (A t)) -> Forall (fun x => legal (snd x)) sch ->
  match take_turns R E sch (mkMachine h W (fun _ => nothing)) with
  | Done (l, m) => forall t, exists V, vrun (R t) (mine t sch) nothing (E t) (W t) = Done ((mine t l, V), m_world m t) /\ forall x, holds (m_heap m) (m_vars m t x) (V x)
  | Undefined u => exists t, vrun (R t) (mine t sch) nothing (E t) (W t) = Undefined u
  | OutOfFuel => exists t, vrun (R t) (mine t sch) nothing (E t) (W t) = OutOfFuel
  end.
Proof.
  intros R A E W sch h RG LG. pose proof (turns_ok R A E h RG sch _ _ _ LG (Together_start h W)) as X. cbn [m_world] in X.
  destruct (take_turns R E sch _) as [[l m]|u|]; [|exact X|exact X]. destruct X as (C & F & (GD & _) & X). intro t. exists (C t). split; [exact (X t)|]. intro x. exact (Good_holds _ _ _ _ x (GD t)).
Qed.
Print Assumptions C90_alone.

(** The order does not matter: two schedules of the same programs, in any two
    memories, give every program the same answers, output and log. *)
Theorem C90_order : forall R A E W sch sch' h h' l m, (forall t, Realises (selectChunkRegistry (R t)) (A t)) ->
  Forall (fun x => legal (snd x)) sch -> Forall (fun x => legal (snd x)) sch' ->
  (forall t, mine t sch' = mine t sch) ->
  take_turns R E sch (mkMachine h W (fun _ => nothing)) = Done (l, m) ->
  exists l' m', take_turns R E sch' (mkMachine h' W (fun _ => nothing)) = Done (l', m') /\
    forall t, mine t l' = mine t l /\ m_world m' t = m_world m t /\
      forall x, exists o, holds (m_heap m) (m_vars m t x) o /\ holds (m_heap m') (m_vars m' t x) o.
Proof.
  intros R A E W sch sch' h h' l m RG LG LG' SAME RUN. pose proof (turns_ok R A E h RG sch _ _ _ LG (Together_start h W)) as X. rewrite RUN in X. destruct X as (C & F & (GD & _) & X). cbn [m_world] in X.
  destruct (C90_schedules R A E W sch' h' (fun t => mine t l) C (fun t => m_world m t) RG LG') as (l' & m' & E' & AL & _).
  - intro t. rewrite SAME. apply X.
  - exists l', m'. split; [exact E'|]. intro t. destruct (AL t) as (A1 & A2 & A3). split; [exact A1|]. split; [exact A2|]. intro x. exists (C t x). split; [exact (Good_holds _ _ _ _ x (GD t))|apply A3].
Qed.
Print Assumptions C90_order.

(** Searches in programs allocate arrays, and memory may run out.  When it does
    not, they find the chunks that C35 to C38 speak of. *)
Theorem C90_searches : forall c e w l w',
  (forall types, vsearchFormsFromArray types c e w = Done (l, w') -> IFF_searchFormsFromArray types c = Done l) /\
  (forall cid, vgetChunksFromForm c cid e w = Done (l, w') -> IFF_getChunksFromForm c cid = Done l).
Proof. intros c e w l w'. split; [intro types; apply vsearch_is|intro cid; apply vgets_is]. Qed.
Print Assumptions C90_searches.

(** ** An example: one program, with an application's registry, builds a FORM
    with a text chunk and a struct of the application, updates it, writes it and
    releases it, while another, with the library's own chunk kinds, reads a file,
    looks a chunk up, changes it and prints. *)
Definition ex_registry : option registry := Some TEST_scopedRegistry.
Definition ex_builder : list stmt :=
  [ SGroup 0 FORM_ID TEST_ID_TEST; SFields 1 TEST_Hello TEST_ID_HELO 4; SSet 1 [] 0 97; SSet 1 [] 2 65543; SAdd 0 [] 1;
    SRaw 1 (ID_of "BODY") 4; SCopy 1 [] (bytes "wxyz"); SAdd 0 [] 1; SText 0 [InSub 1] (bytes "uvwxyz"); SUpdate 0 [InSub 1];
    SCheck 0; SFind 0 [] TEST_ID_HELO; SWrite 0; SFree 0; SWrite 0 ].
Definition ex_reader : list stmt :=
  [ SOpen (encode ex_form) true; SRead 0; SRead 5; SFind 0 [] (ID_of "HELO"); SData 0 [InSub 0] (bytes "hi"); SUpdate 0 [InSub 0];
    SLook 0 []; SCompare 0 0; SLook 0 [InSub 7]; SPrint 0 1; SFree 0 ].
Fixpoint shuffle (a b : list stmt) : schedule :=
  match a, b with
  | s :: r, t :: q => (0%nat, s) :: (1%nat, t) :: shuffle r q
  | [], q => map (pair 1%nat) q
  | r, [] => map (pair 0%nat) r
  end.
Definition ex_schedule : schedule := shuffle ex_builder ex_reader.
Definition ex_registries (t : nat) : option registry := match t with O => ex_registry | _ => None end.

Example C90_example_legal : Forall (fun x => legal (snd x)) ex_schedule /\ mine 0 ex_schedule = ex_builder /\ mine 1 ex_schedule = ex_reader /\
  exists A, forall t, Realises (selectChunkRegistry (ex_registries t)) (A t).
Proof.
  split; [|split; [vm_compute; reflexivity|split; [vm_compute; reflexivity|]]].
  - unfold ex_schedule, ex_builder, ex_reader. cbn [shuffle map].
    repeat constructor; cbn [snd legal]; try exact I; try discriminate; try (vm_compute; intuition congruence).
  - exists (fun t => match t with O => RegProofs.app_of TEST_scopedRegistry | _ => no_apps end). intros [|t]; [exact scoped_realises|exact HeapToolsProofs.default_none].
Qed.

(** Together, in a memory in which somebody else's block is already there; the
    builder's file is the one it would have written alone, and the second write,
    after the release, is refused because the variable is NULL.  The value 65543
    does not fit the 16-bit field: 7 is stored. *)
Example C90_example :
  let two := take_turns ex_registries (fun _ => host false) ex_schedule (mkMachine [Some (OArray [])] (fun _ => start []) (fun _ => nothing)) in
  match two with
  | Done (l, m) =>
      mine 0 l = [AOk; AOk; AOk; AOk; AOk; AOk; AOk; AOk; AOk; AOk; ABool true; ASees TEST_ID_HELO 4 None [(FUByte, 97); (FUByte, 0); (FUWord, 7)]; ABool true; AOk; ANull] /\
      firstn 9 (mine 1 l) = [AOk; AOk; ANull; ASees (ID_of "HELO") 3 (Some (Some (bytes "abc"))) []; AOk; AOk; ASees FORM_ID 26 None []; ABool true; ANull] /\
      (o_dev (w_out (m_world m 0%nat)) ++ o_buf (w_out (m_world m 0%nat)))%list =
        encode (CGroup FORM_ID 30 TEST_ID_TEST [CFields TEST_ID_HELO 4 [(FUByte, 97); (FUByte, 0); (FUWord, 7)]; raw "BODY" "uvwxyz"]) /\
      lookup (m_heap m) 0%nat = Some (OArray [])
  | _ => False
  end /\
  match take_turns ex_registries (fun _ => host false) (map (pair 1%nat) ex_reader ++ map (pair 0%nat) ex_builder) (mkMachine [] (fun _ => start []) (fun _ => nothing)), two with
  | Done (l', _), Done (l, _) => mine 0 l' = mine 0 l /\ mine 1 l' = mine 1 l
  | _, _ => False
  end.
Proof. vm_compute. repeat split; reflexivity. Qed.

(** A program that adds data to a chunk that is no raw chunk meets the same
    undefined behaviour in both; and so does one that releases a struct of the
    application with the library's own chunk kinds, which take it for a raw
    chunk. *)
Example C90_example_undefined :
  vrun None [SGroup 0 FORM_ID (ID_of "TEST"); SText 0 [] (bytes "x")] nothing (host true) (start []) = Undefined UB_type_confusion /\
  hrun None [SGroup 0 FORM_ID (ID_of "TEST"); SText 0 [] (bytes "x")] nothing (host true) (start []) [] = Undefined UB_type_confusion /\
  vrun None [SFields 0 TEST_Hello TEST_ID_HELO 4; SFree 0] nothing (host true) (start []) = Undefined UB_type_confusion /\
  hrun None [SFields 0 TEST_Hello TEST_ID_HELO 4; SFree 0] nothing (host true) (start []) [] = Undefined UB_type_confusion.
Proof. vm_compute. repeat split; reflexivity. Qed.

(** A search: the forms of two types below a concatenation that holds a form of a
    third type, whose members are searched in turn.  The array of results is
    released by the program; the blocks of the tree are all that is left besides
    the arrays the library itself loses. *)
Definition ex_searcher : list stmt :=
  [ SGroup 0 CAT_ID (ID_of "JJJJ");
    SGroup 1 FORM_ID (ID_of "AAAA"); SAdd 0 [] 1;
    SGroup 1 FORM_ID (ID_of "CCCC"); SGroup 2 FORM_ID (ID_of "BBBB"); SRaw 3 (ID_of "BODY") 1; SAdd 2 [] 3; SAdd 1 [] 2;
    SRaw 3 (ID_of "NAME") 2; SAdd 1 [] 3; SRaw 3 (ID_of "BODY") 3; SCopy 3 [] (bytes "abc"); SAdd 1 [] 3; SRaw 3 (ID_of "NAME") 4; SAdd 1 [] 3; SAdd 0 [] 1;
    SSearch 0 [] [ID_of "BBBB"; ID_of "AAAA"]; SSearch 0 [] [ID_of "DDDD"]; SSearch 0 [InSub 1] [ID_of "AAAA"; ID_of "CCCC"];
    SChunks 0 [InSub 1] (ID_of "NAME"); SChunks 0 [InSub 1] (ID_of "BODY"); SChunks 0 [] (ID_of "BODY"); SSearch 0 [InSub 1; InSub 1] [] ].
Example C90_example_search : Forall legal ex_searcher /\
  match hrun None ex_searcher nothing (host true) (start []) [] with
  | Done ((l, P), w, h) =>
      skipn 16 l =
      [ AAll [ASees FORM_ID 4 None []; ASees FORM_ID 14 None []]; AAll []; AAll [ASees FORM_ID 60 None []];
        AAll [ASees (ID_of "NAME") 2 (Some None) []; ASees (ID_of "NAME") 4 (Some None) []]; AAll [ASees (ID_of "BODY") 3 (Some (Some (bytes "abc"))) []]; AAll []; AAll [] ]
  | _ => False
  end.
Proof.
  split; [|vm_compute; reflexivity]. unfold ex_searcher. repeat constructor; cbn [legal]; try exact I; try discriminate; vm_compute; intuition congruence.
Qed.
