(** * What memory shows: trees of values in memory, and callbacks that do in
    memory what others do to values (specification only). *)

From Coq Require Import ZArith List Bool String.
From Coq Require Import Strings.Byte.
From Verif Require Import Machine Io Types Spec Ext Heap HeapExt HeapExtSpec.
Import ListNotations.
Open Scope Z_scope.

(** The second computation does what the first does, in memory: the same
    outcome, the same input, output and messages, and results related by [R]. *)
Definition Mirror {V A B} (R : A -> B -> yheap V -> Prop) (x : outcome (A * world)) (y : outcome (B * world * yheap V)) : Prop :=
  match x with
  | Done (a, w) => exists b h, y = Done (b, w, h) /\ R a b h
  | Undefined u => y = Undefined u
  | OutOfFuel => y = OutOfFuel
  end.

(** The same result, and memory is as it was. *)
Definition Alike {V A} (h : yheap V) (a b : A) (h' : yheap V) : Prop := a = b /\ Same h h'.

(** The same for computations on values that do no input and output *)
Definition Mirror0 {V A} (h : yheap V) (w : world) (x : outcome A) (y : outcome (A * world * yheap V)) : Prop :=
  match x with
  | Done a => exists h', y = Done (a, w, h') /\ Same h h'
  | Undefined u => y = Undefined u
  | OutOfFuel => y = OutOfFuel
  end.

Section View.
  Context {U V : Type}.
  Notation heap := (yheap V).

  (** *** The contract.  [Rep h a F u]: in [h] the struct at [a] consists of the
      blocks [F], itself included, and holds [u]. *)
  Record Refines (Rep : heap -> addr -> list addr -> U -> Prop) (cb : callbacks U) (yc : ycallbacks V) : Prop := mkRefines {
    rf_struct : forall h a F u, Rep h a F u ->
      NoDup F /\ In a F /\ (forall x, In x F -> ylookup h x <> None) /\
      exists hd v, ylookup h a = Some (YChunk hd (YUser v));
    rf_local : forall h h' a F u, Rep h a F u -> (forall x, In x F -> ylookup h' x = ylookup h x) -> Rep h' a F u;
    rf_parent : forall h a F u hd v p, Rep h a F u -> ylookup h a = Some (YChunk hd (YUser v)) ->
      Rep (ystore h a (YChunk (set_parent hd p) (YUser v))) a F u;
    (* create: NULL and nothing left behind, or a struct that holds what it should *)
    rf_create : forall i s e w h, strict_c e = false -> in_range FLong s ->
      Mirror (fun ou p h' => match ou, p with
                             | None, None => Turns h [] h' []
                             | Some u, Some a => exists F v, Turns h [] h' F /\ Rep h' a F u /\
                                 ylookup h' a = Some (YChunk (mkHeader None i s) (YUser v))
                             | _, _ => False
                             end)
        (cb_create cb i s e w) (yc_create yc i s e w h);
    (* read *)
    rf_read : forall e w h a F u i s v, strict_c e = false -> in_range FLong s ->
      Rep h a F u -> ylookup h a = Some (YChunk (mkHeader None i s) (YUser v)) ->
      Mirror (fun r q h' => fst (fst r) = fst q /\ snd r = snd q /\ exists F' v', Turns h F h' F' /\
                Rep h' a F' (snd (fst r)) /\ ylookup h' a = Some (YChunk (mkHeader None i s) (YUser v')))
        (cb_read cb i s u 0 e w) (yc_read yc a 0 e w h);
    (* free *)
    rf_free : forall e w h a F u i s, Rep h a F u ->
      cb_free cb i s u = Done tt /\ exists h', yc_free yc a e w h = Done (tt, w, h') /\ Turns h F h' [a];
    (* the others look only *)
    rf_write : forall e w h a F u p i s v, Rep h a F u -> ylookup h a = Some (YChunk (mkHeader p i s) (YUser v)) ->
      Mirror (Alike h) (cb_write cb i s u 0 e w) (yc_write yc a 0 e w h);
    rf_check : forall e w h a F u p i s v, Rep h a F u -> ylookup h a = Some (YChunk (mkHeader p i s) (YUser v)) ->
      Mirror (Alike h) (cb_check cb i s u e w) (yc_check yc a e w h);
    rf_print : forall e w h a F u p i s v level, Rep h a F u -> ylookup h a = Some (YChunk (mkHeader p i s) (YUser v)) ->
      Mirror0 h w (cb_print cb i s u level) (yc_print yc a level e w h);
    rf_compare : forall e w h a F u p b G t q i s v v', Rep h a F u -> Rep h b G t ->
      ylookup h a = Some (YChunk (mkHeader p i s) (YUser v)) -> ylookup h b = Some (YChunk (mkHeader q i s) (YUser v')) ->
      Mirror0 h w (cb_compare cb i s u t) (yc_compare yc a b e w h) }.

  (** Registries with the same types for the same chunks *)
  Definition Registered (rep : Z -> Z -> heap -> addr -> list addr -> U -> Prop) (rg : xregistry U) (find : yfind V) : Prop :=
    forall ft cid, exists x y, xfind_handler rg ft cid = Done x /\ find ft cid = Done y /\
      match x, y with
      | XForm, YFORM | XCAT, YCAT | XProp, YPROP | XRAW, YRAW => True
      | XLIST, YLIST => cid = LIST_ID
      | XCall cb, YCALL yc => Refines (rep ft cid) cb yc
      | _, _ => False
      end.

  (** *** Trees.  [Shows c ft p a F]: at [a] there is the chunk [c], for a group
      of type [ft], with the parent pointer [p]; it consists of the blocks [F]. *)
  Section Shows.
    Variable rep : Z -> Z -> heap -> addr -> list addr -> U -> Prop.
    Variable find : yfind V.
    Variable h : heap.

    Inductive Shows : xchunk U -> Z -> ptr -> addr -> list addr -> Prop :=
    | S_raw : forall ft p a i s d c,
        find ft i = Done YRAW ->
        ylookup h a = Some (YChunk (mkHeader p i s) (YRaw (Some d))) ->
        ylookup h d = Some (YData s c) ->
        Shows (XRaw i s c) ft p a [a; d]
    | S_user : forall ft p a i s v yc u F,
        find ft i = Done (YCALL yc) ->
        ylookup h a = Some (YChunk (mkHeader p i s) (YUser v)) ->
        rep ft i h a F u ->
        Shows (XUser i s u) ft p a F
    | S_group : forall ft p a i s k g arr la l Fa Fl,
        find ft i = Done k -> In k [YFORM; YCAT; YPROP] ->
        ylookup h a = Some (YChunk (mkHeader p i s) (YGroup g (List.length la) arr)) ->
        yarray_at h arr la Fa -> ShowsAll l g (Some a) la Fl ->
        Shows (XGroup i s g l) ft p a (a :: Fa ++ Fl)
    | S_list : forall ft p a i s g arr la l Fa Fl parr pa pl Fb Fp,
        find ft i = Done YLIST ->
        ylookup h a = Some (YChunk (mkHeader p i s) (YList g (List.length la) arr (List.length pa) parr)) ->
        yarray_at h arr la Fa -> ShowsAll l g (Some a) la Fl ->
        yarray_at h parr pa Fb -> ShowsAll pl g (Some a) pa Fp ->
        (forall c, In c pl -> xid c = PROP_ID) ->
        Shows (XList i s g pl l) ft p a (a :: Fa ++ Fl ++ Fb ++ Fp)
    with ShowsAll : list (xchunk U) -> Z -> ptr -> list addr -> list addr -> Prop :=
    | Ss_nil : forall g p, ShowsAll [] g p [] []
    | Ss_cons : forall c l g p a la F1 F2, Shows c g p a F1 -> ShowsAll l g p la F2 ->
        ShowsAll (c :: l) g p (a :: la) (F1 ++ F2).
  End Shows.
End View.
