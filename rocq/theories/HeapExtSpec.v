(** * What an application with memory of its own promises, and what memory looks
    like then (specification only). *)

From Coq Require Import ZArith List Bool String.
From Coq Require Import Strings.Byte.
From Verif Require Import Machine Io Types Spec Ext ExtSpec Heap HeapExt.
Import ListNotations.
Open Scope Z_scope.

Section Spec.
  Context {V : Type}.
  Notation heap := (yheap V).

  (** The same blocks are allocated and hold the same. *)
  Definition Same (h h' : heap) : Prop := forall x, ylookup h' x = ylookup h x.

  (** From [h] to [h'] the blocks [F] became the blocks [F']: those of [F] that
      are not in [F'] were released, those of [F'] that are not in [F] are new,
      and all other memory is as it was. *)
  Record Turns (h : heap) (F : list addr) (h' : heap) (F' : list addr) : Prop := mkTurns {
    tu_other : forall x, ~ In x F -> ~ In x F' -> ylookup h' x = ylookup h x;
    tu_released : forall x, In x F -> ~ In x F' -> ylookup h' x = None;
    tu_new : forall x, In x F' -> In x F \/ ylookup h x = None;
    tu_live : forall x, In x F' -> ylookup h' x <> None }.

  (** *** The contract.  [Own h a F]: in [h] the struct at [a] is in order, and
      [F] are the blocks it consists of, itself included. *)
  Record Owner (Own : heap -> addr -> list addr -> Prop) (cb : ycallbacks V) : Prop := mkOwner {
    ow_struct : forall h a F, Own h a F ->
      NoDup F /\ In a F /\ (forall x, In x F -> ylookup h x <> None) /\
      exists hd v, ylookup h a = Some (YChunk hd (YUser v));
    (* it depends on those blocks only, and not on the parent pointer *)
    ow_local : forall h h' a F, Own h a F -> (forall x, In x F -> ylookup h' x = ylookup h x) -> Own h' a F;
    ow_parent : forall h a F hd v p, Own h a F -> ylookup h a = Some (YChunk hd (YUser v)) ->
      Own (ystore h a (YChunk (set_parent hd p) (YUser v))) a F;
    (* create gives back NULL and leaves nothing behind, or makes a struct *)
    ow_create : forall i s e w h, strict_c e = false -> in_range FLong s ->
      exists p w' h', yc_create cb i s e w h = Done (p, w', h') /\ Consumes w w' /\
        match p with
        | None => Turns h [] h' []
        | Some a => exists F v, Turns h [] h' F /\ Own h' a F /\
                                ylookup h' a = Some (YChunk (mkHeader None i s) (YUser v))
        end;
    (* read, successful or not, leaves a struct that is in order *)
    ow_read : forall e w h a F hd v, strict_c e = false -> in_range FLong (o_size hd) ->
      Own h a F -> ylookup h a = Some (YChunk hd (YUser v)) ->
      exists ok k w' h' F' v', yc_read cb a 0 e w h = Done ((ok, k), w', h') /\ Consumes w w' /\
        Turns h F h' F' /\ Own h' a F' /\ ylookup h' a = Some (YChunk hd (YUser v'));
    (* free releases everything but the struct itself *)
    ow_free : forall e w h a F, strict_c e = false -> Own h a F ->
      exists w' h', yc_free cb a e w h = Done (tt, w', h') /\ Consumes w w' /\ Turns h F h' [a] }.

  (** A registry that has a type for every chunk, whose callbacks keep the
      contract, and that uses the functions for LISTs for chunks of that ID
      only. *)
  Definition Owners (own : Z -> Z -> heap -> addr -> list addr -> Prop) (find : yfind V) : Prop :=
    forall ft cid, exists k, find ft cid = Done k /\
      match k with
      | YLIST => cid = LIST_ID
      | YCALL cb => Owner (own ft cid) cb
      | _ => True
      end.

  (** *** The other callbacks look at the struct, and may use memory meanwhile;
      in the end memory is as it was.  None does anything undefined. *)
  Record Looker (Own : heap -> addr -> list addr -> Prop) (cb : ycallbacks V) : Prop := mkLooker {
    lk_write : forall e w h a F, strict_c e = false -> Own h a F ->
      exists r w' h', yc_write cb a 0 e w h = Done (r, w', h') /\ Same h h';
    lk_check : forall e w h a F, Own h a F ->
      exists r w' h', yc_check cb a e w h = Done (r, w', h') /\ Same h h';
    lk_print : forall e w h a F level, Own h a F ->
      exists r w' h', yc_print cb a level e w h = Done (r, w', h') /\ Same h h';
    lk_compare : forall e w h a F b G, Own h a F -> Own h b G ->
      exists r w' h', yc_compare cb a b e w h = Done (r, w', h') /\ Same h h' }.

  Definition Lookers (own : Z -> Z -> heap -> addr -> list addr -> Prop) (find : yfind V) : Prop :=
    forall ft cid cb, find ft cid = Done (YCALL cb) -> Looker (own ft cid) cb.

  (** FORM, CAT, LIST and PROP chunks are what they are everywhere. *)
  Definition GroupsAsUsual (find : yfind V) : Prop := forall ft,
    find ft FORM_ID = Done YFORM /\ find ft CAT_ID = Done YCAT /\
    find ft LIST_ID = Done YLIST /\ find ft PROP_ID = Done YPROP.

  (** What became of an operation that only looks: memory is as it was, or
      something in [bad] happened. *)
  Definition OnlyLooks {A} (bad : ub -> Prop) (h : heap) (o : outcome (A * world * heap)) : Prop :=
    match o with
    | Done (_, _, h') => Same h h'
    | Undefined u => bad u
    | OutOfFuel => False
    end.

  (** An array of pointers [l]; [F]: its block *)
  Definition yarray_at (h : heap) (p : ptr) (l : list addr) (F : list addr) : Prop :=
    (p = None /\ l = [] /\ F = []) \/
    (exists d, p = Some d /\ ylookup h d = Some (YArray l) /\ F = [d]).

  (** At [a] there is a chunk with the ID [i]. *)
  Definition id_at (h : heap) (a : addr) (i : Z) : Prop :=
    exists hd b, ylookup h a = Some (YChunk hd b) /\ o_id hd = i.

  (** *** Trees.  [Tree ft p a F]: at [a] there is a chunk for a group of type
      [ft] whose parent pointer is [p]; it and everything below it has the type
      its ID requires, and consists of the blocks [F].  [whole]: raw chunks have
      all their data. *)
  Section Tree.
    Variable own : Z -> Z -> heap -> addr -> list addr -> Prop.
    Variable find : yfind V.
    Variable whole : Prop.
    Variable h : heap.

    Inductive Tree : Z -> ptr -> addr -> list addr -> Prop :=
    | T_raw : forall ft p a i s d c,
        find ft i = Done YRAW ->
        ylookup h a = Some (YChunk (mkHeader p i s) (YRaw (Some d))) ->
        ylookup h d = Some (YData s c) ->
        (whole -> exists l, c = Some l /\ zlength l = s) ->
        Tree ft p a [a; d]
    | T_user : forall ft p a i s v cb F,
        find ft i = Done (YCALL cb) ->
        ylookup h a = Some (YChunk (mkHeader p i s) (YUser v)) ->
        own ft i h a F ->
        Tree ft p a F
    | T_group : forall ft p a i s k g arr la Fa Fl,
        find ft i = Done k -> In k [YFORM; YCAT; YPROP] ->
        ylookup h a = Some (YChunk (mkHeader p i s) (YGroup g (List.length la) arr)) ->
        yarray_at h arr la Fa -> Trees g (Some a) la Fl ->
        Tree ft p a (a :: Fa ++ Fl)
    | T_list : forall ft p a i s g arr la Fa Fl parr pa Fb Fp,
        find ft i = Done YLIST ->
        ylookup h a = Some (YChunk (mkHeader p i s) (YList g (List.length la) arr (List.length pa) parr)) ->
        yarray_at h arr la Fa -> Trees g (Some a) la Fl ->
        yarray_at h parr pa Fb -> Trees g (Some a) pa Fp ->
        (forall x, In x pa -> id_at h x PROP_ID) ->
        Tree ft p a (a :: Fa ++ Fl ++ Fb ++ Fp)
    with Trees : Z -> ptr -> list addr -> list addr -> Prop :=
    | Ts_nil : forall g p, Trees g p [] []
    | Ts_cons : forall g p a la F1 F2, Tree g p a F1 -> Trees g p la F2 -> Trees g p (a :: la) (F1 ++ F2).
  End Tree.
End Spec.
