(** * What callbacks of an application promise, and what the library then
    makes of them (specification only). *)

From Coq Require Import ZArith List Bool String.
From Coq Require Import Strings.Byte.
From Verif Require Import Machine Types Spec Ext.
Import ListNotations.
Open Scope Z_scope.

(** ** What a chunk type means, without its code *)

(** [co_sizes]: the chunk sizes it is made for.  [co_dec id body]: what a chunk
    with that body holds, [None] when the body is malformed.  [co_used]: how
    many bytes of the body are looked at.  [co_enc id size u]: the bytes that
    say [u].  [co_good]: which values pass the application's own check. *)
Record codec (U : Type) := mkCodec {
  co_sizes : Z -> Z -> Prop;
  co_dec : Z -> list byte -> option U;
  co_used : Z -> list byte -> Z;
  co_enc : Z -> Z -> U -> list byte;
  co_good : Z -> Z -> U -> bool }.
Arguments mkCodec {U}. Arguments co_sizes {U}. Arguments co_dec {U}. Arguments co_used {U}.
Arguments co_enc {U}. Arguments co_good {U}.

(** An int overflow, or the NULL of a failed allocation of no more bytes than
    the input has. *)
Definition Excused (e : env) (input : Z) (u : ub) : Prop :=
  u = UB_signed_overflow \/
  (u = UB_null_deref /\ exists n sz, 0 < sz <= input /\ (malloc_ok e n sz = false \/ 2 ^ (size_t_bits e - 1) <= sz)).

Section Spec.
  Context {U : Type}.
  Notation xc := (xchunk U).

  (** The body of a chunk of [s] bytes that holds [u]: its encoding, then zero
      bytes. *)
  Definition ubody (cd : codec U) (i s : Z) (u : U) : list byte :=
    co_enc cd i s u ++ zeros (s - zlength (co_enc cd i s u)).

  (** A chunk of [s] bytes can hold [u]. *)
  Definition Holds (cd : codec U) (i s : Z) (u : U) : Prop :=
    co_sizes cd i s /\ 0 <= s <= INT_MAX /\ zlength (co_enc cd i s u) <= s /\
    co_dec cd i (ubody cd i s u) = Some u.

  (** *** The contract: what the callbacks of chunkregistry.h 43-61 do, when
      memory is plentiful. *)
  Record Honours (cb : callbacks U) (cd : codec U) : Prop := mkHonours {
    (* create, then read a body that is all there: exactly the malformed bodies
       are rejected; nothing behind the body is consumed *)
    h_read : forall i body t e w,
      usual e -> co_sizes cd i (zlength body) -> zlength body <= INT_MAX -> r_rest (w_in w) = body ++ t ->
      exists u0 w0 ok u k w1,
        cb_create cb i (zlength body) e w = Done (Some u0, w0) /\
        cb_read cb i (zlength body) u0 0 e w0 = Done ((ok, u, k), w1) /\
        match co_dec cd i body with
        | Some v => ok = true /\ u = v /\ k = co_used cd i body /\ 0 <= k <= zlength body /\
                    w_in w1 = mkRfile (zdrop k body ++ t) (r_seekable (w_in w))
        | None => ok = false
        end /\ w_out w1 = w_out w;
    (* write the encoding, and stop as soon as that fails *)
    h_write : forall i s u e w, usual e -> Holds cd i s u ->
      exists ok k w1,
        cb_write cb i s u 0 e w = Done ((ok, k), w1) /\
        (ok, w_out w1) = put_bytes (co_enc cd i s u) (w_out w) /\ w_in w1 = w_in w /\
        (ok = true -> k = zlength (co_enc cd i s u));
    h_check : forall i s u e w, Holds cd i s u ->
      exists w1, cb_check cb i s u e w = Done (co_good cd i s u, w1) /\ w_in w1 = w_in w /\ w_out w1 = w_out w;
    h_free : forall i s u, cb_free cb i s u = Done tt;
    h_print : forall i s u level, Holds cd i s u -> exists t, cb_print cb i s u level = Done t;
    h_compare : forall i s u v, Holds cd i s u -> Holds cd i s v ->
      exists b, cb_compare cb i s u v = Done b /\ (b = true <-> u = v) }.

  (** *** The least that can be asked: the callbacks do nothing undefined, do not
      put anything in front of the input, and can free what they made.  [Inv]: what holds of the
      structs they make. *)
  Definition Consumes (w w' : world) : Prop := exists l, r_rest (w_in w) = l ++ r_rest (w_in w').

  Record Tame (Inv : Z -> Z -> U -> Prop) (cb : callbacks U) : Prop := mkTame {
    t_create : forall i s e w, strict_c e = false -> in_range FLong s ->
      exists ou w', cb_create cb i s e w = Done (ou, w') /\ Consumes w w' /\
        match ou with Some u => Inv i s u | None => True end;
    t_read : forall i s u e w, strict_c e = false -> in_range FLong s -> Inv i s u ->
      exists ok u' k w', cb_read cb i s u 0 e w = Done ((ok, u', k), w') /\ Consumes w w' /\ Inv i s u';
    t_free : forall i s u, Inv i s u -> cb_free cb i s u = Done tt }.

  (** A registry that has a type for every chunk, whose callbacks are tame, and
      that uses the functions for LISTs for chunks of that ID only. *)
  Definition TameRegistry (rg : xregistry U) : Prop := forall ft cid,
    exists h, xfind_handler rg ft cid = Done h /\
      match h with
      | XLIST => cid = LIST_ID
      | XCall cb => exists Inv, Tame Inv cb
      | _ => True
      end.

  (** ** Which chunk types there are: [ext ft i] for data chunks [i] in groups of
      type [ft]; other data chunks are raw *)
  Definition exts := Z -> Z -> option (callbacks U * codec U).

  Definition xexpected (ext : exts) (formType cid : Z) : xhandler U :=
    if cid =? FORM_ID then XForm
    else if cid =? CAT_ID then XCAT
    else if cid =? LIST_ID then XLIST
    else if cid =? PROP_ID then XProp
    else match ext formType cid with Some (cb, _) => XCall cb | None => XRAW end.

  Definition XRealises (rg : xregistry U) (ext : exts) : Prop :=
    forall ft cid, xfind_handler rg ft cid = Done (xexpected ext ft cid).

  (** A registry made with defaultregistry.h 26-27 from one table of chunk types
      per form type, each followed by the global types. *)
  Definition app_table := list (Z * (callbacks U * codec U)).
  Definition registry_for (forms : list (Z * app_table)) : xregistry U :=
    xextend (map (fun f => (fst f, [map (fun t => (fst t, XCall (fst (snd t)))) (snd f); xglobalChunkTypes])) forms).
  Definition exts_for (forms : list (Z * app_table)) : exts := fun ft i =>
    match find (fun f => fst f =? ft) forms with
    | Some f => match find (fun t => fst t =? i) (snd f) with Some t => Some (snd t) | None => None end
    | None => None
    end.
  (** The tables are sorted, and only for data chunks. *)
  Definition WellMade (forms : list (Z * app_table)) : Prop :=
    strictly_increasing (map fst forms) /\
    forall ft tbl, In (ft, tbl) forms ->
      strictly_increasing (map fst tbl) /\ (forall i t, In (i, t) tbl -> ~ In i group_ids).

  (** *** The other callbacks, on structs the callbacks made: they end, and do
      nothing undefined *)
  Record Usable (Inv : Z -> Z -> U -> Prop) (cb : callbacks U) : Prop := mkUsable {
    u_write : forall i s u e w, strict_c e = false -> Inv i s u ->
      exists ok k w', cb_write cb i s u 0 e w = Done ((ok, k), w');
    u_check : forall i s u e w, Inv i s u -> exists b w', cb_check cb i s u e w = Done (b, w');
    u_print : forall i s u level, Inv i s u -> exists t, cb_print cb i s u level = Done t;
    u_compare : forall i s u v, Inv i s u -> Inv i s v -> exists b, cb_compare cb i s u v = Done b }.

  (** [inv ft i]: what holds of the structs for chunks [i] in groups of type [ft] *)
  Definition AllTame (inv : Z -> Z -> Z -> Z -> U -> Prop) (ext : exts) : Prop :=
    forall ft i cb cd, ext ft i = Some (cb, cd) -> Tame (inv ft i) cb.
  Definition AllUsable (inv : Z -> Z -> Z -> Z -> U -> Prop) (ext : exts) : Prop :=
    forall ft i cb cd, ext ft i = Some (cb, cd) -> Usable (inv ft i) cb.

  (** Trees in which every struct has the type its ID requires, raw chunks have
      all their data, and what the application promises holds of its structs. *)
  Inductive Sound (inv : Z -> Z -> Z -> Z -> U -> Prop) (ext : exts) : Z -> xc -> Prop :=
  | So_raw : forall ft i l, ~ In i group_ids -> ext ft i = None -> Sound inv ext ft (XRaw i (zlength l) (Some l))
  | So_user : forall ft i s u cb cd,
      ~ In i group_ids -> ext ft i = Some (cb, cd) -> inv ft i i s u -> Sound inv ext ft (XUser i s u)
  | So_group : forall ft i s g subs,
      In i [FORM_ID; CAT_ID; PROP_ID] -> (forall c, In c subs -> Sound inv ext g c) ->
      Sound inv ext ft (XGroup i s g subs)
  | So_list : forall ft s g props subs,
      (forall c, In c props -> Sound inv ext g c /\ xid c = PROP_ID) ->
      (forall c, In c subs -> Sound inv ext g c) ->
      Sound inv ext ft (XList LIST_ID s g props subs).

  Definition AllHonour (ext : exts) : Prop :=
    forall ft i cb cd, ext ft i = Some (cb, cd) -> Honours cb cd.

  (** ** What the application sees in a file *)

  Fixpoint all_some {A} (l : list (option A)) : option (list A) :=
    match l with
    | [] => Some []
    | None :: _ => None
    | Some a :: r => match all_some r with Some l' => Some (a :: l') | None => None end
    end.

  (** A tree of raw chunks, with the bodies of the application's chunks decoded;
      [None]: some body is malformed. *)
  Fixpoint decode (ext : exts) (ft : Z) (c : chunk) : option xc :=
    match c with
    | CRaw i s (Some d) =>
        match ext ft i with
        | None => Some (XRaw i s (Some d))
        | Some (_, cd) => match co_dec cd i d with Some u => Some (XUser i s u) | None => None end
        end
    | CGroup i s g subs =>
        match all_some (map (decode ext g) subs) with
        | Some l => Some (XGroup i s g l)
        | None => None
        end
    | CList i s g props subs =>
        match all_some (map (decode ext g) props), all_some (map (decode ext g) subs) with
        | Some p, Some l => Some (XList i s g p l)
        | _, _ => None
        end
    | _ => None
    end.

  (** The application's chunks have sizes they are made for. *)
  Inductive Sized (ext : exts) : Z -> chunk -> Prop :=
  | Sz_raw : forall ft i s d,
      (forall cb cd, ext ft i = Some (cb, cd) -> co_sizes cd i s) -> Sized ext ft (CRaw i s d)
  | Sz_group : forall ft i s g subs,
      (forall c, In c subs -> Sized ext g c) -> Sized ext ft (CGroup i s g subs)
  | Sz_list : forall ft i s g props subs,
      (forall c, In c props -> Sized ext g c) -> (forall c, In c subs -> Sized ext g c) ->
      Sized ext ft (CList i s g props subs).

  (** The input can be moved forward, or there never is anything to skip. *)
  Definition CanSkip (ext : exts) (w : world) : Prop :=
    r_seekable (w_in w) = true \/
    forall ft i cb cd body u, ext ft i = Some (cb, cd) -> co_dec cd i body = Some u ->
      co_used cd i body = zlength body.

  (** Decoded values can be encoded again, in as many bytes, and decode to the
      same. *)
  Definition Lawful (cd : codec U) : Prop := forall i body u,
    co_sizes cd i (zlength body) -> zlength body <= INT_MAX -> co_dec cd i body = Some u ->
    Holds cd i (zlength body) u.
  Definition AllLawful (ext : exts) : Prop := forall ft i cb cd, ext ft i = Some (cb, cd) -> Lawful cd.

  (** ** What others see of the application's trees: its chunks are raw data *)
  Fixpoint view (ext : exts) (ft : Z) (c : xc) : chunk :=
    match c with
    | XRaw i s d => CRaw i s d
    | XGroup i s g subs => CGroup i s g (map (view ext g) subs)
    | XList i s g props subs => CList i s g (map (view ext g) props) (map (view ext g) subs)
    | XUser i s u =>
        CRaw i s (match ext ft i with Some (_, cd) => Some (ubody cd i s u) | None => None end)
    end.

  (** Trees in which every struct has the type its ID requires, and every
      struct of the application a value its size has room for. *)
  Inductive XTyped (ext : exts) : Z -> xc -> Prop :=
  | XT_raw : forall ft i s d, ~ In i group_ids -> ext ft i = None -> XTyped ext ft (XRaw i s d)
  | XT_user : forall ft i s u cb cd,
      ~ In i group_ids -> ext ft i = Some (cb, cd) -> Holds cd i s u -> XTyped ext ft (XUser i s u)
  | XT_group : forall ft i s g subs,
      In i [FORM_ID; CAT_ID; PROP_ID] -> (forall c, In c subs -> XTyped ext g c) ->
      XTyped ext ft (XGroup i s g subs)
  | XT_list : forall ft s g props subs,
      (forall c, In c props -> XTyped ext g c /\ xid c = PROP_ID) ->
      (forall c, In c subs -> XTyped ext g c) ->
      XTyped ext ft (XList LIST_ID s g props subs).

  (** Every struct of the application passes its own check. *)
  Fixpoint all_good (ext : exts) (ft : Z) (c : xc) : bool :=
    match c with
    | XRaw _ _ _ => true
    | XGroup _ _ g subs => forallb (all_good ext g) subs
    | XList _ _ g props subs => forallb (all_good ext g) props && forallb (all_good ext g) subs
    | XUser i s u => match ext ft i with Some (_, cd) => co_good cd i s u | None => false end
    end.
End Spec.
Arguments exts : clear implicits.
Arguments app_table : clear implicits.
