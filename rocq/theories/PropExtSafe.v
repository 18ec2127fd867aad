(** * Properties C76, C77: reading, and using what was read, is safe with any
    callbacks that are *)

From Coq Require Import ZArith List Bool String Lia.
From Coq Require Import Strings.Byte.
From Verif Require Import Machine Io Types Build Read Spec UseSpec UseProofs Examples
  Ext ExtSpec ExtFields ExtRegProofs ExtSafeProofs ExtUseProofs PropExt.
Import ListNotations.
Open Scope Z_scope.

(** ** C76.  Whatever the bytes: reading ends, and unless an int overflows or
    an allocation has failed nothing undefined happens.  It consumes input and
    puts nothing back, and the tree it returns can be freed. *)

Theorem C76_any_callbacks : forall U (rg : xregistry U) e w, TameRegistry rg -> strict_c e = false ->
  match xreadFd rg e w with
  | Done (oc, w') => Consumes w w' /\ match oc with Some x => xfreeChunk rg x 0 = Done tt | None => True end
  | Undefined u => Excused e (zlength (r_rest (w_in w))) u
  | OutOfFuel => False
  end.
Proof.
  intros U rg e w T NS. pose proof (xreadFd_runs e NS _ U rg T w eq_refl) as H.
  destruct (xreadFd rg e w) as [[oc w']|u|]; [|exact H|exact H].
  exact H.
Qed.
Print Assumptions C76_any_callbacks.

(** With memory for everything, only an int may overflow. *)
Theorem C76_only_overflow : forall U (rg : xregistry U) e w u, TameRegistry rg -> usual e ->
  zlength (r_rest (w_in w)) < 2 ^ (size_t_bits e - 1) -> xreadFd rg e w = Undefined u -> u = UB_signed_overflow.
Proof.
  intros U rg e w u T US LM E. pose proof (C76_any_callbacks U rg e w T (not_strict _ US)) as H. rewrite E in H.
  destruct H as [->|(_ & n & sz & B & [M|M])]; [reflexivity| |lia]. rewrite (memory _ US) in M. discriminate.
Qed.
Print Assumptions C76_only_overflow.

(** Which registries: those that dispatch in the usual way on callbacks that are
    tame. *)
Theorem C76_registries : forall U (rg : xregistry U) ext, XRealises rg ext ->
  (forall ft i cb cd, ext ft i = Some (cb, cd) -> exists Inv, Tame Inv cb) -> TameRegistry rg.
Proof.
  intros U rg ext RG T ft cid. rewrite RG. eexists. split; [reflexivity|]. unfold xexpected.
  destruct (cid =? FORM_ID); [exact I|]. destruct (cid =? CAT_ID); [exact I|].
  destruct (Z.eqb_spec cid LIST_ID) as [E|]; [exact E|]. destruct (cid =? PROP_ID); [exact I|].
  destruct (ext ft cid) as [[cb cd]|] eqn:E; [|exact I]. exact (T ft cid cb cd E).
Qed.
Print Assumptions C76_registries.

(** Lists of fields and arrays are tame. *)
Theorem C76_field_lists : forall spec,
  Tame (fun _ _ u => map fst u = map fd_kind (fs_fields spec)) (fields_callbacks spec).
Proof. exact fields_tame. Qed.
Print Assumptions C76_field_lists.

Theorem C76_arrays : Tame (fun _ _ _ => True) cmap_callbacks.
Proof. exact cmap_tame. Qed.
Print Assumptions C76_arrays.

(** Pictures, and a picture cut short within its colour map. *)
Example C76_example :
  TameRegistry (registry_for pictures) /\
  match xreadFd (registry_for pictures) (host false) (start (firstn 24 (encode (raw_picture [xff; x00; x01; x02; x03; x04])))) with
  | Done (None, w) => r_rest (w_in w) = [] | _ => False
  end.
Proof.
  split; [|vm_compute; reflexivity].
  apply (C76_registries _ _ (exts_for pictures)); [apply registry_for_realises, pictures_made|].
  intros ft i cb cd E. destruct (exts_for_data pictures ft i cb cd pictures_made E) as (tbl & [K|[]] & J).
  injection K as <- <-. destruct J as [J|[]]. injection J as <- <- <-. eexists. exact cmap_tame.
Qed.

(** ** C77.  A tree that was read with callbacks that do nothing undefined can be
    checked, written, printed, compared and freed: the only things that can
    happen besides an answer are an int overflow, when checking or writing, and
    the NULL of a failed allocation, when writing. *)

(** Such a tree has structs of the right types, all raw data, and what the
    application promises about its structs. *)
Theorem C77_what_is_read : forall U (rg : xregistry U) ext inv e w x w',
  XRealises rg ext -> AllTame inv ext -> strict_c e = false ->
  xreadFd rg e w = Done (Some x, w') -> Sound inv ext 0 x.
Proof. intros U rg ext inv e w x w' RG TA NS E. exact (xread_sound rg ext inv RG e NS TA w x w' E). Qed.
Print Assumptions C77_what_is_read.

Theorem C77_check : forall U (rg : xregistry U) ext inv e w x,
  XRealises rg ext -> AllUsable inv ext -> Sound inv ext 0 x ->
  (exists b w', xcheck rg x e w = Done (b, w')) \/ xcheck rg x e w = Undefined UB_signed_overflow.
Proof.
  intros U rg ext inv e w x RG US S. unfold xcheck. destruct (_ && _); [left; eexists _, _; reflexivity|].
  pose proof (sound_check rg ext inv RG US e (fun u => u = UB_signed_overflow) eq_refl x 0 S w) as H.
  destruct (xcheckChunk rg x 0 e w) as [[b w']|u|]; [left; eauto|right; congruence|contradiction].
Qed.
Print Assumptions C77_check.

Theorem C77_write : forall U (rg : xregistry U) ext inv e w x,
  XRealises rg ext -> AllUsable inv ext -> Sound inv ext 0 x -> strict_c e = false ->
  (exists b w', xwriteChunk rg x 0 e w = Done (b, w')) \/
  xwriteChunk rg x 0 e w = Undefined UB_signed_overflow \/
  (xwriteChunk rg x 0 e w = Undefined UB_null_deref /\ small_failure e).
Proof.
  intros U rg ext inv e w x RG US S NS.
  pose proof (sound_write rg ext inv RG US e NS (fun u => u = UB_signed_overflow \/ (u = UB_null_deref /\ small_failure e))
                (or_introl eq_refl) (fun F => or_intror (conj eq_refl F)) x 0 S w) as H.
  destruct (xwriteChunk rg x 0 e w) as [[b w']|u|]; [left; eauto|right|contradiction].
  destruct H as [-> | [-> F]]; auto.
Qed.
Print Assumptions C77_write.

Theorem C77_print : forall U (rg : xregistry U) ext inv x level,
  XRealises rg ext -> AllUsable inv ext -> Sound inv ext 0 x -> exists t, xprintChunk rg x level 0 = Done t.
Proof. intros U rg ext inv x level RG US S. exact (sound_print rg ext inv RG US x 0 level S). Qed.
Print Assumptions C77_print.

(** Two such trees, however different *)
Theorem C77_compare : forall U (rg : xregistry U) ext inv e x y,
  XRealises rg ext -> AllUsable inv ext -> Sound inv ext 0 x -> Sound inv ext 0 y ->
  exists b, xcompareChunk e rg x y 0 = Done b.
Proof. intros U rg ext inv e x y RG US SX SY. exact (sound_compare rg ext inv RG US e x 0 y SX SY). Qed.
Print Assumptions C77_compare.

Theorem C77_free : forall U (rg : xregistry U) ext inv x,
  XRealises rg ext -> AllTame inv ext -> Sound inv ext 0 x -> xfreeChunk rg x 0 = Done tt.
Proof. intros U rg ext inv x RG TA S. exact (sound_free rg ext inv RG TA x 0 S). Qed.
Print Assumptions C77_free.

(** Lists of fields and arrays are of this kind, too. *)
Theorem C77_field_lists : forall spec,
  Usable (fun _ _ u => map fst u = map fd_kind (fs_fields spec)) (fields_callbacks spec).
Proof. exact fields_usable. Qed.
Print Assumptions C77_field_lists.

Theorem C77_arrays : Usable (fun _ _ _ => True) cmap_callbacks.
Proof. exact cmap_usable. Qed.
Print Assumptions C77_arrays.

(** Pictures once more: a file that contradicts itself.  A PROP says that it has
    14 bytes, and has 16.  It is read all the same, and found to be invalid. *)
Definition sloppy : list byte :=
  bytes "LIST" ++ [x00; x00; x00; x1a] ++ bytes "ILBM"
  ++ bytes "PROP" ++ [x00; x00; x00; x0e] ++ bytes "ILBM" ++ bytes "CMAP" ++ [x00; x00; x00; x03; x01; x02; x03; x00].

Example C77_example :
  AllTame (fun _ _ _ _ _ => True) (exts_for pictures) /\ AllUsable (fun _ _ _ _ _ => True) (exts_for pictures) /\
  match xreadFd (registry_for pictures) (host false) (start sloppy) with
  | Done (Some x, w) =>
      x = XList LIST_ID 26 ILBM_ID [XGroup PROP_ID 14 ILBM_ID [XUser CMAP_ID 3 [(1, 2, 3)]]] [] /\
      match xcheck (registry_for pictures) x (host false) (start []) with Done (b, _) => b = false | _ => False end
  | _ => False
  end.
Proof.
  assert (D : forall ft i cb cd, exts_for pictures ft i = Some (cb, cd) -> cb = cmap_callbacks).
  { intros ft i cb cd E. destruct (exts_for_data pictures ft i cb cd pictures_made E) as (tbl & [K|[]] & J).
    injection K as <- <-. destruct J as [J|[]]. injection J as <- <- <-. reflexivity. }
  split; [|split].
  - intros ft i cb cd E. rewrite (D ft i cb cd E). exact cmap_tame.
  - intros ft i cb cd E. rewrite (D ft i cb cd E). exact cmap_usable.
  - vm_compute. auto.
Qed.
