(** * Property C81: a failed write is reported with the part that failed *)

From Coq Require Import ZArith List Bool String Lia.
From Coq Require Import Strings.Byte.
From Verif Require Import Machine Io Types Build Write Iff TestExt Spec Lemmas IoProofs RegProofs WriteProofs EncodeProofs Examples
  DiagSpec DiagProofs CutProofs PartSpec PartProofs PropRegistry PropRead.
Import ListNotations.
Open Scope Z_scope.

(** The parts of [PartSpec.v] are the file. *)
Theorem C81_parts_are_the_file : forall app c ft, Writable app ft c -> flat_map snd (parts app ft c) = emitted c.
Proof. exact parts_bytes. Qed.
Print Assumptions C81_parts_are_the_file.

(** ** C81.  If writing fails, then everything before some part was taken by the
    output, that part was not, and its text is what is reported. *)
Theorem C81_failed_write_located : forall rg app e c w w', Realises (selectChunkRegistry rg) app -> usual e -> Writable app 0 c ->
  IFF_writeFd c rg e w = Done (false, w') ->
  exists before t l behind lg, parts app 0 c = before ++ (t, l) :: behind /\
    fst (put_bytes (flat_map snd before) (w_out w)) = true /\ fst (put_bytes (flat_map snd before ++ l) (w_out w)) = false /\
    w_log w' = lg ++ w_log w /\ String.concat "" (rev lg) = t.
Proof.
  intros rg app e c w w' RG U W E. destruct (write_says _ app e RG U c 0 W w) as (lg & n & R & T & _).
  unfold IFF_writeFd in E. rewrite R in E. injection E as OK <-.
  destruct (complaint_part _ _ OK) as (before & t & l & behind & P & B & N & C).
  exists before, t, l, behind, lg. split; [exact P|]. split; [exact B|]. split; [exact N|]. split; [reflexivity|]. rewrite <- C. exact T.
Qed.
Print Assumptions C81_failed_write_located.

(** There is only one such part. *)
Lemma flat_app : forall (a b : list part), flat_map snd (a ++ b) = flat_map snd a ++ flat_map snd b.
Proof. intros. apply flat_map_app. Qed.
Theorem C81_one_part : forall (before before' : list part) t t' l l' behind behind' f,
  before ++ (t, l) :: behind = before' ++ (t', l') :: behind' ->
  fst (put_bytes (flat_map snd before) f) = true -> fst (put_bytes (flat_map snd before ++ l) f) = false ->
  fst (put_bytes (flat_map snd before') f) = true -> fst (put_bytes (flat_map snd before' ++ l') f) = false ->
  before = before' /\ t = t' /\ l = l'.
Proof.
  assert (X : forall (a b c : list byte) f, fst (put_bytes (a ++ b) f) = false -> fst (put_bytes ((a ++ b) ++ c) f) = true -> False).
  { intros a b c f A B. rewrite (put_bytes_app (a ++ b) c) in B. destruct (put_bytes (a ++ b) f) as [[] f1]; discriminate. }
  intros before before' t t' l l' behind behind' f E A1 A2 B1 B2.
  assert (C : (exists m, before' = before ++ m) \/ (exists m, before = before' ++ m)).
  { clear - E. revert before' E. induction before as [|p before IH]; intros [|p' before'] E; cbn in *; [left; exists []; reflexivity|left; eexists; reflexivity|right; eexists; reflexivity|].
    injection E as -> E. destruct (IH _ E) as [[m ->]|[m ->]]; [left|right]; exists m; reflexivity. }
  destruct C as [[[|[t0 l0] m] ->]|[[|[t0 l0] m] ->]].
  - rewrite app_nil_r in *. apply app_inv_head in E. injection E as -> -> _. auto.
  - exfalso. rewrite <- app_assoc in E. apply app_inv_head in E. injection E as <- <- _. rewrite flat_app in B1. cbn [flat_map snd] in B1.
    rewrite app_assoc in B1. exact (X _ _ _ _ A2 B1).
  - rewrite app_nil_r in *. apply app_inv_head in E. injection E as -> -> _. auto.
  - exfalso. rewrite <- app_assoc in E. apply app_inv_head in E. injection E as -> -> _. rewrite flat_app in A1. cbn [flat_map snd] in A1.
    rewrite app_assoc in A1. exact (X _ _ _ _ B2 A1).
Qed.
Print Assumptions C81_one_part.

(** Success is silent. *)
Theorem C81_success_is_silent : forall rg app e c w w', Realises (selectChunkRegistry rg) app -> usual e -> Writable app 0 c ->
  IFF_writeFd c rg e w = Done (true, w') -> w_log w' = w_log w.
Proof.
  intros rg app e c w w' RG U W E. destruct (write_says _ app e RG U c 0 W w) as (lg & n & R & T & S).
  unfold IFF_writeFd in E. rewrite R in E. injection E as OK <-. rewrite (S OK). reflexivity.
Qed.
Print Assumptions C81_success_is_silent.

(** An unbuffered output that takes so many bytes of
    CAT { LIST { PROP { COLR } ; FORM { HELO ; BYE } ; FORM { TEXT } } ; FORM } *)
Definition room (n : nat) : world := mkWorld (mkRfile [] true) (mkWfile [] [] 1 (Some n)) [] 0.
Definition stops : list (nat * string) :=
  [(0%nat, "Error writing 'CAT '.chunkId" ++ nl);
   (7%nat, "Error writing 'CAT '.chunkSize" ++ nl);
   (8%nat, "Error writing 'CAT '.contentsType" ++ nl);
   (12%nat, "Error writing 'LIST'.chunkId" ++ nl ++ "Error writing chunk!" ++ nl);
   (32%nat, "Error writing 'PROP'.formType" ++ nl ++ "Error writing PROP!" ++ nl ++ "Error writing chunk!" ++ nl);
   (44%nat, "Error writing raw chunk body of chunk 'COLR'" ++ nl ++ "Error writing chunk!" ++ nl ++ "Error writing PROP!" ++ nl ++ "Error writing chunk!" ++ nl);
   (45%nat, "Cannot write padding byte of 'COLR'" ++ nl ++ "Error writing chunk!" ++ nl ++ "Error writing PROP!" ++ nl ++ "Error writing chunk!" ++ nl)]%string.
Example C81_example : Writable no_apps 0 ex_cat /\ Realises (selectChunkRegistry None) no_apps /\ usual (host false) /\
  Forall (fun x => exists w', IFF_writeFd ex_cat None (host false) (room (fst x)) = Done (false, w') /\
    String.concat "" (rev (w_log w')) = snd x) stops /\
  (** a FORM that claims to be larger than it is *)
  exists w', IFF_writeFd (CGroup FORM_ID 10 (ID_of "TEST") []) None (host false) (room 15) = Done (false, w') /\
    String.concat "" (rev (w_log w')) = ("Cannot write: 6 zero bytes in data chunk: 'FORM'" ++ nl)%string.
Proof.
  split; [|split; [exact default_registry|split; [split; [reflexivity|vm_compute; auto]|split]]].
  - apply WF_Writable, ex_cat_wf.
  - unfold stops. repeat (apply Forall_cons; [eexists; vm_compute; split; reflexivity|]). apply Forall_nil.
  - eexists. vm_compute. split; reflexivity.
Qed.
