(** * Command lines of the tools, as their usage texts describe them
    (definitions only) *)

From Coq Require Import List Bool String Ascii.
Import ListNotations.

(** A word that is no option: not starting with a dash, or a dash only *)
Definition operand (a : string) : Prop :=
  a = "-"%string \/ forall r, a <> String "-" r.

(** [p] abbreviates [name]. *)
Definition abbreviates (p name : string) : Prop := p <> EmptyString /\ exists r, name = (p ++ r)%string.

Fixpoint times (n : nat) (c : ascii) : string :=
  match n with O => EmptyString | S n => String c (times n c) end.

Inductive stop := Help | Version | Invalid.

(** [long]: long options are understood.  [reorder]: options may follow operands. *)
Section Lines.
  Variables long reorder : bool.

  (** ** iffpp [OPTION] [file.IFF] *)

  (** -c, -cc, ..., --disable-check and its abbreviations *)
  Inductive CheckFlag : string -> Prop :=
  | CF_short : forall n, CheckFlag ("-" ++ times (S n) "c")
  | CF_long : forall p, long = true -> abbreviates p "disable-check" -> CheckFlag ("--" ++ p).

  (** Words on which iffpp stops *)
  Inductive PpStop : string -> stop -> Prop :=
  | PS_help : forall n r, PpStop ("-" ++ times n "c" ++ "h" ++ r) Help
  | PS_version : forall n r, PpStop ("-" ++ times n "c" ++ "v" ++ r) Version
  | PS_letter : forall n x r, x <> "c"%char -> x <> "h"%char -> x <> "v"%char ->
      (n = 0 -> x = "-"%char -> long = false /\ r <> EmptyString) ->
      PpStop ("-" ++ times n "c" ++ String x r) Invalid
  | PS_long_help : forall p, long = true -> abbreviates p "help" -> PpStop ("--" ++ p) Help
  | PS_long_version : forall p, long = true -> abbreviates p "version" -> PpStop ("--" ++ p) Version
  | PS_long : forall s, long = true -> s <> EmptyString ->
      ~ abbreviates s "disable-check" -> ~ abbreviates s "help" -> ~ abbreviates s "version" -> PpStop ("--" ++ s) Invalid.

  (** [PpLine args c ops]: whether the check is disabled, and the operands *)
  Inductive PpLine : list string -> bool -> list string -> Prop :=
  | PL_nil : PpLine [] false []
  | PL_dashes : forall r, PpLine ("--"%string :: r) false r
  | PL_operand : forall f r c ops, operand f -> reorder = true -> PpLine r c ops -> PpLine (f :: r) c (f :: ops)
  | PL_first : forall f r, operand f -> reorder = false -> PpLine (f :: r) false (f :: r)
  | PL_flag : forall a r c ops, CheckFlag a -> PpLine r c ops -> PpLine (a :: r) true ops.

  (** Lines on which iffpp stops *)
  Inductive PpStops : list string -> stop -> Prop :=
  | PT_here : forall a r x, PpStop a x -> PpStops (a :: r) x
  | PT_operand : forall f r x, operand f -> reorder = true -> PpStops r x -> PpStops (f :: r) x
  | PT_flag : forall a r x, CheckFlag a -> PpStops r x -> PpStops (a :: r) x.

  (** ** iffjoin [OPTION] file1.IFF file2.IFF ... *)

  (** -o and --output-file, the argument being the next word or in the same *)
  Inductive OutputNext : string -> Prop :=
  | ON_short : OutputNext "-o"
  | ON_long : forall p, long = true -> abbreviates p "output-file" -> OutputNext ("--" ++ p).
  Inductive OutputSame : string -> string -> Prop :=
  | OS_short : forall f, f <> EmptyString -> OutputSame ("-o" ++ f) f
  | OS_long : forall p f, long = true -> abbreviates p "output-file" -> OutputSame ("--" ++ p ++ "=" ++ f) f.

  Inductive JoinStop : string -> stop -> Prop :=
  | JS_help : forall r, JoinStop ("-h" ++ r) Help
  | JS_version : forall r, JoinStop ("-v" ++ r) Version
  | JS_letter : forall x r, x <> "o"%char -> x <> "h"%char -> x <> "v"%char ->
      (x = "-"%char -> long = false /\ r <> EmptyString) ->
      JoinStop ("-" ++ String x r) Invalid
  | JS_long_help : forall p, long = true -> abbreviates p "help" -> JoinStop ("--" ++ p) Help
  | JS_long_version : forall p, long = true -> abbreviates p "version" -> JoinStop ("--" ++ p) Version
  | JS_long : forall s, long = true -> s <> EmptyString -> ~ abbreviates s "output-file" ->
      (forall p f, abbreviates p "output-file" -> s <> (p ++ "=" ++ f)%string) ->
      ~ abbreviates s "help" -> ~ abbreviates s "version" -> JoinStop ("--" ++ s) Invalid.

  (** [JoinLine args outs ins]: the output names given, and the inputs *)
  Inductive JoinLine : list string -> list string -> list string -> Prop :=
  | JL_nil : JoinLine [] [] []
  | JL_dashes : forall r, JoinLine ("--"%string :: r) [] r
  | JL_operand : forall f r outs ins, operand f -> reorder = true -> JoinLine r outs ins -> JoinLine (f :: r) outs (f :: ins)
  | JL_first : forall f r, operand f -> reorder = false -> JoinLine (f :: r) [] (f :: r)
  | JL_next : forall a f r outs ins, OutputNext a -> JoinLine r outs ins -> JoinLine (a :: f :: r) (f :: outs) ins
  | JL_same : forall a f r outs ins, OutputSame a f -> JoinLine r outs ins -> JoinLine (a :: r) (f :: outs) ins.

  Inductive JoinStops : list string -> stop -> Prop :=
  | JT_here : forall a r x, JoinStop a x -> JoinStops (a :: r) x
  | JT_missing : forall a, OutputNext a -> JoinStops [a] Invalid
  | JT_operand : forall f r x, operand f -> reorder = true -> JoinStops r x -> JoinStops (f :: r) x
  | JT_next : forall a f r x, OutputNext a -> JoinStops r x -> JoinStops (a :: f :: r) x
  | JT_same : forall a f r x, OutputSame a f -> JoinStops r x -> JoinStops (a :: r) x.
End Lines.

(** Of several output names the last one counts. *)
Definition last_name (outs : list string) : option string := last (map Some outs) None.

(** ** The usage texts *)

Definition newline : ascii := "010"%char.
Definition one_line (s : string) : Prop := forall a b, s <> (a ++ String newline b)%string.

(** The lines of a text *)
Fixpoint lines (s : string) : list string :=
  match s with
  | EmptyString => [EmptyString]
  | String c r => if Ascii.eqb c newline then EmptyString :: lines r
                  else match lines r with [] => [String c EmptyString] | l :: ls => String c l :: ls end
  end.

(** What comes before the first occurrence of [sep], and what after *)
Fixpoint cut (sep s : string) : string * option string :=
  if prefix sep s then (EmptyString, Some (substring (String.length sep) (String.length s) s)) else
  match s with
  | EmptyString => (EmptyString, None)
  | String c r => let '(a, b) := cut sep r in (String c a, b)
  end.

(** A line that describes an option starts with two spaces; its spellings end
    where two more follow, and have commas between them. *)
Definition spellings (line : string) : list string :=
  match line with
  | String " " (String " " r) =>
      let '(a, b) := cut ", " (fst (cut "  " r)) in
      match b with None => [a] | Some b => [a; b] end
  | _ => []
  end.
Definition documented (usage : string) : list string := flat_map spellings (lines usage).
