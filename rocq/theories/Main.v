(** * The command lines of the tools (iffpp/main.c, iffjoin/main.c).
    Definitions only. *)

From Coq Require Import ZArith List Bool String Ascii.
From Verif Require Import Machine Io Types Build Read Write Check Iff.
Import ListNotations.
Open Scope Z_scope.

(** ** getopt and getopt_long

    Not part of the repository: what their documentation says (POSIX, and GNU
    for long options and the reordering of operands).  The messages they print
    on stderr are left out. *)

(** What the loop around them sees: an option letter with its argument, or '?' *)
Inductive event := Opt (c : ascii) (arg : option string) | Unknown.

(** Short options: letters, and whether they take an argument *)
Definition shorts := list (ascii * bool).
(** Long options: names, whether they take an argument, and the letter they stand for *)
Record long_option := mkLong { l_name : string; l_arg : bool; l_letter : ascii }.

(** How the tools were built: with getopt_long (HAVE_GETOPT_H == 1), with
    getopt, or with Microsoft's compiler.  [reorder]: whether options are also
    looked for behind operands. *)
Inductive build := Getopt (long reorder : bool) | Msvc.

(** The options in one word "-xyz"; second, the letter that waits for its
    argument, which is then the next word *)
Fixpoint short_word (sh : shorts) (s : string) : list event * option ascii :=
  match s with
  | EmptyString => ([], None)
  | String c r =>
      match find (fun o => Ascii.eqb (fst o) c) sh with
      | None => let '(ev, p) := short_word sh r in (Unknown :: ev, p)
      | Some (_, false) => let '(ev, p) := short_word sh r in (Opt c None :: ev, p)
      | Some (_, true) =>
          match r with
          | EmptyString => ([], Some c)
          | _ => ([Opt c (Some r)], None)
          end
      end
  end.

(** "name=value" *)
Fixpoint split_eq (s : string) : string * option string :=
  match s with
  | EmptyString => (EmptyString, None)
  | String c r =>
      if Ascii.eqb c "=" then (EmptyString, Some r)
      else let '(n, v) := split_eq r in (String c n, v)
  end.

(** The exact name, else the only one it abbreviates *)
Definition find_long (ls : list long_option) (name : string) : option long_option :=
  match find (fun o => String.eqb (l_name o) name) ls with
  | Some o => Some o
  | None => match filter (fun o => String.prefix name (l_name o)) ls with
            | [o] => Some o
            | _ => None
            end
  end.

(** The option in one word "--s" *)
Definition long_word (ls : list long_option) (s : string) : list event * option ascii :=
  let '(name, value) := split_eq s in
  match find_long ls name with
  | None => ([Unknown], None)
  | Some o =>
      match l_arg o, value with
      | true, Some v => ([Opt (l_letter o) (Some v)], None)
      | true, None => ([], Some (l_letter o))
      | false, None => ([Opt (l_letter o) None], None)
      | false, Some _ => ([Unknown], None)
      end
  end.

(** [None]: not an option *)
Definition option_word (sh : shorts) (ls : option (list long_option)) (a : string)
  : option (list event * option ascii) :=
  match a with
  | String "-" (String c s) =>
      match ls with
      | Some l => if Ascii.eqb c "-" then Some (long_word l s) else Some (short_word sh (String c s))
      | None => Some (short_word sh (String c s))
      end
  | _ => None
  end.

(** All events, and the operands *)
Fixpoint getopt (reorder : bool) (sh : shorts) (ls : option (list long_option))
    (args : list string) (pending : option ascii) : list event * list string :=
  match args with
  | [] => (match pending with Some _ => [Unknown] | None => [] end, [])
  | a :: r =>
      match pending with
      | Some c => let '(ev, ops) := getopt reorder sh ls r None in (Opt c (Some a) :: ev, ops)
      | None =>
          if String.eqb a "--" then ([], r)
          else match option_word sh ls a with
               | Some (ev1, p) => let '(ev, ops) := getopt reorder sh ls r p in (ev1 ++ ev, ops)
               | None =>
                   if reorder then let '(ev, ops) := getopt reorder sh ls r None in (ev, a :: ops)
                   else ([], a :: r)
               end
      end
  end.

(** ** iffpp/main.c *)

(** main.c 33-53 printUsage; puts adds a newline *)
Definition pp_usage (b : build) (command : string) : string :=
  ("Usage: " ++ command ++ " [OPTION] [file.IFF]" ++ nl ++ nl ++
   "The command `iffpp' displays a textual representation of a given IFF file, which" ++ nl ++
   "can be used for manual inspection of its contents. If no IFF file is specified," ++ nl ++
   "it reads an IFF file from the standard input." ++ nl ++ nl ++
   "Options:" ++ nl ++
   match b with
   | Msvc =>
       "  /c    Do not check the IFF file for validity" ++ nl ++
       "  /?    Shows the usage of this command to the user" ++ nl ++
       "  /v    Shows the version of this command to the user"
   | Getopt _ _ =>
       "  -c, --disable-check    Do not check the IFF file for validity" ++ nl ++
       "  -h, --help             Shows the usage of this command to the user" ++ nl ++
       "  -v, --version          Shows the version of this command to the user"
   end ++ nl)%string.

(** main.c 55-61 printVersion (the same in both tools).  PACKAGE_NAME is from
    configure.ac 2; PACKAGE_VERSION depends on the build. *)
Definition print_version (version command : string) : string :=
  (command ++ " (libiff) " ++ version ++ nl ++ nl ++
   "Copyright (C) 2012-2015 Sander van der Burg" ++ nl)%string.

(** main.c 94-100, 106-108 *)
Definition pp_shorts : shorts := [("c"%char, false); ("h"%char, false); ("v"%char, false)].
Definition pp_longs : list long_option :=
  [mkLong "disable-check" false "c"; mkLong "help" false "h"; mkLong "version" false "v"].

(** What a main function does after the options *)
Inductive todo (A : Type) := Quit (status : Z) (text : string) | Go (a : A).
Arguments Quit {A}.
Arguments Go {A}.

(** main.c 106-127: the loop; [options] is whether IFFPP_DISABLE_CHECK is set *)
Fixpoint pp_loop (version command : string) (b : build) (evs : list event) (options : bool) : todo bool :=
  match evs with
  | [] => Go options
  | Unknown :: _ => Quit 1 (pp_usage b command)
  | Opt c _ :: r =>
      if Ascii.eqb c "c" then pp_loop version command b r true
      else if Ascii.eqb c "h" then Quit 0 (pp_usage b command)
      else if Ascii.eqb c "v" then Quit 0 (print_version version command)
      else pp_loop version command b r options
  end.

(** main.c 72-90: the loop for Microsoft's compiler; [optind] counts from the
    first argument on *)
Fixpoint pp_loop_msvc (version command : string) (args : list string) (options : bool) (optind : nat)
  : todo (bool * nat) :=
  match args with
  | [] => Go (options, optind)
  | a :: r =>
      if String.eqb a "/c" then pp_loop_msvc version command r true (S optind)
      else if String.eqb a "/?" then Quit 0 (pp_usage Msvc command)
      else if String.eqb a "/v" then Quit 0 (print_version version command)
      else pp_loop_msvc version command r options optind
  end.

(** main.c 63-138 main: [args] is argv without argv[0], [command] is argv[0].
    Exit status, and the text on standard output. *)
Definition pp_options (version command : string) (b : build) (args : list string) : todo (bool * option string) :=
  match b with
  | Getopt long reorder =>
      let '(evs, ops) := getopt reorder pp_shorts (if long then Some pp_longs else None) args None in
      match pp_loop version command b evs false with
      | Quit z t => Quit z t
      | Go options => Go (options, nth_error ops 0)
      end
  | Msvc =>
      match pp_loop_msvc version command args false 0 with
      | Quit z t => Quit z t
      | Go (options, optind) => Go (options, nth_error args optind)
      end
  end.
Definition pp_main (version command : string) (b : build) (args : list string) : MS (Z * string) :=
  match pp_options version command b args with
  | Quit z t => retS (z, t)
  | Go (options, filename) => IFF_prettyPrint filename options
  end.

(** ** iffjoin/main.c *)

(** main.c 34-54 printUsage *)
Definition join_usage (b : build) (command : string) : string :=
  ("Usage: " ++ command ++ " [OPTION] file1.IFF file2.IFF ..." ++ nl ++ nl ++
   "The command `iffjoin' joins an aribitrary number of IFF files into a single" ++ nl ++
   "concatenation IFF file. The result is written to the standard output, or" ++ nl ++
   "optionally to a given destination file." ++ nl ++ nl ++
   "Options:" ++ nl ++
   match b with
   | Msvc =>
       "  /o FILE    Specify an output file name" ++ nl ++
       "  /?         Shows the usage of this command to the user" ++ nl ++
       "  /v         Shows the version of this command to the user"
   | Getopt _ _ =>
       "  -o, --output-file=FILE    Specify an output file name" ++ nl ++
       "  -h, --help                Shows the usage of this command to the user" ++ nl ++
       "  -v, --version             Shows the version of this command to the user"
   end ++ nl)%string.

(** main.c 94-100, 105-107 *)
Definition join_shorts : shorts := [("o"%char, true); ("h"%char, false); ("v"%char, false)].
Definition join_longs : list long_option :=
  [mkLong "output-file" true "o"; mkLong "help" false "h"; mkLong "version" false "v"].

(** main.c 105-126: the loop *)
Fixpoint join_options_loop (version command : string) (b : build) (evs : list event) (output : option string)
  : todo (option string) :=
  match evs with
  | [] => Go output
  | Unknown :: _ => Quit 1 (join_usage b command)
  | Opt c arg :: r =>
      if Ascii.eqb c "o" then join_options_loop version command b r arg
      else if Ascii.eqb c "h" then Quit 0 (join_usage b command)
      else if Ascii.eqb c "v" then Quit 0 (print_version version command)
      else join_options_loop version command b r output
  end.

(** main.c 72-90: the loop for Microsoft's compiler *)
Fixpoint join_loop_msvc (version command : string) (args : list string) (output : option string) (optind : nat)
  : todo (option string * nat) :=
  match args with
  | [] => Go (output, optind)
  | a :: r =>
      if String.eqb a "/o" then join_loop_msvc version command r (Some a) (S optind)
      else if String.eqb a "/?" then Quit 0 (join_usage Msvc command)
      else if String.eqb a "/v" then Quit 0 (print_version version command)
      else join_loop_msvc version command r output optind
  end.

Definition join_options (version command : string) (b : build) (args : list string)
  : todo (option string * list string) :=
  match b with
  | Getopt long reorder =>
      let '(evs, ops) := getopt reorder join_shorts (if long then Some join_longs else None) args None in
      match join_options_loop version command b evs None with
      | Quit z t => Quit z t
      | Go output => Go (output, ops)
      end
  | Msvc =>
      match join_loop_msvc version command args None 0 with
      | Quit z t => Quit z t
      | Go (output, optind) => Go (output, skipn optind args)
      end
  end.

(** main.c 64-154 main.  The array of input names is written to without
    looking at the result of malloc; the message goes to stderr, which is where
    the default error callback writes to. *)
Definition join_main (version command : string) (b : build) (args : list string) : MS (Z * string) :=
  match join_options version command b args with
  | Quit z t => retS (z, t)
  | Go (output, []) =>
      u <-s no_streams (IFF_error ("ERROR: No IFF input files given!" ++ nl)%string) ;;
      retS (1, EmptyString)
  | Go (output, inputs) =>
      ok <-s no_streams (malloc (Z.of_nat (List.length inputs) * sizeof_pointer)) ;;
      if ok : bool then
        status <-s IFF_join inputs output ;;
        retS (status, EmptyString)
      else liftS (Undefined UB_null_deref)
  end.
