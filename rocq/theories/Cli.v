(** * Cli: reading the keywords out of a file, the handlers, and the commands that start the web
    site (/repo/pyslope/_version.py:60-70, 152-176, /repo/pyslope/cli.py, /repo/manage.py).

    The text of a file is what [open] gives after it has turned every end of a line into a line
    feed; a file that breaks off in the middle is not modelled.  Standard output of the commands is
    not modelled. *)
From Coq Require Import ZArith NArith List Bool Ascii String.
From Verif Require Import Py Report Version Release.
Import ListNotations.
Local Open Scope string_scope.

(** ** The keywords in a file *)
Definition nl : ascii := ascii_of_nat 10.
Definition quote : ascii := ascii_of_nat 34.
(** [for line in fobj]: a line keeps its end *)
Fixpoint file_lines (s : string) : list string :=
  match s with
  | "" => []
  | String c s' =>
      if Ascii.eqb c nl then String c "" :: file_lines s'
      else match file_lines s' with
           | [] => [String c ""]
           | l :: ls => String c l :: ls
           end
  end.
(** the group and the quote after it: as much as possible of one line *)
Fixpoint upto_last_quote (s : string) : option string :=
  match s with
  | "" => None
  | String c s' =>
      if Ascii.eqb c nl then None
      else match upto_last_quote s' with
           | Some b => Some (String c b)
           | None => if Ascii.eqb c quote then Some "" else None
           end
  end.
(** what follows the sign of equality: blanks, a quote, the group and a quote *)
Definition after_equals (s : string) : option string :=
  match lstrip is_space s with
  | String c r => if Ascii.eqb c quote then upto_last_quote r else None
  | "" => None
  end.
(** [re.search] with the pattern of lines 163, 167 and 171: the group of the leftmost match *)
Fixpoint search (s : string) : option string :=
  match s with
  | "" => None
  | String c s' =>
      if Ascii.eqb c "=" then match after_equals s' with Some b => Some b | None => search s' end
      else search s'
  end.
Definition key_line (key line : string) : bool := String.prefix (key ++ " =") (strip line).
Definition or_else (a b : option string) : option string := match a with Some x => Some x | None => b end.
(** _version.py:162-173: one line *)
Definition read_line (k : keywords) (line : string) : keywords :=
  let found key := if key_line key line then search line else None in
  MkKeywords (or_else (found "git_refnames") (kw_refnames k))
             (or_else (found "git_full") (kw_full k))
             (or_else (found "git_date") (kw_date k)).
(** _version.py:152-176 [git_get_keywords]; [None] for a file that cannot be opened *)
Definition git_get_keywords (file : option string) : keywords :=
  fold_left read_line (match file with Some s => file_lines s | None => [] end) (MkKeywords None None None).

(** ** The handlers *)
(** [HANDLERS], a dictionary of dictionaries *)
Definition handlers (F : Type) : Type := list (string * list (string * F)).
Definition get {V} (d : list (string * V)) (k : string) : option V :=
  match find (fun kv => String.eqb (fst kv) k) d with Some (_, v) => Some v | None => None end.
Fixpoint put {V} (d : list (string * V)) (k : string) (v : V) : list (string * V) :=
  match d with
  | [] => [(k, v)]
  | (k', w) :: d' => if String.eqb k' k then (k', v) :: d' else (k', w) :: put d' k v
  end.
(** _version.py:60-70 [register_vcs_handler] *)
Definition register {F} (h : handlers F) (vcs method : string) (f : F) : handlers F :=
  let h := match get h vcs with Some _ => h | None => put h vcs [] end in
  put h vcs (put (match get h vcs with Some d => d | None => [] end) method f).

(** ** The commands *)
(** cli.py:6-8 *)
Inductive command := Migrate | Collect | Serve.
(** How [subprocess.run] ends: with a code (which nobody reads), by Ctrl-C, or by an exception such
    as the missing program. *)
Inductive ending := Exited (code : Z) | Interrupted | Broke.
(** How a call ends *)
Inductive outcome := Returned | Raises | StillRunning.
(** cli.py:4-10 [run_django_server]: the commands that were started, whether the message was
    printed, and the outcome *)
Fixpoint run_all (how : command -> ending) (l : list command) : list command * bool * outcome :=
  match l with
  | [] => ([], false, Returned)
  | c :: l' =>
      match how c with
      | Exited _ => let '(started, printed, o) := run_all how l' in (c :: started, printed, o)
      | Interrupted => ([c], true, Returned)
      | Broke => ([c], false, Raises)
      end
  end.
Definition run_django_server (how : command -> ending) : list command * bool * outcome :=
  run_all how [Migrate; Collect; Serve].
(** cli.py:13-16 [cli]: the test of [__name__] stands inside the function.  [how n] is what happens
    in turn [n]; [fuel] turns are looked at. *)
Fixpoint cli (is_main : bool) (how : nat -> command -> ending) (turn fuel : nat) : list command * outcome :=
  match fuel with
  | O => ([], StillRunning)
  | S fuel' =>
      match run_django_server (how turn) with
      | (started, _, Returned) =>
          if is_main then let '(more, o) := cli is_main how (S turn) fuel' in (started ++ more, o)%list
          else (started, Returned)
      | (started, _, o) => (started, o)
      end
  end.
(** manage.py:7-18 [main]: the environment, and whether Django was called *)
Definition setting : string := "DJANGO_SETTINGS_MODULE".
Definition setdefault (env : list (string * string)) (k v : string) : list (string * string) :=
  match get env k with Some _ => env | None => put env k v end.
Definition main (env : list (string * string)) (django_there : bool) : list (string * string) * bool :=
  (setdefault env setting "engineering.settings", django_there).
