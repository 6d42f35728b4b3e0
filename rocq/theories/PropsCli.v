(** * PropsCli: the keywords read out of a file (C116) and the commands that start the web site
    (C117). *)
From Coq Require Import ZArith NArith List Bool Ascii String.
From Verif Require Import Py Report Version VersionFacts Release ReleaseFacts Cli CliFacts.
Import ListNotations.
Local Open Scope string_scope.

(** ** C116 *)
(** The lines of a text make up the text, and a line has its end at its end and nowhere else. *)
Theorem C116_lines : forall s, String.concat "" (file_lines s) = s /\ Forall one_line (file_lines s).
Proof. intros s. split; [apply lines_join|apply lines_single]. Qed.
Print Assumptions C116_lines.
(** The pattern: the leftmost sign of equality that blanks and a quoted text follow; the quoted text
    goes to the last quote of the line. *)
Theorem C116_pattern : forall s b, search s = Some b <->
  exists pre rest, s = pre ++ String "=" rest /\ quoted rest b /\
    forall pre' rest' b', s = pre' ++ String "=" rest' -> quoted rest' b' -> (String.length pre <= String.length pre')%nat.
Proof. exact search_iff. Qed.
Print Assumptions C116_pattern.
(** Each keyword has the value of the last of its own lines that fits the pattern, and no value when
    there is none. *)
Theorem C116_reads : forall s, let k := git_get_keywords (Some s) in
  value "git_refnames" (file_lines s) (kw_refnames k) /\ value "git_full" (file_lines s) (kw_full k) /\
  value "git_date" (file_lines s) (kw_date k).
Proof. exact reads. Qed.
Print Assumptions C116_reads.
(** There is only one such value. *)
Theorem C116_value : forall key ls o o', value key ls o -> value key ls o' -> o = o'.
Proof. exact value_one. Qed.
Print Assumptions C116_value.
Example C116_reads_case :
  let s := whole ["git_full=0"; "  git_full = 'a'"; " git_full =  ""b"" # ""c"; "x git_full = ""d"""] in
  kw_full (git_get_keywords (Some s)) = Some "b"" # " /\ kw_date (git_get_keywords (Some s)) = None.
Proof. split; vm_compute; reflexivity. Qed.
(** A file that cannot be opened gives no keywords, and the version is then sought elsewhere. *)
Theorem C116_missing : git_get_keywords None = MkKeywords None None None /\ from_keywords (git_get_keywords None) "" = NotThis.
Proof. split; reflexivity. Qed.
Print Assumptions C116_missing.
(** The file of the module, as git writes it into an archive, is read back to the texts git wrote: the
    answer is that of the module itself. *)
Theorem C116_module : forall bodies tail r f d, Forall (fun b => has_char nl b = false) bodies ->
  has_char nl r = false -> has_char nl f = false -> has_char nl d = false ->
  (forall key l, In key ["git_refnames"; "git_full"; "git_date"] ->
     In l (map ended bodies ++ file_lines tail) -> ~ of_key key l) ->
  let file := whole bodies ++
    whole ["    git_refnames = " ++ String quote (r ++ String quote "");
           "    git_full = " ++ String quote (f ++ String quote "");
           "    git_date = " ++ String quote (d ++ String quote "")] ++ tail in
  git_get_keywords (Some file) = MkKeywords (Some r) (Some f) (Some d) /\
  from_keywords (git_get_keywords (Some file)) "" = from_keywords (MkKeywords (Some r) (Some f) (Some d)) "".
Proof.
  intros bodies tail r f d FB R F D NO file.
  assert (E : git_get_keywords (Some file) = MkKeywords (Some r) (Some f) (Some d)) by exact (module_read bodies tail r f d FB R F D NO).
  split; [exact E|now rewrite E].
Qed.
Print Assumptions C116_module.
Example C116_module_case :
  let bodies := ["def get_keywords():"; "    # comment"] in let tail := "    keywords = {""full"": git_full}" in
  (forall key l, In key ["git_refnames"; "git_full"; "git_date"] -> In l (map ended bodies ++ file_lines tail) -> ~ of_key key l) /\
  git_get_keywords (Some (whole bodies ++
    whole ["    git_refnames = "" (tag: 1.0)"""; "    git_full = ""8cb939a"""; "    git_date = ""2022-09-27 18:05:12 +1000"""] ++ tail)) =
  MkKeywords (Some " (tag: 1.0)") (Some "8cb939a") (Some "2022-09-27 18:05:12 +1000").
Proof.
  cbv zeta. split; [|vm_compute; reflexivity]. intros key l K I O.
  apply key_strip in O; [|destruct K as [<-|[<-|[<-|[]]]]; (discriminate || (split; reflexivity))..].
  destruct K as [<-|[<-|[<-|[]]]], I as [<-|[<-|[<-|[]]]]; vm_compute in O; discriminate O.
Qed.
(** A registered handler is found, the others stay as they were. *)
Theorem C116_register : forall (F : Type) (h : handlers F) vcs method f vcs' method',
  handler (register h vcs method f) vcs' method' =
  if String.eqb vcs vcs' && String.eqb method method' then Some f else handler h vcs' method'.
Proof. exact @registered. Qed.
Print Assumptions C116_register.
Example C116_register_case : let h := register (register (register [] "git" "get_keywords" 1) "git" "keywords" 2) "git" "pieces_from_vcs" 3 in
  handler h "git" "keywords" = Some 2 /\ handler h "git" "pieces_from_vcs" = Some 3 /\ handler h "hg" "keywords" = None.
Proof. repeat split. Qed.

(** ** C117 *)
(** The three commands are started in order, each after the one before has ended with whatever code;
    Ctrl-C ends the row with the message and without an exception, any other failure of a start with
    an exception. *)
Theorem C117_commands : forall how, let '(started, printed, o) := run_django_server how in
  let row := [Migrate; Collect; Serve] in
  (started = row /\ Forall (fun c => exited (how c)) row /\ printed = false /\ o = Returned) \/
  exists pre c post, row = (pre ++ c :: post)%list /\ started = (pre ++ [c])%list /\ Forall (fun c => exited (how c)) pre /\
    ((how c = Interrupted /\ printed = true /\ o = Returned) \/ (how c = Broke /\ printed = false /\ o = Raises)).
Proof. intros how. exact (run_all_cases how [Migrate; Collect; Serve]). Qed.
Print Assumptions C117_commands.
(** The codes make no difference: the server is started on a database that could not be migrated. *)
Theorem C117_codes : forall a b c,
  run_django_server (fun x => match x with Migrate => Exited a | Collect => Exited b | Serve => Exited c end) =
  ([Migrate; Collect; Serve], false, Returned).
Proof. reflexivity. Qed.
Print Assumptions C117_codes.
(** The installed command, for which [__name__] is the name of the module, makes one turn. *)
Theorem C117_once : forall how turn fuel, let '(started, _, o) := run_django_server (how turn) in
  cli false how turn (S fuel) = (started, o).
Proof. intros how turn fuel. cbn [cli]. destruct (run_django_server (how turn)) as ((started & printed) & []); reflexivity. Qed.
Print Assumptions C117_once.
(** Under the name "__main__" the function never returns: it starts the commands again and again. *)
Theorem C117_main : forall how turn fuel,
  snd (cli true how turn fuel) <> Returned /\
  ((forall n c, exited (how n c)) ->
   cli true how turn fuel = (List.concat (repeat [Migrate; Collect; Serve] fuel), StillRunning)).
Proof. intros how turn fuel. split; [apply cli_main_never|apply cli_turns]. Qed.
Print Assumptions C117_main.
Example C117_main_case : cli true (fun n c => match n, c with 1, Collect => Broke | _, _ => Exited 0 end) 0 5 =
  ([Migrate; Collect; Serve; Migrate; Collect], Raises).
Proof. reflexivity. Qed.
(** manage.py keeps the settings module that the environment names and names its own otherwise; no
    other variable changes. *)
Theorem C117_settings : forall env django k,
  get (fst (main env django)) k =
  if String.eqb "DJANGO_SETTINGS_MODULE" k
  then match get env k with Some v => Some v | None => Some "engineering.settings" end
  else get env k.
Proof.
  intros env django k. unfold main, setdefault. cbn [fst]. destruct (get env setting) as [v|] eqn:G; [|rewrite get_put]; unfold setting in *;
    destruct (String.eqb_spec "DJANGO_SETTINGS_MODULE" k) as [<-|]; rewrite ?G; reflexivity.
Qed.
Print Assumptions C117_settings.
Example C117_settings_case : get (fst (main [("PATH", "/bin")] true)) "DJANGO_SETTINGS_MODULE" = Some "engineering.settings" /\
  get (fst (main [("DJANGO_SETTINGS_MODULE", "x")] true)) "DJANGO_SETTINGS_MODULE" = Some "x".
Proof. split; reflexivity. Qed.
