(** * PropsRelease: where the version comes from (C102). *)
From Coq Require Import ZArith NArith List Bool Ascii String.
From Verif Require Import Py Report Version VersionFacts Release ReleaseFacts.
Import ListNotations.
Local Open Scope string_scope.

(** ** An archive: the keywords decide, whatever git says *)
(** git writes the names as " (a, b, c)" and nothing without names; the version is the least
    tag that starts with a digit. *)
Theorem C102_archive : forall l full date git, Forall plain_ref l -> date <> "" ->
  exists d v, iso_date date = Ok d /\
  get_versions (MkKeywords (Some (match l with [] => "" | _ => " (" ++ String.concat ", " l ++ ")" end))
                           (Some full) (Some date)) git = Ok v /\
  let is_tag t := if existsb (String.prefix "tag: ") l then In ("tag: " ++ t) l
                  else In t l /\ has_digit t = true in
  ((exists r, v = MkVersions r (Some (strip full)) (Some false) None (Some d) /\
      is_tag r /\ starts_digit r = true /\
      forall r', is_tag r' -> starts_digit r' = true -> String.leb r r' = true) \/
   ((forall r, is_tag r -> starts_digit r = false) /\
    v = MkVersions "0+unknown" (Some (strip full)) (Some false) (Some "no suitable tags") None)).
Proof. exact archive_version. Qed.
Print Assumptions C102_archive.
Definition names := ["HEAD -> master"; "tag: 1.2.0"; "tag: 1.10.0"; "origin/master"].
Example C102_archive_names : Forall plain_ref names.
Proof. repeat constructor; cbn; congruence. Qed.
(** the order is the order of texts: 1.10.0 comes before 1.2.0 *)
Example C102_archive_case : forall git,
  get_versions (MkKeywords (Some " (HEAD -> master, tag: 1.2.0, tag: 1.10.0, origin/master)")
                           (Some "8cb939a") (Some "2022-09-27 18:05:12 +1000")) git =
  Ok (MkVersions "1.10.0" (Some "8cb939a") (Some false) None (Some "2022-09-27T18:05:12+1000")).
Proof. intros git. vm_compute. reflexivity. Qed.
Example C102_archive_none : forall git,
  get_versions (MkKeywords (Some " (HEAD -> master)") (Some "8cb939a") (Some "2022-09-27 18:05:12 +1000")) git =
  Ok (MkVersions "0+unknown" (Some "8cb939a") (Some false) (Some "no suitable tags") None).
Proof. intros git. vm_compute. reflexivity. Qed.
(** old git: names without the mark count when they hold a digit *)
Example C102_archive_old : forall git,
  get_versions (MkKeywords (Some " (HEAD, 0.9, master, r2)") (Some "8cb939a") (Some "2022-09-27 18:05:12 +1000")) git =
  Ok (MkVersions "0.9" (Some "8cb939a") (Some false) None (Some "2022-09-27T18:05:12+1000")).
Proof. intros git. vm_compute. reflexivity. Qed.

(** what counts as a blank and as the end of a line (str.strip, str.splitlines) *)
Theorem C102_blanks : forall c,
  (is_space c = true <-> In (N_of_ascii c) [9; 10; 11; 12; 13; 28; 29; 30; 31; 32; 133; 160]%N) /\
  (is_break c = true <-> In (N_of_ascii c) [10; 11; 12; 13; 28; 29; 30; 133]%N).
Proof. intros c. split; [apply spaces_are|apply breaks_are]. Qed.
Print Assumptions C102_blanks.

(** the date loses its two blanks *)
Theorem C102_date : forall day hour zone, let s := day ++ " " ++ hour ++ " " ++ zone in
  no_break s -> trim is_space s -> has_char " " day = false -> has_char " " hour = false ->
  iso_date s = Ok (day ++ "T" ++ hour ++ zone).
Proof. exact date_iso. Qed.
Print Assumptions C102_date.
Example C102_date_case : iso_date "2022-09-27 18:05:12 +1000" = Ok "2022-09-27T18:05:12+1000".
Proof. reflexivity. Qed.

(** ** A checkout: what git describe says, on whatever branch *)
Theorem C102_tagged : forall git full date tag n hex (dirty : bool), repository git full date ->
  tag <> "" -> some_chars is_hex hex = true ->
  answers git Describe (tag ++ "-" ++ whole n ++ "-g" ++ hex ++ (if dirty then "-dirty" else "")) ->
  exists d, iso_date date = Ok d /\
  get_versions unexpanded git =
  Ok (MkVersions (if andb (N.eqb n 0) (negb dirty) then tag
                  else tag ++ (if has_char "+" tag then "." else "+") ++ whole n ++ ".g" ++ hex ++
                       (if dirty then ".dirty" else ""))
                 (Some full) (Some dirty) None (Some d)).
Proof. exact checkout_tagged. Qed.
Print Assumptions C102_tagged.
Theorem C102_untagged : forall git full date hex (dirty : bool) n, repository git full date ->
  some_chars is_hex hex = true ->
  answers git Describe (hex ++ (if dirty then "-dirty" else "")) -> answers git Count (whole n) ->
  exists d, iso_date date = Ok d /\
  get_versions unexpanded git =
  Ok (MkVersions ("0+untagged." ++ whole n ++ ".g" ++ substring 0 7 full ++ (if dirty then ".dirty" else ""))
                 (Some full) (Some dirty) None (Some d)).
Proof. exact checkout_untagged. Qed.
Print Assumptions C102_untagged.
Definition sample (describe : string) (count : process) (q : query) : process :=
  match q with
  | GitDir => Ran (".git" ++ newline) 0
  | Describe => Ran (describe ++ newline) 0
  | Head => Ran ("8cb939a1f0c2" ++ newline) 0
  | AbbrevRef => Ran ("HEAD" ++ newline) 0
  | Contains => Ran ("* (HEAD detached at 8cb939a)" ++ newline ++ "  master" ++ newline) 0
  | Count => count
  | ShowDate => Ran ("2022-09-27 18:05:12 +1000" ++ newline) 0
  end.
Example C102_sample : forall t c, repository (sample t c) "8cb939a1f0c2" "2022-09-27 18:05:12 +1000".
Proof.
  intros t c. repeat split; cbn; try discriminate; eauto. exists "HEAD". split; [split; [split|]; reflexivity|].
  right. eexists. reflexivity.
Qed.
Example C102_tagged_case : answers (sample "1.0-3-g8cb939a-dirty" Missing) Describe "1.0-3-g8cb939a-dirty" /\
  get_versions unexpanded (sample "1.0-3-g8cb939a-dirty" Missing) =
  Ok (MkVersions "1.0+3.g8cb939a.dirty" (Some "8cb939a1f0c2") (Some true) None (Some "2022-09-27T18:05:12+1000")).
Proof. split; [split; [split|]; reflexivity|vm_compute; reflexivity]. Qed.
Example C102_untagged_case :
  get_versions unexpanded (sample "8cb939a" (Ran ("412" ++ newline) 0)) =
  Ok (MkVersions "0+untagged.412.g8cb939a" (Some "8cb939a1f0c2") (Some false) None (Some "2022-09-27T18:05:12+1000")).
Proof. vm_compute. reflexivity. Qed.

(** ** The branch: its name; a detached head is on master if master contains it, otherwise on
    the first branch that does.  [listing_of]: what git branch lists after the first line *)
Theorem C102_branch : forall git first l,
  (forall name, name <> "HEAD" -> branch_of git name = Found (Some name)) /\
  ((forall out, git Contains <> Ran out 0) -> branch_of git "HEAD" = NotThis) /\
  (has_char (ascii_of_nat 10) first = false -> Forall (fun n => has_char (ascii_of_nat 10) n = false) l ->
   answers git Contains (first ++ listing_of l) ->
   branch_of git "HEAD" =
   Found (let names := if has_char "(" first then l else drop 2 first :: l in
          if existsb (String.eqb "master") names then Some "master" else hd_error names)).
Proof.
  intros git first l. split; [exact (branch_named git)|]. split; [exact (branch_unknown git)|].
  exact (branch_detached git first l).
Qed.
Print Assumptions C102_branch.
Example C102_branch_case :
  let git o (q : query) := Ran (o ++ newline) 0 in
  answers (git ("* (HEAD detached at 8cb939a)" ++ listing_of ["dev"; "master"])) Contains
          ("* (HEAD detached at 8cb939a)" ++ listing_of ["dev"; "master"]) /\
  branch_of (git ("* (HEAD detached at 8cb939a)" ++ listing_of ["dev"; "master"])) "HEAD" = Found (Some "master") /\
  branch_of (git ("* (HEAD detached at 8cb939a)" ++ listing_of ["dev"; "masterx"])) "HEAD" = Found (Some "dev") /\
  branch_of (git ("* dev" ++ listing_of ["main"])) "HEAD" = Found (Some "dev").
Proof. cbv zeta. split; [split; [split|]; reflexivity|]. repeat split; vm_compute; reflexivity. Qed.

(** ** Neither an archive nor a checkout (or git is missing) *)
Theorem C102_neither : forall git, (forall out, git GitDir <> Ran out 0) ->
  get_versions unexpanded git =
  Ok (MkVersions "0+unknown" None None (Some "unable to compute version") None).
Proof. exact no_checkout. Qed.
Print Assumptions C102_neither.
Example C102_neither_case : forall out : string, (fun _ : query => Missing) GitDir <> Ran out 0.
Proof. discriminate. Qed.

(** ** An answer with an error names no version; one without knows the commit *)
Theorem C102_error : forall k git v, get_versions k git = Ok v ->
  (v_error v = None -> v_full v <> None /\ v_dirty v <> None) /\
  (v_error v <> None -> (v_version v = "0+unknown" \/ v_version v = "unknown") /\ v_date v = None).
Proof. exact error_known. Qed.
Print Assumptions C102_error.

(** ** Importing the package can fail because of its version *)
(** __init__.py:9 asks for the version on import.  It does not fail when git counts the
    commits and dates them. *)
Theorem C102_import_partial : forall git, good_count git -> good_date git ->
  exists v, get_versions unexpanded git = Ok v.
Proof. exact never_raises. Qed.
Print Assumptions C102_import_partial.
Example C102_import_case : good_count (sample "8cb939a" (Ran ("412" ++ newline) 0)) /\
  good_date (sample "8cb939a" (Ran ("412" ++ newline) 0)).
Proof. split; eexists; (split; [reflexivity|]); [reflexivity|discriminate]. Qed.
(** When it fails, this is why. *)
Theorem C102_raises : forall git e, get_versions unexpanded git = Err e ->
  (e = TypeError /\ fst (run_command (git Count)) = None) \/
  (e = ValueError /\ exists s, fst (run_command (git Count)) = Some s /\ some_chars is_digit s = false) \/
  (e = AttributeError /\ fst (run_command (git ShowDate)) = None) \/
  (e = IndexError /\ exists s, fst (run_command (git ShowDate)) = Some s /\ strip s = "").
Proof. exact raises_why. Qed.
Print Assumptions C102_raises.
Example C102_raises_case :
  get_versions unexpanded (sample "8cb939a" Missing) = Err TypeError /\
  get_versions unexpanded (sample "8cb939a" (Ran "many" 0)) = Err ValueError.
Proof. split; vm_compute; reflexivity. Qed.
(** It does when the count fails in a checkout without tags, or the date of an archive is
    empty, although [get_versions] has an answer for "unable to compute version". *)
Theorem C102_import_refuted : exists k git e, get_versions k git = Err e.
Proof. exists unexpanded, (sample "8cb939a" Missing), TypeError. vm_compute. reflexivity. Qed.
Print Assumptions C102_import_refuted.
Theorem C102_import_archive_refuted : forall names full git,
  get_versions (MkKeywords (Some names) full (Some "")) git = Err IndexError.
Proof. reflexivity. Qed.
Print Assumptions C102_import_archive_refuted.
