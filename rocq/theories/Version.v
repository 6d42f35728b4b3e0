(** * Version: the text of the version number (/repo/pyslope/_version.py).

    Running git and the keywords of an archive are in Release.  Not modelled: the name of
    the parent directory (the prefix is empty, so that branch is skipped). *)
From Coq Require Import ZArith NArith List Bool Ascii String Decimal DecimalString.
From Verif Require Import Py Report.
Import ListNotations.
Local Open Scope string_scope.

(** _version.py:293-389: what is found out about a checkout.  [None] for the tag
    is Python's None; [pc_branch = None] a commit on no branch. *)
Record pieces := MkPieces {
  pc_tag : option string;
  pc_distance : N;
  pc_short : string;
  pc_dirty : bool;
  pc_branch : option string;
}.

Fixpoint has_char (c : ascii) (s : string) : bool :=
  match s with
  | "" => false
  | String d s' => Ascii.eqb d c || has_char c s'
  end.
(** [s.split(c)] *)
Fixpoint split_on (c : ascii) (s : string) : list string :=
  match s with
  | "" => [""]
  | String d s' =>
      if Ascii.eqb d c then "" :: split_on c s'
      else match split_on c s' with
           | [] => [String d ""]
           | w :: ws => String d w :: ws
           end
  end.
Definition join (c : ascii) (l : list string) : string := String.concat (String c "") l.
Definition is_digit (c : ascii) : bool :=
  let n := N_of_ascii c in ((48 <=? n) && (n <=? 57))%N.
Definition is_hex (c : ascii) : bool :=
  let n := N_of_ascii c in is_digit c || ((97 <=? n) && (n <=? 102))%N.
Fixpoint all_chars (p : ascii -> bool) (s : string) : bool :=
  match s with "" => true | String c s' => p c && all_chars p s' end.
Definition some_chars (p : ascii -> bool) (s : string) : bool :=
  negb (String.eqb s "") && all_chars p s.

(** _version.py:338-342: [endswith("-dirty")] and what is left without it *)
Definition strip_dirty (s : string) : string * bool :=
  let n := (String.length s - 6)%nat in
  if (6 <=? String.length s)%nat && String.eqb (substring n 6 s) "-dirty"
  then (substring 0 n s, true) else (s, false).

(** [int] of a text of digits *)
Definition int_of (s : string) : N :=
  match NilEmpty.uint_of_string s with Some u => N.of_uint u | None => 0%N end.

(** _version.py:344-379: the answer of git describe.  [count] stands for the
    answer of rev-list, [branch] for the branch.  The regular expression
    "(.+)-(\d+)-g([0-9a-f]+)" is read from the right: neither the number nor the
    hash contains a hyphen, so the last two hyphens are the ones it names.
    [None]: the text cannot be parsed (pieces["error"]). *)
Definition parse_describe (full : string) (count : N) (branch : option string) (out : string)
  : option pieces :=
  let '(d, dirty) := strip_dirty out in
  if has_char "-" d then
    match List.rev (split_on "-" d) with
    | String g hex :: num :: rest =>
        let tag := join "-" (List.rev rest) in
        if Ascii.eqb g "g" && some_chars is_hex hex && some_chars is_digit num
           && negb (String.eqb tag "")
        then Some (MkPieces (Some tag) (int_of num) hex dirty branch)
        else None
    | _ => None
    end
  else Some (MkPieces None count (substring 0 7 full) dirty branch).

(** _version.py:393-397 [plus_or_dot] *)
Definition plus_or_dot (tag : string) : string := if has_char "+" tag then "." else "+".
(** [if pieces["closest-tag"]]: an empty tag counts as none *)
Definition tag_of (p : pieces) : option string :=
  match pc_tag p with Some t => if String.eqb t "" then None else Some t | None => None end.
Definition moved (p : pieces) : bool := negb (pc_distance p =? 0)%N || pc_dirty p.
Definition on_master (p : pieces) : bool :=
  match pc_branch p with Some b => String.eqb b "master" | None => false end.
Definition opt (b : bool) (s : string) : string := if b then s else "".

(** _version.py:400-421 [render_pep440] *)
Definition render_pep440 (p : pieces) : string :=
  match tag_of p with
  | Some t => t ++ opt (moved p) (plus_or_dot t ++ whole (pc_distance p) ++ ".g" ++ pc_short p
                                  ++ opt (pc_dirty p) ".dirty")
  | None => "0+untagged." ++ whole (pc_distance p) ++ ".g" ++ pc_short p ++ opt (pc_dirty p) ".dirty"
  end.
(** _version.py:424-450 [render_pep440_branch] *)
Definition render_pep440_branch (p : pieces) : string :=
  match tag_of p with
  | Some t => t ++ opt (moved p) (opt (negb (on_master p)) ".dev0" ++ plus_or_dot t
                ++ whole (pc_distance p) ++ ".g" ++ pc_short p ++ opt (pc_dirty p) ".dirty")
  | None => "0" ++ opt (negb (on_master p)) ".dev0" ++ "+untagged." ++ whole (pc_distance p) ++ ".g"
              ++ pc_short p ++ opt (pc_dirty p) ".dirty"
  end.
(** _version.py:492-516 [render_pep440_post] *)
Definition render_pep440_post (p : pieces) : string :=
  match tag_of p with
  | Some t => t ++ opt (moved p) (".post" ++ whole (pc_distance p) ++ opt (pc_dirty p) ".dev0"
                ++ plus_or_dot t ++ "g" ++ pc_short p)
  | None => "0.post" ++ whole (pc_distance p) ++ opt (pc_dirty p) ".dev0" ++ "+g" ++ pc_short p
  end.
(** _version.py:519-545 [render_pep440_post_branch] *)
Definition render_pep440_post_branch (p : pieces) : string :=
  match tag_of p with
  | Some t => t ++ opt (moved p) (".post" ++ whole (pc_distance p) ++ opt (negb (on_master p)) ".dev0"
                ++ plus_or_dot t ++ "g" ++ pc_short p ++ opt (pc_dirty p) ".dirty")
  | None => "0.post" ++ whole (pc_distance p) ++ opt (negb (on_master p)) ".dev0" ++ "+g" ++ pc_short p
              ++ opt (pc_dirty p) ".dirty"
  end.
(** _version.py:548-567 [render_pep440_old] *)
Definition render_pep440_old (p : pieces) : string :=
  match tag_of p with
  | Some t => t ++ opt (moved p) (".post" ++ whole (pc_distance p) ++ opt (pc_dirty p) ".dev0")
  | None => "0.post" ++ whole (pc_distance p) ++ opt (pc_dirty p) ".dev0"
  end.
(** _version.py:570-587 [render_git_describe] *)
Definition render_git_describe (p : pieces) : string :=
  (match tag_of p with
   | Some t => t ++ opt (negb (pc_distance p =? 0)%N) ("-" ++ whole (pc_distance p) ++ "-g" ++ pc_short p)
   | None => pc_short p
   end) ++ opt (pc_dirty p) "-dirty".
(** _version.py:590-607 [render_git_describe_long] *)
Definition render_git_describe_long (p : pieces) : string :=
  (match tag_of p with
   | Some t => t ++ "-" ++ whole (pc_distance p) ++ "-g" ++ pc_short p
   | None => pc_short p
   end) ++ opt (pc_dirty p) "-dirty".

(** _version.py:453-460 [pep440_split_post].  [int] of anything but digits raises
    (simplified: Python also takes signs, underscores and blanks). *)
Definition post : string := ".post".
Definition split_post (ver : string) : res (string * option N) :=
  match index 0 post ver with
  | None => Ok (ver, None)
  | Some n =>
      let a := substring 0 n ver in
      let b := substring (n + 5) (String.length ver) ver in
      match index 0 post b with
      | Some _ => Ok (a, None)
      | None => if String.eqb b "" then Ok (a, Some 0%N)
                else if all_chars is_digit b then Ok (a, Some (int_of b))
                else Err ValueError
      end
  end.
(** _version.py:463-489 [render_pep440_pre] *)
Definition render_pep440_pre (p : pieces) : res string :=
  match tag_of p with
  | Some t =>
      if (pc_distance p =? 0)%N then Ok t
      else
        let! r := split_post t in
        Ok (fst r ++ match snd r with
                     | Some n => ".post" ++ whole (n + 1) ++ ".dev" ++ whole (pc_distance p)
                     | None => ".post0.dev" ++ whole (pc_distance p)
                     end)
  | None => Ok ("0.post0.dev" ++ whole (pc_distance p))
  end.

(** _version.py:610-649 [render]: the text under "version"; [None] stands for
    pieces with an error, "" for no style *)
Definition render (o : option pieces) (style : string) : res string :=
  match o with
  | None => Ok "unknown"
  | Some p =>
      if String.eqb style "" || String.eqb style "default" || String.eqb style "pep440"
      then Ok (render_pep440 p)
      else if String.eqb style "pep440-branch" then Ok (render_pep440_branch p)
      else if String.eqb style "pep440-pre" then render_pep440_pre p
      else if String.eqb style "pep440-post" then Ok (render_pep440_post p)
      else if String.eqb style "pep440-post-branch" then Ok (render_pep440_post_branch p)
      else if String.eqb style "pep440-old" then Ok (render_pep440_old p)
      else if String.eqb style "git-describe" then Ok (render_git_describe p)
      else if String.eqb style "git-describe-long" then Ok (render_git_describe_long p)
      else Err ValueError
  end.
