(** * Release: where the version comes from (/repo/pyslope/_version.py:22-31, 71-150,
    183-390, 652-703 and /repo/pyslope/__init__.py:9).

    Texts are sequences of one-byte characters.  Decoding the output of git, the
    environment, the messages printed when [verbose] is set (it is not) and [realpath] are
    not modelled.  Simplified: [bytes.strip] drops what [str.strip] drops, and the count of
    commits is read only when it is a text of digits. *)
From Coq Require Import ZArith NArith List Bool Ascii String.
From Verif Require Import Py Report Version.
Import ListNotations.
Local Open Scope string_scope.

(** ** Texts *)
(** the characters that [str.strip] drops *)
Definition is_space (c : ascii) : bool :=
  let n := N_of_ascii c in
  ((9 <=? n) && (n <=? 13) || (28 <=? n) && (n <=? 32) || (n =? 133) || (n =? 160))%N.
(** the characters at which [str.splitlines] breaks *)
Definition is_break (c : ascii) : bool :=
  let n := N_of_ascii c in
  ((10 <=? n) && (n <=? 13) || (28 <=? n) && (n <=? 30) || (n =? 133))%N.
Fixpoint lstrip (p : ascii -> bool) (s : string) : string :=
  match s with
  | "" => ""
  | String c s' => if p c then lstrip p s' else s
  end.
Fixpoint rstrip (p : ascii -> bool) (s : string) : string :=
  match s with
  | "" => ""
  | String c s' => match rstrip p s' with
                   | "" => if p c then "" else String c ""
                   | t => String c t
                   end
  end.
Definition strip_chars (p : ascii -> bool) (s : string) : string := rstrip p (lstrip p s).
Definition strip : string -> string := strip_chars is_space.
(** [s.replace(c, t, 1)] *)
Fixpoint replace_once (c : ascii) (t s : string) : string :=
  match s with
  | "" => ""
  | String d s' => if Ascii.eqb d c then t ++ s' else String d (replace_once c t s')
  end.
(** [s.splitlines()[-1]]; a break at the end of the text starts no line *)
Fixpoint lines_last (s cur : string) : string :=
  match s with
  | "" => cur
  | String c s' =>
      if is_break c then match s' with "" => cur | _ => lines_last s' "" end
      else lines_last s' (cur ++ String c "")
  end.
Definition last_line (s : string) : res string :=
  match s with "" => Err IndexError | _ => Ok (lines_last s "") end.
Definition starts_digit (s : string) : bool :=
  match s with "" => false | String c _ => is_digit c end.
Definition has_digit (s : string) : bool := existsb is_digit (list_ascii_of_string s).
(** [s[n:]] *)
Fixpoint drop (n : nat) (s : string) : string :=
  match n, s with
  | O, _ => s
  | S n', "" => ""
  | S n', String _ s' => drop n' s'
  end.
(** [sorted] of texts: by the numbers of the characters *)
Fixpoint insert_text (a : string) (l : list string) : list string :=
  match l with
  | [] => [a]
  | b :: l' => if String.leb a b then a :: l else b :: insert_text a l'
  end.
Definition sort_texts (l : list string) : list string := fold_right insert_text [] l.

(** ** The answer *)
Record versions := MkVersions {
  v_version : string;
  v_full : option string;
  v_dirty : option bool;
  v_error : option string;
  v_date : option string;
}.
(** A method of finding the version: its answer, the exception NotThisMethod (which
    [get_versions] catches), or another exception. *)
Inductive attempt (A : Type) :=
| Found (a : A)
| NotThis
| Raised (e : exn).
Arguments Found {A} a.
Arguments NotThis {A}.
Arguments Raised {A} e.

(** _version.py:191-202, 383-388 *)
Definition iso_date (d : string) : res string :=
  let! l := last_line d in
  Ok (replace_once " " "" (replace_once " " "T" (strip l))).

(** ** The keywords of an archive *)
Record keywords := MkKeywords {
  kw_refnames : option string;
  kw_full : option string;
  kw_date : option string;
}.
(** _version.py:22-32: what git replaces when it makes an archive *)
Definition unexpanded : keywords :=
  MkKeywords (Some "$Format:%d$") (Some "$Format:%H$") (Some "$Format:%ci$").
Definition is_paren (c : ascii) : bool := Ascii.eqb c "(" || Ascii.eqb c ")".
(** _version.py:209-227: the names in the keyword, and those that count as tags *)
Definition refs_of (refnames : string) : list string :=
  map strip (split_on "," (strip_chars is_paren refnames)).
Definition tags_of (refs : list string) : list string :=
  match filter (String.prefix "tag: ") refs with
  | [] => filter has_digit refs
  | l => map (drop 5) l
  end.
(** _version.py:230-248: the first tag in order that fits *)
Fixpoint pick (tag_prefix : string) (l : list string) : option string :=
  match l with
  | [] => None
  | ref :: l' =>
      if String.prefix tag_prefix ref then
        let r := drop (String.length tag_prefix) ref in
        if starts_digit r then Some r else pick tag_prefix l'
      else pick tag_prefix l'
  end.
(** _version.py:183-258 [git_versions_from_keywords].  A keyword that is missing: its
    [None]. *)
Definition from_keywords (k : keywords) (tag_prefix : string) : attempt versions :=
  match kw_refnames k with
  | None => NotThis
  | Some names =>
      match (match kw_date k with
             | None => Ok None
             | Some d => let! t := iso_date d in Ok (Some t)
             end) with
      | Err e => Raised e
      | Ok date =>
          let names := strip names in
          if String.prefix "$Format" names then NotThis
          else
            let v := pick tag_prefix (sort_texts (tags_of (refs_of names))) in
            match kw_full k with
            | None => Raised KeyError
            | Some full =>
                match v with
                | Some r => Found (MkVersions r (Some (strip full)) (Some false) None date)
                | None => Found (MkVersions "0+unknown" (Some (strip full)) (Some false)
                                            (Some "no suitable tags") None)
                end
            end
      end
  end.

(** ** Git *)
(** What running a command comes to. *)
Inductive process :=
| Missing                          (* OSError with ENOENT *)
| Refused                          (* any other OSError *)
| Ran (out : string) (code : Z).
(** _version.py:71-115 [run_command] with the one command "git" *)
Definition run_command (p : process) : option string * option Z :=
  match p with
  | Missing | Refused => (None, None)
  | Ran out code => if Z.eqb code 0 then (Some (strip out), Some code) else (None, Some code)
  end.
Inductive query :=
| GitDir | Describe | Head | AbbrevRef | Contains | Count | ShowDate.

(** _version.py:308-331: the branch *)
Definition branch_of (git : query -> process) (name : string) : attempt (option string) :=
  if String.eqb name "HEAD" then
    match run_command (git Contains) with
    | (Some out, Some 0%Z) =>
        let l := split_on (ascii_of_nat 10) out in
        let l := if has_char "(" (hd "" l) then tl l else l in
        let l := map (drop 2) l in
        if existsb (String.eqb "master") l then Found (Some "master")
        else match l with [] => Found None | b :: _ => Found (Some b) end
    | _ => NotThis
    end
  else Found (Some name).

(** [int] of an answer of git: a text of digits *)
Definition int_answer (o : option string) : res N :=
  match o with
  | None => Err TypeError
  | Some s => if some_chars is_digit s then Ok (int_of s) else Err ValueError
  end.
(** What is known of a checkout: the hash, and its pieces with the date, or the error. *)
Definition checkout : Type := (string * (pieces * string + string))%type.
(** _version.py:261-390 [git_pieces_from_vcs] with an empty prefix *)
Definition from_git (git : query -> process) : attempt checkout :=
  match snd (run_command (git GitDir)) with
  | Some 0%Z =>
      match fst (run_command (git Describe)) with
      | None => NotThis
      | Some describe =>
          let describe := strip describe in
          match fst (run_command (git Head)) with
          | None => NotThis
          | Some full =>
              let full := strip full in
              match run_command (git AbbrevRef) with
              | (Some name, Some 0%Z) =>
                  match branch_of git (strip name) with
                  | NotThis => NotThis
                  | Raised e => Raised e
                  | Found branch =>
                      match parse_describe full 0 branch describe with
                      | None =>
                          Found (full, inr ("unable to parse git-describe output: '" ++ describe ++ "'"))
                      | Some p =>
                          match (match pc_tag p with
                                 | Some _ => Ok p
                                 | None => let! n := int_answer (fst (run_command (git Count))) in
                                           Ok (MkPieces None n (pc_short p) (pc_dirty p) (pc_branch p))
                                 end) with
                          | Err e => Raised e
                          | Ok p =>
                              match fst (run_command (git ShowDate)) with
                              | None => Raised AttributeError
                              | Some d => match iso_date (strip d) with
                                          | Err e => Raised e
                                          | Ok date => Found (full, inl (p, date))
                                          end
                              end
                          end
                      end
                  end
              | _ => NotThis
              end
          end
      end
  | _ => NotThis
  end.

(** _version.py:610-649 [render]: the whole answer *)
Definition render_all (c : checkout) (style : string) : res versions :=
  let '(full, x) := c in
  match x with
  | inr error => Ok (MkVersions "unknown" (Some full) None (Some error) None)
  | inl (p, date) =>
      let! v := render (Some p) style in
      Ok (MkVersions v (Some full) (Some (pc_dirty p)) None (Some date))
  end.

(** _version.py:652-703 [get_versions] with the settings of get_config (38-49): style
    pep440, no prefix of tags or directories.  [__file__] is known. *)
Definition get_versions (k : keywords) (git : query -> process) : res versions :=
  match from_keywords k "" with
  | Found v => Ok v
  | Raised e => Err e
  | NotThis =>
      match from_git git with
      | Found c => render_all c "pep440"
      | Raised e => Err e
      | NotThis => Ok (MkVersions "0+unknown" None None (Some "unable to compute version") None)
      end
  end.
