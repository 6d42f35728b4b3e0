(** * PropsVersion: the version number (C88). *)
From Coq Require Import ZArith NArith List Bool Ascii String.
From Verif Require Import Py Report Version VersionFacts.
Import ListNotations.
Local Open Scope string_scope.

(** ** What git describe says is read back, hyphens in the tag included *)
Theorem C88_tagged : forall full count branch tag n hex (dirty : bool),
  tag <> "" -> some_chars is_hex hex = true ->
  parse_describe full count branch
    (tag ++ "-" ++ whole n ++ "-g" ++ hex ++ (if dirty then "-dirty" else "")) =
  Some (MkPieces (Some tag) n hex dirty branch).
Proof. exact parse_tagged. Qed.
Print Assumptions C88_tagged.
Theorem C88_untagged : forall full count branch hex (dirty : bool), some_chars is_hex hex = true ->
  parse_describe full count branch (hex ++ (if dirty then "-dirty" else "")) =
  Some (MkPieces None count (substring 0 7 full) dirty branch).
Proof. exact parse_untagged. Qed.
Print Assumptions C88_untagged.
Theorem C88_described : forall full count branch tag n hex (dirty : bool),
  tag <> "" -> some_chars is_hex hex = true ->
  let out := tag ++ "-" ++ whole n ++ "-g" ++ hex ++ (if dirty then "-dirty" else "") in
  exists p, parse_describe full count branch out = Some p /\ render (Some p) "git-describe-long" = Ok out.
Proof.
  intros full count branch tag n hex dirty NT X out.
  destruct (describe_back full count branch tag n hex dirty NT X) as (p & A & B).
  exists p. split; [exact A|]. cbn [render]. now rewrite B.
Qed.
Print Assumptions C88_described.

(** nothing else is read: any other text with a hyphen is an error *)
Theorem C88_read : forall full count branch out p, parse_describe full count branch out = Some p ->
  (exists tag num hex (dirty : bool), tag <> "" /\ some_chars is_digit num = true /\
     some_chars is_hex hex = true /\
     out = tag ++ "-" ++ num ++ "-g" ++ hex ++ (if dirty then "-dirty" else "") /\
     p = MkPieces (Some tag) (int_of num) hex dirty branch) \/
  (exists hex (dirty : bool), has_char "-" hex = false /\ out = hex ++ (if dirty then "-dirty" else "") /\
     p = MkPieces None count (substring 0 7 full) dirty branch).
Proof. exact parse_only. Qed.
Print Assumptions C88_read.

(** ** The text of every style.  [away]: ".dev0" unless the branch is master. *)
Theorem C88_text_release : forall h b t, t <> "" ->
  let p := MkPieces (Some t) 0 h false b in
  (forall style, In style ["pep440"; "pep440-branch"; "pep440-pre"; "pep440-post"; "pep440-post-branch";
     "pep440-old"; "git-describe"] -> render (Some p) style = Ok t) /\
  render (Some p) "git-describe-long" = Ok (t ++ "-0-g" ++ h).
Proof. exact text_at. Qed.
Print Assumptions C88_text_release.
Theorem C88_text_moved : forall d h (dirty : bool) b t, t <> "" -> d <> 0%N \/ dirty = true ->
  let p := MkPieces (Some t) d h dirty b in
  let plus := if has_char "+" t then "." else "+" in
  let changed s := if dirty then s else "" in
  render (Some p) "pep440" = Ok (t ++ plus ++ whole d ++ ".g" ++ h ++ changed ".dirty") /\
  render (Some p) "pep440-branch" =
    Ok (t ++ away b ++ plus ++ whole d ++ ".g" ++ h ++ changed ".dirty") /\
  render (Some p) "pep440-post" = Ok (t ++ ".post" ++ whole d ++ changed ".dev0" ++ plus ++ "g" ++ h) /\
  render (Some p) "pep440-post-branch" =
    Ok (t ++ ".post" ++ whole d ++ away b ++ plus ++ "g" ++ h ++ changed ".dirty") /\
  render (Some p) "pep440-old" = Ok (t ++ ".post" ++ whole d ++ changed ".dev0") /\
  render (Some p) "git-describe" =
    Ok (t ++ (if N.eqb d 0 then "" else "-" ++ whole d ++ "-g" ++ h) ++ changed "-dirty") /\
  render (Some p) "git-describe-long" = Ok (t ++ "-" ++ whole d ++ "-g" ++ h ++ changed "-dirty").
Proof. exact text_moved. Qed.
Print Assumptions C88_text_moved.
Theorem C88_text_untagged : forall d h (dirty : bool) b tag, tag = None \/ tag = Some "" ->
  let p := MkPieces tag d h dirty b in
  let changed s := if dirty then s else "" in
  render (Some p) "pep440" = Ok ("0+untagged." ++ whole d ++ ".g" ++ h ++ changed ".dirty") /\
  render (Some p) "pep440-branch" =
    Ok ("0" ++ away b ++ "+untagged." ++ whole d ++ ".g" ++ h ++ changed ".dirty") /\
  render (Some p) "pep440-pre" = Ok ("0.post0.dev" ++ whole d) /\
  render (Some p) "pep440-post" = Ok ("0.post" ++ whole d ++ changed ".dev0" ++ "+g" ++ h) /\
  render (Some p) "pep440-post-branch" =
    Ok ("0.post" ++ whole d ++ away b ++ "+g" ++ h ++ changed ".dirty") /\
  render (Some p) "pep440-old" = Ok ("0.post" ++ whole d ++ changed ".dev0") /\
  render (Some p) "git-describe" = Ok (h ++ changed "-dirty") /\
  render (Some p) "git-describe-long" = Ok (h ++ changed "-dirty").
Proof. exact text_untagged. Qed.
Print Assumptions C88_text_untagged.
Theorem C88_text_pre : forall t d h dirty b, d <> 0%N ->
  (t <> "" -> index 0 ".post" t = None ->
   render (Some (MkPieces (Some t) d h dirty b)) "pep440-pre" = Ok (t ++ ".post0.dev" ++ whole d)) /\
  (index 0 ".post" t = None -> forall n,
   render (Some (MkPieces (Some (t ++ ".post" ++ whole n)) d h dirty b)) "pep440-pre" =
   Ok (t ++ ".post" ++ whole (n + 1) ++ ".dev" ++ whole d)).
Proof. exact text_pre. Qed.
Print Assumptions C88_text_pre.
(** the default styles, an error in the pieces, a style that does not exist *)
Theorem C88_text_other : forall o style,
  render o "" = render o "pep440" /\ render o "default" = render o "pep440" /\
  render None style = Ok "unknown" /\
  (render o style = Err ValueError <->
   exists p, o = Some p /\
     (~ In style [""; "default"; "pep440"; "pep440-branch"; "pep440-pre"; "pep440-post"; "pep440-post-branch";
                  "pep440-old"; "git-describe"; "git-describe-long"] \/
      style = "pep440-pre" /\ render_pep440_pre p = Err ValueError)).
Proof.
  intros o style. split; [destruct o; reflexivity|]. split; [destruct o; reflexivity|].
  split; [reflexivity|apply render_unknown].
Qed.
Print Assumptions C88_text_other.

(** ** The version identifies the state of the checkout.  [plain]: no plus sign
    in the tag, a hash of hexadecimal digits. *)
Theorem C88_identifies : forall p q v, plain p -> plain q ->
  render (Some p) "pep440" = Ok v -> render (Some q) "pep440" = Ok v ->
  tag_of p = tag_of q /\ pc_distance p = pc_distance q /\ pc_dirty p = pc_dirty q /\
  (v = (match tag_of p with Some t => t | None => "" end) \/ pc_short p = pc_short q).
Proof.
  intros p q v P Q A B. cbn in A, B. apply ok_inj in A, B. subst v.
  destruct (pep440_inj p q P Q (eq_sym B)) as (E1 & E2 & E3 & E4).
  do 3 (split; [assumption|]).
  destruct (tag_of p) as [t|] eqn:T; [|right; apply E4; now left].
  destruct (moved p) eqn:M; [right; apply E4; now right|]. left.
  apply pep440_at_tag; [exact T|]. unfold moved in M.
  rewrite orb_false_iff, negb_false_iff, N.eqb_eq in M. exact M.
Qed.
Print Assumptions C88_identifies.
Theorem C88_release : forall p t, tag_of p = Some t ->
  (render (Some p) "pep440" = Ok t <-> pc_distance p = 0%N /\ pc_dirty p = false).
Proof.
  intros p t E. rewrite <- (pep440_at_tag p t E). cbn [render].
  split; [intros A; now apply ok_inj in A|]. intros ->. reflexivity.
Qed.
Print Assumptions C88_release.

(** ** At most one plus sign, if the tag has at most one *)
Theorem C88_one_plus : forall p style v, tag_plus p -> all_chars is_hex (pc_short p) = true ->
  In style [""; "default"; "pep440"; "pep440-branch"; "pep440-pre"; "pep440-post"; "pep440-post-branch";
            "pep440-old"] ->
  render (Some p) style = Ok v -> (count_char "+" v <= 1)%nat.
Proof.
  intros p style v TP X I. destruct (styles_plus p TP X) as (A & B & C & D & E).
  cbn [In] in I.
  destruct I as [ <- | [ <- | [ <- | [ <- | [ <- | [ <- | [ <- | [ <- | [] ]]]]]]]]; cbn; intros Q;
    try (apply ok_inj in Q; subst v; assumption).
  exact (pre_plus p v TP Q).
Qed.
Print Assumptions C88_one_plus.

(** ** Every style gives a text: false for one of them, which this project does
    not use *)
Theorem C88_text_refuted : exists p t,
  pc_tag p = Some t /\ render (Some p) "pep440-pre" = Err ValueError.
Proof. exact pre_fails. Qed.
Print Assumptions C88_text_refuted.
Theorem C88_text_partial : forall p style,
  (style = "pep440-pre" -> pc_distance p = 0%N \/
     forall t, tag_of p = Some t -> index 0 ".post" t = None) ->
  In style [""; "default"; "pep440"; "pep440-branch"; "pep440-pre"; "pep440-post"; "pep440-post-branch";
            "pep440-old"; "git-describe"; "git-describe-long"] ->
  exists v, render (Some p) style = Ok v.
Proof.
  intros p style Q I.
  destruct (String.eqb_spec style "pep440-pre") as [->|N]; [exact (pre_answers p (Q eq_refl))|].
  apply render_total; [exact N|]. cbn [In] in *.
  destruct I as [ <- | [ <- | [ <- | [ <- | [ <- | I ]]]]]; tauto.
Qed.
Print Assumptions C88_text_partial.

Definition checkout : pieces := MkPieces (Some "1.2-rc") 4 "3f0a9c1" true (Some "main").
Example C88_example : plain checkout /\ tag_plus checkout /\
  render (Some checkout) "pep440" = Ok "1.2-rc+4.g3f0a9c1.dirty" /\
  parse_describe "3f0a9c1d" 7 (Some "main") "1.2-rc-4-g3f0a9c1-dirty" = Some checkout.
Proof.
  split; [split; [intros t [= <-]|]; reflexivity|]. split; [intros t [= <-]; unfold one_plus; cbn; auto|].
  split; [vm_compute; reflexivity|]. vm_compute. reflexivity.
Qed.
Example C88_styles : render (Some checkout) "pep440-branch" = Ok "1.2-rc.dev0+4.g3f0a9c1.dirty" /\
  render (Some checkout) "pep440-pre" = Ok "1.2-rc.post0.dev4" /\
  render (Some (MkPieces (Some "1.2.post9") 4 "3f0a9c1" true (Some "master"))) "pep440-pre" = Ok "1.2.post10.dev4" /\
  render (Some (MkPieces (Some "1.2+x") 4 "3f0a9c1" true (Some "master"))) "pep440-post-branch" =
    Ok "1.2+x.post4.g3f0a9c1.dirty" /\
  render (Some checkout) "git-describe" = Ok "1.2-rc-4-g3f0a9c1-dirty" /\
  parse_describe "3f0a9c1d" 7 None "1.2-rc-4-h3f0a9c1" = None.
Proof. repeat split; vm_compute; reflexivity. Qed.
