(** * ReleaseFacts: where the version comes from (C102). *)
From Coq Require Import ZArith NArith Lia List Bool Ascii String Permutation Sorted.
From Verif Require Import Py Report ReportFacts Version VersionFacts Release.
Import ListNotations.
Local Open Scope string_scope.

(** ** The order of texts *)
Lemma leb_cons c d s t : String.leb (String c s) (String d t) =
  match N.compare (N_of_ascii c) (N_of_ascii d) with Lt => true | Gt => false | Eq => String.leb s t end.
Proof.
  unfold String.leb. cbn [String.compare]. unfold Ascii.compare.
  destruct (N_of_ascii c ?= N_of_ascii d)%N; reflexivity.
Qed.
Lemma leb_trans a : forall b c, String.leb a b = true -> String.leb b c = true -> String.leb a c = true.
Proof.
  induction a as [|x a IH]; intros [|y b] [|z c]; try (cbn; congruence).
  rewrite !leb_cons.
  destruct (N.compare_spec (N_of_ascii x) (N_of_ascii y)); try discriminate;
  destruct (N.compare_spec (N_of_ascii y) (N_of_ascii z)); try discriminate; intros A B;
  destruct (N.compare_spec (N_of_ascii x) (N_of_ascii z)); try reflexivity; try lia.
  eauto.
Qed.
Lemma leb_refl a : String.leb a a = true.
Proof. destruct (String.leb_total a a); assumption. Qed.
Lemma leb_app p a b : String.leb (p ++ a) (p ++ b) = String.leb a b.
Proof. induction p as [|c p IH]; [reflexivity|]. cbn [append]. now rewrite leb_cons, N.compare_refl. Qed.

Lemma insert_perm a l : Permutation (insert_text a l) (a :: l).
Proof.
  induction l as [|b l IH]; cbn [insert_text]; [reflexivity|].
  destruct (String.leb a b); [reflexivity|]. rewrite IH. apply perm_swap.
Qed.
Lemma sort_texts_perm l : Permutation (sort_texts l) l.
Proof. induction l as [|a l IH]; cbn; [constructor|]. rewrite insert_perm. now constructor. Qed.
Definition below_text (a b : string) : Prop := String.leb a b = true.
Lemma insert_sorted a l : StronglySorted below_text l -> StronglySorted below_text (insert_text a l).
Proof.
  intros O. induction O as [|b l O IH F]; cbn [insert_text]; [repeat constructor|].
  destruct (String.leb a b) eqn:E.
  - constructor; [now constructor|]. constructor; [exact E|].
    eapply Forall_impl; [|exact F]. intros c Q. exact (leb_trans _ _ _ E Q).
  - constructor; [exact IH|]. eapply Permutation_Forall; [symmetry; apply insert_perm|].
    constructor; [|exact F]. unfold below_text. destruct (String.leb_total a b); congruence.
Qed.
Lemma sort_texts_sorted l : StronglySorted below_text (sort_texts l).
Proof. induction l as [|a l IH]; cbn; [constructor|]. now apply insert_sorted. Qed.

(** ** Prefixes *)
Lemma prefix_app p s : String.prefix p (p ++ s) = true.
Proof.
  induction p as [|c p IH]; [destruct s; reflexivity|]. cbn [append prefix].
  destruct (ascii_dec c c); [exact IH|congruence].
Qed.
Lemma prefix_iff p : forall s, String.prefix p s = true <-> exists r, s = p ++ r.
Proof.
  intros s. split; [|intros (r & ->); apply prefix_app]. revert s.
  induction p as [|c p IH]; intros s; [exists s; reflexivity|].
  destruct s as [|d s]; [discriminate|]. cbn [prefix]. destruct (ascii_dec c d) as [<-|]; [|discriminate].
  intros E. destruct (IH s E) as (r & ->). now exists r.
Qed.
Lemma drop_app p s : drop (String.length p) (p ++ s) = s.
Proof. induction p as [|c p IH]; [destruct s; reflexivity|exact IH]. Qed.

(** ** The tag that is picked *)
Definition fits (tag_prefix : string) (l : list string) (r : string) : Prop :=
  In (tag_prefix ++ r) l /\ starts_digit r = true.
Lemma pick_in tp l r : pick tp l = Some r -> fits tp l r.
Proof.
  induction l as [|a l IH]; [discriminate|]. cbn [pick].
  destruct (prefix tp a) eqn:P.
  - apply prefix_iff in P. destruct P as (q & ->). rewrite drop_app.
    destruct (starts_digit q) eqn:D.
    + intros [= <-]. split; [now left|exact D].
    + intros Q. destruct (IH Q). split; [now right|assumption].
  - intros Q. destruct (IH Q). split; [now right|assumption].
Qed.
Lemma pick_none tp l : pick tp l = None <-> forall r, ~ fits tp l r.
Proof.
  induction l as [|a l IH]; cbn [pick]; [split; [intros _ r [[] _]|reflexivity]|].
  destruct (prefix tp a) eqn:P.
  - apply prefix_iff in P. destruct P as (q & ->). rewrite drop_app.
    destruct (starts_digit q) eqn:D.
    + split; [discriminate|]. intros N. elim (N q). split; [now left|exact D].
    + rewrite IH. split; intros N r (I & Q).
      * destruct I as [I|I]; [apply app_inv in I; congruence|]. now apply (N r).
      * apply (N r). split; [now right|exact Q].
  - rewrite IH. split; intros N r (I & Q).
    + destruct I as [I|I]; [subst a; now rewrite prefix_app in P|]. now apply (N r).
    + apply (N r). split; [now right|exact Q].
Qed.
Lemma pick_least tp l : StronglySorted below_text l -> forall r r', pick tp l = Some r -> fits tp l r' ->
  String.leb r r' = true.
Proof.
  intros O. induction O as [|a l O IH F]; intros r r'; [discriminate|]. cbn [pick].
  rewrite Forall_forall in F. intros P (I & D).
  destruct (prefix tp a) eqn:PX.
  - apply prefix_iff in PX. destruct PX as (q & ->). rewrite drop_app in P.
    destruct (starts_digit q) eqn:Dq.
    + injection P as ->. destruct I as [I|I]; [apply app_inv in I; subst; apply leb_refl|].
      specialize (F _ I). unfold below_text in F. now rewrite leb_app in F.
    + destruct I as [I|I]; [apply app_inv in I; congruence|]. apply (IH r r' P). now split.
  - destruct I as [I|I]; [subst a; now rewrite prefix_app in PX|]. apply (IH r r' P). now split.
Qed.
Lemma fits_perm tp l l' r : Permutation l l' -> fits tp l r -> fits tp l' r.
Proof. intros P (I & D). split; [eapply Permutation_in; eauto|exact D]. Qed.
(** the least of those that fit *)
Lemma pick_spec tp l r : pick tp (sort_texts l) = Some r <->
  fits tp l r /\ forall r', fits tp l r' -> String.leb r r' = true.
Proof.
  pose proof (sort_texts_perm l) as P. split.
  - intros E. split; [eapply fits_perm; [exact P|]; now apply pick_in|].
    intros r' Q. eapply pick_least; [apply sort_texts_sorted|exact E|].
    eapply fits_perm; [symmetry; exact P|exact Q].
  - intros (A & B). destruct (pick tp (sort_texts l)) as [q|] eqn:E.
    + f_equal. pose proof (fits_perm _ _ _ _ P (pick_in _ _ _ E)) as Q.
      apply String.leb_antisym; [|now apply B]. eapply pick_least; [apply sort_texts_sorted|exact E|].
      eapply fits_perm; [symmetry; exact P|exact A].
    + exfalso. rewrite pick_none in E. apply (E r). eapply fits_perm; [symmetry; exact P|exact A].
Qed.
Lemma pick_nothing tp l : pick tp (sort_texts l) = None <-> forall r, ~ fits tp l r.
Proof.
  rewrite pick_none. split; intros N r Q; apply (N r); (eapply fits_perm; [|exact Q]);
    [symmetry|]; apply sort_texts_perm.
Qed.

(** ** The names git writes *)
Fixpoint final (s : string) (d : ascii) : ascii :=
  match s with "" => d | String c s' => final s' c end.
(** neither the first nor the last character is one of [p] *)
Definition trim (p : ascii -> bool) (s : string) : Prop :=
  match s with "" => True | String c s' => p c = false /\ p (final s' c) = false end.
Lemma rstrip_trim p c s : p (final s c) = false -> rstrip p (String c s) = String c s.
Proof.
  revert c. induction s as [|d s IH]; intros c E.
  - cbn in *. now rewrite E.
  - change (rstrip p (String c (String d s))) with
      (match rstrip p (String d s) with "" => if p c then "" else String c "" | t => String c t end).
    now rewrite (IH d E).
Qed.
Lemma strip_trim p s : trim p s -> strip_chars p s = s.
Proof.
  destruct s as [|c s]; [reflexivity|]. intros [A B]. unfold strip_chars. cbn [lstrip]. rewrite A.
  now apply rstrip_trim.
Qed.
Lemma lstrip_all p a s : all_chars p a = true -> lstrip p (a ++ s) = lstrip p s.
Proof. induction a as [|c a IH]; [reflexivity|]. cbn. destruct (p c); [auto|discriminate]. Qed.
Lemma rstrip_all p a : all_chars p a = true -> rstrip p a = "".
Proof. induction a as [|c a IH]; [reflexivity|]. cbn. destruct (p c); [intros E; now rewrite IH|discriminate]. Qed.
Lemma rstrip_app p s a : all_chars p a = true -> rstrip p (s ++ a) = rstrip p s.
Proof. intros A. induction s as [|c s IH]; [now apply rstrip_all|]. cbn [append rstrip]. now rewrite IH. Qed.
Lemma strip_around p a s b : all_chars p a = true -> all_chars p b = true -> s <> "" -> trim p s ->
  strip_chars p (a ++ s ++ b) = s.
Proof.
  intros A B N Tr. unfold strip_chars. rewrite lstrip_all by auto.
  destruct s as [|c s]; [congruence|]. pose proof Tr as [Tc Tf]. cbn [append lstrip]. rewrite Tc.
  change (String c (s ++ b)) with (String c s ++ b). rewrite rstrip_app by auto. now apply rstrip_trim.
Qed.

Definition listing (l : list string) : string := " (" ++ String.concat ", " l ++ ")".
(** a name as git writes it: no comma in it, no blank or parenthesis at its ends *)
Definition plain_ref (r : string) : Prop :=
  r <> "" /\ has_char "," r = false /\ trim is_space r /\ trim is_paren r.
Lemma final_app a b d : b <> "" -> final (a ++ b) d = final b d.
Proof.
  revert d. induction a as [|c a IH]; intros d N; [reflexivity|]. cbn [append final]. rewrite IH by auto.
  destruct b; [congruence|reflexivity].
Qed.
Lemma concat_ends p l : l <> [] -> Forall (fun r => r <> "" /\ trim p r) l ->
  String.concat ", " l <> "" /\ trim p (String.concat ", " l).
Proof.
  intros N F. induction F as [|r l [Nr Tr] F IH]; [congruence|].
  destruct l as [|r' l]; [now split|].
  destruct IH as (Nc & Tc); [discriminate|].
  change (String.concat ", " (r :: r' :: l)) with (r ++ ", " ++ String.concat ", " (r' :: l)).
  set (t := String.concat ", " (r' :: l)) in *. clearbody t.
  destruct r as [|c r]; [congruence|]. split; [discriminate|]. destruct Tr as [Tr _]. split; [exact Tr|].
  cbn [append]. change (r ++ String "," (String " " t)) with (r ++ ", " ++ t).
  rewrite final_app by (destruct t; discriminate).
  destruct t as [|d t]; [congruence|]. exact (proj2 Tc).
Qed.
Lemma split_listing l : l <> [] -> Forall plain_ref l ->
  map strip (split_on "," (String.concat ", " l)) = l.
Proof.
  intros N F. induction F as [|r l (Nr & Cr & Sr & Pr) F IH]; [congruence|].
  destruct l as [|r' l].
  - change (String.concat ", " [r]) with r. rewrite split_none by auto. cbn [map]. f_equal. now apply strip_trim.
  - change (String.concat ", " (r :: r' :: l)) with (r ++ String "," (String " " (String.concat ", " (r' :: l)))).
    rewrite split_app, split_none by auto. cbn [List.app map].
    f_equal; [now apply strip_trim|].
    specialize (IH ltac:(discriminate)). rewrite <- IH at 2.
    set (t := String.concat ", " (r' :: l)) in *. clearbody t. cbn [split_on].
    destruct (Ascii.eqb_spec " " ",") as [E|_]; [discriminate E|].
    destruct (split_on "," t) as [|w ws]; [discriminate IH|]. reflexivity.
Qed.
Lemma refs_listing l : l <> [] -> Forall plain_ref l -> refs_of (strip (listing l)) = l.
Proof.
  intros N F.
  assert (A : Forall (fun r => r <> "" /\ trim is_space r) l) by (eapply Forall_impl; [|exact F]; intros r (? & _ & ? & _); auto).
  assert (B : Forall (fun r => r <> "" /\ trim is_paren r) l) by (eapply Forall_impl; [|exact F]; intros r (? & _ & _ & ?); auto).
  destruct (concat_ends _ l N A) as (Nc & Sc). destruct (concat_ends _ l N B) as (_ & Pc).
  unfold refs_of, listing. set (t := String.concat ", " l) in *.
  replace (strip (" (" ++ t ++ ")")) with ("(" ++ t ++ ")").
  - rewrite strip_around by auto. now apply split_listing.
  - symmetry. unfold strip. replace (" (" ++ t ++ ")") with (" " ++ ("(" ++ t ++ ")") ++ "")
      by (rewrite app_empty_r; reflexivity).
    apply strip_around; try reflexivity; try discriminate.
    split; [reflexivity|].
    assert (Q : final (t ++ ")") "(" = ")"%char) by (rewrite final_app; [reflexivity|discriminate]).
    change (is_space (final (t ++ ")") "(") = false). now rewrite Q.
Qed.

(** ** An archive *)
(** git's %d: nothing at all without names *)
Definition decoration (l : list string) : string := match l with [] => "" | _ => listing l end.
Lemma refs_decoration l : Forall plain_ref l ->
  refs_of (strip (decoration l)) = match l with [] => [""] | _ => l end.
Proof. intros F. destruct l as [|r l]; [reflexivity|]. apply refs_listing; [discriminate|exact F]. Qed.
Lemma decoration_expanded l : Forall plain_ref l -> String.prefix "$Format" (strip (decoration l)) = false.
Proof.
  intros F. destruct l as [|r l]; [reflexivity|]. unfold decoration, listing, strip, strip_chars.
  cbn [append lstrip is_space]. change (is_space " ") with true. change (is_space "(") with false. cbv iota.
  set (t := append _ _). cbn [rstrip].
  change (is_space "(") with false. destruct (rstrip is_space t) as [|x y]; reflexivity.
Qed.
(** the names that count as tags: those marked as tags, or else those with a digit *)
Definition is_tag (l : list string) (t : string) : Prop :=
  if existsb (String.prefix "tag: ") l then In ("tag: " ++ t) l else In t l /\ has_digit t = true.
Lemma tags_are l t : In t (tags_of l) <-> is_tag l t.
Proof.
  unfold tags_of, is_tag.
  destruct (existsb (String.prefix "tag: ") l) eqn:E.
  - apply existsb_exists in E. destruct E as (x & I & P).
    destruct (filter (String.prefix "tag: ") l) as [|y ys] eqn:Fl.
    { exfalso. assert (Q : In x (filter (String.prefix "tag: ") l)) by (apply filter_In; auto). now rewrite Fl in Q. }
    rewrite <- Fl. rewrite in_map_iff. split.
    + intros (z & <- & Iz). apply filter_In in Iz. destruct Iz as (Iz & Pz). apply prefix_iff in Pz.
      destruct Pz as (r & ->). change 5%nat with (String.length "tag: "). now rewrite drop_app.
    + intros It. exists ("tag: " ++ t). split; [reflexivity|]. apply filter_In. split; [exact It|apply prefix_app].
  - assert (Fl : filter (String.prefix "tag: ") l = []).
    { destruct (filter (String.prefix "tag: ") l) as [|y ys] eqn:Fl; [reflexivity|].
      assert (Q : In y (filter (String.prefix "tag: ") l)) by (rewrite Fl; now left).
      apply filter_In in Q. destruct Q as (Iy & Py). enough (existsb (String.prefix "tag: ") l = true) by congruence.
      apply existsb_exists. eauto. }
    rewrite Fl. apply filter_In.
Qed.
Lemma lines_ok d : d <> "" -> exists t, iso_date d = Ok t.
Proof. intros N. unfold iso_date, last_line. destruct d; [congruence|]. eexists. reflexivity. Qed.

Lemma archive_version l full date git : Forall plain_ref l -> date <> "" ->
  exists d v, iso_date date = Ok d /\
  get_versions (MkKeywords (Some (decoration l)) (Some full) (Some date)) git = Ok v /\
  ((exists r, v = MkVersions r (Some (strip full)) (Some false) None (Some d) /\
      is_tag l r /\ starts_digit r = true /\
      forall r', is_tag l r' -> starts_digit r' = true -> String.leb r r' = true) \/
   ((forall r, is_tag l r -> starts_digit r = false) /\
    v = MkVersions "0+unknown" (Some (strip full)) (Some false) (Some "no suitable tags") None)).
Proof.
  intros F N. destruct (lines_ok date N) as (d & Ed). exists d.
  set (refs := match l with [] => [""] | _ => l end).
  assert (It : forall t, starts_digit t = true -> (is_tag refs t <-> is_tag l t)).
  { intros t D. destruct l as [|r l]; [|reflexivity]. unfold is_tag, refs. cbn. split.
    - intros ([ <- | [] ] & _). discriminate D.
    - intros ([] & _). }
  assert (Ft : forall r, fits "" (tags_of refs) r <-> is_tag l r /\ starts_digit r = true).
  { intros r. unfold fits. cbn [append]. rewrite tags_are. split; intros (A & B); (split; [|exact B]);
      apply (It r B); exact A. }
  unfold get_versions, from_keywords. cbn [kw_refnames kw_full kw_date]. rewrite Ed. cbn [rbind].
  rewrite decoration_expanded, refs_decoration by auto. fold refs.
  destruct (pick "" (sort_texts (tags_of refs))) as [r|] eqn:P.
  - eexists. split; [reflexivity|]. split; [reflexivity|]. left. exists r. split; [reflexivity|].
    apply pick_spec in P. destruct P as (A & B). apply Ft in A. destruct A as (A1 & A2).
    split; [exact A1|]. split; [exact A2|]. intros r' T D. apply B, Ft. now split.
  - eexists. split; [reflexivity|]. split; [reflexivity|]. right. split; [|reflexivity].
    rewrite pick_nothing in P. intros r T. destruct (starts_digit r) eqn:D; [|reflexivity].
    elim (P r). apply Ft. now split.
Qed.

(** ** A checkout *)
Definition newline : string := String (ascii_of_nat 10) "".
Lemma strip_line s : trim is_space s -> strip (s ++ newline) = s.
Proof.
  intros Tr. unfold strip. destruct s as [|c s]; [reflexivity|].
  change (String c s ++ newline) with ("" ++ String c s ++ newline).
  apply strip_around; [reflexivity|reflexivity|discriminate|exact Tr].
Qed.
Lemma unexpanded_not : from_keywords unexpanded "" = NotThis.
Proof. vm_compute. reflexivity. Qed.

Section Checkout.
Context (git : query -> process).
Definition answers (q : query) (s : string) : Prop := trim is_space s /\ git q = Ran (s ++ newline) 0.
Lemma answered q s : answers q s -> run_command (git q) = (Some s, Some 0%Z).
Proof. intros (Tr & ->). cbn. now rewrite strip_line. Qed.

Lemma strip_again s : trim is_space s -> strip s = s.
Proof. apply strip_trim. Qed.

(** the branch does not matter, but a detached head has to be found on some branch list *)
Definition on_branch : Prop :=
  exists name, answers AbbrevRef name /\ (name <> "HEAD" \/ exists o, git Contains = Ran o 0).
Lemma branch_known : on_branch ->
  exists name b, run_command (git AbbrevRef) = (Some name, Some 0%Z) /\ branch_of git (strip name) = Found b.
Proof.
  intros (name & A & C). exists name. rewrite (answered _ _ A), (strip_again name) by apply A.
  unfold branch_of. destruct (String.eqb_spec name "HEAD") as [->|N]; [|eauto].
  destruct C as [|(o & ->)]; [congruence|]. cbn [run_command Z.eqb].
  destruct (existsb _ _); [eauto|]. destruct (map _ _); eauto.
Qed.
Definition repository (full date : string) : Prop :=
  (exists s, git GitDir = Ran s 0) /\ answers Head full /\ on_branch /\ answers ShowDate date /\ date <> "".

Lemma checkout_tagged full date tag n hex (dirty : bool) : repository full date ->
  tag <> "" -> some_chars is_hex hex = true ->
  answers Describe (tag ++ "-" ++ whole n ++ "-g" ++ hex ++ opt dirty "-dirty") ->
  exists d, iso_date date = Ok d /\
  get_versions unexpanded git =
  Ok (MkVersions (if andb (N.eqb n 0) (negb dirty) then tag
                  else tag ++ (if has_char "+" tag then "." else "+") ++ whole n ++ ".g" ++ hex ++
                       (if dirty then ".dirty" else ""))
                 (Some full) (Some dirty) None (Some d)).
Proof.
  intros ((s & G) & F & B & SD & ND) NT X D. destruct (lines_ok date ND) as (d & Ed). exists d. split; [exact Ed|].
  destruct (branch_known B) as (name & b & Ea & Eb).
  unfold get_versions. rewrite unexpanded_not. unfold from_git.
  rewrite G. cbn [run_command Z.eqb snd]. rewrite (answered _ _ D), (answered _ _ F), Ea.
  cbn [fst snd]. rewrite (strip_again full) by apply F. rewrite (strip_again _ (proj1 D)).
  rewrite Eb, parse_tagged by auto. cbn [pc_tag]. rewrite (answered _ _ SD). cbn [fst].
  rewrite (strip_again date), Ed by apply SD. unfold render_all. cbn [pc_dirty].
  destruct (andb (N.eqb n 0) (negb dirty)) eqn:Z.
  - apply andb_true_iff in Z. destruct Z as (Z1 & Z2). apply N.eqb_eq in Z1. subst n. destruct dirty; [discriminate Z2|].
    destruct (text_at hex b tag NT) as (Q & _). rewrite (Q "pep440") by now left. reflexivity.
  - assert (M : n <> 0%N \/ dirty = true).
    { apply andb_false_iff in Z. destruct Z as [Z|Z]; [left; now apply N.eqb_neq|right; now destruct dirty]. }
    destruct (text_moved n hex dirty b tag NT M) as (Q & _). rewrite Q. reflexivity.
Qed.
Lemma checkout_untagged full date hex (dirty : bool) n : repository full date ->
  some_chars is_hex hex = true -> answers Describe (hex ++ opt dirty "-dirty") -> answers Count (whole n) ->
  exists d, iso_date date = Ok d /\
  get_versions unexpanded git =
  Ok (MkVersions ("0+untagged." ++ whole n ++ ".g" ++ substring 0 7 full ++ (if dirty then ".dirty" else ""))
                 (Some full) (Some dirty) None (Some d)).
Proof.
  intros ((s & G) & F & B & SD & ND) X D C. destruct (lines_ok date ND) as (d & Ed). exists d. split; [exact Ed|].
  destruct (branch_known B) as (name & b & Ea & Eb).
  unfold get_versions. rewrite unexpanded_not. unfold from_git.
  rewrite G. cbn [run_command Z.eqb snd]. rewrite (answered _ _ D), (answered _ _ F), Ea.
  cbn [fst snd]. rewrite (strip_again full) by apply F. rewrite (strip_again _ (proj1 D)).
  rewrite Eb, parse_untagged by auto. cbn [pc_tag]. rewrite (answered _ _ C), (answered _ _ SD).
  cbn [fst int_answer]. rewrite whole_some, whole_back. cbn [rbind pc_short pc_dirty pc_branch].
  rewrite (strip_again date), Ed by apply SD. unfold render_all. cbn [pc_dirty].
  destruct (text_untagged n (substring 0 7 full) dirty b None (or_introl eq_refl)) as (Q & _). rewrite Q. reflexivity.
Qed.
End Checkout.

(** ** Neither *)
Lemma no_checkout git : (forall out, git GitDir <> Ran out 0) ->
  get_versions unexpanded git =
  Ok (MkVersions "0+unknown" None None (Some "unable to compute version") None).
Proof.
  intros N. unfold get_versions. rewrite unexpanded_not. unfold from_git.
  destruct (git GitDir) as [| |out code] eqn:G; try reflexivity. cbn [run_command].
  destruct (Z.eqb_spec code 0) as [->|Nz]; [now elim (N out)|]. cbn [snd]. destruct code; congruence.
Qed.

(** ** When no version is found but an exception *)
Lemma render_pep440_ok o : exists v, render o "pep440" = Ok v.
Proof. destruct o; eexists; reflexivity. Qed.
Lemma raises_iff git e : get_versions unexpanded git = Err e <-> from_git git = Raised e.
Proof.
  unfold get_versions. rewrite unexpanded_not. destruct (from_git git) as [[full x]| |e'].
  - split; [|discriminate]. unfold render_all. destruct x as [[p d]|er]; [|discriminate].
    destruct (render_pep440_ok (Some p)) as (v & ->). discriminate.
  - split; discriminate.
  - split; congruence.
Qed.
(** an answer of git that can be used where one is needed *)
Definition good_count (git : query -> process) : Prop :=
  exists out, git Count = Ran out 0 /\ some_chars is_digit (strip out) = true.
Definition good_date (git : query -> process) : Prop :=
  exists out, git ShowDate = Ran out 0 /\ strip out <> "".
Lemma lstrip_none p s : all_chars (fun c => negb (p c)) s = true -> lstrip p s = s.
Proof. destruct s as [|c s]; [reflexivity|]. cbn. destruct (p c); [discriminate|reflexivity]. Qed.
Lemma rstrip_idem p s : rstrip p (rstrip p s) = rstrip p s.
Proof.
  induction s as [|c s IH]; [reflexivity|]. cbn [rstrip]. destruct (rstrip p s) as [|d t] eqn:E.
  - destruct (p c) eqn:P; [reflexivity|]. cbn. now rewrite P.
  - change (rstrip p (String c (String d t))) with
      (match rstrip p (String d t) with "" => if p c then "" else String c "" | t => String c t end).
    now rewrite IH.
Qed.
Lemma rstrip_head p c s : p c = false -> exists t, rstrip p (String c s) = String c t.
Proof.
  intros P. cbn [rstrip]. destruct (rstrip p s) as [|d t]; [rewrite P|]; eauto.
Qed.
Lemma strip_idem s : strip (strip s) = strip s.
Proof.
  unfold strip, strip_chars. set (p := is_space).
  assert (Q : lstrip p s = "" \/ exists c t, lstrip p s = String c t /\ p c = false).
  { induction s as [|c s IH]; [now left|]. cbn. destruct (p c) eqn:P; [exact IH|]. right. eauto. }
  destruct Q as [-> | (c & t & -> & P)]; [reflexivity|].
  destruct (rstrip_head p c t P) as (t' & E). rewrite E. cbn [lstrip]. rewrite P, <- E. apply rstrip_idem.
Qed.
Lemma never_raises git : good_count git -> good_date git -> exists v, get_versions unexpanded git = Ok v.
Proof.
  intros (c & Ec & Dc) (d & Ed & Nd). destruct (get_versions unexpanded git) as [v|e] eqn:E; [eauto|].
  exfalso. apply raises_iff in E. unfold from_git in E.
  destruct (snd (run_command (git GitDir))) as [[| |]|]; try discriminate E.
  destruct (fst (run_command (git Describe))) as [out|]; try discriminate E.
  destruct (fst (run_command (git Head))) as [full|]; try discriminate E.
  destruct (run_command (git AbbrevRef)) as [[name|] [[| |]|]]; try discriminate E.
  assert (B : forall e, branch_of git (strip name) <> Raised e).
  { intros x. unfold branch_of. destruct (String.eqb _ _); [|discriminate].
    destruct (run_command (git Contains)) as [[o|] [[| |]|]]; try discriminate.
    destruct (existsb _ _); [discriminate|]. destruct (map _ _); discriminate. }
  destruct (branch_of git (strip name)) as [b| |x] eqn:Eb; [|discriminate E|now elim (B x)].
  destruct (parse_describe _ _ _ _) as [p|]; [|discriminate E].
  rewrite Ec, Ed in E. cbn [run_command Z.eqb fst int_answer] in E. rewrite Dc in E. cbn [rbind] in E.
  rewrite strip_idem in E. destruct (lines_ok (strip d) Nd) as (t & Et). rewrite Et in E.
  destruct (pc_tag p); discriminate E.
Qed.
(** which exception, and why *)
Lemma raises_why git e : get_versions unexpanded git = Err e ->
  (e = TypeError /\ fst (run_command (git Count)) = None) \/
  (e = ValueError /\ exists s, fst (run_command (git Count)) = Some s /\ some_chars is_digit s = false) \/
  (e = AttributeError /\ fst (run_command (git ShowDate)) = None) \/
  (e = IndexError /\ exists s, fst (run_command (git ShowDate)) = Some s /\ strip s = "").
Proof.
  intros E. apply raises_iff in E. unfold from_git in E.
  destruct (snd (run_command (git GitDir))) as [[| |]|]; try discriminate E.
  destruct (fst (run_command (git Describe))) as [out|]; try discriminate E.
  destruct (fst (run_command (git Head))) as [full|]; try discriminate E.
  destruct (run_command (git AbbrevRef)) as [[name|] [[| |]|]]; try discriminate E.
  assert (B : forall e, branch_of git (strip name) <> Raised e).
  { intros x. unfold branch_of. destruct (String.eqb _ _); [|discriminate].
    destruct (run_command (git Contains)) as [[o|] [[| |]|]]; try discriminate.
    destruct (existsb _ _); [discriminate|]. destruct (map _ _); discriminate. }
  destruct (branch_of git (strip name)) as [b| |x] eqn:Eb; [|discriminate E|now elim (B x)].
  destruct (parse_describe _ _ _ _) as [p|]; [|discriminate E].
  assert (D : forall q, match fst (run_command (git ShowDate)) with
                 | None => Raised AttributeError
                 | Some d => match iso_date (strip d) with Err e => Raised e | Ok date => Found (strip full, @inl (pieces * string) string (q, date)) end
                 end = Raised e ->
              (e = AttributeError /\ fst (run_command (git ShowDate)) = None) \/
              (e = IndexError /\ exists s, fst (run_command (git ShowDate)) = Some s /\ strip s = "")).
  { intros q. destruct (fst (run_command (git ShowDate))) as [d|].
    - unfold iso_date, last_line. destruct (strip d) eqn:Q; cbn [rbind]; [|discriminate].
      intros [= <-]. right. eauto.
    - intros [= <-]. now left. }
  destruct (pc_tag p).
  - destruct (D _ E); auto.
  - destruct (fst (run_command (git Count))) as [c|]; cbn [int_answer] in E.
    + destruct (some_chars is_digit c) eqn:Q; cbn [rbind] in E.
      * destruct (D _ E); auto.
      * injection E as <-. right. left. eauto.
    + injection E as <-. now left.
Qed.
(** the classes of characters *)
Lemma spaces_are c : is_space c = true <->
  In (N_of_ascii c) [9; 10; 11; 12; 13; 28; 29; 30; 31; 32; 133; 160]%N.
Proof.
  destruct c as [[] [] [] [] [] [] [] []]; vm_compute; split; intros Q; try reflexivity; try discriminate Q;
    repeat (destruct Q as [Q|Q]; [discriminate Q|]); try now elim Q.
  all: tauto.
Qed.
Lemma breaks_are c : is_break c = true <-> In (N_of_ascii c) [10; 11; 12; 13; 28; 29; 30; 133]%N.
Proof.
  destruct c as [[] [] [] [] [] [] [] []]; vm_compute; split; intros Q; try reflexivity; try discriminate Q;
    repeat (destruct Q as [Q|Q]; [discriminate Q|]); try now elim Q.
  all: tauto.
Qed.
(** the error and what is known *)
Lemma error_known k git v : get_versions k git = Ok v ->
  (v_error v = None -> v_full v <> None /\ v_dirty v <> None) /\
  (v_error v <> None -> (v_version v = "0+unknown" \/ v_version v = "unknown") /\ v_date v = None).
Proof.
  unfold get_versions. destruct (from_keywords k "") as [w| |e] eqn:K; [| |discriminate].
  - intros [= <-]. unfold from_keywords in K.
    destruct (kw_refnames k); [|discriminate K].
    destruct (match kw_date k with None => _ | Some _ => _ end); [|discriminate K].
    destruct (prefix _ _); [discriminate K|]. destruct (kw_full k); [|discriminate K].
    destruct (pick _ _); injection K as <-; cbn; split; try congruence; try (split; congruence).
    intros _. split; [now left|reflexivity].
  - destruct (from_git git) as [[full x]| |e]; [| |discriminate].
    + unfold render_all. destruct x as [[p d]|er].
      * destruct (render_pep440_ok (Some p)) as (t & ->). cbn [rbind]. intros [= <-]. cbn. split; [split; congruence|congruence].
      * intros [= <-]. cbn. split; [discriminate|]. intros _. split; [now right|reflexivity].
    + intros [= <-]. cbn. split; [discriminate|]. intros _. split; [now left|reflexivity].
Qed.

(** ** The date *)
Definition no_break (s : string) : Prop := all_chars (fun c => negb (is_break c)) s = true.
Lemma app_nil_s s : s ++ "" = s.
Proof. induction s as [|c s IH]; [reflexivity|]. cbn [append]. now rewrite IH. Qed.
Lemma lines_one s cur : no_break s -> lines_last s cur = cur ++ s.
Proof.
  revert cur. induction s as [|c s IH]; intros cur N; [cbn; now rewrite app_nil_s|].
  unfold no_break in N. cbn [all_chars] in N. apply andb_true_iff in N. destruct N as (A & B).
  cbn [lines_last]. destruct (is_break c); [discriminate A|]. rewrite IH by exact B. now rewrite app_assoc_s.
Qed.
Lemma replace_first c t a b : has_char c a = false -> replace_once c t (a ++ String c b) = a ++ t ++ b.
Proof.
  induction a as [|d a IH]; cbn; [now rewrite Ascii.eqb_refl|]. destruct (Ascii.eqb d c); [discriminate|].
  intros N. now rewrite IH.
Qed.
Lemma replace_none c t a : has_char c a = false -> replace_once c t a = a.
Proof.
  induction a as [|d a IH]; cbn; [reflexivity|]. destruct (Ascii.eqb d c); [discriminate|].
  intros N. now rewrite IH.
Qed.
Lemma date_iso day hour zone : let s := day ++ " " ++ hour ++ " " ++ zone in
  no_break s -> trim is_space s -> has_char " " day = false -> has_char " " hour = false ->
  iso_date s = Ok (day ++ "T" ++ hour ++ zone).
Proof.
  intros s N Tr D W. unfold iso_date, last_line.
  destruct s as [|c u] eqn:E; [unfold s in E; destruct day; discriminate E|]. rewrite <- E in *. cbn [rbind].
  rewrite lines_one by exact N. cbn [append]. unfold strip. rewrite strip_trim by exact Tr. f_equal. unfold s.
  change (" " ++ hour ++ " " ++ zone) with (String " " (hour ++ " " ++ zone)). rewrite replace_first by exact D.
  change (day ++ "T" ++ hour ++ " " ++ zone) with (day ++ "T" ++ hour ++ String " " zone).
  replace (day ++ "T" ++ hour ++ String " " zone) with ((day ++ "T" ++ hour) ++ String " " zone)
    by (rewrite !app_assoc_s; reflexivity).
  rewrite replace_first; [rewrite !app_assoc_s; reflexivity|].
  rewrite !has_app. cbn. now rewrite D, W.
Qed.

(** ** The branch of a checkout *)
(** one branch per line, two characters before its name *)
Fixpoint listing_of (names : list string) : string :=
  match names with
  | [] => ""
  | n :: l => newline ++ "  " ++ n ++ listing_of l
  end.
Lemma lines_of a l : has_char (ascii_of_nat 10) a = false ->
  Forall (fun n => has_char (ascii_of_nat 10) n = false) l ->
  split_on (ascii_of_nat 10) (a ++ listing_of l) = a :: map (fun n => "  " ++ n)%string l.
Proof.
  intros A F. revert a A. induction F as [|n l N F IH]; intros a A.
  - cbn [listing_of map]. rewrite app_empty_r. now apply split_none.
  - cbn [listing_of map]. change (newline ++ "  " ++ n ++ listing_of l)%string
      with (String (ascii_of_nat 10) ("  " ++ n ++ listing_of l)).
    rewrite split_app, (split_none _ a A). cbn [app]. f_equal.
    rewrite <- (IH ("  " ++ n)%string); [|exact N]. reflexivity.
Qed.
Lemma branch_detached git first l : has_char (ascii_of_nat 10) first = false ->
  Forall (fun n => has_char (ascii_of_nat 10) n = false) l ->
  answers git Contains (first ++ listing_of l) ->
  let names := if has_char "(" first then l else drop 2 first :: l in
  branch_of git "HEAD" =
  Found (if existsb (String.eqb "master") names then Some "master" else hd_error names).
Proof.
  intros A F Q names. unfold branch_of. rewrite (answered _ _ _ Q). cbn [String.eqb Ascii.eqb Bool.eqb].
  rewrite (lines_of first l A F). cbn [hd tl].
  assert (D : map (drop 2) (map (fun n => "  " ++ n)%string l) = l).
  { rewrite map_map. cbn. apply map_id. }
  unfold names. destruct (has_char "(" first); cbn [map]; rewrite D;
    destruct (existsb _ _); try reflexivity. now destruct l.
Qed.
Lemma branch_named git name : name <> "HEAD" -> branch_of git name = Found (Some name).
Proof. intros N. unfold branch_of. destruct (String.eqb_spec name "HEAD"); congruence. Qed.
Lemma branch_unknown git : (forall out, git Contains <> Ran out 0) -> branch_of git "HEAD" = NotThis.
Proof.
  intros N. unfold branch_of. cbn [String.eqb Ascii.eqb Bool.eqb]. destruct (git Contains) as [| |out c] eqn:E; try reflexivity.
  cbn [run_command]. destruct (Z.eqb_spec c 0) as [->|Nc]; [now elim (N out)|reflexivity].
Qed.
