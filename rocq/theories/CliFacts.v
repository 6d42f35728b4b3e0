(** * CliFacts: lemmas about the reading of keywords and the commands (C116, C117). *)
From Coq Require Import ZArith NArith List Bool Ascii String Lia.
From Verif Require Import Py Report Version VersionFacts Release ReleaseFacts Cli.
Import ListNotations.
Local Open Scope string_scope.

(** ** Lines *)
Definition one_line (s : string) : Prop :=
  exists b, has_char nl b = false /\ (s = b ++ String nl "" \/ s = b /\ b <> "").
Lemma lines_join s : String.concat "" (file_lines s) = s.
Proof.
  induction s as [|c s IH]; [reflexivity|]. cbn [file_lines].
  destruct (Ascii.eqb_spec c nl) as [->|N].
  - destruct (file_lines s) as [|l ls] eqn:E; cbn [String.concat] in *.
    + now rewrite <- IH.
    + cbn. f_equal. exact IH.
  - destruct (file_lines s) as [|l ls] eqn:E.
    + cbn in *. now rewrite <- IH.
    + destruct ls as [|l' ls]; cbn [String.concat append] in *; f_equal; exact IH.
Qed.
Lemma lines_single s : Forall one_line (file_lines s).
Proof.
  induction s as [|c s IH]; [constructor|]. cbn [file_lines].
  destruct (Ascii.eqb_spec c nl) as [->|N].
  - constructor; [|exact IH]. exists "". split; [reflexivity|now left].
  - assert (NC : forall b, has_char nl b = false -> has_char nl (String c b) = false).
    { intros b B. cbn [has_char]. rewrite B. destruct (Ascii.eqb_spec c nl); [congruence|reflexivity]. }
    destruct (file_lines s) as [|l ls].
    + constructor; [|constructor]. exists (String c ""). split; [now apply NC|]. right. split; [reflexivity|discriminate].
    + inversion_clear IH as [|? ? (b & B & D) F]. constructor; [|exact F].
      exists (String c b). split; [now apply NC|]. destruct D as [-> | (-> & _)]; [now left|right; split; [reflexivity|discriminate]].
Qed.
(** a text made of whole lines is cut into them *)
Lemma lines_cons b s : has_char nl b = false -> file_lines (b ++ String nl s) = (b ++ String nl "") :: file_lines s.
Proof.
  induction b as [|c b IH]; intros H; [reflexivity|]. cbn [has_char] in H. apply orb_false_iff in H as (H1 & H2).
  cbn [append file_lines]. rewrite H1, (IH H2). reflexivity.
Qed.

(** ** The pattern *)
Definition quoted (s b : string) : Prop :=
  exists ws post, s = ws ++ String quote (b ++ String quote post) /\ all_chars is_space ws = true /\ has_char nl b = false /\
    forall p q, post = p ++ String quote q -> has_char nl p = true.
Lemma upto_iff s b : upto_last_quote s = Some b <->
  exists post, s = b ++ String quote post /\ has_char nl b = false /\ forall p q, post = p ++ String quote q -> has_char nl p = true.
Proof.
  revert b. induction s as [|c s IH]; intros b.
  - split; [discriminate|]. intros (post & E & _). now destruct b.
  - cbn [upto_last_quote]. destruct (Ascii.eqb_spec c nl) as [->|N].
    { split; [discriminate|]. intros (post & E & H & _). destruct b as [|d b]; [discriminate E|]. injection E as <- E. discriminate H. }
    destruct (upto_last_quote s) as [b'|] eqn:U.
    + destruct (proj1 (IH b') eq_refl) as (post & E & H & G). split.
      * intros [= <-]. exists post. rewrite E. split; [reflexivity|]. split; [|exact G]. cbn [has_char]. rewrite H.
        destruct (Ascii.eqb_spec c nl); [congruence|reflexivity].
      * intros (post' & E' & H' & G'). destruct b as [|d b].
        { injection E' as -> E'. exfalso. specialize (G' b' post). rewrite <- E' in G'. rewrite (G' E) in H. discriminate H. }
        injection E' as <- E'. f_equal. f_equal. cbn [has_char] in H'. apply orb_false_iff in H' as (_ & H').
        assert (Some b' = Some b) as [= ->]; [apply IH; eauto|reflexivity].
    + assert (NO : forall p q, s = p ++ String quote q -> has_char nl p = true).
      { intros p q E. destruct (has_char nl p) eqn:P; [reflexivity|exfalso].
        (* a quote within the line: there is a last one *)
        assert (L : exists b', upto_last_quote s = Some b'); [|destruct L as (b' & L); congruence].
        clear -E P. revert s E. induction p as [|d p IHp]; intros s ->; cbn [append upto_last_quote].
        - change (Ascii.eqb quote nl) with false. cbv iota. destruct (upto_last_quote q); eexists; reflexivity.
        - cbn [has_char] in P. apply orb_false_iff in P as (P1 & P2). rewrite P1. destruct (IHp P2 _ eq_refl) as (b' & ->). eexists; reflexivity. }
      destruct (Ascii.eqb_spec c quote) as [->|NQ]; split.
      * intros [= <-]. exists s. now repeat split.
      * intros (post & E & H & G). destruct b as [|d b]; [reflexivity|]. injection E as <- E.
        cbn [has_char] in H. apply orb_false_iff in H as (_ & H). rewrite (NO _ _ E) in H. discriminate H.
      * discriminate.
      * intros (post & E & H & G). destruct b as [|d b]; [injection E as E _; contradiction|]. injection E as -> E.
        cbn [has_char] in H. apply orb_false_iff in H as (_ & H). rewrite (NO _ _ E) in H. discriminate H.
Qed.
Lemma lstrip_split p s : exists ws, s = ws ++ lstrip p s /\ all_chars p ws = true.
Proof.
  induction s as [|c s (ws & E & A)]; [now exists ""|]. cbn [lstrip]. destruct (p c) eqn:P.
  - exists (String c ws). cbn [append all_chars]. rewrite P, A. split; [f_equal; exact E|reflexivity].
  - exists "". split; reflexivity.
Qed.
Lemma after_iff s b : after_equals s = Some b <-> quoted s b.
Proof.
  unfold after_equals, quoted. split.
  - intros E. destruct (lstrip_split is_space s) as (ws & S & A). destruct (lstrip is_space s) as [|c r]; [discriminate|].
    destruct (Ascii.eqb_spec c quote) as [->|]; [|discriminate]. apply upto_iff in E as (post & -> & H & G).
    exists ws, post. now repeat split.
  - intros (ws & post & -> & A & H & G). rewrite lstrip_all by exact A. cbn [lstrip].
    change (is_space quote) with false. cbv iota. rewrite Ascii.eqb_refl. apply upto_iff. now exists post.
Qed.
(** the leftmost match *)
Definition matches (s b : string) : Prop :=
  exists pre rest, s = pre ++ String "=" rest /\ quoted rest b /\
    forall pre' rest' b', s = pre' ++ String "=" rest' -> quoted rest' b' -> (String.length pre <= String.length pre')%nat.
Lemma search_some s : (exists pre rest b, s = pre ++ String "=" rest /\ quoted rest b) -> exists b, search s = Some b.
Proof.
  intros (pre & rest & b & -> & Q). induction pre as [|c pre (b' & IH)]; cbn [append search].
  - change (Ascii.eqb "=" "=") with true. cbv iota. apply after_iff in Q. rewrite Q. now exists b.
  - destruct (Ascii.eqb c "="); [destruct (after_equals _)|]; eauto.
Qed.
Lemma quoted_one s b b' : quoted s b -> quoted s b' -> b = b'.
Proof. rewrite <- !after_iff. congruence. Qed.
Lemma app_len_eq a b c d : a ++ b = c ++ d -> String.length a = String.length c -> a = c /\ b = d.
Proof.
  revert c. induction a as [|x a IH]; intros [|y c] E L; try discriminate L; [now split|].
  injection E as -> E. injection L as L. destruct (IH _ E L) as (-> & ->). now split.
Qed.
Lemma search_iff s b : search s = Some b <-> matches s b.
Proof.
  assert (F : forall b, search s = Some b -> matches s b).
  { clear b. induction s as [|c s IH]; intros b E; [discriminate|]. cbn [search] in E.
    assert (K : (c = "="%char -> after_equals s = None) -> matches s b -> matches (String c s) b).
    { intros N (pre & rest & S & Q & L). exists (String c pre), rest. split; [cbn; now rewrite S|]. split; [exact Q|].
      intros [|d pre'] rest' b' S' Q'.
      - injection S' as -> S'. exfalso. subst rest'. apply after_iff in Q'. now rewrite N in Q'.
      - injection S' as _ S'. cbn [String.length]. apply le_n_S. eapply L; eauto. }
    destruct (Ascii.eqb_spec c "=") as [->|N].
    - destruct (after_equals s) as [b0|] eqn:A.
      + injection E as ->. exists "", s. split; [reflexivity|]. split; [now apply after_iff|]. intros; cbn; lia.
      + apply K; auto.
    - apply K; [congruence|auto]. }
  split; [apply F|]. intros M. pose proof M as (pre & rest & S & Q & L).
  destruct (search_some s) as (b' & E); [now exists pre, rest, b|].
  destruct (F _ E) as (pre' & rest' & S' & Q' & L').
  assert (LE : String.length pre = String.length pre') by (apply Nat.le_antisymm; [eapply L|eapply L']; eauto).
  rewrite S in S'. apply app_len_eq in S' as (_ & S'); [|exact LE]. injection S' as <-. rewrite E. f_equal. eapply quoted_one; eauto.
Qed.

(** ** Lines of a keyword *)
Definition of_key (key line : string) : Prop :=
  exists ws rest, line = ws ++ key ++ " =" ++ rest /\ all_chars is_space ws = true.
Lemma str_app_assoc a b c : (a ++ b) ++ c = a ++ b ++ c.
Proof. induction a; cbn; congruence. Qed.
Lemma rstrip_keeps p k c r : p c = false -> rstrip p (k ++ String c r) = k ++ rstrip p (String c r).
Proof.
  intros P. destruct (rstrip_head p c r P) as (t & H). rewrite H. induction k as [|d k IH]; [exact H|].
  change (String d k ++ String c r) with (String d (k ++ String c r)).
  change (rstrip p (String d (k ++ String c r))) with
    (match rstrip p (k ++ String c r) with "" => if p d then "" else String d "" | t => String d t end).
  rewrite IH. destruct k; reflexivity.
Qed.
Lemma rstrip_prefix p s : exists t, s = rstrip p s ++ t.
Proof.
  induction s as [|c s (t & E)]; [now exists ""|]. cbn [rstrip]. destruct (rstrip p s) as [|d r].
  - destruct (p c); [now exists (String c s)|]. exists s. reflexivity.
  - exists t. cbn in *. now rewrite E.
Qed.
Lemma key_iff key line : trim is_space key -> key <> "" -> (key_line key line = true <-> of_key key line).
Proof.
  intros TR NE. unfold key_line, of_key. rewrite prefix_iff. unfold strip, strip_chars. split.
  - intros (r & E). destruct (lstrip_split is_space line) as (ws & S & A). destruct (rstrip_prefix is_space (lstrip is_space line)) as (t & P).
    rewrite E in P. exists ws, (r ++ t). rewrite S at 1. rewrite P, !str_app_assoc. now split.
  - intros (ws & rest & -> & A). rewrite lstrip_all by exact A. destruct key as [|c key]; [congruence|]. destruct TR as (TC & _).
    cbn [append lstrip]. rewrite TC.
    change (String c (key ++ String " " (String "=" rest))) with (String c key ++ (" " ++ String "=" rest)).
    rewrite <- str_app_assoc, rstrip_keeps by reflexivity. destruct (rstrip_head is_space "=" rest eq_refl) as (t & ->).
    exists t. now rewrite !str_app_assoc.
Qed.

(** ** The file *)
(** the value of a keyword: that of the last line of its own that fits the pattern *)
Definition value (key : string) (ls : list string) (o : option string) : Prop :=
  match o with
  | Some b => exists before line after, ls = (before ++ line :: after)%list /\ of_key key line /\ matches line b /\
                forall l b', In l after -> of_key key l -> ~ matches l b'
  | None => forall l b', In l ls -> of_key key l -> ~ matches l b'
  end.
Definition found (key line : string) : option string := if key_line key line then search line else None.
Lemma found_iff key line b : trim is_space key -> key <> "" -> (found key line = Some b <-> of_key key line /\ matches line b).
Proof.
  intros TR NE. unfold found. destruct (key_line key line) eqn:K.
  - rewrite search_iff. apply key_iff in K; tauto.
  - split; [discriminate|]. intros (O & _). apply key_iff in O; congruence.
Qed.
Lemma value_last key ls o : trim is_space key -> key <> "" ->
  fold_left (fun a l => or_else (found key l) a) ls None = o -> value key ls o.
Proof.
  intros TR NE <-. induction ls as [|l ls IH] using rev_ind; [intros l b []|].
  rewrite fold_left_app. cbn [fold_left]. destruct (found key l) as [b|] eqn:F; cbn [or_else].
  - apply found_iff in F as (O & Mt); auto. exists ls, l, []. now repeat split.
  - assert (NO : forall b', of_key key l -> ~ matches l b').
    { intros b' O Mt. assert (found key l = Some b') by (apply found_iff; auto). congruence. }
    destruct (fold_left _ ls None) as [b|]; cbn [value] in *.
    + destruct IH as (bf & ln & af & -> & O & Mt & L). exists bf, ln, (af ++ [l])%list. rewrite <- app_assoc. split; [reflexivity|].
      split; [exact O|]. split; [exact Mt|]. intros l' b' I. apply in_app_or in I as [I|[<-|[]]]; [now apply L|apply NO].
    + intros l' b' I. apply in_app_or in I as [I|[<-|[]]]; [now apply IH|apply NO].
Qed.
Lemma value_one key ls o o' : value key ls o -> value key ls o' -> o = o'.
Proof.
  assert (U : forall l b b', matches l b -> matches l b' -> b = b') by (intros l b b'; rewrite <- !search_iff; congruence).
  destruct o as [b|], o' as [b'|]; cbn [value]; auto.
  - intros (bf & ln & af & -> & O & Mt & L) (bf' & ln' & af' & E & O' & Mt' & L').
    assert (C : forall (x y : list string) a c d e, (x ++ a :: c = y ++ d :: e)%list -> (In d c \/ In a e) \/ a = d).
    { clear. induction x as [|z x IH]; intros [|w y] a c d e E; cbn in E; injection E as E1 E2; subst; auto.
      - left; left. apply in_or_app. right. now left.
      - left; right. apply in_or_app. right. now left.
      - eauto. }
    destruct (C _ _ _ _ _ _ E) as [[I|I]| ->]; [destruct (L _ _ I O' Mt')|destruct (L' _ _ I O Mt)|f_equal; eauto].
  - intros (bf & ln & af & -> & O & Mt & L) N. exfalso. apply (N ln b); auto. apply in_or_app. right. now left.
  - intros N (bf & ln & af & -> & O & Mt & L). exfalso. apply (N ln b'); auto. apply in_or_app. right. now left.
Qed.
Lemma fold_parts ls k : let r := fold_left read_line ls k in
  kw_refnames r = fold_left (fun a l => or_else (found "git_refnames" l) a) ls (kw_refnames k) /\
  kw_full r = fold_left (fun a l => or_else (found "git_full" l) a) ls (kw_full k) /\
  kw_date r = fold_left (fun a l => or_else (found "git_date" l) a) ls (kw_date k).
Proof. revert k. induction ls as [|l ls IH]; intros k; [now repeat split|]. cbn [fold_left]. apply IH. Qed.
Lemma reads s : let k := git_get_keywords (Some s) in
  value "git_refnames" (file_lines s) (kw_refnames k) /\ value "git_full" (file_lines s) (kw_full k) /\
  value "git_date" (file_lines s) (kw_date k).
Proof.
  cbv zeta. unfold git_get_keywords. destruct (fold_parts (file_lines s) (MkKeywords None None None)) as (E1 & E2 & E3).
  split; [|split]; (apply value_last; [split; reflexivity|discriminate|symmetry; assumption]).
Qed.
(** a line as the module has it *)
Definition assignment (key b : string) : string := "    " ++ key ++ " = " ++ String quote (b ++ String quote "").
Lemma not_char_app c a b : has_char c (a ++ b) = has_char c a || has_char c b.
Proof. induction a as [|d a IH]; [reflexivity|]. cbn. now rewrite IH, orb_assoc. Qed.
Lemma assigned key b : trim is_space key -> key <> "" -> has_char "=" key = false -> has_char nl b = false ->
  found key (assignment key b ++ String nl "") = Some b.
Proof.
  intros TR NE NQ NB. unfold found, assignment. rewrite !str_app_assoc.
  rewrite (proj2 (key_iff key _ TR NE)) by (exists "    "; eexists; split; [|reflexivity]; reflexivity).
  cbn [append search]. change (Ascii.eqb " " "=") with false. cbv iota.
  assert (SK : forall k r, has_char "=" k = false -> search (k ++ r) = search r).
  { induction k as [|c k IH]; intros r H; [reflexivity|]. cbn [has_char] in H. apply orb_false_iff in H as (H1 & H2).
    cbn [append search]. rewrite H1. now apply IH. }
  rewrite SK by exact NQ. cbn [append search]. change (Ascii.eqb " " "=") with false. change (Ascii.eqb "=" "=") with true. cbv iota.
  rewrite (proj2 (after_iff _ b)); [reflexivity|]. exists " ", (String nl ""). split; [cbn [append]; now rewrite !str_app_assoc|].
  split; [reflexivity|]. split; [exact NB|]. intros p q E. destruct p as [|d p]; [discriminate E|]. injection E as <- E. reflexivity.
Qed.
(** ** Dictionaries *)
Lemma get_put {V} (d : list (string * V)) k v k' : get (put d k v) k' = if String.eqb k k' then Some v else get d k'.
Proof.
  unfold get. induction d as [|(a, w) d IH]; cbn [put find fst].
  - destruct (String.eqb k k'); reflexivity.
  - destruct (String.eqb_spec a k) as [->|N]; cbn [find fst].
    + destruct (String.eqb k k'); reflexivity.
    + destruct (String.eqb_spec a k') as [->|N']; [|exact IH]. destruct (String.eqb_spec k k'); [congruence|reflexivity].
Qed.
Definition handler {F} (h : handlers F) (vcs method : string) : option F :=
  match get h vcs with Some d => get d method | None => None end.
Lemma registered {F} (h : handlers F) vcs method f vcs' method' :
  handler (register h vcs method f) vcs' method' =
  if String.eqb vcs vcs' && String.eqb method method' then Some f else handler h vcs' method'.
Proof.
  unfold handler, register. destruct (get h vcs) as [d|] eqn:G; rewrite ?G, !get_put, ?String.eqb_refl.
  - destruct (String.eqb_spec vcs vcs') as [<-|]; cbn [andb]; [|reflexivity]. rewrite get_put, G. destruct (String.eqb method method'); reflexivity.
  - destruct (String.eqb_spec vcs vcs') as [<-|]; cbn [andb]; [|reflexivity]. rewrite get_put, G. destruct (String.eqb method method'); reflexivity.
Qed.

(** ** Commands *)
Lemma cli_main_never how turn fuel : snd (cli true how turn fuel) <> Returned.
Proof.
  revert turn. induction fuel as [|fuel IH]; intros turn; [discriminate|]. cbn [cli].
  destruct (run_django_server (how turn)) as ((started & printed) & []); try discriminate.
  specialize (IH (S turn)). destruct (cli true how (S turn) fuel) as (more & o). exact IH.
Qed.
Definition exited (e : ending) : Prop := exists code, e = Exited code.
Lemma run_all_cases how l : let '(started, printed, o) := run_all how l in
  (started = l /\ Forall (fun c => exited (how c)) l /\ printed = false /\ o = Returned) \/
  exists pre c post, l = (pre ++ c :: post)%list /\ started = (pre ++ [c])%list /\ Forall (fun c => exited (how c)) pre /\
    ((how c = Interrupted /\ printed = true /\ o = Returned) \/ (how c = Broke /\ printed = false /\ o = Raises)).
Proof.
  induction l as [|c l IH]; cbn [run_all]; [now left|].
  destruct (how c) eqn:H.
  - destruct (run_all how l) as ((started & printed) & o). destruct IH as [(-> & F & -> & ->)|(pre & d & post & -> & -> & F & D)].
    + left. repeat split; auto. constructor; [now exists code|exact F].
    + right. exists (c :: pre), d, post. repeat split; auto. constructor; [now exists code|exact F].
  - right. exists [], c, l. repeat split; auto.
  - right. exists [], c, l. repeat split; auto.
Qed.
Lemma cli_turns how turn fuel : (forall n c, exited (how n c)) ->
  cli true how turn fuel = (List.concat (repeat [Migrate; Collect; Serve] fuel), StillRunning).
Proof.
  intros E. revert turn. induction fuel as [|fuel IH]; intros turn; [reflexivity|]. cbn [cli repeat List.concat]. unfold run_django_server. cbn [run_all].
  destruct (E turn Migrate) as (a & ->), (E turn Collect) as (b & ->), (E turn Serve) as (c & ->). now rewrite IH.
Qed.

(** ** The file of the module *)
Definition ended (b : string) : string := b ++ String nl "".
Definition whole (bodies : list string) : string := String.concat "" (map ended bodies).
Lemma lines_whole bodies s : Forall (fun b => has_char nl b = false) bodies ->
  file_lines (whole bodies ++ s) = (map ended bodies ++ file_lines s)%list.
Proof.
  intros F. induction F as [|b l B F IH]; [reflexivity|]. unfold whole in *. cbn [map List.app]. rewrite <- IH.
  replace (String.concat "" (ended b :: map ended l) ++ s)
    with (b ++ String nl (String.concat "" (map ended l) ++ s)).
  - now apply lines_cons.
  - destruct l as [|b' l]; cbn [map String.concat append]; unfold ended; rewrite !str_app_assoc; reflexivity.
Qed.
Lemma key_strip key line : trim is_space key -> key <> "" -> of_key key line -> String.prefix (key ++ " =") (lstrip is_space line) = true.
Proof.
  intros TR NE (ws & rest & -> & A). rewrite lstrip_all by exact A. destruct key as [|c key]; [congruence|]. destruct TR as (TC & _).
  cbn [append lstrip]. rewrite TC. apply prefix_iff. exists rest. cbn [append]. f_equal. now rewrite str_app_assoc.
Qed.
Definition keys : list string := ["git_refnames"; "git_full"; "git_date"].
Lemma module_read bodies tail r f d : Forall (fun b => has_char nl b = false) bodies ->
  has_char nl r = false -> has_char nl f = false -> has_char nl d = false ->
  (forall key l, In key keys -> In l (map ended bodies ++ file_lines tail) -> ~ of_key key l) ->
  git_get_keywords (Some (whole bodies ++ whole [assignment "git_refnames" r; assignment "git_full" f; assignment "git_date" d] ++ tail)) =
  MkKeywords (Some r) (Some f) (Some d).
Proof.
  intros FB R F D NO.
  assert (NL : Forall (fun b => has_char nl b = false) [assignment "git_refnames" r; assignment "git_full" f; assignment "git_date" d]).
  { unfold assignment. repeat constructor; rewrite !not_char_app; cbn [has_char]; rewrite !not_char_app; cbn [has_char];
      rewrite ?R, ?F, ?D; reflexivity. }
  set (text := _ ++ _). destruct (reads text) as (V1 & V2 & V3). fold text.
  assert (L : file_lines text = (map ended bodies ++
     [ended (assignment "git_refnames" r); ended (assignment "git_full" f); ended (assignment "git_date" d)] ++ file_lines tail)%list).
  { unfold text. rewrite lines_whole by exact FB. rewrite lines_whole by exact NL. reflexivity. }
  rewrite L in V1, V2, V3.
  assert (NT : forall key l b', In key keys -> In l (file_lines tail) -> of_key key l -> ~ matches l b').
  { intros key l b' K I O. destruct (NO key l K); [apply in_or_app; now right|exact O]. }
  assert (G : forall key b, In key keys -> has_char nl b = false -> of_key key (ended (assignment key b)) /\ matches (ended (assignment key b)) b).
  { intros key b K B. apply found_iff; [..|apply assigned]; destruct K as [<-|[<-|[<-|[]]]]; (reflexivity || discriminate || exact B || (split; reflexivity)). }
  assert (OT : forall key key' b, In key keys -> In key' keys -> key <> key' -> ~ of_key key (ended (assignment key' b))).
  { intros key key' b K K' N O. apply key_strip in O; [|destruct K as [<-|[<-|[<-|[]]]]; (discriminate || (split; reflexivity))..].
    destruct K as [<-|[<-|[<-|[]]]], K' as [<-|[<-|[<-|[]]]]; try congruence; cbn in O; discriminate O. }
  destruct (git_get_keywords (Some text)) as [k1 k2 k3]. cbn [kw_refnames kw_full kw_date] in *. f_equal.
  - refine (value_one _ _ _ _ V1 _). destruct (G "git_refnames" r) as (O & Mt); [cbn; auto|exact R|].
    exists (map ended bodies), (ended (assignment "git_refnames" r)), (ended (assignment "git_full" f) :: ended (assignment "git_date" d) :: file_lines tail)%list.
    split; [reflexivity|]. split; [exact O|]. split; [exact Mt|].
    intros l b' [<-|[<-|I]] O'; [exfalso; eapply OT; [| | |exact O']; cbn; auto; discriminate..|]. eapply NT; [|exact I|exact O']; cbn; auto.
  - refine (value_one _ _ _ _ V2 _). destruct (G "git_full" f) as (O & Mt); [cbn; auto|exact F|].
    exists (map ended bodies ++ [ended (assignment "git_refnames" r)])%list, (ended (assignment "git_full" f)), (ended (assignment "git_date" d) :: file_lines tail)%list.
    split; [rewrite <- app_assoc; reflexivity|]. split; [exact O|]. split; [exact Mt|].
    intros l b' [<-|I] O'; [exfalso; eapply OT; [| | |exact O']; cbn; auto; discriminate|]. eapply NT; [|exact I|exact O']; cbn; auto.
  - refine (value_one _ _ _ _ V3 _). destruct (G "git_date" d) as (O & Mt); [cbn; auto|exact D|].
    exists (map ended bodies ++ [ended (assignment "git_refnames" r); ended (assignment "git_full" f)])%list, (ended (assignment "git_date" d)), (file_lines tail).
    split; [rewrite <- app_assoc; reflexivity|]. split; [exact O|]. split; [exact Mt|].
    intros l b' I O'. eapply NT; [|exact I|exact O']; cbn; auto.
Qed.
