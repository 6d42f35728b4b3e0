(** * VersionFacts: what the version text says (C88). *)
From Coq Require Import ZArith NArith Lia List Bool Ascii String Decimal DecimalString DecimalN.
From Verif Require Import Py Report ReportFacts Version.
Import ListNotations.
Local Open Scope string_scope.

(** ** Strings *)
Lemma app_empty_r s : s ++ "" = s.
Proof. induction s; cbn; congruence. Qed.
Lemma list_app a b : list_ascii_of_string (a ++ b) = (list_ascii_of_string a ++ list_ascii_of_string b)%list.
Proof. induction a; cbn; congruence. Qed.
Lemma list_inj a b : list_ascii_of_string a = list_ascii_of_string b -> a = b.
Proof.
  intros E. rewrite <- (string_of_list_ascii_of_string a), <- (string_of_list_ascii_of_string b).
  now rewrite E.
Qed.
Lemma app_inv a b c : a ++ b = a ++ c -> b = c.
Proof. induction a as [|x a IH]; cbn; auto. intros [= E]. auto. Qed.
Lemma sub_all s : substring 0 (String.length s) s = s.
Proof. induction s as [|c s IH]; cbn; congruence. Qed.
Lemma sub_left a b : substring 0 (String.length a) (a ++ b) = a.
Proof. induction a as [|c a IH]; cbn; [destruct b; reflexivity | congruence]. Qed.
Lemma sub_right a b : substring (String.length a) (String.length b) (a ++ b) = b.
Proof. induction a as [|c a IH]; cbn; [apply sub_all | auto]. Qed.
Lemma sub_split n s : (n <= String.length s)%nat ->
  s = substring 0 n s ++ substring n (String.length s - n) s.
Proof.
  revert n. induction s as [|c s IH]; intros [|n] L; cbn in *; try reflexivity; try lia.
  - now rewrite sub_all.
  - f_equal. apply IH. lia.
Qed.

Lemma has_app c a b : has_char c (a ++ b) = has_char c a || has_char c b.
Proof. induction a as [|d a IH]; cbn; auto. rewrite IH. now rewrite orb_assoc. Qed.
Lemma split_app c a b : split_on c (a ++ String c b) = (split_on c a ++ split_on c b)%list.
Proof.
  induction a as [|d a IH]; cbn [append split_on].
  - now rewrite Ascii.eqb_refl.
  - destruct (Ascii.eqb d c); [now rewrite IH|]. rewrite IH.
    destruct (split_on c a) as [|w ws] eqn:E; [|reflexivity].
    destruct a as [|x a]; cbn in E; [discriminate|].
    destruct (Ascii.eqb x c); [discriminate|]. destruct (split_on c a); discriminate.
Qed.
Lemma split_none c s : has_char c s = false -> split_on c s = [s].
Proof.
  induction s as [|d s IH]; cbn; auto. rewrite orb_false_iff. intros [E H]. rewrite E, IH; auto.
Qed.
Lemma join_split c s : join c (split_on c s) = s.
Proof.
  unfold join. induction s as [|d s IH]; cbn [split_on]; [reflexivity|].
  destruct (split_on c s) as [|w ws] eqn:E.
  { exfalso. destruct s as [|x s]; cbn in E; [discriminate|].
    destruct (Ascii.eqb x c); [discriminate|]. destruct (split_on c s); discriminate. }
  destruct (Ascii.eqb_spec d c) as [->|N].
  - change (String.concat (String c "") ("" :: w :: ws)) with (String c (String.concat (String c "") (w :: ws))).
    now rewrite IH.
  - destruct ws as [|x xs]; cbn [String.concat append] in *; now rewrite IH.
Qed.

Lemma all_has p c s : p c = false -> all_chars p s = true -> has_char c s = false.
Proof.
  intros P. induction s as [|d s IH]; cbn; auto. rewrite andb_true_iff. intros [A B].
  rewrite IH by auto. destruct (Ascii.eqb_spec d c) as [->|]; [congruence|reflexivity].
Qed.
Lemma all_weaken (p q : ascii -> bool) s : (forall c, p c = true -> q c = true) ->
  all_chars p s = true -> all_chars q s = true.
Proof.
  intros W. induction s as [|d s IH]; cbn; auto. rewrite !andb_true_iff. intros [A B]. auto.
Qed.

(** ** Numbers *)
Lemma uint_digits u : all_chars is_digit (NilEmpty.string_of_uint u) = true.
Proof. induction u; cbn; auto. Qed.
Lemma whole_empty n : whole n = NilEmpty.string_of_uint (N.to_uint n).
Proof.
  unfold whole, NilZero.string_of_uint. pose proof (to_uint_nonnil n).
  destruct (N.to_uint n); [congruence| ..]; reflexivity.
Qed.
Lemma whole_digits n : all_chars is_digit (whole n) = true.
Proof. rewrite whole_empty. apply uint_digits. Qed.
Lemma whole_some n : some_chars is_digit (whole n) = true.
Proof.
  unfold some_chars. rewrite whole_digits. pose proof (whole_length n).
  destruct (whole n); [cbn in *; lia|reflexivity].
Qed.
Lemma whole_back n : int_of (whole n) = n.
Proof. unfold int_of. rewrite whole_empty, NilEmpty.usu. apply DecimalN.Unsigned.of_to. Qed.
Lemma whole_inj a b : whole a = whole b -> a = b.
Proof. intros E. rewrite <- (whole_back a), E. apply whole_back. Qed.
Lemma whole_no c n : is_digit c = false -> has_char c (whole n) = false.
Proof. intros D. exact (all_has _ _ _ D (whole_digits n)). Qed.
Lemma hex_no c s : is_hex c = false -> all_chars is_hex s = true -> has_char c s = false.
Proof. apply all_has. Qed.

(** ** Reading the answer of git *)
Lemma strip_is s : strip_dirty (s ++ "-dirty") = (s, true).
Proof.
  unfold strip_dirty. rewrite app_length.
  replace (String.length s + String.length "-dirty" - 6)%nat with (String.length s) by (cbn; lia).
  change 6%nat with (String.length "-dirty") at 2. rewrite sub_right, sub_left.
  replace (6 <=? String.length s + String.length "-dirty")%nat with true; [reflexivity|].
  symmetry. apply Nat.leb_le. cbn. lia.
Qed.
Lemma strip_not s hex : some_chars is_hex hex = true -> strip_dirty (s ++ hex) = (s ++ hex, false).
Proof.
  unfold some_chars. rewrite andb_true_iff. intros [N A].
  unfold strip_dirty. destruct (_ <=? _)%nat eqn:L; [|reflexivity]. apply Nat.leb_le in L.
  set (t := s ++ hex) in *. destruct (String.eqb_spec (substring (String.length t - 6) 6 t) "-dirty") as [E|]; [|reflexivity].
  exfalso. pose proof (sub_split (String.length t - 6) t ltac:(lia)) as S.
  replace (String.length t - (String.length t - 6))%nat with 6%nat in S by lia. rewrite E in S.
  set (x := substring 0 (String.length t - 6) t) in *. clearbody x. unfold t in S.
  assert (Q : exists h c, hex = h ++ String c "" /\ is_hex c = true).
  { clear - N A. induction hex as [|c h IH]; [discriminate|]. destruct h as [|d h].
    - exists "", c. split; [reflexivity|]. cbn in A. now rewrite andb_true_r in A.
    - cbn [all_chars] in A. apply andb_true_iff in A. destruct A as [A1 A2].
      destruct IH as (h' & c' & E & H); [reflexivity|exact A2|].
      exists (String c h'), c'. split; [cbn; now rewrite E|exact H]. }
  destruct Q as (h & c & -> & H).
  apply (f_equal list_ascii_of_string) in S. rewrite !list_app in S.
  change (list_ascii_of_string "-dirty") with (list_ascii_of_string "-dirt" ++ ["y"%char])%list in S.
  change (list_ascii_of_string (String c "")) with [c] in S. rewrite !app_assoc in S.
  apply app_inj_tail in S. destruct S as [_ ->]. discriminate H.
Qed.
Lemma strip_mark s hex (dirty : bool) : some_chars is_hex hex = true ->
  strip_dirty (s ++ hex ++ opt dirty "-dirty") = (s ++ hex, dirty).
Proof.
  intros X. destruct dirty; cbn [opt].
  - rewrite <- app_assoc_s. apply strip_is.
  - rewrite app_empty_r. now apply strip_not.
Qed.

Lemma parse_tagged full count branch tag n hex (dirty : bool) :
  tag <> "" -> some_chars is_hex hex = true ->
  parse_describe full count branch (tag ++ "-" ++ whole n ++ "-g" ++ hex ++ opt dirty "-dirty") =
  Some (MkPieces (Some tag) n hex dirty branch).
Proof.
  intros NT X. unfold parse_describe.
  replace (tag ++ "-" ++ whole n ++ "-g" ++ hex ++ opt dirty "-dirty")
    with ((tag ++ "-" ++ whole n ++ "-g") ++ hex ++ opt dirty "-dirty")
    by (rewrite !app_assoc_s; reflexivity).
  rewrite strip_mark by auto. rewrite !app_assoc_s.
  pose proof X as X'. unfold some_chars in X'. apply andb_true_iff in X'. destruct X' as [_ XA].
  assert (E : split_on "-" (tag ++ "-" ++ whole n ++ "-g" ++ hex) =
              (split_on "-" tag ++ [whole n; String "g" hex])%list).
  { change ("-" ++ whole n ++ "-g" ++ hex) with (String "-" (whole n ++ String "-" (String "g" hex))).
    rewrite !split_app. rewrite (split_none "-" (whole n)) by (now apply whole_no).
    rewrite (split_none "-" (String "g" hex)); [reflexivity|].
    cbn [has_char]. rewrite (hex_no "-" hex); auto. }
  rewrite E. rewrite rev_app_distr. cbn [List.rev List.app].
  replace (has_char "-" (tag ++ "-" ++ whole n ++ "-g" ++ hex)) with true.
  2:{ rewrite has_app. cbn [append has_char]. now rewrite Ascii.eqb_refl, orb_true_r. }
  rewrite List.rev_involutive, join_split, Ascii.eqb_refl, X, whole_some, whole_back.
  destruct (String.eqb_spec tag ""); [congruence|]. reflexivity.
Qed.
Lemma parse_untagged full count branch hex (dirty : bool) : some_chars is_hex hex = true ->
  parse_describe full count branch (hex ++ opt dirty "-dirty") =
  Some (MkPieces None count (substring 0 7 full) dirty branch).
Proof.
  intros X. unfold parse_describe. change (hex ++ opt dirty "-dirty") with ("" ++ hex ++ opt dirty "-dirty").
  rewrite strip_mark by auto. cbn [append]. unfold some_chars in X. apply andb_true_iff in X.
  rewrite (hex_no "-" hex); [reflexivity|reflexivity|apply X].
Qed.

(** ** The default style *)
Definition plain (p : pieces) : Prop :=
  (forall t, tag_of p = Some t -> has_char "+" t = false) /\ all_chars is_hex (pc_short p) = true.

Lemma body_inj d s (x : bool) d' s' (x' : bool) :
  all_chars is_hex s = true -> all_chars is_hex s' = true ->
  whole d ++ ".g" ++ s ++ opt x ".dirty" = whole d' ++ ".g" ++ s' ++ opt x' ".dirty" ->
  d = d' /\ s = s' /\ x = x'.
Proof.
  intros A A' E. apply (f_equal (split_on ".")) in E.
  assert (Q : forall d s (x : bool), all_chars is_hex s = true ->
     split_on "." (whole d ++ ".g" ++ s ++ opt x ".dirty") =
     (if x then [whole d; String "g" s; "dirty"] else [whole d; String "g" s])).
  { clear. intros d s x A.
    assert (G : has_char "." (String "g" s) = false) by (cbn [has_char]; rewrite (hex_no "." s); auto).
    change (whole d ++ ".g" ++ s ++ opt x ".dirty") with (whole d ++ String "." (String "g" s ++ opt x ".dirty")).
    rewrite split_app. rewrite (split_none "." (whole d)) by (now apply whole_no).
    destruct x; cbn [opt].
    - change ".dirty" with (String "." "dirty"). rewrite split_app, (split_none "." _ G). reflexivity.
    - rewrite app_empty_r, (split_none "." _ G). reflexivity. }
  rewrite !Q in E by auto.
  destruct x, x'; try discriminate E; injection E as E1 E2; apply whole_inj in E1; auto.
Qed.

Lemma body_no_plus d s (x : bool) : all_chars is_hex s = true ->
  has_char "+" (whole d ++ ".g" ++ s ++ opt x ".dirty") = false.
Proof.
  intros A. rewrite !has_app, (whole_no "+" d eq_refl), (hex_no "+" s eq_refl A). destruct x; reflexivity.
Qed.
Lemma untagged_no_plus d s (x : bool) : all_chars is_hex s = true ->
  has_char "+" ("untagged." ++ whole d ++ ".g" ++ s ++ opt x ".dirty") = false.
Proof. intros A. rewrite has_app, body_no_plus by auto. reflexivity. Qed.

(** the parts of the text around the plus *)
Lemma pep440_parts p : plain p ->
  split_on "+" (render_pep440 p) =
  match tag_of p with
  | Some t => if moved p then [t; whole (pc_distance p) ++ ".g" ++ pc_short p ++ opt (pc_dirty p) ".dirty"]
              else [t]
  | None => ["0"; "untagged." ++ whole (pc_distance p) ++ ".g" ++ pc_short p ++ opt (pc_dirty p) ".dirty"]
  end.
Proof.
  intros [NP X]. unfold render_pep440. destruct (tag_of p) as [t|].
  - specialize (NP t eq_refl). unfold plus_or_dot. rewrite NP. destruct (moved p); cbn [opt].
    + change ("+" ++ ?s) with (String "+" s). rewrite split_app, (split_none "+" t NP).
      rewrite (split_none "+" (whole _ ++ _)); [reflexivity|]. now apply body_no_plus.
    + rewrite app_empty_r. now apply split_none.
  - change ("0+untagged." ++ ?s) with ("0" ++ String "+" ("untagged." ++ s)).
    rewrite split_app. rewrite (split_none "+" ("untagged." ++ _)); [reflexivity|]. now apply untagged_no_plus.
Qed.

Lemma not_untagged d s s' : whole d ++ s = "untagged." ++ s' -> False.
Proof.
  intros E. pose proof (whole_some d) as W. destruct (whole d) as [|c w]; [discriminate W|].
  cbn in E. injection E as -> _. discriminate W.
Qed.

Lemma pep440_inj p q : plain p -> plain q -> render_pep440 p = render_pep440 q ->
  tag_of p = tag_of q /\ pc_distance p = pc_distance q /\ pc_dirty p = pc_dirty q /\
  (tag_of p = None \/ moved p = true -> pc_short p = pc_short q).
Proof.
  intros P Q E. apply (f_equal (split_on "+")) in E. rewrite !pep440_parts in E by auto.
  destruct P as [_ XP], Q as [_ XQ].
  destruct (tag_of p) as [t|], (tag_of q) as [t'|].
  - destruct (moved p) eqn:M, (moved q) eqn:M'; try discriminate E.
    + injection E as <- E. apply body_inj in E; auto. destruct E as (-> & -> & ->). auto.
    + injection E as <-. unfold moved in M, M'. rewrite orb_false_iff, negb_false_iff, N.eqb_eq in M, M'.
      destruct M as [-> ->], M' as [-> ->]. split; auto. split; auto. split; auto.
      intros [D|D]; discriminate D.
  - exfalso. destruct (moved p); [|discriminate E]. injection E as _ E.
    exact (not_untagged _ _ _ E).
  - exfalso. destruct (moved q); [|discriminate E]. injection E as _ E. symmetry in E.
    exact (not_untagged _ _ _ E).
  - injection E as E. apply body_inj in E; auto. destruct E as (-> & -> & ->). auto.
Qed.

(** exactly the tag: only at the tag itself, without changes *)
Lemma pep440_at_tag p t : tag_of p = Some t ->
  (render_pep440 p = t <-> pc_distance p = 0%N /\ pc_dirty p = false).
Proof.
  intros E. unfold render_pep440, moved. rewrite E. split.
  - intros Q. rewrite <- (app_empty_r t) in Q at 3. apply app_inv in Q.
    destruct (pc_distance p =? 0)%N eqn:D, (pc_dirty p); cbn [negb orb opt] in Q.
    2:{ apply N.eqb_eq in D. auto. }
    all: unfold plus_or_dot in Q; destruct (has_char "+" t); discriminate Q.
  - intros [-> ->]. apply app_empty_r.
Qed.

(** ** How many plus signs *)
Fixpoint count_char (c : ascii) (s : string) : nat :=
  match s with
  | "" => 0
  | String d s' => (if Ascii.eqb d c then 1 else 0) + count_char c s'
  end.
Lemma count_app c a b : count_char c (a ++ b) = (count_char c a + count_char c b)%nat.
Proof. induction a as [|d a IH]; cbn; auto. rewrite IH. lia. Qed.
Lemma count_none c s : has_char c s = false -> count_char c s = 0%nat.
Proof. induction s as [|d s IH]; cbn; auto. rewrite orb_false_iff. intros [-> H]. auto. Qed.
Lemma count_some c s : has_char c s = true -> (1 <= count_char c s)%nat.
Proof. induction s as [|d s IH]; cbn; [discriminate|]. destruct (Ascii.eqb d c); cbn; auto. lia. Qed.
Lemma count_plus_or_dot t : (count_char "+" t <= 1)%nat ->
  (count_char "+" t + count_char "+" (plus_or_dot t) = 1)%nat.
Proof.
  intros L. unfold plus_or_dot. destruct (has_char "+" t) eqn:E.
  - apply count_some in E. cbn. lia.
  - rewrite (count_none _ _ E). reflexivity.
Qed.
Lemma count_opt c (b : bool) s : (count_char c (opt b s) <= count_char c s)%nat.
Proof. destruct b; cbn; lia. Qed.
Lemma count_sub c s : forall n m, (count_char c (substring n m s) <= count_char c s)%nat.
Proof.
  induction s as [|d s IH]; intros n m; [destruct n, m; cbn; lia|].
  destruct n as [|n]; [destruct m as [|m]|]; cbn [substring count_char]; [lia| |].
  - specialize (IH 0%nat m). lia.
  - specialize (IH n m). lia.
Qed.

Definition one_plus (s : string) : Prop := (count_char "+" s <= 1)%nat.
Definition tag_plus (p : pieces) : Prop := forall t, tag_of p = Some t -> one_plus t.

Lemma styles_plus p : tag_plus p -> all_chars is_hex (pc_short p) = true ->
  one_plus (render_pep440 p) /\ one_plus (render_pep440_branch p) /\ one_plus (render_pep440_post p) /\
  one_plus (render_pep440_post_branch p) /\ one_plus (render_pep440_old p).
Proof.
  unfold tag_plus, one_plus, render_pep440, render_pep440_branch, render_pep440_post,
    render_pep440_post_branch, render_pep440_old. intros TP X.
  assert (H : count_char "+" (pc_short p) = 0%nat) by (apply count_none; now apply hex_no).
  assert (W : forall n, count_char "+" (whole n) = 0%nat) by (intros n; apply count_none; now apply whole_no).
  assert (D : forall b, count_char "+" (opt b ".dirty") = 0%nat) by (intros []; reflexivity).
  assert (V : forall b, count_char "+" (opt b ".dev0") = 0%nat) by (intros []; reflexivity).
  destruct (tag_of p) as [t|].
  - specialize (TP t eq_refl). pose proof (count_plus_or_dot t TP) as C.
    destruct (moved p); cbn [opt]; rewrite ?app_assoc_s, ?count_app, ?W, ?H, ?D, ?V.
    all: try (change (count_char "+" ".g") with 0%nat; change (count_char "+" "g") with 0%nat;
              change (count_char "+" ".post") with 0%nat; change (count_char "+" "") with 0%nat; lia).
    all: change (count_char "+" "") with 0%nat; repeat split; lia.
  - rewrite ?count_app, ?W, ?H, ?D, ?V.
    change (count_char "+" ".g") with 0%nat. change (count_char "+" "0+untagged.") with 1%nat.
    change (count_char "+" "0") with 0%nat. change (count_char "+" "+untagged.") with 1%nat.
    change (count_char "+" "0.post") with 0%nat. change (count_char "+" "+g") with 1%nat. lia.
Qed.
Lemma ok_inj {A} (a b : A) : Ok a = Ok b -> a = b.
Proof. now intros [= ->]. Qed.
Lemma pre_plus p s : tag_plus p -> render_pep440_pre p = Ok s -> one_plus s.
Proof.
  unfold tag_plus, one_plus, render_pep440_pre. intros TP.
  assert (W : forall n, count_char "+" (whole n) = 0%nat) by (intros n; apply count_none; now apply whole_no).
  destruct (tag_of p) as [t|].
  2:{ intros E; apply ok_inj in E; subst s. rewrite count_app, W. cbn. lia. }
  specialize (TP t eq_refl). destruct (_ =? 0)%N; [intros E; apply ok_inj in E; subst s; exact TP|].
  unfold split_post. destruct (index 0 post t) as [n|]; cbn [rbind].
  2:{ cbn [fst snd]. intros E; apply ok_inj in E; subst s. rewrite !count_app, W. cbn. lia. }
  pose proof (count_sub "+" t 0 n) as L.
  destruct (index 0 post _); cbn [rbind fst snd].
  { intros E; apply ok_inj in E; subst s. rewrite !count_app, W. cbn. lia. }
  destruct (String.eqb _ ""); cbn [rbind fst snd].
  { intros E; apply ok_inj in E; subst s. rewrite !count_app, !W. cbn. lia. }
  destruct (all_chars _ _); cbn [rbind fst snd]; [|discriminate].
  intros E; apply ok_inj in E; subst s. rewrite !count_app, !W. cbn. lia.
Qed.

(** ** Styles that always answer *)
Lemma render_total p style : style <> "pep440-pre" ->
  In style [""; "default"; "pep440"; "pep440-branch"; "pep440-post"; "pep440-post-branch"; "pep440-old";
            "git-describe"; "git-describe-long"] ->
  exists s, render (Some p) style = Ok s.
Proof.
  intros _ I. cbn [In] in I.
  repeat (destruct I as [ <- | I ]; [eexists; reflexivity|]). destruct I.
Qed.
Lemma pre_fails : exists p t, pc_tag p = Some t /\ render (Some p) "pep440-pre" = Err ValueError.
Proof.
  exists (MkPieces (Some "1.0.post1.dev2") 3 "abc1234" false (Some "master")), "1.0.post1.dev2".
  split; reflexivity.
Qed.
Lemma pre_answers p : pc_distance p = 0%N \/ (forall t, tag_of p = Some t -> index 0 post t = None) ->
  exists s, render_pep440_pre p = Ok s.
Proof.
  unfold render_pep440_pre. intros Q. destruct (tag_of p) as [t|]; [|eexists; reflexivity].
  destruct Q as [->|Q]; [eexists; reflexivity|]. destruct (_ =? 0)%N; [eexists; reflexivity|].
  unfold split_post. rewrite (Q t eq_refl). eexists. reflexivity.
Qed.

(** ** git describe and back *)
Lemma describe_back full count branch tag n hex (dirty : bool) :
  tag <> "" -> some_chars is_hex hex = true ->
  let out := tag ++ "-" ++ whole n ++ "-g" ++ hex ++ opt dirty "-dirty" in
  exists p, parse_describe full count branch out = Some p /\ render_git_describe_long p = out.
Proof.
  intros NT X out. unfold out. rewrite parse_tagged by auto. eexists. split; [reflexivity|].
  unfold render_git_describe_long, tag_of. cbn [pc_tag pc_distance pc_short pc_dirty].
  destruct (String.eqb_spec tag ""); [congruence|]. now rewrite !app_assoc_s.
Qed.

(** ** What can be read at all *)
Lemma strip_parts s d x : strip_dirty s = (d, x) -> s = d ++ opt x "-dirty".
Proof.
  unfold strip_dirty. destruct (_ <=? _)%nat eqn:L; cbn [andb]; [|intros [= <- <-]; now rewrite app_empty_r].
  apply Nat.leb_le in L.
  destruct (String.eqb_spec (substring (String.length s - 6) 6 s) "-dirty") as [E|];
    [|intros [= <- <-]; now rewrite app_empty_r].
  intros Q. pose proof (sub_split (String.length s - 6) s ltac:(lia)) as P.
  replace (String.length s - (String.length s - 6))%nat with 6%nat in P by lia. rewrite E in P.
  injection Q as <- <-. exact P.
Qed.
Lemma join_last l c : forall a b, l <> [] ->
  join c (l ++ [a; b])%list = join c l ++ String c (a ++ String c b).
Proof.
  unfold join. intros a b N. induction l as [|w l IH]; [congruence|].
  destruct l as [|v l]; [reflexivity|].
  change (((w :: v :: l) ++ [a; b])%list) with (w :: ((v :: l) ++ [a; b]))%list.
  change (String.concat (String c "") (w :: v :: l)) with (w ++ String c (String.concat (String c "") (v :: l))).
  rewrite app_assoc_s. cbn [append]. rewrite <- IH by discriminate.
  destruct ((v :: l) ++ [a; b])%list eqn:E; [discriminate E|]. reflexivity.
Qed.
Lemma parse_only full count branch out p : parse_describe full count branch out = Some p ->
  (exists tag num hex (dirty : bool), tag <> "" /\ some_chars is_digit num = true /\
     some_chars is_hex hex = true /\ out = tag ++ "-" ++ num ++ "-g" ++ hex ++ opt dirty "-dirty" /\
     p = MkPieces (Some tag) (int_of num) hex dirty branch) \/
  (exists hex (dirty : bool), has_char "-" hex = false /\ out = hex ++ opt dirty "-dirty" /\
     p = MkPieces None count (substring 0 7 full) dirty branch).
Proof.
  unfold parse_describe. destruct (strip_dirty out) as [d x] eqn:ST. apply strip_parts in ST. subst out.
  destruct (has_char "-" d) eqn:HC.
  2:{ intros [= <-]. right. exists d, x. auto. }
  destruct (List.rev (split_on "-" d)) as [|l [|num rest]] eqn:RV; [discriminate|destruct l; discriminate|].
  destruct l as [|g hex]; [discriminate|].
  destruct (_ && _) eqn:C; [|discriminate]. intros [= <-].
  apply andb_true_iff in C. destruct C as [C TG]. apply andb_true_iff in C. destruct C as [C DG].
  apply andb_true_iff in C. destruct C as [C HX]. apply Ascii.eqb_eq in C. subst g.
  left. exists (join "-" (List.rev rest)), num, hex, x.
  assert (NE : join "-" (List.rev rest) <> "").
  { intros E. rewrite E in TG. discriminate TG. }
  do 3 (split; [assumption|]). split; [|reflexivity].
  apply (f_equal (@List.rev string)) in RV. rewrite List.rev_involutive in RV. cbn [List.rev] in RV.
  rewrite <- app_assoc in RV. cbn [List.app] in RV.
  rewrite <- (join_split "-" d), RV, join_last.
  - rewrite !app_assoc_s. cbn [append]. rewrite !app_assoc_s. cbn [append]. reflexivity.
  - intros E. rewrite E in NE. now apply NE.
Qed.

(** ** The text in every style *)
Definition away (b : option string) : string :=
  match b with Some n => if String.eqb n "master" then "" else ".dev0" | None => ".dev0" end.
Lemma on_master_away p : opt (negb (on_master p)) ".dev0" = away (pc_branch p).
Proof. unfold on_master, away. destruct (pc_branch p) as [n|]; [|reflexivity]. destruct (String.eqb n "master"); reflexivity. Qed.

Section Styles.
Context (d : N) (h : string) (dirty : bool) (b : option string).

Lemma text_at t : t <> "" ->
  let p := MkPieces (Some t) 0 h false b in
  (forall style, In style ["pep440"; "pep440-branch"; "pep440-pre"; "pep440-post"; "pep440-post-branch";
     "pep440-old"; "git-describe"] -> render (Some p) style = Ok t) /\
  render (Some p) "git-describe-long" = Ok (t ++ "-0-g" ++ h).
Proof.
  intros NT p. assert (E : tag_of p = Some t).
  { unfold tag_of. cbn. destruct (String.eqb_spec t ""); congruence. }
  split.
  - intros style I. cbn [In] in I.
    repeat (destruct I as [ <- | I ]; [
      cbn -[whole append render_pep440 render_pep440_branch render_pep440_pre render_pep440_post
    render_pep440_post_branch render_pep440_old render_git_describe render_git_describe_long];
      unfold render_pep440, render_pep440_branch, render_pep440_pre, render_pep440_post,
        render_pep440_post_branch, render_pep440_old, render_git_describe; rewrite E; cbn;
        now rewrite ?app_empty_r |]). destruct I.
  - cbn -[whole append render_pep440 render_pep440_branch render_pep440_pre render_pep440_post
    render_pep440_post_branch render_pep440_old render_git_describe render_git_describe_long]. unfold render_git_describe_long. rewrite E. cbn. now rewrite app_empty_r.
Qed.

Lemma text_moved t : t <> "" -> d <> 0%N \/ dirty = true ->
  let p := MkPieces (Some t) d h dirty b in
  let plus := if has_char "+" t then "." else "+" in
  let changed s := if dirty then s else "" in
  render (Some p) "pep440" = Ok (t ++ plus ++ whole d ++ ".g" ++ h ++ changed ".dirty") /\
  render (Some p) "pep440-branch" =
    Ok (t ++ away b ++ plus ++ whole d ++ ".g" ++ h ++ changed ".dirty") /\
  render (Some p) "pep440-post" = Ok (t ++ ".post" ++ whole d ++ changed ".dev0" ++ plus ++ "g" ++ h) /\
  render (Some p) "pep440-post-branch" =
    Ok (t ++ ".post" ++ whole d ++ away b ++ plus ++ "g" ++ h ++ changed ".dirty") /\
  render (Some p) "pep440-old" = Ok (t ++ ".post" ++ whole d ++ changed ".dev0") /\
  render (Some p) "git-describe" =
    Ok (t ++ (if N.eqb d 0 then "" else "-" ++ whole d ++ "-g" ++ h) ++ changed "-dirty") /\
  render (Some p) "git-describe-long" = Ok (t ++ "-" ++ whole d ++ "-g" ++ h ++ changed "-dirty").
Proof.
  intros NT M p plus changed. assert (E : tag_of p = Some t).
  { unfold tag_of. cbn. destruct (String.eqb_spec t ""); congruence. }
  assert (MV : moved p = true).
  { unfold moved. cbn. destruct M as [N|ST]; [|rewrite ST; apply orb_true_r].
    destruct (N.eqb_spec d 0); [congruence|reflexivity]. }
  cbn [render String.eqb]. cbn -[whole render_pep440 render_pep440_branch render_pep440_post
    render_pep440_post_branch render_pep440_old render_git_describe render_git_describe_long].
  unfold render_pep440, render_pep440_branch, render_pep440_post,
    render_pep440_post_branch, render_pep440_old, render_git_describe, render_git_describe_long.
  rewrite !E, !MV, !on_master_away. cbn [opt pc_distance pc_short pc_dirty pc_branch p].
  fold (changed ".dirty") (changed ".dev0") (changed "-dirty").
  unfold plus_or_dot. fold plus. unfold opt. rewrite !app_assoc_s.
  repeat (split; [reflexivity|]). split; [|reflexivity].
  destruct (d =? 0)%N; reflexivity.
Qed.

Lemma text_untagged tag : tag = None \/ tag = Some "" ->
  let p := MkPieces tag d h dirty b in
  let changed s := if dirty then s else "" in
  render (Some p) "pep440" = Ok ("0+untagged." ++ whole d ++ ".g" ++ h ++ changed ".dirty") /\
  render (Some p) "pep440-branch" =
    Ok ("0" ++ away b ++ "+untagged." ++ whole d ++ ".g" ++ h ++ changed ".dirty") /\
  render (Some p) "pep440-pre" = Ok ("0.post0.dev" ++ whole d) /\
  render (Some p) "pep440-post" = Ok ("0.post" ++ whole d ++ changed ".dev0" ++ "+g" ++ h) /\
  render (Some p) "pep440-post-branch" =
    Ok ("0.post" ++ whole d ++ away b ++ "+g" ++ h ++ changed ".dirty") /\
  render (Some p) "pep440-old" = Ok ("0.post" ++ whole d ++ changed ".dev0") /\
  render (Some p) "git-describe" = Ok (h ++ changed "-dirty") /\
  render (Some p) "git-describe-long" = Ok (h ++ changed "-dirty").
Proof.
  intros T p changed. assert (E : tag_of p = None) by (destruct T; subst tag; reflexivity).
  cbn -[whole append render_pep440 render_pep440_branch render_pep440_pre render_pep440_post
    render_pep440_post_branch render_pep440_old render_git_describe render_git_describe_long].
  unfold render_pep440, render_pep440_branch, render_pep440_pre, render_pep440_post,
    render_pep440_post_branch, render_pep440_old, render_git_describe, render_git_describe_long.
  rewrite !E, !on_master_away. repeat split.
Qed.
End Styles.

(** the style for releases before the next one *)
Lemma prefix_post a b : prefix post (a ++ post ++ b) = true -> a <> "" -> prefix post a = true.
Proof.
  unfold post. intros P N.
  destruct a as [|c1 [|c2 [|c3 [|c4 [|c5 a]]]]]; [congruence| ..]; cbn [prefix append] in P |- *;
    repeat match type of P with
           | (if ascii_dec ?u ?v then _ else _) = _ =>
               let e := fresh in destruct (ascii_dec u v) as [e|]; [try discriminate e|discriminate P]
           end.
  destruct a; reflexivity.
Qed.
Lemma index_post a b : index 0 post a = None -> index 0 post (a ++ post ++ b) = Some (String.length a).
Proof.
  induction a as [|c a IH]; intros E.
  - destruct b; reflexivity.
  - change (String c a ++ post ++ b) with (String c (a ++ post ++ b)).
    cbn [index] in E |- *. change (String c (a ++ post ++ b)) with (String c a ++ post ++ b).
    destruct (prefix post (String c a)) eqn:Q; [unfold post in *; discriminate E|].
    destruct (prefix post (String c a ++ post ++ b)) eqn:Q'.
    + rewrite (prefix_post _ _ Q') in Q; discriminate.
    + cbn [String.length]. destruct (index 0 post a) as [k|] eqn:Q2; [discriminate E|].
      rewrite IH by reflexivity. reflexivity.
Qed.
Lemma digits_post s : all_chars is_digit s = true -> index 0 post s = None.
Proof.
  induction s as [|c s IH]; [reflexivity|]. cbn [all_chars]. rewrite andb_true_iff. intros [C A].
  cbn [index]. rewrite (IH A).
  destruct (prefix post (String c s)) eqn:Q; [|reflexivity].
  unfold post in Q. cbn [prefix] in Q. destruct (ascii_dec "." c) as [<-|]; [discriminate C|discriminate Q].
Qed.
Lemma text_pre t d h dirty b : d <> 0%N ->
  (t <> "" -> index 0 ".post" t = None ->
   render (Some (MkPieces (Some t) d h dirty b)) "pep440-pre" = Ok (t ++ ".post0.dev" ++ whole d)) /\
  (index 0 ".post" t = None -> forall n,
   render (Some (MkPieces (Some (t ++ ".post" ++ whole n)) d h dirty b)) "pep440-pre" =
   Ok (t ++ ".post" ++ whole (n + 1) ++ ".dev" ++ whole d)).
Proof.
  intros D. fold post.
  split; [intros NT X|intros X n];
    cbn -[whole append render_pep440_pre post]; unfold render_pep440_pre, tag_of; cbn [pc_tag pc_distance].
  - destruct (String.eqb_spec t ""); [congruence|]. destruct (N.eqb_spec d 0); [congruence|].
    unfold split_post. rewrite X. reflexivity.
  - destruct (String.eqb_spec (t ++ post ++ whole n) "") as [E|_].
    { exfalso. destruct t; discriminate E. }
    destruct (N.eqb_spec d 0); [congruence|]. unfold split_post. rewrite (index_post _ _ X), sub_left.
    replace (substring (String.length t + 5) (String.length (t ++ post ++ whole n)) (t ++ post ++ whole n))
      with (whole n).
    + rewrite (digits_post _ (whole_digits n)), whole_digits, whole_back.
      pose proof (whole_some n) as W. destruct (String.eqb_spec (whole n) "") as [E|_]; [rewrite E in W; discriminate W|].
      reflexivity.
    + rewrite <- app_assoc_s.
      assert (Q : forall a b m, (String.length b <= m)%nat -> substring (String.length a) m (a ++ b) = b).
      { clear. induction a as [|c a IH]; intros b m L; cbn [String.length append substring]; [|apply IH, L].
        revert m L. induction b as [|c b IHb]; intros [|m] L; cbn in *; try reflexivity; try lia.
        f_equal. apply IHb. lia. }
      rewrite app_length. change 5%nat with (String.length post) at 1. rewrite <- app_length.
      symmetry. apply Q. lia.
Qed.

Lemma render_unknown o style :
  (render o style = Err ValueError <->
   exists p, o = Some p /\
     (~ In style [""; "default"; "pep440"; "pep440-branch"; "pep440-pre"; "pep440-post"; "pep440-post-branch";
                  "pep440-old"; "git-describe"; "git-describe-long"] \/
      style = "pep440-pre" /\ render_pep440_pre p = Err ValueError)).
Proof.
  destruct o as [p|]; cbn [render]; [|split; [discriminate|intros (p & E & _); discriminate E]].
  split.
  - intros E. exists p. split; [reflexivity|].
    repeat match type of E with
    | (if ?c then _ else _) = _ => destruct c eqn:?; [try discriminate E|]
    end.
    + right. split; [now apply String.eqb_eq|exact E].
    + left. repeat match goal with
      | Q : _ || _ = false |- _ => apply orb_false_iff in Q; destruct Q
      | Q : String.eqb _ _ = false |- _ => apply String.eqb_neq in Q
      end. cbn [In]. intuition congruence.
  - intros (q & [= <-] & [N|[-> E]]); [|exact E]. cbn [In] in N.
    repeat match goal with
    | |- context [String.eqb style ?x] => destruct (String.eqb_spec style x); [exfalso; apply N; subst; tauto|]
    end. reflexivity.
Qed.
