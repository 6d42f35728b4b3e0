(** * BrowserFacts: the rows of the page, the PDF link and the colours of the circles. *)
From Coq Require Import ZArith Reals Lra Lia List Bool String.
From Verif Require Import Num Py Objects RealNum RealFacts Browser PlotFacts.
Import ListNotations.

(** ** Rows *)
(** What the server makes of the rows: for every number below TOTAL_FORMS the
    position on the page of the row with that number, if there is one. *)
Fixpoint position (i : nat) (rows : list nat) : option nat :=
  match rows with
  | [] => None
  | j :: rows' => if Nat.eqb j i then Some 0%nat else option_map S (position i rows')
  end.
Definition server_rows (f : formset) : list (option nat) :=
  map (fun i => position i (fs_rows f)) (seq 0 (fs_total f)).
(** every row of the page, in the order of the page *)
Definition faithful (f : formset) : Prop :=
  server_rows f = map Some (seq 0 (List.length (fs_rows f))).

(** [n] rows in order, with the counters that go with them *)
Definition tidy_rows (n : nat) : formset := MkFormset (seq 0 n) (n - 1) n.

Lemma position_seq n : forall a i, (a <= i < a + n)%nat -> position i (seq a n) = Some (i - a)%nat.
Proof.
  induction n as [|n IH]; intros a i L; [lia|]. cbn [seq position].
  destruct (Nat.eqb_spec a i) as [ -> | N]; [f_equal; lia|].
  rewrite IH by lia. cbn [option_map]. f_equal. lia.
Qed.
Lemma tidy_faithful n : faithful (tidy_rows n).
Proof.
  unfold faithful, server_rows, tidy_rows. cbn [fs_rows fs_total]. rewrite seq_length.
  apply map_ext_in. intros i I. apply in_seq in I. rewrite position_seq by lia. f_equal. lia.
Qed.

Lemma renumber_small n : forall a k, (a + n <= 10)%nat -> renumber k (seq a n) = seq k n.
Proof.
  induction n as [|n IH]; intros a k L; [reflexivity|]. cbn [seq renumber].
  unfold one_digit. rewrite (proj2 (Nat.ltb_lt a 10)) by lia. now rewrite IH by lia.
Qed.
Lemma renumber_same n : forall k, renumber k (seq k n) = seq k n.
Proof.
  induction n as [|n IH]; intros k; [reflexivity|]. cbn [seq renumber].
  rewrite IH. now destruct (one_digit k).
Qed.
Lemma renumber_app l1 : forall l2 k,
  renumber k (l1 ++ l2) = renumber k l1 ++ renumber (k + List.length l1) l2.
Proof.
  induction l1 as [|a l1 IH]; intros l2 k; cbn [app renumber List.length].
  - f_equal. lia.
  - rewrite IH. do 3 f_equal. lia.
Qed.
Lemma renumber_length l : forall k, List.length (renumber k l) = List.length l.
Proof. induction l as [|a l IH]; intros k; cbn [renumber List.length]; auto. Qed.
Lemma drop_seq k : forall n a, (k < n)%nat ->
  drop_nth k (seq a n) = seq a k ++ seq (a + S k) (n - S k).
Proof.
  induction k as [|k IH]; intros n a L; destruct n as [|n]; try lia; cbn [seq drop_nth app].
  - replace (S n - 1)%nat with n by lia. now replace (a + 1)%nat with (S a) by lia.
  - rewrite IH by lia. do 2 f_equal. replace (S a + S k)%nat with (a + S (S k))%nat by lia.
    now replace (S n - S (S k))%nat with (n - S k)%nat by lia.
Qed.
Lemma drop_length k : forall l, (k < List.length l)%nat ->
  List.length (drop_nth k l) = (List.length l - 1)%nat.
Proof.
  induction k as [|k IH]; intros [|a l] L; cbn [drop_nth List.length] in *; try lia.
  rewrite IH by lia. lia.
Qed.

Lemma add_tidy n : (1 <= n)%nat -> add_row (tidy_rows n) = tidy_rows (S n).
Proof.
  intros L. destruct n as [|n]; [lia|]. unfold tidy_rows, add_row.
  cbn [fs_rows fs_count seq one_digit Nat.ltb Nat.leb].
  replace (S (S n - 1)) with (S n) by lia.
  replace (S (S n) - 1)%nat with (S n) by lia.
  f_equal. symmetry. exact (seq_S (S n) 0).
Qed.
Lemma delete_tidy n k : (k < n)%nat -> (n <= 10 \/ S k = n)%nat ->
  delete_row k (tidy_rows n) = tidy_rows (Nat.max 1 (n - 1)).
Proof.
  intros L C. unfold tidy_rows, delete_row. cbn [fs_rows fs_count fs_total].
  destruct n as [|[|n]]; [lia| reflexivity |].
  replace (S (S n) - 1)%nat with (S n) by lia.
  replace (Nat.max 1 (S n)) with (S n) by lia. replace (S n - 1)%nat with n by lia.
  f_equal. rewrite drop_seq by lia. rewrite renumber_app, seq_length, renumber_same.
  cbn [plus]. destruct C as [C | C].
  - rewrite renumber_small by lia. rewrite <- seq_app. f_equal. lia.
  - assert (k = S n) as -> by lia. rewrite Nat.sub_diag. apply app_nil_r.
Qed.
(** With more than ten rows the server loses the last one as soon as another one is
    deleted. *)
Lemma delete_loses n k : (10 < n)%nat -> (S k < n)%nat ->
  let f := delete_row k (tidy_rows n) in
  fs_total f = (n - 1)%nat /\ List.length (fs_rows f) = (n - 1)%nat /\
  ~ In (Some (n - 2)%nat) (server_rows f) /\ ~ faithful f.
Proof.
  intros L K f. destruct n as [|[|n]]; try lia.
  assert (E : f = MkFormset (renumber 0 (drop_nth k (seq 0 (S (S n))))) n (S n)).
  { unfold f, delete_row, tidy_rows. cbn [fs_rows fs_count fs_total].
    now replace (S (S n) - 1)%nat with (S n) by lia. }
  rewrite drop_seq, renumber_app, seq_length, renumber_same in E by lia. cbn [plus] in E.
  (* the last row keeps the number n + 1 *)
  assert (Q : fs_rows f = (seq 0 k ++ renumber k (seq (S k) (n - k))) ++ [S n]).
  { rewrite E. cbn [fs_rows]. rewrite <- app_assoc. f_equal.
    replace (S (S n) - S k)%nat with (S (n - k)) by lia.
    rewrite seq_S, renumber_app. f_equal. cbn [renumber].
    replace (S k + (n - k))%nat with (S n) by lia.
    unfold one_digit. now rewrite (proj2 (Nat.ltb_ge (S n) 10)) by lia. }
  assert (P : List.length (seq 0 k ++ renumber k (seq (S k) (n - k))) = n).
  { rewrite app_length, renumber_length, !seq_length. lia. }
  assert (N : ~ In (Some n) (server_rows f)).
  { unfold server_rows. rewrite in_map_iff. intros (i & Ei & I).
    apply in_seq in I. rewrite E in I; cbn [fs_total] in I.
    assert (Z : position i (fs_rows f) = Some n -> nth_error (fs_rows f) n = Some i).
    { clear. generalize (fs_rows f) as l, n as m. induction l as [|a l IH]; intros m H;
        cbn [position] in H; [discriminate|].
      destruct (Nat.eqb_spec a i) as [ -> | D].
      - injection H as <-. reflexivity.
      - destruct (position i l) as [q|] eqn:Eq; [|discriminate]. cbn in H. injection H as <-.
        cbn [nth_error]. now apply IH. }
    specialize (Z Ei). rewrite Q, nth_error_app2, P, Nat.sub_diag in Z by lia.
    injection Z as Z. lia. }
  replace (S (S n) - 1)%nat with (S n) by lia. replace (S (S n) - 2)%nat with n by lia.
  split; [rewrite E; reflexivity|]. split.
  - rewrite Q, app_length, P. cbn [List.length]. lia.
  - split; auto. intros F. apply N. rewrite F, Q, app_length, P. apply in_map, in_seq.
    cbn [List.length]. lia.
Qed.

(** A history of clicks on delete buttons that exist, with at most ten rows
    whenever another row than the last one is deleted; the second argument is
    the number of rows. *)
Inductive small_clicks : nat -> list click -> nat -> Prop :=
| sm_nil n : small_clicks n [] n
| sm_add n l m : small_clicks (S n) l m -> small_clicks n (AddRow :: l) m
| sm_del n k l m : (k < n)%nat -> (n <= 10 \/ S k = n)%nat ->
    small_clicks (Nat.max 1 (n - 1)) l m -> small_clicks n (DeleteRow k :: l) m.
Lemma small_tidy n l m : small_clicks n l m -> (1 <= n)%nat ->
  clicks (fresh_rows n) l = tidy_rows m /\ (1 <= m)%nat.
Proof.
  change fresh_rows with tidy_rows.
  induction 1 as [n | n l m D IH | n k l m K C D IH]; intros L; auto.
  - unfold clicks in *. cbn [fold_left clicked]. rewrite add_tidy by lia. apply IH. lia.
  - unfold clicks in *. cbn [fold_left clicked]. rewrite delete_tidy by assumption. apply IH. lia.
Qed.
Lemma small_faithful n l m : small_clicks n l m -> (1 <= n)%nat ->
  let f := clicks (fresh_rows n) l in
  faithful f /\ List.length (fs_rows f) = m /\ fs_total f = m /\ (1 <= m)%nat.
Proof.
  intros S L. destruct (small_tidy n l m S L) as [E P]. cbn zeta. rewrite E.
  split; [apply tidy_faithful|]. cbn [tidy_rows fs_rows fs_total]. rewrite seq_length. auto.
Qed.

(** ** The link to the report *)
Definition link_after (l : list page_event) (href : option string) : option string :=
  fold_left pdf_link l href.
Lemma link_last l e href :
  link_after (l ++ [e]) href = match e with EditInput => None
                                          | EditDisplay d => Some ("pdf/" ++ d)%string end.
Proof. unfold link_after. rewrite fold_left_app. now destruct e. Qed.
(** The report can be asked for although an input was changed. *)
Lemma link_again : exists l d, In EditInput l /\
  link_after (l ++ [EditDisplay d]) (Some "pdf/2.0"%string) = Some ("pdf/" ++ d)%string.
Proof. exists [EditInput], "1.5"%string. split; [now left | reflexivity]. Qed.

(** ** Colours *)
Local Open Scope R_scope.
(** halfway between two tenths *)
Definition halfway (fos : R) : Prop := exists k : Z, fos * 10 = IZR k + / 2.
Lemma js_round_spec x : IZR (js_round x) <= x + / 2 < IZR (js_round x) + 1.
Proof.
  unfold js_round. destruct (base_Int_part (x + / 2)). lra.
Qed.
Lemma js_near x : (forall k : Z, x <> IZR k + / 2) -> js_round x = Rnear x.
Proof.
  intros N. pose proof (js_round_spec x) as J. set (j := js_round x) in *.
  unfold Rnear. destruct (base_Int_part x) as [A B].
  set (f := Int_part x) in *. specialize (N f).
  assert (C : IZR f <= x < IZR f + 1) by lra.
  destruct (Rlt_dec (x - IZR f) (/ 2)) as [L | L].
  - assert (Q : (j < f + 1 /\ f < j + 1)%Z)
      by (split; apply lt_IZR; rewrite ?plus_IZR; lra). lia.
  - destruct (Rlt_dec (/ 2) (x - IZR f)) as [L' | L']; [|lra].
    assert (Q : (j < f + 2 /\ f < j)%Z)
      by (split; apply lt_IZR; rewrite ?plus_IZR; lra). lia.
Qed.
Lemma js_tie k : js_round (IZR k + / 2) = (k + 1)%Z.
Proof.
  pose proof (js_round_spec (IZR k + / 2)). set (j := js_round _) in *.
  assert (Q : (j < k + 2 /\ k < j)%Z)
    by (split; apply lt_IZR; rewrite ?plus_IZR; lra). lia.
Qed.
Lemma near_tie k : Rnear (IZR k + / 2) = if Z.even k then k else (k + 1)%Z.
Proof.
  unfold Rnear. destruct (base_Int_part (IZR k + / 2)) as [A B].
  assert (E : Int_part (IZR k + / 2) = k).
  { set (j := Int_part _) in *.
    assert (Q : (j < k + 1 /\ k < j + 1)%Z)
      by (split; apply lt_IZR; rewrite ?plus_IZR; lra). lia. }
  rewrite E. destruct (Rlt_dec _ _); [lra|]. destruct (Rlt_dec _ _); [lra|]. reflexivity.
Qed.
Lemma colour_keys fos :
  (~ halfway fos -> js_color_key fos = fos_key fos) /\
  (forall k : Z, fos * 10 = IZR k + / 2 ->
     js_color_key fos = Z.min (k + 1) 50 /\
     fos_key fos = Z.min (if Z.even k then k else k + 1) 50).
Proof.
  unfold js_color_key, fos_key. split.
  - intros N. rewrite js_near; auto. intros k E. apply N. now exists k.
  - intros k E. rewrite E, js_tie, near_tie. auto.
Qed.
