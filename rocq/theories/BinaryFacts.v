(** * BinaryFacts: results of an analysis in binary64 (pyslope.py:1232-1259, 2029-2065).
    For every run of the program in binary64 arithmetic, not only at the reals. *)
From Coq Require Import ZArith List Bool String Lia Permutation Sorted SpecFloat.
From Verif Require Import Num Py Validation Utilities Objects Slope Planes Analysis
     Dynamic Api ListFacts MonadFacts SearchFacts FloatNum AnyFacts.
Import ListNotations.

(** ** The circles kept, in every arithmetic *)
Section Kept.
  Context {T : Type} {NT : Num T}.
  Definition passesb (m : option T) (f : T) : bool :=
    match m with None => true | Some x => neqb x (nz 0) || nleb f x end.
  Lemma tidy_member m (l : list (plane T)) p : In p (tidy m l) <->
    In p l /\ exists f, p_fos p = Some (Some f) /\ passesb m f = true.
  Proof.
    assert (B : In p (sort_by fos_val (filter has_fos l)) <->
                In p l /\ exists f, p_fos p = Some (Some f)).
    { unfold sort_by. rewrite sort_In, filter_In. unfold has_fos.
      destruct (p_fos p) as [[f|]|]; split; intros (H1 & H2); split; auto; eauto;
        try discriminate; destruct H2 as (? & ?); discriminate. }
    unfold tidy. destruct m as [x|]; cbn [passesb].
    2:{ rewrite B. split; [intros (H & f & E)|intros (H & f & E & _)]; eauto 6. }
    destruct (neqb x (nz 0)); cbn [orb].
    - rewrite B. split; [intros (H & f & E)|intros (H & f & E & _)]; eauto 6.
    - rewrite filter_In, B. unfold fos_val. split.
      + intros ((H & f & E) & L). rewrite E in L. split; auto. exists f. auto.
      + intros (H & f & E & Q). split; eauto. now rewrite E.
  Qed.
  Lemma tidy_length m (l : list (plane T)) : List.length (tidy m l) = List.length (filter
    (fun p => match p_fos p with Some (Some f) => passesb m f | _ => false end) l).
  Proof.
    assert (Q : forall g : plane T -> bool,
      List.length (filter g (sort_by fos_val (filter has_fos l))) =
      List.length (filter g (filter has_fos l))).
    { intros g. apply Permutation_length. generalize (sort_by_perm fos_val (filter has_fos l)).
      generalize (sort_by fos_val (filter has_fos l)). intros L P. symmetry in P.
      induction P; cbn [filter]; auto.
      - destruct (g x); auto.
      - destruct (g x), (g y); auto. apply perm_swap.
      - eapply Permutation_trans; eauto. }
    assert (A : List.length (sort_by fos_val (filter has_fos l)) =
                List.length (filter (fun p => match p_fos p with Some (Some _) => true | _ => false end) l)).
    { symmetry. apply (Permutation_length (sort_by_perm fos_val (filter has_fos l))). }
    unfold tidy. destruct m as [x|]; cbn [passesb]; [|exact A].
    destruct (neqb x (nz 0)); cbn [orb]; [exact A|]. rewrite Q.
    clear. induction l as [|p l IH]; cbn [filter]; auto.
    unfold has_fos at 1. destruct (p_fos p) as [[f|]|] eqn:Ep; auto.
    cbn [filter]. replace (fos_val p) with f by (unfold fos_val; now rewrite Ep).
    destruct (nleb f x); cbn [List.length]; auto.
  Qed.
  (** the records are those of the circles with a factor that pass the filter *)
  Lemma search_any m (s s' : st T) : analyse_slope m s = (Ok tt, s') ->
    exists v cs, view_of s = Ok v /\ analysed s v cs /\
      (forall c, In c cs -> exists f, factor v c = Ok f) /\
      (forall p, In p (s_search (snd s')) <->
         exists c f, In c cs /\ factor v c = Ok (Some f) /\ passesb m f = true /\ p = set_fos (Some f) c) /\
      List.length (s_search (snd s')) =
        List.length (filter (fun c => match factor v c with Ok (Some f) => passesb m f | _ => false end) cs) /\
      exists done, s_search (snd s') = tidy m done.
  Proof.
    intros E. destruct (analyse_ok m s s' E) as (v & cs & done & Ev & Ha & El & ->).
    apply fos_loop_ok in El. exists v, cs. split; auto. split; auto.
    assert (In2 : forall c, In c cs -> exists f, factor v c = Ok f /\ In (set_fos f c) done).
    { clear - El. induction El as [|c d cs done (f & E & ->) F IH]; intros x [].
      - subst. exists f. split; auto. now left.
      - destruct (IH x) as (g & G1 & G2); auto. exists g. split; auto. now right. }
    assert (In1 : forall d, In d done -> exists c f, In c cs /\ factor v c = Ok f /\ d = set_fos f c).
    { clear - El. induction El as [|c d cs done (f & E & ->) F IH]; intros x [].
      - subst. exists c, f. split; [now left|auto].
      - destruct (IH x) as (c' & g & G1 & G2 & G3); auto. exists c', g. split; [now right|auto]. }
    split; [intros c Hc; destruct (In2 c Hc) as (f & Hf & _); eauto|].
    assert (SS : forall A (b : bool) (a a' : slope T), s_search (set_s_search A (if b then a else a')) = A)
      by (intros; destruct b; reflexivity).
    cbn [snd]. rewrite SS. split; [|split].
    - intros p. rewrite tidy_member. split.
      + intros (H & f & Ef & Hp). destruct (In1 p H) as (c & g & Hc & Hg & ->).
        cbn in Ef. injection Ef as ->. exists c, f. auto.
      + intros (c & f & Hc & Hf & Hp & ->). destruct (In2 c Hc) as (g & Hg & Hi).
        rewrite Hg in Hf. injection Hf as ->. split; auto. exists f. auto.
    - rewrite tidy_length. clear - El.
      induction El as [|c d cs done (f & E & ->) F IH]; cbn [filter]; auto.
      cbn [p_fos set_fos]. rewrite E. destruct f as [f|]; auto.
      destruct (passesb m f); cbn [List.length]; auto.
    - eauto.
  Qed.
  Lemma kept_any m (s s' : st T) : analyse_slope m s = (Ok tt, s') ->
    exists v cs, view_of s = Ok v /\ analysed s v cs /\
      (forall c, In c cs -> exists f, factor v c = Ok f) /\
      (forall p, In p (s_search (snd s')) <->
         exists c f, In c cs /\ factor v c = Ok (Some f) /\
           match m with None => True | Some x => neqb x (nz 0) = true \/ nleb f x = true end /\
           p = set_fos (Some f) c) /\
      List.length (s_search (snd s')) =
        List.length (filter (fun c => match factor v c with
          | Ok (Some f) => match m with None => true | Some x => neqb x (nz 0) || nleb f x end
          | _ => false end) cs).
  Proof.
    intros E. destruct (search_any m s s' E) as (v & cs & Ev & Ha & Hf & Hin & HL & _).
    exists v, cs. do 3 (split; [assumption|]). split; [|exact HL].
    intros p. rewrite Hin. unfold passesb.
    split; intros (c & f & A & B & C & D); exists c, f; (do 2 (split; [assumption|])); (split; [|assumption]);
      destruct m as [x|]; auto; [apply orb_true_iff in C | apply orb_true_iff]; exact C.
  Qed.
End Kept.

(** ** The order of binary64 numbers other than NaN *)
Definition numeric (x : float) : Prop := x <> S754_nan.
Definition rank (x : float) : Z * Z * Z :=
  match x with
  | S754_zero _ | S754_nan => (0, 0, 0)%Z
  | S754_infinity s => (if s then -2 else 2, 0, 0)%Z
  | S754_finite true m e => (-1, - e, Zneg m)%Z
  | S754_finite false m e => (1, e, Zpos m)%Z
  end.
Definition lower (a b : Z * Z * Z) : Prop :=
  (fst (fst a) < fst (fst b) \/
   (fst (fst a) = fst (fst b) /\
    (snd (fst a) < snd (fst b) \/ (snd (fst a) = snd (fst b) /\ snd a < snd b))))%Z.
Lemma ltb_rank x y : numeric x -> numeric y -> (SFltb x y = true <-> lower (rank x) (rank y)).
Proof.
  unfold numeric, SFltb, lower. intros NX NY.
  destruct x as [sx|[]| |[] mx ex]; try congruence; destruct y as [sy|[]| |[] my ey]; try congruence;
    cbn [SFcompare rank fst snd]; try (split; [try discriminate; intros _; lia | try reflexivity; lia]).
  - destruct (Z.compare_spec ex ey); try (split; [try discriminate; intros _; lia | try reflexivity; lia]).
    change (Pcompare mx my Eq) with (mx ?= my)%positive.
    destruct (Pos.compare_spec mx my); cbn [CompOpp];
      (split; [try discriminate; intros _; lia | try reflexivity; lia]).
  - destruct (Z.compare_spec ex ey); try (split; [try discriminate; intros _; lia | try reflexivity; lia]).
    change (Pcompare mx my Eq) with (mx ?= my)%positive.
    destruct (Pos.compare_spec mx my);
      (split; [try discriminate; intros _; lia | try reflexivity; lia]).
Qed.
Lemma leb_ltb x y : numeric x -> numeric y -> SFleb x y = negb (SFltb y x).
Proof.
  unfold numeric, SFltb, SFleb. intros NX NY.
  destruct x as [sx|[]| |[] mx ex]; try congruence; destruct y as [sy|[]| |[] my ey]; try congruence;
    cbn [SFcompare]; try reflexivity; rewrite (Z.compare_antisym ex ey);
    destruct (ex ?= ey)%Z; try reflexivity;
    change (Pcompare mx my Eq) with (mx ?= my)%positive;
    change (Pcompare my mx Eq) with (my ?= mx)%positive; rewrite (Pos.compare_antisym mx my);
    destruct (mx ?= my)%positive; reflexivity.
Qed.
Definition f_le (x y : float) : Prop := SFleb x y = true.
Lemma f_le_lower x y : numeric x -> numeric y -> (f_le x y <-> ~ lower (rank y) (rank x)).
Proof.
  intros NX NY. unfold f_le. rewrite leb_ltb by auto. rewrite negb_true_iff.
  pose proof (ltb_rank y x NY NX) as Q. destruct (SFltb y x); intuition congruence.
Qed.
Lemma f_le_trans x y z : numeric x -> numeric y -> numeric z -> f_le x y -> f_le y z -> f_le x z.
Proof. intros A B C. rewrite !f_le_lower by auto. unfold lower. lia. Qed.
Lemma f_le_total x y : numeric x -> numeric y -> f_le x y \/ f_le y x.
Proof. intros A B. rewrite !f_le_lower by auto. unfold lower. lia. Qed.
Lemma f_le_refl x : numeric x -> f_le x x.
Proof. intros A. rewrite f_le_lower by auto. unfold lower. lia. Qed.
Lemma f_le_numeric x y : f_le x y -> numeric x /\ numeric y.
Proof. unfold f_le, numeric. destruct x as [| | |[]], y as [| | |[]]; cbn; split; congruence. Qed.

(** ** Sorting *)
Section Sorting.
  Context {A : Type} (key : A -> float).
  Definition below (a b : A) : Prop := f_le (key a) (key b).
  Lemma insert_below a l : numeric (key a) -> (forall b, In b l -> numeric (key b)) ->
    StronglySorted below l ->
    StronglySorted below (insert (fun a b => nltb (key a) (key b)) a l).
  Proof.
    intros NA. induction l as [|b l IH]; intros N S; cbn [insert].
    - constructor; [constructor | constructor].
    - inversion S as [|? ? S1 F1]; subst.
      assert (NB : numeric (key b)) by (apply N; now left).
      assert (NL : forall x, In x l -> numeric (key x)) by (intros x I; apply N; now right).
      change (nltb (key b) (key a)) with (SFltb (key b) (key a)).
      destruct (SFltb (key b) (key a)) eqn:E.
      + constructor; [now apply IH|]. apply Forall_forall. intros x I.
        apply (Permutation_in x (Permutation_sym (insert_perm _ a l))) in I.
        destruct I as [<-|I]; [|now apply (proj1 (Forall_forall _ _) F1)].
        unfold below. apply f_le_lower; auto. apply ltb_rank in E; auto. unfold lower in *. lia.
      + assert (AB : below a b).
        { unfold below, f_le. rewrite leb_ltb, E by auto. reflexivity. }
        constructor; [exact S|]. constructor; [exact AB|].
        apply Forall_forall. intros x I. rewrite Forall_forall in F1.
        eapply f_le_trans; [exact NA | exact NB | now apply NL | exact AB | now apply F1].
  Qed.
  Lemma sort_below l : (forall b, In b l -> numeric (key b)) ->
    StronglySorted below (sort_by key l).
  Proof.
    unfold sort_by. induction l as [|a l IH]; intros N; cbn [sort]; [constructor|].
    apply insert_below.
    - apply N. now left.
    - intros b I. apply sort_In in I. apply N. now right.
    - apply IH. intros b I. apply N. now right.
  Qed.
End Sorting.

(** ** The results *)
Section Results.
  Notation stF := (st float).
  Lemma tidy_below m (l : list (plane float)) :
    (forall p f, In p l -> p_fos p = Some (Some f) -> numeric f) ->
    StronglySorted (below fos_val) (tidy m l).
  Proof.
    intros N. assert (S : StronglySorted (below fos_val) (sort_by fos_val (filter has_fos l))).
    { apply sort_below. intros p I. apply filter_In in I as (I & Q). unfold has_fos, fos_val in *.
      destruct (p_fos p) as [[f|]|] eqn:E; try discriminate. eapply N; eauto. }
    unfold tidy. cbv zeta. destruct m as [x|]; auto. destruct (neqb x _); auto.
    induction S as [|a l' S IH F]; cbn [filter]; [constructor|].
    destruct (nleb _ x); auto. constructor; auto.
    apply Forall_forall. intros y Hy. apply filter_In in Hy as (Hy & _).
    now apply (proj1 (Forall_forall _ _) F).
  Qed.
  Lemma fos_loop_numeric v (l : list (plane float)) done :
    (forall c f, In c l -> factor v c = Ok (Some f) -> numeric f) ->
    fos_loop v l = (Ok tt, done) ->
    forall p f, In p done -> p_fos p = Some (Some f) -> numeric f.
  Proof.
    intros N E p f I Q. apply fos_loop_ok in E.
    induction E as [|c d cs done (g & E & ->) F IH]; [destruct I|]. destruct I as [<-|I].
    - cbn in Q. injection Q as ->. eapply N; [now left | exact E].
    - apply IH; auto. intros c' f' I'. apply N. now right.
  Qed.
  (** The reported factor is the smallest one. *)
  Lemma min_binary m (s s' : stF) : analyse_slope m s = (Ok tt, s') ->
    exists v cs, view_of s = Ok v /\ analysed s v cs /\
      ((forall c f, In c cs -> factor v c = Ok (Some f) -> numeric f) ->
       StronglySorted (fun p q => forall f g, p_fos p = Some (Some f) -> p_fos q = Some (Some g) -> f_le f g)
                      (s_search (snd s')) /\
       ((get_min_FOS (snd s') = Err IndexError /\
         forall c f, In c cs -> factor v c = Ok (Some f) -> passesb m f = false) \/
        (exists c f, get_min_FOS (snd s') = Ok (Some f) /\ In c cs /\ factor v c = Ok (Some f) /\
           get_min_FOS_circle (snd s') = Ok (circle_of c) /\
           get_min_FOS_end_points (snd s') = Ok (p_l c, p_r c) /\
           forall c' f', In c' cs -> factor v c' = Ok (Some f') -> f_le f f'))).
  Proof.
    intros E. destruct (search_any m s s' E) as (v & cs & Ev & Ha & Hf & Hin & _ & _).
    exists v, cs. split; auto. split; auto. intros N.
    assert (Hs : StronglySorted (fun p q => forall f g, p_fos p = Some (Some f) ->
                   p_fos q = Some (Some g) -> f_le f g) (s_search (snd s'))).
    { destruct (analyse_ok m s s' E) as (v0 & cs0 & done & Ev0 & Ha0 & El & ->).
      assert (v0 = v) by congruence. subst v0.
      assert (cs0 = cs).
      { destruct Ha as [(P & Q)|(P & Q)], Ha0 as [(P0 & Q0)|(P0 & Q0)]; congruence. }
      subst cs0.
      assert (SS : forall A (b : bool) (a a' : slope float), s_search (set_s_search A (if b then a else a')) = A)
        by (intros; destruct b; reflexivity).
      cbn [snd]. rewrite SS.
      pose proof (tidy_below m done (fos_loop_numeric v cs done N El)) as S.
      clear - S. induction S as [|a l S IH F]; constructor; auto.
      eapply Forall_impl; [|exact F]. intros b Hb f g Ea Eb.
      unfold below, fos_val in Hb. now rewrite Ea, Eb in Hb. }
    split; [exact Hs|]. unfold get_min_FOS, get_min_FOS_circle, get_min_FOS_end_points.
    destruct (s_search (snd s')) as [|p ps] eqn:Es.
    - left. split; auto. intros c f Hc Hcf. destruct (passesb m f) eqn:P; auto. exfalso.
      apply (Hin (set_fos (Some f) c)). exists c, f. auto.
    - right. destruct (proj1 (Hin p) (or_introl eq_refl)) as (c & f & Hc & Hcf & Hp & ->).
      exists c, f. cbn. do 5 (split; auto). intros c' f' Hc' Hf'.
      pose proof (N c f Hc Hcf) as NF. pose proof (N c' f' Hc' Hf') as NF'.
      assert (Pm : passesb m f' = true -> f_le f f').
      { intros Q. assert (I' : In (set_fos (Some f') c') (set_fos (Some f) c :: ps)).
        { apply Hin. exists c', f'. auto. }
        inversion Hs as [|? ? S1 F1]; subst. destruct I' as [I'|I'].
        - pose proof (f_equal (@p_fos float) I') as Q'. cbn in Q'. injection Q' as ->.
          now apply f_le_refl.
        - rewrite Forall_forall in F1. apply (F1 _ I' f f'); reflexivity. }
      destruct m as [x|]; cbn [passesb] in *; auto.
      destruct (neqb x (nz 0)); cbn [orb] in *; auto.
      change (nleb f x) with (SFleb f x) in Hp. change (nleb f' x) with (SFleb f' x) in Pm.
      destruct (SFleb f' x) eqn:Q; auto. destruct (f_le_numeric f x Hp) as (_ & NX).
      destruct (f_le_total f' x NF' NX) as [Q'|Q']; [unfold f_le in Q'; congruence|].
      eapply f_le_trans; [exact NF | exact NX | exact NF' | exact Hp | exact Q'].
  Qed.
End Results.

Lemma limits_binary {EN : Env} (s : st float) : reachable s ->
  let l := s_limits (snd s) in
  numeric (lim_left l) -> numeric (lim_left_r l) -> numeric (lim_right_l l) -> numeric (lim_right l) ->
  SFltb (lim_left l) (lim_left_r l) = true /\ SFltb (lim_right_l l) (lim_right l) = true.
Proof.
  intros Q l A B C D. destruct (proj1 (reachable_lawful s Q)) as (E1 & E2). fold l in E1, E2.
  change (SFleb (lim_left_r l) (lim_left l) = false) in E1.
  change (SFleb (lim_right l) (lim_right_l l) = false) in E2.
  rewrite leb_ltb in E1, E2 by auto. now apply negb_false_iff in E1, E2.
Qed.
