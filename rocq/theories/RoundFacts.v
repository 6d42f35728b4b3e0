(** * RoundFacts: what rounding cannot do.

    Whatever the arithmetic, an analysis that stops does so with one of a few
    exceptions and leaves the model as it was; and a line load is carried by
    exactly one slice as long as neighbouring slices compute the same border. *)
From Coq Require Import ZArith List Bool Lia String.
From Coq Require Import Floats.SpecFloat.
From Verif Require Import Num Py Validation Utilities Objects Slope Planes Analysis
     Dynamic Api ListFacts MonadFacts KeepFacts FloatNum BinaryFacts.
Import ListNotations.

(** ** Exceptions of an analysis *)
Definition expected (e : exn) : Prop :=
  e = TypeError \/ e = ValueError \/ e = ZeroDivisionError \/ e = NanProduced.

Section Kinds.
  Context {T : Type} {NT : Num T}.
  Definition stops {A} (x : res A) : Prop := forall e, x = Err e -> expected e.

  Lemma stops_ok {A} (a : A) : stops (Ok a).
  Proof. intros e; discriminate. Qed.
  Lemma stops_bind {A B} (x : res A) (f : A -> res B) :
    stops x -> (forall a, stops (f a)) -> stops (rbind x f).
  Proof. destruct x as [a|e]; cbn [rbind]; intros X F; auto. intros e' E. apply X. congruence. Qed.
  Lemma stops_type {A} : stops (@Err A TypeError).
  Proof. intros e [= <-]. red. auto. Qed.
  Lemma stops_nan {A} : stops (@Err A NanProduced).
  Proof. intros e [= <-]. red. auto. Qed.
  Lemma stops_div a b : stops (pydiv a b).
  Proof. unfold pydiv. destruct (neqb _ _); [|apply stops_ok]. intros e [= <-]. red. auto. Qed.
  Lemma stops_sqrt a : stops (pysqrt a).
  Proof. unfold pysqrt. destruct (nltb _ _); [|apply stops_ok]. intros e [= <-]. red. auto. Qed.
  Lemma stops_positive a : stops (assert_strictly_positive_number (PFloat a)).
  Proof.
    unfold assert_strictly_positive_number. cbn [isinstance_num negb as_num rbind].
    destruct (nltb _ _); [|apply stops_ok]. intros e [= <-]. red. auto.
  Qed.
  Lemma stops_mapM {A B} (f : A -> res B) l : (forall a, stops (f a)) -> stops (rmapM f l).
  Proof.
    intros F. induction l as [|a l IH]; cbn [rmapM]; [apply stops_ok|].
    apply stops_bind; auto. intros b. apply stops_bind; auto. intros bs. apply stops_ok.
  Qed.
  Ltac stop1 := first
    [ apply stops_bind; [|intros ?] | apply stops_ok | apply stops_type | apply stops_nan
    | apply stops_div | apply stops_sqrt | apply stops_positive
    | apply stops_mapM; intros ?
    | match goal with
      | |- stops (if ?b then _ else _) => destruct b
      | |- stops (match ?x with _ => _ end) => destruct x
      end ].
  Ltac stop := repeat (cbv zeta; stop1).

  Lemma stops_line a b cx cy r : stops (cirle_line_intersection a b cx cy r).
  Proof. unfold cirle_line_intersection. stop. Qed.
  Lemma stops_external g cx cy r : stops (circle_external g cx cy r).
  Proof. unfold circle_external. repeat first [apply stops_line | stop1]. Qed.
  Lemma stops_circles g beta C e n k : forall l r, stops (circles_loop g beta C e n k l r).
  Proof.
    induction k as [|k IH]; intros l r; cbn [circles_loop]; [apply stops_ok|].
    unfold circle_radius_from_abcd. repeat (cbv zeta; first [apply stops_external | apply IH | stop1]).
  Qed.
  Lemma stops_generate g l r n : stops (generate_planes g l r n).
  Proof.
    unfold generate_planes, start_circle. repeat (cbv zeta; first [apply stops_circles | stop1]).
  Qed.
  Lemma stops_search v : stops (entry_exit_planes v).
  Proof.
    unfold entry_exit_planes, left_coords, right_coords, spread_left, spread_right, pair_planes.
    repeat (cbv zeta; first [apply stops_generate | stop1]).
  Qed.
  Lemma stops_slices v cx cy r a b : stops (slices_of v cx cy r a b).
  Proof. unfold slices_of, water_data, external_x. stop. Qed.
  Lemma stops_loop b tol sl k : forall p, stops (bishop_loop b tol sl k p).
  Proof.
    induction k as [|k IH]; intros p; cbn [bishop_loop]; [apply stops_ok|].
    unfold bishop_step. repeat (cbv zeta; first [apply IH | stop1]).
  Qed.
  Lemma stops_bishop v cx cy r : stops (bishop v cx cy r).
  Proof.
    unfold bishop, ordinary.
    repeat (cbv zeta; first [apply stops_external | apply stops_slices | apply stops_loop | stop1]).
  Qed.
  Lemma stops_fos v l : stops (fst (fos_loop v l)).
  Proof.
    induction l as [|p l IH]; cbn [fos_loop]; [apply stops_ok|].
    pose proof (stops_bishop v (p_cx p) (p_cy p) (p_radius p)) as B.
    destruct (bishop _ _ _ _) as [f|e].
    - destruct (fos_loop v l) as [r l']. exact IH.
    - cbn [fst]. intros e' E. apply B. congruence.
  Qed.
End Kinds.

Section Stops.
  Context {T : Type} {NT : Num T} {EN : Env}.
  Lemma analyse_kinds (m : option T) (s : st T) v e :
    view_of s = Ok v -> fst (analyse_slope m s) = Err e -> expected e.
  Proof.
    intros V. unfold analyse_slope, self_get. rewrite bind_get. unfold mbind at 1. rewrite V.
    destruct (s_planes (snd s)) as [|p ps].
    - rewrite bind_lift. pose proof (stops_search v) as Q.
      destruct (entry_exit_planes v) as [cs|e'].
      2:{ cbn. intros [= <-]. apply Q. reflexivity. }
      pose proof (stops_fos v cs) as F. destruct (fos_loop v cs) as [[u|e'] done]; cbn in *.
      + discriminate.
      + intros [= <-]. apply F. reflexivity.
    - pose proof (stops_fos v (p :: ps)) as F. destruct (fos_loop v (p :: ps)) as [[u|e'] done]; cbn in *.
      + discriminate.
      + intros [= <-]. apply F. reflexivity.
  Qed.
  Lemma analyse_view (m : option T) : keeps (same (view_of (T := T))) (analyse_slope m).
  Proof. unfold analyse_slope. untouched. Qed.
  Lemma analyse_heap (m : option T) : keeps (same (fst (A := heap T) (B := slope T))) (analyse_slope m).
  Proof. unfold analyse_slope. untouched. Qed.
End Stops.

(** ** Line loads and the borders of the slices *)
Section Borders.
  Context {T : Type} {NT : Num T}.
  Local Open Scope num_scope.
  (** the strip a slice of width [b] takes the loads from *)
  Definition strip (b : T) (s : slice T) : T * T := (sl_x s - b / nz 2, sl_x s + b / nz 2).
  Definition takes (c : T) (p : T * T) : bool := (fst p <=? c) && (c <? snd p).
  (** the model without its line loads *)
  Definition unloaded (v : view T) : view T :=
    MkView (v_geom v) (v_mats v) (v_udls v) [] (v_water_RL v) (v_water_H v) (v_limits v)
           (v_slices v) (v_iterations v) (v_min_failure v) (v_tolerance v) (v_max_iterations v).
  Definition with_W (w : T) (s : slice T) : slice T :=
    MkSlice (sl_x s) (sl_yt s) (sl_yb s) (sl_cos s) (sl_sin s) w (sl_c s) (sl_tan s) (sl_u s).
  (** the weight of a slice once the line loads standing on its strip are added *)
  Definition loaded_slice (lls : list (T * T)) (b : T) (s : slice T) : slice T :=
    with_W (fold_left (fun w l => if takes (fst l) (strip b s) then w + snd l else w) lls (sl_W s)) s.

  Lemma slices_loaded v cx cy r a c :
    slices_of v cx cy r a c =
      (let! o := slices_of (unloaded v) cx cy r a c in
       Ok (match o with
           | None => None
           | Some (b, sl) => Some (b, map (loaded_slice (v_lls v) b) sl)
           end)).
  Proof.
    unfold slices_of, unloaded, water_data, water_level.
    cbn [v_geom v_mats v_udls v_lls v_water_RL v_water_H v_limits v_slices v_iterations
         v_min_failure v_tolerance v_max_iterations].
    destruct (_ <=? nlit 1 1000000); [reflexivity|].
    destruct (pydiv _ _) as [b|e]; [|reflexivity]. cbn [rbind]. cbv zeta.
    destruct (existsb _ (linspace _ _ _)); [reflexivity|].
    destruct (existsb _ (map _ _)); [reflexivity|].
    assert (E : forall w, (let! water := w in
              match v_mats v with
              | [] => Ok None
              | (_, m0) :: _ =>
                  Ok (Some (b, map (fun x => make_slice v water cx cy r b x
                     (match base_material (v_mats v) (slice_bottom cx cy r x) with
                      | Some m => m | None => m0 end))
                    (linspace (a + b / nz 2) (c - b / nz 2) (v_slices v))))
              end) =
             (let! o := (let! water := w in
              match v_mats v with
              | [] => Ok None
              | (_, m0) :: _ =>
                  Ok (Some (b, map (fun x => make_slice (unloaded v) water cx cy r b x
                     (match base_material (v_mats v) (slice_bottom cx cy r x) with
                      | Some m => m | None => m0 end))
                    (linspace (a + b / nz 2) (c - b / nz 2) (v_slices v))))
              end) in
       Ok (match o with
           | None => None
           | Some (b, sl) => Some (b, map (loaded_slice (v_lls v) b) sl)
           end))).
    { intros [w|e]; [|reflexivity]. cbn [rbind]. destruct (v_mats v) as [|[rl m0] ms]; [reflexivity|].
      cbn [rbind]. do 3 f_equal. rewrite map_map. apply map_ext. intros x. unfold loaded_slice, with_W.
      unfold make_slice. cbv zeta.
      cbn [sl_x sl_yt sl_yb sl_cos sl_sin sl_W sl_c sl_tan sl_u v_geom v_udls v_lls v_water_H unloaded
           fold_left]. f_equal.
      unfold strip. cbn [sl_x].
      change (strip_weight (unloaded v)) with (strip_weight v).
      generalize (fold_left (udl_on (x - b / nz 2) (x + b / nz 2)) (v_udls v)
                    (strip_weight v b (pymax (ground_y (v_geom v) x) (cy - nsqrt (nsq r - nsq (x - cx))))
                       (cy - nsqrt (nsq r - nsq (x - cx))))).
      induction (v_lls v) as [|[co mag] l IH]; intros w0; [reflexivity|].
      cbn [fold_left fst snd]. rewrite IH. reflexivity. }
    exact (E _).
  Qed.
End Borders.

(** Neighbouring strips share their border. *)
Definition touching {T} (l : list (T * T)) : Prop :=
  forall i p q, nth_error l i = Some p -> nth_error l (S i) = Some q -> snd p = fst q.
Definition upright (p : float * float) : Prop := f_le (fst p) (snd p).

Lemma numeric_lt x y : numeric x -> numeric y ->
  SFltb x y = true /\ lower (rank x) (rank y) \/ SFltb x y = false /\ ~ lower (rank x) (rank y).
Proof.
  intros X Y. destruct (SFltb x y) eqn:E; [left|right]; split; auto.
  - now apply ltb_rank.
  - intros L. apply ltb_rank in L; auto. congruence.
Qed.
Lemma numeric_le x y : numeric x -> numeric y ->
  SFleb x y = true /\ ~ lower (rank y) (rank x) \/ SFleb x y = false /\ lower (rank y) (rank x).
Proof.
  intros X Y. rewrite leb_ltb by auto.
  destruct (numeric_lt y x Y X) as [[-> L]|[-> L]]; cbn [negb]; auto.
Qed.

Lemma one_strip (c : float) : numeric c -> forall (l : list (float * float)) p,
  Forall upright (p :: l) -> touching (p :: l) ->
  List.length (filter (takes c) (p :: l)) = (if takes c (fst p, snd (last l p)) then 1 else 0)%nat /\
  f_le (fst p) (snd (last l p)).
Proof.
  intros NC. induction l as [|q l IH]; intros p U Q.
  - cbn [last filter]. destruct p as [a z]. cbn [fst snd]. split; [destruct (takes c (a, z)); reflexivity|].
    now inversion U.
  - inversion U as [|? ? Up Uq]; subst.
    destruct (IH q Uq) as [E L]. { intros i x y X Y. exact (Q (S i) x y X Y). }
    pose proof (Q 0%nat p q eq_refl eq_refl) as B.
    assert (LL : last (q :: l) p = last l q).
    { clear. revert p q. induction l as [|x l IH]; intros p q; [reflexivity|].
      change (last (q :: x :: l) p) with (last (x :: l) p). rewrite (IH p x).
      change (last (x :: l) q) with (last (x :: l) q). rewrite (IH q x). reflexivity. }
    rewrite LL. destruct (last l q) as [zl z] eqn:Z. destruct p as [a m], q as [m' y].
    cbn [fst snd] in *. subst m'.
    unfold upright in Up. cbn [fst snd] in Up.
    destruct (f_le_numeric _ _ Up) as [Na Nm]. destruct (f_le_numeric _ _ L) as [_ Nz].
    assert (LA : f_le a z) by exact (f_le_trans _ _ _ Na Nm Nz Up L). split; [|exact LA].
    change (filter (takes c) ((a, m) :: (m, y) :: l))
      with (if takes c (a, m) then (a, m) :: filter (takes c) ((m, y) :: l)
            else filter (takes c) ((m, y) :: l)).
    rewrite f_le_lower in Up, L, LA by auto.
    assert (TA : takes c (a, m) = SFleb a c && SFltb c m) by reflexivity.
    assert (TB : takes c (m, z) = SFleb m c && SFltb c z) by reflexivity.
    assert (TC : takes c (a, z) = SFleb a c && SFltb c z) by reflexivity.
    rewrite TB in E. rewrite TA, TC.
    destruct (numeric_le a c Na NC) as [[-> A]|[-> A]]; destruct (numeric_lt c m NC Nm) as [[-> M1]|[-> M1]];
      destruct (numeric_le m c Nm NC) as [[Em M2]|[Em M2]]; rewrite Em in E;
      destruct (numeric_lt c z NC Nz) as [[Ez M3]|[Ez M3]]; rewrite Ez in *;
      cbn [andb List.length] in *; try (rewrite E; reflexivity); try reflexivity; exfalso; unfold lower in *; lia.
Qed.

(** Every line load on a sliced circle is carried by exactly one slice, if the
    slices share their borders. *)
Lemma load_once (v : view float) cx cy r a c b sl co s0 sl' :
  slices_of v cx cy r a c = Ok (Some (b, sl)) -> sl = s0 :: sl' ->
  touching (map (strip b) sl) -> Forall upright (map (strip b) sl) -> numeric co ->
  List.length (filter (fun s => takes co (strip b s)) sl) =
    if takes co (fst (strip b s0), snd (strip b (last sl' s0))) then 1%nat else 0%nat.
Proof.
  intros _ -> Q U N.
  assert (LM : last (map (strip b) sl') (strip b s0) = strip b (last sl' s0)).
  { clear. revert s0. induction sl' as [|x l IH]; intros s0; [reflexivity|].
    destruct l as [|y l]; [reflexivity|]. exact (IH s0). }
  destruct (one_strip co N (map (strip b) sl') (strip b s0) U Q) as [E _].
  rewrite LM in E. rewrite <- E.
  change (strip b s0 :: map (strip b) sl') with (map (strip b) (s0 :: sl')).
  generalize (s0 :: sl'). intros l. clear. induction l as [|s l IH]; [reflexivity|].
  cbn [map filter]. destruct (takes co (strip b s)); cbn [List.length]; rewrite IH; reflexivity.
Qed.

(** Checks that compute, for the examples. *)
Definition same_float (x y : float) : bool := SFeqb x y && negb (SFeqb x (S754_zero false)).
Lemma same_float_eq x y : same_float x y = true -> x = y.
Proof.
  unfold same_float, SFeqb.
  destruct x as [sx|[]| |[] mx ex], y as [sy|[]| |[] my ey]; cbn [SFcompare]; intros E;
    try reflexivity; try discriminate E;
    destruct (Z.compare_spec ex ey); try discriminate E; subst;
    change (Pcompare mx my Eq) with (mx ?= my)%positive in E;
    destruct (Pos.compare_spec mx my); try discriminate E; subst; reflexivity.
Qed.
Fixpoint touchingb (l : list (float * float)) : bool :=
  match l with
  | p :: ((q :: _) as l') => same_float (snd p) (fst q) && touchingb l'
  | _ => true
  end.
Lemma touchingb_ok l : touchingb l = true -> touching l.
Proof.
  induction l as [|x l IH]; intros E i p q P Q; [destruct i; discriminate|].
  destruct l as [|y l]; [destruct i as [|[|i]]; discriminate|].
  cbn [touchingb] in E. apply andb_true_iff in E. destruct E as [E1 E2].
  destruct i as [|i].
  - cbn in P, Q. injection P as <-. injection Q as <-. now apply same_float_eq.
  - exact (IH E2 i p q P Q).
Qed.
Definition sharing (s : st float) : bool :=
  match view_of s, s_planes (snd s) with
  | Ok v, [p] =>
      match slices_of v (p_cx p) (p_cy p) (p_radius p) (fst (p_l p)) (fst (p_r p)) with
      | Ok (Some (b, sl)) =>
          touchingb (map (strip b) sl) && forallb (fun p => SFleb (fst p) (snd p)) (map (strip b) sl)
          && Nat.eqb (List.length sl) 24 && existsb (fun l => f_is_finite (fst l)) (v_lls v)
      | _ => false
      end
  | _, _ => false
  end.
Lemma sharing_ok s : sharing s = true -> exists v p b sl c m,
  view_of s = Ok v /\ s_planes (snd s) = [p] /\
  slices_of v (p_cx p) (p_cy p) (p_radius p) (fst (p_l p)) (fst (p_r p)) = Ok (Some (b, sl)) /\
  List.length sl = 24%nat /\ touching (map (strip b) sl) /\ Forall upright (map (strip b) sl) /\
  In (c, m) (v_lls v) /\ numeric c.
Proof.
  unfold sharing. destruct (view_of s) as [v|]; [|discriminate].
  destruct (s_planes (snd s)) as [|p [|? ?]]; try discriminate.
  destruct (slices_of _ _ _ _ _ _) as [[[b sl]|]|] eqn:E; try discriminate.
  rewrite !andb_true_iff, forallb_forall, existsb_exists, Nat.eqb_eq.
  intros (((A & B) & C) & ([c m] & D & F)). exists v, p, b, sl, c, m.
  do 2 (split; [reflexivity|]). do 2 (split; [assumption|]).
  split; [now apply touchingb_ok|]. split; [|split; [exact D|]].
  - apply Forall_forall. intros q Hq. exact (B q Hq).
  - intros ->. discriminate F.
Qed.
