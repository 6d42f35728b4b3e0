(** * SliceNear: the computed slice of a circle against the exact one at the same place
    (pyslope.py:1362-1488). *)
From Coq Require Import ZArith Reals Lra Lia Bool List SpecFloat.
From Verif Require Import Num FloatNum RealNum Py ListFacts Objects Slope Planes Analysis PlaneFacts SliceFacts RoundTheory NearFacts SumNear WeightNear CircleNear WaterNear.
Import ListNotations.
Local Open Scope R_scope.

(** ** The exact ground and the exact strength *)
(** crest edge [(tx, ty)], toe [(bx, by')], gradient [k] *)
Definition ground (tx ty bx by' k x : R) : R :=
  if Rle_dec x tx then ty else if Rle_dec bx x then by' else ty - (x - tx) * k.
(** the first layer from the top that begins below [y]; the last layer has no lower boundary *)
Fixpoint layer_at {A} (mats : list (R * A)) (y : R) : option A :=
  match mats with
  | [] => None
  | [(_, m)] => Some m
  | (rl, m) :: mats' => if Rlt_dec rl y then Some m else layer_at mats' y
  end.
Definition wide : R := p2 300.
Definition plain_section (g : geom float) : Prop :=
  (valid (fst (g_top g)) /\ valid (snd (g_top g)) /\ valid (fst (g_bot g)) /\ valid (snd (g_bot g)) /\ valid (g_gradient g)) /\
  0 <= FR (fst (g_top g)) /\ / 2000 <= FR (snd (g_top g)) <= wide /\ 0 <= FR (snd (g_bot g)) <= FR (snd (g_top g)) /\
  0 <= FR (g_gradient g) /\ (FR (fst (g_bot g)) - FR (fst (g_top g))) * FR (g_gradient g) <= FR (snd (g_top g)).
Definition ground_of (g : geom float) (x : R) : R :=
  ground (FR (fst (g_top g))) (FR (snd (g_top g))) (FR (fst (g_bot g))) (FR (snd (g_bot g))) (FR (g_gradient g)) x.

Lemma wide_fair : p2 100 * wide <= fair.
Proof. unfold wide, fair. rewrite <- p2_add. apply p2_le. lia. Qed.
Lemma wide_big : 1000000 <= wide.
Proof. unfold wide. apply Rle_trans with (p2 20); [|apply p2_le; lia]. rewrite p2_IZR by lia. apply IZR_le. vm_compute. discriminate. Qed.
Lemma hundred_big : 1000000000 <= p2 100.
Proof. apply Rle_trans with (p2 30); [|apply p2_le; lia]. rewrite p2_IZR by lia. apply IZR_le. vm_compute. discriminate. Qed.
Lemma wide_vast : 1000000000 * wide <= fair /\ 1000000000 * fair <= vast.
Proof.
  pose proof wide_fair. pose proof hundred_big. pose proof wide_big. pose proof fair_vast as FV. pose proof fair_big as FB. split.
  - apply Rle_trans with (p2 100 * wide); [apply Rmult_le_compat_r; lra|lra].
  - assert (Q : 8000000000 * fair <= fair * fair); [|lra]. apply Rmult_le_compat_r; [lra|]. apply Rle_trans with (p2 100 * wide); [|lra].
    apply Rle_trans with (1000000000 * 1000000); [lra|]. apply Rmult_le_compat; lra.
Qed.

Lemma ground_about g x : plain_section g -> valid x -> Rabs (FR x) <= wide ->
  valid (ground_y g x) /\ Rabs (FR (ground_y g x) - ground_of g (FR x)) <= p2 (-49) * FR (snd (g_top g)) /\
  0 <= ground_of g (FR x) <= FR (snd (g_top g)).
Proof.
  intros ((V1 & V2 & V3 & V4 & V5) & B1 & B2 & B3 & B4 & B5) Vx Bx. unfold ground_y, ground_of, ground. cbn [nleb FNum].
  rewrite !leb_FR by assumption. unfold Rleb. pose proof (p2_pos (-49)) as P49. pose proof (abs_span _ _ Bx) as SX.
  assert (PT : 0 <= p2 (-49) * FR (snd (g_top g))) by (apply Rmult_le_pos; lra).
  destruct (Rle_dec (FR x) (FR (fst (g_top g)))) as [L|L]; [rewrite Rminus_eq_0, Rabs_R0; split; [assumption|]; split; [exact PT|lra]|].
  destruct (Rle_dec (FR (fst (g_bot g))) (FR x)) as [L2|L2]; [rewrite Rminus_eq_0, Rabs_R0; split; [assumption|]; split; [exact PT|lra]|].
  destruct wide_vast as (WF & FV). pose proof wide_big. set (drop := (FR x - FR (fst (g_top g))) * FR (g_gradient g)).
  assert (D : 0 <= drop <= FR (snd (g_top g))).
  { split; [apply Rmult_le_pos; lra|]. apply Rle_trans with (2 := B5). apply Rmult_le_compat_r; lra. }
  pose proof (ground_near x g Vx V1 V2 V5 ltac:(lra) ltac:(lra) ltac:(lra) B4) as Q. fold drop in Q. specialize (Q ltac:(lra)).
  destruct Q as (Vy & Ny). split; [exact Vy|]. split; [|lra].
  apply Rle_trans with (1 := Ny). replace (-49)%Z with (1 + -50)%Z by lia. rewrite p2_add, p2_1. unfold step.
  pose proof (p2_pos (-50)). rewrite (Rmult_comm 2), Rmult_assoc. apply Rmult_le_compat_l; lra.
Qed.

(** ** Greatest and least of perturbed numbers *)
Lemma Rmax_near a b c d e : Rabs (a - c) <= e -> Rabs (b - d) <= e -> Rabs (Rmax a b - Rmax c d) <= e.
Proof.
  intros A B. apply abs_span in A, B. apply Rabs_le. unfold Rmax. destruct (Rle_dec a b), (Rle_dec c d); lra.
Qed.
Lemma Rmin_near a b c d e : Rabs (a - c) <= e -> Rabs (b - d) <= e -> Rabs (Rmin a b - Rmin c d) <= e.
Proof.
  intros A B. apply abs_span in A, B. apply Rabs_le. unfold Rmin. destruct (Rle_dec a b), (Rle_dec c d); lra.
Qed.
Lemma same_near a e : 0 <= e -> Rabs (a - a) <= e.
Proof. intros E. rewrite Rminus_eq_0, Rabs_R0. exact E. Qed.

(** ** The soil above a base that is a little off *)
Definition heaviness (ls : list (R * R)) : R := total snd ls.
Lemma overlap_near yt yb yt' yb' top bottom e : Rabs (yt - yt') <= e -> Rabs (yb - yb') <= e ->
  Rabs (Rmax 0 (Rmin yt top - Rmax yb bottom) - Rmax 0 (Rmin yt' top - Rmax yb' bottom)) <= 2 * e.
Proof.
  intros A B. assert (E : 0 <= e) by (apply Rle_trans with (2 := A); apply Rabs_pos).
  apply Rmax_near; [apply same_near; lra|].
  pose proof (abs_span _ _ (Rmin_near yt top yt' top e A (same_near _ _ E))).
  pose proof (abs_span _ _ (Rmax_near yb bottom yb' bottom e B (same_near _ _ E))). apply Rabs_le. lra.
Qed.
Lemma last_near yt yb yt' yb' top e : Rabs (yt - yt') <= e -> Rabs (yb - yb') <= e ->
  Rabs (Rmax 0 (Rmin yt top - yb) - Rmax 0 (Rmin yt' top - yb')) <= 2 * e.
Proof.
  intros A B. assert (E : 0 <= e) by (apply Rle_trans with (2 := A); apply Rabs_pos).
  apply Rmax_near; [apply same_near; lra|].
  pose proof (abs_span _ _ (Rmin_near yt top yt' top e A (same_near _ _ E))). apply abs_span in B. apply Rabs_le. lra.
Qed.
Lemma times_near w a b d : 0 <= w -> Rabs (a - b) <= d -> Rabs (w * a - w * b) <= w * d.
Proof. intros W D. rewrite <- Rmult_minus_distr_l, Rabs_mult, (Rabs_right w) by lra. apply Rmult_le_compat_l; lra. Qed.
Lemma column_near ls yt yb yt' yb' e : Forall (fun l => 0 <= snd l) ls -> Rabs (yt - yt') <= e -> Rabs (yb - yb') <= e ->
  forall top, Rabs (column top ls yt yb - column top ls yt' yb') <= heaviness ls * (2 * e).
Proof.
  intros F A B. assert (E : 0 <= e) by (apply Rle_trans with (2 := A); apply Rabs_pos). unfold heaviness.
  induction F as [|(bottom, w) ls P F IH]; intros top; [cbn; rewrite Rminus_eq_0, Rabs_R0; lra|].
  cbn [snd] in P. destruct ls as [|l ls].
  - cbn [column total fold_right snd]. rewrite Rplus_0_r. apply times_near; [exact P|]. now apply last_near.
  - change (column top ((bottom, w) :: l :: ls) yt yb) with
      (w * Rmax 0 (Rmin yt top - Rmax yb bottom) + column bottom (l :: ls) yt yb).
    change (column top ((bottom, w) :: l :: ls) yt' yb') with
      (w * Rmax 0 (Rmin yt' top - Rmax yb' bottom) + column bottom (l :: ls) yt' yb').
    change (total snd ((bottom, w) :: l :: ls)) with (w + total snd (l :: ls)).
    pose proof (abs_span _ _ (times_near w _ _ _ P (overlap_near yt yb yt' yb' top bottom e A B))) as Q.
    pose proof (abs_span _ _ (IH bottom)). apply Rabs_le. lra.
Qed.
Lemma column_size ls yt yb : Forall (fun l => 0 <= snd l) ls -> forall top,
  0 <= column top ls yt yb <= heaviness ls * (Rabs yt + Rabs yb).
Proof.
  intros F. unfold heaviness. pose proof (Rle_abs yt). pose proof (Rle_abs (- yb)) as N. rewrite Rabs_Ropp in N.
  pose proof (Rabs_pos yt). pose proof (Rabs_pos yb).
  induction F as [|(bottom, w) ls P F IH]; intros top; [cbn; lra|]. cbn [snd] in P.
  assert (K : forall a b, a <= yt -> yb <= b -> 0 <= w * Rmax 0 (a - b) <= w * (Rabs yt + Rabs yb)).
  { intros a b La Lb. split; [apply Rmult_le_pos; [exact P|apply Rmax_l]|]. apply Rmult_le_compat_l; [exact P|]. apply Rmax_lub; lra. }
  destruct ls as [|l ls].
  - cbn [column total fold_right snd]. rewrite Rplus_0_r. apply K; [apply Rmin_l|lra].
  - change (column top ((bottom, w) :: l :: ls) yt yb) with
      (w * Rmax 0 (Rmin yt top - Rmax yb bottom) + column bottom (l :: ls) yt yb).
    change (total snd ((bottom, w) :: l :: ls)) with (w + total snd (l :: ls)).
    specialize (IH bottom). specialize (K (Rmin yt top) (Rmax yb bottom) (Rmin_l _ _) (Rmax_l _ _)). lra.
Qed.

(** ** The water above a base that is a little off *)
Lemma pressure_near H rl xw toe x yt yb yt' yb' e : 0 <= H <= 2 -> Rabs (yt - yt') <= e -> Rabs (yb - yb') <= e ->
  Rabs (pressure H rl xw toe x yt yb - pressure H rl xw toe x yt' yb') <= 39.24 * e.
Proof.
  intros BH A B. assert (E : 0 <= e) by (apply Rle_trans with (2 := A); apply Rabs_pos). unfold pressure.
  set (f := if under_slope xw x toe then H else 1). assert (F : 0 <= f <= 2) by (unfold f; destruct (under_slope _ _ _); lra).
  assert (Q : Rabs (Rmax (Rmin rl yt - yb) 0 - Rmax (Rmin rl yt' - yb') 0) <= 2 * e).
  { apply Rmax_near; [|apply same_near; lra]. pose proof (abs_span _ _ (Rmin_near rl yt rl yt' e (same_near _ _ E) A)).
    apply abs_span in B. apply Rabs_le. lra. }
  rewrite <- Rmult_minus_distr_r, <- Rmult_minus_distr_r, !Rabs_mult, (Rabs_right f), (Rabs_right (981 / 100)) by lra.
  apply Rle_trans with (2 * e * (981 / 100) * 2); [|lra]. apply Rmult_le_compat; try lra.
  apply Rmult_le_pos; [apply Rabs_pos|lra].
Qed.
Lemma pressure_pos H rl xw toe x yt yb : 0 <= H -> 0 <= pressure H rl xw toe x yt yb.
Proof.
  intros B. unfold pressure. apply Rmult_le_pos; [apply Rmult_le_pos; [apply Rmax_r|lra]|]. destruct (under_slope _ _ _); lra.
Qed.

(** ** The soil at the base *)
Lemma layer_same {A} (mats : list (R * A)) y y' e : Rabs (y - y') <= e ->
  (forall rl m, In (rl, m) mats -> e < Rabs (rl - y')) -> layer_at mats y = layer_at mats y'.
Proof.
  intros L. induction mats as [|(rl, m) mats IH]; intros F; [reflexivity|]. destruct mats as [|p mats]; [reflexivity|].
  change (layer_at ((rl, m) :: p :: mats) y) with (if Rlt_dec rl y then Some m else layer_at (p :: mats) y).
  change (layer_at ((rl, m) :: p :: mats) y') with (if Rlt_dec rl y' then Some m else layer_at (p :: mats) y').
  rewrite IH by (intros; eapply F; right; eassumption). specialize (F rl m (or_introl eq_refl)). apply abs_span in L.
  destruct (Rlt_dec rl y), (Rlt_dec rl y'); try reflexivity; exfalso.
  - rewrite Rabs_right in F by lra. lra.
  - rewrite Rabs_left in F by lra. lra.
Qed.
Lemma base_material_is (mats : list (float * material float)) yb : Forall (fun p => valid (fst p)) mats -> valid yb ->
  base_material mats yb = layer_at (map (fun p => (FR (fst p), snd p)) mats) (FR yb).
Proof.
  intros F V. induction F as [|(rl, m) mats P F IH]; [reflexivity|]. destruct mats as [|p mats]; [reflexivity|].
  change (base_material ((rl, m) :: p :: mats) yb) with (if nltb rl yb then Some m else base_material (p :: mats) yb).
  rewrite IH. cbn [map fst snd]. cbn [fst] in P. cbn [nltb FNum]. rewrite ltb_FR by assumption. unfold Rltb.
  cbn [layer_at fst snd]. destruct (Rlt_dec (FR rl) (FR yb)); reflexivity.
Qed.

(** ** A whole slice *)
(** how far the base and the top may be off: the square root loses half of the digits at the ends
    of the circle, elsewhere a few roundings relative to [r^2 / h] *)
Definition base_off (r h cy ty e : R) : Prop :=
  p2 (-24) * r + p2 (-53) * Rabs cy + p2 (-49) * ty <= e \/
  (0 < h /\ p2 (-48) * (r * r / h) + p2 (-53) * Rabs cy + p2 (-49) * ty <= e).
Lemma half_le_sqrt r d : 0 <= r -> sqrt (r * r - d * d) <= r.
Proof.
  intros P. apply Rle_trans with (sqrt (r * r)); [|rewrite sqrt_square; lra]. apply sqrt_le_1_alt. pose proof (Rle_0_sqr d) as Q. unfold Rsqr in Q. lra.
Qed.
Section Slice.
  Variables (v : view float) (water : option (float * float)) (cx cy r b x : float) (mat : material float).
  Hypothesis (PV : plain_view v) (PS : plain_section (v_geom v)).
  Hypothesis (Vcx : valid cx) (Vcy : valid cy) (Vr : valid r) (Vx : valid x) (Vb : valid b).
  Hypothesis (Bcx : Rabs (FR cx) <= wide) (Bcy : Rabs (FR cy) <= wide) (Br : p2 (-100) <= FR r <= wide).
  Hypothesis (Bx : Rabs (FR x) <= wide) (Bb : 0 <= FR b <= wide).
  Hypothesis (IN : nltb (nsq r) (nsq (nsub x cx)) = false).
  Let s := make_slice v water cx cy r b x mat.
  Let h := sqrt (FR r * FR r - (FR x - FR cx) * (FR x - FR cx)).
  Let yb := FR cy - h.
  Let yt := Rmax (ground_of (v_geom v) (FR x)) yb.
  Let ty := FR (snd (g_top (v_geom v))).

  Lemma slice_base : valid (sl_yb s) /\ Rabs (FR (sl_yb s)) <= 4 * wide /\
    forall e, base_off (FR r) h (FR cy) ty e -> Rabs (FR (sl_yb s) - yb) <= e /\
      Rabs (FR (sl_yb s) - yb) <= e - p2 (-49) * ty /\ p2 (-49) * ty <= e.
  Proof.
    destruct wide_vast as (WF & FV). pose proof wide_big as WB.
    destruct (base_near cx cy r x Vcx Vcy Vr Vx ltac:(lra) ltac:(lra) ltac:(lra) ltac:(lra) IN) as (V & N1 & N2).
    fold h in N1, N2. fold yb in N1, N2. change (slice_bottom cx cy r x) with (sl_yb s) in *.
    assert (R0 : 0 <= FR r) by (pose proof (p2_pos (-100)); lra).
    assert (H0 : 0 <= h) by apply sqrt_pos. assert (HR : h <= FR r) by now apply half_le_sqrt.
    assert (T0 : 0 <= p2 (-49) * ty).
    { apply Rmult_le_pos; [left; apply p2_pos|]. destruct PS as (_ & _ & T & _). unfold ty. lra. }
    split; [exact V|]. split.
    - apply abs_span in N1, Bcy. assert (Q1 : p2 (-24) * FR r <= 1 * FR r).
      { apply Rmult_le_compat_r; [lra|]. rewrite <- p2_0. apply p2_le. lia. }
      assert (Q2 : u * Rabs (FR cy) <= 1 * Rabs (FR cy)) by (apply Rmult_le_compat_r; [apply Rabs_pos|rewrite u_val; lra]).
      unfold yb in N1. assert (Rabs (FR cy) <= wide) by (apply Rabs_le; lra). apply Rabs_le. lra.
    - fold u. intros e [E | (E0 & E)]; fold u in E; [|specialize (N2 E0)]; repeat split; try lra.
      pose proof (Rabs_pos (FR (sl_yb s) - yb)). lra.
      pose proof (Rabs_pos (FR (sl_yb s) - yb)). lra.
  Qed.
  Lemma slice_top : valid (sl_yt s) /\ Rabs (FR (sl_yt s)) <= 4 * wide /\
    forall e, base_off (FR r) h (FR cy) ty e -> Rabs (FR (sl_yt s) - yt) <= e.
  Proof.
    destruct slice_base as (V & B & N). destruct (ground_about (v_geom v) x PS Vx Bx) as (Vg & Ng & Bg).
    change (sl_yt s) with (pymax (ground_y (v_geom v) x) (sl_yb s)).
    destruct (pymax_FR _ _ Vg V) as (Vm & Em). split; [exact Vm|]. rewrite Em. fold ty in Ng, Bg.
    pose proof wide_big as WB. assert (T : 0 <= ty <= wide) by (destruct PS as (_ & _ & T & _); unfold ty; lra). split.
    - apply abs_span in B, Ng. assert (Q : p2 (-49) * ty <= 1 * ty).
      { apply Rmult_le_compat_r; [lra|]. rewrite <- p2_0. apply p2_le. lia. }
      apply Rabs_le. unfold Rmax. destruct (Rle_dec _ _); lra.
    - intros e E. destruct (N e E) as (N1 & _ & N2). apply Rmax_near; lra.
  Qed.

  Lemma edges : span (nsub x (ndiv b (nz 2))) /\ span (nadd x (ndiv b (nz 2))).
  Proof.
    destruct wide_vast as (WF & FV). pose proof wide_big as WB. pose proof dust_pos as DP. pose proof dust_small as DS.
    assert (A0 : about b (FR b) (FR b) 0 0).
    { split; [exact Vb|]. rewrite Rminus_eq_0, Rabs_R0, Rabs_right by lra. split; lra. }
    pose proof (over_int b _ _ _ _ 2 A0 ltac:(lia) ltac:(lra) ltac:(lra) ltac:(lra)) as A1.
    assert (A2 : about x (FR x) (Rabs (FR x)) 0 0) by (split; [exact Vx|]; rewrite Rminus_eq_0, Rabs_R0; split; lra).
    assert (K : forall d : bool, span ((if d then nsub else nadd) x (ndiv b (nz 2)))).
    { intros d. pose proof (plus_about d _ _ _ _ _ _ _ _ _ _ A2 A1) as P.
      specialize (P ltac:(lra) ltac:(lra) ltac:(lra) ltac:(lra) ltac:(lra) ltac:(lra)). destruct P as (V & B & N). split; [exact V|].
      apply abs_span in B, N. rewrite Rmax_right in N by lra.
      set (m := Rabs (FR x) + FR b / 2) in *. assert (M : 0 <= m <= 2 * wide) by (unfold m; pose proof (Rabs_pos (FR x)); lra).
      assert (UM : u * m <= 1 * m) by (apply Rmult_le_compat_r; [lra|rewrite u_val; lra]).
      apply Rabs_le. destruct d; lra. }
    split; [apply (K true)|apply (K false)].
  Qed.

  Let xl := FR (nsub x (ndiv b (nz 2))).
  Let xr := FR (nadd x (ndiv b (nz 2))).
  Let soils := map soil_of (v_mats v).
  Lemma slice_weight e : base_off (FR r) h (FR cy) ty e -> heaviness soils <= p2 90 ->
    total (fun q => strip_load xl xr (load_of q)) (v_udls v) + total (fun q => line_load xl xr (line_of q)) (v_lls v) <= p2 800 ->
    let W := slice_load v (FR b) yt yb xl xr in
    let n := INR (List.length (v_mats v)) + INR (List.length (v_udls v)) + INR (List.length (v_lls v)) in
    valid (sl_W s) /\ Rabs (FR (sl_W s) - W) <= (2 * n + 5) * u * W + 3 * heaviness soils * FR b * e + (2 * n + 1) * dust.
  Proof.
    intros E HS QL W n. destruct slice_base as (Vyb & Byb & Nyb). destruct slice_top as (Vyt & Byt & Nyt).
    destruct (Nyb e E) as (Nb & _ & Ne). specialize (Nyt e E). destruct edges as (Sl & Sr).
    destruct wide_vast as (WF & FV). pose proof wide_big as WB.
    assert (FP : Forall (fun l : R * R => 0 <= snd l) soils).
    { unfold soils. destruct PV as (_ & F & _). clear -F. induction F as [|p l P F IH]; constructor; [|exact IH]. apply P. }
    set (top := FR (g_ext_h (v_geom v))).
    pose proof (column_size soils (FR (sl_yt s)) (FR (sl_yb s)) FP top) as CS.
    pose proof (column_near soils _ _ _ _ e FP Nyt Nb top) as CN.
    assert (G0 : 0 <= heaviness soils) by (apply total_nonneg; exact FP).
    assert (CF : column top soils (FR (sl_yt s)) (FR (sl_yb s)) <= p2 393).
    { apply Rle_trans with (1 := proj2 CS). apply Rle_trans with (p2 90 * (8 * wide)).
      - apply Rmult_le_compat; try lra. pose proof (Rabs_pos (FR (sl_yt s))). pose proof (Rabs_pos (FR (sl_yb s))). lra.
      - unfold wide. replace 8 with (p2 3) by (rewrite p2_IZR by lia; reflexivity). rewrite <- !p2_add. apply p2_le. lia. }
    assert (C393 : p2 393 <= fair) by (apply p2_le; lia).
    assert (CB : column top soils (FR (sl_yt s)) (FR (sl_yb s)) * FR b <= p2 800).
    { apply Rle_trans with (p2 393 * wide); [apply Rmult_le_compat; lra|]. unfold wide. rewrite <- p2_add. apply p2_le. lia. }
    assert (WV : slice_load v (FR b) (FR (sl_yt s)) (FR (sl_yb s)) xl xr <= vast).
    { unfold slice_load. fold soils top. apply Rle_trans with (2 * p2 800); [lra|]. unfold vast.
      rewrite <- p2_1, <- p2_add. apply p2_le. lia. }
    assert (Syt : span (sl_yt s)) by (split; [exact Vyt|lra]). assert (Syb : span (sl_yb s)) by (split; [exact Vyb|lra]).
    pose proof (slice_weight_about v b (sl_yt s) (sl_yb s) _ _ PV Syt Syb Sl Sr (conj Vb (proj1 Bb)) ltac:(lra)) as A.
    specialize (A ltac:(fold soils top; lra) WV). destruct A as (VW & _ & NW). fold xl xr n in NW.
    change (fold_left _ _ _) with (sl_W s) in VW, NW. split; [exact VW|].
    set (W' := slice_load v (FR b) (FR (sl_yt s)) (FR (sl_yb s)) xl xr) in *.
    set (L := heaviness soils * FR b * e). assert (e0 : 0 <= e) by (pose proof (Rabs_pos (FR (sl_yb s) - yb)); lra).
    assert (L0 : 0 <= L) by (unfold L; apply Rmult_le_pos; [apply Rmult_le_pos; lra|lra]).
    assert (WN : Rabs (W' - W) <= 2 * L).
    { unfold W', W, slice_load. fold soils top.
      replace (_ + _ + _ - _) with (FR b * column top soils (FR (sl_yt s)) (FR (sl_yb s)) - FR b * column top soils yt yb) by ring.
      apply Rle_trans with (FR b * (heaviness soils * (2 * e))); [apply times_near; [lra|exact CN]|]. unfold L. lra. }
    assert (N3 : 0 <= n <= 3000000000000).
    { unfold n. destruct PV as (_ & _ & _ & _ & N1 & N2 & N3). pose proof (pos_INR (List.length (v_mats v))).
      pose proof (pos_INR (List.length (v_udls v))). pose proof (pos_INR (List.length (v_lls v))). lra. }
    set (k := (2 * n + 5) * u) in *. assert (K : 0 <= k <= / 4).
    { unfold k. pose proof u_pos. split; [apply Rmult_le_pos; lra|]. apply Rle_trans with (6000000000005 * u); [apply Rmult_le_compat_r; lra|]. rewrite u_val. lra. }
    apply abs_span in NW, WN. assert (KW : k * W' <= k * W + / 4 * (2 * L)).
    { apply Rle_trans with (k * (W + 2 * L)); [apply Rmult_le_compat_l; lra|]. rewrite Rmult_plus_distr_l.
      assert (k * (2 * L) <= / 4 * (2 * L)) by (apply Rmult_le_compat_r; lra). lra. }
    replace (3 * heaviness soils * FR b * e) with (3 * L) by (unfold L; ring). apply Rabs_le. lra.
  Qed.
  Lemma slice_water e rl xw : base_off (FR r) h (FR cy) ty e -> water = Some (rl, xw) ->
    valid rl -> valid xw -> Rabs (FR rl) <= fair -> valid (v_water_H v) -> 0 <= FR (v_water_H v) <= 2 ->
    let U := pressure (FR (v_water_H v)) (FR rl) (FR xw) (FR (fst (g_bot (v_geom v)))) (FR x) yt yb in
    valid (sl_u s) /\ Rabs (FR (sl_u s) - U) <= 7 * u * U + 40 * e + p2 (-1000).
  Proof.
    intros E EW V1 V2 B1 VH BH U. destruct slice_base as (Vyb & Byb & Nyb). destruct slice_top as (Vyt & Byt & Nyt).
    destruct (Nyb e E) as (Nb & _ & Ne). specialize (Nyt e E). destruct wide_vast as (WF & FV). pose proof wide_big as WB.
    assert (VT : valid (fst (g_bot (v_geom v)))) by apply PS.
    assert (ES : sl_u s = water_u (v_geom v) (v_water_H v) rl xw x (sl_yt s) (sl_yb s)) by (unfold s, make_slice; cbn [sl_u]; rewrite EW; reflexivity).
    rewrite ES. destruct (water_near (v_geom v) (v_water_H v) rl xw x _ _ VH BH V1 V2 Vx Vyt Vyb VT B1 ltac:(lra) ltac:(lra)) as (VU & NU).
    split; [exact VU|]. pose proof (pressure_near _ (FR rl) (FR xw) (FR (fst (g_bot (v_geom v)))) (FR x) _ _ _ _ e BH Nyt Nb) as PN.
    fold U in PN. set (U' := pressure _ _ _ _ _ (FR (sl_yt s)) (FR (sl_yb s))) in *.
    assert (e0 : 0 <= e) by (pose proof (Rabs_pos (FR (sl_yb s) - yb)); lra). apply abs_span in NU, PN.
    assert (KU : 7 * u * U' <= 7 * u * U + / 1000 * e).
    { assert (7 * u * U' <= 7 * u * (U + 39.24 * e)) by (apply Rmult_le_compat_l; [pose proof u_pos; lra|lra]).
      assert (7 * u * (39.24 * e) <= / 1000 * e) by (rewrite <- Rmult_assoc; apply Rmult_le_compat_r; [lra|rewrite u_val; lra]). lra. }
    apply Rabs_le. lra.
  Qed.
End Slice.

(** ** The slices of a circle *)
Lemma slices_made {T} {NT : Num T} (v : view T) cx cy r x1 x2 b sl : slices_of v cx cy r x1 x2 = Ok (Some (b, sl)) ->
  nleb (nsub x2 x1) (nlit 1 1000000) = false /\
  exists water m0, water_data v = Ok water /\ v_mats v <> [] /\
    Forall (fun s => nltb (nsq r) (nsq (nsub (sl_x s) cx)) = false /\
      s = make_slice v water cx cy r b (sl_x s)
            (match base_material (v_mats v) (slice_bottom cx cy r (sl_x s)) with Some m => m | None => m0 end)) sl.
Proof.
  unfold slices_of. destruct (nleb _ _); [discriminate|]. destruct (pydiv _ _) as [b'|]; [|discriminate]. cbn [rbind].
  destruct (existsb _ _) eqn:EX; [discriminate|]. destruct (existsb _ (map _ _)); [discriminate|].
  destruct (water_data v) as [w|]; [|discriminate]. cbn [rbind]. destruct (v_mats v) as [|(rl & m0) l] eqn:EM; [discriminate|].
  intros E. injection E as <- <-. split; [reflexivity|]. exists w, m0. split; [reflexivity|]. split; [discriminate|].
  apply Forall_forall. intros s I. apply in_map_iff in I as (x & <- & I). cbn [make_slice sl_x]. split; [|reflexivity].
  exact (proj1 (existsb_false _ _) EX x I).
Qed.
Lemma width_pos (v : view float) cx cy r x1 x2 b sl : slices_of v cx cy r x1 x2 = Ok (Some (b, sl)) ->
  (2 <= v_slices v <= 1000)%Z -> valid x1 -> valid x2 -> Rabs (FR x1) <= wide -> Rabs (FR x2) <= wide -> 0 <= FR b.
Proof.
  intros Q N V1 V2 B1 B2. destruct (slices_made _ _ _ _ _ _ _ _ Q) as (L & _).
  destruct (slices_inv _ _ _ _ _ _ _ _ Q) as (PD & _). apply pydiv_ok in PD. subst b.
  destruct wide_vast as (WF & FV). pose proof wide_big as WB. pose proof top_vast as TV.
  apply abs_span in B1, B2. destruct (sub_near x2 x1 V2 V1) as (VD & _); [apply Rabs_def1; lra|].
  change (SFsub prec emax x2 x1) with (@nsub float FNum x2 x1) in VD. set (d := @nsub float FNum x2 x1) in *.
  assert (LE : nlit 1 1000000 = S754_finite false 4722366482869645 (-72)) by (vm_compute; reflexivity). 
  cbn [nleb FNum] in L. change (nlit 1 1000000) with (f_lit 1 1000000) in LE. change (@nlit float FNum 1 1000000) with (f_lit 1 1000000) in L. rewrite LE in L. rewrite leb_FR in L; [|exact VD|split; reflexivity]. unfold Rleb in L. destruct (Rle_dec _ _) as [|L']; [discriminate|].
  rewrite FR_dyadic in L' by lia. change (2 ^ (- -72))%Z with 4722366482869645213696%Z in L'. apply Rnot_le_lt in L'.
  destruct (int_FR (v_slices v) ltac:(lia)) as (Vn & En & Bn). 
  set (n := nz (v_slices v) : float) in *.
  assert (In : / 1000 <= / FR n <= / 1) by (rewrite En; split; apply Rinv_le_contravar; lra).
  destruct (sub_near x2 x1 V2 V1) as (_ & ND); [apply Rabs_def1; lra|]. change (SFsub prec emax x2 x1) with d in ND.
  assert (RA : u * Rabs (FR x2 - FR x1) <= / 4 * (2 * wide)).
  { apply Rmult_le_compat; [left; apply u_pos|apply Rabs_pos|rewrite u_val; lra|apply Rabs_le; lra]. }
  apply abs_span in ND. set (q := FR d / FR n).
  assert (Q0 : / 1000000000000 <= q).
  { apply Rle_trans with (/ 100000000 * / 1000); [lra|]. unfold q, Rdiv. apply Rmult_le_compat; lra. }
  assert (Q1 : q <= FR d * / 1) by (apply Rmult_le_compat_l; lra).
  destruct (div_near d n VD Vn) as (_ & NQ); [lra|fold q; rewrite Rabs_right; lra|]. unfold near in NQ. fold q in NQ.
  change (SFdiv prec emax d n) with (@ndiv float FNum d n) in NQ.
  assert (EQ : eta <= q).
  { pose proof eta_dust as ED. pose proof dust_pos. assert (0 <= 10000000000000 * eta * fair) by (pose proof eta_pos; apply Rmult_le_pos; lra).
    apply Rle_trans with dust; [lra|]. apply Rle_trans with (2 := Q0). unfold dust. apply Rle_trans with (p2 (-40)); [apply p2_le; lia|].
    change (-40)%Z with (- (40))%Z. rewrite p2_neg, p2_IZR by lia. apply Rinv_le_contravar; [lra|]. apply IZR_le. vm_compute. discriminate. }
  assert (UQ : u * Rabs q <= q) by (rewrite Rabs_right by lra; apply Rle_trans with (1 * q); [apply Rmult_le_compat_r; [lra|rewrite u_val; lra]|lra]).
  apply abs_span in NQ. assert (Rmax (u * Rabs q) eta <= q) by (apply Rmax_lub; lra). lra.
Qed.

Lemma whole_near (v : view float) cx cy r x1 x2 b sl : slices_of v cx cy r x1 x2 = Ok (Some (b, sl)) ->
  (2 <= v_slices v <= 1000)%Z -> plain_view v -> plain_section (v_geom v) ->
  valid cx -> valid cy -> valid r -> valid x1 -> valid x2 ->
  Rabs (FR cx) <= wide -> Rabs (FR cy) <= wide -> p2 (-100) <= FR r <= wide ->
  Rabs (FR x1) <= / 8 * wide -> Rabs (FR x2) <= / 8 * wide ->
  exists water m0, water_data v = Ok water /\ v_mats v <> [] /\ (valid b /\ 0 <= FR b <= wide) /\
    Forall (fun s => valid (sl_x s) /\ Rabs (FR (sl_x s)) <= wide /\ nltb (nsq r) (nsq (nsub (sl_x s) cx)) = false /\
      s = make_slice v water cx cy r b (sl_x s)
            (match base_material (v_mats v) (slice_bottom cx cy r (sl_x s)) with Some m => m | None => m0 end)) sl.
Proof.
  intros Q N PV PS Vcx Vcy Vr V1 V2 Bcx Bcy Br B1 B2. destruct wide_vast as (WF & FV). pose proof wide_big as WB.
  pose proof (width_pos v cx cy r x1 x2 b sl Q N V1 V2 ltac:(lra) ltac:(lra)) as P0.
  destruct (places_near v cx cy r x1 x2 b sl Q N V1 V2 ltac:(lra) ltac:(lra)) as ((Vb & Nb) & LN & F).
  destruct (slices_made _ _ _ _ _ _ _ _ Q) as (_ & water & m0 & EW & EM & FM).
  set (m := Rabs (FR x1) + Rabs (FR x2)) in *. set (n := IZR (v_slices v)) in *. set (w := (FR x2 - FR x1) / n) in *.
  assert (M : 0 <= m <= / 4 * wide) by (unfold m; pose proof (Rabs_pos (FR x1)); pose proof (Rabs_pos (FR x2)); lra).
  assert (Nn : 2 <= n <= 1000) by (unfold n; split; apply IZR_le; lia).
  assert (WM : Rabs (n * w) <= m).
  { unfold w. replace (n * ((FR x2 - FR x1) / n)) with (FR x2 - FR x1) by (field; lra). unfold m.
    apply Rle_trans with (1 := Rabs_triang _ _). rewrite Rabs_Ropp. lra. }
  assert (S1 : p2 (-50) * m + p2 (-450) <= / 4 * wide).
  { assert (p2 (-50) * m <= / 2 * m) by (apply Rmult_le_compat_r; [lra|]; rewrite <- p2_1, <- p2_neg; apply p2_le; lia).
    assert (p2 (-450) <= 1) by (rewrite <- p2_0; apply p2_le; lia). lra. }
  assert (S2 : p2 (-46) * m + p2 (-450) <= / 4 * wide).
  { assert (p2 (-46) * m <= / 2 * m) by (apply Rmult_le_compat_r; [lra|]; rewrite <- p2_1, <- p2_neg; apply p2_le; lia).
    assert (p2 (-450) <= 1) by (rewrite <- p2_0; apply p2_le; lia). lra. }
  assert (IT : forall t, 0 <= t <= n -> Rabs (t * w) <= m).
  { intros t T. apply Rle_trans with (2 := WM). rewrite !Rabs_mult, (Rabs_right t), (Rabs_right n) by lra.
    apply Rmult_le_compat_r; [apply Rabs_pos|lra]. }
  exists water, m0. split; [exact EW|]. split; [exact EM|]. split.
  { split; [exact Vb|]. split; [exact P0|]. specialize (IT 1 ltac:(lra)). rewrite Rmult_1_l in IT. apply abs_span in IT, Nb. lra. }
  apply Forall_forall. intros s I. destruct (In_nth_error _ _ I) as (i & Ei). destruct (F i s Ei) as (Vx & Nx).
  split; [exact Vx|]. split.
  - assert (Li : (i < Z.to_nat (v_slices v))%nat) by (rewrite <- LN; apply nth_error_Some; rewrite Ei; discriminate).
    assert (Ti : 0 <= INR i + / 2 <= n).
    { pose proof (pos_INR i). assert (INR i <= n - 1); [|lra]. rewrite INR_IZR_INZ. unfold n. rewrite <- minus_IZR. apply IZR_le. lia. }
    specialize (IT _ Ti). apply abs_span in IT, Nx, B1. apply Rabs_le. lra.
  - rewrite Forall_forall in FM. exact (FM s I).
Qed.
