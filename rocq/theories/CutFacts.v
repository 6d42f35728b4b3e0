(** * CutFacts: the quantities along the base of a circle, and the factor of safety when
    the circle is cut into more and more slices (C92, C93). *)
From Coq Require Import ZArith Reals Lra Lia List Bool.
From Verif Require Import Num Py Validation Utilities Objects Slope Planes Analysis
     RealNum RealFacts ListFacts Spec PlaneFacts CircleFacts SoilFacts SliceFacts ViewFacts FosFacts
     MidSum Tame SliceLimit.
Import ListNotations.
Local Open Scope R_scope.

(** The same slope cut into [n] slices *)
Definition cut (n : nat) (v : view R) : view R :=
  MkView (v_geom v) (v_mats v) (v_udls v) (v_lls v) (v_water_RL v) (v_water_H v)
         (v_limits v) (Z.of_nat n) (v_iterations v) (v_min_failure v) (v_tolerance v) (v_max_iterations v).

(** Direction of the base at [x] *)
Definition cos_at (cx r x : R) : R := drop_at cx r x / r.
Definition sin_at (cx r x : R) : R := (cx - x) / r.
Definition top_at (g : geom R) (cx cy r x : R) : R := Rmax (surface g x) (base_at cx cy r x).

(** What the ground is like above and at the base: weight of the soil per length, cohesion,
    tangent of the friction angle and water pressure *)
Record along (v : view R) (cx cy r a b : R) (rho c t u : R -> R) : Prop := {
  al_rho : forall x, a < x < b ->
    soil_weight (v_mats v) 1 (base_at cx cy r x) (top_at (v_geom v) cx cy r x) (rho x);
  al_mat : forall x, a < x < b -> exists m, layer_at (v_mats v) (base_at cx cy r x) m /\
    c x = m_cohesion m /\ t x = m_tan_phi m;
  al_u : forall x, a < x < b -> u x = water_at (v_geom v) (v_water_H v) (v_water_RL v) x
    (top_at (v_geom v) cx cy r x) (base_at cx cy r x);
}.

(** Force along the base and resistance, per length *)
Definition push (us : list (R * R * R)) (cx r : R) (rho : R -> R) (x : R) : R :=
  (rho x + strip_at us x) * sin_at cx r x.
Definition hold (us : list (R * R * R)) (cx r : R) (rho c t u : R -> R) (x : R) : R :=
  c x / cos_at cx r x +
  Rmax 0 ((rho x + strip_at us x) * cos_at cx r x - u x / cos_at cx r x) * t x.
(** The same for Bishop's equation with the factor [F] *)
Definition m_at (cx r : R) (t : R -> R) (F x : R) : R := cos_at cx r x + sin_at cx r x * t x / F.
Definition bishop_hold (us : list (R * R * R)) (cx r : R) (rho c t u : R -> R) (F x : R) : R :=
  (c x + (rho x + strip_at us x - u x) * t x) / m_at cx r t F x.

Section Base.
  Context (v : view R) (G : good_geom (v_geom v)) (DS : descending (v_mats v)) (MA : v_mats v <> []).
  Context (cx cy r a b : R) (AB : a < b) (RP : 0 < r).
  Context (IN : forall x, a <= x <= b -> (x - cx) * (x - cx) < r * r).
  Notation g := (v_geom v).
  Notation L := (v_mats v).

  Lemma near x : a <= x <= b -> exists d, 0 < d /\ forall y, x - d <= y <= x + d -> (y - cx) * (y - cx) < r * r.
  Proof.
    intros X. specialize (IN x X). assert (Q : - r < x - cx < r) by nra.
    exists (Rmin (r - (x - cx)) (r + (x - cx)) / 2).
    assert (P : 0 < Rmin (r - (x - cx)) (r + (x - cx))) by (apply Rmin_glb_lt; lra).
    pose proof (Rmin_l (r - (x - cx)) (r + (x - cx))). pose proof (Rmin_r (r - (x - cx)) (r + (x - cx))).
    split; [lra|]. intros y Y. assert (- r < y - cx < r) by lra. nra.
  Qed.
  Lemma id_cont y : continuity_pt (fun x => x) y.
  Proof. apply derivable_continuous_pt, derivable_pt_id. Qed.
  Lemma const_cont k y : continuity_pt (fun _ => k) y.
  Proof. apply continuity_pt_const. intros ? ?; reflexivity. Qed.
  Lemma drop_cont y : (y - cx) * (y - cx) < r * r -> continuity_pt (drop_at cx r) y.
  Proof.
    intros Y. unfold drop_at. apply (continuity_pt_comp (fun x => r * r - (x - cx) * (x - cx)) sqrt).
    - apply (continuity_pt_minus (fun _ => r * r) (fun x => (x - cx) * (x - cx))); [apply const_cont|].
      apply (continuity_pt_mult (fun x => x - cx) (fun x => x - cx));
        apply (continuity_pt_minus (fun x => x) (fun _ => cx)); auto using id_cont, const_cont.
    - apply continuity_pt_sqrt. lra.
  Qed.
  Lemma drop_positive y : (y - cx) * (y - cx) < r * r -> 0 < drop_at cx r y.
  Proof. intros Y. unfold drop_at. apply sqrt_lt_R0. lra. Qed.
  Lemma cos_pos y : (y - cx) * (y - cx) < r * r -> 0 < cos_at cx r y.
  Proof. intros Y. apply Rdiv_lt_0_compat; auto using drop_positive. Qed.
  Lemma cos_cont y : (y - cx) * (y - cx) < r * r -> continuity_pt (cos_at cx r) y.
  Proof.
    intros Y. apply (continuity_pt_mult (drop_at cx r) (fun _ => / r)); auto using drop_cont, const_cont.
  Qed.
  Lemma sin_cont y : continuity_pt (sin_at cx r) y.
  Proof.
    apply (continuity_pt_mult (fun x => cx - x) (fun _ => / r)); [|apply const_cont].
    apply (continuity_pt_minus (fun _ => cx) (fun x => x)); auto using id_cont, const_cont.
  Qed.
  Lemma cos_tame x : a <= x <= b -> tame (cos_at cx r) x.
  Proof. intros X. destruct (near x X) as (d & D & N). apply tame_cont with d; auto using cos_cont. Qed.
  Lemma sec_tame x : a <= x <= b -> tame (fun y => / cos_at cx r y) x.
  Proof.
    intros X. destruct (near x X) as (d & D & N). apply tame_cont with d; auto. intros y Y.
    apply (continuity_pt_inv (cos_at cx r)); auto using cos_cont. pose proof (cos_pos y (N y Y)). lra.
  Qed.
  Lemma sin_tame x : tame (sin_at cx r) x.
  Proof. apply tame_cont with 1; [lra|]. intros y _. apply sin_cont. Qed.
  Lemma base_tame x : a <= x <= b -> tame (base_at cx cy r) x.
  Proof.
    intros X. destruct (near x X) as (d & D & N). apply tame_cont with d; auto. intros y Y.
    apply (continuity_pt_minus (fun _ => cy) (drop_at cx r)); auto using drop_cont, const_cont.
  Qed.
  Lemma surface_cont y : continuity_pt (surface g) y.
  Proof.
    unfold surface, clamp.
    apply (continuity_pt_minus (fun _ => snd (g_top g)) (fun x => _ * g_gradient g)); [apply const_cont|].
    apply (continuity_pt_mult (fun x => Rmax (fst (g_top g)) (Rmin (fst (g_bot g)) x) - fst (g_top g)) (fun _ => g_gradient g));
      [|apply const_cont].
    apply (continuity_pt_minus (fun x => Rmax (fst (g_top g)) (Rmin (fst (g_bot g)) x)) (fun _ => fst (g_top g)));
      [|apply const_cont].
    apply cont_max; [apply const_cont|]. apply cont_min; [apply const_cont|apply id_cont].
  Qed.
  Lemma top_tame x : a <= x <= b -> tame (top_at g cx cy r) x.
  Proof.
    intros X. apply (tame_max (surface g) (base_at cx cy r)); auto using base_tame.
    apply tame_cont with 1; [lra|]. intros y _. apply surface_cont.
  Qed.

  (** ** Weight of the soil *)
  Lemma column_tame (M : layering) yt yb x : tame yt x -> tame yb x -> tame (fun y => column M (yt y) (yb y)) x.
  Proof.
    intros T B. induction M as [|[rl m] M IH]; [exact (tame_const 0 x)|]. destruct M as [|[rl' m'] M].
    - cbn [column]. apply tame_mult; [apply tame_const|]. apply tame_max; [apply tame_const|]. now apply tame_minus.
    - change (tame (fun y => column ((rl', m') :: M) (yt y) (yb y) +
                             (m_unit_weight m - m_unit_weight m') * pos (yt y - Rmax (yb y) rl)) x).
      apply tame_plus; auto. apply tame_mult; [apply tame_const|]. apply tame_max; [apply tame_const|].
      apply tame_minus; auto. apply tame_max; auto. apply tame_const.
  Qed.
  Definition rho0 (x : R) : R := column L (top_at g cx cy r x) (base_at cx cy r x).
  Lemma rho0_tame x : a <= x <= b -> tame rho0 x.
  Proof. intros X. apply column_tame; auto using top_tame, base_tame. Qed.
  Lemma soil_column w yb yt W : yb <= yt -> soil_weight L w yb yt W -> W = w * column L yt yb.
  Proof.
    intros Y SW. destruct (weight_fun_int L yb yt Y) as (pr & E).
    apply (soil_weight_det L w yb yt _ _ MA Y SW). exists (weight_fun L), pr.
    split; [now apply weight_fun_layer|now rewrite E].
  Qed.

  (** ** Strength *)
  Lemma base_away rl x : a <= x <= b -> base_at cx cy r x <> rl -> exists e, 0 < e /\
    forall y, x - e < y < x + e ->
      (if Rlt_dec rl (base_at cx cy r y) then true else false) = (if Rlt_dec rl (base_at cx cy r x) then true else false).
  Proof.
    intros X NE.
    assert (B : continuity_pt (base_at cx cy r) x).
    { apply (continuity_pt_minus (fun _ => cy) (drop_at cx r)); [apply const_cont|apply drop_cont; now apply IN]. }
    destruct (B (Rabs (base_at cx cy r x - rl)) ltac:(apply Rabs_pos_lt; lra)) as (e & P & H).
    exists e. split; [exact P|]. intros y Y. destruct (Req_dec y x) as [->|Ny]; auto.
    assert (Q : Rabs (base_at cx cy r y - base_at cx cy r x) < Rabs (base_at cx cy r x - rl)).
    { apply H. split; [split; [exact I|congruence]|]. cbn. unfold R_dist. apply Rabs_def1; lra. }
    destruct (Rlt_dec rl (base_at cx cy r y)), (Rlt_dec rl (base_at cx cy r x)); auto; exfalso;
      unfold Rabs in Q; destruct (Rcase_abs _), (Rcase_abs _); lra.
  Qed.
  Lemma below_settled rl x : a <= x <= b ->
    settled (fun y => if Rlt_dec rl (base_at cx cy r y) then true else false) x.
  Proof.
    intros X. destruct (near x X) as (d & D & N).
    assert (DS' : forall y z, x - d <= y <= x + d -> x - d <= z <= x + d ->
              (y - cx) * (y - cx) < (z - cx) * (z - cx) -> base_at cx cy r y < base_at cx cy r z).
    { intros y z Y Z Q. unfold base_at. apply Rplus_lt_compat_l, Ropp_lt_contravar. unfold drop_at.
      apply sqrt_lt_1; pose proof (N y Y); pose proof (N z Z); lra. }
    destruct (Req_dec (base_at cx cy r x) rl) as [E|NE].
    - (* the base crosses the level at [x] *)
      split.
      + destruct (Rle_dec x cx) as [C|C].
        * exists d, true. split; auto. intros y Y. destruct (Rlt_dec _ _) as [|Q]; auto. exfalso. apply Q.
          rewrite <- E. apply DS'; nra.
        * exists (Rmin d (x - cx)), false. pose proof (Rmin_l d (x - cx)). pose proof (Rmin_r d (x - cx)).
          split; [apply Rmin_glb_lt; lra|]. intros y Y. destruct (Rlt_dec _ _) as [Q|]; auto. exfalso.
          assert (base_at cx cy r y < base_at cx cy r x) by (apply DS'; nra). lra.
      + destruct (Rle_dec cx x) as [C|C].
        * exists d, true. split; auto. intros y Y. destruct (Rlt_dec _ _) as [|Q]; auto. exfalso. apply Q.
          rewrite <- E. apply DS'; nra.
        * exists (Rmin d (cx - x)), false. pose proof (Rmin_l d (cx - x)). pose proof (Rmin_r d (cx - x)).
          split; [apply Rmin_glb_lt; lra|]. intros y Y. destruct (Rlt_dec _ _) as [Q|]; auto. exfalso.
          assert (base_at cx cy r y < base_at cx cy r x) by (apply DS'; nra). lra.
    - destruct (base_away rl x X NE) as (e & P & K).
      split; exists e; eexists; (split; [lra|]); intros y Y; apply K; lra.
  Qed.
  Lemma layer_settled (M : layering) x : a <= x <= b -> settled (fun y => base_material M (base_at cx cy r y)) x.
  Proof.
    intros X. induction M as [|[rl m] M IH]; [exact (settled_const None x)|]. destruct M as [|p M]; [exact (settled_const (Some m) x)|].
    pose proof (settled_pair (fun q o => if (q : bool) then Some m else o) _ _ x (below_settled rl x X) IH) as Q.
    destruct Q as ((d & k & D & E) & (d' & k' & D' & E')).
    split; [exists d, k|exists d', k']; (split; [assumption|]); intros y Y;
      [rewrite <- (E y Y)|rewrite <- (E' y Y)]; clear; cbn [base_material]; unR;
      destruct (Rlt_dec rl (base_at cx cy r y)) as [Q|Q];
      [rewrite (proj2 (Rltb_true _ _)) by assumption|rewrite (proj2 (Rltb_false _ _)) by lra|
       rewrite (proj2 (Rltb_true _ _)) by assumption|rewrite (proj2 (Rltb_false _ _)) by lra]; destruct p; reflexivity.
  Qed.
  Lemma layer_near (M : layering) x : a <= x <= b -> (forall rl m, In (rl, m) M -> base_at cx cy r x <> rl) ->
    exists e, 0 < e /\ forall y, x - e < y < x + e ->
      base_material M (base_at cx cy r y) = base_material M (base_at cx cy r x).
  Proof.
    intros X. induction M as [|[rl m] M IH]; intros NE; [exists 1; split; [lra|reflexivity]|].
    destruct IH as (e & P & E); [intros rl' m' J; apply (NE rl' m'); now right|].
    destruct (base_away rl x X (NE rl m (or_introl eq_refl))) as (e' & P' & E').
    exists (Rmin e e'). pose proof (Rmin_l e e'). pose proof (Rmin_r e e'). split; [now apply Rmin_glb_lt|].
    intros y Y. specialize (E y ltac:(lra)). specialize (E' y ltac:(lra)).
    destruct M as [|p M]; [reflexivity|].
    change (base_material ((rl, m) :: p :: M) (base_at cx cy r y)) with
      (if Rltb rl (base_at cx cy r y) then Some m else base_material (p :: M) (base_at cx cy r y)).
    change (base_material ((rl, m) :: p :: M) (base_at cx cy r x)) with
      (if Rltb rl (base_at cx cy r x) then Some m else base_material (p :: M) (base_at cx cy r x)).
    rewrite E. unfold Rltb. destruct (Rlt_dec rl (base_at cx cy r y)), (Rlt_dec rl (base_at cx cy r x));
      congruence.
  Qed.
  Definition of_mat (f : material R -> R) (x : R) : R :=
    match base_material L (base_at cx cy r x) with Some m => f m | None => 0 end.
  Lemma of_mat_tame f x : a <= x <= b -> tame (of_mat f) x.
  Proof.
    intros X. apply settled_tame. apply (settled_map (fun o => match o with Some m => f m | None => 0 end)).
    now apply layer_settled.
  Qed.
  Lemma of_mat_at f x m : layer_at L (base_at cx cy r x) m -> of_mat f x = f m.
  Proof. intros Q. unfold of_mat. apply base_material_spec in Q. now rewrite Q. Qed.

  Lemma of_mat_cont f x : a <= x <= b -> (forall rl m, In (rl, m) L -> base_at cx cy r x <> rl) ->
    continuity_pt (of_mat f) x.
  Proof.
    intros X NE. destruct (layer_near L x X NE) as (e & P & E). intros h Hh. exists e. split; [exact P|].
    intros y (_ & Y). cbn in Y |- *. unfold R_dist in *. unfold of_mat.
    rewrite (E y); [rewrite Rminus_diag_eq, Rabs_R0 by reflexivity; exact Hh|].
    apply Rabs_def2 in Y. lra.
  Qed.

  (** ** Water *)
  Lemma level_settled rl x : settled (fun y => if Rlt_dec (surface g y) rl then true else false) x.
  Proof.
    pose proof (surface_cont x) as C.
    assert (MONO : forall y z, y <= z -> surface g z <= surface g y).
    { intros y z Q. unfold surface. assert (K : 0 <= g_gradient g).
      { pose proof (gg_grad g G). pose proof (gg_bot g G). pose proof (gg_drop g G). nra. }
      assert (clamp (fst (g_top g)) (fst (g_bot g)) y <= clamp (fst (g_top g)) (fst (g_bot g)) z).
      { unfold clamp. rminmax; lra. }
      nra. }
    destruct (Req_dec (surface g x) rl) as [E|NE].
    - split.
      + exists 1, false. split; [lra|]. intros y Y. destruct (Rlt_dec _ _) as [Q|]; auto. exfalso.
        pose proof (MONO y x ltac:(lra)). lra.
      + (* flat or falling to the right *)
        destruct (Classical_Prop.classic (exists z, x < z /\ forall y, x < y < z -> surface g y = rl)) as [(z & Z & Q)|Q].
        * exists (z - x), false. split; [lra|]. intros y Y. destruct (Rlt_dec _ _) as [W|]; auto.
          rewrite (Q y ltac:(lra)) in W. lra.
        * exists 1, true. split; [lra|]. intros y Y. destruct (Rlt_dec _ _) as [|W]; auto. exfalso. apply Q.
          exists y. split; [lra|]. intros z Z. pose proof (MONO x z ltac:(lra)). pose proof (MONO z y ltac:(lra)). lra.
    - destruct (C (Rabs (surface g x - rl)) ltac:(apply Rabs_pos_lt; lra)) as (e & P & H).
      assert (K : forall y, x - e < y < x + e ->
        (if Rlt_dec (surface g y) rl then true else false) = (if Rlt_dec (surface g x) rl then true else false)).
      { intros y Y. destruct (Req_dec y x) as [->|Ny]; auto.
        assert (Q : Rabs (surface g y - surface g x) < Rabs (surface g x - rl)).
        { apply H. split; [split; [exact I|congruence]|]. cbn. unfold R_dist. apply Rabs_def1; lra. }
        destruct (Rlt_dec (surface g y) rl), (Rlt_dec (surface g x) rl); auto; exfalso;
          unfold Rabs in Q; destruct (Rcase_abs _), (Rcase_abs _); lra. }
      split; exists e; eexists; (split; [lra|]); intros y Y; apply K; lra.
  Qed.
  Definition u0 (x : R) : R :=
    water_at g (v_water_H v) (v_water_RL v) x (top_at g cx cy r x) (base_at cx cy r x).
  Lemma u0_tame x : a <= x <= b -> tame u0 x.
  Proof.
    intros X. unfold u0, water_at. destruct (v_water_RL v) as [rl|]; [|apply tame_const].
    destruct (Req_EM_T rl 0); [apply tame_const|].
    apply tame_mult.
    - apply tame_mult; [apply tame_const|]. apply tame_max; [apply tame_const|].
      apply tame_minus; [|now apply base_tame]. apply tame_min; [apply tame_const|now apply top_tame].
    - apply settled_tame.
      pose proof (settled_pair (fun p q : bool => if p then if q then v_water_H v else 1 else 1) _ _ x
                    (level_settled rl x) (settled_lt (fst (g_bot g)) x)) as ((d & k & D & E) & (d' & k' & D' & E')).
      split; [exists d, k|exists d', k']; (split; [assumption|]); intros y Y;
        [rewrite <- (E y Y)|rewrite <- (E' y Y)];
        destruct (Rlt_dec (surface g y) rl), (Rlt_dec y (fst (g_bot g))); reflexivity.
  Qed.
  Lemma strip_tame us x : tame (strip_at us) x.
  Proof.
    unfold strip_at. induction us as [|u us IH]; [exact (tame_const 0 x)|]. cbn [map rsum].
    apply (tame_plus (fun y => if Rle_dec (fst (fst u)) y then if Rlt_dec y (snd (fst u)) then snd u else 0 else 0)); auto.
    apply settled_tame.
    pose proof (settled_pair (fun p q : bool => if p then 0 else if q then snd u else 0) _ _ x
                  (settled_lt (fst (fst u)) x) (settled_lt (snd (fst u)) x)) as ((d & k & D & E) & (d' & k' & D' & E')).
    split; [exists d, k|exists d', k']; (split; [assumption|]); intros y Y;
      [rewrite <- (E y Y)|rewrite <- (E' y Y)];
      destruct (Rlt_dec y (fst (fst u))), (Rlt_dec y (snd (fst u))), (Rle_dec (fst (fst u)) y); auto; lra.
  Qed.

  (** ** Everything that is added up has an integral *)
  Notation c0 := (of_mat (@m_cohesion R)).
  Notation t0 := (of_mat (@m_tan_phi R)).
  Lemma along_own : along v cx cy r a b rho0 c0 t0 u0.
  Proof.
    constructor.
    - intros x X. unfold rho0. destruct (weight_fun_int L (base_at cx cy r x) (top_at g cx cy r x) (Rmax_r _ _)) as (pr & E).
      exists (weight_fun L), pr. split; [now apply weight_fun_layer|]. rewrite E. ring.
    - intros x X. destruct (layer_at_exists L (base_at cx cy r x) MA) as (m & Q). exists m. split; auto.
      split; now apply of_mat_at.
    - reflexivity.
  Qed.
  Lemma along_eq rho c t u : along v cx cy r a b rho c t u -> forall x, a < x < b ->
    rho x = rho0 x /\ c x = c0 x /\ t x = t0 x /\ u x = u0 x.
  Proof.
    intros [A1 A2 A3] x X. split; [|split; [|split]].
    - specialize (A1 x X). apply soil_column in A1; [|apply Rmax_r]. rewrite A1. unfold rho0. ring.
    - destruct (A2 x X) as (m & Q & -> & _). symmetry. now apply of_mat_at.
    - destruct (A2 x X) as (m & Q & _ & ->). symmetry. now apply of_mat_at.
    - now apply A3.
  Qed.
  Lemma push_tame us x : a <= x <= b -> tame (push us cx r rho0) x.
  Proof. intros X. apply tame_mult; [|apply sin_tame]. apply tame_plus; [now apply rho0_tame|apply strip_tame]. Qed.
  Lemma slack_tame us x : a <= x <= b ->
    tame (fun y => (rho0 y + strip_at us y) * cos_at cx r y - u0 y / cos_at cx r y) x.
  Proof.
    intros X. apply tame_minus.
    - apply tame_mult; [|now apply cos_tame]. apply tame_plus; [now apply rho0_tame|apply strip_tame].
    - apply tame_mult; [now apply u0_tame|now apply sec_tame].
  Qed.
  Lemma hold_tame us x : a <= x <= b -> tame (hold us cx r rho0 c0 t0 u0) x.
  Proof.
    intros X. apply tame_plus.
    - apply tame_mult; [now apply of_mat_tame|now apply sec_tame].
    - apply tame_mult; [|now apply of_mat_tame]. apply tame_max; [apply tame_const|]. now apply slack_tame.
  Qed.
  Lemma m_tame F x : a <= x <= b -> tame (m_at cx r t0 F) x.
  Proof.
    intros X. apply tame_plus; [now apply cos_tame|]. apply tame_mult; [|apply tame_const].
    apply tame_mult; [apply sin_tame|now apply of_mat_tame].
  Qed.
End Base.
