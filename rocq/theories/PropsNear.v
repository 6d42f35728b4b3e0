(** * PropsNear: how far rounding moves the numbers of an analysis (C105-C108).

    [FR x] is the real number a binary64 number stands for, [valid x] says that [x] is finite
    and in the one form binary64 has for it, and [p2 e] is 2^e.  The exact numbers on the other
    side of each inequality are written with the operations of the reals alone. *)
From Coq Require Import ZArith Reals Lra Lia Bool List String SpecFloat.
From Verif Require Import Num RealNum FloatNum Py Validation Utilities Objects Slope Planes Analysis
     Dynamic Api MonadFacts AnyFacts LayerAny LoadAny FloatWitness RoundTheory NearFacts SumNear WeightNear FosNear CircleNear.
Import ListNotations.
Local Open Scope R_scope.

(** ** C105: the cross-section *)
(** After an accepted [set_external_boundary] every coordinate is a finite number within 2^-50
    of the depth or the width of the model from the exact coordinate. *)
Theorem C105_section : forall (EN : Env) h a l (s s' : st float),
  exec (SetBoundary h a l) s = (Ok tt, s') ->
  let g := s_geom (snd s') in
  let H := FR (g_height g) in let L := FR (g_length g) in
  let MH := FR (s_min_ext_h (snd s)) in let ML := FR (s_min_ext_l (snd s)) in
  valid (g_height g) -> valid (g_length g) -> valid (s_min_ext_h (snd s)) -> valid (s_min_ext_l (snd s)) ->
  / 1000000 <= H <= p2 900 -> / 2000 <= L <= p2 900 -> 0 <= MH <= p2 900 -> 0 <= ML <= p2 900 ->
  let D := Rmax (Rmax (3 * H) MH) (5 / 2 * L) in
  let W := Rmax (Rmax (5 * L) ML) (4 * H) in
  (valid (g_ext_h g) /\ valid (g_ext_l g) /\ valid (fst (g_top g)) /\ valid (fst (g_bot g)) /\
   valid (snd (g_bot g)) /\ valid (g_gradient g)) /\
  Rabs (FR (g_ext_h g) - D) <= p2 (-50) * D /\
  Rabs (FR (g_ext_l g) - W) <= p2 (-50) * W /\
  Rabs (FR (fst (g_top g)) - (W - L) / 2) <= p2 (-50) * W /\
  snd (g_top g) = g_ext_h g /\
  Rabs (FR (fst (g_bot g)) - (W + L) / 2) <= p2 (-50) * W /\
  Rabs (FR (snd (g_bot g)) - (D - H)) <= p2 (-50) * D /\
  Rabs (FR (g_gradient g) - H / L) <= p2 (-50) * (H / L).
Proof. intros EN h a l s s' Q. exact (boundary_close h a l s s' Q). Qed.
Print Assumptions C105_section.
Lemma valid_int z : (Z.abs z < 2 ^ 53)%Z -> valid (f_of_Z z) /\ FR (f_of_Z z) = IZR z.
Proof. exact (int_exact z). Qed.
Lemma vast_1000 : 1000000 <= p2 900.
Proof. exact vast_big. Qed.
Example C105_section_case : forall EN : Env, let s := start (fl 3 1) PNone (fl 4 1) in
  exists s', exec (SetBoundary (fl 5 1) PNone (fl 7 1)) s = (Ok tt, s') /\
  let g := s_geom (snd s') in
  valid (g_height g) /\ valid (g_length g) /\ valid (s_min_ext_h (snd s)) /\ valid (s_min_ext_l (snd s)) /\
  / 1000000 <= FR (g_height g) <= p2 900 /\ / 2000 <= FR (g_length g) <= p2 900 /\
  0 <= FR (s_min_ext_h (snd s)) <= p2 900 /\ 0 <= FR (s_min_ext_l (snd s)) <= p2 900.
Proof.
  intros EN s. set (r := exec (SetBoundary (fl 5 1) PNone (fl 7 1)) s). exists (snd r). split.
  - assert (Q : fst r = Ok tt) by (vm_compute; reflexivity). rewrite <- Q. apply surjective_pairing.
  - assert (A : g_height (s_geom (snd (snd r))) = f_of_Z 5 /\ g_length (s_geom (snd (snd r))) = f_of_Z 7 /\
      s_min_ext_h (snd s) = f_of_Z 6 /\ s_min_ext_l (snd s) = f_of_Z 10).
    { vm_compute. repeat split; reflexivity. }
    destruct A as (E1 & E2 & E3 & E4). cbv zeta. rewrite E1, E2, E3, E4.
    destruct (valid_int 5 eq_refl) as (V1 & ->), (valid_int 7 eq_refl) as (V2 & ->), (valid_int 6 eq_refl) as (V3 & ->),
      (valid_int 10 eq_refl) as (V4 & ->). pose proof vast_1000. repeat split; try apply V1; try apply V2; try apply V3; try apply V4; lra.
Qed.

(** An accepted [set_materials] puts every layer within half a unit in the last place of its
    elevation. *)
Theorem C105_layers : forall (EN : Env) args (s s' : st float), reachable s ->
  exec (SetMaterials args) s = (Ok tt, s') ->
  let e := g_ext_h (s_geom (snd s')) in valid e -> 0 <= FR e <= p2 900 ->
  Forall (fun m => valid (m_depth m) -> 0 <= FR (m_depth m) <= p2 900 ->
    exists rl, m_RL m = Some rl /\ valid rl /\
      Rabs (FR rl - (FR e - FR (m_depth m))) <= p2 (-53) * Rabs (FR e - FR (m_depth m))) (mats_of s').
Proof.
  intros EN args s s' RS Q e Ve Be. destruct (laid_any args s s' RS Q) as (news & _ & _ & F & _).
  rewrite Forall_forall in *. intros m I Vd Bd. exists (nsub e (m_depth m)). split; [exact (F m I)|].
  exact (level_near e (m_depth m) Ve Vd Be Bd).
Qed.
Print Assumptions C105_layers.
Example C105_layers_case : forall EN : Env,
  let s := run (start (fl 3 1) PNone (fl 4 1)) [NewMaterial (fl 20 1) (fl 30 1) (fl 5 1) (fl 2 1) PNone PNone] in
  reachable s /\ exists s', exec (SetMaterials [RefMaterial 0]) s = (Ok tt, s') /\
    FR (g_ext_h (s_geom (snd s'))) = 10 /\ map (fun m => FR (m_depth m)) (mats_of s') = [2].
Proof.
  intros EN s. split.
  - apply reachable_run with (1 := start_ok (fl 3 1) PNone (fl 4 1) ltac:(eexists; vm_compute; reflexivity)).
  - set (r := exec (SetMaterials [RefMaterial 0]) s). exists (snd r). split.
    + assert (Q : fst r = Ok tt) by (vm_compute; reflexivity). rewrite <- Q. apply surjective_pairing.
    + assert (A : g_ext_h (s_geom (snd (snd r))) = f_of_Z 10 /\ map m_depth (mats_of (snd r)) = [f_of_Z 2]).
      { vm_compute. split; reflexivity. }
      destruct A as (E1 & E2). rewrite E1. split; [exact (proj2 (valid_int 10 eq_refl))|].
      rewrite <- (map_map m_depth FR), E2. cbn [map]. f_equal. exact (proj2 (valid_int 2 eq_refl)).
Qed.

(** On the slope the elevation of the ground is exact up to 2^-50 of the numbers it is the
    difference of; beside the slope it is the stored number itself. *)
Theorem C105_ground : forall (g : geom float) x y, external_y g x = Some y ->
  valid x -> valid (fst (g_top g)) -> valid (snd (g_top g)) -> valid (fst (g_bot g)) -> valid (g_gradient g) ->
  0 <= FR (fst (g_top g)) -> FR x <= p2 900 -> / 2000 <= FR (snd (g_top g)) <= p2 900 -> 0 <= FR (g_gradient g) ->
  let drop := (FR x - FR (fst (g_top g))) * FR (g_gradient g) in drop <= p2 900 ->
  (FR x <= FR (fst (g_top g)) -> y = snd (g_top g)) /\
  (FR (fst (g_top g)) < FR x -> FR (fst (g_bot g)) <= FR x -> y = snd (g_bot g)) /\
  (FR (fst (g_top g)) < FR x < FR (fst (g_bot g)) ->
   valid y /\ Rabs (FR y - (FR (snd (g_top g)) - drop)) <= p2 (-50) * (FR (snd (g_top g)) + drop)).
Proof.
  intros g x y Q Vx Vtx Vty Vbx Vk B1 B2 B3 B4 drop B5. unfold external_y in Q.
  destruct (_ || _) in Q; [discriminate|]. cbn [nleb FNum] in Q. rewrite !leb_FR in Q by assumption. unfold Rleb in Q.
  destruct (Rle_dec (FR x) (FR (fst (g_top g)))).
  { injection Q as <-. split; [auto|]. split; intros; lra. }
  destruct (Rle_dec (FR (fst (g_bot g))) (FR x)).
  { injection Q as <-. split; [lra|]. split; [auto|]. intros; lra. }
  injection Q as <-. split; [lra|]. split; [lra|]. intros _.
  exact (ground_near x g Vx Vtx Vty Vk ltac:(lra) B2 B3 B4 B5).
Qed.
Print Assumptions C105_ground.
Definition flat_g : geom float := MkGeom (f_of_Z 3) (f_of_Z 4) (f_lit 3 4) (f_of_Z 8, f_of_Z 10) (f_of_Z 12, f_of_Z 7) (f_of_Z 20) (f_of_Z 10).
Example C105_ground_case : exists y, external_y flat_g (f_of_Z 10) = Some y /\
  valid (f_of_Z 10) /\ valid (fst (g_top flat_g)) /\ valid (snd (g_top flat_g)) /\ valid (fst (g_bot flat_g)) /\ valid (g_gradient flat_g) /\
  0 <= FR (fst (g_top flat_g)) /\ FR (f_of_Z 10) <= p2 900 /\ / 2000 <= FR (snd (g_top flat_g)) <= p2 900 /\
  FR (g_gradient flat_g) = 3 / 4 /\ (FR (f_of_Z 10) - FR (fst (g_top flat_g))) * FR (g_gradient flat_g) <= p2 900 /\
  FR (fst (g_top flat_g)) < FR (f_of_Z 10) < FR (fst (g_bot flat_g)).
Proof.
  eexists. split; [vm_compute; reflexivity|]. cbn [flat_g g_top g_bot g_gradient fst snd].
  assert (G : f_lit 3 4 = S754_finite false 6755399441055744 (-53)) by (vm_compute; reflexivity).
  assert (VG : valid (f_lit 3 4)) by (rewrite G; split; reflexivity). rewrite G in *.
  rewrite (FR_dyadic _ (-53)) by lia. change (2 ^ (- -53))%Z with 9007199254740992%Z.
  destruct (valid_int 10 eq_refl) as (V1 & ->), (valid_int 8 eq_refl) as (V2 & ->), (valid_int 12 eq_refl) as (V3 & ->).
  pose proof vast_1000. repeat split; try apply V1; try apply V2; try apply V3; try apply VG; try lra.
Qed.

(** ** C106: the weight of a slice *)
(** [span x]: finite, and at most 2^900 either way; [plain_view]: so are the elevations and the
    places of the loads, nothing weighs less than nothing, and there are at most 10^12 layers
    and loads of each kind.  [column] is the soil above the base per unit width, [strip_load]
    and [line_load] what a load puts on the strip. *)
Theorem C106_weight : forall (v : view float) water cx cy r b x mat,
  let s := make_slice v water cx cy r b x mat in
  let xl := nsub x (ndiv b (nz 2)) in let xr := nadd x (ndiv b (nz 2)) in
  plain_view v -> span (sl_yt s) -> span (sl_yb s) -> span xl -> span xr -> valid b -> 0 <= FR b <= p2 400 ->
  let soil := column (FR (g_ext_h (v_geom v)))
                (map (fun p => (FR (fst p), FR (m_unit_weight (snd p)))) (v_mats v)) (FR (sl_yt s)) (FR (sl_yb s)) in
  let W := soil * FR b +
    total (fun q => strip_load (FR xl) (FR xr) (FR (fst (fst q)), FR (snd (fst q)), FR (snd q))) (v_udls v) +
    total (fun q => line_load (FR xl) (FR xr) (FR (fst q), FR (snd q))) (v_lls v) in
  soil <= p2 400 -> W <= p2 900 ->
  let n := INR (List.length (v_mats v)) + INR (List.length (v_udls v)) + INR (List.length (v_lls v)) in
  valid (sl_W s) /\ Rabs (FR (sl_W s) - W) <= (2 * n + 5) * p2 (-53) * W + (2 * n + 1) * p2 (-500).
Proof.
  intros v water cx cy r b x mat s xl xr Pv Yt Yb Xl Xr Vb Bb soil W SF WV n.
  destruct (slice_weight_about v b (sl_yt s) (sl_yb s) xl xr Pv Yt Yb Xl Xr (conj Vb (proj1 Bb)) (proj2 Bb) SF WV) as (V & _ & E).
  split; [exact V|exact E].
Qed.
Print Assumptions C106_weight.
Definition near_mat (uw : Z) : material float :=
  MkMaterial (f_of_Z uw) (f_of_Z 30) (f_of_Z 5) (f_of_Z 4) ""%string ""%string ""%string (f_lit 1 2) None.
Definition near_view : view float :=
  MkView flat_g [(f_of_Z 8, near_mat 20); (f_of_Z 6, near_mat 18)] [(f_of_Z 9, f_of_Z 12, f_of_Z 10)] [(f_of_Z 10, f_of_Z 7)]
    None (f_of_Z 1) (MkLimits (f_of_Z 0) (f_of_Z 20) (f_of_Z 8) (f_of_Z 8)) 10 500 (f_of_Z 1) (f_lit 1 100) 100.
Lemma span_int z : (Z.abs z <= 1000)%Z -> span (f_of_Z z).
Proof.
  intros L. destruct (valid_int z) as (V & E); [lia|]. split; [exact V|]. rewrite E, <- abs_IZR. pose proof vast_1000 as VB.
  apply IZR_le in L. unfold vast. lra.
Qed.
Lemma heavy_int z : (0 <= z <= 1000)%Z -> heavy (f_of_Z z).
Proof. intros L. destruct (valid_int z) as (V & E); [lia|]. split; [exact V|]. rewrite E. apply (IZR_le 0). lia. Qed.
Example C106_weight_case :
  let s := make_slice near_view None (f_of_Z 10) (f_of_Z 14) (f_of_Z 8) (f_of_Z 2) (f_of_Z 10) (near_mat 18) in
  let xl := nsub (f_of_Z 10) (ndiv (f_of_Z 2) (nz 2)) in let xr := nadd (f_of_Z 10) (ndiv (f_of_Z 2) (nz 2)) in
  plain_view near_view /\ span (sl_yt s) /\ span (sl_yb s) /\ span xl /\ span xr /\
  valid (f_of_Z 2) /\ FR (f_of_Z 2) = 2 /\
  column (FR (g_ext_h (v_geom near_view)))
    (map (fun p => (FR (fst p), FR (m_unit_weight (snd p)))) (v_mats near_view)) (FR (sl_yt s)) (FR (sl_yb s)) = 46 /\
  total (fun q => strip_load (FR xl) (FR xr) (FR (fst (fst q)), FR (snd (fst q)), FR (snd q))) (v_udls near_view) = 20 /\
  total (fun q => line_load (FR xl) (FR xr) (FR (fst q), FR (snd q))) (v_lls near_view) = 7 /\
  FR (sl_W s) = 119.
Proof.
  intros s xl xr.
  assert (A : sl_yt s = f_lit 17 2 /\ sl_yb s = f_of_Z 6 /\ xl = f_of_Z 9 /\ xr = f_of_Z 11 /\ sl_W s = f_of_Z 119).
  { vm_compute. repeat split; reflexivity. }
  destruct A as (E1 & E2 & E3 & E4 & E5). rewrite E1, E2, E3, E4, E5. clear.
  assert (Yt : f_lit 17 2 = S754_finite false 4785074604081152 (-49)) by (vm_compute; reflexivity).
  assert (FY : FR (f_lit 17 2) = 17 / 2).
  { rewrite Yt, FR_dyadic by lia. change (2 ^ (- -49))%Z with 562949953421312%Z. lra. }
  assert (VY : valid (f_lit 17 2)) by (rewrite Yt; split; reflexivity). clear Yt.
  assert (SY : span (f_lit 17 2)).
  { split; [exact VY|]. rewrite FY, Rabs_right by lra. pose proof vast_1000. unfold vast. lra. }
  split.
  { unfold plain_view, near_view. cbn [v_geom v_mats v_udls v_lls flat_g g_ext_h List.length INR].
    split; [apply span_int; lia|]. split; [|split; [|split; [|lra]]].
    - repeat (constructor; [split; [apply span_int; cbn; lia|apply heavy_int; cbn; lia]|]). constructor.
    - repeat (constructor; [split; [apply span_int; cbn; lia|split; [apply span_int; cbn; lia|apply heavy_int; cbn; lia]]|]). constructor.
    - repeat (constructor; [split; [apply span_int; cbn; lia|apply heavy_int; cbn; lia]|]). constructor. }
  split; [exact SY|]. split; [apply span_int; lia|]. split; [apply span_int; lia|]. split; [apply span_int; lia|].
  split; [apply valid_int; lia|]. split; [apply valid_int; lia|].
  unfold near_view. cbn [v_geom v_mats v_udls v_lls flat_g g_ext_h map fst snd near_mat m_unit_weight column total fold_right strip_load line_load].
  rewrite FY, !(fun z p => proj2 (valid_int z p)) by (vm_compute; reflexivity).
  split; [|split; [|split; [|reflexivity]]].
  - rewrite (Rmin_left (17 / 2) 10), (Rmax_right 6 8), (Rmin_right (17 / 2) 8), !Rmax_right by lra. lra.
  - rewrite (Rmin_left 11 12), (Rmax_left 9 9), Rmax_right by lra. lra.
  - destruct (Rle_dec 9 10); [|lra]. destruct (Rlt_dec 10 11); lra.
Qed.

(** ** C107: the ordinary factor of safety of given slices *)
(** [hold_error], [pull_error]: a few roundings of the gross resistance and of the gross pull.
    If the pull is clearly positive there is an answer, close to the quotient of the exact sums. *)
Theorem C107_factor : forall (b : float) (sl : list (slice float)), mild b -> Forall plain_slice sl ->
  INR (List.length sl) <= 1000000000000 ->
  let n := INR (List.length sl) in
  let holds := total (hold (FR b)) sl in let pulls := total pull sl in
  let e1 := (2 * n + 9) * p2 (-53) * total (hold_gross (FR b)) sl + 2 * n * p2 (-500) in
  let e2 := (2 * n + 9) * p2 (-53) * total pull_gross sl + 2 * n * p2 (-500) in
  2 * e2 < pulls -> e1 <= pulls -> holds <= p2 400 * pulls ->
  exists F, ordinary_fos b sl = Some F /\ valid F /\
    Rabs (FR F - holds / pulls) <= 3 * (e1 + holds / pulls * e2) / pulls + p2 (-1075).
Proof. exact fos_near. Qed.
Print Assumptions C107_factor.
(** If the pull is clearly negative there is none. *)
Theorem C107_none : forall (b : float) (sl : list (slice float)), Forall plain_slice sl ->
  INR (List.length sl) <= 1000000000000 ->
  let n := INR (List.length sl) in
  total pull sl < - ((2 * n + 9) * p2 (-53) * total pull_gross sl + 2 * n * p2 (-500)) ->
  ordinary_fos b sl = None.
Proof. exact fos_none. Qed.
Print Assumptions C107_none.
Definition near_slice (W : Z) (sin : float) : slice float :=
  MkSlice (f_of_Z 10) (f_of_Z 8) (f_of_Z 6) (f_lit 1 2) sin (f_of_Z W) (f_of_Z 5) (f_lit 1 2) (f_of_Z 2).
Definition down : float := S754_finite false 6755399441055744 (-53).
Definition back : float := S754_finite true 4503599627370496 (-54).
Lemma half_FR : valid (f_lit 1 2) /\ FR (f_lit 1 2) = / 2.
Proof.
  assert (E : f_lit 1 2 = S754_finite false 4503599627370496 (-53)) by (vm_compute; reflexivity). rewrite E.
  split; [split; reflexivity|]. rewrite FR_dyadic by lia. change (2 ^ (- -53))%Z with 9007199254740992%Z. lra.
Qed.
Lemma down_FR : FR down = 3 / 4.
Proof. unfold down. rewrite FR_dyadic by lia. change (2 ^ (- -53))%Z with 9007199254740992%Z. lra. Qed.
Lemma back_FR : FR back = - / 4.
Proof.
  change (FR back) with (-1 * (IZR 4503599627370496 * p2 (-54))).
  change (-54)%Z with (- (54))%Z. rewrite p2_neg, p2_IZR by lia. change (2 ^ 54)%Z with 18014398509481984%Z. lra.
Qed.
Lemma mild_int z : (0 <= z <= 1000)%Z -> mild (f_of_Z z).
Proof.
  intros L. destruct (valid_int z) as (V & E); [lia|]. split; [exact V|]. rewrite E. split; [apply (IZR_le 0); lia|].
  rewrite p2_IZR by lia. apply IZR_le. apply Z.le_trans with 1000%Z; [lia|]. vm_compute. discriminate.
Qed.
Lemma near_plain W sin : (0 <= W <= 1000)%Z -> valid sin -> Rabs (FR sin) <= 1 -> plain_slice (near_slice W sin).
Proof.
  intros L V B. destruct half_FR as (Vh & Eh). unfold plain_slice, near_slice. cbn [sl_W sl_c sl_tan sl_u sl_cos sl_sin].
  split; [now apply mild_int|]. split; [apply mild_int; lia|]. split.
  - split; [exact Vh|]. rewrite Eh. pose proof big_100. lra.
  - split; [apply mild_int; lia|]. split; [|auto]. split; [exact Vh|]. rewrite Eh. split; [|lra].
    apply Rle_trans with (p2 (-1)); [apply p2_le; lia|]. change (-1)%Z with (- (1))%Z. rewrite p2_neg, p2_1. lra.
Qed.
Example C107_factor_case : let sl := [near_slice 100 down; near_slice 40 back] in
  mild (f_of_Z 1) /\ Forall plain_slice sl /\
  total (hold (FR (f_of_Z 1))) sl = 51 /\ total pull sl = 65 /\
  total (hold_gross (FR (f_of_Z 1))) sl = 59 /\ total pull_gross sl = 85 /\
  total pull [near_slice 40 back] = -10 /\ total pull_gross [near_slice 40 back] = 10.
Proof.
  intros sl. pose proof half_FR as (Vh & Eh). pose proof down_FR as Ed. pose proof back_FR as Eb.
  split; [apply mild_int; lia|]. split.
  { unfold sl. constructor; [|constructor; [|constructor]]; apply near_plain; try lia.
    - split; reflexivity.
    - rewrite Ed. rewrite Rabs_right; lra.
    - split; reflexivity.
    - rewrite Eb. rewrite Rabs_left; lra. }
  unfold sl, near_slice, total, hold, hold_gross, pull, pull_gross, base_len.
  cbn [fold_right sl_W sl_c sl_tan sl_u sl_cos sl_sin].
  rewrite Eh, Ed, Eb, !(fun z p => proj2 (valid_int z p)) by (vm_compute; reflexivity).
  rewrite (Rabs_right (3 / 4)), (Rabs_left (- / 4)), !Rmax_right by lra. repeat split; lra.
Qed.

(** ** C108: the places and the bases of the slices of a circle *)
(** Slice [i] of [n] between [xl] and [xr] has its centre at [xl + (i + 1/2) (xr - xl) / n]. *)
Theorem C108_places : forall (v : view float) cx cy r xl xr b sl,
  slices_of v cx cy r xl xr = Ok (Some (b, sl)) -> (2 <= v_slices v <= 1000)%Z ->
  valid xl -> valid xr -> Rabs (FR xl) <= / 8 * p2 400 -> Rabs (FR xr) <= / 8 * p2 400 ->
  let m := Rabs (FR xl) + Rabs (FR xr) in
  let w := (FR xr - FR xl) / IZR (v_slices v) in
  (valid b /\ Rabs (FR b - w) <= p2 (-50) * m + p2 (-450)) /\
  List.length sl = Z.to_nat (v_slices v) /\
  forall i s, nth_error sl i = Some s ->
    valid (sl_x s) /\ Rabs (FR (sl_x s) - (FR xl + (INR i + / 2) * w)) <= p2 (-46) * m + p2 (-450).
Proof. exact places_near. Qed.
Print Assumptions C108_places.
(** The base of a slice lies [h] below the centre of the circle, [h^2 = r^2 - (x - cx)^2]. *)
Theorem C108_bases : forall (v : view float) cx cy r xl xr b sl,
  slices_of v cx cy r xl xr = Ok (Some (b, sl)) ->
  valid cx -> valid cy -> valid r -> Rabs (FR cx) <= p2 400 -> Rabs (FR cy) <= p2 400 -> p2 (-100) <= FR r <= p2 400 ->
  Forall (fun s => valid (sl_x s) -> Rabs (FR (sl_x s)) <= p2 400 ->
    let h := sqrt (FR r * FR r - (FR (sl_x s) - FR cx) * (FR (sl_x s) - FR cx)) in
    let e := Rabs (FR (sl_yb s) - (FR cy - h)) in
    valid (sl_yb s) /\ e <= p2 (-24) * FR r + p2 (-53) * Rabs (FR cy) /\
    (0 < h -> e <= p2 (-48) * (FR r * FR r / h) + p2 (-53) * Rabs (FR cy))) sl.
Proof. exact bases_near. Qed.
Print Assumptions C108_bases.
Definition valid_b (x : float) : bool := match x with S754_nan | S754_infinity _ => false | _ => valid_binary prec emax x end.
Lemma valid_b_ok x : valid_b x = true -> valid x.
Proof. destruct x; intros E; try discriminate E; split; auto; reflexivity. Qed.
Example C108_case : exists b sl,
  slices_of near_view (f_of_Z 10) (f_of_Z 14) (f_of_Z 8) (f_of_Z 5) (f_of_Z 15) = Ok (Some (b, sl)) /\
  v_slices near_view = 10%Z /\ FR (f_of_Z 5) = 5 /\ FR (f_of_Z 15) = 15 /\ FR (f_of_Z 8) = 8 /\ p2 (-100) <= 8 <= p2 400 /\
  FR b = 1 /\ map sl_x sl = map (fun k => f_lit (2 * k + 11) 2) [0; 1; 2; 3; 4; 5; 6; 7; 8; 9]%Z /\
  Forall (fun s => valid (sl_x s) /\ valid (sl_yb s)) sl.
Proof.
  set (q := slices_of near_view (f_of_Z 10) (f_of_Z 14) (f_of_Z 8) (f_of_Z 5) (f_of_Z 15)).
  destruct q as [[(b & sl)|]|] eqn:Q; try (exfalso; revert Q; vm_compute; discriminate).
  exists b, sl. split; [reflexivity|]. split; [reflexivity|].
  rewrite !(fun z p => proj2 (valid_int z p)) by (vm_compute; reflexivity). do 3 (split; [reflexivity|]). split.
  { split; [apply Rle_trans with (p2 0); [apply p2_le; lia|]; rewrite p2_IZR by lia; cbn; lra|].
    apply Rle_trans with (p2 3); [rewrite p2_IZR by lia; cbn; lra|apply p2_le; lia]. }
  assert (A : match q with Ok (Some (b, sl)) => Some (b, map sl_x sl, forallb (fun s => valid_b (sl_x s) && valid_b (sl_yb s)) sl) | _ => None end =
    Some (f_of_Z 1, map (fun k => f_lit (2 * k + 11) 2) [0; 1; 2; 3; 4; 5; 6; 7; 8; 9]%Z, true)) by (vm_compute; reflexivity).
  rewrite Q in A. injection A as -> -> A. split; [exact (proj2 (valid_int 1 eq_refl))|]. split; [reflexivity|].
  apply Forall_forall. intros s I. apply (proj1 (forallb_forall _ _)) with (x := s) in A; [|exact I].
  apply andb_true_iff in A. split; apply valid_b_ok; apply A.
Qed.
