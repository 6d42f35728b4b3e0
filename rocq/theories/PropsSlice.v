(** * PropsSlice: a slice of a circle from the stored cross-section to its weight (C111).

    [FR x] is the real number a binary64 number stands for, [valid x] says that [x] is finite and
    in the one form binary64 has for it, [p2 e] is 2^e.  [ground_of] is the surface of the stored
    cross-section, [column] the soil above a base per unit width, [strip_load] and [line_load] what
    a load puts on a strip, [pressure] the water above a base, [layer_at] the layer at an elevation;
    all of them are written with the operations of the reals. *)
From Coq Require Import ZArith Reals Lra Lia Bool List String SpecFloat.
From Verif Require Import Num RealNum FloatNum Py Validation Utilities Objects Slope Planes Analysis
     RoundTheory NearFacts SumNear WeightNear FosNear CircleNear WaterNear SliceNear PropsNear.
Import ListNotations.
Local Open Scope R_scope.

(** [e] is a bound for what rounding does to the base: about 2^-24 of the radius where the circle
    is vertical, 2^-48 r^2 / h where the base lies [h] below the centre. *)
Theorem C111_slice : forall (v : view float) cx cy r x1 x2 b sl,
  slices_of v cx cy r x1 x2 = Ok (Some (b, sl)) -> (2 <= v_slices v <= 1000)%Z ->
  plain_view v -> plain_section (v_geom v) ->
  valid cx -> valid cy -> valid r -> valid x1 -> valid x2 ->
  Rabs (FR cx) <= p2 300 -> Rabs (FR cy) <= p2 300 -> p2 (-100) <= FR r <= p2 300 ->
  Rabs (FR x1) <= / 8 * p2 300 -> Rabs (FR x2) <= / 8 * p2 300 ->
  let soils := map (fun p => (FR (fst p), FR (m_unit_weight (snd p)))) (v_mats v) in
  let n := INR (List.length (v_mats v)) + INR (List.length (v_udls v)) + INR (List.length (v_lls v)) in
  Forall (fun s =>
    let x := FR (sl_x s) in
    let h := sqrt (FR r * FR r - (x - FR cx) * (x - FR cx)) in
    let yb := FR cy - h in
    let yt := Rmax (ground_of (v_geom v) x) yb in
    let xl := FR (nsub (sl_x s) (ndiv b (nz 2))) in let xr := FR (nadd (sl_x s) (ndiv b (nz 2))) in
    let loads := total (fun q => strip_load xl xr (FR (fst (fst q)), FR (snd (fst q)), FR (snd q))) (v_udls v) +
                 total (fun q => line_load xl xr (FR (fst q), FR (snd q))) (v_lls v) in
    let W := column (FR (g_ext_h (v_geom v))) soils yt yb * FR b + loads in
    forall e,
      (p2 (-24) * FR r + p2 (-53) * Rabs (FR cy) + p2 (-49) * FR (snd (g_top (v_geom v))) <= e \/
       (0 < h /\ p2 (-48) * (FR r * FR r / h) + p2 (-53) * Rabs (FR cy) + p2 (-49) * FR (snd (g_top (v_geom v))) <= e)) ->
    (* the base and the top *)
    (valid (sl_yb s) /\ Rabs (FR (sl_yb s) - yb) <= e) /\
    (valid (sl_yt s) /\ Rabs (FR (sl_yt s) - yt) <= e) /\
    (* the weight *)
    (total snd soils <= p2 90 -> loads <= p2 800 ->
     valid (sl_W s) /\
     Rabs (FR (sl_W s) - W) <= (2 * n + 5) * p2 (-53) * W + 3 * total snd soils * FR b * e + (2 * n + 1) * p2 (-500)) /\
    (* the soil at the base, if no boundary between layers is as near as [e] *)
    ((forall rl m, In (rl, m) (v_mats v) -> e < Rabs (FR rl - yb)) ->
     exists m, layer_at (map (fun p => (FR (fst p), snd p)) (v_mats v)) yb = Some m /\
       sl_c s = m_cohesion m /\ sl_tan s = m_tan_phi m) /\
    (* the water *)
    (v_water_RL v = None -> FR (sl_u s) = 0) /\
    (forall rl, v_water_RL v = Some rl -> valid rl -> FR rl <> 0 -> Rabs (FR rl) <= p2 400 ->
     valid (v_water_H v) -> 0 <= FR (v_water_H v) <= 2 ->
     exists xw, external_x (v_geom v) rl = Ok (Some xw) /\
       (valid xw ->
        let U := pressure (FR (v_water_H v)) (FR rl) (FR xw) (FR (fst (g_bot (v_geom v)))) x yt yb in
        valid (sl_u s) /\ Rabs (FR (sl_u s) - U) <= 7 * p2 (-53) * U + 40 * e + p2 (-1000)))) sl.
Proof.
  intros v cx cy r x1 x2 b sl Q N PV PS Vcx Vcy Vr V1 V2 Bcx Bcy Br B1 B2 soils n.
  destruct (whole_near v cx cy r x1 x2 b sl Q N PV PS Vcx Vcy Vr V1 V2 Bcx Bcy Br B1 B2) as (water & m0 & EW & EM & (Vb & Bb) & F).
  apply Forall_impl with (2 := F). clear F. intros s (Vx & Bx & IN & ES) x h yb yt xl xr loads W e E.
  set (mat := match base_material _ _ with Some m => m | None => m0 end) in ES.
  pose proof (slice_base v water cx cy r b (sl_x s) mat PS Vcx Vcy Vr Vx Bcx Bcy Br Bx Bb IN) as (Vyb & _ & Nyb). rewrite <- ES in Vyb, Nyb.
  pose proof (slice_top v water cx cy r b (sl_x s) mat PS Vcx Vcy Vr Vx Bcx Bcy Br Bx Bb IN) as (Vyt & _ & Nyt). rewrite <- ES in Vyt, Nyt.
  specialize (Nyb e E). specialize (Nyt e E).
  split; [split; [exact Vyb|apply Nyb]|]. split; [split; [exact Vyt|exact Nyt]|]. split.
  { intros HS QL. pose proof (slice_weight v water cx cy r b (sl_x s) mat PV PS Vcx Vcy Vr Vx Vb Bcx Bcy Br Bx Bb IN e E HS QL) as A.
    rewrite <- ES in A. replace W with (slice_load v (FR b) yt yb xl xr); [exact A|]. unfold W, loads, slice_load. rewrite Rplus_assoc. reflexivity. }
  split.
  { intros NB. destruct PV as (_ & FL & _).
    assert (FV : Forall (fun p => valid (fst p)) (v_mats v)) by (apply Forall_impl with (2 := FL); intros p P; apply P).
    assert (SB : slice_bottom cx cy r (sl_x s) = sl_yb s) by (rewrite ES at 2; reflexivity).
    assert (LA : exists m, layer_at (map (fun p => (FR (fst p), snd p)) (v_mats v)) (FR (sl_yb s)) = Some m).
    { clear -EM. induction (v_mats v) as [|(rl, m) l IH]; [now elim EM|]. destruct l as [|p l]; [exists m; reflexivity|].
      destruct (IH ltac:(discriminate)) as (m' & E). cbn [map fst snd layer_at] in *.
      destruct (Rlt_dec (FR rl) (FR (sl_yb s))); eauto. }
    destruct LA as (m & LA). exists m. assert (MM : mat = m).
    { unfold mat. rewrite SB, (base_material_is _ _ FV Vyb), LA. reflexivity. }
    split; [|rewrite ES, MM; split; reflexivity]. rewrite <- LA. symmetry. apply layer_same with (e := e); [apply Nyb|].
    intros rl m' I. apply in_map_iff in I as ((rl', m'') & E1 & I). injection E1 as <- <-. exact (NB rl' m'' I). }
  unfold water_data, water_level in EW. split.
  { intros EN. rewrite EN in EW. injection EW as <-. rewrite ES. cbn [make_slice sl_u]. apply (nz_FR 0). reflexivity. }
  intros rl ERL VRL NZ BRL VH BH. rewrite ERL in EW. cbn [neqb FNum] in EW.
  destruct (nz_FR 0 eq_refl) as (V0 & E0). rewrite eqb_FR in EW by assumption. unfold Reqb in EW. rewrite E0 in EW.
  destruct (Req_EM_T (FR rl) 0); [contradiction|]. destruct (external_x (v_geom v) rl) as [[xw|]|]; try discriminate EW.
  cbn [rbind] in EW. injection EW as <-. exists xw. split; [reflexivity|]. intros Vxw U.
  pose proof (slice_water v (Some (rl, xw)) cx cy r b (sl_x s) mat PS Vcx Vcy Vr Vx Bcx Bcy Br Bx Bb IN e rl xw E eq_refl VRL Vxw BRL VH BH) as A.
  rewrite <- ES in A. exact A.
Qed.
Print Assumptions C111_slice.
(** Two layers, a strip and a line load, water at elevation 8: the base is within a thousandth of
    a millimetre, for every slice. *)
Definition wet_view : view float :=
  MkView flat_g [(f_of_Z 8, near_mat 20); (f_of_Z 6, near_mat 18)] [(f_of_Z 9, f_of_Z 12, f_of_Z 10)] [(f_of_Z 10, f_of_Z 7)]
    (Some (f_of_Z 8)) (f_of_Z 1) (MkLimits (f_of_Z 0) (f_of_Z 20) (f_of_Z 8) (f_of_Z 8)) 10 500 (f_of_Z 1) (f_lit 1 100) 100.
Example C111_slice_case :
  (exists b sl, slices_of wet_view (f_of_Z 10) (f_of_Z 14) (f_of_Z 8) (f_of_Z 5) (f_of_Z 15) = Ok (Some (b, sl)) /\ List.length sl = 10%nat) /\
  plain_view wet_view /\ plain_section (v_geom wet_view) /\
  total snd (map (fun p => (FR (fst p), FR (m_unit_weight (snd p)))) (v_mats wet_view)) = 38 /\ 38 <= p2 90 /\
  (exists xw, external_x (v_geom wet_view) (f_of_Z 8) = Ok (Some xw) /\ valid xw) /\
  FR (f_of_Z 14) = 14 /\ FR (f_of_Z 8) = 8 /\ FR (snd (g_top (v_geom wet_view))) = 10 /\
  p2 (-24) * 8 + p2 (-53) * Rabs 14 + p2 (-49) * 10 <= / 1000000 /\
  layer_at (map (fun p => (FR (fst p), snd p)) (v_mats wet_view)) (13 / 2) = Some (near_mat 18).
Proof.
  assert (G : f_lit 3 4 = S754_finite false 6755399441055744 (-53)) by (vm_compute; reflexivity).
  assert (VG : valid (f_lit 3 4)) by (rewrite G; split; reflexivity).
  assert (EG : FR (f_lit 3 4) = 3 / 4).
  { rewrite G, (FR_dyadic _ (-53)) by lia. change (2 ^ (- -53))%Z with 9007199254740992%Z. lra. }
  split.
  { set (q := slices_of wet_view (f_of_Z 10) (f_of_Z 14) (f_of_Z 8) (f_of_Z 5) (f_of_Z 15)).
    assert (A : match q with Ok (Some (_, sl)) => List.length sl = 10%nat | _ => False end) by (vm_compute; reflexivity).
    destruct q as [[(b & sl)|]|]; try contradiction. exists b, sl. split; [reflexivity|exact A]. }
  split; [exact (proj1 C106_weight_case)|]. split.
  { unfold plain_section, wet_view. cbn [v_geom flat_g g_top g_bot g_gradient fst snd]. rewrite EG.
    rewrite !(fun z p => proj2 (valid_int z p)) by (vm_compute; reflexivity).
    split; [repeat (split; [apply valid_int; reflexivity|]); exact VG|]. pose proof wide_big. lra. }
  assert (P90 : p2 90 = IZR (2 ^ 90)) by (rewrite p2_IZR by lia; reflexivity).
  split. { unfold wet_view. cbn [v_mats map fst snd near_mat m_unit_weight total fold_right]. rewrite !(fun z p => proj2 (valid_int z p)) by (vm_compute; reflexivity). lra. }
  split; [rewrite P90; apply IZR_le; vm_compute; discriminate|]. split.
  { destruct (external_x (v_geom wet_view) (f_of_Z 8)) as [[xw|]|] eqn:EX; try (exfalso; revert EX; vm_compute; discriminate).
    exists xw. split; [reflexivity|]. apply valid_b_ok. revert EX. vm_compute. intros E. injection E as <-. reflexivity. }
  split; [apply valid_int; reflexivity|]. split; [apply valid_int; reflexivity|]. split; [exact (proj2 (valid_int 10 eq_refl))|]. split.
  { rewrite Rabs_right by lra. change (-24)%Z with (- (24))%Z. change (-53)%Z with (- (53))%Z. change (-49)%Z with (- (49))%Z.
    rewrite !p2_neg, !p2_IZR by lia. change (2 ^ 24)%Z with 16777216%Z. change (2 ^ 53)%Z with 9007199254740992%Z.
    change (2 ^ 49)%Z with 562949953421312%Z. lra. }
  unfold wet_view. cbn [v_mats map fst snd layer_at]. rewrite !(fun z p => proj2 (valid_int z p)) by (vm_compute; reflexivity).
  destruct (Rlt_dec 8 (13 / 2)); [lra|reflexivity].
Qed.
