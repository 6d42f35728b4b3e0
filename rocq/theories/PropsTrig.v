(** * PropsTrig: the sines, cosines and tangents of an analysis at binary64 (C112).

    [FR x] is the real number a binary64 number stands for, [valid x] says that [x] is finite and
    in the one form binary64 has for it, [p2 e] is 2^e; [sin], [cos], [tan], [atan] and [PI] are
    those of the reals. *)
From Coq Require Import ZArith Reals Lra Lia Bool List String SpecFloat.
From Verif Require Import Num RealNum FloatNum Py Validation Utilities Objects Slope Planes Analysis
     RoundTheory NearFacts SumNear WeightNear FosNear CircleNear WaterNear SliceNear
     SinNear AtanNear AngleNear TanNear PropsNear PropsSlice.
Import ListNotations.
Local Open Scope R_scope.

(** The functions the model puts in place of those of the C library. *)
Theorem C112_functions : forall x : float, valid x ->
  (valid (natan x) /\ Rabs (FR (natan x) - atan (FR x)) <= p2 (-53) * Rabs (atan (FR x)) + p2 (-60)) /\
  (Rabs (FR x) <= 199 / 100 ->
   valid (nsin x) /\ Rabs (FR (nsin x) - sin (FR x)) <= p2 (-53) * Rabs (sin (FR x)) + p2 (-60)) /\
  (Rabs (FR x) <= 199 / 100 ->
   valid (ncos x) /\ Rabs (FR (ncos x) - cos (FR x)) <= p2 (-53) * Rabs (cos (FR x)) + p2 (-60)) /\
  (Rabs (FR x) <= 13 / 10 ->
   valid (ntan x) /\ Rabs (FR (ntan x) - tan (FR x)) <= p2 (-53) * Rabs (tan (FR x)) + p2 (-60)) /\
  (valid npi /\ Rabs (FR npi - PI) <= 2 * p2 (-53) * PI).
Proof.
  intros x V. split; [exact (atan_near x V)|]. split; [intros B; apply (sin_near x V); lra|].
  split; [intros B; apply (cos_near x V); lra|]. split; [intros B; apply (tan_near x V); lra|]. exact pi_near.
Qed.
Print Assumptions C112_functions.
Example C112_functions_case : valid (f_of_Z 1) /\ FR (f_of_Z 1) = 1 /\ ncos (f_of_Z 1) <> f_of_Z 0 /\ natan (f_of_Z 1) <> f_of_Z 0.
Proof.
  split; [apply valid_int; reflexivity|]. split; [apply (valid_int 1); reflexivity|].
  split; vm_compute; discriminate.
Qed.

(** The base of a slice.  [e] is the error of its elevation as in C111; where the base lies at
    least 8 e below the centre, cosine and sine are those of the circle at the place of the slice. *)
Theorem C112_slice : forall (v : view float) cx cy r x1 x2 b sl,
  slices_of v cx cy r x1 x2 = Ok (Some (b, sl)) -> (2 <= v_slices v <= 1000)%Z ->
  plain_view v -> plain_section (v_geom v) ->
  valid cx -> valid cy -> valid r -> valid x1 -> valid x2 ->
  Rabs (FR cx) <= p2 300 -> Rabs (FR cy) <= p2 300 -> p2 (-100) <= FR r <= p2 300 ->
  Rabs (FR x1) <= / 8 * p2 300 -> Rabs (FR x2) <= / 8 * p2 300 ->
  Forall (fun s =>
    let x := FR (sl_x s) in
    let h := sqrt (FR r * FR r - (x - FR cx) * (x - FR cx)) in
    forall e,
      (p2 (-24) * FR r + p2 (-53) * Rabs (FR cy) + p2 (-49) * FR (snd (g_top (v_geom v))) <= e \/
       (0 < h /\ p2 (-48) * (FR r * FR r / h) + p2 (-53) * Rabs (FR cy) + p2 (-49) * FR (snd (g_top (v_geom v))) <= e)) ->
    8 * e <= h ->
    (valid (sl_cos s) /\ FR (sl_cos s) <= 1 /\ Rabs (FR (sl_cos s) - h / FR r) <= 7 * p2 (-53) + 5 * (e / FR r)) /\
    (valid (sl_sin s) /\ Rabs (FR (sl_sin s)) <= 1 /\ Rabs (FR (sl_sin s) - (FR cx - x) / FR r) <= 7 * p2 (-53) + 5 * (e / FR r))) sl.
Proof.
  intros v cx cy r x1 x2 b sl Q N PV PS Vcx Vcy Vr V1 V2 Bcx Bcy Br B1 B2.
  destruct (whole_near v cx cy r x1 x2 b sl Q N PV PS Vcx Vcy Vr V1 V2 Bcx Bcy Br B1 B2) as (water & m0 & _ & _ & (_ & Bb) & F).
  apply Forall_impl with (2 := F). clear F. intros s (Vx & Bx & IN & ES) x h e E H8.
  set (mat := match base_material _ _ with Some m => m | None => m0 end) in ES.
  pose proof (slice_angle v water cx cy r b (sl_x s) mat PS Vcx Vcy Vr Vx Bcx Bcy Br Bx Bb IN e E H8) as A.
  rewrite <- ES in A. exact A.
Qed.
Print Assumptions C112_slice.
(** The ten slices of the case of C111: every base lies 6 m below the centre, [e] is a thousandth
    of a millimetre. *)
Example C112_slice_case :
  (exists b sl, slices_of wet_view (f_of_Z 10) (f_of_Z 14) (f_of_Z 8) (f_of_Z 5) (f_of_Z 15) = Ok (Some (b, sl)) /\ List.length sl = 10%nat) /\
  (forall x, 5 <= x <= 15 -> 8 * / 1000000 <= 6 <= sqrt (8 * 8 - (x - 10) * (x - 10))).
Proof.
  split; [exact (proj1 C111_slice_case)|]. intros x B. split; [lra|].
  rewrite <- (sqrt_square 6) by lra. apply sqrt_le_1_alt. nra.
Qed.

(** The coefficient of friction every material is given when it is made. *)
Theorem C112_friction : forall (uw phi c d nm col : pyval float) m,
  new_material uw phi c d nm col = Ok m -> valid (m_friction_angle m) -> FR (m_friction_angle m) <= 74 ->
  let t := tan (FR (m_friction_angle m) * (PI / 180)) in
  valid (m_tan_phi m) /\ Rabs (FR (m_tan_phi m) - t) <= 80 * p2 (-53) * t + p2 (-59).
Proof.
  intros uw phi c d nm col m E V B t. unfold new_material in E.
  destruct (assert_range _ _ _ _ _); [|discriminate E]. cbn [rbind] in E.
  destruct (assert_positive_number phi) eqn:AP; [|discriminate E]. cbn [rbind] in E.
  destruct (assert_number c); [|discriminate E]. cbn [rbind] in E. destruct (assert_number d); [|discriminate E]. cbn [rbind] in E.
  destruct (as_num uw); [|discriminate E]. cbn [rbind] in E. destruct (as_num phi) as [p|] eqn:EP; [|discriminate E]. cbn [rbind] in E.
  destruct (as_num c); [|discriminate E]. cbn [rbind] in E. destruct (as_num d); [|discriminate E]. cbn [rbind] in E.
  destruct (text_arg nm); [|discriminate E]. cbn [rbind] in E. destruct (text_arg col); [|discriminate E]. cbn [rbind] in E.
  injection E as <-. cbn [m_friction_angle m_tan_phi] in *. apply friction_near; [exact V|]. split; [|exact B].
  unfold assert_positive_number in AP. destruct (negb _); [discriminate AP|]. rewrite EP in AP. cbn [rbind] in AP.
  cbn [nltb FNum] in AP. destruct (nz_FR 0 eq_refl) as (V0 & E0). rewrite ltb_FR in AP by assumption. unfold Rltb in AP.
  rewrite E0 in AP. destruct (Rlt_dec (FR p) 0) as [|L]; [discriminate AP|lra].
Qed.
Print Assumptions C112_friction.
Example C112_friction_case : exists m,
  new_material (PInt 20) (PInt 35) (PInt 2) (PInt 5) PNone PNone = Ok m /\
  m_friction_angle m = f_of_Z 35 /\ valid (m_friction_angle m) /\ FR (m_friction_angle m) = 35.
Proof.
  set (q := new_material (PInt 20) (PInt 35) (PInt 2) (PInt 5) PNone PNone).
  assert (A : match q with Ok m => m_friction_angle m = f_of_Z 35 | Err _ => False end) by (vm_compute; reflexivity).
  destruct q as [m|]; [|contradiction]. exists m. split; [reflexivity|]. split; [exact A|]. rewrite A.
  apply valid_int. reflexivity.
Qed.
