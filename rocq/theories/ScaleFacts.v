(** * ScaleFacts: the unit of force does not matter (C45). *)
From Coq Require Import ZArith Reals Lra Lia List Bool String Permutation Sorted.
From Verif Require Import Num Py Validation Utilities Objects Slope Planes Analysis
     Dynamic Api RealNum RealFacts ListFacts Spec SearchFacts FosFacts.
Import ListNotations.
Local Open Scope R_scope.

(** Multiply the forces of a slope by [k]: unit weights, cohesions, loads. *)
Definition scale_material (k : R) (m : material R) : material R :=
  MkMaterial (k * m_unit_weight m) (m_friction_angle m) (k * m_cohesion m) (m_depth m)
             (m_name m) (m_color m) (m_user_color m) (m_tan_phi m) (m_RL m).
Definition scale_view (k : R) (v : view R) : view R :=
  MkView (v_geom v) (map (fun l => (fst l, scale_material k (snd l))) (v_mats v))
         (map (fun u => (fst u, k * snd u)) (v_udls v))
         (map (fun l => (fst l, k * snd l)) (v_lls v))
         (v_water_RL v) (v_water_H v) (v_limits v) (v_slices v) (v_iterations v)
         (v_min_failure v) (v_tolerance v) (v_max_iterations v).
Definition scale_slice (k : R) (s : slice R) : slice R :=
  MkSlice (sl_x s) (sl_yt s) (sl_yb s) (sl_cos s) (sl_sin s) (k * sl_W s) (k * sl_c s)
          (sl_tan s) (sl_u s).
(** No water table, or one at level zero *)
Definition dry (v : view R) : Prop := v_water_RL v = None \/ v_water_RL v = Some 0.

Section Scale.
  Context (k : R) (K : 0 < k).

  Lemma layers_scale L : forall top : R,
    layers top (map (fun l => (fst l, scale_material k (snd l))) L) =
    map (fun l => (fst l, k * snd l)) (layers top L).
  Proof.
    induction L as [|[rl m] L IH]; intros top; auto. cbn [map layers fst snd].
    destruct L as [|[rl' m'] L]; [reflexivity|]. cbn [map] in *. rewrite IH. reflexivity.
  Qed.
  Lemma fold_layers yt yb l : forall a : R,
    fold_left (fun w x => nadd w (layer_weight yt yb x)) (map (fun x => (fst x, k * snd x)) l) (k * a)
    = k * fold_left (fun w x => nadd w (layer_weight yt yb x)) l a.
  Proof.
    induction l as [|[[t b] u] l IH]; intros a; cbn [map fold_left]; auto.
    rewrite <- IH. f_equal. unfold layer_weight. cbn [fst snd]. unR.
    destruct (Rltb _ 0); ring.
  Qed.
  Lemma strip_scale v b yt yb : strip_weight (scale_view k v) b yt yb = k * strip_weight v b yt yb.
  Proof.
    unfold strip_weight. cbn [scale_view v_geom v_mats]. rewrite layers_scale.
    replace (nz 0 : R) with (k * nz 0) at 1 by (unR; ring).
    rewrite fold_layers. unR. ring.
  Qed.
  Lemma udls_scale a b us : forall W : R,
    fold_left (udl_on a b) (map (fun u => (fst u, k * snd u)) us) (k * W) =
    k * fold_left (udl_on a b) us W.
  Proof.
    induction us as [|[[l r] m] us IH]; intros W; cbn [map fold_left]; auto.
    rewrite <- IH. f_equal. unfold udl_on. cbn [fst snd]. unR. ring.
  Qed.
  Lemma lls_scale a b ls : forall W : R,
    fold_left (ll_on a b) (map (fun u => (fst u, k * snd u)) ls) (k * W) =
    k * fold_left (ll_on a b) ls W.
  Proof.
    induction ls as [|[x m] ls IH]; intros W; cbn [map fold_left]; auto.
    rewrite <- IH. f_equal. unfold ll_on. cbn [fst snd]. destruct (_ && _); unR; ring.
  Qed.
  Lemma base_material_scale L y :
    base_material (map (fun l => (fst l, scale_material k (snd l))) L) y =
    option_map (scale_material k) (base_material L y).
  Proof.
    induction L as [|[rl m] L IH]; auto. cbn [map base_material fst snd].
    destruct L as [|[rl' m'] L]; [reflexivity|]. cbn [map] in *. rewrite IH.
    destruct (nltb rl y); reflexivity.
  Qed.
  Lemma make_slice_scale v water cx cy r b x m :
    make_slice (scale_view k v) water cx cy r b x (scale_material k m) =
    scale_slice k (make_slice v water cx cy r b x m).
  Proof.
    unfold make_slice, scale_slice. cbv zeta. cbn [scale_view v_geom v_udls v_lls v_water_H
      sl_x sl_yt sl_yb sl_cos sl_sin sl_W sl_c sl_tan sl_u scale_material m_cohesion m_tan_phi].
    rewrite strip_scale, udls_scale, lls_scale. reflexivity.
  Qed.
  Lemma slices_scale v cx cy r xl xr :
    slices_of (scale_view k v) cx cy r xl xr =
    match slices_of v cx cy r xl xr with
    | Ok (Some (b, sl)) => Ok (Some (b, map (scale_slice k) sl))
    | o => o
    end.
  Proof.
    unfold slices_of. cbv zeta. change (v_slices (scale_view k v)) with (v_slices v).
    destruct (nleb _ _); auto. destruct (pydiv _ _) as [b|e]; cbn [rbind]; auto.
    destruct (existsb _ _); auto. destruct (existsb _ _); auto.
    replace (water_data (scale_view k v)) with (water_data v) by reflexivity.
    destruct (water_data v) as [o|e]; cbn [rbind]; auto.
    cbn [scale_view v_mats]. destruct (v_mats v) as [|[rl m] L] eqn:EM; auto.
    cbn [map fst snd].
    change ((rl, scale_material k m) :: map (fun l => (fst l, scale_material k (snd l))) L)
      with (map (fun l => (fst l, scale_material k (snd l))) ((rl, m) :: L)).
    do 3 f_equal. rewrite map_map. apply map_ext. intros x.
    rewrite base_material_scale, <- EM. fold (scale_view k v).
    destruct (base_material _ _); cbn [option_map]; now rewrite <- make_slice_scale.
  Qed.

  (** slices without water *)
  Definition dry_slices (sl : list (slice R)) : Prop := forall s, In s sl -> sl_u s = 0.
  Lemma slices_dry v cx cy r xl xr b sl : dry v ->
    slices_of v cx cy r xl xr = Ok (Some (b, sl)) -> dry_slices sl.
  Proof.
    intros D. unfold slices_of. destruct (nleb _ _); [discriminate|].
    destruct (pydiv _ _); cbn [rbind]; [|discriminate].
    destruct (existsb _ _); [discriminate|]. destruct (existsb _ _); [discriminate|].
    unfold water_data, water_level.
    assert (W : match v_water_RL v with
                | Some rl => if neqb rl (nz 0) then None else Some rl | None => None end = None).
    { destruct D as [-> | ->]; auto. unR. now rewrite Reqb_refl. }
    rewrite W. cbn [rbind]. destruct (v_mats v) as [|[rl m] L]; [discriminate|].
    intros E. injection E as <- <-. intros s I. apply in_map_iff in I as (x & <- & _).
    cbn [make_slice sl_u]. unR. reflexivity.
  Qed.
  Lemma driving_scale sl : driving (map (scale_slice k) sl) = k * driving sl.
  Proof.
    unfold driving. rewrite map_map. induction sl as [|s sl IH]; cbn [map rsum]; [ring|].
    rewrite IH. cbn [scale_slice sl_W sl_sin]. ring.
  Qed.
  Lemma resisting_scale w sl : dry_slices sl -> resisting w (map (scale_slice k) sl) = k * resisting w sl.
  Proof.
    intros D. unfold resisting. rewrite map_map. induction sl as [|s sl IH]; cbn [map rsum]; [ring|].
    rewrite IH by (intros t I; apply D; now right).
    unfold base_len. cbn [scale_slice sl_W sl_cos sl_c sl_tan sl_u].
    rewrite (D s (or_introl eq_refl)), Rmult_0_l, !Rminus_0_r.
    replace (Rmax 0 (k * sl_W s * sl_cos s)) with (k * Rmax 0 (sl_W s * sl_cos s)); [ring|].
    rewrite <- RmaxRmult by lra. f_equal; ring.
  Qed.
  Lemma bishop_scale w F sl : dry_slices sl ->
    bishop_resisting w F (map (scale_slice k) sl) = k * bishop_resisting w F sl.
  Proof.
    intros D. unfold bishop_resisting. rewrite map_map. induction sl as [|s sl IH]; cbn [map rsum]; [ring|].
    rewrite IH by (intros t I; apply D; now right).
    unfold m_alpha. cbn [scale_slice sl_W sl_cos sl_sin sl_c sl_tan sl_u].
    rewrite (D s (or_introl eq_refl)), Rmult_0_l, !Rminus_0_r. unfold Rdiv. ring.
  Qed.
  Lemma ratio_scale a b : b <> 0 -> k * a / (k * b) = a / b.
  Proof. intros B. field. lra. Qed.
  Lemma ordinary_fos_scale w sl : dry_slices sl ->
    ordinary_fos w (map (scale_slice k) sl) = ordinary_fos w sl.
  Proof.
    intros D. rewrite !ordinary_fos_R, driving_scale, resisting_scale by auto.
    destruct (Rle_dec (driving sl) 0) as [L|L], (Rle_dec (k * driving sl) 0) as [L'|L']; auto.
    - exfalso. apply L'. rewrite <- (Rmult_0_r k). apply Rmult_le_compat_l; lra.
    - exfalso. apply L. apply Rmult_le_reg_l with k; lra.
    - f_equal. apply ratio_scale. lra.
  Qed.
  Lemma scale_sign a : (k * a <= 0 <-> a <= 0) /\ (k * a < 0 <-> a < 0).
  Proof.
    repeat split; intros L.
    - apply Rmult_le_reg_l with k; lra.
    - rewrite <- (Rmult_0_r k). apply Rmult_le_compat_l; lra.
    - apply Rmult_lt_reg_l with k; lra.
    - rewrite <- (Rmult_0_r k). apply Rmult_lt_compat_l; lra.
  Qed.
  Lemma finish_scale (d r : R) : 
    (if Rleb (k * d) 0 || Rltb (k * r) 0 then None else Some (k * r / (k * d))) =
    (if Rleb d 0 || Rltb r 0 then None else Some (r / d)).
  Proof.
    destruct (scale_sign d) as (A & _), (scale_sign r) as (_ & B).
    destruct (Rleb d 0) eqn:E1; rbool.
    - rewrite (proj2 (Rleb_true (k * d) 0)) by tauto. reflexivity.
    - rewrite (proj2 (Rleb_false (k * d) 0)) by (apply Rnot_le_lt; intros Q; apply A in Q; lra).
      destruct (Rltb r 0) eqn:E2; rbool.
      + rewrite (proj2 (Rltb_true (k * r) 0)) by tauto. reflexivity.
      + rewrite (proj2 (Rltb_false (k * r) 0)) by (apply Rnot_lt_le; intros Q; apply B in Q; lra).
        cbn [orb]. f_equal. apply ratio_scale. lra.
  Qed.
  Lemma existsb_map {A B} (f : A -> B) p l : existsb p (map f l) = existsb (fun x => p (f x)) l.
  Proof. induction l; cbn; congruence. Qed.
  Lemma bishop_step_scale w sl F : dry_slices sl ->
    bishop_step w (map (scale_slice k) sl) F = bishop_step w sl F.
  Proof.
    intros D. unfold bishop_step. cbv zeta. rewrite !existsb_map.
    cbn [scale_slice sl_sin sl_tan sl_cos]. rewrite ?nsum_R. unR.
    fold (driving (map (scale_slice k) sl)) (driving sl). rewrite driving_scale.
    destruct (Reqb F 0).
    - destruct (existsb _ sl); auto. rewrite map_map.
      rewrite rsum_zero. pose proof (finish_scale (driving sl) 0) as Q.
      rewrite Rmult_0_r in Q. now rewrite Q.
    - destruct (existsb _ sl); auto.
      change (rsum (map _ (map (scale_slice k) sl))) with (bishop_resisting w F (map (scale_slice k) sl)).
      rewrite bishop_scale by auto. rewrite finish_scale. reflexivity.
  Qed.
  Lemma bishop_loop_scale w tol sl n : dry_slices sl -> forall F,
    bishop_loop w tol (map (scale_slice k) sl) n F = bishop_loop w tol sl n F.
  Proof.
    intros D. induction n as [|n IH]; intros F; cbn [bishop_loop]; auto.
    rewrite bishop_step_scale by auto. destruct (bishop_step w sl F) as [[f|]|e]; cbn [rbind]; auto.
    now rewrite IH.
  Qed.

  (** Every circle gets the same factor *)
  Lemma factor_scale v cx cy r : dry v -> bishop (scale_view k v) cx cy r = bishop v cx cy r.
  Proof.
    intros D. unfold bishop, ordinary. cbn [scale_view v_geom]. fold (scale_view k v).
    destruct (circle_external _ _ _ _) as [il|e]; cbn [rbind]; auto.
    destruct (first_two il) as [[a b]|]; auto.
    destruct (assert_strictly_positive_number (PFloat cx)); cbn [rbind]; auto.
    destruct (assert_strictly_positive_number (PFloat cy)); cbn [rbind]; auto.
    destruct (assert_strictly_positive_number (PFloat r)); cbn [rbind]; auto.
    rewrite slices_scale. destruct (slices_of v cx cy r (fst a) (fst b)) as [[[w sl]|]|e] eqn:ES;
      cbn [rbind]; auto.
    pose proof (slices_dry _ _ _ _ _ _ _ _ D ES) as DS.
    rewrite ordinary_fos_scale by auto. destruct (ordinary_fos w sl); auto.
    now apply bishop_loop_scale.
  Qed.
  Lemma planes_scale v : entry_exit_planes (scale_view k v) = entry_exit_planes v.
  Proof.
    unfold entry_exit_planes, left_coords, right_coords.
    cbn [scale_view v_geom v_udls v_lls v_limits v_iterations v_min_failure].
    rewrite !map_length, !map_map. reflexivity.
  Qed.
  Lemma fos_loop_scale v l : dry v -> fos_loop (scale_view k v) l = fos_loop v l.
  Proof.
    intros D. induction l as [|p l IH]; cbn [fos_loop]; auto. rewrite factor_scale by auto.
    now rewrite IH.
  Qed.
  Context {EN : Env}.
  (** and so does a whole analysis *)
  Lemma analyse_scale m (s s' : st R) v :
    view_of s = Ok v -> view_of s' = Ok (scale_view k v) -> dry v ->
    s_planes (snd s') = s_planes (snd s) ->
    fst (analyse_slope m s') = fst (analyse_slope m s) /\
    (fst (analyse_slope m s) = Ok tt ->
     s_search (snd (snd (analyse_slope m s'))) = s_search (snd (snd (analyse_slope m s))) /\
     s_planes (snd (snd (analyse_slope m s'))) = s_planes (snd (snd (analyse_slope m s)))).
  Proof.
    intros E E' D P. unfold analyse_slope, mbind, mret, mlift, self_get, mget.
    rewrite E, E', P. cbn [fst snd]. rewrite planes_scale.
    destruct (s_planes (snd s)) as [|p ps] eqn:EP.
    - destruct (entry_exit_planes v) as [cs|e]; cbn [fst snd]; [|split; auto; discriminate].
      rewrite fos_loop_scale by auto. destruct (fos_loop v cs) as [r done].
      unfold self_upd, mupd. destruct r; cbn; [rewrite EP, P|]; split; auto; discriminate.
    - rewrite fos_loop_scale by auto. destruct (fos_loop v (p :: ps)) as [r done].
      unfold self_upd, mupd. destruct r; cbn; split; auto; discriminate.
  Qed.
End Scale.
