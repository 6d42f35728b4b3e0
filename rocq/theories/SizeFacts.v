(** * SizeFacts: similar slopes (C90).  All lengths are multiplied by [k], cohesions and
    strip loads by [k], line loads by its square; unit weights stay. *)
From Coq Require Import ZArith Reals Lra Lia List Bool String Permutation Sorted.
From Verif Require Import Num Py Validation Utilities Objects Slope Planes Analysis
     Dynamic Api RealNum RealFacts ListFacts MonadFacts Spec SearchFacts FosFacts ScaleFacts
     SlopeFacts MaterialFacts Invariant History EditFacts LayerFacts Demo CircleFacts DemoCircle.
Import ListNotations.
Local Open Scope R_scope.

Definition grow_pt (k : R) (p : R * R) : R * R := (k * fst p, k * snd p).
Definition grow_geom (k : R) (g : geom R) : geom R :=
  MkGeom (k * g_height g) (k * g_length g) (g_gradient g) (grow_pt k (g_top g)) (grow_pt k (g_bot g))
         (k * g_ext_l g) (k * g_ext_h g).
Definition grow_material (k : R) (m : material R) : material R :=
  MkMaterial (m_unit_weight m) (m_friction_angle m) (k * m_cohesion m) (k * m_depth m)
             (m_name m) (m_color m) (m_user_color m) (m_tan_phi m) (option_map (Rmult k) (m_RL m)).
Definition grow_limits (k : R) (l : limits R) : limits R :=
  MkLimits (k * lim_left l) (k * lim_left_r l) (k * lim_right_l l) (k * lim_right l).
Definition grow_view (k : R) (v : view R) : view R :=
  MkView (grow_geom k (v_geom v)) (map (fun l => (k * fst l, grow_material k (snd l))) (v_mats v))
         (map (fun u => (grow_pt k (fst u), k * snd u)) (v_udls v))
         (map (fun l => (k * fst l, k * k * snd l)) (v_lls v))
         (option_map (Rmult k) (v_water_RL v)) (v_water_H v) (grow_limits k (v_limits v))
         (v_slices v) (v_iterations v) (k * v_min_failure v) (v_tolerance v) (v_max_iterations v).
Definition grow_plane (k : R) (p : plane R) : plane R :=
  MkPlane (grow_pt k (p_l p)) (grow_pt k (p_r p)) (k * p_cx p) (k * p_cy p) (k * p_radius p) (p_fos p).
Definition grow_slice (k : R) (s : slice R) : slice R :=
  MkSlice (k * sl_x s) (k * sl_yt s) (k * sl_yb s) (sl_cos s) (sl_sin s) (k * k * sl_W s) (k * sl_c s)
          (sl_tan s) (k * sl_u s).

(** The points at which a circle meets the ground, from left to right, before those
    closer than a centimetre are dropped *)
Definition meets (g : geom R) (cx cy r : R) : list (R * R) :=
  match cirle_line_intersection (0, snd (g_top g)) (g_top g) cx cy r,
        cirle_line_intersection (g_bot g) (g_ext_l g, snd (g_bot g)) cx cy r,
        cirle_line_intersection (g_top g) (g_bot g) cx cy r with
  | Ok t, Ok b, Ok m => sort_by fst (top_hits g t ++ bot_hits g b ++ mid_hits g m)
  | _, _, _ => []
  end.
(** Consecutive points are on the same side of one centimetre in both slopes. *)
Fixpoint gaps (x : R) (l : list (R * R)) : list R :=
  match l with [] => [] | p :: l' => Rabs (fst p - x) :: gaps (fst p) l' end.
Definition same_gaps (k : R) (l : list (R * R)) : Prop :=
  match l with [] => True
  | p :: l' => 0 <= fst p /\ Forall (fun d => 1 / 100 < d <-> 1 / 100 < k * d) (gaps (fst p) l') end.

Section Grow.
  Context (k : R) (K : 0 < k).

  Lemma lt_k a b : Rltb (k * a) (k * b) = Rltb a b.
  Proof.
    destruct (Rltb a b) eqn:E; rbool.
    - apply Rltb_true. now apply Rmult_lt_compat_l.
    - apply Rltb_false. apply Rmult_le_compat_l; lra.
  Qed.
  Lemma le_k a b : Rleb (k * a) (k * b) = Rleb a b.
  Proof.
    destruct (Rleb a b) eqn:E; rbool.
    - apply Rleb_true. apply Rmult_le_compat_l; lra.
    - apply Rleb_false. now apply Rmult_lt_compat_l.
  Qed.
  Lemma eq_k a b : Reqb (k * a) (k * b) = Reqb a b.
  Proof.
    destruct (Reqb a b) eqn:E; rbool.
    - subst. apply Reqb_refl.
    - apply Reqb_false. intros Q. apply E. apply Rmult_eq_reg_l with k; lra.
  Qed.
  Lemma lt_k0 a : Rltb (k * a) 0 = Rltb a 0.
  Proof. rewrite <- (Rmult_0_r k) at 1. apply lt_k. Qed.
  Lemma le_0k a : Rleb 0 (k * a) = Rleb 0 a.
  Proof. rewrite <- (Rmult_0_r k) at 1. apply le_k. Qed.
  Lemma le_k0 a : Rleb (k * a) 0 = Rleb a 0.
  Proof. rewrite <- (Rmult_0_r k) at 1. apply le_k. Qed.
  Lemma eq_k0 a : Reqb (k * a) 0 = Reqb a 0.
  Proof. rewrite <- (Rmult_0_r k) at 1. apply eq_k. Qed.
  Lemma max_k a b : Rmax (k * a) (k * b) = k * Rmax a b.
  Proof. apply RmaxRmult. lra. Qed.
  Lemma min_k a b : Rmin (k * a) (k * b) = k * Rmin a b.
  Proof. unfold Rmin. destruct (Rle_dec a b), (Rle_dec (k * a) (k * b)); try reflexivity; exfalso; nra. Qed.
  Lemma sqrt_k a : sqrt (k * k * a) = k * sqrt a.
  Proof. rewrite sqrt_mult_alt by nra. rewrite sqrt_square by lra. reflexivity. Qed.
  Lemma abs_k a : Rabs (k * a) = k * Rabs a.
  Proof. rewrite Rabs_mult, (Rabs_right k) by lra. reflexivity. Qed.

  (** ** Crossings *)
  Lemma grow_hits t b cx cy r :
    cirle_line_intersection (grow_pt k t) (grow_pt k b) (k * cx) (k * cy) (k * r) =
    match cirle_line_intersection t b cx cy r with
    | Ok l => Ok (map (grow_pt k) l) | Err e => Err e end.
  Proof.
    unfold cirle_line_intersection. cbn [grow_pt fst snd]. cbv zeta. unR.
    set (tx := fst t - cx). set (ty := snd t - cy). set (bx := fst b - cx). set (by_ := snd b - cy).
    replace (k * fst t - k * cx) with (k * tx) by (unfold tx; ring).
    replace (k * snd t - k * cy) with (k * ty) by (unfold ty; ring).
    replace (k * fst b - k * cx) with (k * bx) by (unfold bx; ring).
    replace (k * snd b - k * cy) with (k * by_) by (unfold by_; ring).
    set (dx := bx - tx). set (dy := by_ - ty).
    replace (k * bx - k * tx) with (k * dx) by (unfold dx; ring).
    replace (k * by_ - k * ty) with (k * dy) by (unfold dy; ring).
    replace (k * dx * (k * dx) + k * dy * (k * dy)) with (k * k * (dx * dx + dy * dy)) by ring.
    rewrite sqrt_k. set (dr := sqrt (dx * dx + dy * dy)).
    set (D := tx * by_ - bx * ty).
    replace (k * tx * (k * by_) - k * bx * (k * ty)) with (k * k * D) by (unfold D; ring).
    set (disc := Rabs (r * r * (dr * dr)) - Rabs (D * D)).
    replace (Rabs (k * r * (k * r) * (k * dr * (k * dr))) - Rabs (k * k * D * (k * k * D)))
      with (k * (k * (k * (k * disc)))).
    2:{ unfold disc. replace (k * r * (k * r) * (k * dr * (k * dr))) with (k * (k * (k * (k * (r * r * (dr * dr)))))) by ring.
        replace (k * k * D * (k * k * D)) with (k * (k * (k * (k * (D * D))))) by ring.
        rewrite !abs_k. ring. }
    rewrite !lt_k0, !eq_k0.
    replace (k * (k * (k * (k * disc)))) with (k * k * (k * k * disc)) by ring.
    rewrite !sqrt_k. rewrite !abs_k.
    unfold pydiv. unR.
    replace (k * dr * (k * dr)) with (k * (k * (dr * dr))) by ring. rewrite !eq_k0.
    destruct (Rltb disc 0); [reflexivity|].
    destruct (Reqb (dr * dr) 0) eqn:Z; [reflexivity|]. rbool. cbn [rbind].
    set (q := sqrt disc). set (m := if Rltb dy 0 then _ else _).
    assert (X : forall a c, k * k * k * a / (k * (k * (dr * dr))) + k * c = k * (a / (dr * dr) + c)).
    { intros a c. field. split; [|lra]. intros Q. apply Z. rewrite Q. ring. }
    replace (k * k * D * (k * dy) + m * (k * dx) * (k * (k * q))) with (k * k * k * (D * dy + m * dx * q)) by ring.
    replace (k * k * D * (k * dy) - m * (k * dx) * (k * (k * q))) with (k * k * k * (D * dy - m * dx * q)) by ring.
    replace (0 - k * k * D * (k * dx) + k * Rabs dy * (k * (k * q))) with (k * k * k * (0 - D * dx + Rabs dy * q)) by ring.
    replace (0 - k * k * D * (k * dx) - k * Rabs dy * (k * (k * q))) with (k * k * k * (0 - D * dx - Rabs dy * q)) by ring.
    rewrite !X. destruct (Reqb disc 0); reflexivity.
  Qed.

  Lemma insert_map {A B} (f : A -> B) ltA ltB x l : (forall a b, ltB (f a) (f b) = ltA a b) ->
    insert ltB (f x) (map f l) = map f (insert ltA x l).
  Proof.
    intros Q. induction l as [|y l IH]; [reflexivity|]. cbn [map insert]. rewrite Q.
    destruct (ltA y x); [|reflexivity]. now rewrite IH.
  Qed.
  Lemma sort_map {A B} (f : A -> B) ltA ltB l : (forall a b, ltB (f a) (f b) = ltA a b) ->
    sort ltB (map f l) = map f (sort ltA l).
  Proof.
    intros Q. induction l as [|y l IH]; [reflexivity|]. cbn [map sort]. rewrite IH. now apply insert_map.
  Qed.
  Lemma grow_point_ltb p q : point_ltb (grow_pt k p) (grow_pt k q) = point_ltb p q.
  Proof. unfold point_ltb, grow_pt. cbn [fst snd]. unR. now rewrite eq_k, !lt_k. Qed.
  Lemma grow_point_eqb p q : point_eqb (grow_pt k p) (grow_pt k q) = point_eqb p q.
  Proof. unfold point_eqb, grow_pt. cbn [fst snd]. unR. now rewrite !eq_k. Qed.
  Lemma grow_sort_points l : sort_points (map (grow_pt k) l) = map (grow_pt k) (sort_points l).
  Proof. apply sort_map. apply grow_point_ltb. Qed.
  Lemma grow_top g l : top_hits (grow_geom k g) (map (grow_pt k) l) = map (grow_pt k) (top_hits g l).
  Proof.
    unfold top_hits. rewrite grow_sort_points. destruct (sort_points l) as [|p q]; [reflexivity|].
    cbn [map grow_geom g_top grow_pt fst snd]. unR. rewrite le_0k, le_k.
    destruct (_ && _); reflexivity.
  Qed.
  Lemma grow_bot_hits g l : bot_hits (grow_geom k g) (map (grow_pt k) l) = map (grow_pt k) (bot_hits g l).
  Proof.
    unfold bot_hits. rewrite grow_sort_points.
    assert (Q : forall q : list (R * R), match map (grow_pt k) q with [] => [] | p :: _ =>
        if nleb (fst (g_bot (grow_geom k g))) (fst p) && nleb (fst p) (g_ext_l (grow_geom k g)) then [p] else [] end =
      map (grow_pt k) match q with [] => [] | p :: _ =>
        if nleb (fst (g_bot g)) (fst p) && nleb (fst p) (g_ext_l g) then [p] else [] end).
    { intros [|p q]; [reflexivity|]. cbn [map grow_geom g_bot g_ext_l grow_pt fst snd]. unR. rewrite !le_k.
      destruct (_ && _); reflexivity. }
    etransitivity; [|exact (Q (rev (sort_points l)))]. now rewrite map_rev.
  Qed.
  Lemma grow_mid g l : mid_hits (grow_geom k g) (map (grow_pt k) l) = map (grow_pt k) (mid_hits g l).
  Proof.
    unfold mid_hits. induction l as [|p l IH]; [reflexivity|]. cbn [map filter]. rewrite IH.
    cbn [grow_geom g_top g_bot grow_pt fst snd]. unR. rewrite !le_k. destruct (_ && _); reflexivity.
  Qed.
  Lemma grow_sort l : sort_by fst (map (grow_pt k) l) = map (grow_pt k) (sort_by fst l).
  Proof. unfold sort_by. apply sort_map. intros a b. cbn [grow_pt fst]. unR. apply lt_k. Qed.
  Lemma drop_grow l : forall x, Forall (fun d => 1 / 100 < d <-> 1 / 100 < k * d) (gaps x l) ->
    drop_close (k * x) (map (grow_pt k) l) = map (grow_pt k) (drop_close x l).
  Proof.
    induction l as [|p l IH]; intros x FA; [reflexivity|]. cbn [map drop_close gaps] in *.
    inversion FA as [|? ? Q FA']; subst. cbn [grow_pt fst]. rewrite IH by auto. unR.
    replace (k * fst p - k * x) with (k * (fst p - x)) by ring. rewrite abs_k.
    assert (E : Rltb (1 / 100) (k * Rabs (fst p - x)) = Rltb (1 / 100) (Rabs (fst p - x))).
    { destruct (Rltb (1 / 100) (Rabs (fst p - x))) eqn:E; rbool.
      - apply Rltb_true. tauto.
      - apply Rltb_false. apply Rnot_lt_le. intros L. apply Q in L. lra. }
    rewrite E. clear E. destruct (Rltb (1 / 100) (Rabs (fst p - x))); reflexivity.
  Qed.
  Lemma drop_first l : same_gaps k l ->
    drop_close (nz (-1)) (map (grow_pt k) l) = map (grow_pt k) (drop_close (nz (-1)) l).
  Proof.
    destruct l as [|p l]; [reflexivity|]. cbn [same_gaps]. intros (P & FA). cbn [map drop_close].
    cbn [grow_pt fst]. rewrite drop_grow by auto. unR.
    assert (0 <= k * fst p) by (apply Rmult_le_pos; lra).
    rewrite !Rabs_right by lra.
    rewrite (proj2 (Rltb_true _ _)) by lra. rewrite (proj2 (Rltb_true _ _)) by lra. reflexivity.
  Qed.
  Lemma grow_external g cx cy r : same_gaps k (meets g cx cy r) ->
    circle_external (grow_geom k g) (k * cx) (k * cy) (k * r) =
    match circle_external g cx cy r with Ok l => Ok (map (grow_pt k) l) | Err e => Err e end.
  Proof.
    unfold circle_external, meets. cbn [grow_geom g_top g_bot g_ext_l]. fold (grow_geom k g).
    pose proof (grow_hits (0, snd (g_top g)) (g_top g) cx cy r) as A.
    pose proof (grow_hits (g_bot g) (g_ext_l g, snd (g_bot g)) cx cy r) as B.
    pose proof (grow_hits (g_top g) (g_bot g) cx cy r) as C.
    unfold grow_pt at 1 in A. cbn [fst snd] in A. rewrite Rmult_0_r in A.
    unfold grow_pt at 2 in B. cbn [fst snd] in B.
    change (snd (grow_pt k (g_top g))) with (k * snd (g_top g)).
    change (snd (grow_pt k (g_bot g))) with (k * snd (g_bot g)).
    replace (nz 0 : R) with 0 by (unR; reflexivity).
    rewrite A, B, C.
    destruct (cirle_line_intersection (0, snd (g_top g)) _ _ _ _) as [t|]; cbn [rbind]; auto.
    destruct (cirle_line_intersection (g_bot g) _ _ _ _) as [b|]; cbn [rbind]; auto.
    destruct (cirle_line_intersection (g_top g) (g_bot g) _ _ _) as [m|]; cbn [rbind]; auto.
    intros SG. rewrite grow_top, grow_bot_hits, grow_mid, <- !map_app, grow_sort. now rewrite drop_first.
  Qed.
  Lemma grow_mem p l : point_mem (grow_pt k p) (map (grow_pt k) l) = point_mem p l.
  Proof. induction l as [|q l IH]; [reflexivity|]. cbn [map point_mem]. now rewrite grow_point_eqb, IH. Qed.
  Lemma grow_count l : distinct_count (map (grow_pt k) l) = distinct_count l.
  Proof. induction l as [|q l IH]; [reflexivity|]. cbn [map distinct_count]. now rewrite grow_mem, IH. Qed.
  Lemma grow_two l : first_two (map (grow_pt k) l) =
    option_map (fun ab => (grow_pt k (fst ab), grow_pt k (snd ab))) (first_two l).
  Proof.
    unfold first_two. rewrite grow_count. destruct (Nat.ltb _ 2); [reflexivity|].
    destruct l as [|a [|b l]]; reflexivity.
  Qed.

  (** ** Slices *)
  Lemma grow_ground g x : ground_y (grow_geom k g) (k * x) = k * ground_y g x.
  Proof.
    unfold ground_y. cbn [grow_geom g_top g_bot g_gradient grow_pt fst snd]. unR. rewrite !le_k.
    destruct (Rleb x _); [reflexivity|]. destruct (Rleb _ x); [reflexivity|]. ring.
  Qed.
  Definition grow_layer (l : R * option R * R) : R * option R * R :=
    (k * fst (fst l), option_map (Rmult k) (snd (fst l)), snd l).
  Lemma grow_layers L : forall top : R,
    layers (k * top) (map (fun l => (k * fst l, grow_material k (snd l))) L) = map grow_layer (layers top L).
  Proof.
    induction L as [|[rl m] L IH]; intros top; auto. cbn [map layers fst snd].
    destruct L as [|[rl' m'] L]; [reflexivity|]. cbn [map fst snd] in *. rewrite IH. reflexivity.
  Qed.
  Lemma grow_layer_weight yt yb l : layer_weight (k * yt) (k * yb) (grow_layer l) = k * layer_weight yt yb l.
  Proof.
    destruct l as [[t b] u]. unfold layer_weight, grow_layer. cbn [fst snd option_map]. cbv zeta. unR.
    assert (B : match option_map (Rmult k) b with Some b0 => Rmax (k * yb) b0 | None => k * yb end =
                k * match b with Some b0 => Rmax yb b0 | None => yb end).
    { destruct b; cbn [option_map]; [apply max_k|reflexivity]. }
    assert (PM : forall o, match o with Some b0 => pymax (k * yb) b0 | None => k * yb end =
                   match o with Some b0 => Rmax (k * yb) b0 | None => k * yb end)
      by (intros [o|]; [apply pymax_R|reflexivity]).
    assert (PM' : match b with Some b0 => pymax yb b0 | None => yb end =
                   match b with Some b0 => Rmax yb b0 | None => yb end)
      by (destruct b; [apply pymax_R|reflexivity]).
    rewrite PM, PM', B. set (lo := match b with Some b0 => _ | None => _ end).
    rewrite min_k. replace (k * Rmin yt t - k * lo) with (k * (Rmin yt t - lo)) by ring.
    rewrite lt_k0. destruct (Rltb _ 0); ring.
  Qed.
  Lemma grow_fold yt yb l : forall a : R,
    fold_left (fun w x => nadd w (layer_weight (k * yt) (k * yb) x)) (map grow_layer l) (k * a)
    = k * fold_left (fun w x => nadd w (layer_weight yt yb x)) l a.
  Proof.
    induction l as [|x l IH]; intros a; cbn [map fold_left]; auto.
    rewrite <- IH. f_equal. rewrite grow_layer_weight. unR. ring.
  Qed.
  Lemma grow_strip v b yt yb :
    strip_weight (grow_view k v) (k * b) (k * yt) (k * yb) = k * k * strip_weight v b yt yb.
  Proof.
    unfold strip_weight. cbn [grow_view v_geom v_mats grow_geom g_ext_h]. rewrite grow_layers.
    replace (nz 0 : R) with (k * nz 0) at 1 by (unR; ring).
    rewrite grow_fold. unR. ring.
  Qed.
  Lemma grow_udls a b us : forall W : R,
    fold_left (udl_on (k * a) (k * b)) (map (fun u => (grow_pt k (fst u), k * snd u)) us) (k * k * W) =
    k * k * fold_left (udl_on a b) us W.
  Proof.
    induction us as [|[[l r] m] us IH]; intros W; cbn [map fold_left]; auto.
    rewrite <- IH. f_equal. unfold udl_on. cbn [fst snd grow_pt]. unR. rewrite min_k, max_k.
    replace (k * Rmin b r - k * Rmax a l) with (k * (Rmin b r - Rmax a l)) by ring.
    replace (Rmax (k * (Rmin b r - Rmax a l)) 0) with (k * Rmax (Rmin b r - Rmax a l) 0); [ring|].
    rewrite <- max_k. f_equal. ring.
  Qed.
  Lemma grow_lls a b ls : forall W : R,
    fold_left (ll_on (k * a) (k * b)) (map (fun u => (k * fst u, k * k * snd u)) ls) (k * k * W) =
    k * k * fold_left (ll_on a b) ls W.
  Proof.
    induction ls as [|[x m] ls IH]; intros W; cbn [map fold_left]; auto.
    rewrite <- IH. f_equal. unfold ll_on. cbn [fst snd]. unR. rewrite le_k, lt_k.
    destruct (_ && _); unR; ring.
  Qed.
  Lemma grow_base L y :
    base_material (map (fun l => (k * fst l, grow_material k (snd l))) L) (k * y) =
    option_map (grow_material k) (base_material L y).
  Proof.
    induction L as [|[rl m] L IH]; auto. cbn [map base_material fst snd].
    destruct L as [|[rl' m'] L]; [reflexivity|]. cbn [map fst snd] in *. rewrite IH.
    unR. rewrite lt_k. destruct (Rltb rl y); reflexivity.
  Qed.
  Lemma grow_bottom cx cy r x :
    slice_bottom (k * cx) (k * cy) (k * r) (k * x) = k * slice_bottom cx cy r x.
  Proof.
    unfold slice_bottom. unR.
    replace (k * r * (k * r) - (k * x - k * cx) * (k * x - k * cx))
      with (k * k * (r * r - (x - cx) * (x - cx))) by ring.
    rewrite sqrt_k. ring.
  Qed.
  Lemma grow_arctan a b : np_arctan_div (k * a) (k * b) = np_arctan_div a b.
  Proof.
    unfold np_arctan_div. unR. rewrite eq_k0, lt_k0. destruct (Reqb b 0) eqn:E; [reflexivity|]. rbool.
    f_equal. field. lra.
  Qed.
  Definition grow_water : option (R * R) -> option (R * R) := option_map (grow_pt k).
  Lemma grow_water_data v : water_data (grow_view k v) =
    match water_data v with Ok o => Ok (grow_water o) | Err e => Err e end.
  Proof.
    unfold water_data, water_level. cbn [grow_view v_water_RL v_geom].
    destruct (v_water_RL v) as [rl|]; cbn [option_map]; [|reflexivity]. unR. rewrite eq_k0.
    destruct (Reqb rl 0); [reflexivity|].
    unfold external_x. cbn [grow_geom g_top g_bot g_ext_l g_ext_h g_gradient grow_pt fst snd]. unR.
    rewrite !lt_k, !eq_k. destruct (Rltb rl _); [reflexivity|]. destruct (Rltb rl _).
    - unfold pydiv. unR. destruct (Reqb _ 0) eqn:G; [reflexivity|]. rbool. cbn [rbind].
      replace (k * fst (g_top (v_geom v)) + (k * snd (g_top (v_geom v)) - k * rl) / g_gradient (v_geom v))
        with (k * (fst (g_top (v_geom v)) + (snd (g_top (v_geom v)) - rl) / g_gradient (v_geom v)))
        by (field; exact G). reflexivity.
    - destruct (Reqb rl _); [reflexivity|]. destruct (Reqb rl _); reflexivity.
  Qed.
  Lemma grow_make v water cx cy r b x m :
    make_slice (grow_view k v) (grow_water water) (k * cx) (k * cy) (k * r) (k * b) (k * x) (grow_material k m) =
    grow_slice k (make_slice v water cx cy r b x m).
  Proof.
    unfold make_slice, grow_slice. cbv zeta. cbn [grow_view v_geom v_udls v_lls v_water_H
      sl_x sl_yt sl_yb sl_cos sl_sin sl_W sl_c sl_tan sl_u grow_material m_cohesion m_tan_phi].
    fold (grow_view k v).
    pose proof (grow_bottom cx cy r x) as YB. unfold slice_bottom in YB. rewrite YB. clear YB.
    set (yb := nsub cy _). rewrite grow_ground.
    assert (YT : pymax (k * ground_y (v_geom v) x) (k * yb) = k * pymax (ground_y (v_geom v) x) yb)
      by (rewrite !pymax_R; apply max_k).
    rewrite YT. set (yt := pymax _ yb).
    assert (AL : np_arctan_div (nsub (k * cx) (k * x)) (nsub (k * cy) (k * yb)) = np_arctan_div (nsub cx x) (nsub cy yb)).
    { unR. rewrite <- !Rmult_minus_distr_l. apply grow_arctan. }
    rewrite AL.
    assert (XL : nsub (k * x) (ndiv (k * b) (nz 2)) = k * nsub x (ndiv b (nz 2))) by (unR; field).
    assert (XR : nadd (k * x) (ndiv (k * b) (nz 2)) = k * nadd x (ndiv b (nz 2))) by (unR; field).
    rewrite XL, XR, grow_strip, grow_udls, grow_lls. f_equal.
    destruct water as [[rl xw]|]; cbn [grow_water option_map grow_pt fst snd]; [|unR; ring].
    unfold water_u. cbv zeta. cbn [grow_geom g_bot grow_pt fst snd]. unR. rewrite min_k, !lt_k.
    replace (k * Rmin rl yt - k * yb) with (k * (Rmin rl yt - yb)) by ring.
    replace (Rmax (k * (Rmin rl yt - yb)) 0) with (k * Rmax (Rmin rl yt - yb) 0)
      by (rewrite <- max_k; f_equal; ring).
    ring.
  Qed.
  Lemma grow_linspace a b n : linspace (k * a) (k * b) n = map (Rmult k) (linspace a b n).
  Proof.
    unfold linspace. destruct (n <=? 0)%Z; [reflexivity|]. destruct (n =? 1)%Z; [reflexivity|].
    rewrite map_app, map_map. f_equal. apply map_ext. intros i. unR. unfold Rdiv. ring.
  Qed.
  Lemma grow_slices v cx cy r xl xr : 1 / 1000000 < xr - xl -> 1 / 1000000 < k * (xr - xl) ->
    slices_of (grow_view k v) (k * cx) (k * cy) (k * r) (k * xl) (k * xr) =
    match slices_of v cx cy r xl xr with
    | Ok (Some (b, sl)) => Ok (Some (k * b, map (grow_slice k) sl))
    | o => o
    end.
  Proof.
    intros W1 W2. unfold slices_of. cbv zeta. change (v_slices (grow_view k v)) with (v_slices v).
    assert (T1 : nleb (nsub (k * xr) (k * xl)) (nlit 1 1000000) = false)
      by (unR; apply Rleb_false; lra).
    assert (T2 : nleb (nsub xr xl) (nlit 1 1000000) = false) by (unR; apply Rleb_false; lra).
    rewrite T1, T2. unfold pydiv. unR. destruct (Reqb _ 0) eqn:Z0; [reflexivity|]. rbool. cbn [rbind].
    replace ((k * xr - k * xl) / IZR (v_slices v)) with (k * ((xr - xl) / IZR (v_slices v))) by (field; exact Z0).
    set (b := (xr - xl) / IZR (v_slices v)).
    replace (k * xl + k * b / 2) with (k * (xl + b / 2)) by field.
    replace (k * xr - k * b / 2) with (k * (xr - b / 2)) by field.
    rewrite grow_linspace. set (xs := linspace _ _ _). rewrite !existsb_map.
    assert (X1 : existsb (fun x => Rltb (k * r * (k * r)) (nsq (k * x - k * cx))) xs =
                 existsb (fun x => Rltb (r * r) (nsq (x - cx))) xs).
    { clear - K. induction xs as [|x xs IH]; [reflexivity|]. cbn [existsb]. rewrite IH. f_equal. unR.
      replace (k * r * (k * r)) with (k * (k * (r * r))) by ring.
      replace ((k * x - k * cx) * (k * x - k * cx)) with (k * (k * ((x - cx) * (x - cx)))) by ring.
      now rewrite !lt_k. }
    rewrite X1. clear X1. destruct (existsb (fun x => Rltb (r * r) (nsq (x - cx))) xs); [reflexivity|].
    assert (X2 : existsb (fun x => Reqb (cos (np_arctan_div (k * cx - k * x)
                   (k * cy - slice_bottom (k * cx) (k * cy) (k * r) (k * x)))) 0) xs =
                 existsb (fun x => Reqb (cos (np_arctan_div (cx - x) (cy - slice_bottom cx cy r x))) 0) xs).
    { clear - K. induction xs as [|x xs IH]; [reflexivity|]. cbn [existsb]. rewrite IH. f_equal.
      rewrite grow_bottom, <- !Rmult_minus_distr_l, grow_arctan by auto. reflexivity. }
    rewrite X2. clear X2. match goal with |- (if ?c then _ else _) = _ => destruct c end; [reflexivity|].
    rewrite grow_water_data. destruct (water_data v) as [o|e]; cbn [rbind]; auto.
    cbn [grow_view v_mats]. fold (grow_view k v). destruct (v_mats v) as [|[rl m] L] eqn:EM; [reflexivity|].
    cbn [map fst snd].
    change ((k * rl, grow_material k m) :: map (fun l => (k * fst l, grow_material k (snd l))) L)
      with (map (fun l => (k * fst l, grow_material k (snd l))) ((rl, m) :: L)).
    rewrite !map_map. apply f_equal, f_equal, (f_equal (pair (k * b))). apply map_ext. intros x.
    rewrite grow_bottom, grow_base, <- EM.
    destruct (base_material _ _); cbn [option_map]; now rewrite <- grow_make.
  Qed.

  (** ** Factors *)
  Lemma grow_driving sl : driving (map (grow_slice k) sl) = k * k * driving sl.
  Proof.
    unfold driving. rewrite map_map. induction sl as [|s sl IH]; cbn [map rsum]; [ring|].
    rewrite IH. cbn [grow_slice sl_W sl_sin]. ring.
  Qed.
  Lemma grow_resisting w sl : resisting (k * w) (map (grow_slice k) sl) = k * k * resisting w sl.
  Proof.
    unfold resisting. rewrite map_map. induction sl as [|s sl IH]; cbn [map rsum]; [ring|].
    rewrite IH. unfold base_len. cbn [grow_slice sl_W sl_cos sl_c sl_tan sl_u].
    replace (k * k * sl_W s * sl_cos s - k * sl_u s * (k * w / sl_cos s))
      with (k * (k * (sl_W s * sl_cos s - sl_u s * (w / sl_cos s)))) by (unfold Rdiv; ring).
    set (n := sl_W s * sl_cos s - _).
    replace (Rmax 0 (k * (k * n))) with (k * (k * Rmax 0 n)); [unfold Rdiv; ring|].
    rewrite <- !max_k. f_equal; ring.
  Qed.
  Lemma grow_bishop w F sl :
    bishop_resisting (k * w) F (map (grow_slice k) sl) = k * k * bishop_resisting w F sl.
  Proof.
    unfold bishop_resisting. rewrite map_map. induction sl as [|s sl IH]; cbn [map rsum]; [ring|].
    rewrite IH. unfold m_alpha. cbn [grow_slice sl_W sl_cos sl_sin sl_c sl_tan sl_u]. unfold Rdiv. ring.
  Qed.
  Lemma KK : 0 < k * k.
  Proof. nra. Qed.
  Lemma grow_ordinary w sl : ordinary_fos (k * w) (map (grow_slice k) sl) = ordinary_fos w sl.
  Proof.
    rewrite !ordinary_fos_R, grow_driving, grow_resisting. pose proof KK as K2.
    destruct (Rle_dec (driving sl) 0) as [L|L], (Rle_dec (k * k * driving sl) 0) as [L'|L']; auto.
    - exfalso. apply L'. rewrite <- (Rmult_0_r (k * k)). apply Rmult_le_compat_l; lra.
    - exfalso. apply L. apply Rmult_le_reg_l with (k * k); lra.
    - f_equal. apply (ratio_scale (k * k) K2). lra.
  Qed.
  Lemma grow_step w sl F : bishop_step (k * w) (map (grow_slice k) sl) F = bishop_step w sl F.
  Proof.
    unfold bishop_step. cbv zeta. rewrite !existsb_map.
    cbn [grow_slice sl_sin sl_tan sl_cos]. rewrite ?nsum_R. unR.
    fold (driving (map (grow_slice k) sl)) (driving sl). rewrite grow_driving.
    destruct (Reqb F 0).
    - destruct (existsb _ sl); auto. rewrite map_map.
      rewrite rsum_zero. pose proof (finish_scale (k * k) KK (driving sl) 0) as Q.
      rewrite Rmult_0_r in Q. now rewrite Q.
    - destruct (existsb _ sl); auto.
      change (rsum (map _ (map (grow_slice k) sl))) with (bishop_resisting (k * w) F (map (grow_slice k) sl)).
      rewrite grow_bishop. rewrite (finish_scale (k * k) KK). reflexivity.
  Qed.
  Lemma grow_loop w tol sl n : forall F,
    bishop_loop (k * w) tol (map (grow_slice k) sl) n F = bishop_loop w tol sl n F.
  Proof.
    induction n as [|n IH]; intros F; cbn [bishop_loop]; auto.
    rewrite grow_step. destruct (bishop_step w sl F) as [[f|]|e]; cbn [rbind]; auto.
    now rewrite IH.
  Qed.
  Lemma grow_positive x : assert_strictly_positive_number (PFloat (k * x)) = assert_strictly_positive_number (PFloat x).
  Proof.
    unfold assert_strictly_positive_number. cbn [isinstance_num as_num negb rbind]. unR. now rewrite lt_k0.
  Qed.

  (** ** Which circles *)
  Lemma meets_ground g cx cy r p : good_geom g -> In p (meets g cx cy r) -> on_circle cx cy r p /\ on_ground g p.
  Proof.
    intros G I. assert (G' := G). destruct G'.
    assert (N1 : (0, snd (g_top g)) <> g_top g).
    { intros Q. apply (f_equal fst) in Q. cbn in Q. lra. }
    assert (N2 : g_bot g <> (g_ext_l g, snd (g_bot g))).
    { intros Q. apply (f_equal fst) in Q. cbn in Q. lra. }
    assert (N3 : g_top g <> g_bot g) by (intros Q; rewrite Q in gg_bot; lra).
    destruct (intersection_any _ _ cx cy r N1) as (t & Et & It).
    destruct (intersection_any _ _ cx cy r N2) as (b & Eb & Ib).
    destruct (intersection_any _ _ cx cy r N3) as (m & Em & Im).
    unfold meets in I. rewrite Et, Eb, Em in I.
    apply (Permutation_in _ (Permutation_sym (sort_by_perm fst _))) in I.
    apply (crossing_ground g G). rewrite !in_app_iff in I. unfold crossing.
    rewrite (top_hits_In g (snd (g_top g)) t p) in I.
    2:{ intros q Hq. apply It in Hq as [_ Hq]. now apply (crest_line g G). }
    rewrite (bot_hits_In g (snd (g_bot g)) b p) in I.
    2:{ intros q Hq. apply Ib in Hq as [_ Hq]. now apply (toe_line g G). }
    unfold mid_hits in I. rewrite filter_In in I. unR.
    rewrite It, Ib, Im, crest_line, toe_line in I by auto.
    destruct I as [((C & L) & A & B) | [((C & L) & A & B) | ((C & L) & A)]].
    - split; auto. left. split; [lra|]. split; auto. intros q C' L'.
      apply A, It. split; auto. now apply crest_line.
    - split; auto. right; left. split; [lra|]. split; auto. intros q C' L'.
      apply A, Ib. split; auto. now apply toe_line.
    - split; auto. right; right. rbool. split; [lra|]. now apply (face_line g G).
  Qed.
  (** distances between ground points of the circle stay on their side of a centimetre *)
  Definition apart (g : geom R) (cx cy r : R) : Prop := forall p q,
    on_circle cx cy r p -> on_ground g p -> on_circle cx cy r q -> on_ground g q ->
    (1 / 100 < Rabs (fst p - fst q) <-> 1 / 100 < k * Rabs (fst p - fst q)).
  Lemma apart_gaps g cx cy r : good_geom g -> apart g cx cy r -> same_gaps k (meets g cx cy r).
  Proof.
    intros G A. pose proof (meets_ground g cx cy r) as M.
    assert (M' : forall p, In p (meets g cx cy r) -> on_circle cx cy r p /\ on_ground g p) by (intros; now apply M).
    clear M. destruct (meets g cx cy r) as [|p l]; cbn [same_gaps]; auto.
    split; [destruct (M' p (or_introl eq_refl)) as (_ & (Q & _) & _); exact Q|].
    revert p M'. induction l as [|q l IH]; intros p M'; cbn [gaps]; constructor.
    - destruct (M' p (or_introl eq_refl)) as (P1 & P2).
      destruct (M' q (or_intror (or_introl eq_refl))) as (Q1 & Q2). apply A; auto.
    - apply IH. intros; apply M'. now right.
  Qed.
  Lemma grow_good g : good_geom g -> good_geom (grow_geom k g).
  Proof.
    intros []. constructor; cbn [grow_geom g_top g_bot g_ext_l g_ext_h g_gradient grow_pt fst snd]; try nra.
  Qed.

  (** ** Every circle gets the same factor *)
  Lemma factor_grow v cx cy r : good_geom (v_geom v) -> apart (v_geom v) cx cy r ->
    bishop (grow_view k v) (k * cx) (k * cy) (k * r) = bishop v cx cy r.
  Proof.
    intros G A. unfold bishop, ordinary. cbn [grow_view v_geom v_tolerance v_max_iterations].
    fold (grow_view k v).
    pose proof (grow_external (v_geom v) cx cy r (apart_gaps _ _ _ _ G A)) as GE.
    destruct (circle_external_spec _ G cx cy r) as (l & E & C).
    destruct (circle_external_spec _ (grow_good _ G) (k * cx) (k * cy) (k * r)) as (l' & E' & C').
    rewrite E' in *. rewrite E in *. injection GE as ->. cbn [rbind].
    rewrite grow_two.
    destruct (first_two_spec _ cx cy r l C) as [(a & b & T1 & EP)|(T1 & _)]; rewrite T1; cbn [option_map fst snd]; auto.
    rewrite !grow_positive.
    destruct (assert_strictly_positive_number (PFloat cx)); cbn [rbind]; auto.
    destruct (assert_strictly_positive_number (PFloat cy)); cbn [rbind]; auto.
    destruct (assert_strictly_positive_number (PFloat r)); cbn [rbind]; auto.
    destruct (end_points_ok _ G _ _ _ _ _ EP) as (_ & _ & _ & _ & W1).
    destruct (first_two_spec _ _ _ _ _ C') as [(a' & b' & T2 & EP')|(T2 & _)];
      rewrite grow_two, T1 in T2; cbn [option_map fst snd] in T2; [|discriminate].
    injection T2 as <- <-.
    destruct (end_points_ok _ (grow_good _ G) _ _ _ _ _ EP') as (_ & _ & _ & _ & W2).
    cbn [grow_pt fst snd] in *.
    rewrite grow_slices by lra.
    destruct (slices_of v cx cy r (fst a) (fst b)) as [[[w sl]|]|e]; cbn [rbind]; auto.
    rewrite grow_ordinary. destruct (ordinary_fos w sl); auto. apply grow_loop.
  Qed.
  Definition apart_plane (g : geom R) (p : plane R) : Prop := apart g (p_cx p) (p_cy p) (p_radius p).
  Lemma fos_loop_grow v l : good_geom (v_geom v) -> Forall (apart_plane (v_geom v)) l ->
    fos_loop (grow_view k v) (map (grow_plane k) l) =
    (fst (fos_loop v l), map (grow_plane k) (snd (fos_loop v l))).
  Proof.
    intros G. induction 1 as [|p l A FA IH]; cbn [map fos_loop]; auto.
    cbn [grow_plane p_cx p_cy p_radius]. rewrite factor_grow by auto.
    destruct (bishop v (p_cx p) (p_cy p) (p_radius p)) as [f|e]; [|reflexivity].
    fold (grow_plane k p). rewrite IH. destruct (fos_loop v l) as [r l']. reflexivity.
  Qed.
  Lemma tidy_grow m l : tidy m (map (grow_plane k) l) = map (grow_plane k) (tidy m l).
  Proof.
    unfold tidy. cbv zeta.
    assert (E1 : filter has_fos (map (grow_plane k) l) = map (grow_plane k) (filter has_fos l)).
    { induction l as [|p l IH]; [reflexivity|]. cbn [map filter]. rewrite IH.
      change (has_fos (grow_plane k p)) with (has_fos p). destruct (has_fos p); reflexivity. }
    rewrite E1.
    assert (E2 : forall q, sort_by fos_val (map (grow_plane k) q) = map (grow_plane k) (sort_by fos_val q)).
    { intros q. unfold sort_by. apply sort_map. intros; reflexivity. }
    rewrite E2. destruct m as [m|]; auto. destruct (neqb m (nz 0)); auto.
    generalize (sort_by fos_val (filter has_fos l)). intros q. induction q as [|p q IH]; [reflexivity|].
    cbn [map filter]. rewrite IH. change (fos_val (grow_plane k p)) with (fos_val p).
    destruct (nleb (fos_val p) m); reflexivity.
  Qed.
  Context {EN : Env}.
  Lemma analyse_grow m (s s' : st R) v : good_geom (v_geom v) ->
    view_of s = Ok v -> view_of s' = Ok (grow_view k v) ->
    s_planes (snd s) <> [] -> s_planes (snd s') = map (grow_plane k) (s_planes (snd s)) ->
    Forall (apart_plane (v_geom v)) (s_planes (snd s)) ->
    fst (analyse_slope m s') = fst (analyse_slope m s) /\
    (fst (analyse_slope m s) = Ok tt ->
     s_search (snd (snd (analyse_slope m s'))) =
     map (grow_plane k) (s_search (snd (snd (analyse_slope m s))))).
  Proof.
    intros G E E' NE P FA. unfold analyse_slope, mbind, mret, mlift, self_get, mget.
    rewrite E, E', P. cbn [fst snd]. destruct (s_planes (snd s)) as [|p ps] eqn:EP; [congruence|].
    cbn [map]. change (grow_plane k p :: map (grow_plane k) ps) with (map (grow_plane k) (p :: ps)).
    rewrite fos_loop_grow by auto. destruct (fos_loop v (p :: ps)) as [r done]. cbn [fst snd].
    unfold self_upd, mupd. destruct r as [[]|e]; cbn; (split; [reflexivity|]); [intros _; apply tidy_grow|discriminate].
  Qed.
End Grow.
