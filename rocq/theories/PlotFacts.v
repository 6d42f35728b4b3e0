(** * PlotFacts: rounding, the colour scale, the drawn arcs. *)
From Coq Require Import ZArith Reals Lra Lia List Bool String Sorted.
From Verif Require Import Num Py RealNum RealFacts Validation Utilities Objects Slope
     Planes Analysis PlaneFacts Plot.
Import ListNotations.
Local Open Scope R_scope.

(** ** Rounding *)
Lemma abs_le_inv x a : Rabs x <= a -> - a <= x <= a.
Proof. unfold Rabs. destruct (Rcase_abs x); lra. Qed.
Lemma near_half y : Rabs (IZR (Rnear y) - y) <= / 2.
Proof.
  unfold Rnear. destruct (base_Int_part y) as [A B].
  destruct (Rlt_dec _ _); [ apply Rabs_le; split; lra |].
  destruct (Rlt_dec _ _);
    [ rewrite plus_IZR; apply Rabs_le; split; lra |].
  destruct (Z.even _); [| rewrite plus_IZR]; apply Rabs_le; split; lra.
Qed.
Lemma Int_part_IZR z : Int_part (IZR z) = z.
Proof.
  destruct (base_Int_part (IZR z)) as [A B].
  apply le_IZR in A.
  assert (C : IZR z < IZR (Int_part (IZR z) + 1)) by (rewrite plus_IZR; lra).
  apply lt_IZR in C. lia.
Qed.
Lemma near_int z : Rnear (IZR z) = z.
Proof.
  unfold Rnear. rewrite Int_part_IZR.
  destruct (Rlt_dec _ _); [ reflexivity | exfalso; lra ].
Qed.
Lemma near_mono x y : x <= y -> (Rnear x <= Rnear y)%Z.
Proof.
  intros L. pose proof (near_half x) as A. pose proof (near_half y) as B.
  destruct (Z_le_gt_dec (Rnear x) (Rnear y)) as [|G]; [ assumption | exfalso ].
  assert (G1 : (Rnear y + 1 <= Rnear x)%Z) by lia. apply IZR_le in G1.
  rewrite plus_IZR in G1.
  apply abs_le_inv in A. apply abs_le_inv in B.
  assert (E : x = y) by lra. subst. lia.
Qed.
Lemma round_err k x : Rabs (Rround k x - x) <= / 2 / 10 ^ k.
Proof.
  unfold Rround. assert (P : 0 < 10 ^ k) by (apply pow_lt; lra).
  pose proof (near_half (x * 10 ^ k)) as A.
  replace (IZR (Rnear (x * 10 ^ k)) / 10 ^ k - x)
    with ((IZR (Rnear (x * 10 ^ k)) - x * 10 ^ k) / 10 ^ k) by (field; lra).
  unfold Rdiv at 1. rewrite Rabs_mult, (Rabs_pos_eq (/ 10 ^ k)).
  - unfold Rdiv. apply Rmult_le_compat_r; [| assumption ].
    left. now apply Rinv_0_lt_compat.
  - left. now apply Rinv_0_lt_compat.
Qed.

(** ** The colour scale *)
Section Keys.
  Context {V : Type} (g : Z -> R) (inj : forall a b, g a = g b -> a = b).
  Fixpoint zset (k : Z) (v : V) (d : list (Z * V)) : list (Z * V) :=
    match d with
    | [] => [(k, v)]
    | (k', v') :: d' => if Z.eqb k' k then (k', v) :: d' else (k', v') :: zset k v d'
    end.
  Fixpoint zget (k : Z) (d : list (Z * V)) : res V :=
    match d with
    | [] => Err KeyError
    | (k', v') :: d' => if Z.eqb k' k then Ok v' else zget k d'
    end.
  Let up (d : list (Z * V)) := map (fun kv => (g (fst kv), snd kv)) d.
  Lemma key_eqb a b : Reqb (g a) (g b) = Z.eqb a b.
  Proof.
    destruct (Z.eqb a b) eqn:E.
    - apply Z.eqb_eq in E. subst. apply Reqb_refl.
    - apply Reqb_false. intros F. apply inj in F. apply Z.eqb_neq in E. auto.
  Qed.
  Lemma up_set k v d : assoc_set (g k) v (up d) = up (zset k v d).
  Proof.
    induction d as [|[k' v'] d IH]; [ reflexivity |].
    unfold up. cbn [map assoc_set zset fst snd]. cbn [neqb RNum]. rewrite key_eqb.
    destruct (Z.eqb k' k); [ reflexivity |]. fold (up d). rewrite IH. reflexivity.
  Qed.
  Lemma up_get k d : assoc_get (g k) (up d) = zget k d.
  Proof.
    induction d as [|[k' v'] d IH]; [ reflexivity |].
    unfold up. cbn [map assoc_get zget fst snd]. cbn [neqb RNum]. rewrite key_eqb.
    destruct (Z.eqb k' k); [ reflexivity | exact IH ].
  Qed.
  Lemma up_fold l : forall d,
    fold_left (fun d kv => assoc_set (fst kv) (snd kv) d) (up l) (up d)
    = up (fold_left (fun d kv => zset (fst kv) (snd kv) d) l d).
  Proof.
    induction l as [|[k v] l IH]; intros d; [ reflexivity |].
    unfold up at 1. cbn [map fold_left fst snd]. rewrite up_set. apply IH.
  Qed.
End Keys.

Definition tenth (k : Z) : R := IZR k / 10.
Lemma tenth_inj a b : tenth a = tenth b -> a = b.
Proof. unfold tenth. intros E. apply eq_IZR. lra. Qed.
Definition zkeys : list (Z * hue) :=
  flat_map (fun i => map (fun f => ((10 * i + f)%Z, (i, f))) (zrange 0 11)) (zrange 0 5).
Definition zdict : list (Z * hue) :=
  fold_left (fun d kv => zset (fst kv) (snd kv) d) zkeys [].
Lemma keys_up : fos_color_keys = map (fun kv => (tenth (fst kv), snd kv)) zkeys.
Proof.
  unfold fos_color_keys, zkeys.
  generalize (zrange 0 11) as l. generalize (zrange 0 5) as m.
  induction m as [|i m IH]; intros l; [ reflexivity |].
  cbn [flat_map]. rewrite map_app, <- IH. apply (f_equal2 (@app _)); [| reflexivity ]. rewrite map_map.
  apply map_ext. intros f. cbn [fst snd]. f_equal. unR.
  unfold Rround, tenth. rewrite pow_1.
  replace ((IZR f / 10 + IZR i) * 10) with (IZR (10 * i + f))
    by (rewrite plus_IZR, mult_IZR; field).
  now rewrite near_int.
Qed.
Lemma dict_up : COLOUR_FOS_DICT = map (fun kv => (tenth (fst kv), snd kv)) zdict.
Proof.
  unfold COLOUR_FOS_DICT, zdict. rewrite keys_up. exact (up_fold tenth tenth_inj zkeys []).
Qed.
Lemma max_up a l : fold_left (@pymax R RNum) (map tenth l) (tenth a)
                   = tenth (fold_left Z.max l a).
Proof.
  revert a; induction l as [|b l IH]; intros a; [ reflexivity |].
  cbn [map fold_left]. rewrite pymax_R. rewrite <- IH. f_equal.
  unfold tenth. destruct (Z.max_spec a b) as [[L ->] | [L ->]].
  - apply IZR_lt in L. apply Rmax_right. lra.
  - apply IZR_le in L. apply Rmax_left. lra.
Qed.
Lemma max_key : @MAX_COLOUR_KEY R RNum = tenth 50.
Proof.
  unfold MAX_COLOUR_KEY. rewrite dict_up, map_map. cbn [fst].
  rewrite <- (map_map fst tenth).
  replace (map fst zdict) with (0%Z :: tl (map fst zdict)) by (vm_compute; reflexivity).
  cbn [map]. rewrite max_up. apply f_equal. vm_compute. reflexivity.
Qed.

(** The hue of the key [k] tenths: full steps of one (the colour at a whole number
    is written twice, the second time as the start of the next segment). *)
Definition hue_at (k : Z) : hue :=
  if Z.eqb k 50 then (4, 10)%Z else (k / 10, k mod 10)%Z.
Lemma dict_get k : (0 <= k <= 50)%Z -> assoc_get (tenth k) COLOUR_FOS_DICT = Ok (hue_at k).
Proof.
  intros L. rewrite dict_up, (up_get tenth tenth_inj).
  assert (A : forallb (fun k => match zget k zdict with
                                | Ok (a, b) => Z.eqb a (fst (hue_at k)) && Z.eqb b (snd (hue_at k))
                                | Err _ => false end)
                      (zrange 0 51) = true) by (vm_compute; reflexivity).
  rewrite forallb_forall in A. specialize (A k).
  destruct (zget k zdict) as [[a b]|].
  - rewrite !andb_true_iff, !Z.eqb_eq in A. destruct A as [-> ->]; [| now destruct (hue_at k) ].
    apply zrange_In. lia.
  - discriminate A. apply zrange_In. lia.
Qed.

Lemma round1 x : Rround 1 x = tenth (Rnear (x * 10)).
Proof. unfold Rround, tenth. now rewrite pow_1. Qed.
(** The nearest tenth, at most 5.0. *)
Definition fos_key (fos : R) : Z := Z.min (Rnear (fos * 10)) 50.
Lemma fos_hue_key fos : 0 <= fos -> fos_hue fos = Ok (hue_at (fos_key fos)).
Proof.
  intros P. unfold fos_hue. rewrite max_key. unR. rewrite round1.
  assert (N : (0 <= Rnear (fos * 10))%Z).
  { rewrite <- (near_int 0). apply near_mono. lra. }
  replace (Rmin (tenth (Rnear (fos * 10))) (tenth 50)) with (tenth (fos_key fos)).
  - apply dict_get. unfold fos_key. lia.
  - unfold fos_key, tenth. destruct (Z.min_spec (Rnear (fos * 10)) 50) as [[L ->] | [L ->]].
    + apply IZR_lt in L. symmetry. apply Rmin_left. lra.
    + apply IZR_le in L. symmetry. apply Rmin_right. lra.
Qed.
Lemma fos_key_near fos : 0 <= fos ->
  (0 <= fos_key fos <= 50)%Z /\ Rabs (IZR (fos_key fos) / 10 - Rmin fos 5) <= / 20.
Proof.
  intros P.
  assert (N : (0 <= Rnear (fos * 10))%Z).
  { rewrite <- (near_int 0). apply near_mono. lra. }
  split; [ unfold fos_key; lia |].
  pose proof (near_half (fos * 10)) as A. apply abs_le_inv in A.
  apply Rabs_le. unfold fos_key.
  destruct (Z.min_spec (Rnear (fos * 10)) 50) as [[L ->] | [L ->]].
  - assert (L' : (Rnear (fos * 10) <= 49)%Z) by lia. apply IZR_le in L'.
    rewrite Rmin_left by lra. lra.
  - apply IZR_le in L. rminmax; lra.
Qed.
(** Both ways of the code to choose the colour agree. *)
Lemma plane_hue_key fos : 0 <= fos -> plane_hue fos = Ok (hue_at (fos_key fos)).
Proof.
  intros P. unfold plane_hue. unR.
  assert (N : (0 <= Rnear (fos * 10))%Z).
  { rewrite <- (near_int 0). apply near_mono. lra. }
  destruct (Rltb 5 fos) eqn:E; rbool.
  - replace 5 with (tenth 50) by (unfold tenth; lra). rewrite dict_get by lia.
    do 2 f_equal. unfold fos_key. symmetry. apply Z.min_r.
    rewrite <- (near_int 50). apply near_mono. lra.
  - rewrite round1, dict_get.
    + do 2 f_equal. unfold fos_key. symmetry. apply Z.min_l.
      rewrite <- (near_int 50). apply near_mono. lra.
    + split; [ assumption |]. rewrite <- (near_int 50). apply near_mono. lra.
Qed.
(** Higher factors never get a lower colour. *)
Lemma fos_key_mono a b : a <= b -> (fos_key a <= fos_key b)%Z.
Proof.
  intros L. unfold fos_key. pose proof (near_mono (a * 10) (b * 10) ltac:(lra)). lia.
Qed.

(** ** The drawn arcs *)
Lemma dist_small x y x' y' d : Rabs (x - x') <= d -> Rabs (y - y') <= d ->
  dist_euc x y x' y' <= 2 * d.
Proof.
  intros A B. apply abs_le_inv in A. apply abs_le_inv in B.
  assert (D : 0 <= d) by lra.
  unfold dist_euc. rewrite <- (sqrt_Rsqr (2 * d)) by lra.
  apply sqrt_le_1_alt. unfold Rsqr. nra.
Qed.
Lemma dist_circle cx cy r a : 0 <= r ->
  dist_euc (cx - cos a * r) (cy - sin a * r) cx cy = r.
Proof.
  intros P. unfold dist_euc. rewrite <- (sqrt_Rsqr r P) at 3. f_equal.
  pose proof (sin2_cos2 a) as E. unfold Rsqr in *.
  replace ((cx - cos a * r - cx) * (cx - cos a * r - cx)
           + (cy - sin a * r - cy) * (cy - sin a * r - cy))
    with ((sin a * sin a + cos a * cos a) * (r * r)) by ring.
  rewrite E. ring.
Qed.
Lemma round3_err x : Rabs (Rround 3 x - x) <= / 2000.
Proof. pose proof (round_err 3 x) as A. cbn [pow] in A. lra. Qed.
(** A point of the drawn half circle is within one unit in the third decimal of
    the circle. *)
Lemma coords_near cx cy r p : 0 <= r ->
  In p (generate_circle_coordinates cx cy r) ->
  Rabs (dist_euc (fst p) (snd p) cx cy - r) <= / 1000.
Proof.
  intros P I. unfold generate_circle_coordinates in I. apply in_map_iff in I.
  destruct I as (a & <- & _). cbn [fst snd]. unR.
  set (t := nradians (IZR a)).
  set (x := cx - cos t * r). set (y := cy - sin t * r).
  pose proof (dist_circle cx cy r t P) as D. fold x y in D.
  pose proof (dist_small (Rround 3 x) (Rround 3 y) x y _ (round3_err x) (round3_err y)) as S1.
  pose proof (triangle (Rround 3 x) (Rround 3 y) cx cy x y) as T1.
  pose proof (triangle x y cx cy (Rround 3 x) (Rround 3 y)) as T2.
  rewrite (distance_symm x y (Rround 3 x)) in T2.
  apply Rabs_le. lra.
Qed.
Lemma arc_near cx cy r l e p : 0 <= r -> In p (arc_points cx cy r l e) ->
  Rabs (dist_euc (fst p) (snd p) cx cy - r) <= / 1000
  /\ fst l <= fst p <= fst e /\ snd p <= snd l.
Proof.
  intros P I. unfold arc_points in I. apply filter_In in I. destruct I as [I C].
  unR. rbool. split; [ now apply coords_near | lra ].
Qed.
Lemma circle_angles_eq :
  circle_angles = map (fun k => (2 * k + 1)%Z) (zrange 0 90).
Proof. vm_compute. reflexivity. Qed.
Lemma angle_mono a b : (0 <= a <= b)%Z -> (b <= 180)%Z ->
  cos (nradians (IZR b)) <= cos (nradians (IZR a)).
Proof.
  intros [A B] C. apply IZR_le in A. apply IZR_le in B. apply IZR_le in C.
  unfold nradians. unR. pose proof PI_RGT_0.
  apply cos_decr_1; try nra; lra.
Qed.
Lemma round_mono k x y : x <= y -> Rround k x <= Rround k y.
Proof.
  intros L. unfold Rround. assert (P : 0 < 10 ^ k) by (apply pow_lt; lra).
  unfold Rdiv. apply Rmult_le_compat_r; [ left; now apply Rinv_0_lt_compat |].
  apply IZR_le, near_mono. nra.
Qed.
Lemma strong_map {A B} (r : A -> A -> Prop) (q : B -> B -> Prop) (f : A -> B) l :
  (forall a b, In a l -> In b l -> r a b -> q (f a) (f b)) ->
  StronglySorted r l -> StronglySorted q (map f l).
Proof.
  induction l as [|x l IH]; intros P HS; cbn [map]; [ constructor |].
  apply StronglySorted_inv in HS as [HS F]. constructor.
  - apply IH; [| assumption ]. intros a b Ia Ib. apply P; now right.
  - rewrite Forall_forall in *. intros y I. apply in_map_iff in I.
    destruct I as (b & <- & I). apply P; [ now left | now right | now apply F ].
Qed.
Lemma strong_filter {A} (r : A -> A -> Prop) (f : A -> bool) l :
  StronglySorted r l -> StronglySorted r (filter f l).
Proof.
  induction 1 as [|x l HS IH F]; cbn [filter]; [ constructor |].
  destruct (f x); [| assumption ]. constructor; [ assumption |].
  rewrite Forall_forall in *. intros y I. apply filter_In in I. now apply F.
Qed.
Lemma zrange_sorted n : forall a, StronglySorted Z.lt (zrange a n).
Proof.
  induction n as [|n IH]; intros a; cbn [zrange]; constructor; [ apply IH |].
  apply Forall_forall. intros b I. apply zrange_In in I. lia.
Qed.
(** The arc is drawn from left to right. *)
Lemma coords_sorted cx cy r : 0 <= r ->
  StronglySorted (fun p q : R * R => fst p <= fst q) (generate_circle_coordinates cx cy r).
Proof.
  intros P. unfold generate_circle_coordinates. rewrite circle_angles_eq.
  apply (strong_map (fun a b => (a <= b)%Z)).
  - intros a b Ia Ib L. cbn [fst]. unR. apply round_mono.
    apply in_map_iff in Ia. destruct Ia as (i & <- & Ia). apply zrange_In in Ia.
    apply in_map_iff in Ib. destruct Ib as (j & <- & Ib). apply zrange_In in Ib.
    pose proof (angle_mono (2 * i + 1) (2 * j + 1) ltac:(lia) ltac:(lia)). nra.
  - apply (strong_map Z.lt); [ lia | apply zrange_sorted ].
Qed.
Lemma arc_sorted cx cy r l e : 0 <= r ->
  StronglySorted (fun p q : R * R => fst p <= fst q) (arc_points cx cy r l e).
Proof. intros P. now apply strong_filter, coords_sorted. Qed.
