(** * SumNear: sums and products of numbers known up to a relative and an absolute error. *)
From Coq Require Import ZArith Reals Lra Lia Bool List SpecFloat.
From Verif Require Import Num FloatNum RealNum RoundTheory NearFacts.
Import ListNotations.
Local Open Scope R_scope.

(** [x] stands for [v], of gross size [g]: the error is at most [k] roundings of [g], and [d] *)
Definition about (x : float) (v g k d : R) : Prop :=
  valid x /\ Rabs v <= g /\ Rabs (FR x - v) <= k * u * g + d.

Lemma u_pos : 0 < u.
Proof. apply p2_pos. Qed.
Lemma FR_dyadic m e : (e < 0)%Z -> FR (S754_finite false m e) = IZR (Zpos m) / IZR (2 ^ (- e)).
Proof.
  intros E. cbn [FR sgn]. replace e with (- - e)%Z at 1 by lia. rewrite p2_neg, p2_IZR by lia. lra.
Qed.
Lemma about_weaken x v g k d k' d' : about x v g k d -> k <= k' -> d <= d' -> about x v g k' d'.
Proof.
  intros (V & G & E) K D. split; [exact V|]. split; [exact G|]. apply Rle_trans with (1 := E). pose proof u_pos.
  assert (0 <= g) by (pose proof (Rabs_pos v); lra). apply Rplus_le_compat; [|exact D].
  apply Rmult_le_compat_r; [assumption|]. apply Rmult_le_compat_r; lra.
Qed.
Lemma about_exact x : valid x -> about x (FR x) (Rabs (FR x)) 0 0.
Proof. intros V. split; [exact V|]. split; [lra|]. rewrite Rminus_diag_eq, Rabs_R0 by reflexivity. lra. Qed.
Lemma about_size x v g k d : about x v g k d -> Rabs (FR x) <= (1 + k * u) * g + d.
Proof.
  intros (_ & G & E). replace (FR x) with (v + (FR x - v)) by ring.
  apply Rle_trans with (1 := Rabs_triang _ _). lra.
Qed.
(** most roundings counted: 2^45 *)
Definition many : R := 35184372088832.
Lemma many_u : many * u = / 256.
Proof. rewrite u_val. unfold many. field. Qed.
Lemma few_u k : 0 <= k <= many -> 0 <= k * u <= / 256.
Proof. intros B. pose proof u_pos. rewrite <- many_u. split; [nra|]. apply Rmult_le_compat_r; lra. Qed.

Lemma add_error k c ga gb d e r : 0 <= k <= many -> 0 <= c <= many -> 0 <= ga -> 0 <= gb -> 0 <= d -> 0 <= e ->
  r <= u * (ga + gb + (k * u * ga + d) + (c * u * gb + e)) ->
  (k * u * ga + d) + (c * u * gb + e) + r <= (Rmax k c + 2) * u * (ga + gb) + (1 + u) * (d + e).
Proof.
  intros K C Ga Gb D E Hr. pose proof (few_u k K). pose proof (few_u c C). pose proof u_pos as U.
  assert (U1 : u <= / 256) by (rewrite u_val; lra).
  pose proof (Rmax_l k c) as M1. pose proof (Rmax_r k c) as M2.
  assert (A : k * u * ga <= Rmax k c * u * ga) by (apply Rmult_le_compat_r; [assumption|]; apply Rmult_le_compat_r; lra).
  assert (B : c * u * gb <= Rmax k c * u * gb) by (apply Rmult_le_compat_r; [assumption|]; apply Rmult_le_compat_r; lra).
  assert (A2 : u * (k * u * ga) <= u * ga) by (apply Rmult_le_compat_l; [lra|]; nra).
  assert (B2 : u * (c * u * gb) <= u * gb) by (apply Rmult_le_compat_l; [lra|]; nra).
  lra.
Qed.
Lemma sum_about (op : R -> R -> R) (fop : float -> float -> float) a b va vb ga gb k c d e :
  (forall x y, Rabs (op x y) <= Rabs x + Rabs y) ->
  (forall x y x' y', Rabs (op x y - op x' y') <= Rabs (x - x') + Rabs (y - y')) ->
  (forall x y, valid x -> valid y -> Rabs (op (FR x) (FR y)) < p2 1023 ->
     valid (fop x y) /\ Rabs (FR (fop x y) - op (FR x) (FR y)) <= u * Rabs (op (FR x) (FR y))) ->
  about a va ga k d -> about b vb gb c e -> 0 <= k <= many -> 0 <= c <= many -> 0 <= d <= vast -> 0 <= e <= vast ->
  ga <= vast -> gb <= vast ->
  about (fop a b) (op va vb) (ga + gb) (Rmax k c + 2) ((1 + u) * (d + e)).
Proof.
  intros T1 T2 F A B K C D E Ga Gb. pose proof (about_size _ _ _ _ _ A) as Sa. pose proof (about_size _ _ _ _ _ B) as Sb.
  destruct A as (Va & Ba & Ea), B as (Vb & Bb & Eb).
  assert (G0 : 0 <= ga) by (pose proof (Rabs_pos va); lra). assert (G1 : 0 <= gb) by (pose proof (Rabs_pos vb); lra).
  pose proof (few_u k K) as Fk. pose proof (few_u c C) as Fc. pose proof top_vast as TV. pose proof vast_big as VB.
  assert (k * u * ga <= / 256 * ga) by (apply Rmult_le_compat_r; lra).
  assert (c * u * gb <= / 256 * gb) by (apply Rmult_le_compat_r; lra).
  pose proof (T1 (FR a) (FR b)) as T1'. pose proof (T2 (FR a) (FR b) va vb) as T2'.
  destruct (F a b Va Vb) as (V & N); [lra|]. split; [exact V|]. split; [pose proof (T1 va vb); lra|].
  set (r := FR (fop a b)) in *. set (x := op (FR a) (FR b)) in *.
  replace (r - op va vb) with ((x - op va vb) + (r - x)) by ring. apply Rle_trans with (1 := Rabs_triang _ _).
  apply Rle_trans with ((k * u * ga + d) + (c * u * gb + e) + Rabs (r - x)); [lra|].
  apply add_error; try lra. apply Rle_trans with (1 := N). pose proof u_pos. apply Rmult_le_compat_l; lra.
Qed.
Lemma add_about a b va vb ga gb k c d e : about a va ga k d -> about b vb gb c e ->
  0 <= k <= many -> 0 <= c <= many -> 0 <= d <= vast -> 0 <= e <= vast -> ga <= vast -> gb <= vast ->
  about (nadd a b) (va + vb) (ga + gb) (Rmax k c + 2) ((1 + u) * (d + e)).
Proof.
  apply (sum_about Rplus).
  - exact Rabs_triang.
  - intros x y x' y'. replace (x + y - (x' + y')) with ((x - x') + (y - y')) by ring. apply Rabs_triang.
  - intros x y A B. apply add_near; auto.
Qed.
Lemma sub_about a b va vb ga gb k c d e : about a va ga k d -> about b vb gb c e ->
  0 <= k <= many -> 0 <= c <= many -> 0 <= d <= vast -> 0 <= e <= vast -> ga <= vast -> gb <= vast ->
  about (nsub a b) (va - vb) (ga + gb) (Rmax k c + 2) ((1 + u) * (d + e)).
Proof.
  apply (sum_about Rminus).
  - intros x y. unfold Rminus. rewrite <- (Rabs_Ropp y). apply Rabs_triang.
  - intros x y x' y'. replace (x - y - (x' - y')) with ((x - x') + - (y - y')) by ring.
    rewrite <- (Rabs_Ropp (y - y')). apply Rabs_triang.
  - intros x y A B. apply sub_near; auto.
Qed.
(** the product with a number that is known exactly *)
Lemma mul_about a b va ga k d : about a va ga k d -> valid b -> 0 <= k <= many -> 0 <= d -> (ga + d) * Rabs (FR b) <= vast ->
  about (nmul a b) (va * FR b) (ga * Rabs (FR b)) (k + 2) (2 * d * Rabs (FR b) + eta).
Proof.
  intros A Vb K D G. pose proof (about_size _ _ _ _ _ A) as Sa. destruct A as (Va & Ba & Ea).
  assert (G0 : 0 <= ga) by (pose proof (Rabs_pos va); lra). pose proof (Rabs_pos (FR b)) as B0. set (B := Rabs (FR b)) in *.
  pose proof (few_u k K) as Fk. pose proof top_vast as TV. pose proof vast_big as VB. pose proof u_pos as U.
  assert (KG : 0 <= k * u * ga <= / 256 * ga).
  { split; [apply Rmult_le_pos; lra|]. apply Rmult_le_compat_r; lra. }
  assert (P : Rabs (FR a * FR b) <= ga * B + (k * u * ga + d) * B).
  { rewrite Rabs_mult. fold B. rewrite <- Rmult_plus_distr_r. apply Rmult_le_compat_r; lra. }
  assert (GB : 0 <= ga * B) by (apply Rmult_le_pos; lra). assert (DB : 0 <= d * B) by (apply Rmult_le_pos; lra).
  assert (KB : 0 <= k * u * ga * B <= / 256 * (ga * B)).
  { split; [apply Rmult_le_pos; lra|]. rewrite <- Rmult_assoc. apply Rmult_le_compat_r; lra. }
  destruct (mul_near a b Va Vb) as (V & N); [lra|]. split; [exact V|].
  split; [rewrite Rabs_mult; fold B; apply Rmult_le_compat_r; lra|].
  cbn [nmul FNum]. set (r := FR (SFmul prec emax a b)) in *.
  replace (r - va * FR b) with ((FR a - va) * FR b + (r - FR a * FR b)) by ring.
  apply Rle_trans with (1 := Rabs_triang _ _). rewrite Rabs_mult. fold B.
  assert (E1 : Rabs (FR a - va) * B <= (k * u * ga + d) * B) by (apply Rmult_le_compat_r; lra).
  assert (E2 : Rabs (r - FR a * FR b) <= u * (ga * B + (k * u * ga + d) * B) + eta).
  { apply Rle_trans with (1 := N). pose proof eta_pos. apply Rmax_lub.
    - assert (u * Rabs (FR a * FR b) <= u * (ga * B + (k * u * ga + d) * B)) by (apply Rmult_le_compat_l; lra). lra.
    - assert (0 <= u * (ga * B + (k * u * ga + d) * B)) by (apply Rmult_le_pos; lra). lra. }
  assert (E3 : u * (k * u * ga * B) <= u * (ga * B)) by (apply Rmult_le_compat_l; lra).
  assert (E4 : u * (d * B) <= d * B) by (rewrite u_val; lra). lra.
Qed.
(** the larger of such a number and zero *)
Lemma max0_about x v g k d : about x v g k d -> about (pymax (nz 0) x) (Rmax 0 v) g k d.
Proof.
  intros (V & G & E). destruct (nz_FR 0 eq_refl) as (V0 & E0). destruct (pymax_FR (nz 0) x V0 V) as (Vm & Em).
  split; [exact Vm|]. rewrite Em, E0. split.
  - apply Rle_trans with (2 := G). unfold Rmax. destruct (Rle_dec 0 v); [lra|]. rewrite Rabs_R0. apply Rabs_pos.
  - apply Rle_trans with (2 := E). unfold Rmax. pose proof (Rabs_pos (FR x - v)).
    destruct (Rle_dec 0 (FR x)), (Rle_dec 0 v).
    + lra.
    + rewrite Rminus_0_r. rewrite (Rabs_right (FR x)), (Rabs_right (FR x - v)); lra.
    + rewrite (Rabs_left1 (0 - v)), (Rabs_left1 (FR x - v)); lra.
    + rewrite Rminus_0_r, Rabs_R0. lra.
Qed.

(** ** Sums of any length *)
Lemma about_zero : about (nz 0) 0 0 0 0.
Proof.
  destruct (nz_FR 0 eq_refl) as (V0 & E0). split; [exact V0|]. rewrite E0, Rminus_0_r, Rabs_R0. lra.
Qed.
Definition total {A} (f : A -> R) (l : list A) : R := fold_right (fun a s => f a + s) 0 l.
Lemma total_nonneg {A} (f : A -> R) l : Forall (fun a => 0 <= f a) l -> 0 <= total f l.
Proof. induction 1; cbn [total fold_right]; [lra|]. fold (total f l). lra. Qed.
Lemma total_fold {A} (f : A -> R) l : forall w, fold_left (fun w a => w + f a) l w = w + total f l.
Proof.
  induction l as [|a l IH]; intros w; cbn [fold_left total fold_right]; [lra|]. rewrite IH. fold (total f l). lra.
Qed.
Lemma count_cons {A} (a : A) l : INR (List.length (a :: l)) = INR (List.length l) + 1.
Proof. cbn [List.length]. now rewrite S_INR. Qed.

Lemma fold_about {A} (ft : A -> float) (rt gt : A -> R) c e l :
  Forall (fun a => about (ft a) (rt a) (gt a) c e) l -> 0 <= e -> 0 <= c ->
  forall w v g k d, about w v g k d -> c <= k -> 0 <= d -> k + 2 * INR (List.length l) <= many ->
  d + 2 * INR (List.length l) * e <= vast -> g + total gt l <= vast -> d * u <= e ->
  (d + 2 * INR (List.length l) * e) * u <= e ->
  about (fold_left (fun w a => nadd w (ft a)) l w) (v + total rt l) (g + total gt l)
        (k + 2 * INR (List.length l)) (d + 2 * INR (List.length l) * e).
Proof.
  intros F E0 C0. induction F as [|a l Fa F IH]; intros w v g k d W CK D0 KM DV GV DU DU2.
  - cbn [fold_left total fold_right List.length INR]. rewrite !Rplus_0_r, Rmult_0_r, Rmult_0_l, !Rplus_0_r. exact W.
  - rewrite count_cons in *. pose proof (pos_INR (List.length l)) as N0. set (n := INR (List.length l)) in *.
    assert (GA : 0 <= gt a) by (destruct Fa as (_ & Q & _); pose proof (Rabs_pos (rt a)); lra).
    assert (G0 : 0 <= g) by (destruct W as (_ & Q & _); pose proof (Rabs_pos v); lra).
    assert (T0 : 0 <= total gt l).
    { apply total_nonneg. apply Forall_forall. intros b Hb. rewrite Forall_forall in F. destruct (F b Hb) as (_ & Q & _).
      pose proof (Rabs_pos (rt b)). lra. }
    cbn [total fold_right] in GV. fold (total gt l) in GV. cbn [fold_left total fold_right]. fold (total gt l) (total rt l).
    assert (NE : 0 <= n * e) by (apply Rmult_le_pos; lra).
    pose proof (add_about _ _ _ _ _ _ _ _ _ _ W Fa) as St. rewrite (Rmax_left k c) in St by lra.
    specialize (St ltac:(lra) ltac:(lra) ltac:(lra) ltac:(lra) ltac:(lra) ltac:(lra)).
    assert (UE : u * e <= / 2 * e) by (apply Rmult_le_compat_r; [lra|]; rewrite u_val; lra).
    assert (ST : about (nadd w (ft a)) (v + rt a) (g + gt a) (k + 2) (d + 2 * e)).
    { apply about_weaken with (1 := St); [lra|].
      assert (d * u <= / 2 * e \/ / 2 * e < d * u) as [Q|Q] by lra; [lra|].
      assert (2 * n * e * u + 2 * e * u + d * u <= e) by lra.
      assert (0 <= 2 * n * e * u) by (pose proof u_pos; apply Rmult_le_pos; lra). lra. }
    assert (R1 : 0 <= 2 * n * e * u) by (pose proof u_pos; apply Rmult_le_pos; lra).
    specialize (IH _ _ _ _ _ ST ltac:(lra) ltac:(lra) ltac:(lra) ltac:(lra) ltac:(lra) ltac:(lra) ltac:(lra)).
    replace (v + (rt a + total rt l)) with (v + rt a + total rt l) by lra.
    replace (g + (gt a + total gt l)) with (g + gt a + total gt l) by lra.
    replace (k + 2 * (n + 1)) with (k + 2 + 2 * n) by lra.
    replace (d + 2 * (n + 1) * e) with (d + 2 * e + 2 * n * e) by lra. exact IH.
Qed.
(** the sum of [n] such numbers *)
Lemma sum_list_about {A} (ft : A -> float) (rt gt : A -> R) c e l :
  Forall (fun a => about (ft a) (rt a) (gt a) c e) l -> 0 <= e <= 1 -> 0 <= c <= 1000 ->
  INR (List.length l) <= 1000000000000 -> total gt l <= vast ->
  about (fold_left (fun w a => nadd w (ft a)) l (nz 0)) (total rt l) (total gt l)
        (c + 2 * INR (List.length l)) (2 * INR (List.length l) * e).
Proof.
  intros F E0 C0 N GV. pose proof (pos_INR (List.length l)) as N0. pose proof vast_big as VB.
  assert (Z : about (nz 0) 0 0 c 0) by (apply about_weaken with (1 := about_zero); lra).
  assert (NE : INR (List.length l) * e <= 1000000000000 * e) by (apply Rmult_le_compat_r; lra).
  assert (NV : 2 * 1000000000000 <= vast).
  { apply Rle_trans with (p2 45); [|apply p2_le; lia]. rewrite p2_IZR by lia. rewrite <- mult_IZR. apply IZR_le. vm_compute. discriminate. }
  pose proof (fold_about ft rt gt c e l F ltac:(lra) ltac:(lra) _ _ _ _ _ Z) as Q.
  rewrite !Rplus_0_l in Q. apply Q; unfold many; try lra.
  rewrite u_val. lra.
Qed.
