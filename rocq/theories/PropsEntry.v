(** * PropsEntry: the first circle tried for two points is analysed from the one on the crest and to the one on the toe (C121).

    [FR x] is the real number a binary64 number stands for.  [spread], [rise_of] and [fits] are those of C119 and C120,
    [measured], [cuts_crest], [cuts_toe], [passes] and [slack] those of C118. *)
From Coq Require Import ZArith Reals Lra Lia Bool List String SpecFloat.
From Verif Require Import Num RealNum FloatNum Py Validation Utilities Objects Slope Planes
     RoundTheory NearFacts SumNear CrossNear EndsNear StartNear EntryNear PropsNear PropsEnds PropsStart PropsRise.
Import ListNotations.
Local Open Scope R_scope.

Lemma on_circle_pt cx cy r a b P : on_both cx cy r a b P -> on_circle (FR cx) (FR cy) (FR r) P.
Proof. intros (O & _). exact O. Qed.
Lemma crest_level g cx cy r S A : measured g cx cy r S -> cuts_crest g cx cy r S A -> 0 <= slack cx cy r S (pt (start g)) (pt (g_top g)) ->
  snd A = FR (snd (g_top g)) /\ fst A <= FR cx.
Proof.
  intros Ms ((W & O & L1 & L2) & A' & O' & LT) E0. destruct Ms as (_ & _ & _ & BS & _). pose proof (p2_pos (-50)).
  assert (Q : FR (fst (start g)) < FR (fst (g_top g))).
  { destruct (Rle_lt_or_eq_dec (FR (fst (start g))) (FR (fst (g_top g)))) as [Q|Q]; [lra|exact Q|]. exfalso. destruct W as (W & _). revert W.
    unfold gap2, pt. cbn [fst snd start]. change (FR (nz 0)) with (FR (fst (start g))). rewrite Q. pose proof (p2_pos (-53)). assert (0 < S * S) by nra. nra. }
  pose proof (level_line _ _ _ _ Q (proj2 O)) as Y. pose proof (level_line _ _ _ _ Q (proj2 O')) as Y'.
  split; [exact Y|]. apply (left_one (FR cx) (FR cy) (FR r) A A'); [apply O|apply O'|congruence|lra].
Qed.
Lemma toe_level g cx cy r S B : measured g cx cy r S -> cuts_toe g cx cy r S B -> 0 <= slack cx cy r S (pt (g_bot g)) (pt (last g)) ->
  snd B = FR (snd (g_bot g)) /\ FR cx <= fst B.
Proof.
  intros Ms ((W & O & L1 & L2) & B' & O' & LT) E0. destruct Ms as (_ & _ & _ & BS & _). pose proof (p2_pos (-50)).
  assert (Q : FR (fst (g_bot g)) < FR (fst (last g))).
  { destruct (Rle_lt_or_eq_dec (FR (fst (g_bot g))) (FR (fst (last g)))) as [Q|Q]; [lra|exact Q|]. exfalso. destruct W as (W & _). revert W.
    unfold gap2, pt. cbn [fst snd last]. change (FR (g_ext_l g)) with (FR (fst (last g))). rewrite Q. pose proof (p2_pos (-53)). assert (0 < S * S) by nra. nra. }
  pose proof (level_line _ _ _ _ Q (proj2 O)) as Y. pose proof (level_line _ _ _ _ Q (proj2 O')) as Y'.
  split; [exact Y|]. apply (left_one (FR cx) (FR cy) (FR r) B' B); [apply O'|apply O|congruence|lra].
Qed.
Lemma near_pos p P e : near p P e -> 0 <= e.
Proof. intros (_ & _ & N & _). pose proof (Rabs_pos (FR (fst p) - fst P)). lra. Qed.

(** How far a crossing with a level line may be from the point asked for, [m] being its distance from the vertical through the centre. *)
Definition drift (S rad m : R) : R := p2 (-38) * (S + rad) * (2 * rad + p2 (-38) * (S + rad)) / m.
Lemma drift_from S R rad m e : 0 <= S -> 0 < R -> Rabs (rad - R) <= 1850 * p2 (-53) * R -> 0 < m ->
  e <= p2 (-39) * (S + R) -> 0 <= e -> e * (2 * rad + e) / m <= drift S rad m.
Proof.
  intros S0 R0 N M L E0. unfold drift, Rdiv. apply Rmult_le_compat_r; [left; now apply Rinv_0_lt_compat|].
  assert (U : 1850 * p2 (-53) <= / 1000) by (change (p2 (-53)) with u; rewrite u_val; lra).
  apply abs_span in N. assert (RR : 0.999 * R <= rad) by nra.
  assert (P38 : p2 (-38) = 2 * p2 (-39)) by (replace (-38)%Z with (1 + -39)%Z by reflexivity; rewrite p2_add, (p2_IZR 1) by lia; reflexivity).
  pose proof (p2_pos (-39)). assert (B : e <= p2 (-38) * (S + rad)) by (rewrite P38; nra). apply Rmult_le_compat; lra.
Qed.
Theorem C121_crest_toe : forall g l r S n ps, spread l r S -> (0 < n <= 2 ^ 30)%Z -> generate_planes g l r n = Ok ps ->
  FR (snd l) = FR (snd (g_top g)) -> FR (snd r) = FR (snd (g_bot g)) ->
  exists t c rad, first_turn l r n t c rad /\ rise_of l r n n t /\ fits l r t S c rad /\
    (forall S' A B, let cx := fst c in let cy := snd c in
     FR (fst l) < FR cx < FR (fst r) -> measured g cx cy rad S' ->
     cuts_crest g cx cy rad S' A -> cuts_toe g cx cy rad S' B -> passes cx cy rad S' (g_top g) (g_bot g) ->
     let e1 := slack cx cy rad S' (pt (start g)) (pt (g_top g)) in let e2 := slack cx cy rad S' (pt (g_bot g)) (pt (last g)) in
     fst A + e1 + e2 + 1 / 50 <= fst B ->
     exists p q rest, ps = MkPlane p q cx cy rad None :: rest /\
       Rabs (FR (fst p) - FR (fst l)) <= e1 + drift S (FR rad) (FR cx - FR (fst l)) /\ Rabs (FR (snd p) - FR (snd l)) <= e1 /\
       Rabs (FR (fst q) - FR (fst r)) <= e2 + drift S (FR rad) (FR (fst r) - FR cx) /\ Rabs (FR (snd q) - FR (snd r)) <= e2).
Proof.
  intros g l r S n ps Sp N G YL YR. destruct (C120_first g l r S n ps Sp N G) as (t & c & rad & FI & RO & F & Q).
  exists t, c, rad. split; [exact FI|]. split; [exact RO|]. split; [exact F|]. intros S' A B cx cy X Ms C1 C2 C3 e1 e2 L.
  destruct (C118_crest_toe g cx cy rad S' A B Ms C1 C2 C3 L) as (p & q & EX & FT & N1 & N2). fold e1 in N1. fold e2 in N2.
  destruct (Q _ _ _ EX FT) as (rest & EP). exists p, q, rest. split; [exact EP|].
  destruct F as (X0 & Y0 & R0 & (Rp & _) & _ & NR & _ & _ & D1 & D2). fold cx cy in D1, D2.
  destruct (crest_level g cx cy rad S' A Ms C1 (near_pos _ _ _ N1)) as (YA & LA). destruct (toe_level g cx cy rad S' B Ms C2 (near_pos _ _ _ N2)) as (YB & LB).
  assert (S0 : 0 <= S) by (destruct Sp as (_ & (B1 & _) & _); apply Rle_trans with (2 := B1); apply Rabs_pos).
  assert (U : 1850 * p2 (-53) <= / 1000) by (change (p2 (-53)) with u; rewrite u_val; lra). pose proof (abs_span _ _ NR) as SR.
  assert (Rr : 0 <= FR rad) by nra.
  set (f1 := Rabs (dist_euc (FR (fst l)) (FR (snd l)) (FR cx) (FR cy) - FR rad)) in *.
  set (f2 := Rabs (dist_euc (FR (fst r)) (FR (snd r)) (FR cx) (FR cy) - FR rad)) in *.
  pose proof (level_cut (FR cx) (FR cy) (FR rad) A (FRp l) f1 (FR cx - FR (fst l)) Rr (on_circle_pt _ _ _ _ _ _ (proj1 (proj2 (proj1 C1))))
    ltac:(unfold FRp; cbn [snd]; congruence) (Rle_refl _) ltac:(lra) ltac:(unfold FRp; cbn [fst]; lra)) as K1.
  pose proof (level_cut (FR cx) (FR cy) (FR rad) B (FRp r) f2 (FR (fst r) - FR cx) Rr (on_circle_pt _ _ _ _ _ _ (proj1 (proj2 (proj1 C2))))
    ltac:(unfold FRp; cbn [snd]; congruence) (Rle_refl _) ltac:(lra) ltac:(unfold FRp; cbn [fst]; lra)) as K2.
  pose proof (drift_from S R0 (FR rad) (FR cx - FR (fst l)) f1 S0 Rp NR ltac:(lra) D1 (Rabs_pos _)) as K3.
  pose proof (drift_from S R0 (FR rad) (FR (fst r) - FR cx) f2 S0 Rp NR ltac:(lra) D2 (Rabs_pos _)) as K4.
  unfold FRp in K1, K2. cbn [fst] in K1, K2. destruct N1 as (_ & _ & N1x & N1y). destruct N2 as (_ & _ & N2x & N2y).
  rewrite YA, <- YL in N1y. rewrite YB, <- YR in N2y. split; [|split; [exact N1y|split; [|exact N2y]]].
  - replace (FR (fst p) - FR (fst l)) with ((FR (fst p) - fst A) + (fst A - FR (fst l))) by ring. apply Rle_trans with (1 := Rabs_triang _ _). lra.
  - replace (FR (fst q) - FR (fst r)) with ((FR (fst q) - fst B) + (fst B - FR (fst r))) by ring. apply Rle_trans with (1 := Rabs_triang _ _). lra.
Qed.
Print Assumptions C121_crest_toe.
(** With the exit on the face: where the surface begins. *)
Theorem C121_crest_face : forall g l r S n ps, spread l r S -> (0 < n <= 2 ^ 30)%Z -> generate_planes g l r n = Ok ps ->
  FR (snd l) = FR (snd (g_top g)) ->
  exists t c rad, first_turn l r n t c rad /\ rise_of l r n n t /\ fits l r t S c rad /\
    (forall S' A B, let cx := fst c in let cy := snd c in
     FR (fst l) < FR cx -> measured g cx cy rad S' ->
     cuts_crest g cx cy rad S' A -> cuts_face g cx cy rad S' B -> passes cx cy rad S' (g_bot g) (last g) ->
     let e1 := slack cx cy rad S' (pt (start g)) (pt (g_top g)) in let e3 := slack cx cy rad S' (pt (g_top g)) (pt (g_bot g)) in
     fst A + e1 + e3 + 1 / 50 <= fst B ->
     exists p q rest, ps = MkPlane p q cx cy rad None :: rest /\ near q B e3 /\
       Rabs (FR (fst p) - FR (fst l)) <= e1 + drift S (FR rad) (FR cx - FR (fst l)) /\ Rabs (FR (snd p) - FR (snd l)) <= e1).
Proof.
  intros g l r S n ps Sp N G YL. destruct (C120_first g l r S n ps Sp N G) as (t & c & rad & FI & RO & F & Q).
  exists t, c, rad. split; [exact FI|]. split; [exact RO|]. split; [exact F|]. intros S' A B cx cy X Ms C1 C2 C3 e1 e3 L.
  destruct (C118_crest_face g cx cy rad S' A B Ms C1 C2 C3 L) as (p & q & EX & FT & N1 & N2). fold e1 in N1. fold e3 in N2.
  destruct (Q _ _ _ EX FT) as (rest & EP). exists p, q, rest. split; [exact EP|]. split; [exact N2|].
  destruct F as (X0 & Y0 & R0 & (Rp & _) & _ & NR & _ & _ & D1 & D2). fold cx cy in D1, D2.
  destruct (crest_level g cx cy rad S' A Ms C1 (near_pos _ _ _ N1)) as (YA & LA).
  assert (S0 : 0 <= S) by (destruct Sp as (_ & (B1 & _) & _); apply Rle_trans with (2 := B1); apply Rabs_pos).
  assert (U : 1850 * p2 (-53) <= / 1000) by (change (p2 (-53)) with u; rewrite u_val; lra). pose proof (abs_span _ _ NR) as SR.
  assert (Rr : 0 <= FR rad) by nra.
  set (f1 := Rabs (dist_euc (FR (fst l)) (FR (snd l)) (FR cx) (FR cy) - FR rad)) in *.
  pose proof (level_cut (FR cx) (FR cy) (FR rad) A (FRp l) f1 (FR cx - FR (fst l)) Rr (on_circle_pt _ _ _ _ _ _ (proj1 (proj2 (proj1 C1))))
    ltac:(unfold FRp; cbn [snd]; congruence) (Rle_refl _) ltac:(lra) ltac:(unfold FRp; cbn [fst]; lra)) as K1.
  pose proof (drift_from S R0 (FR rad) (FR cx - FR (fst l)) f1 S0 Rp NR ltac:(lra) D1 (Rabs_pos _)) as K3.
  unfold FRp in K1. cbn [fst] in K1. destruct N1 as (_ & _ & N1x & N1y). rewrite YA, <- YL in N1y. split; [|exact N1y].
  replace (FR (fst p) - FR (fst l)) with ((FR (fst p) - fst A) + (fst A - FR (fst l))) by ring. apply Rle_trans with (1 := Rabs_triang _ _). lra.
Qed.
Print Assumptions C121_crest_face.

(** With the entry on the face: where the surface ends. *)
Theorem C121_face_toe : forall g l r S n ps, spread l r S -> (0 < n <= 2 ^ 30)%Z -> generate_planes g l r n = Ok ps ->
  FR (snd r) = FR (snd (g_bot g)) -> 0 <= FR (fst (g_top g)) ->
  exists t c rad, first_turn l r n t c rad /\ rise_of l r n n t /\ fits l r t S c rad /\
    (forall S' A B, let cx := fst c in let cy := snd c in
     FR cx < FR (fst r) -> measured g cx cy rad S' ->
     cuts_face g cx cy rad S' A -> cuts_toe g cx cy rad S' B -> passes cx cy rad S' (start g) (g_top g) ->
     let e3 := slack cx cy rad S' (pt (g_top g)) (pt (g_bot g)) in let e2 := slack cx cy rad S' (pt (g_bot g)) (pt (last g)) in
     fst A + e3 + e2 + 1 / 50 <= fst B ->
     exists p q rest, ps = MkPlane p q cx cy rad None :: rest /\ near p A e3 /\
       Rabs (FR (fst q) - FR (fst r)) <= e2 + drift S (FR rad) (FR (fst r) - FR cx) /\ Rabs (FR (snd q) - FR (snd r)) <= e2).
Proof.
  intros g l r S n ps Sp N G YR T0. destruct (C120_first g l r S n ps Sp N G) as (t & c & rad & FI & RO & F & Q).
  exists t, c, rad. split; [exact FI|]. split; [exact RO|]. split; [exact F|]. intros S' A B cx cy X Ms C1 C2 C3 e3 e2 L.
  destruct (C118_face_toe g cx cy rad S' A B Ms T0 C1 C2 C3 L) as (p & q & EX & FT & N1 & N2). fold e3 in N1. fold e2 in N2.
  destruct (Q _ _ _ EX FT) as (rest & EP). exists p, q, rest. split; [exact EP|]. split; [exact N1|].
  destruct F as (X0 & Y0 & R0 & (Rp & _) & _ & NR & _ & _ & D1 & D2). fold cx cy in D1, D2.
  destruct (toe_level g cx cy rad S' B Ms C2 (near_pos _ _ _ N2)) as (YB & LB).
  assert (S0 : 0 <= S) by (destruct Sp as (_ & (B1 & _) & _); apply Rle_trans with (2 := B1); apply Rabs_pos).
  assert (U : 1850 * p2 (-53) <= / 1000) by (change (p2 (-53)) with u; rewrite u_val; lra). pose proof (abs_span _ _ NR) as SR.
  assert (Rr : 0 <= FR rad) by nra.
  set (f2 := Rabs (dist_euc (FR (fst r)) (FR (snd r)) (FR cx) (FR cy) - FR rad)) in *.
  pose proof (level_cut (FR cx) (FR cy) (FR rad) B (FRp r) f2 (FR (fst r) - FR cx) Rr (on_circle_pt _ _ _ _ _ _ (proj1 (proj2 (proj1 C2))))
    ltac:(unfold FRp; cbn [snd]; congruence) (Rle_refl _) ltac:(lra) ltac:(unfold FRp; cbn [fst]; lra)) as K2.
  pose proof (drift_from S R0 (FR rad) (FR (fst r) - FR cx) f2 S0 Rp NR ltac:(lra) D2 (Rabs_pos _)) as K4.
  unfold FRp in K2. cbn [fst] in K2. destruct N2 as (_ & _ & N2x & N2y). rewrite YB, <- YR in N2y. split; [|exact N2y].
  replace (FR (fst q) - FR (fst r)) with ((FR (fst q) - fst B) + (fst B - FR (fst r))) by ring. apply Rle_trans with (1 := Rabs_triang _ _). lra.
Qed.
Print Assumptions C121_face_toe.

(** ** A case: from (4, 10) on the crest to (18, 8) on the toe. *)
Definition case_cx : float := S754_finite false 6465171798212170 (-49).
Definition case_cy : float := S754_finite false 6975605754835978 (-49).
Definition case_r : float := S754_finite false 8846356410906333 (-50).
Example C121_case : let g := hill 6 10 10 8 24 in let l := (f_of_Z 4, f_of_Z 10) in let r := (f_of_Z 18, f_of_Z 8) in
  spread l r 18 /\ FR (snd l) = FR (snd (g_top g)) /\ FR (snd r) = FR (snd (g_bot g)) /\
  (exists p q, generate_planes g l r 1 = Ok [MkPlane p q case_cx case_cy case_r None]) /\ (exists t, first_turn l r 1 t (case_cx, case_cy) case_r) /\
  FR (fst l) < FR case_cx < FR (fst r) /\ measured g case_cx case_cy case_r 64 /\
  exists A B, cuts_crest g case_cx case_cy case_r 64 A /\ cuts_toe g case_cx case_cy case_r 64 B /\ passes case_cx case_cy case_r 64 (g_top g) (g_bot g) /\
    fst A + / 1000 + / 1000 + 1 / 50 <= fst B /\
    slack case_cx case_cy case_r 64 (pt (start g)) (pt (g_top g)) <= / 1000 /\ slack case_cx case_cy case_r 64 (pt (g_bot g)) (pt (last g)) <= / 1000.
Proof.
  intros g l r. destruct (valid_int 4 eq_refl) as (V4 & E4). destruct (valid_int 10 eq_refl) as (V10 & E10). destruct (valid_int 18 eq_refl) as (V18 & E18).
  destruct (valid_int 8 eq_refl) as (V8 & E8).
  assert (Vx : valid case_cx) by (split; reflexivity). assert (Vy : valid case_cy) by (split; reflexivity). assert (Vr : valid case_r) by (split; reflexivity).
  assert (Ex : FR case_cx = 6465171798212170 / 562949953421312) by (unfold case_cx; rewrite FR_dyadic by lia; reflexivity).
  assert (Ey : FR case_cy = 6975605754835978 / 562949953421312) by (unfold case_cy; rewrite FR_dyadic by lia; reflexivity).
  assert (Er : FR case_r = 8846356410906333 / 1125899906842624) by (unfold case_r; rewrite FR_dyadic by lia; reflexivity).
  destruct (pt_int 0 10) as (P1 & _); [lia..|]. destruct (pt_int 6 10) as (P2 & _); [lia..|]. destruct (pt_int 10 8) as (P3 & _); [lia..|]. destruct (pt_int 24 8) as (P4 & _); [lia..|].
  assert (P : p2 (-39) <= 1 /\ 18 <= p2 89).
  { replace (-39)%Z with (- (39))%Z by lia. rewrite p2_neg, (p2_IZR 39), (p2_IZR 89) by lia. change (2 ^ 39)%Z with 549755813888%Z.
    change (2 ^ 89)%Z with 618970019642690137449562112%Z. lra. }
  split.
  { unfold spread, chord_of, l, r. cbn [fst snd]. rewrite E4, E10, E18, E8. split; [auto 6|]. split; [rewrite (Rabs_right 4), (Rabs_right 10), (Rabs_right 18), (Rabs_right 8) by lra; lra|].
    split; [lra|]. pose proof (short 4 10 18 8) as Sh. rewrite (Rabs_left (4 - 18)), (Rabs_right (10 - 8)) in Sh by lra. lra. }
  split; [reflexivity|]. split; [reflexivity|].
  split; [eexists _, _; vm_compute; reflexivity|].
  split; [eexists; eexists _, _, _; split; [vm_compute; reflexivity|]; split; [reflexivity|]; split; vm_compute; reflexivity|].
  split; [unfold l, r; cbn [fst]; rewrite Ex, E4, E18; lra|].
  split; [apply measured_hill; try lia; try assumption; rewrite ?Ex, ?Ey, ?Er; apply Rabs_le; lra|].
  assert (B1 : slack case_cx case_cy case_r 64 (0, 10) (6, 10) <= / 1000) by (apply slack_64; unfold cuts, area2, gap2; cbn [fst snd]; rewrite ?Ex, ?Ey, ?Er; lra).
  assert (B2 : slack case_cx case_cy case_r 64 (10, 8) (24, 8) <= / 1000) by (apply slack_64; unfold cuts, area2, gap2; cbn [fst snd]; rewrite ?Ex, ?Ey, ?Er; lra).
  set (V := FR case_r * FR case_r - (10 - FR case_cy) * (10 - FR case_cy)). set (W := FR case_r * FR case_r - (8 - FR case_cy) * (8 - FR case_cy)).
  assert (VB : 7 * 7 <= V <= 8 * 8) by (unfold V; rewrite Er, Ey; lra). assert (WB : 6 * 6 <= W <= 7 * 7) by (unfold W; rewrite Er, Ey; lra).
  assert (SV : 7 <= sqrt V <= 8) by (rewrite <- (sqrt_square 7), <- (sqrt_square 8) by lra; split; apply sqrt_le_1_alt; lra).
  assert (SW : 6 <= sqrt W <= 7) by (rewrite <- (sqrt_square 6), <- (sqrt_square 7) by lra; split; apply sqrt_le_1_alt; lra).
  pose proof (sqrt_sqrt V ltac:(lra)) as SSV. pose proof (sqrt_sqrt W ltac:(lra)) as SSW. unfold V in SSV at 3. unfold W in SSW at 3.
  assert (OV : forall s, s * s = 1 -> on_both case_cx case_cy case_r (0, 10) (6, 10) (FR case_cx + s * sqrt V, 10)).
  { intros s S1. split; [unfold on_circle; cbn [fst snd]; replace ((FR case_cx + s * sqrt V - FR case_cx) * (FR case_cx + s * sqrt V - FR case_cx)) with ((s * s) * (sqrt V * sqrt V)) by ring; rewrite S1; lra|unfold on_line; cbn [fst snd]; lra]. }
  assert (OW : forall s, s * s = 1 -> on_both case_cx case_cy case_r (10, 8) (24, 8) (FR case_cx + s * sqrt W, 8)).
  { intros s S1. split; [unfold on_circle; cbn [fst snd]; replace ((FR case_cx + s * sqrt W - FR case_cx) * (FR case_cx + s * sqrt W - FR case_cx)) with ((s * s) * (sqrt W * sqrt W)) by ring; rewrite S1; lra|unfold on_line; cbn [fst snd]; lra]. }
  exists (FR case_cx + -1 * sqrt V, 10), (FR case_cx + 1 * sqrt W, 8).
  split. { split.
    - eapply stands_64; [exact P1|exact P2|unfold gap2; cbn [fst snd]; lra|unfold cuts, area2, gap2; cbn [fst snd]; rewrite ?Ex, ?Ey, ?Er; lra|apply OV; lra|cbn [fst]; rewrite Ex; lra..].
    - exists (FR case_cx + 1 * sqrt V, 10). change (pt (start g)) with (pt (f_of_Z 0, f_of_Z 10)). change (pt (g_top g)) with (pt (f_of_Z 6, f_of_Z 10)). rewrite P1, P2.
      split; [apply OV; lra|cbn [fst]; lra]. }
  split. { split.
    - eapply stands_64; [exact P3|exact P4|unfold gap2; cbn [fst snd]; lra|unfold cuts, area2, gap2; cbn [fst snd]; rewrite ?Ex, ?Ey, ?Er; lra|apply OW; lra|cbn [fst]; rewrite Ex; lra..].
    - exists (FR case_cx + -1 * sqrt W, 8). change (pt (last g)) with (pt (f_of_Z 24, f_of_Z 8)). change (pt (g_bot g)) with (pt (f_of_Z 10, f_of_Z 8)). rewrite P3, P4.
      split; [apply OW; lra|cbn [fst]; lra]. }
  split. { eapply passes_64; [exact P2|exact P3|unfold gap2; cbn [fst snd]; lra|]. split; [unfold cuts, area2, gap2; cbn [fst snd]; rewrite ?Ex, ?Ey, ?Er; lra|].
    intros x y (O & L). unfold on_circle, on_line in O, L. cbn [fst snd] in O, L. rewrite ?Ex, ?Ey, ?Er in O.
    destruct (Rlt_dec (x + / 1000) 6); [now left|]. destruct (Rlt_dec (10 + / 1000) x); [now right|]. exfalso. assert (y = 13 - x / 2) by lra. subst y.
    assert (0 <= (x - 5.9) * (10.1 - x)) by (apply Rmult_le_pos; lra). lra. }
  split; [cbn [fst]; lra|].
  change (pt (start g)) with (pt (f_of_Z 0, f_of_Z 10)). change (pt (g_top g)) with (pt (f_of_Z 6, f_of_Z 10)).
  change (pt (last g)) with (pt (f_of_Z 24, f_of_Z 8)). change (pt (g_bot g)) with (pt (f_of_Z 10, f_of_Z 8)). rewrite P1, P2, P3, P4. auto.
Qed.

(** ** A case: from (4, 10) on the crest to (14, 7) on the face. *)
Definition face_cx : float := S754_finite false 5543406738892838 (-49).
Definition face_cy : float := S754_finite false 6374598464417917 (-49).
Definition face_r : float := S754_finite false 6749769941521532 (-50).
Example C121_face_case : let g := hill 10 10 18 4 26 in let l := (f_of_Z 4, f_of_Z 10) in let r := (f_of_Z 14, f_of_Z 7) in
  spread l r 18 /\ FR (snd l) = FR (snd (g_top g)) /\
  (exists p q, generate_planes g l r 1 = Ok [MkPlane p q face_cx face_cy face_r None]) /\ (exists t, first_turn l r 1 t (face_cx, face_cy) face_r) /\
  FR (fst l) < FR face_cx /\ measured g face_cx face_cy face_r 64 /\
  exists A B, cuts_crest g face_cx face_cy face_r 64 A /\ cuts_face g face_cx face_cy face_r 64 B /\ passes face_cx face_cy face_r 64 (g_bot g) (last g) /\
    fst A + / 1000 + / 1000 + 1 / 50 <= fst B /\
    slack face_cx face_cy face_r 64 (pt (start g)) (pt (g_top g)) <= / 1000 /\ slack face_cx face_cy face_r 64 (pt (g_top g)) (pt (g_bot g)) <= / 1000.
Proof.
  intros g l r. destruct (valid_int 4 eq_refl) as (V4 & E4). destruct (valid_int 10 eq_refl) as (V10 & E10). destruct (valid_int 14 eq_refl) as (V14 & E14).
  destruct (valid_int 7 eq_refl) as (V7 & E7).
  assert (Vx : valid face_cx) by (split; reflexivity). assert (Vy : valid face_cy) by (split; reflexivity). assert (Vr : valid face_r) by (split; reflexivity).
  assert (Ex : FR face_cx = 5543406738892838 / 562949953421312) by (unfold face_cx; rewrite FR_dyadic by lia; reflexivity).
  assert (Ey : FR face_cy = 6374598464417917 / 562949953421312) by (unfold face_cy; rewrite FR_dyadic by lia; reflexivity).
  assert (Er : FR face_r = 6749769941521532 / 1125899906842624) by (unfold face_r; rewrite FR_dyadic by lia; reflexivity).
  destruct (pt_int 0 10) as (P1 & _); [lia..|]. destruct (pt_int 10 10) as (P2 & _); [lia..|]. destruct (pt_int 18 4) as (P3 & _); [lia..|]. destruct (pt_int 26 4) as (P4 & _); [lia..|].
  assert (P : p2 (-39) <= 1 /\ 18 <= p2 89).
  { replace (-39)%Z with (- (39))%Z by lia. rewrite p2_neg, (p2_IZR 39), (p2_IZR 89) by lia. change (2 ^ 39)%Z with 549755813888%Z.
    change (2 ^ 89)%Z with 618970019642690137449562112%Z. lra. }
  split.
  { unfold spread, chord_of, l, r. cbn [fst snd]. rewrite E4, E10, E14, E7. split; [auto 6|]. split; [rewrite (Rabs_right 4), (Rabs_right 10), (Rabs_right 14), (Rabs_right 7) by lra; lra|].
    split; [lra|]. pose proof (short 4 10 14 7) as Sh. rewrite (Rabs_left (4 - 14)), (Rabs_right (10 - 7)) in Sh by lra. lra. }
  split; [reflexivity|].
  split; [eexists _, _; vm_compute; reflexivity|].
  split; [eexists; eexists _, _, _; split; [vm_compute; reflexivity|]; split; [reflexivity|]; split; vm_compute; reflexivity|].
  split; [unfold l; cbn [fst]; rewrite Ex, E4; lra|].
  split; [apply measured_hill; try lia; try assumption; rewrite ?Ex, ?Ey, ?Er; apply Rabs_le; lra|].
  assert (B1 : slack face_cx face_cy face_r 64 (0, 10) (10, 10) <= / 1000) by (apply slack_64; unfold cuts, area2, gap2; cbn [fst snd]; rewrite ?Ex, ?Ey, ?Er; lra).
  assert (B2 : slack face_cx face_cy face_r 64 (10, 10) (18, 4) <= / 1000) by (apply slack_64; unfold cuts, area2, gap2; cbn [fst snd]; rewrite ?Ex, ?Ey, ?Er; lra).
  set (V := FR face_r * FR face_r - (10 - FR face_cy) * (10 - FR face_cy)).
  set (b := 4 * (10 - FR face_cx) - 3 * (10 - FR face_cy)).
  set (W := b * b - 25 * ((10 - FR face_cx) * (10 - FR face_cx) + (10 - FR face_cy) * (10 - FR face_cy) - FR face_r * FR face_r)).
  assert (VB : 5 * 5 <= V <= 6 * 6) by (unfold V; rewrite Er, Ey; lra). assert (bB : 4 <= b <= 5) by (unfold b; rewrite Ex, Ey; lra).
  assert (WB : 29 * 29 <= W <= 30 * 30) by (unfold W, b; rewrite Er, Ey, Ex; lra).
  assert (SV : 5 <= sqrt V <= 6) by (rewrite <- (sqrt_square 5), <- (sqrt_square 6) by lra; split; apply sqrt_le_1_alt; lra).
  assert (SW : 29 <= sqrt W <= 30) by (rewrite <- (sqrt_square 29), <- (sqrt_square 30) by lra; split; apply sqrt_le_1_alt; lra).
  pose proof (sqrt_sqrt V ltac:(lra)) as SSV. pose proof (sqrt_sqrt W ltac:(lra)) as SSW. unfold V in SSV at 3. unfold W in SSW at 3.
  assert (OV : forall s, s * s = 1 -> on_both face_cx face_cy face_r (0, 10) (10, 10) (FR face_cx + s * sqrt V, 10)).
  { intros s S1. split; [unfold on_circle; cbn [fst snd]; replace ((FR face_cx + s * sqrt V - FR face_cx) * (FR face_cx + s * sqrt V - FR face_cx)) with ((s * s) * (sqrt V * sqrt V)) by ring; rewrite S1; lra|unfold on_line; cbn [fst snd]; lra]. }
  assert (OW : forall s, s * s = 1 -> on_both face_cx face_cy face_r (10, 10) (18, 4) (10 + 4 * ((- b + s * sqrt W) / 25), 10 - 3 * ((- b + s * sqrt W) / 25))).
  { intros s S1. set (w := sqrt W) in *. assert (Q : (s * w) * (s * w) = b * b - 25 * ((10 - FR face_cx) * (10 - FR face_cx) + (10 - FR face_cy) * (10 - FR face_cy) - FR face_r * FR face_r))
      by (replace ((s * w) * (s * w)) with ((s * s) * (w * w)) by ring; rewrite S1, Rmult_1_l; exact SSW).
    split; [|unfold on_line; cbn [fst snd]; lra]. unfold on_circle. cbn [fst snd].
    set (k := s * w) in *. clearbody k. set (x := FR face_cx) in *. set (y := FR face_cy) in *. set (rr := FR face_r) in *.
    assert (Hb : b = 4 * (10 - x) - 3 * (10 - y)) by reflexivity. clearbody b. clear - Q Hb.
    replace ((10 + 4 * ((- b + k) / 25) - x) * (10 + 4 * ((- b + k) / 25) - x) + (10 - 3 * ((- b + k) / 25) - y) * (10 - 3 * ((- b + k) / 25) - y))
      with ((k * k - b * b) / 25 + ((10 - x) * (10 - x) + (10 - y) * (10 - y))) by (rewrite Hb; field). rewrite Q. field. }
  exists (FR face_cx + -1 * sqrt V, 10), (10 + 4 * ((- b + 1 * sqrt W) / 25), 10 - 3 * ((- b + 1 * sqrt W) / 25)).
  split. { split.
    - eapply stands_64; [exact P1|exact P2|unfold gap2; cbn [fst snd]; lra|unfold cuts, area2, gap2; cbn [fst snd]; rewrite ?Ex, ?Ey, ?Er; lra|apply OV; lra|cbn [fst]; rewrite Ex; lra..].
    - exists (FR face_cx + 1 * sqrt V, 10). change (pt (start g)) with (pt (f_of_Z 0, f_of_Z 10)). change (pt (g_top g)) with (pt (f_of_Z 10, f_of_Z 10)). rewrite P1, P2.
      split; [apply OV; lra|cbn [fst]; lra]. }
  split. { split.
    - eapply stands_64; [exact P2|exact P3|unfold gap2; cbn [fst snd]; lra|unfold cuts, area2, gap2; cbn [fst snd]; rewrite ?Ex, ?Ey, ?Er; lra|apply OW; lra|cbn [fst]; lra..].
    - exists (10 + 4 * ((- b + -1 * sqrt W) / 25), 10 - 3 * ((- b + -1 * sqrt W) / 25)). change (pt (g_top g)) with (pt (f_of_Z 10, f_of_Z 10)). change (pt (g_bot g)) with (pt (f_of_Z 18, f_of_Z 4)).
      change (fst (g_top g)) with (f_of_Z 10). rewrite P2, P3, E10. split; [apply OW; lra|left; cbn [fst]; lra]. }
  split. { eapply misses_64; [exact P3|exact P4|unfold cuts, area2, gap2; cbn [fst snd]; rewrite ?Ex, ?Ey, ?Er; lra|].
    intros x y (O & L). unfold on_circle, on_line in O, L. cbn [fst snd] in O, L. assert (y = 4) by lra. subst y.
    pose proof (Rle_0_sqr (x - FR face_cx)) as SQ. unfold Rsqr in SQ. rewrite ?Ey, ?Er in O. lra. }
  split; [cbn [fst]; assert (FR face_cx <= 10) by (rewrite Ex; lra); lra|].
  change (pt (start g)) with (pt (f_of_Z 0, f_of_Z 10)). change (pt (g_top g)) with (pt (f_of_Z 10, f_of_Z 10)). change (pt (g_bot g)) with (pt (f_of_Z 18, f_of_Z 4)).
  rewrite P1, P2, P3. auto.
Qed.

(** ** A case: from (10, 10) on the face to (28, 4) on the toe. *)
Definition toe_cx : float := S754_finite false 5843612394110890 (-48).
Definition toe_cy : float := S754_finite false 6914176693599736 (-49).
Definition toe_r : float := S754_finite false 6192449487634432 (-49).
Example C121_toe_case : let g := hill 6 13 18 4 32 in let l := (f_of_Z 10, f_of_Z 10) in let r := (f_of_Z 28, f_of_Z 4) in
  spread l r 28 /\ FR (snd r) = FR (snd (g_bot g)) /\ 0 <= FR (fst (g_top g)) /\
  (exists p q, generate_planes g l r 1 = Ok [MkPlane p q toe_cx toe_cy toe_r None]) /\ (exists t, first_turn l r 1 t (toe_cx, toe_cy) toe_r) /\
  FR toe_cx < FR (fst r) /\ measured g toe_cx toe_cy toe_r 64 /\
  exists A B, cuts_face g toe_cx toe_cy toe_r 64 A /\ cuts_toe g toe_cx toe_cy toe_r 64 B /\ passes toe_cx toe_cy toe_r 64 (start g) (g_top g) /\
    fst A + / 1000 + / 1000 + 1 / 50 <= fst B /\
    slack toe_cx toe_cy toe_r 64 (pt (g_top g)) (pt (g_bot g)) <= / 1000 /\ slack toe_cx toe_cy toe_r 64 (pt (g_bot g)) (pt (last g)) <= / 1000.
Proof.
  intros g l r. destruct (valid_int 4 eq_refl) as (V4 & E4). destruct (valid_int 10 eq_refl) as (V10 & E10). destruct (valid_int 28 eq_refl) as (V28 & E28).
  destruct (valid_int 6 eq_refl) as (V6 & E6). destruct (valid_int 18 eq_refl) as (V18 & E18).
  assert (Vx : valid toe_cx) by (split; reflexivity). assert (Vy : valid toe_cy) by (split; reflexivity). assert (Vr : valid toe_r) by (split; reflexivity).
  assert (Ex : FR toe_cx = 5843612394110890 / 281474976710656) by (unfold toe_cx; rewrite FR_dyadic by lia; reflexivity).
  assert (Ey : FR toe_cy = 6914176693599736 / 562949953421312) by (unfold toe_cy; rewrite FR_dyadic by lia; reflexivity).
  assert (Er : FR toe_r = 6192449487634432 / 562949953421312) by (unfold toe_r; rewrite FR_dyadic by lia; reflexivity).
  destruct (pt_int 0 13) as (P1 & _); [lia..|]. destruct (pt_int 6 13) as (P2 & _); [lia..|]. destruct (pt_int 18 4) as (P3 & _); [lia..|]. destruct (pt_int 32 4) as (P4 & _); [lia..|].
  assert (P : p2 (-39) <= 1 /\ 28 <= p2 89).
  { replace (-39)%Z with (- (39))%Z by lia. rewrite p2_neg, (p2_IZR 39), (p2_IZR 89) by lia. change (2 ^ 39)%Z with 549755813888%Z.
    change (2 ^ 89)%Z with 618970019642690137449562112%Z. lra. }
  split.
  { unfold spread, chord_of, l, r. cbn [fst snd]. rewrite E4, E10, E28. split; [auto 6|]. split; [rewrite (Rabs_right 4), (Rabs_right 10), (Rabs_right 28) by lra; lra|].
    split; [lra|]. pose proof (short 10 10 28 4) as Sh. rewrite (Rabs_left (10 - 28)), (Rabs_right (10 - 4)) in Sh by lra. lra. }
  split; [reflexivity|]. split; [change (fst (g_top g)) with (f_of_Z 6); rewrite E6; lra|].
  split; [eexists _, _; vm_compute; reflexivity|].
  split; [eexists; eexists _, _, _; split; [vm_compute; reflexivity|]; split; [reflexivity|]; split; vm_compute; reflexivity|].
  split; [unfold r; cbn [fst]; rewrite Ex, E28; lra|].
  split; [apply measured_hill; try lia; try assumption; rewrite ?Ex, ?Ey, ?Er; apply Rabs_le; lra|].
  assert (B1 : slack toe_cx toe_cy toe_r 64 (6, 13) (18, 4) <= / 1000) by (apply slack_64; unfold cuts, area2, gap2; cbn [fst snd]; rewrite ?Ex, ?Ey, ?Er; lra).
  assert (B2 : slack toe_cx toe_cy toe_r 64 (18, 4) (32, 4) <= / 1000) by (apply slack_64; unfold cuts, area2, gap2; cbn [fst snd]; rewrite ?Ex, ?Ey, ?Er; lra).
  set (V := FR toe_r * FR toe_r - (4 - FR toe_cy) * (4 - FR toe_cy)).
  set (b := 4 * (6 - FR toe_cx) - 3 * (13 - FR toe_cy)).
  set (W := b * b - 25 * ((6 - FR toe_cx) * (6 - FR toe_cx) + (13 - FR toe_cy) * (13 - FR toe_cy) - FR toe_r * FR toe_r)).
  assert (VB : 7 * 7 <= V <= 8 * 8) by (unfold V; rewrite Er, Ey; lra). assert (bB : -62 <= b <= -61) by (unfold b; rewrite Ex, Ey; lra).
  assert (WB : 36 * 36 <= W <= 37 * 37) by (unfold W, b; rewrite Er, Ey, Ex; lra).
  assert (SV : 7 <= sqrt V <= 8) by (rewrite <- (sqrt_square 7), <- (sqrt_square 8) by lra; split; apply sqrt_le_1_alt; lra).
  assert (SW : 36 <= sqrt W <= 37) by (rewrite <- (sqrt_square 36), <- (sqrt_square 37) by lra; split; apply sqrt_le_1_alt; lra).
  pose proof (sqrt_sqrt V ltac:(lra)) as SSV. pose proof (sqrt_sqrt W ltac:(lra)) as SSW. unfold V in SSV at 3. unfold W in SSW at 3.
  assert (OV : forall s, s * s = 1 -> on_both toe_cx toe_cy toe_r (18, 4) (32, 4) (FR toe_cx + s * sqrt V, 4)).
  { intros s S1. split; [unfold on_circle; cbn [fst snd]; replace ((FR toe_cx + s * sqrt V - FR toe_cx) * (FR toe_cx + s * sqrt V - FR toe_cx)) with ((s * s) * (sqrt V * sqrt V)) by ring; rewrite S1; lra|unfold on_line; cbn [fst snd]; lra]. }
  assert (OW : forall s, s * s = 1 -> on_both toe_cx toe_cy toe_r (6, 13) (18, 4) (6 + 4 * ((- b + s * sqrt W) / 25), 13 - 3 * ((- b + s * sqrt W) / 25))).
  { intros s S1. set (w := sqrt W) in *. assert (Q : (s * w) * (s * w) = b * b - 25 * ((6 - FR toe_cx) * (6 - FR toe_cx) + (13 - FR toe_cy) * (13 - FR toe_cy) - FR toe_r * FR toe_r))
      by (replace ((s * w) * (s * w)) with ((s * s) * (w * w)) by ring; rewrite S1, Rmult_1_l; exact SSW).
    split; [|unfold on_line; cbn [fst snd]; lra]. unfold on_circle. cbn [fst snd].
    set (k := s * w) in *. clearbody k. set (x := FR toe_cx) in *. set (y := FR toe_cy) in *. set (rr := FR toe_r) in *.
    assert (Hb : b = 4 * (6 - x) - 3 * (13 - y)) by reflexivity. clearbody b. clear - Q Hb.
    replace ((6 + 4 * ((- b + k) / 25) - x) * (6 + 4 * ((- b + k) / 25) - x) + (13 - 3 * ((- b + k) / 25) - y) * (13 - 3 * ((- b + k) / 25) - y))
      with ((k * k - b * b) / 25 + ((6 - x) * (6 - x) + (13 - y) * (13 - y))) by (rewrite Hb; field). rewrite Q. field. }
  assert (XB : 20.7 <= FR toe_cx <= 20.8) by (rewrite Ex; lra).
  exists (6 + 4 * ((- b + -1 * sqrt W) / 25), 13 - 3 * ((- b + -1 * sqrt W) / 25)), (FR toe_cx + 1 * sqrt V, 4).
  split. { split.
    - eapply stands_64; [exact P2|exact P3|unfold gap2; cbn [fst snd]; lra|unfold cuts, area2, gap2; cbn [fst snd]; rewrite ?Ex, ?Ey, ?Er; lra|apply OW; lra|cbn [fst]; lra..].
    - exists (6 + 4 * ((- b + 1 * sqrt W) / 25), 13 - 3 * ((- b + 1 * sqrt W) / 25)). change (pt (g_top g)) with (pt (f_of_Z 6, f_of_Z 13)). change (pt (g_bot g)) with (pt (f_of_Z 18, f_of_Z 4)).
      change (fst (g_bot g)) with (f_of_Z 18). rewrite P2, P3, E18. split; [apply OW; lra|right; cbn [fst]; lra]. }
  split. { split.
    - eapply stands_64; [exact P3|exact P4|unfold gap2; cbn [fst snd]; lra|unfold cuts, area2, gap2; cbn [fst snd]; rewrite ?Ex, ?Ey, ?Er; lra|apply OV; lra|cbn [fst]; lra..].
    - exists (FR toe_cx + -1 * sqrt V, 4). change (pt (last g)) with (pt (f_of_Z 32, f_of_Z 4)). change (pt (g_bot g)) with (pt (f_of_Z 18, f_of_Z 4)). rewrite P3, P4.
      split; [apply OV; lra|cbn [fst]; lra]. }
  split. { eapply passes_64; [exact P1|exact P2|unfold gap2; cbn [fst snd]; lra|]. split; [unfold cuts, area2, gap2; cbn [fst snd]; rewrite ?Ex, ?Ey, ?Er; lra|].
    intros x y (O & L). unfold on_circle, on_line in O, L. cbn [fst snd] in O, L.
    destruct (Rlt_dec (x + / 1000) 0); [now left|]. destruct (Rlt_dec (6 + / 1000) x); [now right|]. exfalso. assert (y = 13) by lra. subst y.
    assert (14 * 14 <= (FR toe_cx - x) * (FR toe_cx - x)) by (apply Rmult_le_compat; lra). rewrite Ey, Er in O. lra. }
  split; [cbn [fst]; lra|].
  change (pt (last g)) with (pt (f_of_Z 32, f_of_Z 4)). change (pt (g_top g)) with (pt (f_of_Z 6, f_of_Z 13)). change (pt (g_bot g)) with (pt (f_of_Z 18, f_of_Z 4)).
  rewrite P2, P3, P4. auto.
Qed.
