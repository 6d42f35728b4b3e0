(** * PropsEnds: a circle that clearly cuts the ground at two points is analysed between them (C118).

    [FR x] is the real number a binary64 number stands for, [valid x] says that [x] is finite and in the
    one form binary64 has for it.  A point is a common point of the circle and of the line of a stretch of
    the ground (crest, face or toe) over the reals; [slack] is the error bound of C115. *)
From Coq Require Import ZArith Reals Lra Lia Bool List String SpecFloat Permutation.
From Verif Require Import Num RealNum FloatNum Py Validation Utilities Objects Slope Planes
     ListFacts RoundTheory NearFacts SumNear WeightNear TurnNear CrossNear PropsNear PropsCross EndsNear.
Import ListNotations.
Local Open Scope R_scope.

(** From the crest to the toe. *)
Theorem C118_crest_toe : forall g cx cy r S A B, measured g cx cy r S ->
  cuts_crest g cx cy r S A -> cuts_toe g cx cy r S B -> passes cx cy r S (g_top g) (g_bot g) ->
  let e1 := slack cx cy r S (pt (start g)) (pt (g_top g)) in let e2 := slack cx cy r S (pt (g_bot g)) (pt (last g)) in
  fst A + e1 + e2 + 1 / 50 <= fst B ->
  exists p q, circle_external g cx cy r = Ok [p; q] /\ first_two [p; q] = Some (p, q) /\ near p A e1 /\ near q B e2.
Proof.
  intros g cx cy r S A B Ms C1 C2 C3 e1 e2 L.
  destruct (crest_hit g cx cy r S Ms A C1) as (t & p & E1 & H1 & N1 & P0 & _). destruct (toe_hit g cx cy r S Ms B C2) as (b & q & E2 & H2 & N2 & _ & Q0).
  destruct (face_none g cx cy r S Ms C3) as (m & E3 & H3). exists p, q.
  destruct (two_ends g cx cy r t b m p q A B e1 e2 E1 E2 E3) as (X & Y); auto.
  - left. rewrite H1, H2, H3. reflexivity.
  - apply Rle_trans with (1 := Q0). apply (reach_S g cx cy r S Ms _ (FR cx)). destruct Ms as (M1 & M2 & M3 & M4 & M5 & M6 & M7 & M8 & M9). apply M9.
Qed.
Print Assumptions C118_crest_toe.
(** From the crest to the face. *)
Theorem C118_crest_face : forall g cx cy r S A B, measured g cx cy r S ->
  cuts_crest g cx cy r S A -> cuts_face g cx cy r S B -> passes cx cy r S (g_bot g) (last g) ->
  let e1 := slack cx cy r S (pt (start g)) (pt (g_top g)) in let e3 := slack cx cy r S (pt (g_top g)) (pt (g_bot g)) in
  fst A + e1 + e3 + 1 / 50 <= fst B ->
  exists p q, circle_external g cx cy r = Ok [p; q] /\ first_two [p; q] = Some (p, q) /\ near p A e1 /\ near q B e3.
Proof.
  intros g cx cy r S A B Ms C1 C2 C3 e1 e3 L.
  destruct (crest_hit g cx cy r S Ms A C1) as (t & p & E1 & H1 & N1 & P0 & _). destruct (face_hit g cx cy r S Ms B C2) as (m & q & E2 & H2 & N2 & _ & Q0).
  destruct (toe_none g cx cy r S Ms C3) as (b & E3 & H3). exists p, q.
  destruct (two_ends g cx cy r t b m p q A B e1 e3 E1 E3 E2) as (X & Y); auto.
  - left. rewrite H1, H2, H3. reflexivity.
  - apply Rle_trans with (1 := Q0). apply (reach_S g cx cy r S Ms _ (FR cx)). destruct Ms as (M1 & M2 & M3 & M4 & M5 & M6 & M7 & M8 & M9). apply M8.
Qed.
Print Assumptions C118_crest_face.
(** From the face to the toe. *)
Theorem C118_face_toe : forall g cx cy r S A B, measured g cx cy r S -> 0 <= FR (fst (g_top g)) ->
  cuts_face g cx cy r S A -> cuts_toe g cx cy r S B -> passes cx cy r S (start g) (g_top g) ->
  let e3 := slack cx cy r S (pt (g_top g)) (pt (g_bot g)) in let e2 := slack cx cy r S (pt (g_bot g)) (pt (last g)) in
  fst A + e3 + e2 + 1 / 50 <= fst B ->
  exists p q, circle_external g cx cy r = Ok [p; q] /\ first_two [p; q] = Some (p, q) /\ near p A e3 /\ near q B e2.
Proof.
  intros g cx cy r S A B Ms T0 C1 C2 C3 e3 e2 L.
  destruct (face_hit g cx cy r S Ms A C1) as (m & p & E1 & H1 & N1 & P0 & _). destruct (toe_hit g cx cy r S Ms B C2) as (b & q & E2 & H2 & N2 & _ & Q0).
  destruct (crest_none g cx cy r S Ms C3) as (t & E3 & H3). exists p, q.
  destruct (two_ends g cx cy r t b m p q A B e3 e2 E3 E2 E1) as (X & Y); auto; [|lra|].
  - right. rewrite H1, H2, H3. reflexivity.
  - apply Rle_trans with (1 := Q0). apply (reach_S g cx cy r S Ms _ (FR cx)). destruct Ms as (M1 & M2 & M3 & M4 & M5 & M6 & M7 & M8 & M9). apply M9.
Qed.
Print Assumptions C118_face_toe.
(** Twice through the face. *)
Theorem C118_face_face : forall g cx cy r S A B, measured g cx cy r S -> 0 <= FR (fst (g_top g)) ->
  stands_on cx cy r S (g_top g) (g_bot g) A -> stands_on cx cy r S (g_top g) (g_bot g) B ->
  passes cx cy r S (start g) (g_top g) -> passes cx cy r S (g_bot g) (last g) ->
  let e3 := slack cx cy r S (pt (g_top g)) (pt (g_bot g)) in
  fst A + e3 + e3 + 1 / 50 <= fst B ->
  exists p q, circle_external g cx cy r = Ok [p; q] /\ first_two [p; q] = Some (p, q) /\ near p A e3 /\ near q B e3.
Proof.
  intros g cx cy r S A B Ms T0 C1 C2 C3 C4 e3 L.
  destruct (face_twice g cx cy r S Ms A B C1 C2) as (m & p & q & E1 & H1 & N1 & N2 & P0 & Q0); [unfold e3 in L; lra|].
  destruct (crest_none g cx cy r S Ms C3) as (t & E3 & H3). destruct (toe_none g cx cy r S Ms C4) as (b & E4 & H4). exists p, q.
  destruct (two_ends g cx cy r t b m p q A B e3 e3 E3 E4 E1) as (X & Y); auto; [|lra|].
  - rewrite H3, H4. exact H1.
  - apply Rle_trans with (1 := Q0). apply (reach_S g cx cy r S Ms _ (FR cx)). destruct Ms as (M1 & M2 & M3 & M4 & M5 & M6 & M7 & M8 & M9). apply M8.
Qed.
Print Assumptions C118_face_face.

(** ** Cases *)
Lemma slack_64 cx cy r a b : 1 <= gap2 a b -> 1 <= cuts (FR cx, FR cy) (FR r) a b -> slack cx cy r 64 a b <= / 1000.
Proof.
  intros G Q. unfold slack. replace (-40)%Z with (- (40))%Z by lia. rewrite p2_neg, (p2_IZR 40) by lia. change (2 ^ 40)%Z with 1099511627776%Z.
  assert (1 <= sqrt (cuts (FR cx, FR cy) (FR r) a b)) by (rewrite <- sqrt_1; now apply sqrt_le_1_alt).
  apply Rmult_le_reg_r with (gap2 a b * sqrt (cuts (FR cx, FR cy) (FR r) a b)); [nra|]. unfold Rdiv. rewrite Rmult_assoc, Rinv_l by nra. nra.
Qed.
Lemma well_64 cx cy r a b : 1 <= gap2 a b -> 10 <= cuts (FR cx, FR cy) (FR r) a b -> well_cut cx cy r 64 a b.
Proof. intros G Q. unfold well_cut. change (p2 (-53)) with u. rewrite u_val. split; lra. Qed.
Lemma band_64 : p2 (-50) <= 64 <= p2 100.
Proof.
  replace (-50)%Z with (- (50))%Z by lia. rewrite p2_neg, (p2_IZR 50), (p2_IZR 100) by lia.
  change (2 ^ 50)%Z with 1125899906842624%Z. change (2 ^ 100)%Z with 1267650600228229401496703205376%Z. lra.
Qed.
Lemma fair_64 cx cy p x y : valid (fst p) -> valid (snd p) -> pt p = (x, y) -> Rabs x <= 32 -> Rabs y <= 32 -> Rabs (FR cx) <= 32 -> Rabs (FR cy) <= 32 ->
  fair cx cy 64 p.
Proof. intros V W E X Y CX CY. injection E as E1 E2. unfold fair. rewrite E1, E2. repeat split; try apply V; try apply W; lra. Qed.
Definition hill (tx ty bx by_ l : Z) : geom float :=
  MkGeom (f_of_Z (ty - by_)) (f_of_Z (bx - tx)) (f_lit 5 1) (f_of_Z tx, f_of_Z ty) (f_of_Z bx, f_of_Z by_) (f_of_Z l) (f_of_Z ty).
Lemma pt_int x y : (Z.abs x < 33)%Z -> (Z.abs y < 33)%Z -> pt (f_of_Z x, f_of_Z y) = (IZR x, IZR y) /\ valid (f_of_Z x) /\ valid (f_of_Z y).
Proof. intros X Y. destruct (valid_int x) as (V & E); [lia|]. destruct (valid_int y) as (W & F); [lia|]. unfold pt. cbn [fst snd]. now rewrite E, F. Qed.
Lemma int_32 z : (Z.abs z < 33)%Z -> Rabs (IZR z) <= 32.
Proof. intros L. rewrite <- abs_IZR. apply IZR_le. lia. Qed.
Lemma measured_hill tx ty bx by_ l cx cy r : (Z.abs tx < 33)%Z -> (Z.abs ty < 33)%Z -> (Z.abs bx < 33)%Z -> (Z.abs by_ < 33)%Z -> (Z.abs l < 33)%Z ->
  valid cx -> valid cy -> valid r -> Rabs (FR cx) <= 32 -> Rabs (FR cy) <= 32 -> Rabs (FR r) <= 32 ->
  measured (hill tx ty bx by_ l) cx cy r 64.
Proof.
  intros T1 T2 B1 B2 L Vx Vy Vr X Y R0. unfold measured. split; [exact Vx|]. split; [exact Vy|]. split; [exact Vr|]. split; [exact band_64|]. split; [lra|].
  destruct (pt_int 0 ty) as (E1 & V0 & V1); [lia..|]. destruct (pt_int tx ty) as (E2 & V2 & _); [lia..|].
  destruct (pt_int bx by_) as (E3 & V3 & V4); [lia..|]. destruct (pt_int l by_) as (E4 & V5 & _); [lia..|].
  split; [eapply fair_64; [exact V0|exact V1|exact E1|apply int_32; lia..|exact X|exact Y]|].
  split; [eapply fair_64; [exact V2|exact V1|exact E2|apply int_32; lia..|exact X|exact Y]|].
  split; [eapply fair_64; [exact V3|exact V4|exact E3|apply int_32; lia..|exact X|exact Y]|].
  eapply fair_64; [exact V5|exact V4|exact E4|apply int_32; lia..|exact X|exact Y].
Qed.
(** the conditions, with whole numbers *)
Lemma stands_64 cx cy r a b ax ay bx by_ A : pt a = (ax, ay) -> pt b = (bx, by_) ->
  1 <= gap2 (ax, ay) (bx, by_) -> 10 <= cuts (FR cx, FR cy) (FR r) (ax, ay) (bx, by_) ->
  on_both cx cy r (ax, ay) (bx, by_) A -> ax + / 1000 <= fst A -> fst A + / 1000 <= bx -> stands_on cx cy r 64 a b A.
Proof.
  intros E F G Q O L1 L2. unfold stands_on. rewrite E, F. injection E as E1 _. injection F as F1 _. rewrite E1, F1.
  pose proof (slack_64 cx cy r (ax, ay) (bx, by_) G ltac:(lra)). split; [now apply well_64|]. split; [exact O|]. lra.
Qed.
Lemma passes_64 cx cy r a b ax ay bx by_ : pt a = (ax, ay) -> pt b = (bx, by_) ->
  1 <= gap2 (ax, ay) (bx, by_) ->
  (10 <= cuts (FR cx, FR cy) (FR r) (ax, ay) (bx, by_) /\
   (forall x y, on_both cx cy r (ax, ay) (bx, by_) (x, y) -> x + / 1000 < ax \/ bx + / 1000 < x)) -> passes cx cy r 64 a b.
Proof.
  intros E F G (Q & OUT). unfold passes, clear_cut. rewrite E, F. injection E as E1 _. injection F as F1 _. rewrite E1, F1.
  pose proof (slack_64 cx cy r (ax, ay) (bx, by_) G ltac:(lra)). split; [left; now apply well_64|]. intros (x, y) O. cbn [fst]. destruct (OUT x y O); lra.
Qed.
Lemma misses_64 cx cy r a b ax ay bx by_ : pt a = (ax, ay) -> pt b = (bx, by_) ->
  cuts (FR cx, FR cy) (FR r) (ax, ay) (bx, by_) <= - 10 ->
  (forall x y, ~ on_both cx cy r (ax, ay) (bx, by_) (x, y)) -> passes cx cy r 64 a b.
Proof.
  intros E F Q NO. unfold passes, clear_cut. rewrite E, F. change (p2 (-53)) with u. rewrite u_val. split; [right; lra|].
  intros (x, y) O. now destruct (NO x y).
Qed.
Example C118_crest_toe_case : let g := hill 6 10 10 8 24 in let cx := f_of_Z 12 in let cy := f_of_Z 16 in let r := f_of_Z 10 in
  measured g cx cy r 64 /\ cuts_crest g cx cy r 64 (4, 10) /\ cuts_toe g cx cy r 64 (18, 8) /\ passes cx cy r 64 (g_top g) (g_bot g) /\
  circle_external g cx cy r = Ok [(f_of_Z 4, f_of_Z 10); (f_of_Z 18, f_of_Z 8)].
Proof.
  intros g cx cy r. destruct (valid_int 12 eq_refl) as (Vx & Ex). destruct (valid_int 16 eq_refl) as (Vy & Ey). destruct (valid_int 10 eq_refl) as (Vr & Er).
  fold cx in Ex, Vx. fold cy in Ey, Vy. fold r in Er, Vr.
  destruct (pt_int 0 10) as (P1 & _); [lia..|]. destruct (pt_int 6 10) as (P2 & _); [lia..|]. destruct (pt_int 10 8) as (P3 & _); [lia..|]. destruct (pt_int 24 8) as (P4 & _); [lia..|].
  assert (B1 : slack cx cy r 64 (0, 10) (6, 10) <= / 1000) by (apply slack_64; rewrite ?Ex, ?Ey, ?Er; unfold cuts, area2, gap2; cbn [fst snd]; lra).
  assert (B2 : slack cx cy r 64 (10, 8) (24, 8) <= / 1000) by (apply slack_64; rewrite ?Ex, ?Ey, ?Er; unfold cuts, area2, gap2; cbn [fst snd]; lra).
  split; [apply measured_hill; try lia; try assumption; rewrite ?Ex, ?Ey, ?Er; apply int_32; lia|].
  split. { split.
    - eapply stands_64; [exact P1|exact P2|unfold on_both, on_circle, on_line, cuts, area2, gap2; rewrite ?Ex, ?Ey, ?Er; cbn [fst snd]; lra..].
    - exists (20, 10). split; [|change (pt (start g)) with (pt (f_of_Z 0, f_of_Z 10)); change (pt (g_top g)) with (pt (f_of_Z 6, f_of_Z 10)); rewrite P1, P2; cbn [fst]; lra].
      change (pt (start g)) with (pt (f_of_Z 0, f_of_Z 10)); change (pt (g_top g)) with (pt (f_of_Z 6, f_of_Z 10)); rewrite P1, P2.
      unfold on_both, on_circle, on_line. rewrite ?Ex, ?Ey, ?Er. cbn [fst snd]. lra. }
  split. { split.
    - eapply stands_64; [exact P3|exact P4|unfold on_both, on_circle, on_line, cuts, area2, gap2; rewrite ?Ex, ?Ey, ?Er; cbn [fst snd]; lra..].
    - exists (6, 8). change (pt (last g)) with (pt (f_of_Z 24, f_of_Z 8)); change (pt (g_bot g)) with (pt (f_of_Z 10, f_of_Z 8)); rewrite P3, P4.
      split; [|cbn [fst]; lra]. unfold on_both, on_circle, on_line. rewrite ?Ex, ?Ey, ?Er. cbn [fst snd]. lra. }
  split; [|vm_compute; reflexivity].
  eapply passes_64; [exact P2|exact P3|unfold gap2; cbn [fst snd]; lra|]. split; [unfold cuts, area2, gap2; rewrite ?Ex, ?Ey, ?Er; cbn [fst snd]; lra|].
  intros x y (O & L). unfold on_circle, on_line in O, L. rewrite ?Ex, ?Ey, ?Er in O. cbn [fst snd] in O, L.
  destruct (Rlt_dec (x + / 1000) 6); [now left|]. destruct (Rlt_dec (10 + / 1000) x); [now right|]. exfalso. assert (y = 13 - x / 2) by lra. subst y. nra.
Qed.
Ltac reals Ex Ey Er := unfold on_both, on_circle, on_line, cuts, area2, gap2; rewrite ?Ex, ?Ey, ?Er; cbn [fst snd]; lra.
Example C118_crest_face_case : let g := hill 10 10 18 4 26 in let cx := f_of_Z 12 in let cy := f_of_Z 16 in let r := f_of_Z 10 in
  measured g cx cy r 64 /\ cuts_crest g cx cy r 64 (4, 10) /\ cuts_face g cx cy r 64 (14.8, 6.4) /\ passes cx cy r 64 (g_bot g) (last g) /\
  4 + / 1000 + / 1000 + 1 / 50 <= 14.8.
Proof.
  intros g cx cy r. destruct (valid_int 12 eq_refl) as (Vx & Ex). destruct (valid_int 16 eq_refl) as (Vy & Ey). destruct (valid_int 10 eq_refl) as (Vr & Er).
  fold cx in Ex, Vx. fold cy in Ey, Vy. fold r in Er, Vr.
  destruct (pt_int 0 10) as (P1 & _); [lia..|]. destruct (pt_int 10 10) as (P2 & _); [lia..|]. destruct (pt_int 18 4) as (P3 & _); [lia..|]. destruct (pt_int 26 4) as (P4 & _); [lia..|].
  assert (B1 : slack cx cy r 64 (0, 10) (10, 10) <= / 1000) by (apply slack_64; reals Ex Ey Er).
  assert (B2 : slack cx cy r 64 (10, 10) (18, 4) <= / 1000) by (apply slack_64; reals Ex Ey Er).
  split; [apply measured_hill; try lia; try assumption; rewrite ?Ex, ?Ey, ?Er; apply int_32; lia|].
  change (pt (start g)) with (pt (f_of_Z 0, f_of_Z 10)) in *. split. { split.
    - eapply stands_64; [exact P1|exact P2|reals Ex Ey Er..].
    - exists (20, 10). change (pt (start g)) with (pt (f_of_Z 0, f_of_Z 10)); change (pt (g_top g)) with (pt (f_of_Z 10, f_of_Z 10)); rewrite P1, P2.
      split; [reals Ex Ey Er|cbn [fst]; lra]. }
  split. { split.
    - eapply stands_64; [exact P2|exact P3|reals Ex Ey Er..].
    - exists (2, 16). change (pt (g_top g)) with (pt (f_of_Z 10, f_of_Z 10)); change (pt (g_bot g)) with (pt (f_of_Z 18, f_of_Z 4)).
      change (fst (g_top g)) with (f_of_Z 10). rewrite P2, P3, (proj2 (valid_int 10 eq_refl)). split; [reals Ex Ey Er|left; cbn [fst]; lra]. }
  split; [|lra]. eapply misses_64; [exact P3|exact P4|reals Ex Ey Er|].
  intros x y (O & L). unfold on_circle, on_line in O, L. rewrite ?Ex, ?Ey, ?Er in O. cbn [fst snd] in O, L. assert (y = 4) by lra. subst y. pose proof (Rle_0_sqr (x - 12)) as SQ. unfold Rsqr in SQ. lra.
Qed.
Example C118_face_toe_case : let g := hill 6 13 18 4 32 in let cx := f_of_Z 20 in let cy := f_of_Z 10 in let r := f_of_Z 10 in
  measured g cx cy r 64 /\ cuts_face g cx cy r 64 (10, 10) /\ cuts_toe g cx cy r 64 (28, 4) /\ passes cx cy r 64 (start g) (g_top g) /\
  circle_external g cx cy r = Ok [(f_of_Z 10, f_of_Z 10); (f_of_Z 28, f_of_Z 4)].
Proof.
  intros g cx cy r. destruct (valid_int 20 eq_refl) as (Vx & Ex). destruct (valid_int 10 eq_refl) as (Vy & Ey). pose proof Vy as Vr. pose proof Ey as Er.
  fold cx in Ex, Vx. fold cy in Ey, Vy. fold r in Er, Vr.
  destruct (pt_int 0 13) as (P1 & _); [lia..|]. destruct (pt_int 6 13) as (P2 & _); [lia..|]. destruct (pt_int 18 4) as (P3 & _); [lia..|]. destruct (pt_int 32 4) as (P4 & _); [lia..|].
  assert (B1 : slack cx cy r 64 (6, 13) (18, 4) <= / 1000) by (apply slack_64; reals Ex Ey Er).
  assert (B2 : slack cx cy r 64 (18, 4) (32, 4) <= / 1000) by (apply slack_64; reals Ex Ey Er).
  split; [apply measured_hill; try lia; try assumption; rewrite ?Ex, ?Ey, ?Er; apply int_32; lia|].
  split. { split.
    - eapply stands_64; [exact P2|exact P3|reals Ex Ey Er..].
    - exists (22.8, 0.4). change (pt (g_top g)) with (pt (f_of_Z 6, f_of_Z 13)); change (pt (g_bot g)) with (pt (f_of_Z 18, f_of_Z 4)).
      change (fst (g_bot g)) with (f_of_Z 18). rewrite P2, P3, (proj2 (valid_int 18 eq_refl)). split; [reals Ex Ey Er|right; cbn [fst]; lra]. }
  split. { split.
    - eapply stands_64; [exact P3|exact P4|reals Ex Ey Er..].
    - exists (12, 4). change (pt (last g)) with (pt (f_of_Z 32, f_of_Z 4)); change (pt (g_bot g)) with (pt (f_of_Z 18, f_of_Z 4)); rewrite P3, P4.
      split; [reals Ex Ey Er|cbn [fst]; lra]. }
  split; [|vm_compute; reflexivity].
  eapply passes_64; [exact P1|exact P2|reals Ex Ey Er|]. split; [reals Ex Ey Er|].
  intros x y (O & L). unfold on_circle, on_line in O, L. rewrite ?Ex, ?Ey, ?Er in O. cbn [fst snd] in O, L.
  destruct (Rlt_dec (x + / 1000) 0); [now left|]. destruct (Rlt_dec (6 + / 1000) x); [now right|]. exfalso. assert (y = 13) by lra. subst y. nra.
Qed.
Example C118_face_face_case : let g := hill 6 13 18 4 32 in let cx := f_of_Z 12 in let cy := f_lit 17 2 in let r := f_of_Z 5 in
  measured g cx cy r 64 /\ stands_on cx cy r 64 (g_top g) (g_bot g) (8, 11.5) /\ stands_on cx cy r 64 (g_top g) (g_bot g) (16, 5.5) /\
  passes cx cy r 64 (start g) (g_top g) /\ passes cx cy r 64 (g_bot g) (last g) /\
  circle_external g cx cy r = Ok [(f_of_Z 8, f_lit 23 2); (f_of_Z 16, f_lit 11 2)].
Proof.
  intros g cx cy r. destruct (valid_int 12 eq_refl) as (Vx & Ex). destruct (valid_int 5 eq_refl) as (Vr & Er).
  fold cx in Ex, Vx. fold r in Er, Vr.
  assert (Ec : cy = S754_finite false 4785074604081152 (-49)) by (vm_compute; reflexivity).
  assert (Ey : FR cy = 8.5) by (rewrite Ec, FR_dyadic by lia; change (2 ^ (- -49))%Z with 562949953421312%Z; lra).
  assert (Vy : valid cy) by (rewrite Ec; split; reflexivity).
  destruct (pt_int 0 13) as (P1 & _); [lia..|]. destruct (pt_int 6 13) as (P2 & _); [lia..|]. destruct (pt_int 18 4) as (P3 & _); [lia..|]. destruct (pt_int 32 4) as (P4 & _); [lia..|].
  split; [apply measured_hill; try lia; try assumption; rewrite ?Ex, ?Ey, ?Er; try (apply int_32; lia); rewrite Rabs_right; lra|].
  split; [eapply stands_64; [exact P2|exact P3|reals Ex Ey Er..]|]. split; [eapply stands_64; [exact P2|exact P3|reals Ex Ey Er..]|].
  split.
  { eapply passes_64; [exact P1|exact P2|reals Ex Ey Er|]. split; [reals Ex Ey Er|].
    intros x y (O & L). unfold on_circle, on_line in O, L. rewrite ?Ex, ?Ey, ?Er in O. cbn [fst snd] in O, L.
    destruct (Rlt_dec (x + / 1000) 0); [now left|]. destruct (Rlt_dec (6 + / 1000) x); [now right|]. exfalso. assert (y = 13) by lra. subst y. nra. }
  split; [|vm_compute; reflexivity].
  eapply passes_64; [exact P3|exact P4|reals Ex Ey Er|]. split; [reals Ex Ey Er|].
  intros x y (O & L). unfold on_circle, on_line in O, L. rewrite ?Ex, ?Ey, ?Er in O. cbn [fst snd] in O, L.
  destruct (Rlt_dec (x + / 1000) 18); [now left|]. destruct (Rlt_dec (32 + / 1000) x); [now right|]. exfalso. assert (y = 4) by lra. subst y. nra.
Qed.
