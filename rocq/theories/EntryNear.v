(** * EntryNear: where a circle that nearly passes through a point of a level line cuts this line (C121). *)
From Coq Require Import ZArith Reals Lra Lia Bool List SpecFloat.
From Verif Require Import Num FloatNum RealNum Py Validation Utilities Objects Slope Planes RoundTheory NearFacts SumNear CrossNear EndsNear StartNear.
Import ListNotations.
Local Open Scope R_scope.

(** [P] lies on the circle, [Q] at the same level [e] off it, both on the same side of the centre. *)
Lemma level_cut cx cy r P Q e m : 0 <= r -> on_circle cx cy r P -> snd P = snd Q -> Rabs (dist_euc (fst Q) (snd Q) cx cy - r) <= e -> 0 < m ->
  (fst P <= cx /\ m <= cx - fst Q \/ cx <= fst P /\ m <= fst Q - cx) -> Rabs (fst P - fst Q) <= e * (2 * r + e) / m.
Proof.
  intros R0 O L N M W. unfold on_circle in O. set (d := dist_euc (fst Q) (snd Q) cx cy) in *. assert (d0 : 0 <= d) by apply sqrt_pos.
  assert (dd : d * d = (fst Q - cx) * (fst Q - cx) + (snd Q - cy) * (snd Q - cy)).
  { unfold d, dist_euc, Rsqr. apply sqrt_sqrt. pose proof (Rle_0_sqr (fst Q - cx)) as A. pose proof (Rle_0_sqr (snd Q - cy)) as B. unfold Rsqr in A, B. lra. }
  rewrite L in O. pose proof (abs_span _ _ N) as Sp. assert (E0 : 0 <= e) by (pose proof (Rabs_pos (d - r)); lra).
  assert (K : (fst P - fst Q) * (fst P + fst Q - 2 * cx) = (r - d) * (r + d)) by lra.
  assert (B : Rabs ((r - d) * (r + d)) <= e * (2 * r + e)).
  { rewrite Rabs_mult, (Rabs_right (r + d)) by lra. rewrite Rabs_minus_sym in N. apply Rmult_le_compat; try apply Rabs_pos; lra. }
  assert (W' : m <= Rabs (fst P + fst Q - 2 * cx)) by (destruct W as [(W1 & W2)|(W1 & W2)]; [rewrite Rabs_left|rewrite Rabs_right]; lra).
  rewrite <- K, Rabs_mult in B. apply (Rmult_le_reg_r m); [exact M|]. unfold Rdiv. rewrite Rmult_assoc, Rinv_l, Rmult_1_r by lra.
  apply Rle_trans with (2 := B). apply Rmult_le_compat_l; [apply Rabs_pos|exact W'].
Qed.
(** the left and the right common point of a circle and a level line *)
Lemma level_line a b y P : a < b -> on_line (a, y) (b, y) P -> snd P = y.
Proof. intros L O. unfold on_line in O. cbn [fst snd] in O. assert (K : (b - a) * (snd P - y) = 0) by lra. apply Rmult_integral in K. destruct K; lra. Qed.
Lemma left_one cx cy r P P' : on_circle cx cy r P -> on_circle cx cy r P' -> snd P = snd P' -> fst P < fst P' -> fst P <= cx <= fst P'.
Proof.
  intros O O' L W. unfold on_circle in O, O'. rewrite L in O. assert (K : (fst P' - fst P) * (fst P + fst P' - 2 * cx) = 0) by lra.
  apply Rmult_integral in K. destruct K; lra.
Qed.
