(** * DemoCircle: one circle on the demo slope.

    Centre (12, 29/2), radius 15/2: it enters the crest at (6, 10) and touches the
    toe level at (12, 7). *)
From Coq Require Import ZArith Reals Lra Lia List Bool Sorted.
From Verif Require Import Num Py Objects Slope Planes Analysis RealNum RealFacts ListFacts
     Spec Api Demo CircleFacts.
Import ListNotations.
Local Open Scope R_scope.

Lemma demo_surface x : 8 <= x <= 12 -> surface demo_geom x = 16 - 3 / 4 * x.
Proof.
  intros H. unfold surface, clamp, demo_geom. cbn [g_top g_bot g_gradient fst snd].
  rminmax; lra.
Qed.

Lemma demo_good : good_geom demo_geom.
Proof. constructor; cbn [demo_geom g_top g_bot g_gradient g_ext_h g_ext_l fst snd]; lra. Qed.

Lemma demo_crossing p :
  crossing demo_geom 12 (29 / 2) (15 / 2) p <-> p = (6, 10) \/ p = (12, 7).
Proof.
  destruct p as [x y]. unfold crossing, on_circle. cbn [fst snd g_top g_bot g_ext_l demo_geom].
  split.
  - intros (C & [(H1 & -> & H3)|[(H1 & -> & H3)|(H1 & Y)]]).
    + left. f_equal. assert ((x - 6) * (x - 18) = 0) by nra.
      apply Rmult_integral in H as [H|H]; lra.
    + right. f_equal. assert ((x - 12) * (x - 12) = 0) by nra.
      apply Rmult_integral in H as [H|H]; lra.
    + right. rewrite (demo_surface x H1) in Y. subst y.
      assert ((x - 12) * (25 * x - 120) = 0) by nra.
      apply Rmult_integral in H as [H|H]; [f_equal; lra | lra].
  - intros [E|E]; injection E as -> ->; (split; [lra|]).
    + left. split; [lra|]. split; auto. intros [qx qy]. cbn [fst snd]. intros C ->. nra.
    + right. left. split; [lra|]. split; auto. intros [qx qy]. cbn [fst snd]. intros C ->. nra.
Qed.

Lemma demo_ends : end_points demo_geom 12 (29 / 2) (15 / 2) (6, 10) (12, 7).
Proof.
  exists []. split.
  - repeat constructor; cbn; lra.
  - intros p. rewrite demo_crossing. split.
    + intros [ <- | [ <- | [] ] ]; (split; [auto|]); intros q; rewrite demo_crossing;
        intros [ -> | -> ]; cbn [fst]; lra.
    + intros ([ -> | -> ] & _); cbn; auto.
Qed.
