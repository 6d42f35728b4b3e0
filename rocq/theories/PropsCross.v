(** * PropsCross: how far rounding moves the crossings of a circle with a line (C115).

    [FR x] is the real number a binary64 number stands for, [valid x] says that [x] is finite and
    in the one form binary64 has for it, [p2 e] is 2^e.  [on_circle], [on_line], [gap2] and [cuts]
    are written with the operations of the reals. *)
From Coq Require Import ZArith Reals Lra Lia Bool List String SpecFloat Permutation.
From Verif Require Import Num RealNum FloatNum Py Validation Utilities Objects Slope Planes
     ListFacts RoundTheory NearFacts SumNear WeightNear CrossNear PropsNear.
Import ListNotations.
Local Open Scope R_scope.

(** [S] bounds the coordinates and the radius.  Where the line clearly cuts the circle the program
    gives two points; they are near the two common points of the circle and the line. *)
Theorem C115_cross : forall (top bot : point float) (cx cy r : float) (S : R),
  valid (fst top) -> valid (snd top) -> valid (fst bot) -> valid (snd bot) -> valid cx -> valid cy -> valid r ->
  p2 (-50) <= S <= p2 100 ->
  Rabs (FR (fst top)) + Rabs (FR cx) <= S -> Rabs (FR (snd top)) + Rabs (FR cy) <= S ->
  Rabs (FR (fst bot)) + Rabs (FR cx) <= S -> Rabs (FR (snd bot)) + Rabs (FR cy) <= S -> Rabs (FR r) <= S ->
  let a := (FR (fst top), FR (snd top)) in let b := (FR (fst bot), FR (snd bot)) in
  let L := gap2 a b in
  let Q := cuts (FR cx, FR cy) (FR r) a b in
  1000 * p2 (-53) * (S * S) <= L -> 1000 * p2 (-53) * (S * S * (S * S)) <= Q ->
  let e := p2 (-40) * (S * S * (S * S * S)) / (L * sqrt Q) in
  exists p1 p2 A B, cirle_line_intersection top bot cx cy r = Ok [p1; p2] /\
    (forall P, on_circle (FR cx) (FR cy) (FR r) P /\ on_line a b P <-> P = A \/ P = B) /\ A <> B /\
    valid (fst p1) /\ valid (snd p1) /\ valid (fst p2) /\ valid (snd p2) /\
    Rabs (FR (fst p1) - fst A) <= e /\ Rabs (FR (snd p1) - snd A) <= e /\
    Rabs (FR (fst p2) - fst B) <= e /\ Rabs (FR (snd p2) - snd B) <= e.
Proof.
  intros top bot cx cy r S V1 V2 V3 V4 V5 V6 V7 BS B1 B2 B3 B4 B5 a b L Q HL HQ e.
  set (L' := (FR (fst bot) - FR cx - (FR (fst top) - FR cx)) * (FR (fst bot) - FR cx - (FR (fst top) - FR cx)) +
             (FR (snd bot) - FR cy - (FR (snd top) - FR cy)) * (FR (snd bot) - FR cy - (FR (snd top) - FR cy))).
  set (A' := (FR (fst top) - FR cx) * (FR (snd bot) - FR cy) - (FR (fst bot) - FR cx) * (FR (snd top) - FR cy)).
  set (Q' := FR r * FR r * L' - A' * A').
  assert (EL : L = L') by (unfold L, L', gap2, a, b; cbn [fst snd]; ring).
  assert (EQ : Q = Q') by (unfold Q, Q', A', cuts, area2; rewrite <- EL; unfold L, a, b; cbn [fst snd]; ring).
  assert (Ee : e = p2 (-40) * (S * S * (S * S * S)) / (L' * sqrt Q')) by (unfold e; rewrite EL, EQ; reflexivity).
  rewrite EL in HL. rewrite EQ in HQ. clearbody L Q e. subst L Q e.
  destruct (cross_close top bot cx cy r S V1 V2 V3 V4 V5 V6 V7 BS B1 B2 B3 B4 B5 HL HQ) as (p1 & q1 & t & E & T & N1 & N2).
  set (X := crossing top bot cx cy r) in *.
  pose proof (fun P => crossing_all top bot cx cy r S V1 V2 V3 V4 V5 V6 BS B1 B2 B3 B4 B5 HL HQ P) as AL.
  pose proof (fun s => crossing_on top bot cx cy r S V1 V2 V3 V4 V5 V6 BS B1 B2 B3 B4 B5 HL HQ s) as ON.
  pose proof (crossing_other top bot cx cy r S V1 V2 V3 V4 V5 V6 BS B1 B2 B3 B4 B5 HL HQ) as NE.
  fold X in AL, ON, NE. exists p1, q1, (X t), (X (- t)). split; [exact E|].
  assert (IFF : forall P, P = X t \/ P = X (- t) <-> P = X 1 \/ P = X (-1)).
  { intros P. destruct T as [-> | ->]; [replace (- (1)) with (-1) by ring|replace (- (-1)) with 1 by ring]; tauto. }
  split.
  { intros P. rewrite IFF. split; [intros (C & O); exact (AL P C O)|]. intros [-> | ->]; apply ON; lra. }
  split. { destruct T as [-> | ->]; [replace (- (1)) with (-1) by ring; exact NE|replace (- (-1)) with 1 by ring; intros Z; now apply NE]. }
  destruct N1 as (N11 & N12 & N13 & N14), N2 as (N21 & N22 & N23 & N24). do 4 (split; [assumption|]).
  split; [exact N13|]. split; [exact N14|]. split; [exact N23|exact N24].
Qed.
Print Assumptions C115_cross.
(** Where it clearly misses the circle there are none. *)
Theorem C115_none : forall (top bot : point float) (cx cy r : float) (S : R),
  valid (fst top) -> valid (snd top) -> valid (fst bot) -> valid (snd bot) -> valid cx -> valid cy -> valid r ->
  p2 (-50) <= S <= p2 100 ->
  Rabs (FR (fst top)) + Rabs (FR cx) <= S -> Rabs (FR (snd top)) + Rabs (FR cy) <= S ->
  Rabs (FR (fst bot)) + Rabs (FR cx) <= S -> Rabs (FR (snd bot)) + Rabs (FR cy) <= S -> Rabs (FR r) <= S ->
  cuts (FR cx, FR cy) (FR r) (FR (fst top), FR (snd top)) (FR (fst bot), FR (snd bot)) < - (500 * p2 (-53) * (S * S * (S * S))) ->
  cirle_line_intersection top bot cx cy r = Ok [].
Proof.
  intros top bot cx cy r S V1 V2 V3 V4 V5 V6 V7 BS B1 B2 B3 B4 B5 H.
  apply (disc_none top bot cx cy r S V1 V2 V3 V4 V5 V6 V7 BS B1 B2 B3 B4 B5).
  unfold cuts, gap2, area2 in H. cbn [fst snd] in H. change (p2 (-53)) with u in H.
  match goal with |- ?x < _ => match type of H with ?y < _ => replace x with y by ring end end. exact H.
Qed.
Print Assumptions C115_none.
(** A horizontal crest at elevation 10 and the circle around (12, 14.5) with radius 7.5, which cuts
    it at 6 and at 18; a circle with radius 4 misses it. *)
Example C115_cross_case : let top := (f_of_Z 0, f_of_Z 10) in let bot := (f_of_Z 6, f_of_Z 10) in
  let cx := f_of_Z 12 in let cy := f_lit 29 2 in let r := f_lit 15 2 in
  let a := (FR (fst top), FR (snd top)) in let b := (FR (fst bot), FR (snd bot)) in
  valid cy /\ valid r /\ Rabs (FR (snd top)) + Rabs (FR cy) <= 32 /\ Rabs (FR (fst bot)) + Rabs (FR cx) <= 32 /\ Rabs (FR r) <= 32 /\
  gap2 a b = 36 /\ cuts (FR cx, FR cy) (FR r) a b = 1296 /\ 1000 * p2 (-53) * (32 * 32 * (32 * 32)) <= 1296 /\
  p2 (-40) * (32 * 32 * (32 * 32 * 32)) / (36 * sqrt 1296) <= / 10000000 /\
  on_circle (FR cx) (FR cy) (FR r) (6, 10) /\ on_line a b (18, 10) /\
  cirle_line_intersection top bot cx cy r = Ok [(f_of_Z 18, f_of_Z 10); (f_of_Z 6, f_of_Z 10)] /\
  cuts (FR cx, FR cy) (FR (f_of_Z 4)) a b = -153 /\ cirle_line_intersection top bot cx cy (f_of_Z 4) = Ok [].
Proof.
  intros top bot cx cy r a b.
  assert (Ey : cy = S754_finite false 8162774324609024 (-49)) by (vm_compute; reflexivity). assert (Er : r = S754_finite false 8444249301319680 (-50)) by (vm_compute; reflexivity).
  assert (Fy : FR cy = 14.5) by (rewrite Ey, FR_dyadic by lia; change (2 ^ (- -49))%Z with 562949953421312%Z; lra).
  assert (Fr : FR r = 7.5) by (rewrite Er, FR_dyadic by lia; change (2 ^ (- -50))%Z with 1125899906842624%Z; lra).
  assert (F0 : FR (f_of_Z 0) = 0) by (apply valid_int; reflexivity). assert (F10 : FR (f_of_Z 10) = 10) by (apply valid_int; reflexivity).
  assert (F6 : FR (f_of_Z 6) = 6) by (apply valid_int; reflexivity). assert (F12 : FR cx = 12) by (apply valid_int; reflexivity). assert (F4 : FR (f_of_Z 4) = 4) by (apply valid_int; reflexivity).
  assert (Ea : a = (0, 10)) by (unfold a, top; cbn [fst snd]; rewrite F0, F10; reflexivity). assert (Eb : b = (6, 10)) by (unfold b, bot; cbn [fst snd]; rewrite F6, F10; reflexivity).
  rewrite Ea, Eb, Fy, Fr, F12, F4. unfold top, bot. cbn [fst snd]. rewrite F10, F6.
  split; [rewrite Ey; split; reflexivity|]. split; [rewrite Er; split; reflexivity|]. rewrite !Rabs_right by lra.
  split; [lra|]. split; [lra|]. split; [lra|]. unfold gap2, cuts, area2, on_circle, on_line. cbn [fst snd].
  split; [lra|]. split; [unfold gap2; cbn [fst snd]; lra|]. change (p2 (-53)) with u. rewrite u_val. split; [lra|].
  split.
  { replace 1296 with (36 * 36) by lra. rewrite sqrt_square by lra. replace (-40)%Z with (- (40))%Z by lia. rewrite p2_neg, (p2_IZR 40) by lia. change (2 ^ 40)%Z with 1099511627776%Z. lra. }
  split; [lra|]. split; [lra|]. split; [vm_compute; reflexivity|]. split; [unfold gap2; cbn [fst snd]; lra|vm_compute; reflexivity].
Qed.

(** ** The points where a circle enters and leaves the ground *)
Definition clear_cut (c : R * R) (r S : R) (ab : (R * R) * (R * R)) : Prop :=
  let (a, b) := ab in
  (1000 * p2 (-53) * (S * S) <= gap2 a b /\ 1000 * p2 (-53) * (S * S * (S * S)) <= cuts c r a b) \/
  cuts c r a b < - (500 * p2 (-53) * (S * S * (S * S))).
(** Every point that is returned lies above or below its stretch of the ground and is near a common
    point of the circle and of the line of that stretch. *)
Theorem C115_external : forall (g : geom float) (cx cy r : float) (S : R) il,
  valid (fst (g_top g)) -> valid (snd (g_top g)) -> valid (fst (g_bot g)) -> valid (snd (g_bot g)) -> valid (g_ext_l g) ->
  valid cx -> valid cy -> valid r -> p2 (-50) <= S <= p2 100 ->
  Rabs (FR (fst (g_top g))) + Rabs (FR cx) <= S -> Rabs (FR (snd (g_top g))) + Rabs (FR cy) <= S ->
  Rabs (FR (fst (g_bot g))) + Rabs (FR cx) <= S -> Rabs (FR (snd (g_bot g))) + Rabs (FR cy) <= S ->
  Rabs (FR (g_ext_l g)) + Rabs (FR cx) <= S -> Rabs (FR r) <= S ->
  let start := (0, FR (snd (g_top g))) in let top := (FR (fst (g_top g)), FR (snd (g_top g))) in
  let bot := (FR (fst (g_bot g)), FR (snd (g_bot g))) in let last := (FR (g_ext_l g), FR (snd (g_bot g))) in
  let c := (FR cx, FR cy) in
  Forall (clear_cut c (FR r) S) [(start, top); (bot, last); (top, bot)] ->
  circle_external g cx cy r = Ok il ->
  forall p, In p il -> exists a b A, In (a, b) [(start, top); (bot, last); (top, bot)] /\
    fst a <= FR (fst p) <= fst b /\ on_circle (FR cx) (FR cy) (FR r) A /\ on_line a b A /\
    let e := p2 (-40) * (S * S * (S * S * S)) / (gap2 a b * sqrt (cuts c (FR r) a b)) in
    Rabs (FR (fst p) - fst A) <= e /\ Rabs (FR (snd p) - snd A) <= e.
Proof.
  intros g cx cy r S il V1 V2 V3 V4 V5 V6 V7 V8 BS B1 B2 B3 B4 B5 B6 start top bot last c FC E p I.
  destruct (nz_FR 0 eq_refl) as (V0 & E0).
  assert (ONE : forall ta ba : point float, valid (fst ta) -> valid (snd ta) -> valid (fst ba) -> valid (snd ba) ->
    Rabs (FR (fst ta)) + Rabs (FR cx) <= S -> Rabs (FR (snd ta)) + Rabs (FR cy) <= S ->
    Rabs (FR (fst ba)) + Rabs (FR cx) <= S -> Rabs (FR (snd ba)) + Rabs (FR cy) <= S ->
    let a := (FR (fst ta), FR (snd ta)) in let b := (FR (fst ba), FR (snd ba)) in clear_cut c (FR r) S (a, b) ->
    exists l, cirle_line_intersection ta ba cx cy r = Ok l /\ forall q, In q l -> valid (fst q) /\ exists A, on_circle (FR cx) (FR cy) (FR r) A /\ on_line a b A /\
      let e := p2 (-40) * (S * S * (S * S * S)) / (gap2 a b * sqrt (cuts c (FR r) a b)) in
      Rabs (FR (fst q) - fst A) <= e /\ Rabs (FR (snd q) - snd A) <= e).
  { intros ta ba W1 W2 W3 W4 C1 C2 C3 C4 a b [(HL & HQ)|HN].
    - destruct (C115_cross ta ba cx cy r S W1 W2 W3 W4 V6 V7 V8 BS C1 C2 C3 C4 B6 HL HQ) as (p1 & q1 & A & B & EI & AL & _ & Vp1 & _ & Vq1 & _ & N1 & N2 & N3 & N4).
      exists [p1; q1]. split; [exact EI|]. destruct (proj2 (AL A) (or_introl eq_refl)) as (OA & LA). destruct (proj2 (AL B) (or_intror eq_refl)) as (OB & LB).
      intros q [<-|[<-|[]]]; (split; [assumption|]); [exists A|exists B]; auto.
    - exists []. split; [|intros q []]. exact (C115_none ta ba cx cy r S W1 W2 W3 W4 V6 V7 V8 BS C1 C2 C3 C4 B6 HN). }
  inversion_clear FC as [|? ? F1 FC1]. inversion_clear FC1 as [|? ? F2 FC2]. inversion_clear FC2 as [|? ? F3 _].
  assert (Z : Rabs (FR (fst ((nz 0 : float), snd (g_top g)))) + Rabs (FR cx) <= S).
  { cbn [fst]. rewrite E0, Rabs_R0. pose proof (Rabs_pos (FR (fst (g_top g)))). lra. }
  destruct (ONE (nz 0, snd (g_top g)) (g_top g) V0 V2 V1 V2 Z B2 B1 B2) as (t & Et & Ht).
  { cbn [fst snd]. rewrite E0. exact F1. }
  destruct (ONE (g_bot g) (g_ext_l g, snd (g_bot g)) V3 V4 V5 V4 B3 B4 B5 B4 F2) as (b & Eb & Hb).
  destruct (ONE (g_top g) (g_bot g) V1 V2 V3 V4 B1 B2 B3 B4 F3) as (m & Em & Hm).
  unfold circle_external in E. rewrite Et, Eb, Em in E. cbn [rbind] in E. injection E as <-.
  assert (I2 : In p (top_hits g t ++ bot_hits g b ++ mid_hits g m)).
  { apply (Permutation_in _ (Permutation_sym (sort_by_perm fst _))). revert I. generalize (sort_by fst (top_hits g t ++ bot_hits g b ++ mid_hits g m)) as l.
    generalize (nz (-1) : float) as x0. intros x0 l. revert x0. induction l as [|q l IH]; intros x0 I; [destruct I|]. cbn [drop_close] in I.
    destruct (nltb _ _); [destruct I as [I|I]; [now left|]|]; right; eapply IH; exact I. }
  apply in_app_or in I2. destruct I2 as [I2|I2]; [|apply in_app_or in I2; destruct I2 as [I2|I2]].
  - assert (IT : In p t /\ nleb (nz 0) (fst p) && nleb (fst p) (fst (g_top g)) = true).
    { unfold top_hits in I2. pose proof (sort_perm point_ltb t) as PM. unfold sort_points in I2. destruct (sort point_ltb t) as [|q l]; [destruct I2|].
      destruct (nleb (nz 0) (fst q) && _) eqn:Q; [|destruct I2]. destruct I2 as [<-|[]]. split; [|exact Q].
      apply (Permutation_in _ (Permutation_sym PM)). now left. }
    destruct IT as (IT & LT). destruct (Ht p IT) as (Vp & A & HA). apply andb_prop in LT as (L1 & L2). cbn [nleb FNum] in L1, L2.
    rewrite leb_FR, E0 in L1 by assumption. rewrite leb_FR in L2 by assumption. unfold Rleb in *.
    destruct (Rle_dec 0 (FR (fst p))); [|discriminate L1]. destruct (Rle_dec _ _); [|discriminate L2].
    exists start, top, A. split; [now left|]. split; [split; assumption|]. cbn [fst snd] in HA. rewrite E0 in HA. exact HA.
  - assert (IT : In p b /\ nleb (fst (g_bot g)) (fst p) && nleb (fst p) (g_ext_l g) = true).
    { unfold bot_hits in I2. pose proof (sort_perm point_ltb b) as PM. unfold sort_points in I2. pose proof (Permutation_rev (sort point_ltb b)) as PR. destruct (rev (sort point_ltb b)) as [|q l]; [destruct I2|].
      destruct (nleb _ (fst q) && _) eqn:Q; [|destruct I2]. destruct I2 as [<-|[]]. split; [|exact Q].
      apply (Permutation_in _ (Permutation_sym PM)). apply (Permutation_in _ (Permutation_sym PR)). now left. }
    destruct IT as (IT & LT). destruct (Hb p IT) as (Vp & A & HA). apply andb_prop in LT as (L1 & L2). cbn [nleb FNum] in L1, L2.
    rewrite leb_FR in L1, L2 by assumption. unfold Rleb in *. destruct (Rle_dec _ (FR (fst p))); [|discriminate L1]. destruct (Rle_dec (FR (fst p)) _); [|discriminate L2].
    exists bot, last, A. split; [right; now left|]. split; [split; assumption|exact HA].
  - unfold mid_hits in I2. apply filter_In in I2 as (IT & LT). destruct (Hm p IT) as (Vp & A & HA). apply andb_prop in LT as (L1 & L2). cbn [nleb FNum] in L1, L2.
    rewrite leb_FR in L1, L2 by assumption. unfold Rleb in *. destruct (Rle_dec _ (FR (fst p))); [|discriminate L1]. destruct (Rle_dec (FR (fst p)) _); [|discriminate L2].
    exists top, bot, A. split; [right; right; now left|]. split; [split; assumption|exact HA].
Qed.
Print Assumptions C115_external.
Example C115_external_case : let g := MkGeom (f_of_Z 2) (f_of_Z 4) (f_lit 5 1) (f_of_Z 6, f_of_Z 10) (f_of_Z 10, f_of_Z 8) (f_of_Z 24) (f_of_Z 10) in
  circle_external g (f_of_Z 12) (f_of_Z 16) (f_of_Z 10) = Ok [(f_of_Z 4, f_of_Z 10); (f_of_Z 18, f_of_Z 8)] /\
  FR (f_of_Z 24) = 24 /\ FR (f_of_Z 10) = 10 /\
  Forall (clear_cut (12, 16) 10 64) [((0, 10), (6, 10)); ((10, 8), (24, 8)); ((6, 10), (10, 8))] /\
  cuts (12, 16) 10 (0, 10) (6, 10) = 2304.
Proof.
  cbv zeta. split; [vm_compute; reflexivity|]. split; [apply valid_int; reflexivity|]. split; [apply valid_int; reflexivity|].
  assert (C : forall a b, 1 <= gap2 a b -> 10 <= cuts (12, 16) 10 a b -> clear_cut (12, 16) 10 64 (a, b)).
  { intros a b G Q. left. change (p2 (-53)) with u. rewrite u_val. split; lra. }
  unfold cuts, gap2, area2 in C. cbn [fst snd] in C. split.
  - repeat apply Forall_cons; [| | |apply Forall_nil]; apply C; cbn [fst snd]; lra.
  - unfold cuts, gap2, area2. cbn [fst snd]. lra.
Qed.
