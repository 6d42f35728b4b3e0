(** * EndsNear: the two points at which a circle cuts the ground, computed and exact (C118). *)
From Coq Require Import ZArith Reals Lra Lia Bool List String SpecFloat Permutation.
From Verif Require Import Num RealNum FloatNum Py Validation Utilities Objects Slope Planes
     ListFacts RoundTheory NearFacts SumNear WeightNear TurnNear CrossNear PropsNear PropsCross.
Import ListNotations.
Local Open Scope R_scope.

Lemma ltb_true (a b : float) : valid a -> valid b -> FR a < FR b -> nltb a b = true.
Proof. intros A B L. cbn [nltb FNum]. rewrite ltb_FR by assumption. unfold Rltb. destruct (Rlt_dec _ _); [reflexivity|lra]. Qed.
Lemma ltb_false (a b : float) : valid a -> valid b -> FR b <= FR a -> nltb a b = false.
Proof. intros A B L. cbn [nltb FNum]. rewrite ltb_FR by assumption. unfold Rltb. destruct (Rlt_dec _ _); [lra|reflexivity]. Qed.
Lemma leb_true (a b : float) : valid a -> valid b -> FR a <= FR b -> nleb a b = true.
Proof. intros A B L. cbn [nleb FNum]. rewrite leb_FR by assumption. unfold Rleb. destruct (Rle_dec _ _); [reflexivity|lra]. Qed.
Lemma leb_false (a b : float) : valid a -> valid b -> FR b < FR a -> nleb a b = false.
Proof. intros A B L. cbn [nleb FNum]. rewrite leb_FR by assumption. unfold Rleb. destruct (Rle_dec _ _); [lra|reflexivity]. Qed.
Lemma eqb_false (a b : float) : valid a -> valid b -> FR a <> FR b -> neqb a b = false.
Proof. intros A B L. cbn [neqb FNum]. rewrite eqb_FR by assumption. unfold Reqb. destruct (Req_EM_T _ _); [contradiction|reflexivity]. Qed.
Lemma sort_two {A} (lt : A -> A -> bool) a b : lt a b = true -> lt b a = false -> sort lt [a; b] = [a; b] /\ sort lt [b; a] = [a; b].
Proof. intros L N. cbn [sort insert]. rewrite L, N. split; reflexivity. Qed.

Definition near (p : point float) (P : R * R) (e : R) : Prop :=
  valid (fst p) /\ valid (snd p) /\ Rabs (FR (fst p) - fst P) <= e /\ Rabs (FR (snd p) - snd P) <= e.
Lemma near_span p P e : near p P e -> fst P - e <= FR (fst p) <= fst P + e.
Proof. intros (_ & _ & N & _). apply abs_span in N. lra. Qed.
Lemma points_sorted (p q : point float) P Q e : near p P e -> near q Q e -> fst P + 2 * e < fst Q ->
  sort_points [p; q] = [p; q] /\ sort_points [q; p] = [p; q].
Proof.
  intros N M L. pose proof (near_span _ _ _ N). pose proof (near_span _ _ _ M). destruct N as (V & _), M as (W & _).
  apply sort_two; unfold point_ltb; rewrite eqb_false by (assumption || lra); [apply ltb_true|apply ltb_false]; auto; lra.
Qed.

Section Ends.
  Variables (cx cy r : float) (S : R).
  Hypotheses (Vx : valid cx) (Vy : valid cy) (Vr : valid r) (BS : p2 (-50) <= S <= p2 100) (Br : Rabs (FR r) <= S).
  Let c := (FR cx, FR cy).
  Definition on_both (a b P : R * R) : Prop := on_circle (FR cx) (FR cy) (FR r) P /\ on_line a b P.
  Definition slack (a b : R * R) : R := p2 (-40) * (S * S * (S * S * S)) / (gap2 a b * sqrt (cuts (FR cx, FR cy) (FR r) a b)).
  Definition well_cut (a b : R * R) : Prop :=
    1000 * p2 (-53) * (S * S) <= gap2 a b /\ 1000 * p2 (-53) * (S * S * (S * S)) <= cuts (FR cx, FR cy) (FR r) a b.
  Definition fair (p : point float) : Prop :=
    valid (fst p) /\ valid (snd p) /\ Rabs (FR (fst p)) + Rabs (FR cx) <= S /\ Rabs (FR (snd p)) + Rabs (FR cy) <= S.
  Definition pt (p : point float) : R * R := (FR (fst p), FR (snd p)).

  (** the two computed points in the order of two given common points *)
  Lemma cut_two ta ba A B : fair ta -> fair ba -> well_cut (pt ta) (pt ba) -> on_both (pt ta) (pt ba) A -> on_both (pt ta) (pt ba) B ->
    fst A + 2 * slack (pt ta) (pt ba) < fst B ->
    exists p q l, cirle_line_intersection ta ba cx cy r = Ok l /\ (l = [p; q] \/ l = [q; p]) /\
      near p A (slack (pt ta) (pt ba)) /\ near q B (slack (pt ta) (pt ba)).
  Proof.
    intros (T1 & T2 & T3 & T4) (B1 & B2 & B3 & B4) (HL & HQ) OA OB LT.
    destruct (C115_cross ta ba cx cy r S T1 T2 B1 B2 Vx Vy Vr BS T3 T4 B3 B4 Br HL HQ) as (p & q & X & Y & E & AL & NE & V1 & V2 & V3 & V4 & N1 & N2 & N3 & N4).
    fold (slack (pt ta) (pt ba)) in N1, N2, N3, N4.
    assert (P0 : 0 <= slack (pt ta) (pt ba)) by (apply Rle_trans with (2 := N1); apply Rabs_pos).
    apply AL in OA, OB. assert (AB : A <> B) by (intros ->; lra).
    destruct OA as [-> | ->], OB as [-> | ->]; try contradiction.
    - exists p, q, [p; q]. split; [exact E|]. split; [now left|]. split; repeat split; try apply V1; try apply V2; try apply V3; try apply V4; assumption.
    - exists q, p, [p; q]. split; [exact E|]. split; [now right|]. split; repeat split; try apply V1; try apply V2; try apply V3; try apply V4; assumption.
  Qed.
  Lemma cut_sorted ta ba A B : fair ta -> fair ba -> well_cut (pt ta) (pt ba) -> on_both (pt ta) (pt ba) A -> on_both (pt ta) (pt ba) B ->
    fst A + 2 * slack (pt ta) (pt ba) < fst B ->
    exists p q l, cirle_line_intersection ta ba cx cy r = Ok l /\ sort_points l = [p; q] /\
      near p A (slack (pt ta) (pt ba)) /\ near q B (slack (pt ta) (pt ba)).
  Proof.
    intros T U W OA OB LT. destruct (cut_two ta ba A B T U W OA OB LT) as (p & q & l & E & D & N & M).
    exists p, q, l. split; [exact E|]. split; [|split; assumption]. destruct (points_sorted p q A B _ N M LT) as (S1 & S2). now destruct D as [-> | ->].
  Qed.
  (** every computed point is near a common one *)
  Lemma cut_all ta ba : fair ta -> fair ba -> clear_cut (FR cx, FR cy) (FR r) S (pt ta, pt ba) ->
    exists l, cirle_line_intersection ta ba cx cy r = Ok l /\
      forall p, In p l -> exists P, on_both (pt ta) (pt ba) P /\ near p P (slack (pt ta) (pt ba)).
  Proof.
    intros (T1 & T2 & T3 & T4) (B1 & B2 & B3 & B4) [(HL & HQ)|HN].
    - destruct (C115_cross ta ba cx cy r S T1 T2 B1 B2 Vx Vy Vr BS T3 T4 B3 B4 Br HL HQ) as (p & q & X & Y & E & AL & NE & V1 & V2 & V3 & V4 & N1 & N2 & N3 & N4).
      exists [p; q]. split; [exact E|]. intros s [<-|[<-|[]]]; [exists X|exists Y]; (split; [apply AL; auto|]); (split; [assumption|]); (split; [assumption|]); split; assumption.
    - exists []. split; [|intros p []]. exact (C115_none ta ba cx cy r S T1 T2 B1 B2 Vx Vy Vr BS T3 T4 B3 B4 Br HN).
  Qed.
End Ends.

(** A point is dropped when it is closer than 0.01 to the one before. *)
Lemma hundredth : valid (nlit 1 100 : float) /\ FR (nlit 1 100 : float) < 0.011.
Proof.
  assert (E : (nlit 1 100 : float) = S754_finite false 5764607523034235 (-59)) by (vm_compute; reflexivity).
  rewrite E. split; [split; reflexivity|]. rewrite FR_dyadic by lia. change (2 ^ (- -59))%Z with 576460752303423488%Z. lra.
Qed.
Lemma far_kept (x y : float) : valid x -> valid y -> Rabs (FR x) < p2 1000 -> Rabs (FR y) < p2 1000 -> FR y + 1 / 50 <= FR x ->
  nltb (nlit 1 100) (nabs (nsub x y)) = true.
Proof.
  intros V W BX BY L. destruct hundredth as (VH & H).
  assert (BD : Rabs (FR x - FR y) < p2 1023).
  { apply Rle_lt_trans with (Rabs (FR x) + Rabs (FR y)); [unfold Rminus; eapply Rle_trans; [apply Rabs_triang|]; rewrite Rabs_Ropp; lra|].
    apply Rlt_trans with (p2 1000 + p2 1000); [lra|]. replace 1023%Z with (1000 + 23)%Z by lia. rewrite p2_add. pose proof (p2_pos 1000). rewrite (p2_IZR 23) by lia. change (2 ^ 23)%Z with 8388608%Z. nra. }
  destruct (sub_near x y V W BD) as (VS & NS). change (SFsub prec emax x y) with (nsub x y) in *.
  destruct (abs_FR (nsub x y) VS) as (VA & EA). apply ltb_true; [exact VH|exact VA|]. rewrite EA. apply Rlt_le_trans with (2 := RRle_abs _).
  apply abs_span in NS. rewrite (Rabs_right (FR x - FR y)) in NS by lra. rewrite u_val in NS. nra.
Qed.
Lemma p2_100_1000 : p2 100 < p2 1000.
Proof. apply p2_lt. lia. Qed.

(** ** The ground *)
Section Ground.
  Variables (g : geom float) (cx cy r : float) (S : R).
  Definition start : point float := (nz 0, snd (g_top g)).
  Definition last : point float := (g_ext_l g, snd (g_bot g)).
  (** the numbers are finite and [S] bounds them *)
  Definition measured : Prop :=
    valid cx /\ valid cy /\ valid r /\ p2 (-50) <= S <= p2 100 /\ Rabs (FR r) <= S /\
    fair cx cy S start /\ fair cx cy S (g_top g) /\ fair cx cy S (g_bot g) /\ fair cx cy S last.
  (** [A] is a common point, and over its stretch by more than the error *)
  Definition stands_on (a b : point float) (A : R * R) : Prop :=
    well_cut cx cy r S (pt a) (pt b) /\ on_both cx cy r (pt a) (pt b) A /\
    FR (fst a) + slack cx cy r S (pt a) (pt b) <= fst A /\ fst A + slack cx cy r S (pt a) (pt b) <= FR (fst b).
  (** no common point is over the stretch, by more than the error *)
  Definition passes (a b : point float) : Prop :=
    clear_cut (FR cx, FR cy) (FR r) S (pt a, pt b) /\
    forall P, on_both cx cy r (pt a) (pt b) P ->
      fst P + slack cx cy r S (pt a) (pt b) < FR (fst a) \/ FR (fst b) + slack cx cy r S (pt a) (pt b) < fst P.
  (** the circle cuts the crest at [A]: the other common point is to the right *)
  Definition cuts_crest (A : R * R) : Prop :=
    stands_on start (g_top g) A /\
    exists A', on_both cx cy r (pt start) (pt (g_top g)) A' /\ fst A + 2 * slack cx cy r S (pt start) (pt (g_top g)) < fst A'.
  (** the circle cuts the toe at [B]: the other common point is to the left *)
  Definition cuts_toe (B : R * R) : Prop :=
    stands_on (g_bot g) last B /\
    exists B', on_both cx cy r (pt (g_bot g)) (pt last) B' /\ fst B' + 2 * slack cx cy r S (pt (g_bot g)) (pt last) < fst B.
  (** the circle cuts the face at [C] only *)
  Definition cuts_face (C : R * R) : Prop :=
    stands_on (g_top g) (g_bot g) C /\
    exists C', on_both cx cy r (pt (g_top g)) (pt (g_bot g)) C' /\
      (fst C' + slack cx cy r S (pt (g_top g)) (pt (g_bot g)) < FR (fst (g_top g)) \/
       FR (fst (g_bot g)) + slack cx cy r S (pt (g_top g)) (pt (g_bot g)) < fst C').

  Section Hits.
  Hypothesis Ms : measured.
  Notation e1 := (slack cx cy r S (pt start) (pt (g_top g))).
  Notation e2 := (slack cx cy r S (pt (g_bot g)) (pt last)).
  Notation e3 := (slack cx cy r S (pt (g_top g)) (pt (g_bot g))).
  Let crest := cirle_line_intersection start (g_top g) cx cy r.
  Let toe := cirle_line_intersection (g_bot g) last cx cy r.
  Let face := cirle_line_intersection (g_top g) (g_bot g) cx cy r.
  Lemma valid_0 : valid (fst start) /\ FR (fst start) = 0.
  Proof. exact (nz_FR 0 eq_refl). Qed.
  Lemma crest_hit A : cuts_crest A -> exists l p, crest = Ok l /\ top_hits g l = [p] /\ near p A e1 /\ 0 <= FR (fst p) <= FR (fst (g_top g)).
  Proof.
    intros ((W & O & L1 & L2) & A' & O' & LT). destruct Ms as (Vx & Vy & Vr & BS & Br & F1 & F2 & _).
    destruct (cut_sorted cx cy r S Vx Vy Vr BS Br start (g_top g) A A' F1 F2 W O O' LT) as (p & q & l & E & SR & N & M).
    pose proof (near_span _ _ _ N) as NS. destruct valid_0 as (V0 & E0). rewrite E0 in L1.
    exists l, p. split; [exact E|]. split; [|split; [exact N|lra]]. unfold top_hits. rewrite SR. change (nz 0 : float) with (fst start).
    rewrite !leb_true; [reflexivity|apply N|apply F2|lra|exact V0|apply N|lra].
  Qed.
  Lemma crest_none : passes start (g_top g) -> exists l, crest = Ok l /\ top_hits g l = [].
  Proof.
    intros (C & OUT). destruct Ms as (Vx & Vy & Vr & BS & Br & F1 & F2 & _).
    destruct (cut_all cx cy r S Vx Vy Vr BS Br start (g_top g) F1 F2 C) as (l & E & AL). exists l. split; [exact E|].
    unfold top_hits, sort_points. pose proof (sort_perm point_ltb l) as PM. destruct (sort point_ltb l) as [|p k]; [reflexivity|].
    destruct (AL p) as (P & O & N); [apply (Permutation_in _ (Permutation_sym PM)); now left|]. pose proof (near_span _ _ _ N).
    destruct valid_0 as (V0 & E0). change (nz 0 : float) with (fst start). destruct (OUT P O) as [L|L].
    - rewrite leb_false; [reflexivity|exact V0|apply N|lra].
    - rewrite (leb_false (fst p)); [now rewrite andb_false_r|apply N|apply F2|lra].
  Qed.
  Lemma toe_hit B : cuts_toe B -> exists l p, toe = Ok l /\ bot_hits g l = [p] /\ near p B e2 /\ FR (fst (g_bot g)) <= FR (fst p) <= FR (g_ext_l g).
  Proof.
    intros ((W & O & L1 & L2) & B' & O' & LT). destruct Ms as (Vx & Vy & Vr & BS & Br & _ & _ & F1 & F2).
    destruct (cut_sorted cx cy r S Vx Vy Vr BS Br (g_bot g) last B' B F1 F2 W O' O LT) as (p & q & l & E & SR & N & M).
    pose proof (near_span _ _ _ M) as NS. cbn [fst last] in L2.
    exists l, q. split; [exact E|]. split; [|split; [exact M|lra]]. unfold bot_hits. rewrite SR. cbn [rev app].
    rewrite !leb_true; [reflexivity|apply M|apply F2|lra|apply F1|apply M|lra].
  Qed.
  Lemma toe_none : passes (g_bot g) last -> exists l, toe = Ok l /\ bot_hits g l = [].
  Proof.
    intros (C & OUT). destruct Ms as (Vx & Vy & Vr & BS & Br & _ & _ & F1 & F2).
    destruct (cut_all cx cy r S Vx Vy Vr BS Br (g_bot g) last F1 F2 C) as (l & E & AL). exists l. split; [exact E|].
    unfold bot_hits, sort_points. pose proof (sort_perm point_ltb l) as PM. pose proof (Permutation_rev (sort point_ltb l)) as PR.
    destruct (rev (sort point_ltb l)) as [|p k]; [reflexivity|].
    destruct (AL p) as (P & O & N); [apply (Permutation_in _ (Permutation_sym PM)), (Permutation_in _ (Permutation_sym PR)); now left|]. pose proof (near_span _ _ _ N).
    destruct (OUT P O) as [L|L].
    - rewrite leb_false; [reflexivity|apply F1|apply N|lra].
    - cbn [fst last] in L. rewrite (leb_false (fst p)); [now rewrite andb_false_r|apply N|apply F2|lra].
  Qed.
  Lemma out_of_face p P : near p P e3 -> fst P + e3 < FR (fst (g_top g)) \/ FR (fst (g_bot g)) + e3 < fst P ->
    nleb (fst (g_top g)) (fst p) && nleb (fst p) (fst (g_bot g)) = false.
  Proof.
    intros N OUT. pose proof (near_span _ _ _ N). destruct Ms as (_ & _ & _ & _ & _ & _ & F1 & F2 & _). destruct OUT as [L|L].
    - rewrite leb_false; [reflexivity|apply F1|apply N|lra].
    - rewrite (leb_false (fst p)); [now rewrite andb_false_r|apply N|apply F2|lra].
  Qed.
  Lemma face_none : passes (g_top g) (g_bot g) -> exists l, face = Ok l /\ mid_hits g l = [].
  Proof.
    intros (C & OUT). destruct Ms as (Vx & Vy & Vr & BS & Br & _ & F1 & F2 & _).
    destruct (cut_all cx cy r S Vx Vy Vr BS Br (g_top g) (g_bot g) F1 F2 C) as (l & E & AL). exists l. split; [exact E|].
    unfold mid_hits. clear E. induction l as [|p l IH]; [reflexivity|]. cbn [filter]. destruct (AL p (or_introl eq_refl)) as (P & O & N).
    rewrite (out_of_face p P N (OUT P O)). apply IH. intros q I. apply AL. now right.
  Qed.
  Lemma face_hit A : cuts_face A -> exists l p, face = Ok l /\ mid_hits g l = [p] /\ near p A e3 /\ FR (fst (g_top g)) <= FR (fst p) <= FR (fst (g_bot g)).
  Proof.
    intros ((W & O & L1 & L2) & A' & O' & OUT). destruct Ms as (Vx & Vy & Vr & BS & Br & _ & F1 & F2 & _).
    assert (T : exists p q l, face = Ok l /\ (l = [p; q] \/ l = [q; p]) /\ near p A e3 /\ near q A' e3).
    { destruct OUT as [L|L].
      - destruct (cut_two cx cy r S Vx Vy Vr BS Br (g_top g) (g_bot g) A' A F1 F2 W O' O) as (p & q & l & E & D & N & M); [lra|].
        exists q, p, l. repeat split; try apply N; try apply M; try exact E. tauto.
      - destruct (cut_two cx cy r S Vx Vy Vr BS Br (g_top g) (g_bot g) A A' F1 F2 W O O') as (p & q & l & E & D & N & M); [lra|].
        exists p, q, l. repeat split; try apply N; try apply M; try exact E. tauto. }
    destruct T as (p & q & l & E & D & N & M). pose proof (near_span _ _ _ N) as NS.
    exists l, p. split; [exact E|]. split; [|split; [exact N|lra]].
    assert (IN : nleb (fst (g_top g)) (fst p) && nleb (fst p) (fst (g_bot g)) = true).
    { rewrite !leb_true; [reflexivity|apply N|apply F2|lra|apply F1|apply N|lra]. }
    pose proof (out_of_face q A' M OUT) as NO. unfold mid_hits. destruct D as [-> | ->]; cbn [filter]; rewrite IN, NO; reflexivity.
  Qed.
  Lemma face_twice A B : stands_on (g_top g) (g_bot g) A -> stands_on (g_top g) (g_bot g) B -> fst A + 2 * e3 < fst B ->
    exists l p q, face = Ok l /\ (mid_hits g l = [p; q] \/ mid_hits g l = [q; p]) /\ near p A e3 /\ near q B e3 /\
      FR (fst (g_top g)) <= FR (fst p) /\ FR (fst q) <= FR (fst (g_bot g)).
  Proof.
    intros (W & O & L1 & L2) (_ & O' & L1' & L2') LT. destruct Ms as (Vx & Vy & Vr & BS & Br & _ & F1 & F2 & _).
    destruct (cut_two cx cy r S Vx Vy Vr BS Br (g_top g) (g_bot g) A B F1 F2 W O O' LT) as (p & q & l & E & D & N & M).
    pose proof (near_span _ _ _ N) as NS. pose proof (near_span _ _ _ M) as MS. exists l, p, q. split; [exact E|].
    split; [|split; [exact N|split; [exact M|lra]]].
    assert (IN : forall s P, near s P e3 -> FR (fst (g_top g)) + e3 <= fst P -> fst P + e3 <= FR (fst (g_bot g)) -> nleb (fst (g_top g)) (fst s) && nleb (fst s) (fst (g_bot g)) = true).
    { intros s P Q U1 U2. pose proof (near_span _ _ _ Q). rewrite !leb_true; [reflexivity|apply Q|apply F2|lra|apply F1|apply Q|lra]. }
    unfold mid_hits. destruct D as [-> | ->]; cbn [filter]; rewrite (IN p A N L1 L2), (IN q B M L1' L2'); auto.
  Qed.
  Lemma two_ends t b m p q A B eA eB : crest = Ok t -> toe = Ok b -> face = Ok m ->
    (top_hits g t ++ bot_hits g b ++ mid_hits g m = [p; q] \/ top_hits g t ++ bot_hits g b ++ mid_hits g m = [q; p])%list ->
    near p A eA -> near q B eB -> 0 <= FR (fst p) -> FR (fst q) <= p2 101 -> fst A + eA + eB + 1 / 50 <= fst B ->
    circle_external g cx cy r = Ok [p; q] /\ first_two [p; q] = Some (p, q).
  Proof.
    intros E1 E2 E3 D N M P0 Q0 LT. pose proof (near_span _ _ _ N) as NS. pose proof (near_span _ _ _ M) as MS.
    pose proof (proj1 N) as Vp. pose proof (proj1 M) as Vq. assert (L : FR (fst p) + 1 / 50 <= FR (fst q)) by lra.
    assert (BIG : p2 101 < p2 1000) by (apply p2_lt; lia).
    assert (SB : sort_by fst (top_hits g t ++ bot_hits g b ++ mid_hits g m) = [p; q]).
    { destruct (sort_two (fun a b : point float => nltb (fst a) (fst b)) p q) as (S1 & S2); [apply ltb_true; auto; lra|apply ltb_false; auto; lra|].
      unfold sort_by. destruct D as [-> | ->]; assumption. }
    split.
    - unfold circle_external. unfold crest, toe, face, start, last in E1, E2, E3. rewrite E1, E2, E3. cbn [rbind]. rewrite SB. cbn [drop_close].
      destruct (nz_FR (-1) eq_refl) as (VM & EM).
      rewrite (far_kept (fst p) (nz (-1))); [|exact Vp|exact VM|rewrite Rabs_right; lra|rewrite EM, Rabs_left by lra; assert (1 < p2 1000) by (apply (p2_lt 0); lia); lra|rewrite EM; lra].
      rewrite far_kept; [reflexivity|exact Vq|exact Vp|rewrite Rabs_right; lra|rewrite Rabs_right; lra|exact L].
    - unfold first_two. cbn [distinct_count point_mem]. unfold point_eqb. rewrite eqb_false; [reflexivity|exact Vp|exact Vq|lra].
  Qed.
  Lemma reach_S x y : Rabs x + Rabs y <= S -> x <= p2 101.
  Proof.
    intros B. destruct Ms as (_ & _ & _ & (_ & BS) & _). pose proof (RRle_abs x). pose proof (Rabs_pos y).
    pose proof (p2_lt 100 101 eq_refl). lra.
  Qed.
  End Hits.
End Ground.
