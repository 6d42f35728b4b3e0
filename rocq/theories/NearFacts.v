(** * NearFacts: the computed cross-section against the exact one
    (pyslope.py:315-407, 414-431, 1920-1993, 2067-2080). *)
From Coq Require Import ZArith Reals Lra Lia Bool List String SpecFloat.
From Verif Require Import Num RealNum FloatNum Py Validation Utilities Objects Slope Planes Analysis
     Dynamic Api ListFacts MonadFacts KeepFacts AnyFacts RoundTheory.
Import ListNotations.
Local Open Scope R_scope.

(** ** Comparisons and the larger of two numbers *)
Lemma ltb_FR a b : valid a -> valid b -> SFltb a b = Rltb (FR a) (FR b).
Proof.
  intros A B. pose proof (compare_FR a b A B) as C. unfold SFltb, Rltb.
  destruct (SFcompare a b) as [[| |]|]; [| | |easy]; destruct (Rlt_dec _ _); try reflexivity; lra.
Qed.
Lemma leb_FR a b : valid a -> valid b -> SFleb a b = Rleb (FR a) (FR b).
Proof.
  intros A B. pose proof (compare_FR a b A B) as C. unfold SFleb, Rleb.
  destruct (SFcompare a b) as [[| |]|]; [| | |easy]; destruct (Rle_dec _ _); try reflexivity; lra.
Qed.
Lemma eqb_FR a b : valid a -> valid b -> SFeqb a b = Reqb (FR a) (FR b).
Proof.
  intros A B. pose proof (compare_FR a b A B) as C. unfold SFeqb, Reqb.
  destruct (SFcompare a b) as [[| |]|]; [| | |easy]; destruct (Req_EM_T _ _); try reflexivity; lra.
Qed.
Lemma pymax_FR (a b : float) : valid a -> valid b -> valid (pymax a b) /\ FR (pymax a b) = Rmax (FR a) (FR b).
Proof.
  intros A B. unfold pymax. cbn [nltb FNum]. rewrite ltb_FR by assumption. unfold Rltb.
  destruct (Rlt_dec (FR a) (FR b)).
  - split; [assumption|]. rewrite Rmax_right; lra.
  - split; [assumption|]. rewrite Rmax_left; lra.
Qed.
Lemma pymin_FR (a b : float) : valid a -> valid b -> valid (pymin a b) /\ FR (pymin a b) = Rmin (FR a) (FR b).
Proof.
  intros A B. unfold pymin. cbn [nltb FNum]. rewrite ltb_FR by assumption. unfold Rltb.
  destruct (Rlt_dec (FR b) (FR a)).
  - split; [assumption|]. rewrite Rmin_right; lra.
  - split; [assumption|]. rewrite Rmin_left; lra.
Qed.
Lemma nz_FR z : (Z.abs z < 2 ^ 53)%Z -> valid (nz z : float) /\ FR (nz z) = IZR z.
Proof. intros L. exact (int_exact z L). Qed.

Lemma abs_span y d : Rabs y <= d -> - d <= y <= d.
Proof. intros Q. pose proof (Rle_abs y). pose proof (Rle_abs (- y)) as N. rewrite Rabs_Ropp in N. lra. Qed.

(** ** One operation on numbers of one sign, far from both ends of the range *)
Definition tiny : R := p2 (-1000).
Definition vast : R := p2 900.
Lemma u_val : u = / 9007199254740992.
Proof. unfold u, p2. cbn [powerRZ]. f_equal. rewrite pow_IZR. reflexivity. Qed.
Lemma tiny_pos : 0 < tiny.
Proof. apply p2_pos. Qed.
Lemma tiny_small : tiny <= / 1000000.
Proof.
  unfold tiny. apply Rle_trans with (p2 (-20)); [apply p2_le; lia|]. unfold p2. cbn [powerRZ].
  rewrite pow_IZR. apply Rinv_le_contravar; [lra|]. apply IZR_le. vm_compute. discriminate.
Qed.
Lemma vast_big : 1000000 <= vast.
Proof.
  unfold vast. apply Rle_trans with (p2 20); [|apply p2_le; lia]. rewrite p2_IZR by lia. apply IZR_le. vm_compute. discriminate.
Qed.
Lemma top_vast : 8388608 * vast <= p2 1023.
Proof.
  unfold vast. apply Rle_trans with (p2 (23 + 900)); [|apply p2_le; lia]. rewrite p2_add. apply Rmult_le_compat_r.
  - left. apply p2_pos.
  - rewrite (p2_IZR 23) by lia. apply IZR_le. vm_compute. discriminate.
Qed.
Lemma tiny_vast : 1000000 * tiny <= / vast.
Proof.
  unfold tiny, vast. rewrite <- p2_neg. apply Rle_trans with (p2 (20 + -1000)); [|apply p2_le; lia]. rewrite p2_add.
  apply Rmult_le_compat_r; [left; apply p2_pos|]. rewrite (p2_IZR 20) by lia. apply IZR_le. vm_compute. discriminate.
Qed.
Lemma eta_tiny : eta <= u * tiny.
Proof. unfold eta, u, tiny. rewrite <- p2_add. apply p2_le. lia. Qed.
Lemma eta_pos : 0 < eta.
Proof. apply p2_pos. Qed.

Lemma near_rel y x : near y x -> tiny <= Rabs x -> Rabs (y - x) <= u * Rabs x.
Proof.
  intros N T. apply Rle_trans with (1 := N). apply Rmax_lub; [lra|]. apply Rle_trans with (1 := eta_tiny).
  apply Rmult_le_compat_l; [left; apply p2_pos|assumption].
Qed.
Lemma rel_span y x : 0 <= x -> Rabs (y - x) <= u * Rabs x -> (1 - u) * x <= y <= (1 + u) * x.
Proof. intros P Q. rewrite (Rabs_right x) in Q by lra. apply abs_span in Q. lra. Qed.
Definition spans (y : float) (x : R) : Prop := valid y /\ (1 - u) * x <= FR y <= (1 + u) * x.

Lemma add_spans a b : valid a -> valid b -> 0 <= FR a + FR b < 8388608 * vast -> spans (nadd a b) (FR a + FR b).
Proof.
  intros A B L. pose proof top_vast as TV. destruct (add_near a b A B) as (V & N); [rewrite Rabs_right; lra|].
  split; [exact V|]. apply rel_span; [lra|exact N].
Qed.
Lemma sub_spans a b : valid a -> valid b -> 0 <= FR a - FR b < 8388608 * vast -> spans (nsub a b) (FR a - FR b).
Proof.
  intros A B L. pose proof top_vast as TV. destruct (sub_near a b A B) as (V & N); [rewrite Rabs_right; lra|].
  split; [exact V|]. apply rel_span; [lra|exact N].
Qed.
Lemma mul_spans a b : valid a -> valid b -> tiny <= FR a * FR b < 8388608 * vast -> spans (nmul a b) (FR a * FR b).
Proof.
  intros A B L. pose proof tiny_pos. pose proof top_vast as TV. destruct (mul_near a b A B) as (V & N); [rewrite Rabs_right; lra|].
  split; [exact V|]. apply rel_span; [lra|]. apply near_rel; [exact N|rewrite Rabs_right; lra].
Qed.
Lemma div_spans a b : valid a -> valid b -> FR b <> 0 -> tiny <= FR a / FR b < 8388608 * vast -> spans (ndiv a b) (FR a / FR b).
Proof.
  intros A B Z L. pose proof tiny_pos. pose proof top_vast as TV. destruct (div_near a b A B Z) as (V & N); [rewrite Rabs_right; lra|].
  split; [exact V|]. apply rel_span; [lra|]. apply near_rel; [exact N|rewrite Rabs_right; lra].
Qed.

(** ** The cross-section *)
(** the coordinates of a slope of height [H] and length [L] with the minimum sizes [MH], [ML],
    computed without rounding *)
Record section := MkSection { x_depth : R; x_width : R; x_top : R; x_bot : R; y_bot : R; x_grad : R }.
Definition exact_section (H L MH ML : R) : section :=
  let D := Rmax (Rmax (3 * H) MH) (5 / 2 * L) in
  let W := Rmax (Rmax (5 * L) ML) (4 * H) in
  MkSection D W ((W - L) / 2) ((W + L) / 2) (D - H) (H / L).
Definition step : R := p2 (-50).
Definition close_section (g : geom float) (e : section) : Prop :=
  Rabs (FR (g_ext_h g) - x_depth e) <= step * x_depth e /\
  Rabs (FR (g_ext_l g) - x_width e) <= step * x_width e /\
  Rabs (FR (fst (g_top g)) - x_top e) <= step * x_width e /\
  snd (g_top g) = g_ext_h g /\
  Rabs (FR (fst (g_bot g)) - x_bot e) <= step * x_width e /\
  Rabs (FR (snd (g_bot g)) - y_bot e) <= step * x_depth e /\
  Rabs (FR (g_gradient g) - x_grad e) <= step * x_grad e.
Definition all_valid (g : geom float) : Prop :=
  valid (g_ext_h g) /\ valid (g_ext_l g) /\ valid (fst (g_top g)) /\ valid (fst (g_bot g)) /\
  valid (snd (g_bot g)) /\ valid (g_gradient g).

Lemma step_val : step = / 1125899906842624.
Proof. unfold step, p2. cbn [powerRZ]. f_equal. rewrite pow_IZR. reflexivity. Qed.

Lemma compute_geom_close h l mh ml : valid h -> valid l -> valid mh -> valid ml ->
  / 1000000 <= FR h <= vast -> / 2000 <= FR l <= vast -> 0 <= FR mh <= vast -> 0 <= FR ml <= vast ->
  exists g, compute_geom h l mh ml = Ok g /\ all_valid g /\
    close_section g (exact_section (FR h) (FR l) (FR mh) (FR ml)).
Proof.
  intros Vh Vl Vmh Vml. set (H := FR h). set (L := FR l). set (MH := FR mh). set (ML := FR ml).
  intros BH BL BMH BML. pose proof tiny_small as Ts. pose proof tiny_pos as Tp. pose proof vast_big as Vb.
  destruct (nz_FR 2 eq_refl) as (V2 & E2). destruct (nz_FR 3 eq_refl) as (V3 & E3).
  destruct (nz_FR 4 eq_refl) as (V4 & E4). destruct (nz_FR 5 eq_refl) as (V5 & E5).
  unfold compute_geom.
  (* the depth *)
  destruct (mul_spans (nz 3) h V3 Vh ltac:(rewrite E3; fold H; lra)) as (Va & Sa). rewrite E3 in Sa. fold H in Sa.
  destruct (mul_spans (nz 5) l V5 Vl ltac:(rewrite E5; fold L; lra)) as (Vc & Sc). rewrite E5 in Sc. fold L in Sc.
  set (c := nmul (nz 5) l) in *. set (a := nmul (nz 3) h) in *. rewrite u_val in *.
  destruct (div_spans c (nz 2) Vc V2 ltac:(rewrite E2; lra) ltac:(rewrite E2; lra)) as (Vd & Sd).
  rewrite E2 in Sd. rewrite u_val in Sd. set (d := ndiv c (nz 2)) in *.
  destruct (pymax_FR a mh Va Vmh) as (Vp & Ep). set (p := pymax a mh) in *.
  destruct (pymax_FR p d Vp Vd) as (Vth & Eth). set (th := pymax p d) in *.
  set (D := Rmax (Rmax (3 * H) MH) (5 / 2 * L)).
  assert (DB : 3 * H <= D /\ MH <= D /\ 5 / 2 * L <= D /\ D <= 3 * vast).
  { unfold D. repeat split.
    - eapply Rle_trans; [|apply Rmax_l]. apply Rmax_l.
    - eapply Rle_trans; [|apply Rmax_l]. apply Rmax_r.
    - apply Rmax_r.
    - repeat apply Rmax_lub; lra. }
  assert (TH : (1 - / 4000000000000000) * D <= FR th <= (1 + / 4000000000000000) * D).
  { rewrite Eth, Ep. fold MH. split.
    - unfold D. rewrite <- RmaxRmult by lra. apply Rmax_lub.
      + rewrite <- RmaxRmult by lra. apply Rmax_lub.
        * eapply Rle_trans; [|apply Rmax_l]. eapply Rle_trans; [|apply Rmax_l]. lra.
        * eapply Rle_trans; [|apply Rmax_l]. eapply Rle_trans; [|apply Rmax_r]. lra.
      + eapply Rle_trans; [|apply Rmax_r]. lra.
    - repeat apply Rmax_lub; lra. }
  (* the width *)
  destruct (mul_spans (nz 4) h V4 Vh ltac:(rewrite E4; fold H; lra)) as (Vf & Sf). rewrite E4, u_val in Sf. fold H in Sf.
  set (f := nmul (nz 4) h) in *.
  destruct (pymax_FR c ml Vc Vml) as (Vq & Eq). set (q := pymax c ml) in *.
  destruct (pymax_FR q f Vq Vf) as (Vtl & Etl). set (tl := pymax q f) in *.
  set (W := Rmax (Rmax (5 * L) ML) (4 * H)).
  assert (WB : 5 * L <= W /\ ML <= W /\ 4 * H <= W /\ W <= 5 * vast).
  { unfold W. repeat split.
    - eapply Rle_trans; [|apply Rmax_l]. apply Rmax_l.
    - eapply Rle_trans; [|apply Rmax_l]. apply Rmax_r.
    - apply Rmax_r.
    - repeat apply Rmax_lub; lra. }
  assert (TL : (1 - / 9007199254740992) * W <= FR tl <= (1 + / 9007199254740992) * W).
  { rewrite Etl, Eq. fold ML. split.
    - unfold W. rewrite <- RmaxRmult by lra. apply Rmax_lub.
      + rewrite <- RmaxRmult by lra. apply Rmax_lub.
        * eapply Rle_trans; [|apply Rmax_l]. eapply Rle_trans; [|apply Rmax_l]. lra.
        * eapply Rle_trans; [|apply Rmax_l]. eapply Rle_trans; [|apply Rmax_r]. lra.
      + eapply Rle_trans; [|apply Rmax_r]. lra.
    - repeat apply Rmax_lub; lra. }
  (* the crest, the toe and the gradient *)
  destruct (sub_spans tl l Vtl Vl ltac:(fold L; lra)) as (Vg & Sg). fold L in Sg. rewrite u_val in Sg.
  set (g := nsub tl l) in *.
  destruct (div_spans g (nz 2) Vg V2 ltac:(rewrite E2; lra) ltac:(rewrite E2; lra)) as (Vx & Sx).
  rewrite E2, u_val in Sx. set (dx := ndiv g (nz 2)) in *.
  destruct (add_spans dx l Vx Vl ltac:(fold L; lra)) as (Vb' & Sb'). fold L in Sb'. rewrite u_val in Sb'.
  destruct (sub_spans th h Vth Vh ltac:(fold H; lra)) as (Vy & Sy). fold H in Sy. rewrite u_val in Sy.
  assert (QB : tiny <= H / L < 8388608 * vast).
  { pose proof tiny_vast as TV. assert (VV : vast * / vast = 1) by (apply Rinv_r; lra).
    assert (IP : 0 < / vast) by (apply Rinv_0_lt_compat; lra). split.
    - apply Rmult_le_reg_r with L; [lra|]. unfold Rdiv. rewrite Rmult_assoc, Rinv_l, Rmult_1_r by lra.
      apply Rle_trans with (tiny * vast); [apply Rmult_le_compat_l; lra|].
      assert (1000000 * tiny * vast <= / vast * vast) by (apply Rmult_le_compat_r; lra). lra.
    - apply Rmult_lt_reg_r with L; [lra|]. unfold Rdiv. rewrite Rmult_assoc, Rinv_l, Rmult_1_r by lra.
      assert (vast * / 2000 <= vast * L) by (apply Rmult_le_compat_l; lra). lra. }
  destruct (div_spans h l Vh Vl ltac:(fold L; lra) QB) as (Vq' & Sq'). fold H L in Sq'. rewrite u_val in Sq'.
  unfold pydiv. cbn [neqb FNum]. destruct (nz_FR 0 eq_refl) as (V0 & E0).
  rewrite eqb_FR, E0 by assumption. fold L. unfold Reqb. destruct (Req_EM_T L 0) as [Q|_]; [lra|]. cbn [rbind].
  eexists. split; [reflexivity|]. split; [repeat split; try apply Vth; try apply Vtl; try apply Vx; try apply Vb'; try apply Vy; try apply Vq'|].
  unfold close_section, exact_section. cbn [g_ext_h g_ext_l g_top g_bot g_gradient fst snd x_depth x_width x_top x_bot y_bot x_grad].
  fold D W. rewrite step_val. assert (0 <= H / L) by lra.
  split; [apply Rabs_le; lra|]. split; [apply Rabs_le; lra|]. split; [apply Rabs_le; lra|]. split; [reflexivity|].
  split; [apply Rabs_le; lra|]. split; [apply Rabs_le; lra|]. apply Rabs_le; lra.
Qed.

Lemma boundary_geom {EN : Env} h a l (s s' : st float) : set_external_boundary h a l s = (Ok tt, s') ->
  exists hh ll, compute_geom hh ll (s_min_ext_h (snd s)) (s_min_ext_l (snd s)) = Ok (s_geom (snd s')) /\
    g_height (s_geom (snd s')) = hh /\ g_length (s_geom (snd s')) = ll.
Proof.
  unfold set_external_boundary. msteps.
  destruct (boundary_inputs h a l) as [hl|e]; [|discriminate]. msteps.
  destruct (compute_geom _ _ _ _) as [g|e] eqn:E; [|discriminate]. msteps. intros Q.
  assert (K : keeps (same shape_of) (update_udl_coordinates ;;; update_ll_coordinates ;;;
                remove_analysis_limits ;;; reset_results)).
  { unfold update_udl_coordinates, update_ll_coordinates. untouched. }
  apply (keeps_ok _ _ _ _ _ K) in Q. exists (fst hl), (snd hl). pose proof E as E'.
  unfold compute_geom, pydiv in E'. destruct (neqb (snd hl) (nz 0)); [discriminate|]. injection E' as <-.
  assert (G : s_geom (snd s') = MkGeom (fst hl) (snd hl) _ _ _ _ _) by exact Q. rewrite G.
  repeat split; try reflexivity. exact E.
Qed.
Lemma boundary_close {EN : Env} h a l (s s' : st float) : set_external_boundary h a l s = (Ok tt, s') ->
  let g := s_geom (snd s') in
  valid (g_height g) -> valid (g_length g) -> valid (s_min_ext_h (snd s)) -> valid (s_min_ext_l (snd s)) ->
  / 1000000 <= FR (g_height g) <= vast -> / 2000 <= FR (g_length g) <= vast ->
  0 <= FR (s_min_ext_h (snd s)) <= vast -> 0 <= FR (s_min_ext_l (snd s)) <= vast ->
  all_valid g /\ close_section g (exact_section (FR (g_height g)) (FR (g_length g)) (FR (s_min_ext_h (snd s))) (FR (s_min_ext_l (snd s)))).
Proof.
  intros Q g V1 V2 V3 V4 B1 B2 B3 B4. destruct (boundary_geom _ _ _ _ _ Q) as (hh & ll & E & <- & <-).
  destruct (compute_geom_close _ _ _ _ V1 V2 V3 V4 B1 B2 B3 B4) as (g' & E' & A).
  unfold g in *. rewrite E in E'. injection E' as <-. exact A.
Qed.

(** ** The elevation of a layer and of the ground *)
Lemma level_near e d : valid e -> valid d -> 0 <= FR e <= vast -> 0 <= FR d <= vast ->
  valid (nsub e d) /\ Rabs (FR (nsub e d) - (FR e - FR d)) <= u * Rabs (FR e - FR d).
Proof.
  intros V W B C. pose proof top_vast. pose proof vast_big. apply sub_near; auto. apply Rabs_def1; lra.
Qed.
Lemma ground_near x g : valid x -> valid (fst (g_top g)) -> valid (snd (g_top g)) -> valid (g_gradient g) ->
  0 <= FR (fst (g_top g)) < FR x -> FR x <= vast -> / 2000 <= FR (snd (g_top g)) <= vast -> 0 <= FR (g_gradient g) ->
  (FR x - FR (fst (g_top g))) * FR (g_gradient g) <= vast ->
  let y := nsub (snd (g_top g)) (nmul (nsub x (fst (g_top g))) (g_gradient g)) in
  let drop := (FR x - FR (fst (g_top g))) * FR (g_gradient g) in
  valid y /\ Rabs (FR y - (FR (snd (g_top g)) - drop)) <= step * (FR (snd (g_top g)) + drop).
Proof.
  set (tx := fst (g_top g)). set (ty := snd (g_top g)). set (k := g_gradient g).
  intros Vx Vtx Vty Vk B1 B2 B3 B4 B5 y drop. pose proof top_vast as TV. pose proof vast_big as VB.
  destruct (sub_spans x tx Vx Vtx ltac:(lra)) as (Vd & Sd). unfold y. set (d := nsub x tx) in *.
  assert (D0 : 0 <= drop) by (apply Rmult_le_pos; lra).
  assert (Pd : (1 - u) * drop <= FR d * FR k <= (1 + u) * drop).
  { unfold drop. rewrite <- !Rmult_assoc. split; apply Rmult_le_compat_r; lra. }
  rewrite u_val in *.
  destruct (mul_near d k Vd Vk) as (Vm & Nm).
  { rewrite Rabs_right; [|apply Rle_ge]; unfold drop in *; lra. }
  set (m := SFmul prec emax d k) in *. change (nmul d k) with m.
  assert (Nm' : Rabs (FR m - FR d * FR k) <= / 9007199254740992 * (FR d * FR k) + / 9007199254740992 * / 1000000).
  { apply Rle_trans with (1 := Nm). rewrite (Rabs_right (FR d * FR k)) by (apply Rle_ge; unfold drop in *; lra). rewrite u_val.
    pose proof eta_tiny as ET. rewrite u_val in ET. pose proof tiny_small. apply Rmax_lub; unfold drop in *; lra. }
  apply abs_span in Nm'.
  destruct (sub_near ty m Vty Vm) as (Vy & Ny).
  { apply Rabs_def1; unfold drop in *; lra. }
  split; [exact Vy|]. cbn [nsub FNum]. set (r := FR (SFsub prec emax ty m)) in *.
  rewrite u_val in Ny. rewrite step_val.
  assert (AB : Rabs (FR ty - FR m) <= FR ty + (1 + / 1000000000000000) * drop + / 9007199254740992 * / 1000000).
  { apply Rabs_le. unfold drop in *. lra. }
  assert (Ny' : Rabs (r - (FR ty - FR m)) <= / 9007199254740992 * (FR ty + (1 + / 1000000000000000) * drop + / 9007199254740992 * / 1000000)) by lra.
  apply abs_span in Ny'. apply Rabs_le. unfold drop in *. lra.
Qed.
