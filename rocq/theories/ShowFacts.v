(** * ShowFacts: what a drawn figure shows (C59, C61-C63). *)
From Coq Require Import ZArith Reals Lra Lia List Bool String Permutation Sorted.
From Verif Require Import Num Py Validation Utilities Objects Slope Planes Analysis
     Dynamic Api RealNum RealFacts ListFacts MonadFacts SlopeFacts MaterialFacts KeepFacts
     Invariant History Spec EditFacts GroundFacts LayerFacts LoadFacts OptionFacts SearchFacts
     CircleFacts PlaneFacts SoilFacts MatInv GrowFacts Plot PlotFacts LayerArea FigureFacts.
Import ListNotations.
Local Open Scope R_scope.

(** ** Lines through points *)
Definition on_segment (a b p : R * R) : Prop :=
  exists t, 0 <= t <= 1 /\ p = (fst a + t * (fst b - fst a), snd a + t * (snd b - snd a)).
Fixpoint on_path (l : list (R * R)) (p : R * R) : Prop :=
  match l with
  | a :: l' => match l' with b :: _ => on_segment a b p \/ on_path l' p | [] => False end
  | [] => False
  end.

Lemma seg_iff a b c d m x v :
  a <= c -> d - b = m * (c - a) ->
  (on_segment (a, b) (c, d) (x, v) <-> a <= x <= c /\ v = b + m * (x - a)).
Proof.
  intros L E. unfold on_segment. cbn [fst snd]. split.
  - intros (t & T & Q). injection Q as -> ->. rewrite E. split; [ split; nra | ring ].
  - intros (X & ->). destruct (Rle_lt_or_eq_dec a c L) as [L' | ->].
    + exists ((x - a) / (c - a)).
      assert (D : (x - a) / (c - a) * (c - a) = x - a) by (field; lra).
      set (t := (x - a) / (c - a)) in *. split; [ split; nra |].
      rewrite E. f_equal; [ lra |]. rewrite <- D. ring.
    + exists 0. split; [ lra |]. f_equal; [ lra |]. replace x with c by lra. ring.
Qed.

Section Line.
  Context (h l mh ml : R) (g : geom R).
  Context (Hh : 0 < h) (Hl : 1 / 1000 <= l) (CS : cross_section h l mh ml g).
  Let F := section_facts _ _ _ _ _ (Rlt_le _ _ Hh) Hl CS.

  Lemma surface_left x : x <= fst (g_top g) -> surface g x = snd (g_top g).
  Proof.
    intros X. pose proof F as (_ & _ & _ & A & _). unfold surface, clamp.
    rewrite Rmin_right, Rmax_left by lra. ring.
  Qed.
  Lemma surface_face x : fst (g_top g) <= x <= fst (g_bot g) ->
    surface g x = snd (g_top g) - (x - fst (g_top g)) * g_gradient g.
  Proof. intros X. unfold surface, clamp. rewrite Rmin_right, Rmax_right by lra. ring. Qed.
  Lemma surface_right x : fst (g_bot g) <= x -> surface g x = snd (g_bot g).
  Proof.
    intros X. pose proof F as (A1 & A2 & _ & A & _). unfold surface, clamp.
    rewrite Rmin_left by lra. rewrite Rmax_right by lra. rewrite A1, A2.
    pose proof (grad_eq _ _ _ _ _ Hh Hl CS). lra.
  Qed.

  (** The water line follows the level, then the ground below it. *)
  Lemma water_path y pts : y <= snd (g_top g) -> water_line g y pts ->
    forall x v, on_path pts (x, v) <-> 0 <= x <= g_ext_l g /\ v = Rmin y (surface g x).
  Proof.
    intros Y (xr & EX & ->) x v.
    rewrite (external_x_reach _ _ _ _ _ Hh Hl CS) in EX by exact Y. injection EX as <-.
    pose proof F as (A1 & A2 & A3 & A4 & A5 & A6 & A7 & _).
    pose proof (grad_pos _ _ _ _ _ Hh Hl CS) as G.
    pose proof (surface_range _ _ _ _ _ Hh Hl CS x) as SR.
    assert (B : snd (g_bot g) < snd (g_top g)) by (destruct CS; lra).
    destruct (Rlt_dec y (snd (g_bot g))) as [L | L].
    - assert (RX : reach_x g y = g_ext_l g)
        by (unfold reach_x; destruct (Rlt_dec _ _); [ reflexivity | contradiction ]).
      rewrite RX. rewrite (proj2 (Rleb_false _ _)) by lra. cbn [app on_path].
      rewrite (seg_iff 0 y (g_ext_l g) y 0) by lra.
      rewrite Rmin_left by lra. split.
      + intros [ (X & ->) | [] ]. split; lra.
      + intros (X & ->). left. split; lra.
    - destruct (reach_face _ _ _ _ _ Hh Hl CS y ltac:(lra)) as (B1 & B2).
      set (xr := reach_x g y) in *.
      rewrite (proj2 (Rleb_true _ _)) by lra. cbn [app on_path].
      rewrite (surjective_pairing (g_bot g)).
      rewrite (seg_iff 0 y xr y 0) by lra.
      rewrite (seg_iff xr y (fst (g_bot g)) (snd (g_bot g)) (- g_gradient g)); [| lra |].
      2: { pose proof (surface_face (fst (g_bot g)) ltac:(lra)) as Q.
           rewrite surface_right in Q by lra. nra. }
      cbn [fst snd].
      rewrite (seg_iff (fst (g_bot g)) (snd (g_bot g)) (g_ext_l g) (snd (g_bot g)) 0) by lra.
      assert (D : x <= xr -> Rmin y (surface g x) = y).
      { intros X. apply Rmin_left. destruct (Rle_dec x (fst (g_top g))).
        - rewrite surface_left; lra.
        - rewrite surface_face by lra. nra. }
      assert (D1 : xr <= x <= fst (g_bot g) -> Rmin y (surface g x) = y - g_gradient g * (x - xr)).
      { intros X. rewrite surface_face by lra. rewrite Rmin_right by nra. nra. }
      assert (D2 : fst (g_bot g) <= x -> Rmin y (surface g x) = snd (g_bot g)).
      { intros X. rewrite surface_right by lra. apply Rmin_right. lra. }
      split.
      + intros [ (X & ->) | [ (X & ->) | [ (X & ->) | [] ] ] ].
        * rewrite D by lra. split; lra.
        * rewrite D1 by lra. split; lra.
        * rewrite D2 by lra. split; lra.
      + intros (X & ->). destruct (Rle_dec x xr); [| destruct (Rle_dec x (fst (g_bot g))) ].
        * left. rewrite D by lra. split; lra.
        * right; left. rewrite D1 by lra. split; lra.
        * right; right; left. rewrite D2 by lra. split; lra.
  Qed.
End Line.

Section Shown.
  Context {EN : Env}.
  Notation stR := (st R).

  Lemma sub_last {A} (l : list A) a : In a (removelast l) -> In a l.
  Proof.
    induction l as [|b l IH]; [ auto |]. destruct l as [|c l]; [ intros [] |].
    cbn [removelast In] in *. intros [ <- | Q ]; auto.
  Qed.

  (** C59: the layers of a drawn figure fill the section. *)
  Lemma layers_drawn (s : stR) prec table fig :
    reachable s -> 0 < g_height (s_geom (snd s)) -> mats_of s <> [] ->
    plot_boundary prec table s = Ok fig ->
    let g := s_geom (snd s) in
    map fst (layers_in fig) = mats_of s /\
    (exists levels, Forall2 (fun m y => m_RL m = Some y) (mats_of s) levels /\
       levels_ok (snd (g_top g)) levels /\
       Forall2 (fun o b =>
         exists (pu : Riemann_integrable (fun x => Rmin (fst b) (surface g x)) 0 (g_ext_l g))
                (pl : Riemann_integrable (fun x => Rmin (snd b) (surface g x)) 0 (g_ext_l g)),
           polygon_area (snd o) = RiemannInt pu - RiemannInt pl)
         (layers_in fig) (bands (snd (g_top g)) levels)) /\
    (exists pr : Riemann_integrable (surface g) 0 (g_ext_l g),
       rsum (map (fun o => polygon_area (snd o)) (layers_in fig)) = RiemannInt pr) /\
    (forall o p, In o (layers_in fig) -> In p (snd o) -> in_section g p).
  Proof.
    intros Hr Hp NE E g.
    destruct (reachable_section EN s Hr) as (h & l & mh & Hh & Hl & _ & CS).
    assert (Hh' : 0 < h) by (destruct CS; lra).
    pose proof (section_facts _ _ _ _ _ Hh Hl CS) as (_ & _ & _ & _ & _ & _ & A7 & _).
    fold g in CS, A7.
    destruct (figure_shows s prec table fig Hr NE E) as ((ms & E1 & E2 & (H0 & E3 & B3) & EO) & _).
    fold g in EO.
    destruct (proj1 (plot_iff s prec table Hr) (ex_intro _ fig E)) as [Q | (DL & _)];
      [ contradiction |].
    assert (LO : levels_ok (snd (g_top g)) (map fst ms)).
    { rewrite E3. split.
      - destruct (layers_sorted s Hr) as (SS & _).
        apply (strong_map (fun a b => m_depth a < m_depth b)); [| exact SS ].
        intros a b _ _ Q. lra.
      - intros y I. rewrite removelast_map in I. apply in_map_iff in I as (m & <- & I).
        pose proof (B3 m (sub_last _ _ I)). destruct (DL m I) as (y & Ey & Ly).
        fold g in Ly. rewrite A7. split; [ lra |].
        assert (J : In m (map snd ms)) by (rewrite E1; now apply sub_last).
        destruct (levels_of s Hr) as (H1 & _ & _ & LV).
        destruct (LV m (sub_last _ _ I)) as [EL _].
        apply in_map_iff in J as ([y' m'] & Em & J). cbn in Em. subst m'.
        pose proof (E2 _ _ J) as Q1.
        assert (Q2 : y' = H0 - m_depth m).
        { clear - E1 E3 J. rewrite <- E1 in E3. clear E1.
          induction ms as [|[a b] k IH]; [ destruct J |].
          cbn [map fst snd] in E3. injection E3 as Qa Qb.
          destruct J as [ Q | Q ]; [| auto ]. injection Q as -> ->. exact Qa. }
        subst y'. rewrite Q1 in Ey. injection Ey as <-. exact Ly. }
    destruct (layers_tile h l mh (s_min_ext_l (snd s)) g Hh' Hl CS ms) as
      (out & EO' & EM & AR & TOT & INS).
    { intros ->. apply NE. now rewrite <- E1. }
    { exact LO. }
    rewrite EO in EO'. injection EO' as <-.
    split; [ transitivity (map snd ms); assumption |]. split; [| split; assumption ].
    exists (map fst ms). split; [| split; assumption ].
    rewrite <- E1. clear - E2. induction ms as [|[y m] ms IH]; [ constructor |].
    cbn [map fst snd]. constructor; [ apply E2; now left | apply IH; intros; apply E2; now right ].
  Qed.

  (** The marks of the limits stand on the ground. *)
  Definition ground_marks (g : geom R) (lim : limits R) : list (string * (R * option R)) :=
    let at_ x := (x, Some (surface g x)) in
    let inner := if Req_EM_T (lim_left_r lim) (lim_right_l lim) then [] else [tt] in
    let right := at_ (lim_left lim) :: map (fun _ => at_ (lim_right_l lim)) inner in
    let left := at_ (lim_right lim) :: map (fun _ => at_ (lim_left_r lim)) inner in
    map (fun p => (">"%string, p)) right ++ map (fun p => ("<"%string, p)) left
    ++ map (fun p => ("|"%string, p)) (left ++ right).
  Lemma marks_on_ground (s : stR) : reachable s ->
    limit_marks (s_geom (snd s)) (s_limits (snd s))
    = ground_marks (s_geom (snd s)) (s_limits (snd s)).
  Proof.
    intros Hr. destruct (reachable_section EN s Hr) as (h & l & mh & Hh & Hl & _ & CS).
    destruct (reachable_inv s Hr) as (C & _ & _).
    pose proof (c_lim _ C) as (L1 & L2 & L3 & L4 & L5 & L6).
    pose proof (section_facts _ _ _ _ _ Hh Hl CS) as (_ & _ & _ & A4 & A5 & _).
    set (g := s_geom (snd s)) in *. set (lim := s_limits (snd s)) in *.
    assert (ON : forall x, 0 <= x <= g_ext_l g -> external_y g x = Some (surface g x)).
    { intros x X. destruct (proj2 (y_defined _ _ _ _ _ x Hh Hl CS) X) as (y & E).
      rewrite E. f_equal. exact (y_value _ _ _ _ _ _ _ Hh Hl CS E). }
    unfold limit_marks, ground_marks. cbv zeta.
    rewrite !ON by lra.
    destruct (Reqb _ _) eqn:E; rbool; destruct (Req_EM_T _ _); try contradiction; reflexivity.
  Qed.

  (** ** The lines of the circles *)
  Lemma dict_get_neg k : (k < 0)%Z -> assoc_get (tenth k) COLOUR_FOS_DICT = Err KeyError.
  Proof.
    intros K. rewrite dict_up.
    rewrite (up_get tenth tenth_inj).
    assert (P : Forall (fun kv => (0 <= fst kv)%Z) zdict).
    { apply Forall_forall. intros kv I.
      assert (B : forallb (fun kv => (0 <=? fst kv)%Z) zdict = true) by (vm_compute; reflexivity).
      rewrite forallb_forall in B. specialize (B kv I). now apply Z.leb_le in B. }
    induction P as [|[k' v] d Q P IH]; [ reflexivity |]. cbn [zget fst] in *.
    destruct (Z.eqb_spec k' k); [ lia | exact IH ].
  Qed.
  (** The colour of a factor is found exactly when it rounds to 0 or more. *)
  Lemma hue_found f c :
    fos_hue f = Ok c <-> (0 <= fos_key f)%Z /\ c = hue_at (fos_key f).
  Proof.
    unfold fos_hue. rewrite max_key. unR. rewrite round1.
    assert (M : Rmin (tenth (Rnear (f * 10))) (tenth 50) = tenth (fos_key f)).
    { unfold tenth, fos_key.
      destruct (Z.min_spec (Rnear (f * 10)) 50) as [ [L ->] | [L ->] ].
      - apply Rmin_left. apply IZR_lt in L. lra.
      - apply Rmin_right. apply IZR_le in L. lra. }
    rewrite M. destruct (Z_lt_le_dec (fos_key f) 0) as [N | N].
    - rewrite dict_get_neg by exact N. split; [ discriminate | lia ].
    - rewrite dict_get by (unfold fos_key in *; lia). split.
      + intros Q; injection Q as <-. auto.
      + intros (_ & ->). reflexivity.
  Qed.

  Definition line_of (p : plane R) (f : R) : R * hue * list (R * R) :=
    (Rround 3 f, hue_at (fos_key f),
     p_l p :: arc_points (p_cx p) (p_cy p) (p_radius p) (p_l p) (p_r p) ++ [p_r p]).
  (** the outline of the critical circle *)
  Definition sector_of (p : plane R) (f : R) (t : R * hue * list (R * R)) : Prop :=
    let c := (Rround 3 (p_cx p), Rround 3 (p_cy p)) in
    exists q arc,
      arc_points (fst c) (snd c) (Rround 3 (p_radius p)) (p_l p) (p_r p) = q :: arc /\
      t = (Rround 3 f, hue_at (fos_key (Rround 3 f)), (q :: arc) ++ [p_r p; c; p_l p; q]).

  Lemma boundary_no_planes (s : stR) prec table fig :
    plot_boundary prec table s = Ok fig -> planes_in fig = [].
  Proof.
    unfold plot_boundary. destruct (s_materials (snd s)) as [|n0 ns].
    { intros E; injection E as <-. reflexivity. }
    destruct (rmapM _ _) as [ms|]; cbn [rbind]; [| discriminate ].
    set (g := s_geom (snd s)).
    destruct (layer_outlines g ms) as [outs|]; cbn [rbind]; [| discriminate ].
    set (fig0 := fold_left _ outs _). set (fig1 := if table then _ else _).
    assert (T1 : f_traces fig1 = TrBoundary (external_boundary g)
                   :: map (fun o => TrLayer (fst o) (snd o)) outs).
    { assert (Q : f_traces fig1 = f_traces fig0)
        by (unfold fig1; destruct table; [ apply table_parts | reflexivity ]).
      rewrite Q. unfold fig0. rewrite layers_traces. reflexivity. }
    clearbody fig1. clear fig0. intros E.
    destruct (fold_res (plot_udl _ _ _) _ fig1) as [fig2|] eqn:E2; cbn [rbind] in E;
      [| discriminate ].
    destruct (fold_res (plot_ll _ _) _ fig2) as [fig3|] eqn:E3; cbn [rbind] in E;
      [| discriminate ].
    apply fold_traces in E2; [| intros; eapply udl_traces; eassumption ].
    apply fold_traces in E3; [| intros; eapply ll_traces; eassumption ].
    rewrite E2, T1 in E3.
    assert (P3 : planes_in fig3 = []).
    { unfold planes_in. rewrite E3. cbn [flat_map app]. clear.
      induction outs as [|o outs IH]; [ reflexivity | exact IH ]. }
    destruct (s_water_RL (snd s)) as [y|]; [ destruct (negb _) | ].
    - unfold plot_water in E. destruct (external_x g y) as [ [x|] |]; cbn [rbind] in E; try discriminate.
      injection E as <-. unfold planes_in in *. cbn [plot_limits add_notes add_trace f_traces].
      rewrite flat_map_app, P3. reflexivity.
    - cbn [rbind] in E. injection E as <-. exact P3.
    - cbn [rbind] in E. injection E as <-. exact P3.
  Qed.

  Lemma critical_drawn (s : stR) prec table fig :
    plot_critical prec table s = Ok fig ->
    exists p rest f t, s_search (snd s) = p :: rest /\ p_fos p = Some (Some f) /\
      planes_in fig = [t] /\ sector_of p f t.
  Proof.
    unfold plot_critical. destruct (plot_boundary prec table s) as [fig0|] eqn:E0; cbn [rbind];
      [| discriminate ].
    apply boundary_no_planes in E0.
    destruct (s_search (snd s)) as [|p rest]; [ discriminate |].
    unfold plot_failure_plane, fos_of. destruct (p_fos p) as [ [f|] |] eqn:EF; cbn [rbind];
      try discriminate.
    cbn [nround RNum].
    destruct (plane_hue (Rround 3 f)) as [col|] eqn:EC; cbn [rbind]; [| discriminate ].
    destruct (arc_points _ _ _ _ _) as [|q arc] eqn:EA; [ discriminate |].
    destruct (fos_hue (Rround 3 f)) as [col'|] eqn:EC'; cbn [rbind]; [| discriminate ].
    intros Q; injection Q as <-.
    apply hue_found in EC' as (K & ->).
    assert (col = hue_at (fos_key (Rround 3 f))).
    { unfold plane_hue in EC. unR.
      destruct (Rltb 5 (Rround 3 f)) eqn:L; rbool.
      - replace 5 with (tenth 50) in EC by (unfold tenth; lra). rewrite dict_get in EC by lia.
        injection EC as <-. f_equal. unfold fos_key. symmetry. apply Z.min_r.
        rewrite <- (near_int 50). apply near_mono. lra.
      - rewrite round1 in EC.
        assert (B : (Rnear (Rround 3 f * 10) <= 50)%Z).
        { rewrite <- (near_int 50). apply near_mono. lra. }
        unfold fos_key in *. rewrite Z.min_l in * by lia.
        rewrite dict_get in EC by lia. now injection EC as <-. }
    subst col. exists p, rest, f. eexists. split; [ reflexivity |]. split; [ exact EF |].
    split.
    - unfold planes_in in *. cbn [add_trace f_traces]. rewrite !flat_map_app, E0. reflexivity.
    - exists q, arc. split; [ exact EA | reflexivity ].
  Qed.

  Definition shown_below (mf : option R) (p : plane R) : bool :=
    match p_fos p with
    | Some (Some f) => match mf with None => true | Some m => if Rlt_dec f m then true else false end
    | _ => false
    end.
  Definition line_of' (p : plane R) : R * hue * list (R * R) :=
    line_of p (match p_fos p with Some (Some f) => f | _ => 0 end).
  Lemma traces_lines mf ps : forall ts,
    rmapM (plane_trace mf) ps = Ok ts ->
    flat_map (fun t => match t with TrPlane x c p => [(x, c, p)] | _ => [] end)
             (flat_map (fun o => match o with Some t => [t] | None => [] end) ts)
    = map line_of' (filter (shown_below mf) ps) /\
    Forall (fun p => exists f, p_fos p = Some (Some f)) ps.
  Proof.
    induction ps as [|p ps IH]; cbn [rmapM]; intros ts E.
    { injection E as <-. split; [ reflexivity | constructor ]. }
    destruct (plane_trace mf p) as [o|] eqn:EP; cbn [rbind] in E; [| discriminate ].
    destruct (rmapM _ ps) as [os|]; cbn [rbind] in E; [| discriminate ].
    injection E as <-. destruct (IH os eq_refl) as (A & B).
    unfold plane_trace, fos_of in EP. cbn [filter].
    destruct (p_fos p) as [ [f|] |] eqn:EF; cbn [rbind] in EP; try discriminate.
    split; [| constructor; eauto ].
    assert (SB : shown_below mf p = match mf with None => true | Some m => nltb f m end).
    { unfold shown_below. rewrite EF. destruct mf as [m|]; [| reflexivity ].
      cbn [nltb RNum]. destruct (Rlt_dec f m); symmetry; [ now apply Rltb_true | ].
      apply Rltb_false. lra. }
    rewrite SB. destruct (match mf with None => true | Some m => nltb f m end).
    - destruct (fos_hue f) as [c|] eqn:EC; cbn [rbind] in EP; [| discriminate ].
      injection EP as <-. apply hue_found in EC as (_ & ->).
      cbn [flat_map app map]. f_equal; [| exact A ].
      unfold line_of', line_of. rewrite EF. reflexivity.
    - injection EP as <-. exact A.
  Qed.
  Lemma all_planes_drawn (s : stR) prec mf table fig :
    plot_all_planes prec mf table s = Ok fig ->
    exists p rest f t, s_search (snd s) = p :: rest /\ p_fos p = Some (Some f) /\
      sector_of p f t /\
      Forall (fun p => exists f, p_fos p = Some (Some f)) (s_search (snd s)) /\
      planes_in fig = t :: rev (map line_of' (filter (shown_below mf) (s_search (snd s)))).
  Proof.
    unfold plot_all_planes.
    destruct (plot_critical prec table s) as [fig0|] eqn:E0; cbn [rbind]; [| discriminate ].
    destruct (rmapM _ _) as [ts|] eqn:ET; cbn [rbind]; [| discriminate ].
    intros Q; injection Q as <-.
    destruct (critical_drawn _ _ _ _ E0) as (p & rest & f & t & A1 & A2 & A3 & A4).
    destruct (traces_lines _ _ _ ET) as (B1 & B2).
    exists p, rest, f, t. do 4 (split; [ assumption |]).
    unfold planes_in in *. cbn [f_traces]. rewrite flat_map_app, A3. cbn [app]. f_equal.
    rewrite <- B1. clear. induction (flat_map _ ts) as [|x l IH]; [ reflexivity |].
    cbn [rev]. rewrite flat_map_app, IH. cbn [flat_map].
    destruct x; cbn [app rev]; rewrite ?app_nil_r; reflexivity.
  Qed.

  (** ** The material table *)
  Definition more (a b : figure R) : Prop :=
    incl (f_notes a) (f_notes b) /\ incl (f_shapes a) (f_shapes b).
  Lemma more_refl a : more a a.
  Proof. split; apply incl_refl. Qed.
  Lemma more_trans a b c : more a b -> more b c -> more a c.
  Proof. intros (A & B) (C & D). split; eapply incl_tran; eauto. Qed.
  Lemma more_notes l (a : figure R) : more a (add_notes l a).
  Proof. split; [ apply incl_appl |]; apply incl_refl. Qed.
  Lemma more_shapes l (a : figure R) : more a (add_shapes l a).
  Proof. split; [| apply incl_appl ]; apply incl_refl. Qed.
  Lemma more_trace t (a : figure R) : more a (add_trace t a).
  Proof. split; apply incl_refl. Qed.
  Lemma more_arrow (a f : R) p c h l v fig : more fig (draw_arrow a f p c h l v fig).
  Proof.
    unfold draw_arrow.
    repeat match goal with |- context [if ?b then _ else _] => destruct b end;
      try apply more_refl; destruct v as [ [u n] |];
      eauto using more_trans, more_notes, more_shapes.
  Qed.
  Lemma more_fold {A} (f : A -> figure R -> res (figure R)) l : forall fig fig',
    (forall a x y, f a x = Ok y -> more x y) -> fold_res f l fig = Ok fig' -> more fig fig'.
  Proof.
    induction l as [|a l IH]; cbn [fold_res]; intros fig fig' P E.
    - injection E as <-. apply more_refl.
    - destruct (f a fig) as [x|] eqn:Q; cbn [rbind] in E; [| discriminate ].
      eapply more_trans; [ eapply P; exact Q | eapply IH; eauto ].
  Qed.

  (** height of the middle of row [i] in a table of [n] rows *)
  Definition row_y (n i : nat) : R := 1 / 10 + (INR n - INR i - 1 / 2) / 20.
  Definition row_shown (n i : nat) (m : material R) (fig : figure R) : Prop :=
    exists x0 x1 x2 x3 x4,
      1 / 10 = x0 /\ x0 < x1 < x2 /\ x2 < x3 < x4 /\ x4 < 1 / 2 /\
      In (NtName (x0, row_y n i) (m_name m)) (f_notes fig) /\
      In (ShBox x1 x2 (row_y n i - 1 / 40) (row_y n i + 1 / 40) (m_color m)) (f_shapes fig) /\
      In (NtNum (x2, row_y n i) (m_unit_weight m)) (f_notes fig) /\
      In (NtNum (x3, row_y n i) (m_cohesion m)) (f_notes fig) /\
      In (NtNum (x4, row_y n i) (m_friction_angle m)) (f_notes fig).
  Lemma row_more n i m a b : more a b -> row_shown n i m a -> row_shown n i m b.
  Proof.
    intros (N & S) (x0 & x1 & x2 & x3 & x4 & A).
    exists x0, x1, x2, x3, x4. intuition.
  Qed.
  Lemma columns_R : @column_x R RNum 0 = 1 / 10 /\
    @column_x R RNum 1 = 1 / 10 + 20 / 71 * (4 / 10) /\
    @column_x R RNum 2 = 1 / 10 + 32 / 71 * (4 / 10) /\
    @column_x R RNum 3 = 1 / 10 + 47 / 71 * (4 / 10) /\
    @column_x R RNum 4 = 1 / 10 + 59 / 71 * (4 / 10).
  Proof.
    unfold column_x, column_ends, table_x0, table_w. cbn [map nth].
    rewrite ?nlit_R, ?nz_R. cbn [nadd nmul ndiv RNum]. lra.
  Qed.
  Lemma rows_shown ms : forall (y : R) i m,
    nth_error ms i = Some m ->
    let y' := y - (INR i + 1) / 20 in
    In (NtName (column_x 0, y') (m_name m)) (snd (table_rows y ms)) /\
    In (ShBox (column_x 1) (column_x 2) (y' - 1 / 40) (y' + 1 / 40) (m_color m))
       (fst (table_rows y ms)) /\
    In (NtNum (column_x 2, y') (m_unit_weight m)) (snd (table_rows y ms)) /\
    In (NtNum (column_x 3, y') (m_cohesion m)) (snd (table_rows y ms)) /\
    In (NtNum (column_x 4, y') (m_friction_angle m)) (snd (table_rows y ms)).
  Proof.
    assert (RH : @row_h R RNum = 1 / 20) by (unfold row_h; rewrite nlit_R; lra).
    induction ms as [|m0 ms IH]; intros y [|i] m E; try discriminate; cbn [nth_error] in E.
    - injection E as ->. cbn [table_rows INR]. cbv zeta. unfold table_row. rewrite RH.
      cbn [nsub nadd ndiv RNum fst snd app]. rewrite nz_R.
      replace (y - (0 + 1) / 20) with (y - 1 / 20) by lra.
      replace (1 / 20 / 2) with (1 / 40) by lra. cbn [In]. auto 10.
    - specialize (IH (y - 1 / 20) i m E). cbv zeta in IH.
      rewrite S_INR. cbn [table_rows]. cbv zeta. rewrite RH. cbn [nsub RNum fst snd].
      replace (y - (INR i + 1 + 1) / 20) with (y - 1 / 20 - (INR i + 1) / 20) by lra.
      destruct IH as (A & B & C & D & F).
      repeat split; apply in_or_app; right; assumption.
  Qed.
  Lemma table_rows_shown ms fig i m :
    nth_error ms i = Some m -> row_shown (List.length ms) i m (plot_material_table ms fig).
  Proof.
    intros E. destruct columns_R as (C0 & C1 & C2 & C3 & C4).
    unfold plot_material_table. cbv zeta.
    set (y0 := nsub (table_top (List.length ms)) (ndiv row_h (nz 2))).
    assert (Y : y0 - (INR i + 1) / 20 = row_y (List.length ms) i).
    { unfold y0, table_top, row_h, table_y0, row_y. rewrite ?nlit_R, ?nz_R.
      cbn [nsub nadd nmul ndiv RNum]. rewrite plus_IZR, <- INR_IZR_INZ. lra. }
    destruct (rows_shown ms y0 i m E) as (A1 & A2 & A3 & A4 & A5). rewrite Y in *.
    exists (column_x 0), (column_x 1), (column_x 2), (column_x 3), (column_x 4).
    split; [ lra |]. split; [ lra |]. split; [ lra |]. split; [ lra |].
    cbn [add_notes add_shapes f_notes f_shapes].
    repeat split; repeat (apply in_or_app; right); assumption.
  Qed.
  Lemma table_drawn (s : stR) prec fig : reachable s -> mats_of s <> [] ->
    plot_boundary prec true s = Ok fig ->
    forall i m, nth_error (mats_of s) i = Some m ->
    row_shown (List.length (mats_of s)) i m fig.
  Proof.
    intros Hr NE E i m Q. unfold plot_boundary in E.
    destruct (s_materials (snd s)) as [|n0 ns] eqn:EM.
    { exfalso. apply NE. now apply mats_of_nil. }
    destruct (rmapM _ _) as [ms|]; cbn [rbind] in E; [| discriminate ].
    set (g := s_geom (snd s)) in *.
    destruct (layer_outlines g ms) as [outs|]; cbn [rbind] in E; [| discriminate ].
    set (fig0 := fold_left _ outs _) in E.
    pose proof (table_rows_shown (mats_of s) fig0 i m Q) as RS.
    set (fig1 := plot_material_table _ fig0) in *. clearbody fig1. clear fig0.
    destruct (fold_res (plot_udl _ _ _) _ fig1) as [fig2|] eqn:E2; cbn [rbind] in E;
      [| discriminate ].
    destruct (fold_res (plot_ll _ _) _ fig2) as [fig3|] eqn:E3; cbn [rbind] in E;
      [| discriminate ].
    apply more_fold in E2.
    2: { intros u x y. unfold plot_udl. destruct (attr (u_left u)); cbn [rbind]; [| discriminate ].
         destruct (attr (u_right u)); cbn [rbind]; [| discriminate ].
         destruct (over_max _ _); cbn [rbind]; [| discriminate ].
         intros K; injection K as <-.
         do 3 (eapply more_trans; [ apply more_arrow |]). apply more_shapes. }
    apply more_fold in E3.
    2: { intros u x y. unfold plot_ll. destruct (attr (l_coord u)); cbn [rbind]; [| discriminate ].
         intros K; injection K as <-.
         do 2 (eapply more_trans; [ apply more_arrow |]). apply more_refl. }
    eapply row_more; [| exact RS ]. eapply more_trans; [ exact E2 |].
    eapply more_trans; [ exact E3 |].
    destruct (s_water_RL (snd s)) as [y|]; [ destruct (negb _) | ].
    - unfold plot_water in E. destruct (external_x g y) as [ [x|] |]; cbn [rbind] in E; try discriminate.
      injection E as <-. unfold plot_limits. cbv zeta.
      eapply more_trans; [| apply more_notes ]. eapply more_trans; [| apply more_notes ].
      apply more_trace.
    - cbn [rbind] in E. injection E as <-. apply more_notes.
    - cbn [rbind] in E. injection E as <-. apply more_notes.
  Qed.
End Shown.
