(** * PictureFacts: when a figure can be drawn (C60 to C65). *)
From Coq Require Import Reals Lra Lia List Bool ZArith String Sorting.Sorted.
From Verif Require Import Num Py Validation Utilities Objects Slope Planes Analysis
     Dynamic Api RealNum RealFacts ListFacts MonadFacts SlopeFacts MaterialFacts KeepFacts
     Invariant History Spec EditFacts GroundFacts LayerFacts LoadFacts OptionFacts SearchFacts
     CircleFacts PlaneFacts SoilFacts MatInv GrowFacts Plot PlotFacts LayerArea FigureFacts
     DrawFacts ShowFacts FosFacts FosMore FosTotal Demo.
Import ListNotations.
Local Open Scope R_scope.

(** The point drawn for an angle of [2 k + 1] degrees. *)
Definition sample (cx cy r : R) (k : Z) : R * R :=
  let a := (2 * IZR k + 1) * PI / 180 in
  (Rround 3 (cx - r * cos a), Rround 3 (cy - r * sin a)).
Lemma arc_iff cx cy r l e p :
  In p (arc_points cx cy r l e) <->
  (exists k, (0 <= k < 90)%Z /\ p = sample cx cy r k) /\
  fst l <= fst p <= fst e /\ snd p <= snd l.
Proof.
  unfold arc_points. rewrite filter_In.
  assert (A : In p (generate_circle_coordinates cx cy r)
              <-> exists k, (0 <= k < 90)%Z /\ p = sample cx cy r k).
  { unfold generate_circle_coordinates. rewrite circle_angles_eq, map_map, in_map_iff.
    assert (B : forall k : Z,
      (nround 3 (cx - ncos (nradians (nz (2 * k + 1))) * r)%num,
       nround 3 (cy - nsin (nradians (nz (2 * k + 1))) * r)%num) = sample cx cy r k).
    { intros k. unfold sample, nradians. unR. rewrite plus_IZR, mult_IZR.
      replace ((2 * IZR k + 1) * (PI / 180)) with ((2 * IZR k + 1) * PI / 180) by lra.
      f_equal; f_equal; ring. }
    split.
    - intros (k & <- & I). apply zrange_In in I. exists k. split; [ lia | apply B ].
    - intros (k & K & ->). exists k. split; [ apply B | apply zrange_In; lia ]. }
  rewrite A. unR.
  split; intros [X Y]; (split; [ exact X |]).
  - rbool. lra.
  - destruct Y as [Y1 Y2]. rewrite !andb_true_iff. repeat split; rcase; lra.
Qed.

Section Pictures.
  Context {EN : Env}.
  Notation stR := (st R).

  (** ** The scale of the distributed loads *)
  (** [_udl_max] is a number other than 0, or a load object: never unset *)
  Definition scale_any (s : stR) : Prop :=
    scale_ok s \/ exists n, s_udl_max (snd s) = UmObj n.
  Lemma remove_some_eff ns (s s' : stR) :
    remove_udls ns false s = (Ok tt, s') -> s_udls (snd s') <> [] ->
    exists n, s_udl_max (snd s') = UmObj n.
  Proof.
    unfold remove_udls. unfold mbind at 1.
    destruct (mforM ns _ s) as [[[]|e] s1]; [|discriminate].
    cbn [mwhen]. unfold mbind at 1. cbn [mret]. unfold heap_get.
    rewrite bind_get, bind_self_get.
    destruct (s_udls (snd s1)) as [|n l] eqn:Q.
    - rewrite bind_ret. rewrite reset_eff. intros X N. injection X as <-. exfalso. now apply N.
    - rewrite bind_self_upd. rewrite reset_eff. intros X N. injection X as <-. cbn. eauto.
  Qed.
  Lemma any_same s s' : um s' = um s -> scale_any s -> scale_any s'.
  Proof.
    intros E [J | (n & J)]; [ left; now apply (scale_same s) | right; exists n ].
    unfold um in E. congruence.
  Qed.
  Definition anyd (a b : stR) : Prop := Inv a -> scale_any a -> Inv b /\ scale_any b.
  Lemma any_dynamic c : keeps anyd (analyse_dynamic c).
  Proof.
    apply keeps_dynamic.
    - intros s I J. auto.
    - intros a b d F G I J. destruct (F I J). auto.
    - intros o s I J. split; [| left; now apply scale_move].
      destruct (inv_set_dynamic_offset o s I) as (s' & -> & I'). exact I'.
    - intros s I J. split; [apply (same_model_inv s); auto; apply same_model_analyse|].
      apply (any_same s); auto. apply um_analyse.
    - intros d s I J. split; [apply (same_model_inv s); auto; constructor; reflexivity|].
      apply (any_same s); auto.
  Qed.
  Lemma any_step o (s : stR) : Inv s -> scale_any s -> scale_any (step s o).
  Proof.
    intros I J. destruct (load_call o) eqn:LC.
    2:{ exact (any_same s _ (um_other o LC s) J). }
    unfold step.
    destruct o; try discriminate LC; cbn [exec]; unfold with_refs.
    - rewrite bind_get. destruct (forallb _ l) eqn:F; [|exact J].
      destruct I as (C & U & L).
      destruct (inv_set_udls l s C L) as (s' & E & I' & _); [now apply forallb_refs|].
      rewrite E. left. eapply scale_set_udls; eauto.
    - rewrite bind_get. destruct (forallb _ _) eqn:F; [|exact J].
      apply forallb_refs in F.
      destruct (inv_remove_udls l all s I) as (s1 & E1 & _ & _ & R1).
      { now apply refs_udls. }
      rewrite E1. cbn [snd]. destruct all.
      + left. left. eapply remove_all_eff; eauto.
      + destruct (s_udls (snd s1)) as [|n k] eqn:Q; [ left; left; exact Q |].
        right. eapply remove_some_eff; eauto. rewrite Q. discriminate.
    - assert (K : anyd s (snd ((analyse_dynamic crit ;;; mret tt) s))).
      { apply keeps_bind.
        - intros a b d F G Ia Ja. destruct (F Ia Ja). auto.
        - apply any_dynamic.
        - intros r x Ix Jx. auto. }
      apply K; auto.
  Qed.
  Lemma any_run ops : forall s : stR, reachable s -> scale_any s -> scale_any (run s ops).
  Proof.
    induction ops as [|o ops IH]; intros s Hr J; [ exact J |].
    cbn [run fold_left]. apply IH; [ now apply reachable_step | apply any_step; auto ].
    now apply reachable_inv.
  Qed.
  Lemma reachable_any (s : stR) : reachable s -> scale_any s.
  Proof.
    intros (h & a & l & ops & s0 & E & ->). apply any_run.
    - eapply new_reachable; eauto.
    - left. apply (fit_new h a l); auto.
  Qed.

  (** ** Outcomes *)
  Lemma loop_error g ms : forall top e,
    (forall y, (exists x, external_x g y = Ok x)) ->
    @layer_loop R RNum g ms top = Err e -> e = TypeError.
  Proof.
    induction ms as [|[y m] ms IH]; intros top e X; cbn [layer_loop]; [ discriminate |].
    destruct (X y) as (x & ->). cbn [rbind].
    match goal with |- context [layer_loop g ms (sort_points ?b)] => idtac | _ => idtac end.
    destruct ms as [|[y' m'] ms'].
    - cbn [rbind layer_loop]. discriminate.
    - destruct x as [x|]; cbn [rbind]; [| congruence ].
      match goal with |- context [layer_loop g ?l ?t] => destruct (layer_loop g l t) eqn:Q end;
        cbn [rbind]; [ discriminate |].
      intros E; injection E as <-. eapply IH; eauto.
  Qed.
  Lemma fold_error {A} (f : A -> figure R -> res (figure R)) e l : forall fig,
    (forall a, In a l -> forall x, exists r, f a x = r /\ (r = Err TypeError \/ exists y, r = Ok y)) ->
    fold_res f l fig = Err e -> e = TypeError.
  Proof.
    induction l as [|a l IH]; intros fig P; cbn [fold_res]; [ discriminate |].
    destruct (P a (or_introl eq_refl) fig) as (r & -> & [-> | (y & ->)]); cbn [rbind].
    - congruence.
    - apply IH. intros b I. apply P. now right.
  Qed.
  Lemma boundary_error (s : stR) prec table e : reachable s ->
    plot_boundary prec table s = Err e -> e = TypeError.
  Proof.
    intros Hr. destruct (reachable_section EN s Hr) as (h & l & mh & Hh & Hl & _ & CS).
    destruct (levels_of s Hr) as (H0 & _ & EL & LV).
    assert (X : forall y, exists x, external_x (s_geom (snd s)) y = Ok x).
    { intros y. destruct (external_x_cases _ _ _ _ _ Hh Hl CS y) as [[_ (x & ->)] | [_ ->]]; eauto. }
    unfold plot_boundary. destruct (s_materials (snd s)) as [|n0 ns] eqn:EM; [ discriminate |].
    rewrite EL. cbn [rbind]. unfold layer_outlines.
    match goal with |- context [layer_loop ?g ?l ?t] => destruct (layer_loop g l t) as [outs|] eqn:EO end;
      cbn [rbind].
    2:{ intros Q; injection Q as <-. eapply loop_error; eauto. }
    set (fig1 := if table then _ else _). clearbody fig1.
    destruct (fold_res (plot_udl _ _ _) _ fig1) as [fig2|] eqn:EU; cbn [rbind].
    2:{ intros Q; injection Q as <-. revert EU. apply fold_error.
        intros u I x. eexists; split; [ reflexivity |].
        destruct (udl_placed s u Hr I) as [<- _]. unfold plot_udl, udl_coords.
        cbn [u_left u_right set_udl_xy attr rbind u_magnitude]. unfold over_max, pydiv.
        destruct (reachable_any s Hr) as [ [E | (t & Et & Nt)] | (n & En) ].
        - apply in_derefs in I as (n & I & _). rewrite E in I. destruct I.
        - rewrite Et. unR. rewrite (proj2 (Reqb_false t 0) Nt). cbn [rbind]. right; eauto.
        - rewrite En. cbn [rbind]. now left. }
    destruct (fold_res (plot_ll _ _) _ fig2) as [fig3|] eqn:ELL; cbn [rbind].
    2:{ intros Q; injection Q as <-. revert ELL. apply fold_error.
        intros u I x. eexists; split; [ reflexivity |].
        destruct (ll_placed s u Hr I) as [<- _]. unfold plot_ll, ll_coords.
        cbn [l_coord set_ll_coord attr rbind]. right; eauto. }
    destruct (s_water_RL (snd s)) as [y|]; [| discriminate ].
    destruct (negb _); [| discriminate ].
    unfold plot_water. destruct (X y) as ([x|] & ->); cbn [rbind]; congruence.
  Qed.
  Lemma boundary_outcome (s : stR) prec table : reachable s ->
    (drawable s /\ exists fig, plot_boundary prec table s = Ok fig) \/
    (~ drawable s /\ plot_boundary prec table s = Err TypeError).
  Proof.
    intros Hr. pose proof (plot_iff s prec table Hr) as PI.
    destruct (plot_boundary prec table s) as [fig|e] eqn:E.
    - left. split; [ apply PI |]; eauto.
    - right. split.
      + intros D. apply PI in D as (fig & Q). discriminate.
      + f_equal. eapply boundary_error; eauto.
  Qed.
  Lemma remove_some_no_figure ns (s s' : stR) prec table : reachable s ->
    exec (RemoveUdls ns false) s = (Ok tt, s') ->
    s_udls (snd s') <> [] -> s_materials (snd s') <> [] ->
    plot_boundary prec table s' = Err TypeError.
  Proof.
    intros Hr E NU NM.
    assert (Hr' : reachable s').
    { replace s' with (step s (RemoveUdls ns false)); [ now apply reachable_step |].
      unfold step. now rewrite E. }
    destruct (boundary_outcome s' prec table Hr') as [[D _] | [_ Q]]; [ exfalso | exact Q ].
    cbn [exec] in E. unfold with_refs in E. rewrite bind_get in E.
    destruct (forallb _ _); [| discriminate ].
    destruct (remove_some_eff _ _ _ E NU) as (n & En).
    assert (NM' : mats_of s' <> []) by (intros Q; apply (mats_of_nil s' Hr') in Q; contradiction).
    destruct D as [D | (_ & [D | (t & Et & _)] & _)]; [ contradiction | | congruence ].
    destruct (s_udls (snd s')) as [|k ks] eqn:Q; [ contradiction |].
    destruct (reachable_inv s' Hr') as (C & _).
    destruct (c_udl_locs _ C k) as (u & Eu & _); [ rewrite Q; now left |].
    unfold udls_of in D. rewrite Q in D. cbn in D. rewrite Eu in D. discriminate.
  Qed.

  (** The critical circle, its centre and radius rounded to the third decimal,
      has a sample point between its ends and not above its left end. *)
  Definition arc_hit (p : plane R) : Prop :=
    exists k, (0 <= k < 90)%Z /\
      let q := sample (Rround 3 (p_cx p)) (Rround 3 (p_cy p)) (Rround 3 (p_radius p)) k in
      fst (p_l p) <= fst q <= fst (p_r p) /\ snd q <= snd (p_l p).
  Lemma arc_hit_iff p :
    arc_hit p <-> arc_points (Rround 3 (p_cx p)) (Rround 3 (p_cy p)) (Rround 3 (p_radius p))
                             (p_l p) (p_r p) <> [].
  Proof.
    split.
    - intros (k & K & A & B) Q.
      pose proof (proj2 (arc_iff _ _ _ _ _ _)
                    (conj (ex_intro _ k (conj K eq_refl)) (conj A B))) as I.
      rewrite Q in I.
      destruct I.
    - destruct (arc_points _ _ _ _ _) as [|q l] eqn:E; [ intros Q; now elim Q |]. intros _.
      assert (I : In q (arc_points (Rround 3 (p_cx p)) (Rround 3 (p_cy p)) (Rround 3 (p_radius p))
                                   (p_l p) (p_r p))) by (rewrite E; now left).
      apply arc_iff in I as ((k & K & ->) & B). exists k. split; auto.
  Qed.
  Definition analysed_ok (p : plane R) : Prop := exists f, p_fos p = Some (Some f) /\ 0 <= f.
  Lemma round3_nonneg f : 0 <= f -> 0 <= Rround 3 f.
  Proof.
    intros P. replace 0 with (Rround 3 0); [ now apply round_mono |].
    unfold Rround. replace (0 * 10 ^ 3) with (IZR 0) by lra. rewrite near_int. lra.
  Qed.
  Lemma critical_outcome (s : stR) prec table : reachable s ->
    Forall analysed_ok (s_search (snd s)) ->
    (drawable s -> s_search (snd s) = [] -> plot_critical prec table s = Err IndexError) /\
    (drawable s -> forall p rest, s_search (snd s) = p :: rest ->
       (arc_hit p /\ exists fig, plot_critical prec table s = Ok fig) \/
       (~ arc_hit p /\ plot_critical prec table s = Err IndexError)) /\
    (~ drawable s -> plot_critical prec table s = Err TypeError).
  Proof.
    intros Hr F. unfold plot_critical.
    destruct (boundary_outcome s prec table Hr) as [[D (fig & ->)] | [D ->]]; cbn [rbind].
    2:{ split; [ intros; contradiction |]. split; [ intros; contradiction | reflexivity ]. }
    split; [ intros _ ->; reflexivity |]. split; [| intros; contradiction ].
    intros _ p rest E. rewrite E in F |- *.
    apply Forall_inv in F as (f & EF & PF).
    unfold plot_failure_plane, Plot.fos_of. rewrite EF. cbn [rbind nround RNum].
    rewrite plane_hue_key, fos_hue_key by now apply round3_nonneg. cbn [rbind].
    destruct (arc_points _ _ _ _ _) as [|q arc] eqn:EA.
    - right. split; [| reflexivity ]. intros A. apply arc_hit_iff in A. now apply A.
    - left. split; [| eauto ]. apply arc_hit_iff. rewrite EA. discriminate.
  Qed.
  Lemma traces_ok mf ps : Forall analysed_ok ps -> exists ts, rmapM (plane_trace mf) ps = Ok ts.
  Proof.
    induction 1 as [|p ps (f & EF & PF) _ (ts & IH)]; cbn [rmapM]; [ eauto |].
    unfold plane_trace at 1, Plot.fos_of. rewrite EF. cbn [rbind].
    destruct (match mf with None => _ | Some m => _ end).
    - rewrite fos_hue_key by assumption. cbn [rbind]. rewrite IH. cbn [rbind]. eauto.
    - cbn [rbind]. rewrite IH. cbn [rbind]. eauto.
  Qed.
  Lemma all_planes_outcome (s : stR) prec mf table : reachable s ->
    Forall analysed_ok (s_search (snd s)) ->
    match plot_critical prec table s with
    | Ok _ => exists fig, plot_all_planes prec mf table s = Ok fig
    | Err e => plot_all_planes prec mf table s = Err e
    end.
  Proof.
    intros Hr F. unfold plot_all_planes.
    destruct (plot_critical prec table s) as [fig|e]; cbn [rbind]; [| reflexivity ].
    destruct (traces_ok mf _ F) as (ts & ->). cbn [rbind]. eauto.
  Qed.
  (** after an analysis the hypotheses hold *)
  Lemma analysis_ok m (s s' : stR) : reachable s ->
    (1 <= s_max_iterations (snd s))%Z -> analyse_slope m s = (Ok tt, s') ->
    Forall analysed_ok (s_search (snd s')).
  Proof.
    intros Hr P E. apply Forall_forall. intros p I.
    destruct (search_spec m s s' E) as (v & cs & _ & _ & _ & Q & _).
    pose proof I as I'. apply Q in I' as (c & f & _ & _ & _ & ->).
    exists f. split; [ reflexivity |].
    eapply (factors_nonneg m s s'); eauto.
  Qed.
  Lemma analysis_drawable m (s s' : stR) :
    analyse_slope m s = (Ok tt, s') -> (drawable s' <-> drawable s).
  Proof.
    intros E. destruct (analyse_ok m s s' E) as (v & cs & done & _ & _ & _ & ->).
    unfold drawable, mats_of, udls_of. destruct (s_planes (snd s)); reflexivity.
  Qed.
  (** The figure with all circles, after an analysis *)
  Lemma analysis_shown m (s s' : stR) prec mf table : reachable s ->
    (1 <= s_max_iterations (snd s))%Z -> analyse_slope m s = (Ok tt, s') ->
    (~ drawable s -> plot_all_planes prec mf table s' = Err TypeError) /\
    (drawable s -> s_search (snd s') = [] -> plot_all_planes prec mf table s' = Err IndexError) /\
    (drawable s -> forall p rest, s_search (snd s') = p :: rest ->
       (arc_hit p /\ exists fig, plot_all_planes prec mf table s' = Ok fig) \/
       (~ arc_hit p /\ plot_all_planes prec mf table s' = Err IndexError)).
  Proof.
    intros Hr P E. pose proof (analysis_ok m s s' Hr P E) as F.
    pose proof (analysis_drawable m s s' E) as D.
    assert (Hr' : reachable s').
    { replace s' with (step s (Analyse m)); [ now apply reachable_step |].
      unfold step. cbn [exec]. now rewrite E. }
    destruct (critical_outcome s' prec table Hr' F) as (A & B & C).
    pose proof (all_planes_outcome s' prec mf table Hr' F) as G.
    split; [| split ].
    - intros N. rewrite C in G by tauto. exact G.
    - intros Y N. rewrite A in G by tauto. exact G.
    - intros Y p rest N. apply D in Y.
      destruct (B Y p rest N) as [[K (fig & Q)] | [K Q]]; rewrite Q in G; [ left | right ]; auto.
  Qed.
  (** ** Contents *)
  Lemma order_drawn m (s s' : stR) prec mf table fig :
    analyse_slope m s = (Ok tt, s') -> plot_all_planes prec mf table s' = Ok fig ->
    exists t, planes_in fig = t :: rev (map line_of' (filter (shown_below mf) (s_search (snd s')))) /\
      StronglySorted (fun a b => fst (fst b) <= fst (fst a)) (tl (planes_in fig)).
  Proof.
    intros E P. destruct (all_planes_drawn _ _ _ _ _ P) as (p & rest & f & t & _ & _ & _ & F & Q).
    exists t. split; [ exact Q |]. rewrite Q. cbn [tl].
    destruct (search_spec m s s' E) as (v & cs & _ & _ & _ & _ & SO & _).
    set (ps := s_search (snd s')) in *. clearbody ps. clear Q P E.
    assert (A : StronglySorted (fun a b => fst (fst a) <= fst (fst b))
                  (map line_of' (filter (shown_below mf) ps))).
    { assert (B : StronglySorted (fun a b => fst (fst a) <= fst (fst b)) (map line_of' ps)
                  /\ True) by
        (split; [| exact Logic.I ];
         apply (strong_map (fun p q => forall f g, p_fos p = Some (Some f) ->
                              p_fos q = Some (Some g) -> f <= g)); [| exact SO ];
         intros a b Ia Ib L; rewrite Forall_forall in F;
         destruct (F a Ia) as (fa & Ea); destruct (F b Ib) as (fb & Eb);
         unfold line_of', line_of; rewrite Ea, Eb; cbn [fst]; apply round_mono; auto).
      destruct B as [B _].
      clear SO. induction ps as [|a ps IH]; [ constructor |].
      cbn [map] in B. apply StronglySorted_inv in B as [B1 B2].
      apply Forall_inv_tail in F. cbn [filter].
      destruct (shown_below mf a); [| now apply IH ].
      cbn [map]. constructor; [ now apply IH |].
      rewrite Forall_forall in *. intros x I. apply in_map_iff in I as (y & <- & I).
      apply filter_In in I as [I _]. apply B2. now apply in_map. }
    revert A. generalize (map line_of' (filter (shown_below mf) ps)). clear. intros l.
    induction 1 as [|a l HS IH Fa]; [ constructor |]. cbn [rev].
    assert (X : forall u w, StronglySorted (fun a b : R * hue * list (R * R) => fst (fst b) <= fst (fst a)) u ->
              Forall (fun b => fst (fst w) <= fst (fst b)) u ->
              StronglySorted (fun a b => fst (fst b) <= fst (fst a)) (u ++ [w])).
    { clear. induction 1 as [|x u HS IH Fx]; intros G; cbn [app].
      - constructor; constructor.
      - inversion G as [|? ? G1 G2]; subst. constructor; [ now apply IH |].
        apply Forall_app. split; [ exact Fx |]. constructor; [ exact G1 | constructor ]. }
    apply X; [ exact IH |]. rewrite Forall_forall in *. intros b I. apply Fa. now apply in_rev.
  Qed.
  Lemma contents_drawn (s : stR) prec table fig :
    reachable s -> mats_of s <> [] -> plot_boundary prec table s = Ok fig ->
    let g := s_geom (snd s) in
    (forall y, s_water_RL (snd s) = Some y -> y <> 0 -> 0 < g_height g ->
       exists pts, water_in fig = [pts] /\
         forall x v, on_path pts (x, v) <-> 0 <= x <= g_ext_l g /\ v = Rmin y (surface g x)) /\
    (s_water_RL (snd s) = None -> water_in fig = []) /\
    (exists t, (udls_of s <> [] -> s_udl_max (snd s) = UmNum t) /\
       areas_in fig = map (fun u => (udl_span (top_x s) u, 100 * (u_magnitude u / t))) (udls_of s)) /\
    forces_in fig
    = map (fun u => let (a, b) := udl_span (top_x s) u in
                    ((a + b) / 2, snd (g_top g), u_magnitude u, "kPa"%string)) (udls_of s)
      ++ map (fun l => (ll_place (top_x s) l, snd (g_top g), l_magnitude l, "kN/m"%string))
             (lls_of s) /\
    limits_in fig = ground_marks g (s_limits (snd s)).
  Proof.
    intros Hr M E g. destruct (figure_shows s prec table fig Hr M E) as (_ & W & A & B & C).
    destruct (reachable_section EN s Hr) as (h & l & mh & Hh & Hl & _ & CS).
    split; [| split; [| split; [ exact A | split; [ exact B |] ] ] ].
    - intros y Ey Ny Py. rewrite Ey in W. destruct (Req_EM_T y 0); [ contradiction |].
      destruct W as (pts & EW & WL). exists pts. split; [ exact EW |].
      assert (D : drawable s) by (apply (plot_iff s prec table Hr); eauto).
      destruct D as [D | (_ & _ & D)]; [ contradiction |].
      specialize (D y Ey Ny). pose proof (cs_top_y _ _ _ _ _ CS) as T.
      pose proof (cs_height _ _ _ _ _ CS) as T'. unfold g in *. rewrite T' in Py.
      apply (water_path _ _ _ _ _ Py Hl CS); [ lra | exact WL ].
    - intros Q. rewrite Q in W. exact W.
    - rewrite C. now apply marks_on_ground.
  Qed.
  Lemma deeper_drawn h a l (s0 : stR) ops prec table :
    new_slope empty_heap h a l = Ok s0 -> never_shallower s0 ops ->
    Forall (fun o => picks_off o = false) ops ->
    exists fig, plot_boundary prec table (run s0 ops) = Ok fig.
  Proof.
    intros E N P. apply plot_iff; [ now exists h, a, l, ops, s0 |].
    eapply fit_new_run; eauto.
  Qed.
  Lemma calm_drawn h a l (s0 : stR) ops prec table :
    new_slope empty_heap h a l = Ok s0 ->
    Forall (fun o => about_boundary o = false) ops ->
    Forall (fun o => picks_off o = false) ops ->
    exists fig, plot_boundary prec table (run s0 ops) = Ok fig.
  Proof.
    intros E A P. eapply deeper_drawn; eauto.
    apply calm_never_shallower; [ eapply exact_new; eauto | exact A ].
  Qed.
End Pictures.

(** ** The demo slope *)
Section DemoShown.
  Context {EN : Env}.
  Lemma demo_drawable : drawable demo /\ drawable demo5.
  Proof.
    split; (right; split; [| split ]).
    1,4: intros m [<- | []]; cbn; rnum; eexists; (split; [ reflexivity |]); lra.
    1,3: right; exists 20; (split; [ reflexivity | lra ]).
    - intros y Q _. injection Q as <-. cbn. lra.
    - intros y Q. discriminate Q.
  Qed.
  Lemma demo_hit f : arc_hit (set_fos (Some f) demo_plane).
  Proof.
    exists 22%Z. split; [ lia |]. cbn [set_fos demo_plane p_cx p_cy p_radius p_l p_r sample fst snd].
    pose proof (round3_err 12) as A1. pose proof (round3_err (29 / 2)) as A2.
    pose proof (round3_err (15 / 2)) as A3.
    set (x0 := Rround 3 12) in *. set (y0 := Rround 3 (29 / 2)) in *. set (r0 := Rround 3 (15 / 2)) in *.
    replace ((2 * IZR 22 + 1) * PI / 180) with (PI / 4) by lra.
    rewrite cos_PI4, sin_PI4.
    assert (Q1 : 1.4 < sqrt 2).
    { rewrite <- (sqrt_Rsqr 1.4) by lra. apply sqrt_lt_1_alt. unfold Rsqr. lra. }
    assert (Q2 : sqrt 2 < 1.5).
    { rewrite <- (sqrt_Rsqr 1.5) by lra. apply sqrt_lt_1_alt. unfold Rsqr. lra. }
    assert (B1 : / 1.5 < 1 / sqrt 2).
    { unfold Rdiv. rewrite Rmult_1_l. apply Rinv_lt_contravar; nra. }
    assert (B2 : 1 / sqrt 2 < / 1.4).
    { unfold Rdiv. rewrite Rmult_1_l. apply Rinv_lt_contravar; nra. }
    set (c := 1 / sqrt 2) in *. clearbody c x0 y0 r0.
    pose proof (round3_err (x0 - r0 * c)) as C1. pose proof (round3_err (y0 - r0 * c)) as C2.
    apply abs_le_inv in A1, A2, A3, C1, C2.
    assert (D : 4.98 <= r0 * c <= 5.4) by nra.
    lra.
  Qed.
  Lemma demo_shown prec mf table : exists f s' fig, 0 < f /\
    analyse_slope None demo5 = (Ok tt, s') /\
    s_search (snd s') = [set_fos (Some f) demo_plane] /\
    plot_all_planes prec mf table s' = Ok fig.
  Proof.
    destruct (demo5_analysed None) as (f & s' & P & E & G). specialize (G Logic.I).
    destruct (analysis_shown None demo5 s' prec mf table demo5_reachable ltac:(cbn; lia) E)
      as (_ & _ & A).
    destruct (analyse_ok None demo5 s' E) as (v & cs & done & _ & AN & L & ES).
    assert (CS : cs = [demo_plane]).
    { destruct AN as [(Q & _) | (_ & ->)]; [ discriminate Q | reflexivity ]. }
    subst cs. apply fos_loop_ok in L.
    inversion L as [|c d l1 l2 (o & EO & ->) L2]; subst. inversion L2; subst.
    assert (ES2 : s_search (snd (fst demo5, set_s_search (tidy None [set_fos o demo_plane])
                    (set_s_planes [set_fos o demo_plane] (snd demo5)))) =
                  match o with Some _ => [set_fos o demo_plane] | None => [] end).
    { destruct o; reflexivity. }
    destruct o as [f'|].
    - exists f'. eexists.
      specialize (A (proj2 demo_drawable) _ _ ES2).
      destruct A as [ [_ (fig & A)] | [A _] ]; [| elim A; apply demo_hit ].
      exists fig. split; [| split; [ exact E | split; [ exact ES2 | exact A ] ] ].
      unfold get_min_FOS in G. cbn in G. injection G as ->. exact P.
    - cbn in G. discriminate G.
  Qed.
End DemoShown.
