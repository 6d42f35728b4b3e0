(** * FigureFacts: when a figure of the model can be drawn and what it shows. *)
From Coq Require Import ZArith Reals Lra Lia List Bool String Sorted.
From Verif Require Import Num Py Validation Utilities Objects Slope Planes Analysis
     Dynamic Api RealNum RealFacts ListFacts MonadFacts SlopeFacts MaterialFacts Invariant
     History Spec EditFacts GroundFacts KeepFacts LayerFacts MatInv LoadFacts Plot LayerArea
     PlotFacts.
Import ListNotations.
Local Open Scope R_scope.

(** ** What the parts of the drawing add to a figure *)
Lemma arrow_traces (a f : R) p c h l v fig :
  f_traces (draw_arrow a f p c h l v fig) = f_traces fig.
Proof.
  unfold draw_arrow. repeat match goal with |- context [if ?b then _ else _] => destruct b end;
    try reflexivity; destruct v as [[u n]|]; reflexivity.
Qed.
Lemma udl_traces (g : geom R) um prec u fig fig' :
  plot_udl g um prec u fig = Ok fig' -> f_traces fig' = f_traces fig.
Proof.
  unfold plot_udl. destruct (attr (u_left u)); cbn [rbind]; [| discriminate ].
  destruct (attr (u_right u)); cbn [rbind]; [| discriminate ].
  destruct (over_max _ _); cbn [rbind]; [| discriminate ].
  intros E; injection E as <-. cbn [add_shapes f_traces]. now rewrite !arrow_traces.
Qed.
Lemma ll_traces (g : geom R) prec l fig fig' :
  plot_ll g prec l fig = Ok fig' -> f_traces fig' = f_traces fig.
Proof.
  unfold plot_ll. destruct (attr (l_coord l)); cbn [rbind]; [| discriminate ].
  intros E; injection E as <-. now rewrite !arrow_traces.
Qed.
Lemma fold_traces {A} (f : A -> figure R -> res (figure R)) l : forall fig fig',
  (forall a x y, f a x = Ok y -> f_traces y = f_traces x) ->
  fold_res f l fig = Ok fig' -> f_traces fig' = f_traces fig.
Proof.
  induction l as [|a l IH]; cbn [fold_res]; intros fig fig' P E.
  - now injection E as <-.
  - destruct (f a fig) as [x|] eqn:Q; cbn [rbind] in E; [| discriminate ].
    rewrite (IH _ _ P E). now apply P in Q.
Qed.
Lemma fold_ok {A} (f : A -> figure R -> res (figure R)) l : forall fig,
  (forall a, In a l -> forall x, exists y, f a x = Ok y) -> exists y, fold_res f l fig = Ok y.
Proof.
  induction l as [|a l IH]; cbn [fold_res]; intros fig P; [ eauto |].
  destruct (P a (or_introl eq_refl) fig) as (y & ->). cbn [rbind].
  apply IH. intros b I. apply P. now right.
Qed.
Lemma layers_traces outs : forall fig : figure R,
  f_traces (fold_left (fun f o => add_trace (TrLayer (fst o) (snd o)) f) outs fig)
  = f_traces fig ++ map (fun o => TrLayer (fst o) (snd o)) outs.
Proof.
  induction outs as [|o outs IH]; intros fig; cbn [fold_left map]; [ now rewrite app_nil_r |].
  rewrite IH. cbn [add_trace f_traces]. now rewrite <- app_assoc.
Qed.

(** ** Layers: when the outlines can be computed *)
Section Levels.
  Context (h l mh ml : R) (g : geom R).
  Context (Hh : 0 <= h) (Hl : 1 / 1000 <= l) (CS : cross_section h l mh ml g).
  Let F := section_facts _ _ _ _ _ Hh Hl CS.
  Lemma external_x_cases y :
    (y <= g_ext_h g /\ exists x, external_x g y = Ok (Some x)) \/
    (g_ext_h g < y /\ external_x g y = Ok None).
  Proof.
    pose proof F as (A1 & A2 & A3 & A4 & A5 & A6 & A7 & _).
    assert (G : snd (g_bot g) < snd (g_top g) -> g_gradient g <> 0).
    { intros L. assert (0 < h) by (destruct CS; lra).
      pose proof (grad_pos _ _ _ _ _ H Hl CS). lra. }
    unfold external_x, pydiv. unR. rcase; try (left; split; [ lra | cbn [rbind]; eauto ]).
    - exfalso. apply G; lra.
    - right. split; [| reflexivity ]. destruct (Req_EM_T y (g_ext_h g)); lra.
  Qed.
  Lemma loop_ok_iff ms : forall top,
    (exists out, layer_loop g ms top = Ok out) <->
    (forall y, In y (removelast (map fst ms)) -> y <= g_ext_h g).
  Proof.
    induction ms as [|[y m] ms IH]; intros top; cbn [map fst layer_loop].
    - cbn. split; [ intros _ y [] | intros _; eauto ].
    - destruct (external_x_cases y) as [[L (x & ->)] | [L ->]]; cbn [rbind].
      + destruct ms as [|[y' m'] ms].
        * cbn [rbind layer_loop map removelast]. split; [ intros _ z [] | intros _; eauto ].
        * cbn [rbind]. split.
          -- intros (out & E). destruct (layer_loop _ _ _) as [rest|] eqn:Q; [| discriminate ].
             intros z I. cbn [map removelast] in I. destruct I as [<- | I]; [ exact L |].
             eapply (proj1 (IH _)); [ eexists; exact Q | exact I ].
          -- intros P.
             assert (P' : forall z, In z (removelast (map fst ((y', m') :: ms))) ->
                                    z <= g_ext_h g)
               by (intros z I; apply P; cbn [map removelast]; now right).
             match goal with |- context [layer_loop g ((y', m') :: ms) ?t] =>
               destruct (proj2 (IH t) P') as (rest & E) end.
             rewrite E. cbn [rbind]. eauto.
      + destruct ms as [|[y' m'] ms].
        * cbn [rbind layer_loop map removelast]. split; [ intros _ z [] | intros _; eauto ].
        * cbn [rbind]. split; [ intros (out & E); discriminate |].
          intros P. specialize (P y). cbn [map removelast] in P.
          specialize (P (or_introl eq_refl)). lra.
  Qed.
End Levels.

(** ** Figures of a reachable slope *)
(** Conditions for drawing: the level of every layer but the lowest is inside the
    model, [_udl_max] is a number other than 0 if there are distributed loads,
    and the water level is inside the model. *)
Definition drawable (s : st R) : Prop :=
  let top := g_ext_h (s_geom (snd s)) in
  mats_of s = [] \/
  ((forall m, In m (removelast (mats_of s)) -> exists y, m_RL m = Some y /\ y <= top) /\
   (udls_of s = [] \/ exists t, s_udl_max (snd s) = UmNum t /\ t <> 0) /\
   (forall y, s_water_RL (snd s) = Some y -> y <> 0 -> y <= top)).

(** The parts of a figure. *)
Definition layers_in (f : figure R) : list (material R * list (R * R)) :=
  flat_map (fun t => match t with TrLayer m p => [(m, p)] | _ => [] end) (f_traces f).
Definition water_in (f : figure R) : list (list (R * R)) :=
  flat_map (fun t => match t with TrWater p => [p] | _ => [] end) (f_traces f).
Definition planes_in (f : figure R) : list (R * hue * list (R * R)) :=
  flat_map (fun t => match t with TrPlane x c p => [(x, c, p)] | _ => [] end) (f_traces f).
(** the hatched areas of distributed loads: left end, right end, height in pixels *)
Definition areas_in (f : figure R) : list (R * R * R) :=
  flat_map (fun h => match h with ShArea a b y _ => [(a, b, y)] | _ => [] end) (f_shapes f).
(** the values written at arrows: place, value, unit *)
Definition forces_in (f : figure R) : list (R * R * R * string) :=
  flat_map (fun n => match n with NtForce p v u _ => [(p, v, u)] | _ => [] end) (f_notes f).
Definition limits_in (f : figure R) : list (string * (R * option R)) :=
  flat_map (fun n => match n with NtLimit m p => [(m, p)] | _ => [] end) (f_notes f).

(** Where a load stands: [crest] is the x coordinate of the crest. *)
Definition udl_span (crest : R) (u : udl R) : R * R :=
  (match u_length u with
   | Some len => Rmax 0 (crest - u_offset u - len)
   | None => 0
   end, crest - u_offset u).
Definition ll_place (crest : R) (l : lload R) : R := Rmax 0 (crest - l_offset l).

Section Figures.
  Context {EN : Env}.
  Notation stR := (st R).

  Lemma removelast_map {A B} (f : A -> B) l : removelast (map f l) = map f (removelast l).
  Proof.
    induction l as [|a l IH]; [ reflexivity |]. cbn [map removelast].
    destruct l as [|b l]; [ reflexivity |]. cbn [map] in *. now rewrite IH.
  Qed.
  Lemma levels_of (s : stR) : reachable s ->
    exists H0, 0 < H0 /\
      rmapM (fun m => let! rl := attr (m_RL m) in Ok (rl, m)) (mats_of s)
      = Ok (map (fun m => (H0 - m_depth m, m)) (mats_of s)) /\
      forall m, In m (mats_of s) -> m_RL m = Some (H0 - m_depth m) /\ m_depth m <= H0.
  Proof.
    intros Hr. destruct (layer_spacing s Hr) as (H0 & P & L). exists H0.
    split; [ exact P |]. split; [| exact L ].
    apply rmapM_map. intros m I. destruct (L m I) as [-> _]. reflexivity.
  Qed.
  Lemma mats_of_nil (s : stR) : reachable s -> (s_materials (snd s) = [] <-> mats_of s = []).
  Proof.
    intros Hr. destruct (layers_sorted s Hr) as (_ & _ & E & _). split; intros Q.
    - unfold mats_of. now rewrite Q.
    - rewrite Q in E. now destruct (s_materials (snd s)).
  Qed.
  Lemma udl_placed (s : stR) u : reachable s -> In u (udls_of s) ->
    udl_coords (top_x s) u = u /\ 0 < u_magnitude u.
  Proof.
    intros Hr I. destruct (reachable_inv s Hr) as (C & U & _).
    unfold udls_of, derefs in I. apply in_flat_map in I as (n & I & J).
    destruct (nth_error (h_udls (fst s)) n) as [v|] eqn:E; [| destruct J ].
    destruct J as [<- | []]. split; [ now apply (U n) |].
    destruct (c_udl_locs _ C n I) as (w & Ew & Pw). rewrite E in Ew. now injection Ew as ->.
  Qed.
  Lemma ll_placed (s : stR) l : reachable s -> In l (lls_of s) ->
    ll_coords (top_x s) l = l /\ 0 < l_magnitude l.
  Proof.
    intros Hr I. destruct (reachable_inv s Hr) as (C & _ & L).
    unfold lls_of, derefs in I. apply in_flat_map in I as (n & I & J).
    destruct (nth_error (h_lls (fst s)) n) as [v|] eqn:E; [| destruct J ].
    destruct J as [<- | []]. split; [ now apply (L n) |].
    destruct (c_ll_locs _ C n I) as (w & Ew & Pw). rewrite E in Ew. now injection Ew as ->.
  Qed.

  (** A figure is drawn exactly for the drawable slopes. *)
  Lemma plot_iff (s : stR) prec table : reachable s ->
    ((exists fig, plot_boundary prec table s = Ok fig) <-> drawable s).
  Proof.
    intros Hr. destruct (reachable_section EN s Hr) as (h & l & mh & Hh & Hl & _ & CS).
    destruct (levels_of s Hr) as (H0 & _ & EL & LV).
    pose proof (mats_of_nil s Hr) as NIL.
    unfold plot_boundary, drawable.
    destruct (s_materials (snd s)) as [|n0 ns] eqn:EM.
    { split; [ left; now apply NIL | eauto ]. }
    assert (NE : mats_of s <> []) by (intros Q; apply NIL in Q; discriminate).
    rewrite EL. cbn [rbind]. unfold layer_outlines.
    set (ms := map (fun m => (H0 - m_depth m, m)) (mats_of s)).
    assert (IFF := loop_ok_iff _ _ _ _ _ Hh Hl CS ms
                     [(nz 0, snd (g_top (s_geom (snd s)))); g_top (s_geom (snd s))]).
    assert (LEV : (forall y, In y (removelast (map fst ms)) -> y <= g_ext_h (s_geom (snd s)))
                  <-> (forall m, In m (removelast (mats_of s)) ->
                        exists y, m_RL m = Some y /\ y <= g_ext_h (s_geom (snd s)))).
    { unfold ms. rewrite map_map, removelast_map. cbn [fst].
      assert (SUB : forall m, In m (removelast (mats_of s)) -> In m (mats_of s)).
      { intros m. generalize (mats_of s). induction l0 as [|a k IH]; [ intros [] |].
        destruct k; [ intros [] |]. intros [<- | I]; [ now left | right; now apply IH ]. }
      split.
      - intros P m I. exists (H0 - m_depth m). split; [ now apply LV, SUB |].
        apply P. apply in_map_iff. eauto.
      - intros P y I. apply in_map_iff in I as (m & <- & I).
        destruct (P m I) as (y & Ey & Ly). destruct (LV m (SUB m I)) as [E _]. congruence. }
    split.
    - intros (fig & E). right.
      destruct (layer_loop _ _ _) as [outs|] eqn:EO; cbn [rbind] in E; [| discriminate ].
      split; [ apply LEV, IFF; eauto |].
      set (fig1 := if table then _ else _) in E. clearbody fig1.
      destruct (fold_res (plot_udl _ _ _) _ fig1) as [fig2|] eqn:EU; cbn [rbind] in E;
        [| discriminate ].
      destruct (fold_res (plot_ll _ _) _ fig2) as [fig3|] eqn:ELL; cbn [rbind] in E;
        [| discriminate ].
      split.
      + destruct (udls_of s) as [|u us]; [ now left | right ].
        cbn [fold_res] in EU. unfold plot_udl in EU.
        destruct (attr (u_left u)); cbn [rbind] in EU; [| discriminate ].
        destruct (attr (u_right u)); cbn [rbind] in EU; [| discriminate ].
        unfold over_max, pydiv in EU. destruct (s_udl_max (snd s)) as [|t|]; try discriminate.
        exists t. split; [ reflexivity |]. intros ->. unR.
        rewrite (proj2 (Reqb_true 0 0)) in EU by reflexivity. discriminate.
      + intros y Ey Ny. rewrite Ey in E. unR.
        rewrite (proj2 (Reqb_false y 0) Ny) in E. cbn [negb] in E. unfold plot_water in E.
        destruct (external_x_cases _ _ _ _ _ Hh Hl CS y) as [[L _] | [_ Q]]; [ exact L |].
        rewrite Q in E. discriminate.
    - intros [Q | (P1 & P2 & P3)]; [ contradiction |].
      destruct (proj2 IFF (proj2 LEV P1)) as (outs & EO). rewrite EO. cbn [rbind].
      set (fig1 := if table then _ else _). clearbody fig1.
      edestruct (fold_ok (plot_udl (s_geom (snd s)) (s_udl_max (snd s)) prec) (udls_of s) fig1)
        as (fig2 & E2).
      { intros u I x. destruct P2 as [Q | (t & Et & Nt)]; [ rewrite Q in I; destruct I |].
        destruct (udl_placed s u Hr I) as [<- _]. unfold plot_udl, udl_coords.
        cbn [u_left u_right set_udl_xy attr rbind u_magnitude]. unfold over_max, pydiv.
        rewrite Et. unR. rewrite (proj2 (Reqb_false t 0) Nt). cbn [rbind]. eauto. }
      rewrite E2. cbn [rbind].
      edestruct (fold_ok (plot_ll (s_geom (snd s)) prec) (lls_of s) fig2) as (fig3 & E3).
      { intros u I x. destruct (ll_placed s u Hr I) as [<- _]. unfold plot_ll, ll_coords.
        cbn [l_coord set_ll_coord attr rbind]. eauto. }
      rewrite E3. cbn [rbind].
      destruct (s_water_RL (snd s)) as [y|]; [| cbn [rbind]; eauto ].
      unR. destruct (Reqb y 0) eqn:E0; rbool; cbn [negb]; [ cbn [rbind]; eauto |].
      unfold plot_water.
      destruct (external_x_cases _ _ _ _ _ Hh Hl CS y) as [[_ (x & ->)] | [L _]];
        [ cbn [rbind]; eauto |].
      specialize (P3 y eq_refl E0). lra.
  Qed.

  (** *** What is drawn *)
  Lemma arrow_parts (a f : R) p c h l v fig :
    areas_in (draw_arrow a f p c h l v fig) = areas_in fig /\
    limits_in (draw_arrow a f p c h l v fig) = limits_in fig /\
    (f <> 0 -> forces_in (draw_arrow a f p c h l v fig) =
               forces_in fig ++ match v with Some (u, _) => [(p, f, u)] | None => [] end).
  Proof.
    unfold draw_arrow, areas_in, limits_in, forces_in. unR.
    destruct (Rltb 0 f) eqn:E1; [| destruct (Rltb f 0) eqn:E2 ]; rbool.
    3: { repeat split; intros N; exfalso; apply N; lra. }
    all: destruct v as [[u n]|]; cbn [add_notes add_shapes f_shapes f_notes];
      rewrite ?flat_map_app; cbn; rewrite ?app_nil_r; auto.
  Qed.
  Lemma udl_parts (s : stR) prec u fig fig' : reachable s -> In u (udls_of s) ->
    plot_udl (s_geom (snd s)) (s_udl_max (snd s)) prec u fig = Ok fig' ->
    exists t, s_udl_max (snd s) = UmNum t /\
    let (a, b) := udl_span (top_x s) u in
    areas_in fig' = areas_in fig ++ [(a, b, 100 * (u_magnitude u / t))] /\
    limits_in fig' = limits_in fig /\
    forces_in fig' = forces_in fig ++
      [((a + b) / 2, snd (g_top (s_geom (snd s))), u_magnitude u, "kPa"%string)].
  Proof.
    intros Hr I E. destruct (udl_placed s u Hr I) as [PL PM].
    destruct (reachable_inv s Hr) as (C & _ & _).
    assert (OK : udl_ok u).
    { unfold udls_of, derefs in I. apply in_flat_map in I as (n & I & J).
      destruct (nth_error (h_udls (fst s)) n) as [v|] eqn:Q; [| destruct J ].
      destruct J as [<- | []]. pose proof (c_udls _ C) as FA. rewrite Forall_forall in FA.
      apply FA. now apply nth_error_In in Q. }
    assert (SP : u_left u = Some (fst (udl_span (top_x s) u)) /\
                 u_right u = Some (snd (udl_span (top_x s) u))).
    { rewrite <- PL. unfold udl_coords, udl_span, udl_left_right.
      cbn [u_left u_right set_udl_xy u_length u_offset fst snd]. unR.
      split; [| reflexivity ]. f_equal. destruct OK as [_ OL].
      destruct (u_length u) as [len|]; [| reflexivity ].
      rewrite (proj2 (Reqb_false len 0)) by lra. cbn [negb]. now rewrite pymax_R. }
    destruct SP as [SL SR]. unfold plot_udl in E. rewrite SL, SR in E. cbn [attr rbind] in E.
    destruct (udl_span (top_x s) u) as [a b]. cbn [fst snd] in E.
    unfold over_max, pydiv in E. destruct (s_udl_max (snd s)) as [|t|]; try discriminate.
    exists t. split; [ reflexivity |]. unR.
    destruct (Reqb t 0); cbn [rbind] in E; [ discriminate |].
    injection E as <-.
    set (f1 := draw_arrow _ _ (a, _) _ _ _ _ fig).
    set (f2 := draw_arrow _ _ ((a + b) / 2, _) _ _ _ _ f1).
    set (f3 := draw_arrow _ _ (b, _) _ _ _ _ f2).
    assert (N : u_magnitude u <> 0) by lra.
    assert (A : areas_in f3 = areas_in fig /\ limits_in f3 = limits_in fig /\
                forces_in f3 = forces_in fig ++
                  [((a + b) / 2, snd (g_top (s_geom (snd s))), u_magnitude u, "kPa"%string)]).
    { unfold f3. edestruct arrow_parts as (-> & -> & P3). rewrite (P3 N). clear P3.
      unfold f2. edestruct arrow_parts as (-> & -> & P3). rewrite (P3 N). clear P3.
      unfold f1. edestruct arrow_parts as (-> & -> & P3). rewrite (P3 N). clear P3.
      rewrite !app_nil_r. auto. }
    clearbody f3. destruct A as (A1 & A2 & A3).
    split; [| split ].
    - transitivity (areas_in f3 ++ [(a, b, 100 * (u_magnitude u / t))]).
      + unfold areas_in. cbn [add_shapes f_shapes]. rewrite flat_map_app. reflexivity.
      + now rewrite A1.
    - change (limits_in f3 = limits_in fig). congruence.
    - change (forces_in f3 = forces_in fig ++
                [((a + b) / 2, snd (g_top (s_geom (snd s))), u_magnitude u, "kPa"%string)]).
      congruence.
  Qed.
  Lemma ll_parts (s : stR) prec l fig fig' : reachable s -> In l (lls_of s) ->
    plot_ll (s_geom (snd s)) prec l fig = Ok fig' ->
    areas_in fig' = areas_in fig /\ limits_in fig' = limits_in fig /\
    forces_in fig' = forces_in fig ++
      [(ll_place (top_x s) l, snd (g_top (s_geom (snd s))), l_magnitude l, "kN/m"%string)].
  Proof.
    intros Hr I E. destruct (ll_placed s l Hr I) as [PL PM].
    assert (SL : l_coord l = Some (ll_place (top_x s) l)).
    { rewrite <- PL. unfold ll_coords, ll_place. cbn [l_coord set_ll_coord l_offset]. unR.
      reflexivity. }
    unfold plot_ll in E. rewrite SL in E. cbn [attr rbind] in E. unR. injection E as <-.
    set (c := ll_place (top_x s) l).
    set (f1 := draw_arrow _ _ _ _ _ _ _ fig).
    assert (N : l_magnitude l <> 0) by lra.
    edestruct arrow_parts as (-> & -> & P3). rewrite (P3 N). clear P3.
    unfold f1. edestruct arrow_parts as (-> & -> & P3). rewrite (P3 N). clear P3.
    rewrite !app_nil_r. auto.
  Qed.
  Lemma udls_parts (s : stR) prec : reachable s -> forall us fig fig',
    incl us (udls_of s) ->
    fold_res (plot_udl (s_geom (snd s)) (s_udl_max (snd s)) prec) us fig = Ok fig' ->
    (exists t, (us <> [] -> s_udl_max (snd s) = UmNum t) /\
     areas_in fig' = areas_in fig ++
       map (fun u => (udl_span (top_x s) u, 100 * (u_magnitude u / t))) us) /\
    limits_in fig' = limits_in fig /\
    forces_in fig' = forces_in fig ++
      map (fun u => let (a, b) := udl_span (top_x s) u in
                    ((a + b) / 2, snd (g_top (s_geom (snd s))), u_magnitude u, "kPa"%string)) us.
  Proof.
    intros Hr. induction us as [|u us IH]; intros fig fig' SUB E; cbn [fold_res map] in *.
    - injection E as <-. rewrite !app_nil_r. split; [| auto ]. exists 0.
      split; [ congruence | reflexivity ].
    - destruct (plot_udl _ _ _ u fig) as [f1|] eqn:E1; cbn [rbind] in E; [| discriminate ].
      destruct (udl_parts s prec u fig f1 Hr (SUB u (or_introl eq_refl)) E1) as (t & Et & P).
      destruct (IH f1 fig') as ((t' & Et' & Q1) & Q2 & Q3);
        [ intros x Ix; apply SUB; now right | exact E |].
      destruct (udl_span (top_x s) u) as [a b]. destruct P as (P1 & P2 & P3).
      rewrite Q1, Q2, Q3, P1, P2, P3, <- !app_assoc. split; [| split; reflexivity ].
      exists t. split; [ auto |]. f_equal. cbn [app]. f_equal.
      destruct us as [|u' us]; [ reflexivity |].
      rewrite Et' in Et by discriminate. injection Et as ->. reflexivity.
  Qed.
  Lemma lls_parts (s : stR) prec : reachable s -> forall us fig fig',
    incl us (lls_of s) -> fold_res (plot_ll (s_geom (snd s)) prec) us fig = Ok fig' ->
    areas_in fig' = areas_in fig /\ limits_in fig' = limits_in fig /\
    forces_in fig' = forces_in fig ++
      map (fun l => (ll_place (top_x s) l, snd (g_top (s_geom (snd s))), l_magnitude l,
                     "kN/m"%string)) us.
  Proof.
    intros Hr. induction us as [|u us IH]; intros fig fig' SUB E; cbn [fold_res map] in *.
    - injection E as <-. rewrite !app_nil_r. auto.
    - destruct (plot_ll _ _ u fig) as [f1|] eqn:E1; cbn [rbind] in E; [| discriminate ].
      destruct (ll_parts s prec u fig f1 Hr (SUB u (or_introl eq_refl)) E1) as (P1 & P2 & P3).
      destruct (IH f1 fig') as (Q1 & Q2 & Q3);
        [ intros x Ix; apply SUB; now right | exact E |].
      rewrite Q1, Q2, Q3, P1, P2, P3, <- !app_assoc. auto.
  Qed.

  Lemma rows_parts ms : forall y : R,
    flat_map (fun h => match h with ShArea a b y _ => [(a, b, y)] | _ => [] end)
             (fst (table_rows y ms)) = [] /\
    flat_map (fun n => match n with NtForce p v u _ => [(p, v, u)] | _ => [] end)
             (snd (table_rows y ms)) = [] /\
    flat_map (fun n => match n with NtLimit m p => [(m, p)] | _ => [] end)
             (snd (table_rows y ms)) = [].
  Proof.
    induction ms as [|m ms IH]; intros y; cbn [table_rows]; [ auto |].
    cbv zeta. destruct (IH (nsub y row_h)) as (A & B & C).
    cbn [fst snd table_row]. rewrite !flat_map_app, A, B, C. auto.
  Qed.
  Lemma table_parts ms (fig : figure R) :
    f_traces (plot_material_table ms fig) = f_traces fig /\
    areas_in (plot_material_table ms fig) = areas_in fig /\
    limits_in (plot_material_table ms fig) = limits_in fig /\
    forces_in (plot_material_table ms fig) = forces_in fig.
  Proof.
    unfold plot_material_table. cbv zeta. split; [ reflexivity |].
    unfold areas_in, limits_in, forces_in. cbn [add_notes add_shapes f_shapes f_notes].
    destruct (rows_parts ms (nsub (table_top (List.length ms)) (ndiv row_h (nz 2))))
      as (A & B & C).
    rewrite !flat_map_app, A, B, C.
    assert (Z1 : forall l : list Z, flat_map
              (fun h : shape R => match h with ShArea a b y _ => [(a, b, y)] | _ => [] end)
              (map (fun r => ShBox table_x0 (nadd table_x0 table_w)
                   (nsub (nsub (table_top (List.length ms)) row_h) (nmul (nz r) row_h))
                   (nsub (nsub (table_top (List.length ms)) row_h) (nmul (nz r) row_h)) "") l)
              = []) by (induction l; auto).
    rewrite Z1. cbn. rewrite !app_nil_r. auto.
  Qed.
  Lemma layers_fold outs : forall fig : figure R,
    let fig' := fold_left (fun f o => add_trace (TrLayer (fst o) (snd o)) f) outs fig in
    f_shapes fig' = f_shapes fig /\ f_notes fig' = f_notes fig.
  Proof.
    induction outs as [|o outs IH]; intros fig; cbn [fold_left]; [ auto |].
    destruct (IH (add_trace (TrLayer (fst o) (snd o)) fig)) as [-> ->]. auto.
  Qed.
  Lemma layers_in_traces outs (t0 : trace R) rest :
    (forall m p, t0 <> TrLayer m p) -> (forall m p, ~ In (TrLayer m p) rest) ->
    flat_map (fun t => match t with TrLayer m p => [(m, p)] | _ => [] end)
             (t0 :: map (fun o => TrLayer (fst o) (snd o)) outs ++ rest) = outs.
  Proof.
    intros N1 N2. cbn [flat_map].
    assert (Z0 : match t0 with TrLayer m p => [(m, p)] | _ => [] end = [])
      by (destruct t0; try reflexivity; exfalso; eapply N1; reflexivity).
    rewrite Z0. cbn [app]. rewrite flat_map_app.
    replace (flat_map _ rest) with (@nil (material R * list (point R))).
    - rewrite app_nil_r. induction outs as [|[m p] outs IH]; [ reflexivity |].
      cbn [map flat_map fst snd app]. now rewrite IH.
    - symmetry. induction rest as [|t rest IH]; [ reflexivity |]. cbn [flat_map].
      rewrite IH by (intros m p I; apply (N2 m p); now right).
      destruct t; try reflexivity. exfalso. eapply N2. now left.
  Qed.

  (** The line of the water table: level from the left end, then along the face
      and the toe if the level is not below the toe. *)
  Definition water_line (g : geom R) (y : R) (pts : list (R * R)) : Prop :=
    exists x, external_x g y = Ok (Some x) /\
      pts = [(0, y); (x, y)]
            ++ (if Rleb x (fst (g_bot g)) then [g_bot g; (g_ext_l g, snd (g_bot g))] else []).
  Definition limit_marks (g : geom R) (l : limits R) : list (string * (R * option R)) :=
    let on x := (x, external_y g x) in
    let inner := negb (Reqb (lim_left_r l) (lim_right_l l)) in
    let right := on (lim_left l) :: (if inner then [on (lim_right_l l)] else []) in
    let left := on (lim_right l) :: (if inner then [on (lim_left_r l)] else []) in
    map (fun p => (">"%string, p)) right ++ map (fun p => ("<"%string, p)) left
    ++ map (fun p => ("|"%string, p)) (left ++ right).

  Lemma figure_shows (s : stR) prec table fig :
    reachable s -> mats_of s <> [] -> plot_boundary prec table s = Ok fig ->
    let g := s_geom (snd s) in
    (exists ms, map snd ms = mats_of s /\
       (forall y m, In (y, m) ms -> m_RL m = Some y) /\
       (exists H0, map fst ms = map (fun m => H0 - m_depth m) (mats_of s) /\
                   forall m, In m (mats_of s) -> m_depth m <= H0) /\
       layer_outlines g ms = Ok (layers_in fig)) /\
    match s_water_RL (snd s) with
    | Some y => if Req_EM_T y 0 then water_in fig = []
                else exists pts, water_in fig = [pts] /\ water_line g y pts
    | None => water_in fig = []
    end /\
    (exists t, (udls_of s <> [] -> s_udl_max (snd s) = UmNum t) /\
       areas_in fig = map (fun u => (udl_span (top_x s) u, 100 * (u_magnitude u / t))) (udls_of s)) /\
    forces_in fig
    = map (fun u => let (a, b) := udl_span (top_x s) u in
                    ((a + b) / 2, snd (g_top g), u_magnitude u, "kPa"%string)) (udls_of s)
      ++ map (fun l => (ll_place (top_x s) l, snd (g_top g), l_magnitude l, "kN/m"%string))
             (lls_of s) /\
    limits_in fig = limit_marks g (s_limits (snd s)).
  Proof.
    intros Hr NE E g.
    destruct (levels_of s Hr) as (H0 & HP & EL & LV).
    unfold plot_boundary in E.
    destruct (s_materials (snd s)) as [|n0 ns] eqn:EM.
    { exfalso. apply NE. now apply mats_of_nil. }
    rewrite EL in E. cbn [rbind] in E. fold g in E.
    destruct (layer_outlines g _) as [outs|] eqn:EO; cbn [rbind] in E; [| discriminate ].
    set (fig0 := fold_left _ outs _) in E.
    set (fig1 := if table then _ else _) in E.
    assert (T1 : f_traces fig1 = TrBoundary (external_boundary g)
                   :: map (fun o => TrLayer (fst o) (snd o)) outs).
    { assert (Q : f_traces fig1 = f_traces fig0)
        by (unfold fig1; destruct table; [ apply table_parts | reflexivity ]).
      rewrite Q. unfold fig0. rewrite layers_traces. reflexivity. }
    assert (P1 : areas_in fig1 = [] /\ limits_in fig1 = [] /\ forces_in fig1 = []).
    { assert (Q0 : areas_in fig0 = [] /\ limits_in fig0 = [] /\ forces_in fig0 = []).
      { unfold fig0, areas_in, limits_in, forces_in.
        edestruct layers_fold as [-> ->]. auto. }
      unfold fig1. destruct table; [| exact Q0 ].
      destruct (table_parts (mats_of s) fig0) as (_ & -> & -> & ->). exact Q0. }
    clearbody fig1. clear fig0. destruct P1 as (PA & PL & PF).
    destruct (fold_res (plot_udl _ _ _) _ fig1) as [fig2|] eqn:E2; cbn [rbind] in E;
      [| discriminate ].
    destruct (fold_res (plot_ll _ _) _ fig2) as [fig3|] eqn:E3; cbn [rbind] in E;
      [| discriminate ].
    destruct (udls_parts s prec Hr _ _ _ (incl_refl _) E2) as ((t & Et & A2) & L2 & F2).
    destruct (lls_parts s prec Hr _ _ _ (incl_refl _) E3) as (A3 & L3 & F3).
    apply fold_traces in E2; [| intros; eapply udl_traces; eassumption ].
    apply fold_traces in E3; [| intros; eapply ll_traces; eassumption ].
    rewrite E2, T1 in E3. rewrite PA in A2. rewrite PL in L2. rewrite PF in F2.
    rewrite L2 in L3. rewrite A2 in A3. rewrite F2 in F3. cbn [app] in A3, F3.
    clear E2 T1 A2 L2 F2 PA PL PF fig2 fig1.
    destruct (match s_water_RL (snd s) with Some _ => _ | None => _ end) as [fig4|] eqn:E4;
      cbn [rbind] in E; [| discriminate ].
    injection E as <-.
    assert (W : exists wt, f_traces fig4 = TrBoundary (external_boundary g)
                     :: map (fun o => TrLayer (fst o) (snd o)) outs ++ wt /\
                  areas_in fig4 = areas_in fig3 /\ limits_in fig4 = limits_in fig3 /\
                  forces_in fig4 = forces_in fig3 /\
                  match s_water_RL (snd s) with
                  | Some y => if Req_EM_T y 0 then wt = []
                              else exists pts, wt = [TrWater pts] /\ water_line g y pts
                  | None => wt = []
                  end).
    { destruct (s_water_RL (snd s)) as [y|].
      - unR. destruct (Reqb y 0) eqn:E0; rbool; cbn [negb] in E4.
        + injection E4 as <-. exists []. rewrite app_nil_r.
          destruct (Req_EM_T y 0); [| contradiction ]. auto.
        + unfold plot_water in E4. destruct (external_x g y) as [[x|]|] eqn:EX;
            cbn [rbind] in E4; try discriminate. injection E4 as <-.
          eexists. split; [ cbn [add_notes add_trace f_traces]; rewrite E3;
                            cbn [app]; reflexivity |].
          split; [ reflexivity |].
          split; [ unfold limits_in; cbn [add_notes add_trace f_notes];
                   rewrite flat_map_app; cbn; now rewrite app_nil_r |].
          split; [ unfold forces_in; cbn [add_notes add_trace f_notes];
                   rewrite flat_map_app; cbn; now rewrite app_nil_r |].
          destruct (Req_EM_T y 0); [ contradiction |]. eexists. split; [ reflexivity |].
          exists x. split; [ exact EX |]. unR. reflexivity.
      - injection E4 as <-. exists []. rewrite app_nil_r. auto. }
    destruct W as (wt & W1 & W2 & W3 & W4 & W5).
    change (layers_in (plot_limits g (s_limits (snd s)) fig4)) with (layers_in fig4).
    change (water_in (plot_limits g (s_limits (snd s)) fig4)) with (water_in fig4).
    change (areas_in (plot_limits g (s_limits (snd s)) fig4)) with (areas_in fig4).
    assert (NW : forall m p, ~ In (TrLayer m p) wt).
    { intros m p I. destruct (s_water_RL (snd s)) as [y|]; [ destruct (Req_EM_T y 0) |].
      - subst wt. destruct I.
      - destruct W5 as (pts & -> & _). destruct I as [I | []]. discriminate.
      - subst wt. destruct I. }
    assert (EW : water_in fig4 = flat_map
              (fun t => match t with TrWater p => [p] | _ => [] end) wt).
    { unfold water_in. rewrite W1. cbn [flat_map app]. rewrite flat_map_app.
      replace (flat_map _ (map _ outs)) with (@nil (list (R * R))); [ reflexivity |].
      symmetry. clear. induction outs; auto. }
    split; [| split; [| split; [| split ] ] ].
    - exists (map (fun m => (H0 - m_depth m, m)) (mats_of s)).
      rewrite !map_map. cbn [fst snd]. rewrite map_id.
      split; [ reflexivity |]. split.
      { intros y m I. apply in_map_iff in I as (m' & Q & I). injection Q as <- <-. now apply LV. }
      split; [ exists H0; split; [ reflexivity |]; intros m I; now apply LV |].
      rewrite EO. f_equal. unfold layers_in. rewrite W1. symmetry.
      apply layers_in_traces; [ discriminate | exact NW ].
    - rewrite EW. destruct (s_water_RL (snd s)) as [y|]; [ destruct (Req_EM_T y 0) |].
      + now rewrite W5.
      + destruct W5 as (pts & -> & WL). exists pts. split; [ reflexivity | exact WL ].
      + now rewrite W5.
    - exists t. split; [ exact Et |]. now rewrite W2, A3.
    - transitivity (forces_in fig4); [| now rewrite W4, F3 ].
      unfold forces_in, plot_limits. cbv zeta. cbn [add_notes f_notes].
      rewrite flat_map_app. rewrite <- (app_nil_r (flat_map _ (f_notes fig4))) at 2. f_equal.
      rewrite !flat_map_app.
      assert (Z1 : forall m l, flat_map (fun n : note R => match n with
                     NtForce p v u _ => [(p, v, u)] | _ => [] end) (map (NtLimit m) l) = [])
        by (induction l; auto).
      now rewrite !Z1.
    - unfold limits_in, plot_limits. cbv zeta. cbn [add_notes f_notes].
      rewrite flat_map_app. fold (limits_in fig4). rewrite W3, L3. cbn [app].
      rewrite !flat_map_app.
      assert (Z1 : forall m l, flat_map (fun n : note R => match n with
                     NtLimit m p => [(m, p)] | _ => [] end) (map (NtLimit m) l)
                     = map (fun p => (m, p)) l)
        by (induction l as [|a l IH]; [ reflexivity | cbn [map flat_map app]; now rewrite IH ]).
      rewrite !Z1. unR. reflexivity.
  Qed.
End Figures.
