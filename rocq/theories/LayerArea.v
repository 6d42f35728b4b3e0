(** * LayerArea: the layers drawn in a figure and the areas they cover. *)
From Coq Require Import ZArith Reals Lra Lia List Bool String Sorted.
From Verif Require Import Num Py RealNum RealFacts Validation Utilities Objects Slope
     Planes Analysis Plot Spec EditFacts GroundFacts SoilFacts.
Import ListNotations.
Local Open Scope R_scope.

(** ** Specification *)
(** Area of a polygon whose corners are listed clockwise (shoelace formula). *)
Fixpoint cross_path (p : R * R) (l : list (R * R)) : R :=
  match l with
  | [] => 0
  | q :: l' => (fst q * snd p - fst p * snd q) + cross_path q l'
  end.
Definition polygon_area (pts : list (R * R)) : R :=
  match pts with
  | [] => 0
  | p :: l => cross_path p (l ++ [p]) / 2
  end.
(** The levels between which the layers lie: from the crest down to the base of
    the model, each layer but the last ending at its own level. *)
Definition bands (crest : R) (levels : list R) : list (R * R) :=
  combine (crest :: removelast levels) (removelast levels ++ [0]).
(** Levels strictly decreasing, all but the last between the base and the crest. *)
Definition levels_ok (crest : R) (levels : list R) : Prop :=
  StronglySorted (fun a b => b < a) levels /\
  (forall y, In y (removelast levels) -> 0 <= y <= crest).
(** inside the model and not above the ground *)
Definition in_section (g : geom R) (p : R * R) : Prop :=
  0 <= fst p <= g_ext_l g /\ 0 <= snd p <= surface g (fst p).

(** ** Integrals of the ground line *)
Lemma C1_half_sq : {f : C1_fun | (forall x, f x = x * x / 2) /\
                                 (forall x, derive f (diff0 f) x = x)}.
Proof.
  assert (D : derivable (fun x => x * x / 2)) by (unfold derivable; intros; reg).
  assert (E : forall x, derive (fun x => x * x / 2) D x = x).
  { intros x. unfold derive. rewrite (derive_pt_eq_0 _ x x (D x)); [ reflexivity |].
    replace x with ((1 * x + x * 1) * / 2) at 2 by field.
    apply derivable_pt_lim_scal_right.
    apply (derivable_pt_lim_mult id id); apply derivable_pt_lim_id. }
  assert (C : continuity (derive (fun x => x * x / 2) D)).
  { intros x. apply (continuity_pt_locally_ext id _ 1); [ lra | |].
    - intros y _. unfold id. now rewrite E.
    - apply derivable_continuous_pt, derivable_pt_id. }
  exists (mkC1 C). split; [ reflexivity | exact E ].
Qed.
Lemma id_int a b : a <= b ->
  {pr : Riemann_integrable (fun x => x) a b | RiemannInt pr = (b * b - a * a) / 2}.
Proof.
  intros AB. destruct C1_half_sq as (f & E & D).
  assert (P : Riemann_integrable (derive f (diff0 f)) a b).
  { apply continuity_implies_RiemannInt; [ assumption |]. intros x _. apply cont1. }
  pose (Q := int_ext _ (fun x => x) a b D P).
  exists Q. rewrite <- (RiemannInt_P18 P Q AB) by (intros; apply D).
  rewrite (FTC_Riemann f P), !E. field.
Qed.
(** A function that is a straight line inside an interval. *)
Lemma line_int f p q a b : a <= b -> (forall x, a < x < b -> f x = p + q * x) ->
  {pr : Riemann_integrable f a b
  | RiemannInt pr = p * (b - a) + q * ((b * b - a * a) / 2)}.
Proof.
  intros AB H. destruct (id_int a b AB) as (I & EI).
  pose (J := RiemannInt_P10 q (RiemannInt_P14 a b p) I).
  destruct (open_const_int (fun x => f x - (p + q * x)) 0 a b AB) as (Z & EZ).
  { intros x Hx. rewrite H by assumption. ring. }
  pose (K := RiemannInt_P10 1 J Z).
  assert (E : forall x, fct_cte p x + q * x + 1 * (f x - (p + q * x)) = f x)
    by (intros; unfold fct_cte; ring).
  exists (int_ext _ _ a b E K).
  rewrite <- (RiemannInt_P18 K (int_ext _ _ a b E K) AB) by (intros; apply E).
  rewrite (RiemannInt_P13 J Z K), EZ.
  unfold J at 1. rewrite (RiemannInt_P13 (RiemannInt_P14 a b p) I).
  rewrite RiemannInt_P15, EI. ring.
Qed.
Lemma int_join f a c b u v :
  {pr : Riemann_integrable f a c | RiemannInt pr = u} ->
  {pr : Riemann_integrable f c b | RiemannInt pr = v} ->
  {pr : Riemann_integrable f a b | RiemannInt pr = u + v}.
Proof.
  intros (P & E) (Q & F). exists (RiemannInt_P24 P Q).
  rewrite <- (RiemannInt_P26 P Q), E, F. reflexivity.
Qed.

Section Area.
  Context (h l mh ml : R) (g : geom R).
  Context (Hh : 0 < h) (Hl : 1 / 1000 <= l) (CS : cross_section h l mh ml g).
  Let F := section_facts _ _ _ _ _ (Rlt_le _ _ Hh) Hl CS.

  (** where a level meets the ground or the right end of the model *)
  Definition reach_x (y : R) : R :=
    if Rlt_dec y (snd (g_bot g)) then g_ext_l g
    else fst (g_top g) + (snd (g_top g) - y) / g_gradient g.
  (** area of the model below a level, for levels between the base and the crest *)
  Definition below (y : R) : R :=
    if Rlt_dec y (snd (g_bot g)) then y * g_ext_l g
    else snd (g_bot g) * g_ext_l g
         + (y - snd (g_bot g)) * (reach_x y + fst (g_bot g)) / 2.

  Lemma grad_eq : g_gradient g * g_length g = g_height g.
  Proof.
    destruct F as (_ & _ & _ & _ & _ & _ & _ & _ & _ & _ & _ & _ & _ & E).
    rewrite E. destruct CS. field. lra.
  Qed.
  Lemma reach_face y : snd (g_bot g) <= y <= snd (g_top g) ->
    fst (g_top g) <= reach_x y <= fst (g_bot g) /\
    (reach_x y - fst (g_top g)) * g_gradient g = snd (g_top g) - y.
  Proof.
    intros Y. pose proof (grad_pos _ _ _ _ _ Hh Hl CS) as G. pose proof grad_eq as E.
    unfold reach_x. destruct (Rlt_dec _ _); [ lra |].
    destruct F as (A & B & _).
    assert (D : (snd (g_top g) - y) / g_gradient g * g_gradient g = snd (g_top g) - y)
      by (field; lra).
    set (d := (snd (g_top g) - y) / g_gradient g) in *.
    split; [| lra ]. assert (0 <= d) by nra.
    assert (d <= g_length g) by nra. lra.
  Qed.

  (** The cross-section below a level. *)
  Lemma below_int y : 0 <= y <= snd (g_top g) ->
    {pr : Riemann_integrable (fun x => Rmin y (surface g x)) 0 (g_ext_l g)
    | RiemannInt pr = below y}.
  Proof.
    intros Y. pose proof (grad_pos _ _ _ _ _ Hh Hl CS) as G. pose proof grad_eq as E.
    pose proof (surface_range _ _ _ _ _ Hh Hl CS) as SR.
    pose proof F as (A1 & A2 & A3 & A4 & A5 & A6 & _).
    unfold below. destruct (Rlt_dec _ _) as [L | L].
    - destruct (open_const_int (fun x => Rmin y (surface g x)) y 0 (g_ext_l g)) as (P & EP).
      + lra.
      + intros x _. specialize (SR x). rewrite Rmin_left; lra.
      + exists P. rewrite EP. ring.
    - destruct (reach_face y ltac:(lra)) as (B1 & B2).
      set (xc := reach_x y) in *.
      assert (S1 : {pr : Riemann_integrable (fun x => Rmin y (surface g x)) 0 xc
                   | RiemannInt pr = y * (xc - 0)}).
      { apply open_const_int; [ lra |]. intros x X. rewrite Rmin_left; [ reflexivity |].
        unfold surface, clamp. rminmax; nra. }
      assert (S2 : {pr : Riemann_integrable (fun x => Rmin y (surface g x)) xc (fst (g_bot g))
                   | RiemannInt pr
                     = (snd (g_top g) + fst (g_top g) * g_gradient g) * (fst (g_bot g) - xc)
                       + (- g_gradient g)
                         * ((fst (g_bot g) * fst (g_bot g) - xc * xc) / 2)}).
      { apply line_int; [ lra |]. intros x X. rewrite Rmin_right.
        - unfold surface, clamp. rewrite Rmin_right, Rmax_right by lra. ring.
        - unfold surface, clamp. rewrite Rmin_right, Rmax_right by lra. nra. }
      assert (S3 : {pr : Riemann_integrable (fun x => Rmin y (surface g x))
                           (fst (g_bot g)) (g_ext_l g)
                   | RiemannInt pr = snd (g_bot g) * (g_ext_l g - fst (g_bot g))}).
      { apply open_const_int; [ lra |]. intros x X. unfold surface, clamp.
        rewrite (Rmin_left (fst (g_bot g))), Rmax_right by lra. rewrite Rmin_right; nra. }
      destruct (int_join _ _ _ _ _ _ (int_join _ _ _ _ _ _ S1 S2) S3)
        as (P & EP).
      exists P. rewrite EP.
      assert (D : g_gradient g * (fst (g_bot g) - xc) = y - snd (g_bot g)) by nra.
      replace (snd (g_top g)) with (y + (xc - fst (g_top g)) * g_gradient g) by lra.
      replace (y * (xc - 0)
        + ((y + (xc - fst (g_top g)) * g_gradient g + fst (g_top g) * g_gradient g)
             * (fst (g_bot g) - xc)
           + - g_gradient g * ((fst (g_bot g) * fst (g_bot g) - xc * xc) / 2)))
        with (y * fst (g_bot g)
              - g_gradient g * (fst (g_bot g) - xc) * (fst (g_bot g) - xc) / 2) by field.
      rewrite D. field.
  Qed.
  Lemma below_is y (pr : Riemann_integrable (fun x => Rmin y (surface g x)) 0 (g_ext_l g)) :
    0 <= y <= snd (g_top g) -> RiemannInt pr = below y.
  Proof.
    intros Y. destruct (below_int y Y) as (P & E). rewrite <- E.
    apply RiemannInt_P18; [ destruct F as (_ & _ & _ & A4 & A5 & _); lra | reflexivity ].
  Qed.

  Lemma sort_two a b y : a < b -> sort_points [(a, y); (b, y)] = [(a, y); (b, y)].
  Proof.
    intros L. unfold sort_points, sort, insert, point_ltb. cbn. unR.
    rcase; try reflexivity; exfalso; lra.
  Qed.
  Lemma sort_two' a b y : a < b -> sort_points [(b, y); (a, y)] = [(a, y); (b, y)].
  Proof.
    intros L. unfold sort_points, sort, insert, point_ltb. cbn. unR.
    rcase; try reflexivity; exfalso; lra.
  Qed.
  Lemma external_x_reach y : y <= snd (g_top g) -> external_x g y = Ok (Some (reach_x y)).
  Proof.
    intros Y. pose proof (grad_pos _ _ _ _ _ Hh Hl CS) as G.
    pose proof F as (A1 & A2 & A3 & A4 & A5 & A6 & A7 & _).
    assert (Hp : 0 < g_height g) by (destruct CS; lra).
    unfold external_x, reach_x, pydiv. unR. rcase; try (exfalso; lra);
      destruct (Rlt_dec _ _); try (exfalso; lra); cbn [rbind]; try reflexivity.
    do 2 f_equal. replace (snd (g_top g) - y) with 0 by lra. field. lra.
  Qed.
  Lemma external_x_total y : exists x, external_x g y = Ok x.
  Proof.
    destruct (Rle_dec y (snd (g_top g))) as [L | L].
    - rewrite external_x_reach by assumption. eauto.
    - pose proof F as (A1 & A2 & A3 & A4 & A5 & A6 & A7 & _).
      unfold external_x. unR. rcase; try (exfalso; lra). eauto.
  Qed.
  Lemma reach_pos y : y <= snd (g_top g) -> 0 < reach_x y <= g_ext_l g.
  Proof.
    intros Y. pose proof F as (A1 & A2 & A3 & A4 & A5 & A6 & A7 & _).
    destruct (Rlt_dec y (snd (g_bot g))) as [L | L].
    - unfold reach_x. destruct (Rlt_dec _ _); lra.
    - destruct (reach_face y ltac:(lra)). lra.
  Qed.
  Lemma level_in y x : 0 <= y <= snd (g_top g) -> 0 <= x <= reach_x y -> in_section g (x, y).
  Proof.
    intros Y X. pose proof (reach_pos y ltac:(lra)).
    pose proof (surface_range _ _ _ _ _ Hh Hl CS) as SR.
    pose proof F as (A1 & A2 & A3 & A4 & A5 & A6 & A7 & _).
    pose proof (grad_pos _ _ _ _ _ Hh Hl CS) as G.
    split; cbn [fst snd]; [ lra |]. split; [ lra |].
    destruct (Rlt_dec y (snd (g_bot g))) as [L | L]; [ specialize (SR x); lra |].
    destruct (reach_face y ltac:(lra)) as (B1 & B2).
    unfold surface, clamp. rminmax; nra.
  Qed.
  Lemma toe_in : in_section g (g_bot g) /\ in_section g (g_ext_l g, snd (g_bot g)).
  Proof.
    pose proof (surface_range _ _ _ _ _ Hh Hl CS) as SR.
    pose proof F as (A1 & A2 & A3 & A4 & A5 & A6 & A7 & _).
    unfold in_section. cbn [fst snd]. specialize (SR (fst (g_bot g))) as S1.
    specialize (SR (g_ext_l g)). lra.
  Qed.

  Lemma loop_area ms : forall u, ms <> [] -> 0 <= u <= snd (g_top g) ->
    StronglySorted (fun a b => b < a) (map fst ms) ->
    (forall y, In y (map fst ms) -> y < u \/ snd (g_bot g) < u) ->
    (forall y, In y (removelast (map fst ms)) -> 0 <= y <= u) ->
    exists out, layer_loop g ms [(0, u); (reach_x u, u)] = Ok out /\
      map fst out = map snd ms /\
      map (fun o => polygon_area (snd o)) out
      = map (fun b => below (fst b) - below (snd b)) (bands u (map fst ms)) /\
      (forall o p, In o out -> In p (snd o) -> in_section g p).
  Proof.
    pose proof F as (A1 & A2 & A3 & A4 & A5 & A6 & A7 & _).
    assert (Hb : 0 < snd (g_bot g) < snd (g_top g)).
    { pose proof F as (_ & _ & _ & _ & _ & _ & _ & _ & _ & _ & B & _).
      destruct CS. lra. }
    induction ms as [|[y m] ms IH]; [ congruence |]. intros u _ U SS LE POS.
    cbn [map fst snd] in *.
    pose proof (LE y (or_introl eq_refl)) as Sy.
    pose proof (reach_pos u ltac:(lra)) as Xu.
    pose proof toe_in as [T1 T2].
    assert (Iu : in_section g (0, u) /\ in_section g (reach_x u, u))
      by (split; apply level_in; lra).
    assert (Tb : below 0 = 0).
    { unfold below. destruct (Rlt_dec _ _); lra. }
    cbn [layer_loop].
    destruct ms as [|[y' m'] ms].
    - (* the last layer *)
      destruct (external_x_total y) as (xo & ->). cbn [rbind].
      clear IH SS LE POS. unR. rewrite sort_two' by lra. cbn [rev app rbind].
      cbn [layer_loop rbind second_y snd].
      eexists. split; [ reflexivity |]. split; [ reflexivity |].
      unfold bands. cbn [removelast app combine map fst snd].
      rewrite Tb.
      set (c := ((Rleb (snd (g_bot g)) u && Rltb y (snd (g_bot g)))
                 || (true && Rltb (snd (g_bot g)) u))%bool).
      assert (Cc : c = true /\ snd (g_bot g) <= u \/ c = false /\ u < snd (g_bot g)).
      { unfold c. rcase; cbn; try (left; split; [ reflexivity | lra ]);
          try (right; split; [ reflexivity | lra ]); exfalso; lra. }
      destruct Cc as [[-> Cu] | [-> Cu]]; split.
      + f_equal. unfold polygon_area, below. cbn [app cross_path fst snd].
        destruct (Rlt_dec _ _); [ exfalso; lra |]. cbn. field.
      + intros o p [<- | []]. cbn [snd app In].
        intros [<- | [<- | [<- | [<- | [<- | [<- | []]]]]]]; try tauto.
        * apply level_in; [ lra |]. unfold reach_x. destruct (Rlt_dec _ _); lra.
        * apply level_in; [ lra |]. pose proof (reach_pos 0). lra.
      + f_equal. unfold polygon_area, below, reach_x. cbn [app cross_path fst snd].
        destruct (Rlt_dec _ _); [| exfalso; lra ]. field.
      + intros o p [<- | []]. cbn [snd app In].
        intros [<- | [<- | [<- | [<- | []]]]]; try tauto.
        * apply level_in; [ lra |]. unfold reach_x. destruct (Rlt_dec _ _); lra.
        * apply level_in; [ lra |]. pose proof (reach_pos 0). lra.
    - assert (Py : 0 <= y <= u) by (apply POS; cbn [map removelast fst]; now left).
      rewrite external_x_reach by lra. cbn [rbind].
      pose proof (reach_pos y ltac:(lra)) as Xy.
      assert (Iy : in_section g (0, y) /\ in_section g (reach_x y, y))
        by (split; apply level_in; lra).
      apply StronglySorted_inv in SS as [SS FA]. rewrite Forall_forall in FA.
      unR. rewrite !sort_two by lra. cbn [rev app rbind].
      rewrite sort_two' by lra.
      destruct (IH y) as (out & EO & EM & EA & EV).
      { discriminate. } { lra. } { exact SS. }
      { intros z I. specialize (FA z I). cbn beta in FA. lra. }
      { intros z I. assert (Iz : In z (map fst ((y', m') :: ms))).
        { clear - I. revert I. generalize (map fst ((y', m') :: ms)) as ys.
          induction ys as [|a ys IH]; [ intros [] |]. destruct ys; [ intros [] |].
          intros [<- | I]; [ now left | right; now apply IH ]. }
        specialize (FA z Iz). cbn beta in FA.
        destruct (POS z); [ cbn [map removelast]; right; exact I |]. lra. }
      rewrite EO. cbn [rbind]. eexists. split; [ reflexivity |].
      cbn [map fst snd second_y]. split; [ now rewrite EM |].
      set (c := ((Rleb (snd (g_bot g)) u && Rltb y (snd (g_bot g)))
                 || (false && Rltb (snd (g_bot g)) u))%bool).
      assert (Cc : c = true /\ y < snd (g_bot g) <= u
                   \/ c = false /\ (snd (g_bot g) <= y \/ u < snd (g_bot g))).
      { unfold c. rcase; cbn; try (left; split; [ reflexivity | lra ]);
          right; split; try reflexivity; lra. }
      assert (EB : bands u (y :: map fst ((y', m') :: ms))
                   = (u, y) :: bands y (map fst ((y', m') :: ms))) by reflexivity.
      cbn [map] in EB.
      split.
      + change (fst (y', m')) with y' in *. rewrite EB. cbn [map fst snd].
        rewrite EA. f_equal.
        destruct Cc as [[-> Cu] | [-> Cu]].
        * unfold polygon_area, below. cbn [app cross_path fst snd].
          destruct (Rlt_dec u _); [ exfalso; lra |].
          destruct (Rlt_dec y _); [| exfalso; lra ].
          assert (Ry : reach_x y = g_ext_l g)
            by (unfold reach_x; destruct (Rlt_dec y _); [ reflexivity | exfalso; lra ]).
          rewrite Ry. field.
        * unfold polygon_area, below. cbn [app cross_path fst snd].
          destruct (Rlt_dec y _) as [Ey | Ey].
          -- destruct (Rlt_dec u _); [| exfalso; lra ].
             unfold reach_x. destruct (Rlt_dec u _); [| exfalso; lra ].
             destruct (Rlt_dec y _); [| exfalso; lra ]. field.
          -- destruct (Rlt_dec u _); [ exfalso; lra |].
             destruct (reach_face y ltac:(lra)) as (B1 & B2).
             destruct (reach_face u ltac:(lra)) as (B3 & B4).
             pose proof (grad_pos _ _ _ _ _ Hh Hl CS) as G.
             pose proof grad_eq as E.
             assert (Qu : u = snd (g_top g) - (reach_x u - fst (g_top g)) * g_gradient g) by lra.
             assert (Qy : y = snd (g_top g) - (reach_x y - fst (g_top g)) * g_gradient g) by lra.
             assert (Qb : snd (g_bot g)
                          = snd (g_top g) - (fst (g_bot g) - fst (g_top g)) * g_gradient g)
               by (rewrite A2, A1; lra).
             set (xu := reach_x u) in *. set (xy := reach_x y) in *. clearbody xu xy.
             rewrite Qu, Qy, Qb. field.
      + intros o p [<- | I]; [| apply EV; assumption ].
        cbn [snd]. destruct Cc as [[-> Cu] | [-> Cu]]; cbn [app In].
        * intros [<- | [<- | [<- | [<- | [<- | [<- | []]]]]]]; tauto.
        * intros [<- | [<- | [<- | [<- | []]]]]; tauto.
  Qed.
End Area.

Section Tile.
  Context (h l mh ml : R) (g : geom R).
  Context (Hh : 0 < h) (Hl : 1 / 1000 <= l) (CS : cross_section h l mh ml g).
  Let F := section_facts _ _ _ _ _ (Rlt_le _ _ Hh) Hl CS.

  Lemma bands_in u ys a b : 0 <= u <= snd (g_top g) ->
    (forall y, In y (removelast ys) -> 0 <= y <= snd (g_top g)) ->
    In (a, b) (bands u ys) -> 0 <= a <= snd (g_top g) /\ 0 <= b <= snd (g_top g).
  Proof.
    intros U W I. unfold bands in I. split.
    - apply in_combine_l in I as [<- | I]; auto.
    - apply in_combine_r in I. apply in_app_iff in I as [I | [<- | []]]; [ auto | lra ].
  Qed.
  Lemma bands_sum (f : R -> R) u ys : ys <> [] ->
    rsum (map (fun b => f (fst b) - f (snd b)) (bands u ys)) = f u - f 0.
  Proof.
    revert u; induction ys as [|y ys IH]; intros u N; [ congruence |].
    destruct ys as [|y' ys].
    - cbn. ring.
    - change (bands u (y :: y' :: ys)) with ((u, y) :: bands y (y' :: ys)).
      cbn [map rsum fst snd]. rewrite IH by discriminate. ring.
  Qed.

  Lemma layers_tile ms : ms <> [] -> levels_ok (snd (g_top g)) (map fst ms) ->
    exists out, layer_outlines g ms = Ok out /\
      map fst out = map snd ms /\
      Forall2 (fun o b =>
        exists (pu : Riemann_integrable (fun x => Rmin (fst b) (surface g x)) 0 (g_ext_l g))
               (pl : Riemann_integrable (fun x => Rmin (snd b) (surface g x)) 0 (g_ext_l g)),
          polygon_area (snd o) = RiemannInt pu - RiemannInt pl)
        out (bands (snd (g_top g)) (map fst ms)) /\
      (exists pr : Riemann_integrable (surface g) 0 (g_ext_l g),
          rsum (map (fun o => polygon_area (snd o)) out) = RiemannInt pr) /\
      (forall o p, In o out -> In p (snd o) -> in_section g p).
  Proof.
    intros N (SS & POS).
    pose proof F as (A1 & A2 & A3 & A4 & A5 & A6 & A7 & _).
    assert (Hb : 0 < snd (g_bot g) < snd (g_top g)).
    { pose proof F as (_ & _ & _ & _ & _ & _ & _ & _ & _ & _ & B & _).
      destruct CS. lra. }
    assert (RT : reach_x g (snd (g_top g)) = fst (g_top g)).
    { unfold reach_x. destruct (Rlt_dec _ _); [ lra |].
      pose proof (grad_pos _ _ _ _ _ Hh Hl CS).
      replace (snd (g_top g) - snd (g_top g)) with 0 by ring. field. lra. }
    destruct (loop_area _ _ _ _ _ Hh Hl CS ms (snd (g_top g)) N ltac:(lra) SS) as
      (out & EO & EM & EA & EV); [ | exact POS |].
    { intros y I. lra. }
    exists out. split; [| split; [ exact EM |] ].
    { unfold layer_outlines. rewrite nz_R. rewrite RT in EO.
      rewrite <- EO. rewrite <- surjective_pairing. reflexivity. }
    split; [| split; [| exact EV ] ].
    - assert (W : forall a b, In (a, b) (bands (snd (g_top g)) (map fst ms)) ->
                  0 <= a <= snd (g_top g) /\ 0 <= b <= snd (g_top g))
        by (intros a b; apply bands_in; auto; lra).
      clear - EA W Hh Hl CS. revert EA W.
      generalize (bands (snd (g_top g)) (map fst ms)) as bs. revert Hh Hl CS.
      intros Hh Hl CS bs. revert bs.
      induction out as [|o out IH]; intros [|[a b] bs] EA W; try discriminate; constructor.
      + cbn [map fst snd] in EA. injection EA as E _.
        destruct (W a b) as [Wa Wb]; [ now left |].
        destruct (below_int _ _ _ _ _ Hh Hl CS a Wa) as (pa & Ea).
        destruct (below_int _ _ _ _ _ Hh Hl CS b Wb) as (pb & Eb).
        exists pa, pb. cbn [fst snd]. rewrite Ea, Eb. exact E.
      + apply IH; [ now injection EA | intros; apply W; now right ].
    - destruct (below_int _ _ _ _ _ Hh Hl CS (snd (g_top g)) ltac:(lra)) as (pa & Ea).
      assert (X : forall x, Rmin (snd (g_top g)) (surface g x) = surface g x).
      { intros x. apply Rmin_right. apply (surface_range _ _ _ _ _ Hh Hl CS). }
      exists (int_ext _ _ _ _ X pa).
      rewrite <- (RiemannInt_P18 pa (int_ext _ _ _ _ X pa)); [| lra | intros; apply X ].
      rewrite EA, Ea, bands_sum by (destruct ms; [ congruence | discriminate ]).
      unfold below at 2. destruct (Rlt_dec 0 _); [ ring | exfalso; lra ].
  Qed.
End Tile.
