(** * PropsWeb: the web page (C67-C76). *)
From Coq Require Import ZArith Reals Lra Lia List Bool String Ascii Sorted Permutation.
From Verif Require Import Num Py Validation Utilities Objects Slope Planes Analysis
     Dynamic Api RealNum RealFacts ListFacts MonadFacts SlopeFacts MaterialFacts
     Invariant History Spec Demo DynMore PlaneFacts SoilFacts MatInv SearchFacts FosFacts FosTotal
     GrowFacts CohesiveFacts TextFacts Plot PlotFacts Web Browser FigureFacts DrawFacts ShowFacts
     PictureFacts BrowserFacts SessionFacts FormFacts FormMore
     HitFacts WeakFacts PageFacts FirstFacts.
Import ListNotations.
Local Open Scope R_scope.

(** A form: 3 m high, 4 m long, water at 1 m; two layers, a blank row for a third,
    a line load, a blank distributed load and one without length. *)
Definition a_form : form R :=
  MkForm 3 45 4 true 25 1000
    [Some (MkMatRow 20 35 2 2 "Fill" "brown"); None; Some (MkMatRow 18 28 (-5) (-9) "Clay" "gray")]
    [Some (MkLlRow 20 1 "blue" false)]
    [None; Some (MkUdlRow 10 2 0 "red" true)]
    true 1 false false 0 0 0 0 false (13 / 10).
(** The same with limits to the left of the model. *)
Definition limited_form : form R :=
  MkForm 3 45 4 true 25 1000 (w_materials a_form) (w_lls a_form) (w_udls a_form)
    true 1 true false (-1) 8 0 0 false (13 / 10).
(** 10 kPa without friction; [n] equal line loads. *)
Definition clay_form (n : nat) : form R :=
  MkForm 3 45 4 true 25 500
    [Some (MkMatRow 20 0 10 5 "Clay" "gray")]
    (repeat (Some (MkLlRow 20 1 "blue" false)) n) [] true 1 false false 0 0 0 0 false (13 / 10).

Ltac valid :=
  unfold form_valid; cbn -[Rleb Rltb]; unR;
  repeat rewrite (proj2 (Rleb_true _ _)) by lra; reflexivity.
Ltac rows := repeat (apply Forall_cons; [cbn; first [exact Logic.I | lra]|]); apply Forall_nil.
Lemma a_form_ok : form_valid a_form = true /\ setup_ok a_form.
Proof.
  split; [valid|]. split; [unfold dims_ok; cbn; lra|].
  split; [rows|]. split; [|cbn; intros; lra].
  cbn [w_materials a_form map row_depth wm_depth].
  rewrite (Rabs_right 2), (Rabs_left (-9)) by lra.
  repeat constructor; cbn [In]; intros Q; repeat destruct Q as [Q|Q]; lra.
Qed.

(** ** C67 *)
Theorem C67_model : forall (EN : Env) (f : form R), form_valid f = true ->
  (setup_ok f /\ exists s, reachable s /\ built f s /\
     ((limits_accepted f (s_geom (snd s)) /\
       s_limits (snd s) = limits_given f (s_geom (snd s)) /\
       create_slope f = match web_analysis f s with (Ok _, s') => Ok s' | (Err e, _) => Err e end) \/
      (~ limits_accepted f (s_geom (snd s)) /\ create_slope f = Err ValueError))) \/
  (~ setup_ok f /\ create_slope f = Err ValueError).
Proof. exact @create_outcome. Qed.
Print Assumptions C67_model.
Theorem C67_valid : forall f : form R, form_valid f = true <->
  (500 <= w_iterations f <= 5000)%Z /\ (10 <= w_slices f <= 50)%Z /\ 0 <= w_critical f <= 5.
Proof. exact @form_valid_iff. Qed.
Print Assumptions C67_valid.
Example C67_example : form_valid a_form = true /\ setup_ok a_form /\
  (forall g, limits_accepted a_form g) /\
  form_valid limited_form = true /\ setup_ok limited_form /\
  (forall g, ~ limits_accepted limited_form g).
Proof.
  destruct a_form_ok as (A & B). split; [exact A|]. split; [exact B|].
  split; [intros g; exact Logic.I|]. split; [exact A|]. split; [exact B|].
  intros g. unfold limits_accepted. cbn. lra.
Qed.
(** Rows left as they came are no rows to Django's formset, but every one of
    them becomes the same default layer. *)
Theorem C67_blank : forall (EN : Env) (f : form R) a b c, form_valid f = true ->
  w_materials f = a ++ None :: b ++ None :: c -> create_slope f = Err ValueError.
Proof. exact @two_blank. Qed.
Print Assumptions C67_blank.
Theorem C67_blank_refuted : forall EN : Env, exists f : form R,
  form_valid f = true /\ dims_ok f /\ Forall row_ok (w_materials f) /\
  w_materials f <> [] /\ Forall (fun r => r = None) (w_materials f) /\
  w_consider_water f = false /\ w_consider_limits f = false /\
  create_slope f = Err ValueError.
Proof.
  intros EN.
  set (f := MkForm 3 45 4 true 25 1000 [None; None] [] [] false 1 false false 0 0 0 0 false (13 / 10)).
  exists f.
  assert (V : form_valid f = true) by valid.
  split; [exact V|]. split; [unfold dims_ok; cbn; lra|]. split; [rows|]. split; [discriminate|].
  split; [repeat constructor|]. split; [reflexivity|]. split; [reflexivity|].
  exact (two_blank f [] [] [] V eq_refl).
Qed.
Print Assumptions C67_blank_refuted.

(** ** C68 *)
Theorem C68_answered : forall (EN : Env) (f : form R),
  form_valid f = true -> w_dynamic f = false -> setup_ok f ->
  exists s, reachable s /\ built f s /\
   ((~ limits_accepted f (s_geom (snd s)) /\ create_slope f = Err ValueError) \/
    (limits_accepted f (s_geom (snd s)) /\ spare_points f = 1%Z /\
     create_slope f = Err ZeroDivisionError) \/
    (limits_accepted f (s_geom (snd s)) /\ spare_points f <> 1%Z /\
     ((exists s', create_slope f = Ok s') \/
      (create_slope f = Err NanProduced /\ ~ Forall cohesive_row (w_materials f))))).
Proof. exact @normal_outcome. Qed.
Print Assumptions C68_answered.
Theorem C68_cohesive : forall (EN : Env) (f : form R),
  form_valid f = true -> w_dynamic f = false -> setup_ok f ->
  w_consider_limits f = false -> Forall cohesive_row (w_materials f) -> spare_points f <> 1%Z ->
  exists s, create_slope f = Ok s.
Proof. exact @cohesive_form. Qed.
Print Assumptions C68_cohesive.
Lemma clay_ok n : form_valid (clay_form n) = true /\ setup_ok (clay_form n) /\
  Forall cohesive_row (w_materials (clay_form n)).
Proof.
  split; [valid|]. split; [split; [unfold dims_ok; cbn; lra|]; split|].
  - rows.
  - split; [repeat constructor; intros []|]. cbn. intros; lra.
  - rows.
Qed.
Lemma clay_points (EN : Env) n : spare_points (clay_form n) = (10 - Z.of_nat n)%Z.
Proof.
  unfold spare_points. cbn [clay_form w_iterations w_lls w_udls].
  destruct (num_points_top_spec 500 ltac:(lia)) as (A & B).
  change (num_circles_of 500) with 5%Z in B.
  assert (E : num_points_top_of (T := R) 500 = 10%Z) by nia. rewrite E.
  assert (L : List.length (real_lls (repeat (Some (MkLlRow 20 1 "blue" false)) n)) = n).
  { induction n as [|n IH]; [reflexivity|]. unfold real_lls in *. cbn [repeat map filter ll_values fst].
    cbn [wl_magnitude]. destruct (Req_EM_T (Rabs 20) 0) as [Q|_].
    - rewrite Rabs_right in Q by lra. lra.
    - cbn [List.length]. now rewrite IH. }
  rewrite L. cbn [real_udls map filter List.length]. lia.
Qed.
Example C68_example : forall EN : Env,
  (exists s, create_slope (clay_form 0) = Ok s) /\ (exists s, create_slope (clay_form 3) = Ok s).
Proof.
  intros EN. split; (apply C68_cohesive; try (apply clay_ok); try reflexivity;
    rewrite clay_points; discriminate).
Qed.
(** ten entry points, nine of them spoken for by loads: the spacing is divided
    by one less than one *)
Theorem C68_loads_refuted : forall EN : Env, exists f : form R,
  form_valid f = true /\ w_dynamic f = false /\ setup_ok f /\ w_consider_limits f = false /\
  Forall cohesive_row (w_materials f) /\ create_slope f = Err ZeroDivisionError.
Proof.
  intros EN. exists (clay_form 9). destruct (clay_ok 9) as (A & B & C).
  split; [exact A|]. split; [reflexivity|]. split; [exact B|]. split; [reflexivity|].
  split; [exact C|].
  destruct (C68_answered EN (clay_form 9) A eq_refl B) as (s & _ & _ & [(N & _)|[(_ & _ & E)|(_ & N & _)]]).
  - elim N. now apply no_limits.
  - exact E.
  - elim N. apply clay_points.
Qed.
Print Assumptions C68_loads_refuted.

(** The excluded case of C35: one point left to spread, the spacing divides by zero. *)
Theorem C35_one_point : forall (EN : Env) m (s : st R), reachable s -> s_planes (snd s) = [] ->
  (num_points_top_of (T := R) (s_iterations (snd s)) -
     Z.of_nat (List.length (lls_of s) + List.length (udls_of s)) = 1)%Z ->
  analyse_slope m s = (Err ZeroDivisionError, s).
Proof. exact @one_point_fails. Qed.
Print Assumptions C35_one_point.
Example C35_one_point_example : forall EN : Env, exists s : st R,
  reachable s /\ s_planes (snd s) = [] /\
  (num_points_top_of (T := R) (s_iterations (snd s)) -
     Z.of_nat (List.length (lls_of s) + List.length (udls_of s)) = 1)%Z.
Proof.
  intros EN. destruct (clay_ok 9) as (A & B & _).
  destruct (create_outcome (clay_form 9) A) as [(_ & s & Hr & Bu & _)|(N & _)]; [|contradiction].
  exists s. split; [exact Hr|]. split; [apply (b_planes _ _ Bu)|].
  rewrite (spare_built _ _ Bu), clay_points. reflexivity.
Qed.

(** ** C69 *)
Theorem C69_page : forall (EN : Env) prec (f : form R) s, create_slope f = Ok s ->
  (s_search (snd s) = [] /\ post prec f = Err IndexError) \/
  exists p rest, s_search (snd s) = p :: rest /\
    ((arc_hit p /\ exists fig, post prec f = Ok (fig, map (fun p => (p, web_arc p)) (p :: rest))) \/
     (~ arc_hit p /\ post prec f = Err IndexError)).
Proof. exact @page_outcome. Qed.
Print Assumptions C69_page.
Theorem C69_ranked : forall (EN : Env) prec (f : form R) fig search,
  post prec f = Ok (fig, search) -> ranked (map fst search).
Proof. exact @page_ranked. Qed.
Print Assumptions C69_ranked.

(** Forms for which there is a page: weak clays without loads, the exits on the face *)
Theorem C69_shown : forall (EN : Env) prec (f : form R) C,
  form_valid f = true -> w_dynamic f = false -> setup_ok f ->
  w_lls f = [] -> w_udls f = [] -> face_limits f -> w_height f <= 2 * dims_length f ->
  w_materials f <> [] -> Forall (clay_row C) (w_materials f) ->
  800 * (C * IZR (w_slices f)) <= w_right f - w_left_r f ->
  exists fig search, post prec f = Ok (fig, search) /\ search <> [].
Proof. exact @page_shown. Qed.
Print Assumptions C69_shown.
Definition weak_form : form R :=
  MkForm 3 45 4 true 10 500 [Some (MkMatRow 18 0 (1 / 2000) 5 "Mud" "gray")] [] []
    true 1 true true 2 12 8 9 false (13 / 10).
Example C69_example : forall (EN : Env) prec,
  form_valid weak_form = true /\ w_dynamic weak_form = false /\ setup_ok weak_form /\
  w_lls weak_form = [] /\ w_udls weak_form = [] /\ face_limits weak_form /\
  w_height weak_form <= 2 * dims_length weak_form /\ w_materials weak_form <> [] /\
  Forall (clay_row (1 / 2000)) (w_materials weak_form) /\
  800 * (1 / 2000 * IZR (w_slices weak_form)) <= w_right weak_form - w_left_r weak_form /\
  exists fig search, post prec weak_form = Ok (fig, search) /\ search <> [].
Proof.
  intros EN prec.
  assert (V : form_valid weak_form = true) by valid.
  assert (Ld : dims_length weak_form = 4) by (unfold dims_length; cbn; apply Rmax_left; lra).
  assert (O : setup_ok weak_form).
  { split; [unfold dims_ok; cbn; lra|]. split; [rows|]. split; [repeat constructor; intros []|]. cbn. intros; lra. }
  assert (X : crest_x weak_form = 8).
  { unfold crest_x. rewrite Ld. cbn [weak_form w_height].
    rewrite (Rmax_left (5 * 4) 10), Rmax_left by lra. lra. }
  assert (L : face_limits weak_form).
  { unfold face_limits. rewrite X, Ld. cbn [weak_form w_consider_limits w_consider_inner w_left w_left_r
      w_right_l w_right w_height]. repeat (split; [reflexivity || lra|]). lra. }
  assert (C : Forall (clay_row (1 / 2000)) (w_materials weak_form)).
  { apply Forall_cons; [|apply Forall_nil]. cbn. rewrite Rabs_right by lra. lra. }
  assert (H2 : w_height weak_form <= 2 * dims_length weak_form) by (rewrite Ld; cbn; lra).
  assert (K : 800 * (1 / 2000 * IZR (w_slices weak_form)) <= w_right weak_form - w_left_r weak_form)
    by (cbn; lra).
  assert (M : w_materials weak_form <> []) by discriminate.
  repeat (split; [assumption || reflexivity|]).
  exact (C69_shown EN prec weak_form (1 / 2000) V eq_refl O eq_refl eq_refl L H2 M C K).
Qed.

(** The points sent with a circle: its ends and between them the 90 points of the
    lower half of the circle, rounded to the third decimal. *)
Theorem C69_arc : forall p : plane R,
  web_arc p =
    p_l p :: filter (fun q => if Rle_dec (fst (p_l p)) (fst q)
                              then if Rle_dec (fst q) (fst (p_r p)) then true else false else false)
                    (map (sample (p_cx p) (p_cy p) (p_radius p)) (zrange 0 90)) ++ [p_r p].
Proof. exact web_arc_is. Qed.
Print Assumptions C69_arc.
Theorem C69_arc_near : forall p : plane R, 0 <= p_radius p -> fst (p_l p) <= fst (p_r p) ->
  StronglySorted (fun a b : R * R => fst a <= fst b) (web_arc p) /\
  Forall (fun q => q = p_l p \/ q = p_r p \/
            Rabs (dist_euc (fst q) (snd q) (p_cx p) (p_cy p) - p_radius p) <= / 1000) (web_arc p).
Proof. exact web_arc_sorted. Qed.
Print Assumptions C69_arc_near.
Example C69_arc_example : 0 <= p_radius demo_plane /\ fst (p_l demo_plane) <= fst (p_r demo_plane).
Proof. unfold demo_plane. cbn. lra. Qed.

(** ** C70 *)
Theorem C70_same : forall (EN : Env) prec (f : form R) fig search m,
  post prec f = Ok (fig, search) ->
  let shown := filter (fun c => shown_below (Some m) (fst c)) search in
  updateFOS m search = Ok (rev shown) /\
  exists rep t, report fig search m = Ok rep /\
    planes_in rep = t :: rev (map (fun c => line_of' (fst c)) shown).
Proof. exact @page_and_report. Qed.
Print Assumptions C70_same.
Theorem C70_lists : forall fig (search : list (plane R * list (point R))) m,
  ranked (map fst search) ->
  let shown := filter (fun c => shown_below (Some m) (fst c)) search in
  updateFOS m search = Ok (rev shown) /\
  exists rep, report fig search m = Ok rep /\
    planes_in rep = planes_in fig ++ rev (map (fun c => line_of' (fst c)) shown) /\
    f_shapes rep = f_shapes fig /\ f_notes rep = f_notes fig.
Proof. exact @lists_shown. Qed.
Print Assumptions C70_lists.
Definition three_circles : list (plane R * list (point R)) :=
  map (fun f => (set_fos (Some f) demo_plane, [])) [9 / 10; 14 / 10; 3].
Example C70_example : ranked (map fst three_circles) /\
  updateFOS 2 three_circles
  = Ok (map (fun f => (set_fos (Some f) demo_plane, [])) [14 / 10; 9 / 10]).
Proof.
  assert (K : ranked (map fst three_circles)).
  { split.
    - repeat (apply Forall_cons; [eexists; split; [reflexivity|]; lra|]). apply Forall_nil.
    - cbn [three_circles map fst].
      repeat (apply SSorted_cons; [|repeat (apply Forall_cons;
        [cbn; intros x y E1 E2; injection E1 as <-; injection E2 as <-; lra|]); apply Forall_nil]).
      apply SSorted_nil. }
  split; [exact K|].
  destruct (C70_lists (MkFig [] [] []) three_circles 2 K) as (E & _). rewrite E.
  unfold three_circles, shown_below. cbn [map filter fst set_fos p_fos].
  destruct (Rlt_dec (9 / 10) 2); [|lra]. destruct (Rlt_dec (14 / 10) 2); [|lra].
  destruct (Rlt_dec 3 2); [lra|]. reflexivity.
Qed.

(** ** C71 *)
Theorem C71_report : forall (T : Type) (NT : Num T) (EN : Env) prec (l : list (request T)) answers ss m,
  visit prec l no_session = (answers, ss) ->
  serve prec (GetPdf (Some m)) ss =
  (match last_shown (combine l answers) with
   | None => Failure KeyError
   | Some None => ToIndex
   | Some (Some (fig, search)) =>
       match report fig search m with Ok f => Report f | Err e => Failure e end
   end, ss).
Proof. exact @report_answer. Qed.
Print Assumptions C71_report.
Theorem C71_origin : forall (T : Type) (NT : Num T) (EN : Env) prec (l : list (request T)) p,
  In (Page p) (fst (visit prec l no_session)) ->
  first_page prec = Ok p \/ exists f, In (PostIndex (Some f)) l /\ post prec f = Ok p.
Proof. exact @pages_from. Qed.
Print Assumptions C71_origin.
Theorem C71_again : forall (T : Type) (NT : Num T) (EN : Env) prec f p (l : list (request T)) ss ss',
  serve prec (PostIndex (Some f)) ss = (Page p, ss') -> Forall looking l ->
  snd (visit prec l ss') = ss' /\
  forall i, nth_error l i = Some GetIndex ->
            nth_error (fst (visit prec l ss')) i = Some (Page p).
Proof. intros T NT EN prec f p l ss ss'. exact (page_again prec f p l ss ss'). Qed.
Print Assumptions C71_again.
(** whoever looks sees the page of the last form that was answered with one since the
    last reset, or else the first page *)
Theorem C71_look : forall (T : Type) (NT : Num T) (EN : Env) prec (l : list (request T)) answers ss,
  visit prec l no_session = (answers, ss) ->
  fst (serve prec GetIndex ss) =
  match last_posted (combine l answers) with
  | Some p => Page p
  | None => match first_page prec with Ok p => Page p | Err e => Failure e end
  end.
Proof. exact @looked. Qed.
Print Assumptions C71_look.
Theorem C71_post : forall (T : Type) (NT : Num T) (EN : Env) prec (ss : session T) f,
  fst (serve prec (PostIndex f) ss) =
  match f with
  | None => ToReset
  | Some f => match post prec f with Ok p => Page p | Err e => Failure e end
  end.
Proof. exact @posted_answer. Qed.
Print Assumptions C71_post.
(** a report link without a number *)
Theorem C71_number : forall (T : Type) (NT : Num T) (EN : Env) prec (l : list (request T)) answers ss,
  visit prec l no_session = (answers, ss) ->
  serve prec (GetPdf None) ss =
  (match last_shown (combine l answers) with
   | None => Failure KeyError
   | Some None => ToIndex
   | Some (Some _) => Failure ValueError
   end, ss).
Proof. exact @report_no_number. Qed.
Print Assumptions C71_number.
(** The first page is the answer to the form of that page as it came, but with 10
    slices and the slope given by its angle. *)
Theorem C71_first : forall (EN : Env) prec,
  first_page prec = post prec
    (MkForm 1 45 1 false 10 500 [None] [] [] false 1 false false 0 8 4 6 false (3 / 2) : form R).
Proof. exact @first_is. Qed.
Print Assumptions C71_first.
(** the report link before any page, and after a reset *)
Example C71_example : forall (EN : Env) prec (m : R),
  fst (visit prec [GetPdf (Some m); GetReset; GetPdf (Some m)] no_session)
  = [Failure KeyError; ToIndex; ToIndex].
Proof. reflexivity. Qed.

(** ** C72 *)
Theorem C72_decimal : forall (T : Type) (NT : Num T) t (s : st T) r s',
  analyse_dynamic (CDecimal t) s = (r, s') ->
  (exists far f0, far_left (fst (g_top (s_geom (snd s)))) (g_length (s_geom (snd s))) (udls_of s) = Ok far /\
     r = Ok (Some 0%Z) /\ try_offset (nz 0) (emptied s) = (Ok f0, s') /\ nltb t f0 = true) \/
  (exists far f0 s1 f1,
     far_left (fst (g_top (s_geom (snd s)))) (g_length (s_geom (snd s))) (udls_of s) = Ok far /\
     r = Ok (Some 1%Z) /\
     try_offset (nz 0) (emptied s) = (Ok f0, s1) /\ nltb t f0 = false /\
     try_offset (nsub far (nlit 1 100)) s1 = (Ok f1, s') /\ nltb f1 t = true) \/
  (exists e, r = Err e /\ given_up t s s').
Proof. exact @decimal_dynamic. Qed.
Print Assumptions C72_decimal.
Theorem C72_answer : forall (EN : Env) (f : form R) s,
  form_valid f = true -> w_dynamic f = true -> create_slope f = Ok s ->
  exists s0, reachable s0 /\ built f s0 /\ limits_accepted f (s_geom (snd s0)) /\
    let c := w_critical f in
    ((exists f0, try_offset 0 (emptied s0) = (Ok f0, s) /\ c < f0) \/
     (exists far f0 s1 f1,
        farthest s0 far /\
        try_offset 0 (emptied s0) = (Ok f0, s1) /\ f0 <= c /\
        try_offset (far - 1 / 100) s1 = (Ok f1, s) /\ f1 < c) \/
     (exists s1, given_up c s0 s1 /\ analyse_slope (Some 5) s1 = (Ok tt, s))).
Proof. exact @dynamic_outcome. Qed.
Print Assumptions C72_answer.
(** a moving load without a length: the ordinary analysis *)
Theorem C72_endless : forall (EN : Env) (f : form R),
  form_valid f = true -> w_dynamic f = true -> setup_ok f ->
  Exists endless_dynamic (real_udls (w_udls f)) ->
  exists s, reachable s /\ built f s /\
    (limits_accepted f (s_geom (snd s)) ->
     create_slope f = match analyse_slope (Some 5) (emptied s) with
                      | (Ok _, s') => Ok s' | (Err e, _) => Err e end).
Proof. exact @endless_outcome. Qed.
Print Assumptions C72_endless.
Definition moving_form : form R :=
  MkForm 3 45 4 true 25 500 (w_materials (clay_form 0)) [] [Some (MkUdlRow 10 2 0 "red" true)]
    true 1 false false 0 0 0 0 true (13 / 10).
Example C72_example : forall EN : Env,
  form_valid moving_form = true /\ w_dynamic moving_form = true /\ setup_ok moving_form /\
  Exists endless_dynamic (real_udls (w_udls moving_form)) /\
  exists s, create_slope moving_form = Ok s.
Proof.
  intros EN.
  assert (V : form_valid moving_form = true) by valid.
  destruct (clay_ok 0) as (_ & O & C).
  assert (U : real_udls (w_udls moving_form)
              = [(10, 2, None, if is_color "red" then "red"%string else "red"%string, true)]).
  { cbn [moving_form w_udls]. unfold real_udls. cbn [map filter udl_values fst wu_magnitude wu_offset wu_length wu_color wu_dynamic].
    rewrite !Rabs_right by lra.
    destruct (Req_EM_T 10 0); [lra|]. destruct (Req_EM_T 0 0) as [_|]; [reflexivity|contradiction]. }
  assert (X : Exists endless_dynamic (real_udls (w_udls moving_form))).
  { rewrite U. left. split; reflexivity. }
  split; [exact V|]. split; [reflexivity|]. split; [exact O|]. split; [exact X|].
  apply endless_answered; [exact V | reflexivity | exact O | exact X | reflexivity | exact C |].
  unfold spare_points. rewrite U. cbn [moving_form w_iterations w_lls List.length].
  destruct (num_points_top_spec 500 ltac:(lia)) as (A & B).
  change (num_circles_of 500) with 5%Z in B.
  change (List.length (real_lls [])) with 0%nat. cbn [Nat.add]. nia.
Qed.

(** ** C73 *)
Theorem C73_rows : forall n l m, small_clicks n l m -> (1 <= n)%nat ->
  let f := clicks (fresh_rows n) l in
  faithful f /\ List.length (fs_rows f) = m /\ fs_total f = m /\ (1 <= m)%nat.
Proof. exact small_faithful. Qed.
Print Assumptions C73_rows.
Theorem C73_loses : forall n k, (10 < n)%nat -> (S k < n)%nat ->
  let f := delete_row k (fresh_rows n) in
  fs_total f = (n - 1)%nat /\ List.length (fs_rows f) = (n - 1)%nat /\
  ~ In (Some (n - 2)%nat) (server_rows f) /\ ~ faithful f.
Proof. exact delete_loses. Qed.
Print Assumptions C73_loses.
(** one row, ten more, the first deleted: the last row is not read *)
Theorem C73_loses_refuted : exists l, ~ faithful (clicks (fresh_rows 1) l).
Proof. exists (repeat AddRow 10 ++ [DeleteRow 0]). vm_compute. discriminate. Qed.
Print Assumptions C73_loses_refuted.
Example C73_example : small_clicks 1 [AddRow; AddRow; AddRow; DeleteRow 1; AddRow; DeleteRow 0] 3 /\
  server_rows (clicks (fresh_rows 1) (repeat AddRow 10 ++ [DeleteRow 0]))
  = [Some 0; Some 1; Some 2; Some 3; Some 4; Some 5; Some 6; Some 7; Some 8; None]%nat.
Proof. split; [repeat (constructor; try lia)|reflexivity]. Qed.

(** ** C74 *)
Theorem C74_link : forall l e href,
  link_after (l ++ [e]) href = match e with EditInput => None
                                          | EditDisplay d => Some ("pdf/" ++ d)%string end.
Proof. exact link_last. Qed.
Print Assumptions C74_link.
Theorem C74_link_refuted : exists l d, In EditInput l /\
  link_after (l ++ [EditDisplay d]) (Some "pdf/2.0"%string) = Some ("pdf/" ++ d)%string.
Proof. exact link_again. Qed.
Print Assumptions C74_link_refuted.

(** ** C75 *)
Theorem C75_keys : forall fos,
  (~ halfway fos -> js_color_key fos = fos_key fos) /\
  (forall k : Z, fos * 10 = IZR k + / 2 ->
     js_color_key fos = Z.min (k + 1) 50 /\
     fos_key fos = Z.min (if Z.even k then k else k + 1) 50).
Proof. exact colour_keys. Qed.
Print Assumptions C75_keys.
Theorem C75_tie_refuted : exists fos, 0 < fos < 5 /\ js_color_key fos <> fos_key fos.
Proof.
  exists (125 / 100). split; [lra|].
  destruct (proj2 (C75_keys (125 / 100)) 12%Z ltac:(lra)) as (-> & ->). discriminate.
Qed.
Print Assumptions C75_tie_refuted.
Example C75_example : ~ halfway (127 / 100).
Proof.
  intros (k & E). assert (A : IZR k = 122 / 10) by lra.
  assert (B : IZR 12 < IZR k < IZR 13) by lra. destruct B as [B C].
  apply lt_IZR in B. apply lt_IZR in C. lia.
Qed.

(** ** C76 *)
Theorem C76_decimals : forall a d, has_dot a = false -> has_dot d = false ->
  let p := get_precision (a ++ String dot d) in
  ((p < String.length d - 3)%nat /\ zeros_at d p /\ forall j, (j < p)%nat -> ~ zeros_at d j) \/
  (p = String.length d /\ forall j, (j < String.length d - 3)%nat -> ~ zeros_at d j).
Proof. exact precision_spec. Qed.
Print Assumptions C76_decimals.
Theorem C76_keeps : forall a d, has_dot a = false -> has_dot d = false ->
  (forall j, (j < String.length d - 3)%nat -> ~ zeros_at d j) ->
  nothing_lost d (get_precision (a ++ String dot d)).
Proof. exact precision_keeps. Qed.
Print Assumptions C76_keeps.
Theorem C76_whole : forall s, has_dot s = false -> get_precision s = 0%nat.
Proof. exact precision_whole. Qed.
Print Assumptions C76_whole.
(** 1.0005 kPa is shown as 1 *)
Theorem C76_lost_refuted : exists a d, has_dot a = false /\ has_dot d = false /\
  ~ nothing_lost d (get_precision (a ++ String dot d)).
Proof.
  exists "1"%string, "0005"%string. split; [reflexivity|]. split; [reflexivity|].
  intros Q. specialize (Q 3%nat ltac:(cbn; lia)). discriminate Q.
Qed.
Print Assumptions C76_lost_refuted.
Example C76_example : get_precision "12.345" = 3%nat /\ get_precision "0.10000000000000001" = 1%nat
  /\ get_precision "7" = 0%nat.
Proof. split; [|split]; reflexivity. Qed.
