(** * PropsScreen: the legend, the slider and the table on narrow screens (C80-C82). *)
From Coq Require Import ZArith Reals Lra Lia List Bool String Ascii Sorted Permutation.
From Verif Require Import Num Py Validation Utilities Objects Slope Planes Analysis
     Dynamic Api RealNum RealFacts ListFacts MonadFacts SlopeFacts MaterialFacts
     Invariant History Spec Demo PlaneFacts LayerFacts SearchFacts GrowFacts Plot PlotFacts
     Web Browser FigureFacts DrawFacts ShowFacts PictureFacts SessionFacts FormFacts FormMore
     FosFacts HitFacts WeakFacts PageFacts BrowserFacts FosTotal Screen ScreenFacts PropsWeb.
Import ListNotations.
Local Open Scope R_scope.

(** ** C80 *)
(** 51 cells from the top down, each starting where the one above ends *)
Theorem C80_cells :
  List.length (@legend_cells R RNum) = 51%nat /\
  forall a b c, In (a, b, c) (@legend_cells R RNum) <->
    exists k, (0 <= k <= 50)%Z /\ a = 9 / 10 - 8 / 100 * (IZR k / 10) /\
              b = 9 / 10 - 8 / 100 * (IZR (k + 1) / 10) /\ c = hue_at k.
Proof. split; [now rewrite cells_are, map_length | exact cell_in]. Qed.
Print Assumptions C80_cells.
(** the colour of a factor is found half a cell below its place *)
Theorem C80_reads : forall f, 0 <= f <= 5 ->
  exists a b c, In (a, b, c) (@legend_cells R RNum) /\ fos_hue f = Ok c /\
    b <= 9 / 10 - 8 / 100 * (f + 1 / 20) <= a.
Proof. exact legend_reads. Qed.
Print Assumptions C80_reads.
Example C80_example : 0 <= 127 / 100 <= 5 /\
  In (9 / 10 - 8 / 100 * (IZR 13 / 10), 9 / 10 - 8 / 100 * (IZR (13 + 1) / 10), hue_at 13)
     (@legend_cells R RNum).
Proof.
  split; [lra|]. apply C80_cells. exists 13%Z. split; [lia|]. split; [reflexivity|]. split; reflexivity.
Qed.
(** and not at its place *)
Theorem C80_place_refuted : exists f a b c, 0 <= f <= 5 /\ In (a, b, c) (@legend_cells R RNum) /\
  b < 9 / 10 - 8 / 100 * f < a /\ fos_hue f <> Ok c /\
  (forall a' b' c', In (a', b', c') (@legend_cells R RNum) -> fos_hue f = Ok c' ->
     ~ (b' <= 9 / 10 - 8 / 100 * f <= a')).
Proof. exact legend_off. Qed.
Print Assumptions C80_place_refuted.
Theorem C80_labels : @legend_labels R RNum =
  map (fun n => (IZR n,
         9 / 10 - 8 / 100 * (if Z.leb n 2 then IZR n - 15 / 100
                             else if Z.leb 5 n then IZR n else IZR n + 1 / 10)))
      [0; 1; 2; 3; 4; 5]%Z.
Proof. exact labels_are. Qed.
Print Assumptions C80_labels.
(** the numbers 0, 1 and 2 stand above the cell with the colour of their value *)
Theorem C80_labels_refuted : forall n, (0 <= n <= 2)%Z ->
  exists y, In (IZR n, y) (@legend_labels R RNum) /\
  exists c, fos_hue (IZR n) = Ok c /\
  forall a b, In (a, b, c) (@legend_cells R RNum) -> a < y.
Proof.
  intros n B. destruct (labels_off n B) as (A & F & G). exists (label_at n). split; [exact A|].
  exists (hue_at (10 * n)). split; [exact F | exact G].
Qed.
Print Assumptions C80_labels_refuted.

(** ** C81 *)
Theorem C81_slider : forall hover (search : list (plane R * list (point R))) l v,
  ranked (map fst search) -> Forall numbers l ->
  exists s, (let! s := load_page hover v search in on_events hover search l s) = Ok s /\
    sc_limit s = limit_after l v /\
    sc_shown s = rev (filter (fun c => shown_below (Some (limit_after l v)) (fst c)) search).
Proof. exact slider_shows. Qed.
Print Assumptions C81_slider.
Theorem C81_fresh : forall (T : Type) (NT : Num T) hover search l (v : T) s,
  Forall numbers l ->
  (let! s := load_page hover v search in on_events hover search l s) = Ok s ->
  updateFOS (limit_after l v) search = Ok (sc_shown s) /\ sc_limit s = limit_after l v.
Proof. exact @slider_fresh. Qed.
Print Assumptions C81_fresh.
Example C81_example :
  let moves := [Slide "1.0" 1; Resize; Slide "2.5" (5 / 2); Slide "2.0" 2]%string in
  Forall numbers moves /\ ranked (map fst three_circles) /\
  exists s, (let! s := load_page (fun x => x) (3 / 2) three_circles in
             on_events (fun x => x) three_circles moves s) = Ok s /\
    sc_shown s = map (fun f => (set_fos (Some f) demo_plane, [])) [14 / 10; 9 / 10].
Proof.
  intros moves. destruct C70_example as (K & U).
  assert (N : Forall numbers moves).
  { repeat (apply Forall_cons; [first [exact Logic.I | eexists _, _; split; [reflexivity|]; cbn; lia]|]).
    apply Forall_nil. }
  split; [exact N|]. split; [exact K|].
  destruct (C81_slider (fun x => x) three_circles moves (3 / 2) K N) as (s & E & _ & Q).
  exists s. split; [exact E|]. rewrite Q. change (limit_after moves (3 / 2)) with 2.
  destruct (C70_lists (MkFig [] [] []) three_circles 2 K) as (U' & _). rewrite U in U'.
  injection U' as U'. symmetry. exact U'.
Qed.

(** ** C82 *)
Theorem C82_table : forall (EN : Env) prec (f : form R) fig search,
  form_valid f = true -> post prec f = Ok (fig, search) ->
  exists layers,
    StronglySorted (fun a b => m_depth a < m_depth b) layers /\
    Permutation (map layer_values layers) (map row_values (w_materials f)) /\
    (forall i m, nth_error layers i = Some m -> rightly_coloured i m) /\
    mobile_table f fig
    = Ok (combine (map row_inputs (w_materials f)) (map (fun m => Some (m_color m)) layers)).
Proof. exact @narrow_table. Qed.
Print Assumptions C82_table.
Theorem C82_in_order : forall (EN : Env) prec (f : form R) fig search,
  form_valid f = true -> post prec f = Ok (fig, search) ->
  StronglySorted Rlt (map row_depth (w_materials f)) ->
  exists table, mobile_table f fig = Ok table /\
    List.length table = List.length (w_materials f) /\
    forall i r, nth_error (w_materials f) i = Some (Some r) ->
      nth_error table i = Some (wm_unit_weight r, wm_cohesion r, wm_friction r, wm_name r,
        Some (if is_color (wm_color r) then
                if String.eqb (wm_color r) EmptyString
                then nth (Nat.modulo i 10) MATERIAL_COLORS EmptyString else wm_color r
              else nth (Nat.modulo i 10) MATERIAL_COLORS EmptyString)).
Proof. exact @table_in_order. Qed.
Print Assumptions C82_in_order.

(** Rows from the top down: each row holds the numbers of its own layer, blank rows
    included. *)
Theorem C82_layers : forall (EN : Env) prec (f : form R) fig search,
  form_valid f = true -> post prec f = Ok (fig, search) ->
  StronglySorted Rlt (map row_depth (w_materials f)) ->
  exists layers, map layer_values layers = map row_values (w_materials f) /\
    exists table, mobile_table f fig = Ok table /\
    Forall2 (fun row m => exists c, row = (m_unit_weight m, c, m_friction_angle m, m_name m, Some (m_color m)) /\
                                    Rabs c = m_cohesion m) table layers.
Proof. exact @table_layers. Qed.
Print Assumptions C82_layers.
(** The script stops when the form has more rows than the figure has lines after the
    first; that never happens right after an answer (above). *)
Theorem C82_more_rows : forall (f : form R) fig, mobile_table f fig = Err TypeError <->
  (List.length (tl (f_traces fig)) < List.length (w_materials f))%nat.
Proof. exact @table_fails. Qed.
Print Assumptions C82_more_rows.

(** Two weak clays, in either order *)
Definition two_clays (rows : list (option (material_row R))) : form R :=
  MkForm 3 45 4 true 10 500 rows [] [] true 1 true true 2 12 8 9 false (13 / 10).
Definition upper : option (material_row R) := Some (MkMatRow 18 0 (1 / 2000) 2 "Mud" "brown").
Definition lower : option (material_row R) := Some (MkMatRow 19 0 (1 / 2000) 5 "Clay" "gray").
Lemma clays_shown (EN : Env) prec rows : rows = [upper; lower] \/ rows = [lower; upper] ->
  form_valid (two_clays rows) = true /\
  exists fig search, post prec (two_clays rows) = Ok (fig, search).
Proof.
  intros Hrows. set (f := two_clays rows).
  assert (V : form_valid f = true) by valid.
  assert (Ld : dims_length f = 4) by (unfold dims_length; cbn; apply Rmax_left; lra).
  assert (O : setup_ok f).
  { split; [unfold dims_ok; cbn; lra|]. split; [unfold f; destruct Hrows; subst rows; rows|].
    split; [|cbn; intros; lra]. unfold f. destruct Hrows; subst rows;
      cbn [two_clays w_materials map row_depth upper lower wm_depth];
      rewrite (Rabs_right 2), (Rabs_right 5) by lra;
      (constructor; [cbn [In]; intros [Q|[]]; lra | repeat constructor; intros []]). }
  assert (X : crest_x f = 8).
  { unfold crest_x. rewrite Ld. cbn [f two_clays w_height].
    rewrite (Rmax_left (5 * 4) 10), Rmax_left by lra. lra. }
  assert (L : face_limits f).
  { unfold face_limits. rewrite X, Ld. cbn [f two_clays w_consider_limits w_consider_inner w_left w_left_r
      w_right_l w_right w_height]. repeat (split; [reflexivity || lra|]). lra. }
  assert (C : Forall (clay_row (1 / 2000)) (w_materials f)).
  { unfold f. destruct Hrows; subst rows;
      (apply Forall_cons; [cbn; rewrite Rabs_right by lra; lra|
       apply Forall_cons; [cbn; rewrite Rabs_right by lra; lra| apply Forall_nil]]). }
  assert (H2 : w_height f <= 2 * dims_length f) by (rewrite Ld; cbn; lra).
  assert (K : 800 * (1 / 2000 * IZR (w_slices f)) <= w_right f - w_left_r f) by (cbn; lra).
  assert (M : w_materials f <> []) by (unfold f; destruct Hrows; subst rows; discriminate).
  split; [exact V|].
  destruct (C69_shown EN prec f (1 / 2000) V eq_refl O eq_refl eq_refl L H2 M C K) as (fig & search & P & _).
  eauto.
Qed.
Example C82_example : forall (EN : Env) prec,
  form_valid (two_clays [upper; lower]) = true /\
  (exists fig search, post prec (two_clays [upper; lower]) = Ok (fig, search)) /\
  StronglySorted Rlt (map row_depth (w_materials (two_clays [upper; lower]))).
Proof.
  intros EN prec. destruct (clays_shown EN prec [upper; lower] (or_introl eq_refl)) as (V & E).
  split; [exact V|]. split; [exact E|].
  cbn [two_clays w_materials map row_depth upper lower wm_depth].
  rewrite (Rabs_right 2), (Rabs_right 5) by lra.
  constructor; [constructor; [constructor|constructor]|]. constructor; [lra|constructor].
Qed.
(** The deeper clay first: the table gives each clay the colour of the other. *)
Theorem C82_swapped_refuted : forall (EN : Env) prec,
  is_color "brown" = true -> is_color "gray" = true ->
  exists (f : form R) fig search, form_valid f = true /\ post prec f = Ok (fig, search) /\
    w_materials f = [Some (MkMatRow 19 0 (1 / 2000) 5 "Clay" "gray");
                     Some (MkMatRow 18 0 (1 / 2000) 2 "Mud" "brown")]%string /\
    mobile_table f fig = Ok [(19, 1 / 2000, 0, "Clay", Some "brown");
                             (18, 1 / 2000, 0, "Mud", Some "gray")]%string.
Proof.
  intros EN prec Cb Cg.
  destruct (clays_shown EN prec [lower; upper] (or_intror eq_refl)) as (V & fig & search & P).
  exists (two_clays [lower; upper]), fig, search. split; [exact V|]. split; [exact P|].
  split; [reflexivity|].
  destruct (C82_table EN prec _ fig search V P) as (layers & S1 & B & C & ->).
  assert (B' : map layer_values layers = map row_values [upper; lower]).
  { apply values_by_depth.
    - now apply sorted_depths.
    - cbn [map row_values upper lower wm_unit_weight wm_friction wm_cohesion wm_depth wm_name wm_color fst snd].
      rewrite (Rabs_right 2), (Rabs_right 5) by lra.
      constructor; [constructor; [constructor|constructor]|]. constructor; [lra|constructor].
    - rewrite B. cbn [two_clays w_materials map]. apply perm_swap. }
  destruct layers as [|m1 [|m2 [|m3 l]]]; try discriminate B'.
  assert (B1 : layer_values m1 = row_values upper) by (exact (f_equal (fun l => hd (layer_values m1) l) B')).
  assert (B2 : layer_values m2 = row_values lower) by (exact (f_equal (fun l => hd (layer_values m1) (tl l)) B')).
  assert (U1 : m_user_color m1 = "brown"%string) by exact (f_equal snd B1).
  assert (U2 : m_user_color m2 = "gray"%string) by exact (f_equal snd B2).
  destruct (C 0%nat m1 eq_refl) as [C1 _]. destruct (C 1%nat m2 eq_refl) as [C2 _].
  unfold own_colour in C1, C2. rewrite U1 in C1. rewrite U2 in C2.
  cbn [map]. rewrite C1, C2 by (split; [assumption|discriminate]). reflexivity.
Qed.
Print Assumptions C82_swapped_refuted.
