(** * ScreenFacts: the legend, the slider and the table on narrow screens. *)
From Coq Require Import ZArith Reals Lra Lia List Bool String Ascii Sorted Permutation.
From Verif Require Import Num Py Validation Utilities Objects Slope Planes Analysis
     Dynamic Api RealNum RealFacts ListFacts MonadFacts SlopeFacts MaterialFacts Invariant
     History Spec EditFacts KeepFacts LayerFacts SoilFacts MatInv SearchFacts Plot PlotFacts
     Web Browser FigureFacts DrawFacts ShowFacts PictureFacts SessionFacts FormFacts FormMore
     Screen.
Import ListNotations.
Local Open Scope R_scope.

(** ** The legend *)
(** the height of the value [k] on the scale *)
Definition scale_at (k : R) : R := 9 / 10 - 8 / 100 * k.
Lemma legend_y_R k : legend_y k = scale_at k.
Proof.
  unfold legend_y, legend_top, legend_bottom, scale_at. rewrite max_key. unfold tenth. unR.
  rewrite ?nlit_R. field.
Qed.
Lemma zdict_is : zdict = map (fun k => (k, hue_at k)) (zrange 0 51).
Proof. vm_compute. reflexivity. Qed.
Definition scale_cell (k : Z) : R * R * hue :=
  (scale_at (IZR k / 10), scale_at (IZR (k + 1) / 10), hue_at k).
Lemma cells_are : @legend_cells R RNum = map scale_cell (zrange 0 51).
Proof.
  unfold legend_cells. rewrite dict_up, zdict_is, !map_map. apply map_ext. intros k.
  cbn [fst snd]. rewrite !legend_y_R. unfold scale_cell, tenth. do 3 f_equal.
  unR. rewrite ?nlit_R, plus_IZR. field.
Qed.
Lemma zrange_in n : forall a k, In k (zrange a n) <-> (a <= k < a + Z.of_nat n)%Z.
Proof.
  induction n as [|n IH]; intros a k; cbn [zrange In]; [lia|]. rewrite IH. lia.
Qed.
Lemma cell_in a b c : In (a, b, c) (@legend_cells R RNum) <->
  exists k, (0 <= k <= 50)%Z /\ a = scale_at (IZR k / 10) /\ b = scale_at (IZR (k + 1) / 10) /\
            c = hue_at k.
Proof.
  rewrite cells_are, in_map_iff. split.
  - intros (k & Q & I). apply zrange_in in I. unfold scale_cell in Q. injection Q as <- <- <-.
    exists k. split; [lia|]. split; [reflexivity|]. split; reflexivity.
  - intros (k & L & -> & -> & ->). exists k. split; [reflexivity|]. apply zrange_in. lia.
Qed.
(** a factor has the colour found half a cell below its place *)
Lemma legend_reads f : 0 <= f <= 5 ->
  exists a b c, In (a, b, c) (@legend_cells R RNum) /\ fos_hue f = Ok c /\
    b <= scale_at (f + 1 / 20) <= a.
Proof.
  intros P. destruct (fos_key_near f) as (K & N); [lra|]. rewrite Rmin_left in N by lra.
  exists (scale_at (IZR (fos_key f) / 10)), (scale_at (IZR (fos_key f + 1) / 10)), (hue_at (fos_key f)).
  split; [apply cell_in; eauto|]. split; [apply fos_hue_key; lra|].
  unfold scale_at. rewrite plus_IZR.   revert N. unfold Rabs. destruct (Rcase_abs _); intros; lra.
Qed.
(** 1.27 has the colour of 1.3 but lies in the cell of 1.2 *)
Lemma legend_off : exists f a b c, 0 <= f <= 5 /\ In (a, b, c) (@legend_cells R RNum) /\
  b < scale_at f < a /\ fos_hue f <> Ok c /\
  (forall a' b' c', In (a', b', c') (@legend_cells R RNum) -> fos_hue f = Ok c' ->
     ~ (b' <= scale_at f <= a')).
Proof.
  exists (127 / 100), (scale_at (IZR 12 / 10)), (scale_at (IZR (12 + 1) / 10)), (hue_at 12).
  assert (K : fos_key (127 / 100) = 13%Z).
  { destruct (fos_key_near (127 / 100)) as (_ & N); [lra|]. rewrite Rmin_left in N by lra.
    assert (L : 12 < IZR (fos_key (127 / 100)) < 14).
    { revert N. unfold Rabs. destruct (Rcase_abs _); intros; lra. }
    destruct L as [L1 L2]. apply lt_IZR in L1. apply lt_IZR in L2. lia. }
  assert (F : fos_hue (127 / 100) = Ok (hue_at 13)) by (rewrite fos_hue_key, K by lra; reflexivity).
  split; [lra|]. split; [apply cell_in; exists 12%Z; split; [lia|]; split; [reflexivity|]; split; reflexivity|].
  split; [unfold scale_at; rewrite plus_IZR; lra|]. split; [rewrite F; discriminate|].
  intros a b c I Q L. destruct (proj1 (cell_in a b c) I) as (k & B & -> & -> & ->).
  rewrite F in Q. injection Q as Q.
  assert (k = 13%Z).
  { revert Q. unfold hue_at. destruct (Z.eqb_spec 13 50); [lia|]. destruct (Z.eqb_spec k 50).
    - discriminate.
    - intros Q. change (13 / 10)%Z with 1%Z in Q. change (13 mod 10)%Z with 3%Z in Q.
      injection Q as Q1 Q2. pose proof (Z.div_mod k 10). lia. }
  subst k. unfold scale_at in L. rewrite plus_IZR in L. lra.
Qed.
Lemma whole_tenth k : @whole R RNum (tenth k) = Z.eqb (k mod 10) 0.
Proof.
  unfold whole. unR. rewrite round1.
  replace (tenth k * 10) with (IZR k) by (unfold tenth; field). rewrite near_int.
  destruct (Z.eqb_spec (k mod 10) 0) as [E|E].
  - apply Z.div_exact in E; [|lia].
    assert (Q : tenth k = IZR (k / 10)) by (rewrite E at 1; unfold tenth; rewrite mult_IZR; field).
    rewrite Q. unfold Rtrunc. rewrite Int_part_IZR, <- opp_IZR, Int_part_IZR.
    destruct (Rle_dec 0 (IZR (k / 10))); [apply Reqb_refl|]. rewrite Z.opp_involutive. apply Reqb_refl.
  - apply Reqb_false. intros Q. apply E. unfold tenth in Q.
    assert (D : IZR k = IZR (10 * Rtrunc (IZR k / 10))) by (rewrite mult_IZR; lra).
    apply eq_IZR in D. rewrite D, Z.mul_comm. apply Z.mod_mul. lia.
Qed.

(** the numbers beside the scale *)
Definition label_at (n : Z) : R :=
  scale_at (if Z.leb n 2 then IZR n - 15 / 100 else if Z.leb 5 n then IZR n else IZR n + 1 / 10).
Lemma labels_are : @legend_labels R RNum = map (fun n => (IZR n, label_at n)) [0; 1; 2; 3; 4; 5]%Z.
Proof.
  unfold legend_labels. rewrite dict_up, zdict_is, map_map. cbn [fst snd].
  assert (Q : forall l, flat_map (fun kv : R * hue => if @whole R RNum (fst kv)
                then [(fst kv, legend_label (fst kv))] else [])
              (map (fun k => (tenth k, hue_at k)) l)
            = map (fun k => (tenth k, legend_label (tenth k))) (filter (fun k => Z.eqb (k mod 10) 0) l)).
  { induction l as [|k l IH]; [reflexivity|]. cbn [map flat_map fst snd filter]. rewrite IH, whole_tenth.
    destruct (Z.eqb (k mod 10) 0); reflexivity. }
  rewrite Q. clear Q.
  change (filter (fun k => Z.eqb (k mod 10) 0) (zrange 0 51)) with (map (Z.mul 10) [0; 1; 2; 3; 4; 5])%Z.
  rewrite map_map. apply map_ext_in. intros n I.
  assert (Tn : tenth (10 * n) = IZR n) by (unfold tenth; rewrite mult_IZR; field).
  rewrite Tn. f_equal. unfold legend_label, label_at. rewrite !legend_y_R. unR. rewrite ?nlit_R.
  assert (B : (0 <= n <= 5)%Z) by (cbn [In] in I; lia).
  destruct (Z.leb_spec n 2) as [L|L].
  - rewrite (proj2 (Rltb_true _ _)); [reflexivity|]. apply IZR_le in L. lra.
  - rewrite (proj2 (Rltb_false _ _)).
    2:{ assert (3 <= IZR n) by (apply IZR_le; lia). lra. }
    destruct (Z.leb_spec 5 n) as [M|M].
    + rewrite (proj2 (Rltb_true _ _)); [reflexivity|]. apply IZR_le in M. lra.
    + rewrite (proj2 (Rltb_false _ _)); [reflexivity|].
      assert (IZR n <= 4) by (apply IZR_le; lia). lra.
Qed.
(** the numbers 0, 1 and 2 are not beside the cell of their value *)
Lemma labels_off n : (0 <= n <= 2)%Z -> In (IZR n, label_at n) (@legend_labels R RNum) /\
  fos_hue (IZR n) = Ok (hue_at (10 * n)) /\
  forall a b, In (a, b, hue_at (10 * n)) (@legend_cells R RNum) -> a < label_at n.
Proof.
  intros B. rewrite labels_are. split; [apply in_map_iff; exists n; split; [reflexivity|]; cbn [In]; lia|].
  split.
  - assert (K : fos_key (IZR n) = (10 * n)%Z).
    { unfold fos_key. replace (IZR n * 10) with (IZR (10 * n)) by (rewrite mult_IZR; lra).
      rewrite near_int. lia. }
    rewrite fos_hue_key, K; [reflexivity|]. apply IZR_le. lia.
  - intros a b I. destruct (proj1 (cell_in _ _ _) I) as (k & Bk & -> & _ & Q).
    assert (E : k = (10 * n)%Z).
    { revert Q. unfold hue_at. destruct (Z.eqb_spec (10 * n) 50); [lia|].
      rewrite (Z.mul_comm 10 n), Z.div_mul, Z.mod_mul by lia.
      destruct (Z.eqb_spec k 50); intros Q; injection Q as Q1 Q2; [discriminate|].
      pose proof (Z.div_mod k 10). lia. }
    subst k. unfold label_at. destruct (Z.leb_spec n 2); [|lia]. unfold scale_at.
    rewrite mult_IZR. lra.
Qed.

(** ** The slider *)
Definition number_text (t : string) : Prop :=
  exists c r, t = String c r /\ (N_of_ascii c < 91)%N.
Lemma never_greater t : number_text t -> String.ltb "[object Event]" t = false.
Proof.
  intros (c & r & -> & L). unfold String.ltb. cbn [String.compare].
  unfold Ascii.compare. change (N_of_ascii "["%char) with 91%N.
  destruct (N.compare_spec 91 (N_of_ascii c)); [lia|lia|reflexivity].
Qed.
Section Slider.
  Context {T : Type} {NT : Num T} (hover : T -> T).
  Definition numbers (e : screen_event T) : Prop :=
    match e with Slide t _ => number_text t | Resize => True end.
  Definition limit_after (l : list (screen_event T)) (v : T) : T :=
    fold_left (fun v e => match e with Slide _ v => v | Resize => v end) l v.
  Lemma between_zero limit (search : list (plane T * list (point T))) :
    circles_between (nz 0) limit search = shown_circles limit search.
  Proof. induction search as [|c l IH]; cbn; [reflexivity|]. now rewrite IH. Qed.
  Lemma create_update limit search : create_shown hover limit search = updateFOS limit search.
  Proof.
    unfold create_shown, update_shown, updateFOS. cbn [previous_fos rbind].
    rewrite between_zero. destruct (nltb (nz 0) limit); [|reflexivity]. reflexivity.
  Qed.
  (** every move and every change of size draws anew *)
  Lemma event_fresh search e s : numbers e ->
    sc_stored s = None \/ sc_stored s = Some "[object Event]"%string ->
    match on_event hover search e s with
    | Ok s' => updateFOS (limit_after [e] (sc_limit s)) search = Ok (sc_shown s') /\
               sc_limit s' = limit_after [e] (sc_limit s) /\
               (sc_stored s' = None \/ sc_stored s' = Some "[object Event]"%string)
    | Err x => updateFOS (limit_after [e] (sc_limit s)) search = Err x
    end.
  Proof.
    intros N St. destruct e as [t v|]; cbn [on_event limit_after fold_left numbers] in *.
    - assert (G : text_greater t (sc_stored s) = false).
      { destruct St as [-> | ->]; [reflexivity|]. now apply never_greater. }
      rewrite G, create_update. destruct (updateFOS v search); cbn [rbind]; [|reflexivity].
      cbn. auto.
    - rewrite create_update. destruct (updateFOS (sc_limit s) search); cbn [rbind]; [|reflexivity].
      cbn. auto.
  Qed.
  Lemma events_fresh search l : forall s,
    updateFOS (sc_limit s) search = Ok (sc_shown s) ->
    sc_stored s = None \/ sc_stored s = Some "[object Event]"%string ->
    Forall numbers l ->
    match on_events hover search l s with
    | Ok s' => updateFOS (limit_after l (sc_limit s)) search = Ok (sc_shown s') /\
               sc_limit s' = limit_after l (sc_limit s)
    | Err x => exists l1 l2, l = l1 ++ l2 /\ updateFOS (limit_after l1 (sc_limit s)) search = Err x
    end.
  Proof.
    induction l as [|e l IH]; intros s U St N; cbn [on_events]; [split; auto|].
    inversion N as [|? ? Ne Nl]; subst. pose proof (event_fresh search e s Ne St) as F.
    destruct (on_event hover search e s) as [s1|x]; cbn [rbind].
    - destruct F as (F1 & F2 & F3). rewrite <- F2 in F1.
      specialize (IH s1 F1 F3 Nl).
      assert (Q : forall k, limit_after (e :: k) (sc_limit s) = limit_after k (sc_limit s1)).
      { intros k. rewrite F2. reflexivity. }
      destruct (on_events hover search l s1) as [s2|x].
      + rewrite Q. exact IH.
      + destruct IH as (l1 & l2 & -> & E). exists (e :: l1), l2. split; [reflexivity|]. now rewrite Q.
    - exists [e], l. split; [reflexivity|exact F].
  Qed.
  Lemma slider_fresh search l v s : Forall numbers l ->
    (let! s := load_page hover v search in on_events hover search l s) = Ok s ->
    updateFOS (limit_after l v) search = Ok (sc_shown s) /\ sc_limit s = limit_after l v.
  Proof.
    intros N. unfold load_page. rewrite create_update.
    destruct (updateFOS v search) as [shown|] eqn:E; cbn [rbind]; [|discriminate].
    intros Q. pose proof (events_fresh search l (MkScreen None v shown) E (or_introl eq_refl) N) as F.
    rewrite Q in F. exact F.
  Qed.
End Slider.
Lemma slider_shows hover (search : list (plane R * list (point R))) l v :
  ranked (map fst search) -> Forall numbers l ->
  exists s, (let! s := load_page hover v search in on_events hover search l s) = Ok s /\
    sc_limit s = limit_after l v /\
    sc_shown s = rev (filter (fun c => shown_below (Some (limit_after l v)) (fst c)) search).
Proof.
  intros K N. unfold load_page. rewrite create_update, display_filter by auto. cbn [rbind].
  set (s0 := MkScreen None v _).
  assert (U : updateFOS (sc_limit s0) search = Ok (sc_shown s0)) by (apply display_filter; auto).
  pose proof (events_fresh hover search l s0 U (or_introl eq_refl) N) as F.
  destruct (on_events hover search l s0) as [s|x].
  - exists s. split; [reflexivity|]. destruct F as [F1 F2]. split; [exact F2|].
    change (sc_limit s0) with v in *. rewrite display_filter in F1 by auto. now injection F1 as <-.
  - destruct F as (l1 & l2 & _ & F). rewrite display_filter in F by auto. discriminate.
Qed.

(** ** Narrow screens *)
Section Table.
  Context {EN : Env}.
  Notation stR := (st R).
  (** the colour of the layer at position [i] *)
  Definition rightly_coloured (i : nat) (m : material R) : Prop :=
    (own_colour m -> m_color m = m_user_color m) /\
    (~ own_colour m -> m_color m = nth (Nat.modulo i 10) MATERIAL_COLORS EmptyString).
  Definition coloured (s : stR) : Prop :=
    forall i m, nth_error (mats_of s) i = Some m -> rightly_coloured i m.
  Lemma coloured_same (s s' : stR) : mats s' = mats s -> coloured s -> coloured s'.
  Proof.
    unfold mats, coloured, mats_of. intros E. injection E as -> ->. auto.
  Qed.
  Definition no_removal (o : op R) : Prop := match o with RemoveMaterial _ _ _ => False | _ => True end.
  Lemma coloured_exec o (s s' : stR) : no_removal o -> reachable s -> exec o s = (Ok tt, s') ->
    coloured s -> coloured s'.
  Proof.
    intros N Hr E C. destruct (material_call o) eqn:K.
    2:{ apply (coloured_same s); auto. pose proof (mats_other o K s) as Q. now rewrite E in Q. }
    destruct o; try discriminate K; try contradiction.
    - cbn [exec] in E. unfold alloc in E. rewrite bind_lift in E.
      destruct (new_material _ _ _ _ _ _) as [m|]; [|discriminate].
      injection E as <-. unfold coloured, mats_of. cbn [fst snd h_materials].
      rewrite derefs_more; [exact C|]. apply mats_valid. now apply reachable_inv.
    - intros i m. apply (colours_after_set s s' _ Hr E).
  Qed.
  Lemma coloured_all l : forall s s' : stR, Forall no_removal l -> reachable s ->
    exec_all l s = (Ok tt, s') -> coloured s -> coloured s'.
  Proof.
    induction l as [|o l IH]; intros s s' N Hr; cbn [exec_all].
    - intros Q. now injection Q as <-.
    - inversion N as [|? ? No Nl]; subst. unfold mbind.
      destruct (exec o s) as [[[]|e] s1] eqn:E; [|discriminate].
      intros Q C. apply (IH s1); auto. { eapply exec_reachable; eauto. }
      now apply (coloured_exec o s).
  Qed.
  Lemma setting_no_removal o : web_call o = true -> no_removal o.
  Proof. destruct o; cbn; auto. discriminate. Qed.
  Lemma analysis_mats f : keeps (same mats) (web_analysis (T := R) f).
  Proof.
    unfold web_analysis. destruct (w_dynamic f); [|apply mats_analyse].
    intros s. unfold mtry. pose proof (mats_dynamic (CDecimal (w_critical f)) s) as D.
    unfold mbind. destruct (analyse_dynamic (CDecimal (w_critical f)) s) as [[a|e] s1]; cbn [snd] in D.
    - exact D.
    - unfold same in *.
      pose proof (mats_analyse (Some (nz 5)) s1) as Q. unfold same in Q.
      destruct e; cbn [snd]; congruence.
  Qed.
  (** the layers of the slope the form makes *)
  Lemma created_layers f s : create_slope f = Ok s ->
    reachable s /\ coloured s /\ StronglySorted (fun a b => m_depth a < m_depth b) (mats_of s) /\
    (form_valid f = true ->
     Permutation (map layer_values (mats_of s)) (map row_values (w_materials f))).
  Proof.
    intros E. destruct (created_sound f s E) as (Hr & _). split; [exact Hr|].
    split; [|split; [apply (layers_sorted s Hr)|]].
    - destruct (created f s E) as (s0 & s1 & E0 & E1 & E2).
      destruct (web_slope_spec f) as [[D Q]|[_ Q]]; [|congruence].
      assert (s0 = first_model f) by congruence. subst s0.
      apply (coloured_same s1); [pose proof (analysis_mats f s1) as K; now rewrite E2 in K|].
      apply (coloured_all (setup_ops f ++ limit_ops f) (first_model f)); auto.
      + assert (W : Forall (fun o => web_call o = true) (setup_ops f ++ limit_ops f ++ [Analyse (Some 5)]))
          by (apply web_calls; now left).
        rewrite app_assoc in W. apply Forall_app in W. destruct W as [W _].
        eapply Forall_impl; [|exact W]. intros o. apply setting_no_removal.
      + now apply first_reachable.
      + intros i m. destruct i; discriminate.
    - intros V. destruct (create_outcome f V) as [(O & s1 & R1 & B & [(_ & _ & Q)|(_ & Q)])|(_ & Q)];
        try congruence.
      rewrite E in Q. pose proof (analysis_mats f s1) as K. unfold same in K.
      destruct (web_analysis f s1) as [[[]|e] s2]; [|discriminate]. injection Q as <-.
      cbn [snd] in K. replace (mats_of s) with (mats_of s1); [apply (b_layers f s1 B)|].
      unfold mats in K. unfold mats_of. now injection K as -> ->.
  Qed.
  Lemma loop_materials g ms : forall top outs, layer_loop g ms top = Ok outs ->
    map fst outs = map snd (ms : list (R * material R)).
  Proof.
    induction ms as [|(y, m) ms IH]; intros top outs; cbn [layer_loop].
    - intros Q. now injection Q as <-.
    - destruct (external_x g y) as [x|]; cbn [rbind]; [|discriminate].
      destruct (match ms with [] => true | _ => false end).
      + cbn [rbind].
        destruct (layer_loop g ms _) as [rest|] eqn:E; cbn [rbind]; [|discriminate].
        intros Q. injection Q as <-. cbn [map fst snd]. f_equal. eapply IH; eauto.
      + destruct x as [x|]; cbn [rbind]; [|discriminate].
        destruct (layer_loop g ms _) as [rest|] eqn:E; cbn [rbind]; [|discriminate].
        intros Q. injection Q as <-. cbn [map fst snd]. f_equal. eapply IH; eauto.
  Qed.
  Lemma boundary_lines (s : stR) prec table fig : reachable s ->
    plot_boundary prec table s = Ok fig ->
    exists t0 outs rest, f_traces fig = t0 :: map (fun o => TrLayer (fst o) (snd o)) outs ++ rest /\
      map fst outs = mats_of s.
  Proof.
    intros Hr E. destruct (levels_of s Hr) as (H0 & HP & EL & LV). unfold plot_boundary in E.
    destruct (s_materials (snd s)) as [|n0 ns] eqn:EM.
    { injection E as <-. eexists _, [], []. split; [reflexivity|]. symmetry. now apply mats_of_nil. }
    rewrite EL in E. cbn [rbind] in E.
    destruct (layer_outlines _ _) as [outs|] eqn:EO; cbn [rbind] in E; [| discriminate ].
    set (fig0 := fold_left _ outs _) in E. set (fig1 := if table then _ else _) in E.
    assert (T1 : exists t0, f_traces fig1 = t0 :: map (fun o => TrLayer (fst o) (snd o)) outs).
    { assert (Q : f_traces fig1 = f_traces fig0)
        by (unfold fig1; destruct table; [ apply table_parts | reflexivity ]).
      rewrite Q. unfold fig0. rewrite layers_traces. eexists. reflexivity. }
    destruct T1 as (t0 & T1). clearbody fig1.
    destruct (fold_res (plot_udl _ _ _) _ fig1) as [fig2|] eqn:E2; cbn [rbind] in E; [|discriminate].
    destruct (fold_res (plot_ll _ _) _ fig2) as [fig3|] eqn:E3; cbn [rbind] in E; [|discriminate].
    apply fold_traces in E2; [| intros; eapply udl_traces; eassumption ].
    apply fold_traces in E3; [| intros; eapply ll_traces; eassumption ].
    rewrite E2, T1 in E3.
    destruct (match s_water_RL (snd s) with Some _ => _ | None => _ end) as [fig4|] eqn:E4;
      cbn [rbind] in E; [| discriminate ].
    injection E as <-.
    assert (W : exists wt, f_traces fig4 = f_traces fig3 ++ wt).
    { destruct (s_water_RL (snd s)) as [y|].
      - destruct (negb _).
        + unfold plot_water in E4. destruct (external_x _ y) as [[x|]|]; cbn [rbind] in E4; try discriminate.
          injection E4 as <-. eexists. reflexivity.
        + injection E4 as <-. exists []. now rewrite app_nil_r.
      - injection E4 as <-. exists []. now rewrite app_nil_r. }
    destruct W as (wt & W). exists t0, outs, wt. split.
    - change (f_traces (plot_limits (s_geom (snd s)) (s_limits (snd s)) fig4)) with (f_traces fig4).
      rewrite W, E3. reflexivity.
    - unfold layer_outlines in EO. apply loop_materials in EO. rewrite EO, map_map. cbn [snd]. apply map_id.
  Qed.
  Lemma critical_lines (s : stR) prec table fig : reachable s ->
    plot_critical prec table s = Ok fig ->
    exists t0 outs rest, f_traces fig = t0 :: map (fun o => TrLayer (fst o) (snd o)) outs ++ rest /\
      map fst outs = mats_of s.
  Proof.
    intros Hr. unfold plot_critical.
    destruct (plot_boundary prec table s) as [fig0|] eqn:E; cbn [rbind]; [|discriminate].
    destruct (boundary_lines s prec table fig0 Hr E) as (t0 & outs & rest & A & B).
    destruct (s_search (snd s)) as [|p ?]; [discriminate|]. unfold plot_failure_plane.
    destruct (Plot.fos_of p) as [x|]; cbn [rbind]; [|discriminate].
    destruct (plane_hue _) as [h|]; cbn [rbind]; [|discriminate].
    destruct (arc_points _ _ _ _ _) as [|q arc]; [discriminate|].
    destruct (fos_hue _) as [h'|]; cbn [rbind]; [|discriminate].
    intros Q. injection Q as <-. exists t0, outs. eexists. split; [|exact B].
    cbn [add_trace f_traces]. rewrite A. cbn [app]. rewrite <- !app_assoc. reflexivity.
  Qed.
  Lemma soil_rows_are rows : forall outs rest, List.length outs = List.length rows ->
    soil_rows rows (map (fun o => TrLayer (fst o) (snd o)) outs ++ rest)
    = Ok (combine (map row_inputs rows) (map (fun o => Some (m_color (fst o))) (outs : list (material R * list (R * R))))).
  Proof.
    induction rows as [|r rows IH]; intros [|o outs] rest L; try discriminate; [reflexivity|].
    cbn [map app soil_rows]. rewrite IH by (cbn in L; congruence). reflexivity.
  Qed.
  (** row [i] shows the colour of the [i]-th layer from above *)
  Lemma narrow_table prec f fig search :
    form_valid f = true -> post prec f = Ok (fig, search) ->
    exists layers,
      StronglySorted (fun a b => m_depth a < m_depth b) layers /\
      Permutation (map layer_values layers) (map row_values (w_materials f)) /\
      (forall i m, nth_error layers i = Some m -> rightly_coloured i m) /\
      mobile_table f fig
      = Ok (combine (map row_inputs (w_materials f)) (map (fun m => Some (m_color m)) layers)).
  Proof.
    intros V P. destruct (post_inv prec f fig search P) as (s & E & Ec & _ & _).
    destruct (created_layers f s E) as (Hr & C & S1 & B). specialize (B V).
    exists (mats_of s). split; [exact S1|]. split; [exact B|]. split; [exact C|].
    destruct (critical_lines s prec true fig Hr Ec) as (t0 & outs & rest & A & M).
    unfold mobile_table. rewrite A. cbn [tl]. rewrite soil_rows_are.
    - rewrite <- M, map_map. reflexivity.
    - apply Permutation_length in B. rewrite !map_length, <- M, map_length in B. exact B.
  Qed.
  Lemma sorted_perm (l l' : list R) : StronglySorted Rlt l -> StronglySorted Rlt l' ->
    Permutation l l' -> l = l'.
  Proof.
    revert l'. induction l as [|a l IH]; intros l' S1 S2 P.
    - now apply Permutation_nil in P.
    - destruct l' as [|b l']; [now apply Permutation_sym, Permutation_nil in P|].
      inversion S1 as [|? ? S1' F1]; subst. inversion S2 as [|? ? S2' F2]; subst.
      assert (a = b).
      { rewrite Forall_forall in F1, F2.
        assert (Ia : In a (b :: l')) by (eapply Permutation_in; [exact P|now left]).
        assert (Ib : In b (a :: l)) by (eapply Permutation_in; [apply Permutation_sym, P|now left]).
        destruct Ia as [Ia|Ia]; [auto|]. destruct Ib as [Ib|Ib]; [auto|].
        pose proof (F2 _ Ia). pose proof (F1 _ Ib). lra. }
      subst b. f_equal. apply IH; auto. eapply Permutation_cons_inv; eauto.
  Qed.
  Lemma values_by_depth (l l' : list (R * R * R * R * string * string)) :
    let d v := snd (fst (fst v)) in
    StronglySorted Rlt (map d l) -> StronglySorted Rlt (map d l') -> Permutation l l' -> l = l'.
  Proof.
    intros d. revert l'. induction l as [|a l IH]; intros l' S1 S2 P.
    - now apply Permutation_nil in P.
    - destruct l' as [|b l']; [now apply Permutation_sym, Permutation_nil in P|].
      pose proof (sorted_perm _ _ S1 S2 (Permutation_map d P)) as Q. cbn [map] in Q.
      injection Q as Q1 Q2. cbn [map] in S1, S2.
      inversion S1 as [|? ? S1' F1]; subst. inversion S2 as [|? ? S2' F2]; subst.
      assert (a = b).
      { assert (Ia : In a (b :: l')) by (eapply Permutation_in; [exact P|now left]).
        destruct Ia as [Ia|Ia]; [auto|]. exfalso. rewrite Forall_forall in F2.
        pose proof (F2 _ (in_map d _ _ Ia)). lra. }
      subst b. f_equal. apply IH; auto. eapply Permutation_cons_inv; eauto.
  Qed.
  Lemma sorted_depths l : StronglySorted (fun a b : material R => m_depth a < m_depth b) l ->
    StronglySorted Rlt (map (fun v : R * R * R * R * string * string => snd (fst (fst v))) (map layer_values l)).
  Proof.
    rewrite map_map. change (fun x => snd (fst (fst (layer_values x)))) with (@m_depth R).
    induction 1 as [|a l S1 IH F]; cbn [map]; constructor; auto.
    apply Forall_map. exact F.
  Qed.
  Definition own_row (r : material_row R) : Prop := is_color (wm_color r) = true /\ wm_color r <> EmptyString.
  (** rows given from the top down show their own colours *)
  Lemma table_in_order prec f fig search :
    form_valid f = true -> post prec f = Ok (fig, search) ->
    StronglySorted Rlt (map row_depth (w_materials f)) ->
    exists table, mobile_table f fig = Ok table /\
      List.length table = List.length (w_materials f) /\
      forall i r, nth_error (w_materials f) i = Some (Some r) ->
        nth_error table i = Some (wm_unit_weight r, wm_cohesion r, wm_friction r, wm_name r,
          Some (if is_color (wm_color r) then
                  if String.eqb (wm_color r) EmptyString
                  then nth (Nat.modulo i 10) MATERIAL_COLORS EmptyString else wm_color r
                else nth (Nat.modulo i 10) MATERIAL_COLORS EmptyString)).
  Proof.
    intros V P S0. destruct (narrow_table prec f fig search V P) as (layers & S1 & B & C & ->).
    assert (Q : map layer_values layers = map row_values (w_materials f)).
    { apply values_by_depth; [now apply sorted_depths| |exact B].
      replace (map _ (map row_values (w_materials f))) with (map row_depth (w_materials f)); [exact S0|].
      apply depths_rows. }
    assert (L : List.length layers = List.length (w_materials f)).
    { apply (f_equal (@List.length _)) in Q. now rewrite !map_length in Q. }
    eexists. split; [reflexivity|]. split; [rewrite combine_length, !map_length, L; apply Nat.min_id|].
    revert Q C L. generalize (w_materials f) as rows. clear.
    assert (G : forall k rows (ls : list (material R)), map layer_values ls = map row_values rows ->
      (forall i m, nth_error ls i = Some m -> rightly_coloured (k + i) m) ->
      forall i r, nth_error rows i = Some (Some r) ->
      nth_error (combine (map row_inputs rows) (map (fun m => Some (m_color m)) ls)) i
      = Some (wm_unit_weight r, wm_cohesion r, wm_friction r, wm_name r,
          Some (if is_color (wm_color r) then
                  if String.eqb (wm_color r) EmptyString
                  then nth (Nat.modulo (k + i) 10) MATERIAL_COLORS EmptyString else wm_color r
                else nth (Nat.modulo (k + i) 10) MATERIAL_COLORS EmptyString))).
    { intros k rows. revert k. induction rows as [|x rows IH]; intros k [|m ls] Q C i r E;
        try discriminate; [destruct i; discriminate|].
      cbn [map] in Q. injection Q as Q1 Q2. destruct i as [|i].
      - cbn in E. injection E as ->. cbn [map combine nth_error row_inputs].
        specialize (C 0%nat m eq_refl). destruct C as [C1 C2].
        assert (U : m_user_color m = wm_color r).
        { unfold layer_values, row_values in Q1. now injection Q1. }
        unfold own_colour in C1, C2. rewrite U in C1, C2. do 2 f_equal. f_equal.
        destruct (is_color (wm_color r)); [|apply C2; intros []; discriminate].
        destruct (String.eqb_spec (wm_color r) EmptyString) as [Z|Z]; [apply C2; intros []; contradiction|].
        apply C1; auto.
      - cbn [map combine nth_error] in *. replace (k + S i)%nat with (S k + i)%nat by lia.
        apply IH; auto. intros j m' Hj. replace (S k + j)%nat with (k + S j)%nat by lia. now apply C. }
    intros rows Q C _ i r. exact (G 0%nat rows layers Q C i r).
  Qed.
  (** every row, blank ones included, beside the layer it became *)
  Lemma table_layers prec f fig search :
    form_valid f = true -> post prec f = Ok (fig, search) ->
    StronglySorted Rlt (map row_depth (w_materials f)) ->
    exists layers, map layer_values layers = map row_values (w_materials f) /\
      exists table, mobile_table f fig = Ok table /\
      Forall2 (fun row m => exists c, row = (m_unit_weight m, c, m_friction_angle m, m_name m, Some (m_color m)) /\
                                      Rabs c = m_cohesion m) table layers.
  Proof.
    intros V P S0. destruct (narrow_table prec f fig search V P) as (layers & S1 & B & C & E).
    assert (Q : map layer_values layers = map row_values (w_materials f)).
    { apply values_by_depth; [now apply sorted_depths| |exact B].
      replace (map _ (map row_values (w_materials f))) with (map row_depth (w_materials f)); [exact S0|].
      apply depths_rows. }
    exists layers. split; [exact Q|]. eexists. split; [exact E|].
    revert Q. generalize (w_materials f) as rows. clear. induction layers as [|m layers IH]; intros [|r rows] Q;
      try discriminate; [constructor|]. cbn [map] in Q. injection Q as Q1 Q2. cbn [map combine].
    constructor; [|now apply IH]. destruct r as [r|]; cbn [row_inputs row_values] in *; unfold layer_values in Q1;
      injection Q1 as -> -> Q3 _ -> _; unR; eexists; (split; [reflexivity|]); rewrite Q3; [reflexivity|].
    apply Rabs_right. lra.
  Qed.
  (** a table with more rows than the figure has lines *)
  Lemma table_fails f fig : mobile_table f fig = Err TypeError <->
    (List.length (tl (f_traces fig)) < List.length (w_materials f))%nat.
  Proof.
    unfold mobile_table. generalize (tl (f_traces fig)) as t. generalize (w_materials f) as rows. clear.
    induction rows as [|r rows IH]; intros t; [split; [discriminate|cbn; lia]|].
    destruct t as [|x t]; cbn [soil_rows List.length]; [split; [lia|reflexivity]|].
    rewrite <- Nat.succ_lt_mono, <- IH. destruct (soil_rows rows t); cbn [rbind]; split; congruence.
  Qed.
End Table.
