(** * History: every public call keeps the invariant (reals). *)
From Coq Require Import ZArith Reals Lra Lia List Bool String Permutation Sorted.
From Verif Require Import Num Py Validation Utilities Objects Slope Planes Analysis
     Dynamic Api RealNum RealFacts ListFacts MonadFacts SlopeFacts MaterialFacts Invariant.
Import ListNotations.
Local Open Scope R_scope.

Section Calls.
  Context {EN : Env}.
  Notation stR := (st R).

  (** ** Materials *)
  (** the state in which duplicates are looked for *)
  Definition deepened (d : R) (s : stR) : stR :=
    let g := s_geom (snd s) in
    if Rltb (g_ext_h g) d
    then rebuilt (geom_of (g_height g) (g_length g) d (s_min_ext_l (snd s)))
                 (fst s, set_s_min_ext_h d (snd s))
    else s.
  Definition sorted_locs (s : stR) (news : list nat) : list nat :=
    sort_by (depth_of (h_materials (fst s))) (news ++ s_materials (snd s)).
  Definition layered (s : stR) (mats : list nat) : stR :=
    (MkHeap (assign_pure (g_ext_h (s_geom (snd s))) 0 mats (h_materials (fst s)))
            (h_udls (fst s)) (h_lls (fst s)),
     set_s_search [] (set_s_materials mats (snd s))).

  Lemma ext_h_pos (s : stR) : Core s -> 0 < g_ext_h (s_geom (snd s)).
  Proof.
    intros C. destruct (c_geom _ C) as (mh & Hmh & ->). pose proof (c_l _ C).
    unfold geom_of; cbn [g_ext_h].
    eapply Rlt_le_trans; [|apply Rmax_r]. lra.
  Qed.

  Lemma deepened_eff d (s : stR) {B} (k : unit -> M stR B) :
    Core s ->
    mbind (mwhen (Rltb (g_ext_h (s_geom (snd s))) d)
             (update_boundary_options PNone (PFloat d))) k s = k tt (deepened d s).
  Proof.
    intros C. unfold deepened. pose proof (ext_h_pos s C) as P.
    destruct (Rltb (g_ext_h (s_geom (snd s))) d) eqn:E; [|reflexivity].
    apply Rltb_true in E. cbn [mwhen]. destruct C.
    erewrite bind_ok; [reflexivity|].
    rewrite update_boundary_eff by assumption.
    unfold opt_dim, assert_strictly_positive_number.
    cbn [truthy isinstance_num negb as_num rbind]. unR.
    rewrite (proj2 (Reqb_false d 0)) by lra. cbn [negb].
    rewrite (proj2 (Rltb_false d 0)) by lra. reflexivity.
  Qed.

  Lemma set_materials_eff args (s : stR) :
    Core s ->
    set_materials args s =
    match material_locs args with
    | Err e => (Err e, s)
    | Ok news =>
        match rev (map (depth_of (h_materials (fst s))) (sorted_locs s news)) with
        | [] => (Err IndexError, s)
        | d :: _ =>
            if has_dup (map (depth_of (h_materials (fst s))) (sorted_locs s news))
            then (Err ValueError, deepened d s)
            else (Ok tt, layered (deepened d s) (sorted_locs s news))
        end
    end.
  Proof.
    intros C. unfold set_materials. rewrite bind_lift.
    destruct (material_locs args) as [news|e]; [|reflexivity].
    msteps. fold (sorted_locs s news).
    set (depths := map (depth_of (h_materials (fst s))) (sorted_locs s news)).
    destruct (rev depths) as [|d ds]; [reflexivity|].
    msteps. cbn [nltb RNum]. rewrite <- bind_when, deepened_eff by assumption.
    destruct (has_dup depths); [reflexivity|].
    erewrite bind_ok by apply assign_materials_eff. reflexivity.
  Qed.

  Lemma deepened_inv d (s : stR) : Inv s -> Inv (deepened d s).
  Proof.
    intros (C & U & L). pose proof (ext_h_pos s C) as P. unfold deepened.
    destruct (Rltb (g_ext_h (s_geom (snd s))) d) eqn:E; [|now split].
    apply Rltb_true in E. destruct C.
    apply (rebuilt_core _ _ _ (fst s, set_s_min_ext_h d (snd s))); cbn; auto; lra.
  Qed.
  Lemma deepened_mats d (s : stR) :
    h_materials (fst (deepened d s)) = h_materials (fst s) /\
    s_materials (snd (deepened d s)) = s_materials (snd s).
  Proof. unfold deepened. destruct (Rltb _ _); split; reflexivity. Qed.

  Lemma material_locs_In args : forall news n,
    material_locs args = Ok news -> In n news -> In (RefMaterial n) args.
  Proof.
    induction args as [|r args IH]; cbn; intros news n.
    - injection 1 as <-. contradiction.
    - destruct r as [m|m|m|]; try discriminate.
      destruct (material_locs args); cbn; [|discriminate]. injection 1 as <-.
      intros [->|H]; [now left | right; eauto].
  Qed.

  Lemma layered_inv (s : stR) mats :
    Inv s ->
    (forall n, In n mats -> (n < List.length (h_materials (fst s)))%nat) ->
    NoDup mats ->
    StronglySorted (fun a b => depth_of (h_materials (fst s)) a <
                               depth_of (h_materials (fst s)) b) mats ->
    Inv (layered s mats).
  Proof.
    intros (C & U & L) Hv Hd Hs. split; [|split; [exact U|exact L]].
    destruct C; constructor; cbn; auto.
    - apply Forall_assign_pure; auto.
    - eapply StronglySorted_ext; [|exact Hs]. intros x y _ _.
      rewrite !assign_pure_depth. auto.
    - intros n Hn. destruct (In_nth_error _ _ Hn) as [k Hk].
      rewrite (assign_pure_in _ _ _ _ k n Hd Hk).
      destruct (nth_error_lt_Some _ _ (Hv n Hn)) as [m ->]. cbn.
      eexists; split; [reflexivity|]. split; [discriminate|].
      apply material_color_nonempty.
  Qed.

  Lemma sorted_locs_valid (s : stR) args news :
    Core s -> refs_ok s args -> material_locs args = Ok news ->
    forall n, In n (sorted_locs s news) -> (n < List.length (h_materials (fst s)))%nat.
  Proof.
    intros C HR E n Hn.
    apply (Permutation_in _ (Permutation_sym (sort_by_perm _ _))) in Hn.
    apply in_app_iff in Hn. destruct Hn as [Hn|Hn].
    - apply (material_locs_In _ _ _ E) in Hn.
      unfold refs_ok in HR. rewrite Forall_forall in HR. specialize (HR _ Hn).
      cbn [ref_exists] in HR. now apply Nat.ltb_lt in HR.
    - destruct (c_mat_set _ C n Hn) as (m & Q & _). apply nth_error_Some. congruence.
  Qed.

  Lemma inv_set_materials args (s : stR) :
    Inv s -> refs_ok s args -> Inv (snd (set_materials args s)).
  Proof.
    intros I HR. pose proof I as (C & _ & _). rewrite set_materials_eff by assumption.
    destruct (material_locs args) as [news|e] eqn:E; [|exact I].
    destruct (rev _) as [|d ds]; [exact I|].
    destruct (has_dup _) eqn:D; [now apply deepened_inv|].
    apply has_dup_false in D.
    destruct (deepened_mats d s) as [Q1 Q2].
    apply layered_inv.
    - now apply deepened_inv.
    - rewrite Q1. eapply sorted_locs_valid; eauto.
    - eapply NoDup_map_inv; eauto.
    - rewrite Q1. apply strictly_sorted_of; [apply sort_by_sorted | exact D].
  Qed.

  Lemma fewer_mats_inv p (s : stR) :
    Inv s -> Inv (fst s, set_s_materials (remove_first p (s_materials (snd s))) (snd s)).
  Proof.
    intros (C & U & L). split; [|split; [exact U|exact L]].
    destruct C; constructor; cbn; auto.
    - now apply StronglySorted_incl_sub.
    - intros n Hn. apply c_mat_set. eapply remove_first_incl; eauto.
  Qed.
  Lemma no_mats_inv (s : stR) :
    Inv s -> Inv (fst s, set_s_materials [] (snd s)).
  Proof.
    intros (C & U & L). split; [|split; [exact U|exact L]].
    destruct C; constructor; cbn; auto; try constructor. intros n [].
  Qed.
  Lemma inv_search l (s : stR) : Inv s -> Inv (fst s, set_s_search l (snd s)).
  Proof. apply same_model_inv. constructor; reflexivity. Qed.

  (** the depth looked for by [remove_material] *)
  Definition removal_depth (h : list (material R)) (m : option objref) (d : pyval R)
    : res (pyval R) :=
    match m with
    | Some (RefMaterial n) => let! mm := deref h n in Ok (PFloat (m_depth mm))
    | _ => Ok d
    end.
  Definition after_removal (h : list (material R)) (d : pyval R) (all : bool)
             (locs : list nat) : list nat :=
    if all then []
    else if truthy d then
      match find (fun n => num_eqb_val (depth_of h n) d) locs with
      | Some n => remove_first (same_obj material_eqb h n) locs
      | None => locs
      end
    else locs.
  Lemma set_materials_id (sl : slope R) : set_s_materials (s_materials sl) sl = sl.
  Proof. destruct sl; reflexivity. Qed.
  Lemma remove_material_eff m d all (s : stR) :
    remove_material m d all s =
    match removal_depth (h_materials (fst s)) m d with
    | Err e => (Err e, s)
    | Ok d' =>
        (Ok tt, (fst s, set_s_search []
           (set_s_materials (after_removal (h_materials (fst s)) d' all
                                           (s_materials (snd s))) (snd s))))
    end.
  Proof.
    unfold remove_material, removal_depth, after_removal.
    assert (G : forall d' : pyval R,
      (mwhen (truthy d')
         (h <- heap_get h_materials;;
          locs <- self_get s_materials;;
          match find (fun n : nat => num_eqb_val (depth_of h n) d') locs with
          | Some n => self_upd (set_s_materials (remove_first (same_obj material_eqb h n) locs))
          | None => mret tt
          end) ;;;
       mwhen all (self_upd (set_s_materials [])) ;;;
       reset_results) s =
      (Ok tt, (fst s, set_s_search [] (set_s_materials
        (if all then [] else if truthy d' then
          match find (fun n => num_eqb_val (depth_of (h_materials (fst s)) n) d')
                     (s_materials (snd s)) with
          | Some n => remove_first (same_obj material_eqb (h_materials (fst s)) n)
                                   (s_materials (snd s))
          | None => s_materials (snd s)
          end else s_materials (snd s)) (snd s))))).
    { intros d'. rewrite bind_when. destruct (truthy d').
      - msteps. destruct (find _ _) as [n|]; msteps; destruct all; msteps;
          rewrite reset_eff; cbn [fst snd]; destruct s as [h sl]; cbn [fst snd];
          rewrite ?set_materials_id; destruct sl; reflexivity.
      - destruct all; msteps; rewrite reset_eff; destruct s as [h sl]; cbn [fst snd];
          rewrite ?set_materials_id; destruct sl; reflexivity. }
    destruct m as [[n|n|n|]|]; try (rewrite bind_ret; apply G).
    unfold get_material, deref. cbn [fst].
    destruct (nth_error (h_materials (fst s)) n) as [mm|] eqn:E; cbn [rbind].
    - erewrite bind_ok by (unfold mbind, mret; rewrite E; reflexivity). apply G.
    - erewrite bind_err by (unfold mbind; rewrite E; reflexivity). reflexivity.
  Qed.

  Lemma inv_remove_material m d all (s : stR) :
    Inv s -> Inv (snd (remove_material m d all s)).
  Proof.
    intros I. rewrite remove_material_eff.
    destruct (removal_depth _ m d) as [d'|e]; [|exact I]. cbn [snd].
    apply (inv_search [] (fst s, set_s_materials _ (snd s))).
    unfold after_removal. destruct all; [now apply no_mats_inv|].
    assert (Same : Inv (fst s, set_s_materials (s_materials (snd s)) (snd s))).
    { apply (same_model_inv s); auto. destruct s; constructor; reflexivity. }
    destruct (truthy d'); [|exact Same].
    destruct (find _ _); [now apply fewer_mats_inv | exact Same].
  Qed.

  (** ** Water, options, limits, circles, analysis *)
  Lemma same_model_water (s : stR) d : same_model s (snd (set_water_table d s)).
  Proof.
    unfold set_water_table, remove_water_table.
    destruct d; cbn [is_none]; msteps;
      repeat (match goal with |- context [match ?x with Ok _ => _ | Err _ => _ end] =>
                destruct x end; msteps);
      constructor; reflexivity.
  Qed.
  Lemma same_model_remove_water (s : stR) : same_model s (snd (remove_water_table s)).
  Proof. constructor; reflexivity. Qed.

  Lemma inv_water_H v (s : stR) :
    0 <= v <= 1 -> Inv s -> Inv (fst s, set_s_search [] (set_s_water_H v (snd s))).
  Proof.
    intros Hv (C & U & L). split; [|split; [exact U | exact L]].
    destruct C; constructor; cbn; auto.
  Qed.
  Lemma cos2_bounds x : 0 <= cos x * cos x <= 1.
  Proof. pose proof (COS_bound x). nra. Qed.

  Definition manual_H (h : R) : R := if Rltb 1 h then 1 else if Rltb h 0 then 0 else h.
  Lemma water_options_eff auto H (s : stR) :
    update_water_analysis_options auto H s =
    if auto then
      (Ok tt, (fst s, set_s_search []
         (set_s_water_H (cos (atan (g_gradient (s_geom (snd s)))) *
                         cos (atan (g_gradient (s_geom (snd s))))) (snd s))))
    else match (let! _ := assert_number H in as_num H) with
         | Err e => (Err e, s)
         | Ok h => (Ok tt, (fst s, set_s_search [] (set_s_water_H (manual_H h) (snd s))))
         end.
  Proof.
    unfold update_water_analysis_options. destruct auto; [reflexivity|].
    msteps. destruct (assert_number H); cbn [rbind]; [|reflexivity].
    msteps. destruct (as_num H) as [h|e]; [|reflexivity]. msteps.
    unfold manual_H. unR. reflexivity.
  Qed.
  Lemma inv_water_options auto H (s : stR) :
    Inv s -> Inv (snd (update_water_analysis_options auto H s)).
  Proof.
    intros I. rewrite water_options_eff. destruct auto.
    - apply inv_water_H; auto. apply cos2_bounds.
    - destruct (rbind _ _) as [h|e]; [|exact I]. apply inv_water_H; auto.
      unfold manual_H. rcase; lra.
  Qed.

  (** the options after [update_analysis_options] *)
  Definition clamp_opt (lo hi : Z) (o : option Z) (old : Z) : Z :=
    match o with Some n => if Z.eqb n 0 then old else Z.max (Z.min hi n) lo | None => old end.
  Definition or_old {A} (o : option A) (old : A) : A :=
    match o with Some a => a | None => old end.
  Definition optioned (sl it : option Z) (mf tol : option R) (mi : option Z) (s : slope R)
    : slope R :=
    set_s_max_iterations (or_old mi (s_max_iterations s))
    (set_s_tolerance (or_old tol (s_tolerance s))
    (set_s_min_failure (match mf with
                        | Some d => Rmin d (g_ext_l (s_geom s) * (9 / 10))
                        | None => s_min_failure s end)
    (set_s_iterations (clamp_opt 500 100000 it (s_iterations s))
    (set_s_slices (clamp_opt 10 500 sl (s_slices s)) s)))).
  Lemma analysis_options_eff sl it mf tol mi (s : stR) :
    update_analysis_options sl it mf tol mi s =
    (Ok tt, (fst s, set_s_search [] (optioned sl it mf tol mi (snd s)))).
  Proof.
    destruct s as [h [? ? ? ? ? ? ? ? ? ? ? ? ? ? ? ? ? ? ? ?]].
    unfold update_analysis_options, optioned, clamp_opt, or_old.
    destruct sl as [a|], it as [b|], mf as [c|], tol as [d|], mi as [e|];
      repeat (msteps; match goal with |- context [Z.eqb ?x 0] => destruct (Z.eqb x 0) end;
              cbn [negb]); msteps; unR; rewrite ?(Z.min_comm 100000); reflexivity.
  Qed.
  Lemma clamp_opt_bounds lo hi o old :
    (lo <= hi)%Z -> (lo <= old <= hi)%Z -> (lo <= clamp_opt lo hi o old <= hi)%Z.
  Proof. intros H1 H2. unfold clamp_opt. destruct o as [n|]; [destruct (n =? 0)%Z|]; lia. Qed.
  Lemma inv_analysis_options sl it mf tol mi (s : stR) :
    Inv s -> Inv (snd (update_analysis_options sl it mf tol mi s)).
  Proof.
    intros (C & U & L). rewrite analysis_options_eff.
    split; [|split; [exact U | exact L]].
    destruct C; constructor; cbn; auto; apply clamp_opt_bounds; lia.
  Qed.

  Lemma limits_result_ok g lim a b c d l' :
    limits_result g lim a b c d = Ok l' ->
    0 < fst (g_top g) < g_ext_l g -> limits_ok g l'.
  Proof.
    intros H P. unfold limits_result in H.
    destruct (limit_arg a _ _) as [v1|]; cbn [rbind] in H; [|discriminate].
    destruct (limit_arg c _ _) as [v2|]; cbn [rbind] in H; [|discriminate].
    destruct (limit_arg d _ _) as [v3|]; cbn [rbind] in H; [|discriminate].
    destruct (limit_arg b _ _) as [v4|]; cbn [rbind] in H; [|discriminate].
    destruct (as_num v1) as [x1|]; cbn [rbind] in H; [|discriminate].
    destruct (as_num v2) as [x2|]; cbn [rbind] in H; [|discriminate].
    destruct (as_num v4) as [x4|]; cbn [rbind] in H; [|discriminate].
    destruct (as_num v3) as [x3|]; cbn [rbind] in H; [|discriminate].
    unR. destruct (Rleb _ _ || Rleb _ _)%bool eqn:E; [discriminate|].
    injection H as <-. rbool. unfold limits_ok; cbn.
    pose proof (Rmax_r x1 0). pose proof (Rmin_r x2 (fst (g_top g))).
    pose proof (Rmax_r x3 (fst (g_top g))). pose proof (Rmin_r x4 (g_ext_l g)). lra.
  Qed.
  Lemma core_top (s : stR) :
    Core s -> 0 < fst (g_top (s_geom (snd s))) < g_ext_l (s_geom (snd s)).
  Proof.
    intros C. destruct (c_geom _ C) as (mh & _ & ->).
    apply geom_of_top; [apply (c_h _ C) | apply (c_l _ C)].
  Qed.
  Lemma inv_set_limits a b c d (s : stR) :
    Inv s -> Inv (snd (set_analysis_limits a b c d s)).
  Proof.
    intros I. pose proof I as (C & U & L). rewrite set_limits_eff.
    destruct (limits_result _ _ a b c d) as [lim|e] eqn:E; [|exact I].
    split; [|split; [exact U | exact L]].
    pose proof (core_top _ C) as P.
    destruct C; constructor; cbn; auto. eapply limits_result_ok; eauto.
  Qed.
  Lemma inv_remove_limits (s : stR) :
    Inv s -> exists s', remove_analysis_limits s = (Ok tt, s') /\ Inv s'.
  Proof.
    intros (C & U & L). rewrite remove_limits_eff by now apply core_top.
    eexists; split; [reflexivity|]. split; [|split; [exact U | exact L]].
    pose proof (core_top _ C) as P.
    destruct C; constructor; cbn; auto. unfold limits_ok, default_limits; cbn. lra.
  Qed.

  Lemma same_model_entry_exit l r n (s : stR) :
    same_model s (snd (add_single_entry_exit_plane l r n s)).
  Proof.
    unfold add_single_entry_exit_plane. msteps.
    destruct (match external_y _ _ with Some _ => _ | None => _ end); [|apply same_model_refl].
    constructor; reflexivity.
  Qed.
  Lemma same_model_circle x y r (s : stR) :
    same_model s (snd (add_single_circular_plane x y r s)).
  Proof.
    unfold add_single_circular_plane. msteps.
    destruct (circle_external _ _ _ _) as [il|]; [|apply same_model_refl].
    destruct (first_two il) as [[a b]|]; [|apply same_model_refl].
    constructor; reflexivity.
  Qed.
  Lemma same_model_analyse m (s : stR) : same_model s (snd (analyse_slope m s)).
  Proof.
    unfold analyse_slope. msteps. unfold mbind at 1.
    destruct (view_of s) as [v|e]; [|apply same_model_refl].
    destruct (s_planes (snd s)) as [|p ps].
    - msteps. destruct (entry_exit_planes v) as [ps|e]; [|apply same_model_refl].
      destruct (fos_loop v ps) as [[u|e] done]; constructor; reflexivity.
    - destruct (fos_loop v (p :: ps)) as [[u|e] done]; constructor; reflexivity.
  Qed.

  (** ** New objects *)
  Lemma nth_error_snoc {A} (l : list A) x n y :
    nth_error l n = Some y -> nth_error (l ++ [x]) n = Some y.
  Proof.
    intros H. rewrite nth_error_app1; auto. apply nth_error_Some. congruence.
  Qed.
  Lemma depth_of_snoc (l : list (material R)) m n :
    (n < List.length l)%nat -> depth_of (l ++ [m]) n = depth_of l n.
  Proof. intros H. unfold depth_of. now rewrite nth_error_app1. Qed.

  Lemma as_num_abs_nonneg (t : R) : 0 <= Rabs t.
  Proof. apply Rabs_pos. Qed.
  Lemma new_material_ok uw phi c d n col (m : material R) :
    new_material uw phi c d n col = Ok m -> mat_ok m.
  Proof.
    unfold new_material.
    destruct (assert_range uw _ _ _ _) eqn:E1; cbn [rbind]; [|discriminate].
    destruct (assert_positive_number phi) eqn:E2; cbn [rbind]; [|discriminate].
    destruct (assert_number c) eqn:E3; cbn [rbind]; [|discriminate].
    destruct (assert_number d) eqn:E4; cbn [rbind]; [|discriminate].
    unfold assert_range in E1. destruct (isinstance_num uw); cbn [negb] in E1; [|discriminate].
    destruct (as_num uw) as [u|]; cbn [rbind] in *; [|discriminate].
    unfold assert_positive_number in E2.
    destruct (isinstance_num phi); cbn [negb] in E2; [|discriminate].
    destruct (as_num phi) as [p|]; cbn [rbind] in *; [|discriminate].
    destruct (as_num c) as [cc|]; cbn [rbind] in *; [|discriminate].
    destruct (as_num d) as [dd|]; cbn [rbind] in *; [|discriminate].
    destruct (text_arg n); cbn [rbind]; [|discriminate].
    destruct (text_arg col); cbn [rbind]; [|discriminate].
    injection 1 as <-. unR. cbn [andb] in E1.
    destruct (Rltb u 1) eqn:A1; [discriminate|].
    destruct (Rltb 50 u) eqn:A2; [discriminate|].
    destruct (Rltb p 0) eqn:A3; [discriminate|]. rbool.
    unfold mat_ok; cbn. repeat split; auto; apply Rabs_pos.
  Qed.
  Lemma new_udl_ok a b c col dyn (u : udl R) :
    new_udl a b c col dyn = Ok u -> udl_ok u /\ 0 <= u_offset u.
  Proof.
    unfold new_udl.
    destruct (assert_number a); cbn [rbind]; [|discriminate].
    destruct (assert_number b); cbn [rbind]; [|discriminate].
    destruct (truthy c) eqn:Et.
    - destruct (assert_number c) eqn:Ec; cbn [rbind]; [|discriminate].
      destruct (as_num c) as [l|] eqn:El; cbn [rbind]; [|discriminate].
      destruct (as_num a); cbn [rbind]; [|discriminate].
      destruct (as_num b); cbn [rbind]; [|discriminate].
      injection 1 as <-. unfold udl_ok; cbn. repeat split; try apply Rabs_pos.
      apply Rabs_pos_lt. intros ->.
      destruct c as [|[]|z|t|]; cbn in *; try discriminate.
      + injection El as El. unR. apply eq_IZR in El. subst. discriminate.
      + injection El as ->. unR. rewrite Reqb_refl in Et. discriminate.
    - cbn [rbind].
      destruct (as_num a); cbn [rbind]; [|discriminate].
      destruct (as_num b); cbn [rbind]; [|discriminate].
      injection 1 as <-. unfold udl_ok; cbn. repeat split; try apply Rabs_pos.
  Qed.
  Lemma new_lload_ok a b col dyn (l : lload R) :
    new_lload a b col dyn = Ok l -> ll_ok l /\ 0 <= l_offset l.
  Proof.
    unfold new_lload.
    destruct (assert_number a); cbn [rbind]; [|discriminate].
    destruct (assert_number b); cbn [rbind]; [|discriminate].
    destruct (as_num a); cbn [rbind]; [|discriminate].
    destruct (as_num b); cbn [rbind]; [|discriminate].
    injection 1 as <-. unfold ll_ok; cbn. split; apply Rabs_pos.
  Qed.

  Lemma inv_add_material m (s : stR) :
    mat_ok m -> Inv s ->
    Inv (MkHeap (h_materials (fst s) ++ [m]) (h_udls (fst s)) (h_lls (fst s)), snd s).
  Proof.
    intros Hm (C & U & L). split; [|split; [exact U | exact L]].
    destruct C; constructor; cbn; auto.
    - apply Forall_app. split; auto.
    - eapply StronglySorted_ext; [|exact c_mat_sorted]. intros x y Hx Hy.
      destruct (c_mat_set x Hx) as (mx & Ex & _). destruct (c_mat_set y Hy) as (my & Ey & _).
      rewrite !depth_of_snoc by (apply nth_error_Some; congruence). auto.
    - intros n Hn. destruct (c_mat_set n Hn) as (mn & En & Q).
      exists mn. split; auto. now apply nth_error_snoc.
  Qed.
  Lemma inv_add_udl u (s : stR) :
    udl_ok u -> Inv s ->
    Inv (MkHeap (h_materials (fst s)) (h_udls (fst s) ++ [u]) (h_lls (fst s)), snd s).
  Proof.
    intros Hu (C & U & L). pose proof (c_udl_locs _ C) as Q.
    split; [|split; [|exact L]].
    - destruct C; constructor; cbn; auto.
      + apply Forall_app. split; auto.
      + intros n Hn. destruct (c_udl_locs n Hn) as (w & E & P).
        exists w. split; auto. now apply nth_error_snoc.
    - unfold UdlF, top_x in *; cbn. intros n w Hn E.
      destruct (Q n Hn) as (w' & E' & _). rewrite (nth_error_snoc _ _ _ _ E') in E.
      injection E as <-. eauto.
  Qed.
  Lemma inv_add_ll u (s : stR) :
    ll_ok u -> Inv s ->
    Inv (MkHeap (h_materials (fst s)) (h_udls (fst s)) (h_lls (fst s) ++ [u]), snd s).
  Proof.
    intros Hu (C & U & L). pose proof (c_ll_locs _ C) as Q.
    split; [|split; [exact U|]].
    - destruct C; constructor; cbn; auto.
      + apply Forall_app. split; auto.
      + intros n Hn. destruct (c_ll_locs n Hn) as (w & E & P).
        exists w. split; auto. now apply nth_error_snoc.
    - unfold LlF, top_x in *; cbn. intros n w Hn E.
      destruct (Q n Hn) as (w' & E' & _). rewrite (nth_error_snoc _ _ _ _ E') in E.
      injection E as <-. eauto.
  Qed.

  (** ** The dynamic search *)
  Lemma upd_udl_core n o (s : stR) :
    Core s -> Core (snd (upd_udl n (set_udl_offset o) s)).
  Proof.
    intros C. destruct C; constructor; cbn; auto.
    - apply Forall_upd_nth; auto.
    - intros k Hk. destruct (c_udl_locs k Hk) as (u & E & P).
      rewrite nth_error_upd_nth, E. destruct (Nat.eqb n k); cbn; eauto.
  Qed.
  Lemma upd_ll_core n o (s : stR) :
    Core s -> Core (snd (upd_ll n (set_ll_offset o) s)).
  Proof.
    intros C. destruct C; constructor; cbn; auto.
    - apply Forall_upd_nth; auto.
    - intros k Hk. destruct (c_ll_locs k Hk) as (u & E & P).
      rewrite nth_error_upd_nth, E. destruct (Nat.eqb n k); cbn; eauto.
  Qed.

  Lemma move_udls_ok o ns : forall s : stR,
    Inv s -> Forall (fun n => (n < List.length (h_udls (fst s)))%nat) ns ->
    exists s', mforM ns (fun n =>
      u <- get_udl n ;;
      mwhen (u_dynamic u) (upd_udl n (set_udl_offset o)) ;;;
      set_udls [RefUdl n]) s = (Ok tt, s') /\ Inv s' /\ heap_le s s'.
  Proof.
    induction ns as [|n ns IH]; intros s I F; cbn [mforM].
    - exists s. auto using heap_le_refl.
    - inversion F as [|? ? Hn Fn]; subst.
      destruct (nth_error_lt_Some _ _ Hn) as [u Eu].
      rewrite bind_assoc. erewrite bind_ok by (unfold get_udl, deref; rewrite Eu; reflexivity).
      set (s1 := if u_dynamic u then snd (upd_udl n (set_udl_offset o) s) else s).
      assert (E1 : mwhen (u_dynamic u) (upd_udl n (set_udl_offset o)) s = (Ok tt, s1)).
      { subst s1. destruct (u_dynamic u); reflexivity. }
      assert (C1 : Core s1 /\ LlF s1 /\ heap_le s s1).
      { subst s1. destruct I as (C & U & L). destruct (u_dynamic u).
        - split; [now apply upd_udl_core|]. split; [exact L|].
          unfold heap_le; cbn. rewrite upd_nth_length. lia.
        - auto using heap_le_refl. }
      destruct C1 as (C1 & L1 & H1).
      rewrite bind_assoc. erewrite bind_ok by exact E1.
      destruct (inv_set_udls [RefUdl n] s1 C1 L1) as (s2 & E2 & I2 & H2).
      { constructor; [|constructor]. cbn [ref_exists]. apply Nat.ltb_lt.
        destruct H1 as (_ & H1 & _). lia. }
      erewrite bind_ok by exact E2.
      assert (H02 : heap_le s s2) by (eapply heap_le_trans; eauto).
      destruct (IH s2 I2) as (s3 & E3 & I3 & H3).
      { eapply Forall_impl; [|exact Fn]. cbn. intros k Hk.
        destruct H02 as (_ & Q & _). lia. }
      exists s3. split; [exact E3|]. split; auto. eapply heap_le_trans; eauto.
  Qed.
  Lemma move_lls_ok o ns : forall s : stR,
    Inv s -> Forall (fun n => (n < List.length (h_lls (fst s)))%nat) ns ->
    exists s', mforM ns (fun n =>
      u <- get_ll n ;;
      mwhen (l_dynamic u) (upd_ll n (set_ll_offset o)) ;;;
      set_lls [RefLload n]) s = (Ok tt, s') /\ Inv s' /\ heap_le s s'.
  Proof.
    induction ns as [|n ns IH]; intros s I F; cbn [mforM].
    - exists s. auto using heap_le_refl.
    - inversion F as [|? ? Hn Fn]; subst.
      destruct (nth_error_lt_Some _ _ Hn) as [u Eu].
      rewrite bind_assoc. erewrite bind_ok by (unfold get_ll, deref; rewrite Eu; reflexivity).
      set (s1 := if l_dynamic u then snd (upd_ll n (set_ll_offset o) s) else s).
      assert (E1 : mwhen (l_dynamic u) (upd_ll n (set_ll_offset o)) s = (Ok tt, s1)).
      { subst s1. destruct (l_dynamic u); reflexivity. }
      assert (C1 : Core s1 /\ UdlF s1 /\ heap_le s s1).
      { subst s1. destruct I as (C & U & L). destruct (l_dynamic u).
        - split; [now apply upd_ll_core|]. split; [exact U|].
          unfold heap_le; cbn. rewrite upd_nth_length. lia.
        - auto using heap_le_refl. }
      destruct C1 as (C1 & L1 & H1).
      rewrite bind_assoc. erewrite bind_ok by exact E1.
      destruct (inv_set_lls [RefLload n] s1 C1 L1) as (s2 & E2 & I2 & H2).
      { constructor; [|constructor]. cbn [ref_exists]. apply Nat.ltb_lt.
        destruct H1 as (_ & _ & H1). lia. }
      erewrite bind_ok by exact E2.
      assert (H02 : heap_le s s2) by (eapply heap_le_trans; eauto).
      destruct (IH s2 I2) as (s3 & E3 & I3 & H3).
      { eapply Forall_impl; [|exact Fn]. cbn. intros k Hk.
        destruct H02 as (_ & _ & Q). lia. }
      exists s3. split; [exact E3|]. split; auto. eapply heap_le_trans; eauto.
  Qed.

  Lemma udl_locs_valid (s : stR) :
    Core s -> Forall (fun n => (n < List.length (h_udls (fst s)))%nat) (s_udls (snd s)).
  Proof.
    intros C. apply Forall_forall. intros n Hn.
    destruct (c_udl_locs _ C n Hn) as (u & E & _). apply nth_error_Some. congruence.
  Qed.
  Lemma ll_locs_valid (s : stR) :
    Core s -> Forall (fun n => (n < List.length (h_lls (fst s)))%nat) (s_lls (snd s)).
  Proof.
    intros C. apply Forall_forall. intros n Hn.
    destruct (c_ll_locs _ C n Hn) as (u & E & _). apply nth_error_Some. congruence.
  Qed.

  Lemma inv_set_dynamic_offset o (s : stR) :
    Inv s -> exists s', set_dynamic_offset o s = (Ok tt, s') /\ Inv s'.
  Proof.
    intros I. pose proof I as (C & _ & _).
    pose proof (udl_locs_valid s C) as FU. pose proof (ll_locs_valid s C) as FL.
    unfold set_dynamic_offset. rewrite !bind_self_get.
    destruct (inv_remove_udls [] true s I (Forall_nil _)) as (s1 & E1 & I1 & H1 & _ & _).
    erewrite bind_ok by exact E1.
    destruct (inv_remove_lls [] true s1 I1 (Forall_nil _)) as (s2 & E2 & I2 & H2 & _ & _).
    erewrite bind_ok by exact E2.
    destruct (move_udls_ok o (s_udls (snd s)) s2 I2) as (s3 & E3 & I3 & H3).
    { rewrite H2, H1. exact FU. }
    erewrite bind_ok by exact E3.
    destruct (move_lls_ok o (s_lls (snd s)) s3 I3) as (s4 & E4 & I4 & H4).
    { eapply Forall_impl; [|exact FL]. cbn. intros k Hk.
      destruct H3 as (_ & _ & Q). rewrite H2, H1 in Q. lia. }
    exists s4. auto.
  Qed.

  Lemma inv_try_offset o (s : stR) : Inv s -> Inv (snd (try_offset o s)).
  Proof.
    intros I. destruct (inv_set_dynamic_offset o s I) as (s1 & E1 & I1).
    unfold try_offset. erewrite bind_ok by exact E1.
    pose proof (same_model_analyse None s1) as SM.
    destruct (analyse_slope None s1) as [[u|e] s2] eqn:E2; cbn [snd] in SM.
    2:{ erewrite bind_err by exact E2. now apply (same_model_inv s1). }
    erewrite bind_ok by exact E2.
    assert (I2 : Inv s2) by now apply (same_model_inv s1).
    unfold mbind at 1. destruct (get_min_FOS (snd s2)) as [f|e]; [|exact I2].
    rewrite bind_lift. destruct f as [f|]; [|exact I2]. msteps.
    apply (same_model_inv s2); auto. constructor; reflexivity.
  Qed.

  Lemma inv_dynamic_loop k : forall crit l r p (s : stR),
    Inv s -> Inv (snd (dynamic_loop k crit l r p s)).
  Proof.
    induction k as [|k IH]; intros crit l r p s I; cbn [dynamic_loop]; [exact I|].
    msteps. destruct (dict_get l _); [|exact I].
    msteps. destruct (dict_get r _); [|exact I].
    msteps. destruct (midpoint_of _ _ _ _ _); [|exact I].
    pose proof (inv_try_offset a1 s I) as I1.
    destruct (try_offset a1 s) as [[f|e] s1] eqn:E; cbn [snd] in I1.
    - erewrite bind_ok by exact E. destruct (converged _ _ _); [exact I1|].
      destruct (nltb f _); now apply IH.
    - erewrite bind_err by exact E. exact I1.
  Qed.

  Lemma inv_analyse_dynamic c (s : stR) : Inv s -> Inv (snd (analyse_dynamic c s)).
  Proof.
    intros I. unfold analyse_dynamic. msteps.
    set (s0 := (fst s, set_s_dynamic [] (snd s)) : stR).
    assert (I0 : Inv s0) by (apply (same_model_inv s); auto; constructor; reflexivity).
    destruct (far_left _ _ _) as [fl|e]; [|exact I0].
    pose proof (inv_try_offset (nz 0) s0 I0) as I1.
    destruct (try_offset (nz 0) s0) as [[f|e] s1] eqn:E; cbn [snd] in I1;
      [erewrite bind_ok by exact E | erewrite bind_err by exact E; exact I1].
    destruct (nltb _ f); [exact I1|].
    pose proof (inv_try_offset (nsub fl (nlit 1 100)) s1 I1) as I2.
    destruct (try_offset (nsub fl (nlit 1 100)) s1) as [[f2|e] s2] eqn:E2; cbn [snd] in I2;
      [erewrite bind_ok by exact E2 | erewrite bind_err by exact E2; exact I2].
    destruct (nltb f2 _); [exact I2|].
    pose proof (inv_dynamic_loop 10 c (nsub fl (nlit 1 100)) (nz 0) (nz 0) s2 I2) as I3.
    destruct (dynamic_loop 10 c _ _ _ s2) as [[u|e] s3] eqn:E3; cbn [snd] in I3;
      [erewrite bind_ok by exact E3 | erewrite bind_err by exact E3; exact I3].
    msteps. apply (same_model_inv s3); auto. constructor; reflexivity.
  Qed.

  (** ** Every call, every history *)
  Lemma with_refs_inv l (m : M stR unit) (s : stR) :
    Inv s -> (refs_ok s l -> Inv (snd (m s))) -> Inv (snd (with_refs l m s)).
  Proof.
    intros I H. unfold with_refs. msteps.
    destruct (forallb (ref_exists (fst s)) l) eqn:E; [|exact I].
    apply H. apply Forall_forall. intros r Hr.
    now apply (proj1 (forallb_forall _ _) E).
  Qed.
  Lemma refs_udls (s : stR) l :
    refs_ok s (map RefUdl l) -> Forall (fun n => (n < List.length (h_udls (fst s)))%nat) l.
  Proof.
    unfold refs_ok. rewrite !Forall_forall. intros H n Hn.
    apply Nat.ltb_lt. apply (H (RefUdl n)). now apply in_map.
  Qed.
  Lemma refs_lls (s : stR) l :
    refs_ok s (map RefLload l) -> Forall (fun n => (n < List.length (h_lls (fst s)))%nat) l.
  Proof.
    unfold refs_ok. rewrite !Forall_forall. intros H n Hn.
    apply Nat.ltb_lt. apply (H (RefLload n)). now apply in_map.
  Qed.

  Lemma exec_inv o (s : stR) : Inv s -> Inv (snd (exec o s)).
  Proof.
    intros I. pose proof I as (C & U & L).
    destruct o; cbn [exec].
    - unfold alloc. msteps. destruct (new_material _ _ _ _ _ _) eqn:E; [|exact I].
      apply inv_add_material; auto. eapply new_material_ok; eauto.
    - unfold alloc. msteps. destruct (new_udl _ _ _ _ _) eqn:E; [|exact I].
      apply inv_add_udl; auto. eapply new_udl_ok; eauto.
    - unfold alloc. msteps. destruct (new_lload _ _ _ _) eqn:E; [|exact I].
      apply inv_add_ll; auto. eapply new_lload_ok; eauto.
    - destruct (set_external_boundary height angle length s) as [r s'] eqn:E.
      destruct (inv_set_boundary _ _ _ _ C _ _ E) as [(e & -> & ->)|[-> H]]; auto.
    - destruct (update_boundary_options min_ext_l min_ext_h s) as [r s'] eqn:E.
      destruct (inv_update_boundary _ _ _ C _ _ E) as [[-> H]|(e & -> & [->|(v & Hv & ->)])]; auto.
      now apply min_ext_h_inv.
    - apply (same_model_inv s); auto. apply same_model_water.
    - apply (same_model_inv s); auto. apply same_model_remove_water.
    - now apply inv_water_options.
    - apply with_refs_inv; auto. intros HR.
      destruct (inv_set_udls l s C L HR) as (s' & -> & H & _). exact H.
    - apply with_refs_inv; auto. intros HR.
      destruct (inv_remove_udls l all s I (refs_udls _ _ HR)) as (s' & -> & H & _). exact H.
    - apply with_refs_inv; auto. intros HR.
      destruct (inv_set_lls l s C U HR) as (s' & -> & H & _). exact H.
    - apply with_refs_inv; auto. intros HR.
      destruct (inv_remove_lls l all s I (refs_lls _ _ HR)) as (s' & -> & H & _). exact H.
    - apply with_refs_inv; auto. intros HR. now apply inv_set_materials.
    - apply with_refs_inv; auto. intros HR. now apply inv_remove_material.
    - now apply inv_analysis_options.
    - now apply inv_set_limits.
    - destruct (inv_remove_limits s I) as (s' & -> & H). exact H.
    - apply (same_model_inv s); auto. apply same_model_entry_exit.
    - apply (same_model_inv s); auto. apply same_model_circle.
    - apply (same_model_inv s); auto. constructor; reflexivity.
    - apply (same_model_inv s); auto. apply same_model_analyse.
    - pose proof (inv_analyse_dynamic crit s I) as H. unfold mbind.
      destruct (analyse_dynamic crit s) as [[a|e] s']; exact H.
  Qed.

  Lemma run_inv l : forall s : stR, Inv s -> Inv (run s l).
  Proof.
    unfold run. induction l as [|o l IH]; intros s I; cbn [fold_left]; auto.
    apply IH. now apply exec_inv.
  Qed.

  (** ** The constructor *)
  Definition started (h : heap R) (g : geom R) : stR :=
    (h, set_s_search [] (set_s_limits (default_limits g)
        (set_s_water_H (cos (atan (g_gradient g)) * cos (atan (g_gradient g)))
        (optioned (Some 25%Z) (Some 1000%Z) (Some 0) (Some (5 / 1000)) (Some 15%Z)
        (set_s_geom g (set_s_has_boundary true
        (set_s_min_ext_l 10 (set_s_min_ext_h 6 blank_slope)))))))).
  Lemma init_eff height angle length h :
    new_slope h height angle length =
    match boundary_inputs height angle length with
    | Err e => Err e
    | Ok (hh, ll) => Ok (started h (geom_of hh ll 6 10))
    end.
  Proof.
    unfold new_slope, init_slope. msteps.
    match goal with |- context [mbind (update_boundary_options _ _) _ ?x] => set (s1 := x) end.
    assert (E : update_boundary_options (PInt 10) (PInt 6) s1 =
      (Ok tt, (h, set_s_search [] (set_s_min_ext_l 10 (set_s_min_ext_h 6 (snd s1)))))).
    { assert (Q : forall z, (0 < z)%Z -> @opt_dim (PInt z) = Ok (Some (IZR z))).
      { intros z Hz. unfold opt_dim, assert_strictly_positive_number.
        cbn [truthy isinstance_num negb as_num rbind].
        destruct (Z.eqb_spec z 0); [lia|]. cbn [negb]. unR.
        rewrite (proj2 (Rltb_false (IZR z) 0)) by (apply IZR_le; lia). reflexivity. }
      unfold update_boundary_options.
      rewrite dim_step, Q by lia. rewrite dim_step, Q by lia. reflexivity. }
    erewrite bind_ok by exact E.
    set (s2 := (h, set_s_search [] (set_s_min_ext_l 10 (set_s_min_ext_h 6 (snd s1)))) : stR).
    unfold mbind at 1. rewrite set_external_boundary_eff.
    destruct (boundary_inputs height angle length) as [[hh ll]|e] eqn:Q; [|reflexivity].
    change (s_min_ext_h (snd s2)) with 6. change (s_min_ext_l (snd s2)) with 10.
    apply boundary_inputs_bounds in Q. destruct Q as [Hh Hl].
    set (g := geom_of hh ll 6 10).
    rewrite nz_R.
    erewrite bind_ok by apply analysis_options_eff.
    erewrite bind_ok by (rewrite water_options_eff; reflexivity).
    rewrite remove_limits_eff by (cbn; apply (geom_of_top hh ll 6 10); assumption).
    destruct h as [hm hu hl]. reflexivity.
  Qed.

  Lemma started_inv hh ll (h : heap R) :
    0 <= hh -> 1 / 1000 <= ll ->
    Forall mat_ok (h_materials h) -> Forall udl_ok (h_udls h) -> Forall ll_ok (h_lls h) ->
    Inv (started h (geom_of hh ll 6 10)).
  Proof.
    intros. split; [|split].
    - constructor; cbn; auto; try lra; try lia; try contradiction.
      + exists 6. split; [lra | reflexivity].
      + now apply geom_limits_ok.
      + apply cos2_bounds.
      + constructor.
    - intros n u [].
    - intros n u [].
  Qed.

  Lemma new_slope_inv h height angle length s :
    Forall mat_ok (h_materials h) -> Forall udl_ok (h_udls h) -> Forall ll_ok (h_lls h) ->
    new_slope h height angle length = Ok s -> Inv s.
  Proof.
    intros H1 H2 H3. rewrite init_eff.
    destruct (boundary_inputs height angle length) as [[hh ll]|e] eqn:Q; [|discriminate].
    injection 1 as <-. apply boundary_inputs_bounds in Q. now apply started_inv.
  Qed.

  Lemma reachable_inv (s : stR) : reachable s -> Inv s.
  Proof.
    intros (hh & a & l & ops & s0 & E & ->). apply run_inv.
    eapply new_slope_inv; [| | |exact E]; constructor.
  Qed.
End Calls.
