(** * FormFacts: the model made from a submitted form (slope/views.py:349-475), in real numbers. *)
From Coq Require Import ZArith Reals Lra Lia List Bool String Permutation Sorted.
From Verif Require Import Num Py Validation Utilities Objects Slope Planes Analysis
     Dynamic Api RealNum RealFacts ListFacts MonadFacts SlopeFacts MaterialFacts KeepFacts
     Invariant History Spec EditFacts LayerFacts OptionFacts LoadFacts MatInv SearchFacts
     GrowFacts Plot Web.
Import ListNotations.
Local Open Scope R_scope.

(** ** What a row of the form means *)
(** unit weight, friction angle, cohesion, depth, name, colour *)
Definition layer_values (m : material R) : R * R * R * R * string * string :=
  (m_unit_weight m, m_friction_angle m, m_cohesion m, m_depth m, m_name m, m_user_color m).
Definition row_values (r : option (material_row R)) : R * R * R * R * string * string :=
  match r with
  | Some r => (wm_unit_weight r, wm_friction r, Rabs (wm_cohesion r), Rabs (wm_depth r),
               wm_name r, wm_color r)
  | None => (20, 35, 2, 5, EmptyString, EmptyString)
  end.
Definition row_depth (r : option (material_row R)) : R :=
  match r with Some r => Rabs (wm_depth r) | None => 5 end.
Definition row_ok (r : option (material_row R)) : Prop :=
  match r with
  | Some r => 1 <= wm_unit_weight r <= 50 /\ 0 <= wm_friction r
  | None => True
  end.
(** magnitude, offset, colour, dynamic *)
Definition ll_values {EN : Env} (r : option (ll_row R)) : R * R * string * bool :=
  match r with
  | Some r => (Rabs (wl_magnitude r), Rabs (wl_offset r),
               if is_color (wl_color r) then wl_color r else "blue"%string, wl_dynamic r)
  | None => (0, 0, "blue"%string, false)
  end.
Definition udl_values {EN : Env} (r : option (udl_row R)) : R * R * option R * string * bool :=
  match r with
  | Some r => (Rabs (wu_magnitude r), Rabs (wu_offset r),
               if Req_EM_T (wu_length r) 0 then None else Some (Rabs (wu_length r)),
               if is_color (wu_color r) then wu_color r else "red"%string, wu_dynamic r)
  | None => (0, 0, None, "red"%string, false)
  end.
(** the rows whose load is not zero *)
Definition real_lls {EN : Env} (l : list (option (ll_row R))) : list (R * R * string * bool) :=
  filter (fun v => if Req_EM_T (fst (fst (fst v))) 0 then false else true) (map ll_values l).
Definition real_udls {EN : Env} (l : list (option (udl_row R))) : list (R * R * option R * string * bool) :=
  filter (fun v => if Req_EM_T (fst (fst (fst (fst v)))) 0 then false else true)
         (map udl_values l).

Section Form.
  Context {EN : Env}.
  Notation stR := (st R).

  (** ** Sequences of calls *)
  Lemma exec_all_app l1 l2 (s : stR) :
    exec_all (l1 ++ l2) s =
    match exec_all l1 s with (Ok _, s') => exec_all l2 s' | (Err e, s') => (Err e, s') end.
  Proof.
    revert s. induction l1 as [|o l1 IH]; intros s; [reflexivity|].
    cbn [app exec_all]. unfold mbind. destruct (exec o s) as [[[]|e] s1]; [apply IH | reflexivity].
  Qed.
  Lemma exec_all_run l : forall s s' : stR,
    exec_all l s = (Ok tt, s') -> s' = run s l /\ accepted s l s'.
  Proof.
    induction l as [|o l IH]; intros s s'; cbn [exec_all].
    - intros Q. injection Q as <-. split; [reflexivity | constructor].
    - unfold mbind. destruct (exec o s) as [[[]|e] s1] eqn:E; [|discriminate].
      intros Q. destruct (IH _ _ Q) as [A B]. split.
      + rewrite A. unfold run. cbn [fold_left]. unfold step. now rewrite E.
      + econstructor; eauto.
  Qed.
  Lemma reachable_ops l (s : stR) : reachable s -> reachable (run s l).
  Proof.
    revert s. induction l as [|o l IH]; intros s A; [exact A|].
    unfold run. cbn [fold_left]. apply IH. now apply reachable_step.
  Qed.
  Lemma exec_reachable o (s s' : stR) r : reachable s -> exec o s = (r, s') -> reachable s'.
  Proof.
    intros A E. pose proof (reachable_step o s A) as B. unfold step in B. now rewrite E in B.
  Qed.

  (** ** Materials *)
  Lemma new_row r (s : stR) :
    (row_ok r /\ exists m, exec (material_op r) s =
       (Ok tt, (MkHeap (h_materials (fst s) ++ [m]) (h_udls (fst s)) (h_lls (fst s)), snd s)) /\
       layer_values m = row_values r) \/
    (~ row_ok r /\ exec (material_op r) s = (Err ValueError, s)).
  Proof.
    destruct r as [r|]; cbn [material_op exec].
    - unfold alloc. rewrite bind_lift. unfold new_material, assert_range, assert_positive_number, assert_number.
      cbn [isinstance_num type_num negb as_num rbind andb]. unR.
      destruct (Rltb (wm_unit_weight r) 1) eqn:E1; rbool.
      { right. split; [intros [? ?]; lra | reflexivity]. }
      destruct (Rltb 50 (wm_unit_weight r)) eqn:E2; rbool.
      { right. split; [intros [? ?]; lra | reflexivity]. }
      cbn [rbind]. destruct (Rltb (wm_friction r) 0) eqn:E3; rbool.
      { right. split; [intros [? ?]; lra | reflexivity]. }
      left. split; [cbn; lra|]. eexists. split; reflexivity.
    - left. split; [exact I|]. unfold alloc. rewrite bind_lift.
      unfold new_material, assert_range, assert_positive_number, assert_number.
      cbn [isinstance_num type_num negb as_num rbind andb]. unR.
      replace (Rltb 20 1) with false by (symmetry; apply Rltb_false; lra).
      replace (Rltb 50 20) with false by (symmetry; apply Rltb_false; lra).
      cbn [rbind]. replace (Rltb 35 0) with false by (symmetry; apply Rltb_false; lra).
      eexists. split; [reflexivity|].
      unfold layer_values, row_values. cbn. rewrite !Rabs_right by lra. reflexivity.
  Qed.

  Lemma derefs_map {A B} (c : A -> B) h locs : map c (derefs h locs) = derefs (map c h) locs.
  Proof.
    unfold derefs. induction locs as [|n locs IH]; [reflexivity|]. cbn [flat_map].
    rewrite map_app, IH, nth_error_map. now destruct (nth_error h n).
  Qed.
  Lemma derefs_more {A} (h : list A) locs a :
    valid_in h locs -> derefs (h ++ [a]) locs = derefs h locs.
  Proof.
    unfold derefs. induction 1 as [|n locs L V IH]; [reflexivity|]. cbn [flat_map].
    now rewrite IH, nth_error_app1.
  Qed.
  Lemma derefs_new {A} (h : list A) a : derefs (h ++ [a]) [List.length h] = [a].
  Proof.
    unfold derefs. cbn [flat_map]. now rewrite nth_error_app2, Nat.sub_diag by lia.
  Qed.
  Lemma derefs_app {A} (h : list A) a b : derefs h (a ++ b) = derefs h a ++ derefs h b.
  Proof. apply flat_map_app. Qed.
  Lemma derefs_perm {A} (h : list A) l1 l2 :
    Permutation l1 l2 -> Permutation (derefs h l1) (derefs h l2).
  Proof. apply Permutation_flat_map. Qed.

  Lemma assigned_values eh locs : forall i h,
    map layer_values (assign_pure eh i locs h) = map layer_values h.
  Proof.
    induction locs as [|n locs IH]; intros i h; cbn [assign_pure]; [reflexivity|].
    rewrite IH. apply map_upd_nth. reflexivity.
  Qed.

  Lemma layer_depth m r : layer_values m = row_values r -> m_depth m = row_depth r.
  Proof. destruct r; cbn; intros Q; injection Q as _ _ _ -> _ _; reflexivity. Qed.
  Lemma depths_values l : map m_depth l = map (fun v => snd (fst (fst v))) (map layer_values l).
  Proof. rewrite map_map. reflexivity. Qed.
  Lemma depths_rows l : map row_depth l = map (fun v => snd (fst (fst v))) (map row_values l).
  Proof. rewrite map_map. apply map_ext. now intros [r|]. Qed.
  Lemma mats_valid (s : stR) : Inv s -> valid_in (h_materials (fst s)) (s_materials (snd s)).
  Proof.
    intros (C & _ & _). apply Forall_forall. intros n Hn.
    destruct (c_mat_set _ C n Hn) as (m & Q & _). apply nth_error_Some. congruence.
  Qed.

  (** what the calls about materials leave alone *)
  Definition rest (s : stR) :=
    (s_udls (snd s), map udl_core (h_udls (fst s)), s_lls (snd s), map ll_core (h_lls (fst s)),
     (s_water_RL (snd s), s_water_depth (snd s), s_planes (snd s))).
  Lemma rest_udl_xy n (a b : udl R -> R) :
    keeps (same rest) (upd_udl n (fun u => set_udl_xy (a u) (b u) u)).
  Proof. intros s. unfold same, rest. cbn. now rewrite map_upd_nth. Qed.
  Lemma rest_ll_coord n (a : lload R -> R) :
    keeps (same rest) (upd_ll n (fun u => set_ll_coord (a u) u)).
  Proof. intros s. unfold same, rest. cbn. now rewrite map_upd_nth. Qed.
  Hint Resolve rest_udl_xy rest_ll_coord : keeps.
  Lemma rest_set_boundary h a l : keeps (same rest) (set_external_boundary h a l).
  Proof.
    unfold set_external_boundary, update_udl_coordinates, update_ll_coordinates,
      remove_analysis_limits, set_analysis_limits. untouched.
  Qed.
  Hint Resolve rest_set_boundary : keeps.
  Lemma rest_boundary_options l h : keeps (same rest) (update_boundary_options l h).
  Proof. unfold update_boundary_options. untouched. Qed.
  Hint Resolve rest_boundary_options : keeps.
  Lemma rest_assign locs : forall i, keeps (same rest) (assign_materials i locs).
  Proof. induction locs; intros i; cbn [assign_materials]; untouched. Qed.
  Hint Resolve rest_assign : keeps.
  Lemma rest_set_materials l : keeps (same rest) (set_materials l).
  Proof. unfold set_materials. untouched. Qed.

  Definition added_row (m : material R) (s : stR) : stR :=
    (MkHeap (h_materials (fst s) ++ [m]) (h_udls (fst s)) (h_lls (fst s)), snd s).
  Lemma give_row m (s : stR) :
    reachable s -> reachable (added_row m s) ->
    exists s', reachable s' /\ rest s' = rest s /\ opts s' = opts s /\
      List.length (h_materials (fst s')) = S (List.length (h_materials (fst s))) /\
      ((~ In (m_depth m) (map m_depth (mats_of s)) /\
        exec (SetMaterials [RefMaterial (List.length (h_materials (fst s)))]) (added_row m s)
          = (Ok tt, s') /\
        Permutation (map layer_values (mats_of s'))
                    (layer_values m :: map layer_values (mats_of s))) \/
       (In (m_depth m) (map m_depth (mats_of s)) /\
        exec (SetMaterials [RefMaterial (List.length (h_materials (fst s)))]) (added_row m s)
          = (Err ValueError, s'))).
  Proof.
    intros Hr Hr1. set (s1 := added_row m s) in *. set (n := List.length (h_materials (fst s))).
    pose proof (reachable_inv s Hr) as I0. pose proof (reachable_inv s1 Hr1) as I1.
    set (o := SetMaterials [RefMaterial n]).
    set (s' := snd (exec o s1)). exists s'.
    assert (Hr' : reachable s') by (apply (reachable_step o s1 Hr1)).
    assert (E : exec o s1 = set_materials [RefMaterial n] s1).
    { unfold o. cbn [exec]. apply with_refs_intro. repeat constructor. cbn.
      apply Nat.ltb_lt. rewrite app_length. cbn. unfold n. lia. }
    split; [exact Hr'|]. split.
    { unfold s'. rewrite E. transitivity (rest s1); [apply rest_set_materials | reflexivity]. }
    split.
    { transitivity (opts s1); [apply opts_kept; reflexivity | reflexivity]. }
    pose proof (mats_valid s I0) as V.
    assert (V1 : valid_in (h_materials (fst s1)) (n :: s_materials (snd s))).
    { constructor.
      - cbn. rewrite app_length. cbn. unfold n. lia.
      - eapply Forall_impl; [|exact V]. intros k Hk. cbn. rewrite app_length. cbn in *. lia. }
    set (locs := sorted_locs s1 [n]).
    assert (P : Permutation locs (n :: s_materials (snd s))).
    { apply Permutation_sym, sort_by_perm. }
    assert (D : map (depth_of (h_materials (fst s1))) (n :: s_materials (snd s)) =
                m_depth m :: map m_depth (mats_of s)).
    { rewrite derefs_map_depth by exact V1. change (n :: s_materials (snd s)) with ([n] ++ s_materials (snd s)).
      unfold derefs. rewrite flat_map_app. fold (derefs (h_materials (fst s1)) [n]).
      fold (derefs (h_materials (fst s1)) (s_materials (snd s))).
      cbn [fst s1 added_row h_materials]. unfold n. rewrite derefs_new, derefs_more by exact V. reflexivity. }
    assert (ND : NoDup (map m_depth (mats_of s))).
    { unfold mats_of. rewrite <- derefs_map_depth by exact V.
      eapply strictly_sorted_nodup, (c_mat_sorted _ (proj1 I0)). }
    pose proof (set_materials_eff [RefMaterial n] s1 (proj1 I1)) as Q.
    cbn [material_locs rbind] in Q. fold locs in Q.
    pose proof (Permutation_map (depth_of (h_materials (fst s1))) P) as PD. rewrite D in PD.
    remember (map (depth_of (h_materials (fst s1))) locs) as ds eqn:Eds.
    destruct (rev ds) as [|d t] eqn:Er.
    { apply (f_equal (@List.length R)) in Er. rewrite rev_length in Er.
      apply Permutation_length in PD. rewrite Er in PD. discriminate. }
    assert (M : h_materials (fst (deepened d s1)) = h_materials (fst s1)).
    { unfold deepened. destruct (Rltb _ _); reflexivity. }
    destruct (has_dup ds) eqn:Ed.
    - assert (Es : s' = deepened d s1) by (unfold s'; now rewrite E, Q).
      split; [rewrite Es, M; cbn; rewrite app_length; cbn; unfold n; lia|].
      right. split; [|rewrite E, Q, Es; reflexivity].
      destruct (in_dec Req_EM_T (m_depth m) (map m_depth (mats_of s))) as [Hin|Hn]; [exact Hin|].
      exfalso. assert (N : NoDup ds) by (eapply Permutation_NoDup; [apply Permutation_sym, PD|]; now constructor).
      apply has_dup_false in N. congruence.
    - assert (Es : s' = layered (deepened d s1) locs) by (unfold s'; now rewrite E, Q).
      apply has_dup_false in Ed.
      pose proof (Permutation_NoDup PD Ed) as N. inversion N as [|? ? N1 N2]; subst x l.
      assert (Hv : map layer_values (h_materials (fst s')) = map layer_values (h_materials (fst s1))).
      { rewrite Es. cbn [layered fst h_materials]. now rewrite assigned_values, M. }
      split.
      { apply (f_equal (@List.length _)) in Hv. rewrite !map_length in Hv. rewrite Hv.
        cbn. rewrite app_length. cbn. lia. }
      left. split; [exact N1|]. split; [rewrite E, Q, Es; reflexivity|].
      assert (Hl : s_materials (snd s') = locs) by (rewrite Es; reflexivity).
      unfold mats_of at 1. rewrite Hl, derefs_map, Hv, <- derefs_map.
      eapply Permutation_trans; [apply Permutation_map, derefs_perm, P|].
      change (n :: s_materials (snd s)) with ([n] ++ s_materials (snd s)).
      unfold derefs. rewrite flat_map_app. fold (derefs (h_materials (fst s1)) [n]).
      fold (derefs (h_materials (fst s1)) (s_materials (snd s))).
      cbn [fst s1 added_row h_materials]. unfold n. rewrite derefs_new, derefs_more by exact V.
      apply Permutation_refl.
  Qed.

  Definition mat_ops := row_ops (T := R) material_op (fun i => SetMaterials [RefMaterial i]).
  Lemma materials_phase rows : forall (s : stR),
    reachable s ->
    exists s', reachable s' /\ rest s' = rest s /\ opts s' = opts s /\
     ((Forall row_ok rows /\ NoDup (map row_depth rows ++ map m_depth (mats_of s)) /\
       exec_all (mat_ops (List.length (h_materials (fst s))) rows) s = (Ok tt, s') /\
       Permutation (map layer_values (mats_of s'))
                    (map row_values rows ++ map layer_values (mats_of s))) \/
       (~ (Forall row_ok rows /\ NoDup (map row_depth rows ++ map m_depth (mats_of s))) /\
       exec_all (mat_ops (List.length (h_materials (fst s))) rows) s = (Err ValueError, s'))).
  Proof.
    induction rows as [|r rows IH]; intros s Hr.
    - exists s. repeat (split; [auto; fail|]). left. split; [constructor|]. split.
      + cbn. unfold mats_of. rewrite <- derefs_map_depth by apply mats_valid, reachable_inv, Hr.
        eapply strictly_sorted_nodup, (c_mat_sorted _ (proj1 (reachable_inv s Hr))).
      + split; [reflexivity | apply Permutation_refl].
    - unfold mat_ops. cbn [row_ops exec_all]. 
      destruct (new_row r s) as [(Hok & m & E & Hm) | (Hn & E)].
      2:{ exists s. repeat (split; [auto; fail|]). right. split.
          - intros [F _]. inversion F; contradiction.
          - unfold mbind. now rewrite E. }
      fold (added_row m s) in E.
      assert (Hr1 : reachable (added_row m s)) by (eapply exec_reachable; eauto).
      destruct (give_row m s Hr Hr1) as (s2 & Hr2 & R2 & O2 & L2 & [(Hn & E2 & P2)|(Hi & E2)]).
      2:{ exists s2. repeat (split; [auto; fail|]). right. split.
          - intros [_ N]. cbn in N. inversion N as [|? ? N1 _]. apply N1.
            apply in_or_app. right. now rewrite <- (layer_depth _ _ Hm).
          - unfold mbind. rewrite E. unfold added_row in E2 |- *. now rewrite E2. }
      destruct (IH s2 Hr2) as (s3 & Hr3 & R3 & O3 & Hc). rewrite L2 in Hc.
      exists s3. split; [exact Hr3|]. split; [congruence|]. split; [congruence|].
      assert (PD : Permutation (map row_depth rows ++ map m_depth (mats_of s2))
                     (map row_depth (r :: rows) ++ map m_depth (mats_of s))).
      { cbn [map]. rewrite <- (layer_depth _ _ Hm).
        rewrite (depths_values (mats_of s2)).
        eapply Permutation_trans; [apply Permutation_app_head, Permutation_map, P2|].
        cbn [map]. rewrite <- depths_values. apply Permutation_sym, Permutation_middle. }
      destruct Hc as [(F & N & X & P3) | (Nn & X)].
      + left. split; [now constructor|]. split; [eapply Permutation_NoDup; eauto|]. split.
        * unfold mbind. rewrite E. rewrite E2. exact X.
        * eapply Permutation_trans; [exact P3|]. cbn [map]. rewrite <- Hm.
          eapply Permutation_trans; [apply Permutation_app_head, P2|].
          apply Permutation_sym, Permutation_middle.
      + right. split.
        * intros [F N]. apply Nn. inversion F; subst. split; [assumption|].
          eapply Permutation_NoDup; [apply Permutation_sym, PD | exact N].
        * unfold mbind. rewrite E. rewrite E2. exact X.
  Qed.

  (** ** Loads *)
  Definition wet_planes (s : stR) :=
    (s_water_RL (snd s), s_water_depth (snd s), s_planes (snd s)).
  Lemma wet_boundary_options l h : keeps (same wet_planes) (update_boundary_options l h).
  Proof.
    intros s. pose proof (rest_boundary_options l h s) as Q. unfold same, rest in Q.
    unfold same, wet_planes. congruence.
  Qed.
  Hint Resolve wet_boundary_options : keeps.
  Lemma wet_set_lls l : keeps (same wet_planes) (set_lls l).
  Proof. unfold set_lls, update_ll_coordinates. untouched. Qed.
  Lemma wet_set_udls l : keeps (same wet_planes) (set_udls l).
  Proof. unfold set_udls, update_udl_coordinates. untouched. Qed.

  Lemma new_ll_row r (s : stR) :
    exists l, exec (ll_op r) s =
       (Ok tt, (MkHeap (h_materials (fst s)) (h_udls (fst s)) (h_lls (fst s) ++ [l]), snd s)) /\
       ll_core l = ll_values r.
  Proof.
    destruct r as [r|]; cbn [ll_op exec]; unfold alloc; rewrite bind_lift;
      unfold new_lload, assert_number; cbn [isinstance_num type_num negb as_num rbind]; unR.
    - eexists. split; reflexivity.
    - eexists. split; [reflexivity|]. unfold ll_core, ll_values. cbn. rewrite Rabs_R0.
      now destruct (is_color "blue").
  Qed.
  Lemma new_udl_row r (s : stR) :
    exists u, exec (udl_op r) s =
       (Ok tt, (MkHeap (h_materials (fst s)) (h_udls (fst s) ++ [u]) (h_lls (fst s)), snd s)) /\
       udl_core u = udl_values r.
  Proof.
    destruct r as [r|]; cbn [udl_op exec]; unfold alloc; rewrite bind_lift;
      unfold new_udl, assert_number; cbn [isinstance_num type_num negb as_num rbind truthy]; unR.
    - destruct (Reqb (wu_length r) 0) eqn:E; rbool; cbn [negb rbind].
      + eexists. split; [reflexivity|]. unfold udl_core, udl_values. cbn.
        destruct (Req_EM_T (wu_length r) 0); [reflexivity|contradiction].
      + eexists. split; [reflexivity|]. unfold udl_core, udl_values. cbn.
        destruct (Req_EM_T (wu_length r) 0); [contradiction|reflexivity].
    - cbn [Z.eqb negb rbind]. eexists. split; [reflexivity|]. unfold udl_core, udl_values. cbn.
      rewrite Rabs_R0. now destruct (is_color "red").
  Qed.

  Lemma lls_valid (s : stR) : Inv s -> valid_in (h_lls (fst s)) (s_lls (snd s)).
  Proof.
    intros (C & _ & _). apply Forall_forall. intros n Hn.
    destruct (c_ll_locs _ C n Hn) as (m & Q & _). apply nth_error_Some. congruence.
  Qed.
  Lemma udls_valid (s : stR) : Inv s -> valid_in (h_udls (fst s)) (s_udls (snd s)).
  Proof.
    intros (C & _ & _). apply Forall_forall. intros n Hn.
    destruct (c_udl_locs _ C n Hn) as (m & Q & _). apply nth_error_Some. congruence.
  Qed.
  Lemma ll_values_pos r : 0 <= fst (fst (fst (ll_values r))).
  Proof. destruct r; cbn; [apply Rabs_pos | lra]. Qed.
  Lemma udl_values_pos r : 0 <= fst (fst (fst (fst (udl_values r)))).
  Proof. destruct r; cbn; [apply Rabs_pos | lra]. Qed.

  Definition beside_lls (s : stR) :=
    (mats_of s, map udl_core (udls_of s), List.length (h_udls (fst s)), wet_planes s, opts s).
  Definition line_ops := row_ops (T := R) ll_op (fun i => SetLls [RefLload i]).
  Lemma lls_phase rows : forall (s : stR),
    reachable s ->
    exists s', reachable s' /\ beside_lls s' = beside_lls s /\
      exec_all (line_ops (List.length (h_lls (fst s))) rows) s = (Ok tt, s') /\
      map ll_core (lls_of s') = map ll_core (lls_of s) ++ real_lls rows.
  Proof.
    induction rows as [|r rows IH]; intros s Hr.
    - exists s. repeat (split; [auto; fail|]). symmetry. apply app_nil_r.
    - unfold line_ops. cbn [row_ops exec_all].
      destruct (new_ll_row r s) as (x & E & Hx).
      set (s1 := (MkHeap (h_materials (fst s)) (h_udls (fst s)) (h_lls (fst s) ++ [x]), snd s)) in E.
      assert (Hr1 : reachable s1) by (eapply exec_reachable; eauto).
      set (n := List.length (h_lls (fst s))) in *.
      assert (F : Forall (fun r => ref_exists (fst s1) r = true) [RefLload n]).
      { repeat constructor. cbn. apply Nat.ltb_lt. rewrite app_length. cbn. unfold n. lia. }
      destruct (lls_assigned s1 [RefLload n] Hr1 F) as (s2 & _ & E2 & _).
      assert (Hr2 : reachable s2) by (eapply exec_reachable; eauto).
      pose proof E2 as E2'. cbn [exec] in E2'. rewrite with_refs_intro in E2' by exact F.
      pose proof (set_lls_loads _ _ _ E2') as Q. unfold loads, with_lls in Q.
      injection Q as Q1 Q2 Q3 Q4 Q5 Q6.
      pose proof (opts_kept (SetLls [RefLload n]) s1 eq_refl) as O2. rewrite E2 in O2. cbn [snd] in O2.
      pose proof (wet_set_lls [RefLload n] s1) as W2. unfold same in W2. rewrite E2' in W2. cbn [snd] in W2.
      assert (L2 : List.length (h_lls (fst s2)) = S n).
      { apply (f_equal (@List.length _)) in Q4. rewrite !map_length in Q4. rewrite Q4.
        cbn. rewrite app_length. cbn. unfold n. lia. }
      assert (B2 : beside_lls s2 = beside_lls s).
      { unfold beside_lls. rewrite O2, W2.
        apply (f_equal (@List.length _)) in Q2 as Q2'. rewrite !map_length in Q2'. rewrite Q2'.
        unfold mats_of, udls_of. rewrite Q1, Q5, Q6, !derefs_map, Q2. reflexivity. }
      assert (N2 : map ll_core (lls_of s2) = map ll_core (lls_of s) ++ real_lls [r]).
      { unfold lls_of. rewrite Q3, derefs_map, Q4, <- derefs_map, derefs_app, map_app.
        change (s_lls (snd s1)) with (s_lls (snd s)).
        change (h_lls (fst s1)) with (h_lls (fst s) ++ [x]).
        rewrite derefs_more by apply lls_valid, reachable_inv, Hr. f_equal.
        unfold new_lls. cbn [flat_map]. unfold n.
        rewrite nth_error_app2, Nat.sub_diag by lia. cbn [nth_error].
        unfold real_lls. cbn [map filter]. rewrite <- Hx. unR.
        pose proof (ll_values_pos r) as P. rewrite <- Hx in P. unfold ll_core in P |- *. cbn [fst] in P |- *.
        destruct (Rltb 0 (l_magnitude x)) eqn:Em; rbool; destruct (Req_EM_T (l_magnitude x) 0); try lra.
        - cbn. rewrite nth_error_app2, Nat.sub_diag by lia. cbn. unfold ll_core. reflexivity.
        - reflexivity. }
      destruct (IH s2 Hr2) as (s3 & Hr3 & B3 & X & N3). rewrite L2 in X.
      exists s3. split; [exact Hr3|]. split; [congruence|]. split.
      + unfold mbind. rewrite E, E2. exact X.
      + rewrite N3, N2, <- app_assoc. f_equal. unfold real_lls. cbn [map]. 
        change (ll_values r :: map ll_values rows) with ([ll_values r] ++ map ll_values rows).
        now rewrite filter_app.
  Qed.

  Definition beside_udls (s : stR) :=
    (mats_of s, map ll_core (lls_of s), List.length (h_lls (fst s)), wet_planes s, opts s).
  Definition strip_ops := row_ops (T := R) udl_op (fun i => SetUdls [RefUdl i]).
  Lemma udls_phase rows : forall (s : stR),
    reachable s ->
    exists s', reachable s' /\ beside_udls s' = beside_udls s /\
      exec_all (strip_ops (List.length (h_udls (fst s))) rows) s = (Ok tt, s') /\
      map udl_core (udls_of s') = map udl_core (udls_of s) ++ real_udls rows.
  Proof.
    induction rows as [|r rows IH]; intros s Hr.
    - exists s. repeat (split; [auto; fail|]). symmetry. apply app_nil_r.
    - unfold strip_ops. cbn [row_ops exec_all].
      destruct (new_udl_row r s) as (x & E & Hx).
      set (s1 := (MkHeap (h_materials (fst s)) (h_udls (fst s) ++ [x]) (h_lls (fst s)), snd s)) in E.
      assert (Hr1 : reachable s1) by (eapply exec_reachable; eauto).
      set (n := List.length (h_udls (fst s))) in *.
      assert (F : Forall (fun r => ref_exists (fst s1) r = true) [RefUdl n]).
      { repeat constructor. cbn. apply Nat.ltb_lt. rewrite app_length. cbn. unfold n. lia. }
      destruct (udls_assigned s1 [RefUdl n] Hr1 F) as (s2 & _ & E2 & _).
      assert (Hr2 : reachable s2) by (eapply exec_reachable; eauto).
      pose proof E2 as E2'. cbn [exec] in E2'. rewrite with_refs_intro in E2' by exact F.
      pose proof (set_udls_loads _ _ _ E2') as Q. unfold loads, with_udls in Q.
      injection Q as Q1 Q2 Q3 Q4 Q5 Q6.
      pose proof (opts_kept (SetUdls [RefUdl n]) s1 eq_refl) as O2. rewrite E2 in O2. cbn [snd] in O2.
      pose proof (wet_set_udls [RefUdl n] s1) as W2. unfold same in W2. rewrite E2' in W2. cbn [snd] in W2.
      assert (L2 : List.length (h_udls (fst s2)) = S n).
      { apply (f_equal (@List.length _)) in Q2. rewrite !map_length in Q2. rewrite Q2.
        cbn. rewrite app_length. cbn. unfold n. lia. }
      assert (B2 : beside_udls s2 = beside_udls s).
      { unfold beside_udls. rewrite O2, W2.
        apply (f_equal (@List.length _)) in Q4 as Q4'. rewrite !map_length in Q4'. rewrite Q4'.
        unfold mats_of, lls_of. rewrite Q3, Q5, Q6, !derefs_map, Q4. reflexivity. }
      assert (N2 : map udl_core (udls_of s2) = map udl_core (udls_of s) ++ real_udls [r]).
      { unfold udls_of. rewrite Q1, derefs_map, Q2, <- derefs_map, derefs_app, map_app.
        change (s_udls (snd s1)) with (s_udls (snd s)).
        change (h_udls (fst s1)) with (h_udls (fst s) ++ [x]).
        rewrite derefs_more by apply udls_valid, reachable_inv, Hr. f_equal.
        unfold new_udls. cbn [flat_map]. unfold n.
        rewrite nth_error_app2, Nat.sub_diag by lia. cbn [nth_error].
        unfold real_udls. cbn [map filter]. rewrite <- Hx. unR.
        pose proof (udl_values_pos r) as P. rewrite <- Hx in P. unfold udl_core in P |- *. cbn [fst] in P |- *.
        destruct (Rltb 0 (u_magnitude x)) eqn:Em; rbool; destruct (Req_EM_T (u_magnitude x) 0); try lra.
        - cbn. rewrite nth_error_app2, Nat.sub_diag by lia. cbn. unfold udl_core. reflexivity.
        - reflexivity. }
      destruct (IH s2 Hr2) as (s3 & Hr3 & B3 & X & N3). rewrite L2 in X.
      exists s3. split; [exact Hr3|]. split; [congruence|]. split.
      + unfold mbind. rewrite E, E2. exact X.
      + rewrite N3, N2, <- app_assoc. f_equal. unfold real_udls. cbn [map].
        change (udl_values r :: map udl_values rows) with ([udl_values r] ++ map udl_values rows).
        now rewrite filter_app.
  Qed.

  (** ** The search limits stay those of the cross-section *)
  Definition default (s : stR) : Prop := s_limits (snd s) = default_limits (s_geom (snd s)).
  Definition follow (a b : stR) : Prop :=
    Exact a -> Exact b /\ g_height (s_geom (snd b)) = g_height (s_geom (snd a)) /\
               g_length (s_geom (snd b)) = g_length (s_geom (snd a)) /\ (default a -> default b).
  Lemma follow_refl s : follow s s.
  Proof. intros H. auto. Qed.
  Lemma follow_trans a b c : follow a b -> follow b c -> follow a c.
  Proof.
    intros F G E. destruct (F E) as (E1 & H1 & L1 & A1). destruct (G E1) as (E2 & H2 & L2 & A2).
    repeat split; auto; try congruence; apply E2.
  Qed.
  Hint Resolve follow_refl follow_trans : core.
  Definition outline (s : stR) := (GrowFacts.shape s, s_limits (snd s)).
  Lemma follow_same a b : outline b = outline a -> follow a b.
  Proof.
    unfold outline, GrowFacts.shape. intros Q. injection Q as Q1 Q2 Q3 Q4 Q5. intros (X1 & X2 & X3 & X4).
    unfold Exact, default. rewrite Q1, Q2, Q3, Q4, Q5. auto 10.
  Qed.
  Lemma follow_keeps {A} (m : M stR A) : keeps (same outline) m -> keeps follow m.
  Proof. intros K s. apply follow_same, K. Qed.
  Lemma follow_length v (s : stR) : follow s (snd (update_boundary_options (PFloat v) PNone s)).
  Proof.
    intros X. destruct X as (B & H & L & G). rewrite update_boundary_eff by assumption.
    replace (opt_dim PNone) with (@Ok (option R) None) by reflexivity. cbn zeta.
    destruct (opt_dim_cases v) as [-> | [-> | (e & ->)]]; cbn [snd upd_dim].
    - unfold Exact, default, rebuilt. cbn. auto 10.
    - unfold Exact, default, rebuilt. cbn. auto 10.
    - apply (follow_refl s). unfold Exact; auto.
  Qed.
  Lemma follow_depth v (s : stR) :
    g_ext_h (s_geom (snd s)) < v -> follow s (snd (update_boundary_options PNone (PFloat v) s)).
  Proof.
    intros Hv X. pose proof (exact_ext_h s X). destruct X as (B & H' & L & G).
    rewrite update_boundary_eff by assumption. cbn zeta.
    replace (opt_dim PNone) with (@Ok (option R) None) by reflexivity.
    destruct (opt_dim_cases v) as [-> | [-> | (e & ->)]]; cbn [snd upd_dim].
    - unfold Exact, default, rebuilt. cbn. auto 10.
    - unfold Exact, default, rebuilt. cbn. auto 10.
    - apply (follow_refl s). unfold Exact; auto.
  Qed.
  Ltac quiet := apply follow_keeps; untouched.
  Lemma follow_udl_one r : keeps follow (set_udl_one r).
  Proof.
    destruct r as [n|n|n|]; cbn [set_udl_one]; try (apply keeps_ret; eauto).
    apply keeps_bind; eauto; [quiet|intros u].
    apply keeps_when; eauto.
    apply keeps_bind; eauto; [quiet|intros locs].
    apply keeps_bind; eauto; [quiet|intros _].
    intros s. rewrite bind_self_get.
    destruct (nltb _ _) eqn:E; cbn [mwhen]; [|apply follow_refl]. apply follow_length.
  Qed.
  Lemma follow_ll_one r : keeps follow (set_ll_one r).
  Proof.
    destruct r as [n|n|n|]; cbn [set_ll_one]; try (apply keeps_ret; eauto).
    apply keeps_bind; eauto; [quiet|intros u].
    apply keeps_when; eauto.
    apply keeps_bind; eauto; [quiet|intros locs].
    apply keeps_bind; eauto; [quiet|intros _].
    intros s. rewrite bind_self_get.
    destruct (nltb _ _) eqn:E; cbn [mwhen]; [|apply follow_refl]. apply follow_length.
  Qed.
  Lemma follow_set_udls l : keeps follow (set_udls l).
  Proof.
    unfold set_udls. apply keeps_bind; eauto.
    - apply keeps_forM; eauto. intros. apply follow_udl_one.
    - intros _. quiet.
  Qed.
  Lemma follow_set_lls l : keeps follow (set_lls l).
  Proof.
    unfold set_lls. apply keeps_bind; eauto.
    - apply keeps_forM; eauto. intros. apply follow_ll_one.
    - intros _. quiet.
  Qed.
  Lemma outline_assign locs : forall i, keeps (same outline) (assign_materials i locs).
  Proof. induction locs; intros i; cbn [assign_materials]; untouched. Qed.
  Hint Resolve outline_assign : keeps.
  Lemma follow_set_materials l : keeps follow (set_materials l).
  Proof.
    unfold set_materials.
    apply keeps_bind; eauto; [quiet|intros news].
    apply keeps_bind; eauto; [quiet|intros olds].
    apply keeps_bind; eauto; [quiet|intros h]. cbv zeta.
    apply keeps_bind; eauto; [quiet|intros d].
    intros s. rewrite bind_self_get.
    set (k := fun _ : unit => _).
    match goal with |- follow s (snd (mbind ?m _ s)) =>
      assert (G : follow s (snd (m s))) end.
    { destruct (nltb _ _) eqn:E; cbn [mwhen]; [|apply follow_refl].
      unR. rbool. now apply follow_depth. }
    unfold mbind. destruct (mwhen _ _ s) as [[u|e] s1]; cbn [snd] in *; [|exact G].
    eapply follow_trans; [exact G|]. subst k.
    match goal with |- follow s1 (snd (?m s1)) => assert (K : keeps follow m) end.
    { quiet. }
    apply K.
  Qed.

  (** the calls made before the limits are set *)
  Definition setting_up (o : op R) : bool :=
    match o with
    | NewMaterial _ _ _ _ _ _ | NewUdl _ _ _ _ _ | NewLload _ _ _ _
    | SetMaterials _ | SetUdls _ | SetLls _ | SetWater _ | AnalysisOpts _ _ _ _ _ => true
    | _ => false
    end.
  Lemma follow_exec o : setting_up o = true -> keeps follow (exec o).
  Proof.
    intros H. destruct o; try discriminate; cbn [exec]; unfold alloc, with_refs.
    all: try solve [quiet].
    all: try (unfold set_water_table, update_analysis_options; solve [quiet]).
    all: apply keeps_bind; eauto; [quiet|intros h].
    all: match goal with |- keeps _ (if ?b then _ else _) => destruct b end.
    all: try solve [apply keeps_raise; eauto | quiet].
    all: auto using follow_set_udls, follow_set_lls, follow_set_materials.
  Qed.
  Lemma follow_all l (s : stR) :
    Forall (fun o => setting_up o = true) l -> follow s (snd (exec_all l s)).
  Proof.
    intros F. revert s. induction F as [|o l Ho F IH]; intros s; cbn [exec_all]; [apply follow_refl|].
    unfold mbind. pose proof (follow_exec o Ho s) as G.
    destruct (exec o s) as [[[]|e] s1]; cbn [snd] in *; [|exact G]. eapply follow_trans; [exact G | apply IH].
  Qed.
  Lemma row_ops_setting {A} (make : A -> op R) give l : forall i,
    (forall a, setting_up (make a) = true) -> (forall n, setting_up (give n) = true) ->
    Forall (fun o => setting_up o = true) (row_ops make give i l).
  Proof.
    induction l as [|a l IH]; intros i H1 H2; cbn [row_ops]; [constructor|].
    repeat constructor; auto.
  Qed.
  Lemma setup_setting f : Forall (fun o => setting_up o = true) (setup_ops f).
  Proof.
    unfold setup_ops. repeat (apply Forall_app; split).
    - repeat constructor.
    - apply row_ops_setting; [intros [r|]|]; reflexivity.
    - apply row_ops_setting; [intros [r|]|]; reflexivity.
    - apply row_ops_setting; [intros [r|]|]; reflexivity.
    - destruct (w_consider_water f); repeat constructor.
  Qed.

  (** ** The section only gets wider for loads *)
  Definition wide (a b : stR) : Prop := Exact a -> Exact b /\ s_min_ext_l (snd b) = s_min_ext_l (snd a).
  Lemma wide_refl s : wide s s.
  Proof. intros H. auto. Qed.
  Lemma wide_trans a b c : wide a b -> wide b c -> wide a c.
  Proof.
    intros F G E. destruct (F E) as (E1 & L1). destruct (G E1) as (E2 & L2). split; [exact E2 | congruence].
  Qed.
  Hint Resolve wide_refl wide_trans : core.
  Lemma wide_keeps {A} (m : M stR A) : keeps (same outline) m -> keeps wide m.
  Proof.
    intros K s. specialize (K s). unfold same, outline, GrowFacts.shape in K.
    injection K as Q1 Q2 Q3 Q4 Q5. intros (X1 & X2 & X3 & X4).
    unfold Exact. rewrite Q1, Q2, Q3, Q4. auto.
  Qed.
  Lemma wide_depth v (s : stR) :
    g_ext_h (s_geom (snd s)) < v -> wide s (snd (update_boundary_options PNone (PFloat v) s)).
  Proof.
    intros Hv X. pose proof (exact_ext_h s X). destruct X as (B & H' & L & G).
    rewrite update_boundary_eff by assumption. cbn zeta.
    replace (opt_dim PNone) with (@Ok (option R) None) by reflexivity.
    destruct (opt_dim_cases v) as [-> | [-> | (e & ->)]]; cbn [snd upd_dim].
    - unfold Exact, rebuilt. cbn. auto 10.
    - unfold Exact, rebuilt. cbn. auto 10.
    - apply (wide_refl s). unfold Exact; auto.
  Qed.
  Ltac calm := apply wide_keeps; untouched.
  Lemma wide_set_materials l : keeps wide (set_materials l).
  Proof.
    unfold set_materials.
    apply keeps_bind; eauto; [calm|intros news].
    apply keeps_bind; eauto; [calm|intros olds].
    apply keeps_bind; eauto; [calm|intros h]. cbv zeta.
    apply keeps_bind; eauto; [calm|intros d].
    intros s. rewrite bind_self_get.
    set (k := fun _ : unit => _).
    match goal with |- wide s (snd (mbind ?m _ s)) =>
      assert (G : wide s (snd (m s))) end.
    { destruct (nltb _ _) eqn:E; cbn [mwhen]; [|apply wide_refl].
      unR. rbool. now apply wide_depth. }
    unfold mbind. destruct (mwhen _ _ s) as [[u|e] s1]; cbn [snd] in *; [|exact G].
    eapply wide_trans; [exact G|]. subst k.
    match goal with |- wide s1 (snd (?m s1)) => assert (K : keeps wide m) end.
    { calm. }
    apply K.
  Qed.
  Definition unloaded_call (o : op R) : bool :=
    match o with
    | NewMaterial _ _ _ _ _ _ | SetMaterials _ | SetWater _ | AnalysisOpts _ _ _ _ _ => true
    | _ => false
    end.
  Lemma wide_exec o : unloaded_call o = true -> keeps wide (exec o).
  Proof.
    intros H. destruct o; try discriminate; cbn [exec]; unfold alloc, with_refs.
    all: try solve [calm].
    all: try (unfold set_water_table, update_analysis_options; solve [calm]).
    all: apply keeps_bind; eauto; [calm|intros h].
    all: match goal with |- keeps _ (if ?b then _ else _) => destruct b end.
    all: try solve [apply keeps_raise; eauto | calm].
    all: auto using wide_set_materials.
  Qed.
  Lemma wide_all l (s : stR) :
    Forall (fun o => unloaded_call o = true) l -> wide s (snd (exec_all l s)).
  Proof.
    intros F. revert s. induction F as [|o l Ho F IH]; intros s; cbn [exec_all]; [apply wide_refl|].
    unfold mbind. pose proof (wide_exec o Ho s) as G.
    destruct (exec o s) as [[[]|e] s1]; cbn [snd] in *; [|exact G]. eapply wide_trans; [exact G | apply IH].
  Qed.
  Lemma setup_unloaded f : w_lls f = [] -> w_udls f = [] ->
    Forall (fun o => unloaded_call o = true) (setup_ops f).
  Proof.
    intros NL NU. unfold setup_ops. rewrite NL, NU. cbn [row_ops]. repeat (apply Forall_app; split); try apply Forall_nil.
    - repeat constructor.
    - generalize 0%nat. induction (w_materials f) as [|a l IH]; intros i; cbn [row_ops]; [constructor|].
      apply Forall_cons; [now destruct a|]. apply Forall_cons; [reflexivity|]. apply IH.
    - destruct (w_consider_water f); repeat constructor.
  Qed.
  Lemma grow_all l (s : stR) :
    Forall (fun o => setting_up o = true) l -> grow s (snd (exec_all l s)).
  Proof.
    intros F. revert s. induction F as [|o l Ho F IH]; intros s; cbn [exec_all]; [apply grow_refl|].
    assert (Ho' : about_boundary o = false) by (destruct o; try discriminate Ho; reflexivity).
    unfold mbind. pose proof (grow_exec o Ho' s) as G.
    destruct (exec o s) as [[[]|e] s1]; cbn [snd] in *; [|exact G]. eapply grow_trans; [exact G | apply IH].
  Qed.

  (** ** The slope itself *)
  Definition dims_ok (f : form R) : Prop :=
    0 <= w_height f /\
    if w_by_length f then 0 <= w_length f else 0 < w_angle f <= 90.
  Definition dims_length (f : form R) : R :=
    Rmax (if w_by_length f then w_length f
          else w_height f / Rtan_py (w_angle f * (PI / 180))) (1 / 1000).
  Definition first_model (f : form R) : stR :=
    started empty_heap (geom_of (w_height f) (dims_length f) 6 10).
  Lemma web_slope_spec f :
    (dims_ok f /\ web_slope f = Ok (first_model f)) \/
    (~ dims_ok f /\ web_slope f = Err ValueError).
  Proof.
    unfold web_slope, dims_ok, first_model, dims_length. destruct (w_by_length f).
    - rewrite init_eff.
      destruct (Rlt_dec (w_height f) 0) as [Hn|Hh].
      { right. split; [lra|]. unfold boundary_inputs, assert_strictly_positive_number.
        cbn [is_none isinstance_num negb as_num rbind]. unR.
        now rewrite (proj2 (Rltb_true _ _) Hn). }
      destruct (Rlt_dec (w_length f) 0) as [Hn|Hl].
      { right. split; [lra|]. unfold boundary_inputs, assert_range, assert_positive_number,
          assert_strictly_positive_number.
        cbn [is_none isinstance_num type_num negb as_num rbind andb orb]. unR.
        rewrite (proj2 (Rltb_false (w_height f) 0)) by lra.
        rewrite (proj2 (Rltb_false 30 0)), (proj2 (Rltb_false 90 30)), (proj2 (Reqb_false 30 0)) by lra.
        cbn [rbind]. now rewrite (proj2 (Rltb_true _ _) Hn). }
      left. split; [lra|].
      rewrite (boundary_inputs_length _ _ _ (w_height f) 30 (w_length f)); try reflexivity; try lra.
      right. split; [reflexivity | lra].
    - rewrite init_eff.
      destruct (Rlt_dec (w_height f) 0) as [Hn|Hh].
      { right. split; [lra|]. unfold boundary_inputs, assert_strictly_positive_number.
        cbn [is_none isinstance_num negb as_num rbind]. unR.
        now rewrite (proj2 (Rltb_true _ _) Hn). }
      destruct (Rlt_dec 0 (w_angle f)) as [Ha|Ha]; [destruct (Rle_dec (w_angle f) 90) as [Hb|Hb]|].
      + left. split; [lra|].
        rewrite (boundary_inputs_angle _ _ (w_height f) (w_angle f)); try reflexivity; try lra.
        destruct (Rlt_dec (w_angle f) 90) as [Hc|Hc].
        * destruct (Rtan_py_acute (w_angle f)); lra.
        * replace (w_angle f) with 90 by lra. rewrite Rtan_py_90. lra.
      + right. split; [lra|]. unfold boundary_inputs, assert_range, assert_strictly_positive_number.
        cbn [is_none isinstance_num type_num negb as_num rbind andb orb]. unR.
        rewrite (proj2 (Rltb_false (w_height f) 0)) by lra.
        rewrite (proj2 (Rltb_false (w_angle f) 0)) by lra.
        rewrite (proj2 (Rltb_true 90 (w_angle f))) by lra. reflexivity.
      + right. split; [lra|]. unfold boundary_inputs, assert_range, assert_strictly_positive_number.
        cbn [is_none isinstance_num type_num negb as_num rbind andb orb]. unR.
        rewrite (proj2 (Rltb_false (w_height f) 0)) by lra. cbn [rbind].
        destruct (Rltb (w_angle f) 0) eqn:E1; rbool; cbn [rbind]; [reflexivity|].
        replace (w_angle f) with 0 by lra.
        rewrite (proj2 (Rltb_false 90 0)) by lra.
        rewrite (proj2 (Reqb_true 0 0)) by lra. reflexivity.
  Qed.

  (** ** The whole form *)
  Definition setup_ok (f : form R) : Prop :=
    dims_ok f /\ Forall row_ok (w_materials f) /\ NoDup (map row_depth (w_materials f)) /\
    (w_consider_water f = true -> 0 <= w_water_depth f).
  Record built (f : form R) (s : stR) : Prop := {
    b_height : g_height (s_geom (snd s)) = w_height f;
    b_length : g_length (s_geom (snd s)) = dims_length f;
    b_layers : Permutation (map layer_values (mats_of s)) (map row_values (w_materials f));
    b_lls : map ll_core (lls_of s) = real_lls (w_lls f);
    b_udls : map udl_core (udls_of s) = real_udls (w_udls f);
    b_depth : s_water_depth (snd s) =
              if w_consider_water f then Some (w_water_depth f) else None;
    b_level : s_water_RL (snd s) =
              if w_consider_water f
              then Some (Rmax 0 (snd (g_top (s_geom (snd s))) - w_water_depth f)) else None;
    b_slices : s_slices (snd s) = w_slices f;
    b_iterations : s_iterations (snd s) = w_iterations f;
    b_planes : s_planes (snd s) = [];
    b_failure : s_min_failure (snd s) = 0;
    b_tolerance : s_tolerance (snd s) = 5 / 1000;
    b_max : s_max_iterations (snd s) = 15%Z;
    b_section : exists mh ml, 6 <= mh /\ 10 <= ml /\ (w_lls f = [] -> w_udls f = [] -> ml = 10) /\
                s_geom (snd s) = geom_of (w_height f) (dims_length f) mh ml;
  }.

  Definition contents (s : stR) :=
    (s_materials (snd s), s_udls (snd s), s_lls (snd s), fst s, s_planes (snd s), outline s).
  Lemma contents_water v : keeps (same contents) (exec (SetWater v)).
  Proof. cbn [exec]. unfold set_water_table. untouched. Qed.

  Lemma form_valid_R f : form_valid f = true ->
    (500 <= w_iterations f <= 5000)%Z /\ (10 <= w_slices f <= 50)%Z /\ 0 <= w_critical f <= 5.
  Proof.
    unfold form_valid. rewrite !andb_true_iff, !Z.leb_le. intros H. unR. decompose [and] H. rbool. repeat split; auto; lra || lia.
  Qed.

  Lemma first_reachable f : dims_ok f -> reachable (first_model f).
  Proof.
    intros D. destruct (web_slope_spec f) as [[_ E]|[N _]]; [|contradiction].
    unfold web_slope in E. destruct (w_by_length f).
    - exists (PFloat (w_height f)), (PInt 30), (PFloat (w_length f)), [], (first_model f). auto.
    - exists (PFloat (w_height f)), (PFloat (w_angle f)), PNone, [], (first_model f). auto.
  Qed.
  Lemma first_exact f : dims_ok f -> Exact (first_model f).
  Proof.
    intros D. destruct (web_slope_spec f) as [[_ E]|[N _]]; [|contradiction].
    unfold web_slope in E. destruct (w_by_length f); eapply exact_new, E.
  Qed.

  Lemma setup_outcome f :
    form_valid f = true -> dims_ok f ->
    (setup_ok f /\ exists s, exec_all (setup_ops f) (first_model f) = (Ok tt, s) /\
       reachable s /\ built f s /\ default s) \/
    (~ setup_ok f /\ exists s, exec_all (setup_ops f) (first_model f) = (Err ValueError, s)).
  Proof.
    intros V D. apply form_valid_R in V as (Vi & Vs & _).
    pose proof (follow_all (setup_ops f) (first_model f) (setup_setting f) (first_exact f D)) as Fol.
    assert (Sec : forall s', exec_all (setup_ops f) (first_model f) = (Ok tt, s') ->
      exists mh ml, 6 <= mh /\ 10 <= ml /\ (w_lls f = [] -> w_udls f = [] -> ml = 10) /\
        s_geom (snd s') = geom_of (w_height f) (dims_length f) mh ml).
    { intros s' Es.
      destruct (grow_all (setup_ops f) (first_model f) (setup_setting f) (first_exact f D))
        as (X & Gh & Gl & M1 & M2). rewrite Es in X, Gh, Gl, M1, M2. cbn [snd] in X, Gh, Gl, M1, M2.
      change (s_min_ext_h (snd (first_model f))) with 6 in M1.
      change (s_min_ext_l (snd (first_model f))) with 10 in M2.
      exists (s_min_ext_h (snd s')), (s_min_ext_l (snd s')).
      split; [exact M1|]. split; [exact M2|]. split.
      - intros NL NU.
        destruct (wide_all (setup_ops f) (first_model f) (setup_unloaded f NL NU) (first_exact f D)) as (_ & W).
        rewrite Es in W. exact W.
      - destruct X as (_ & _ & _ & X). rewrite X, Gh, Gl. reflexivity. }
    unfold setup_ops in *. rewrite exec_all_app in *.
    set (o := AnalysisOpts (Some (w_slices f)) (Some (w_iterations f)) None None None) in *.
    destruct (options_set (first_model f) (Some (w_slices f)) (Some (w_iterations f)) None None None)
      as (s1 & E1 & Os & Oi & Of & Ot & Om & Hf & Hg & Hl). fold o in E1.
    assert (Ha : exec_all [o] (first_model f) = (Ok tt, s1)).
    { cbn [exec_all]. unfold mbind. rewrite E1. reflexivity. }
    rewrite Ha in *. cbn [option_set] in Os, Oi.
    change (s_tolerance (snd (first_model f))) with (5 / 1000) in Ot.
    change (s_max_iterations (snd (first_model f))) with 15%Z in Om.
    assert (Of' : s_min_failure (snd s1) = 0).
    { rewrite Of. cbn -[Rmax Rmin geom_of]. unfold geom_of. cbn [g_ext_l]. apply Rmin_left.
      pose proof (Rmax_l (Rmax (5 * dims_length f) 10) (4 * w_height f)).
      pose proof (Rmax_r (5 * dims_length f) 10). lra. }
    assert (Hs : s_slices (snd s1) = w_slices f) by lia.
    assert (Hi : s_iterations (snd s1) = w_iterations f) by lia.
    assert (R1 : reachable s1) by (eapply exec_reachable; [apply (first_reachable f D) | exact E1]).
    assert (N1 : s_materials (snd s1) = [] /\ s_udls (snd s1) = [] /\ s_lls (snd s1) = [] /\
                 wet_planes s1 = (None, None, [])).
    { unfold o in E1. cbn [exec] in E1. rewrite analysis_options_eff in E1. injection E1 as <-.
      repeat split; reflexivity. }
    destruct N1 as (Nm & Nu & Nl & Nw).
    assert (Hm : h_materials (fst s1) = [] /\ h_udls (fst s1) = [] /\ h_lls (fst s1) = []).
    { rewrite Hf. repeat split; reflexivity. }
    destruct Hm as (Zm & Zu & Zl).
    destruct (materials_phase (w_materials f) s1 R1) as (s2 & R2 & B2 & O2 & Hc).
    rewrite Zm in Hc. unfold mats_of in Hc. rewrite Nm, Zm in Hc. cbn [List.length derefs flat_map map] in Hc.
    rewrite exec_all_app in *. fold (mat_ops 0 (w_materials f)) in *.
    destruct Hc as [(F & N & E2 & P2) | (Nn & E2)].
    2:{ right. split; [|exists s2; now rewrite E2].
        intros (_ & F & N & _). apply Nn. split; [exact F | now rewrite app_nil_r]. }
    rewrite app_nil_r in N, P2. rewrite E2 in *.
    unfold rest in B2. rewrite Nu, Nl, Zu, Zl in B2. cbn [map] in B2.
    injection B2 as U2 Hu2 L2 Hl2 W2 Wd2 Pl2. 
    assert (Hu2' : h_udls (fst s2) = []) by (destruct (h_udls (fst s2)); [reflexivity | discriminate]).
    assert (Hl2' : h_lls (fst s2) = []) by (destruct (h_lls (fst s2)); [reflexivity | discriminate]).
    destruct (lls_phase (w_lls f) s2 R2) as (s3 & R3 & B3 & E3 & P3).
    rewrite Hl2' in E3. cbn [List.length] in E3.
    rewrite exec_all_app in *. fold (line_ops 0 (w_lls f)) in *. rewrite E3 in *.
    unfold lls_of at 2 in P3. rewrite L2 in P3. cbn [derefs flat_map map app] in P3.
    unfold beside_lls in B3. injection B3 as M3 U3 Hu3 W3 Wd3 Pl3 O31 O32 O33 O34 O35.
    destruct (udls_phase (w_udls f) s3 R3) as (s4 & R4 & B4 & E4 & P4).
    rewrite Hu3, Hu2' in E4. cbn [List.length] in E4.
    rewrite exec_all_app in *. fold (strip_ops 0 (w_udls f)) in *. rewrite E4 in *.
    rewrite U3 in P4. unfold udls_of at 2 in P4. rewrite U2 in P4. cbn [derefs flat_map map app] in P4.
    unfold beside_udls in B4. injection B4 as M4 L4 Hl4 W4 Wd4 Pl4 O41 O42 O43 O44 O45.
    unfold opts in O2. injection O2 as O21 O22 O23 O24 O25.
    unfold wet_planes in Nw. injection Nw as Nw1 Nw2 Nw3.
    destruct (w_consider_water f) eqn:Ew.
    - cbn [exec_all] in *. unfold mbind in *.
      destruct (Rlt_dec (w_water_depth f) 0) as [Hneg|Hpos].
      { right. split; [intros (_ & _ & _ & Q); specialize (Q Ew); lra|].
        exists s4. rewrite (water_rejected s4); [reflexivity | discriminate | intros d Hd].
        cbn in Hd. now subst. }
      destruct (water_set s4 (PFloat (w_water_depth f)) (w_water_depth f)) as
        (s5 & rl & E5 & Wd5 & Wr5 & Hrl & _ & F5 & G5); [exact R4 | reflexivity | lra |].
      pose proof (contents_water (PFloat (w_water_depth f)) s4) as C5. unfold same in C5.
      rewrite E5 in *. cbn [snd mret] in Fol, C5.
      unfold contents in C5. injection C5 as C51 C52 C53 _ C55 _ _ _ _ _.
      pose proof (opts_kept (SetWater (PFloat (w_water_depth f))) s4 eq_refl) as O5.
      rewrite E5 in O5. cbn [snd] in O5. unfold opts in O5. injection O5 as O51 O52 O53 O54 O55.
      left. split; [refine (conj D (conj F (conj N _))); intros _; lra|].
      exists s5. split; [reflexivity|]. split; [eapply exec_reachable; [exact R4 | exact E5]|].
      destruct Fol as (_ & Fh & Fl & Fd). split; [|apply Fd; reflexivity].
      constructor; rewrite ?Ew; try assumption; try congruence; try (apply Sec; reflexivity).
      + replace (mats_of s5) with (mats_of s4) by (unfold mats_of; congruence).
        rewrite M4, M3. exact P2.
      + replace (lls_of s5) with (lls_of s4) by (unfold lls_of; congruence).
        rewrite L4. exact P3.
      + replace (udls_of s5) with (udls_of s4) by (unfold udls_of; congruence). exact P4.
    - cbn [exec_all mret snd] in *.
      left. split; [refine (conj D (conj F (conj N _))); rewrite Ew; discriminate|].
      exists s4. split; [reflexivity|]. split; [exact R4|].
      destruct Fol as (_ & Fh & Fl & Fd). split; [|apply Fd; reflexivity].
      constructor; rewrite ?Ew; try assumption; try congruence; try (apply Sec; reflexivity).
      rewrite M4, M3. exact P2.
  Qed.

  (** ** The limits of the form *)
  Definition limits_accepted (f : form R) (g : geom R) : Prop :=
    if w_consider_limits f then
      if w_consider_inner f
      then 0 <= w_left f < Rmin (w_left_r f) (fst (g_top g)) /\ 0 <= w_right_l f /\
           Rmax (w_right_l f) (fst (g_top g)) < Rmin (w_right f) (g_ext_l g)
      else 0 <= w_left f < fst (g_top g) /\ fst (g_top g) < w_right f
    else True.
  Definition limits_given (f : form R) (g : geom R) : limits R :=
    if w_consider_limits f then
      if w_consider_inner f
      then MkLimits (w_left f) (Rmin (w_left_r f) (fst (g_top g)))
                    (Rmax (w_right_l f) (fst (g_top g))) (Rmin (w_right f) (g_ext_l g))
      else MkLimits (w_left f) (fst (g_top g)) (fst (g_top g)) (Rmin (w_right f) (g_ext_l g))
    else default_limits g.

  Lemma limits_cases f (s : stR) :
    default s -> 0 < fst (g_top (s_geom (snd s))) < g_ext_l (s_geom (snd s)) ->
    (limits_accepted f (s_geom (snd s)) /\
     exec_all (limit_ops f) s =
       (Ok tt, match limit_ops f with [] => s | _ =>
          (fst s, set_s_search [] (set_s_limits (limits_given f (s_geom (snd s))) (snd s))) end)) \/
    (~ limits_accepted f (s_geom (snd s)) /\ exec_all (limit_ops f) s = (Err ValueError, s)).
  Proof.
    intros D G. unfold limits_accepted, limits_given, limit_ops.
    remember (fst (g_top (s_geom (snd s)))) as tx. remember (g_ext_l (s_geom (snd s))) as ex.
    destruct (w_consider_limits f); [|left; split; [exact I | reflexivity]].
    destruct (w_consider_inner f); cbn [exec_all exec]; unfold mbind;
      rewrite set_limits_eff; unfold limits_result, limit_arg, assert_positive_number,
        assert_strictly_positive_number; rewrite D; cbn [is_none default_limits lim_left lim_left_r
        lim_right_l lim_right isinstance_num negb as_num rbind]; unR;
        rewrite <- ?Heqtx, <- ?Heqex.
    - destruct (Rltb (w_left f) 0) eqn:E1; rbool; cbn [rbind isinstance_num negb as_num]; unR; [right; split; [lra | reflexivity]|].
      destruct (Rltb (w_left_r f) 0) eqn:E2; rbool; cbn [rbind isinstance_num negb as_num]; unR.
      { right; split; [|reflexivity]. pose proof (Rmin_l (w_left_r f) tx). lra. }
      destruct (Rltb (w_right f) 0) eqn:E3; rbool; cbn [rbind isinstance_num negb as_num]; unR.
      { right; split; [|reflexivity]. pose proof (Rmin_l (w_right f) ex). 
        pose proof (Rmax_r (w_right_l f) tx). lra. }
      destruct (Rltb (w_right_l f) 0) eqn:E4; rbool; cbn [rbind isinstance_num negb as_num]; unR; [right; split; [lra | reflexivity]|].
      rewrite ?pymin_R, ?pymax_R. rewrite (Rmax_left (w_left f) 0) by lra.
      destruct (Rleb (Rmin (w_left_r f) tx) (w_left f)) eqn:E5; rbool; cbn [orb];
        [right; split; [lra | reflexivity]|].
      destruct (Rleb (Rmin (w_right f) ex) (Rmax (w_right_l f) tx)) eqn:E6; rbool;
        [right; split; [lra | reflexivity]|].
      left. split; [lra | reflexivity].
    - destruct (Rltb (w_left f) 0) eqn:E1; rbool; cbn [rbind isinstance_num negb as_num]; unR; [right; split; [lra | reflexivity]|].
      rewrite (proj2 (Rltb_false tx 0)) by lra. cbn [rbind isinstance_num negb as_num]; unR.
      rewrite ?pymin_R, ?pymax_R. rewrite (Rmax_left (w_left f) 0) by lra.
      rewrite (Rmin_left tx tx), (Rmax_left tx tx) by lra.
      destruct (Rleb tx (w_left f)) eqn:E5; rbool; cbn [orb];
        [right; split; [lra | reflexivity]|].
      destruct (Rleb (Rmin (w_right f) ex) tx) eqn:E6; rbool.
      { right; split; [|reflexivity]. intros [_ Hr]. revert E6.
        unfold Rmin. destruct (Rle_dec _ _); lra. }
      left. split; [pose proof (Rmin_l (w_right f) ex); lra | reflexivity].
  Qed.
End Form.
