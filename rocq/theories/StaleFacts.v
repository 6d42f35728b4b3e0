(** * StaleFacts: individual circles of a slope whose ground does not move
    between adding them and analysing them (C53). *)
From Coq Require Import ZArith Reals List Bool String Lra Lia.
From Verif Require Import Num Py Validation Utilities Objects Slope Planes Analysis
     Dynamic Api RealNum RealFacts ListFacts MonadFacts SlopeFacts MaterialFacts Invariant
     History Spec EditFacts GroundFacts CircleFacts KeepFacts SearchFacts PlaneFacts.
Import ListNotations.
Open Scope R_scope.

(** the ground stays where it is during the whole run *)
Fixpoint unmoved {T} {NT : Num T} {EN : Env} (s : st T) (l : list (op T)) : Prop :=
  match l with
  | [] => True
  | o :: l => s_geom (snd (snd (exec o s))) = s_geom (snd s) /\ unmoved (snd (exec o s)) l
  end.
(** what is kept of a circle apart from its factor *)
Definition sketch {T} (p : plane T) := (p_l p, p_r p, p_cx p, p_cy p, p_radius p).

Section Sketch.
  Context {T : Type} {NT : Num T} {EN : Env}.
  Definition drawn (s : st T) := map sketch (s_planes (snd s)).
  Definition adds (o : op T) : bool :=
    match o with AddEntryExit _ _ _ | AddCircle _ _ _ | RemovePlanes => true | _ => false end.
  Lemma fos_loop_drawn v (l : list (plane T)) : map sketch (snd (fos_loop v l)) = map sketch l.
  Proof.
    induction l as [|p l IH]; cbn [fos_loop]; [reflexivity|].
    destruct (bishop v _ _ _); [|reflexivity]. destruct (fos_loop v l) as [r q].
    cbn [snd map] in *. now rewrite IH.
  Qed.
  Notation kd := (keeps (same drawn)).
  Hint Resolve same_refl same_trans : core.
  Lemma drawn_udl_coordinates : kd update_udl_coordinates.
  Proof. unfold update_udl_coordinates. untouched. Qed.
  Lemma drawn_ll_coordinates : kd update_ll_coordinates.
  Proof. unfold update_ll_coordinates. untouched. Qed.
  Lemma drawn_limits a b c d : kd (set_analysis_limits a b c d).
  Proof. unfold set_analysis_limits. untouched. Qed.
  Hint Resolve drawn_udl_coordinates drawn_ll_coordinates drawn_limits : keeps.
  Lemma drawn_no_limits : kd remove_analysis_limits.
  Proof. unfold remove_analysis_limits. untouched. Qed.
  Hint Resolve drawn_no_limits : keeps.
  Lemma drawn_boundary h a l : kd (set_external_boundary h a l).
  Proof. unfold set_external_boundary. untouched. Qed.
  Hint Resolve drawn_boundary : keeps.
  Lemma drawn_options l h : kd (update_boundary_options l h).
  Proof. unfold update_boundary_options. untouched. Qed.
  Lemma drawn_set_udls l : kd (set_udls l).
  Proof. unfold set_udls. untouched. Qed.
  Lemma drawn_set_lls l : kd (set_lls l).
  Proof. unfold set_lls. untouched. Qed.
  Lemma drawn_remove_udls l a : kd (remove_udls l a).
  Proof. unfold remove_udls. untouched. Qed.
  Lemma drawn_remove_lls l a : kd (remove_lls l a).
  Proof. unfold remove_lls. untouched. Qed.
  Lemma drawn_assign l : forall i, kd (assign_materials i l).
  Proof.
    induction l as [|n l IH]; intros i; cbn [assign_materials]; [now apply keeps_ret|]. untouched.
  Qed.
  Hint Resolve drawn_options drawn_set_udls drawn_set_lls drawn_remove_udls drawn_remove_lls
    drawn_assign : keeps.
  Lemma drawn_set_materials l : kd (set_materials l).
  Proof. unfold set_materials. untouched. Qed.
  Lemma drawn_remove_material m d a : kd (remove_material m d a).
  Proof. unfold remove_material. untouched. Qed.
  Lemma drawn_analyse m : kd (analyse_slope m).
  Proof.
    intros s. unfold same, analyse_slope. rewrite bind_self_get.
    unfold mbind at 1. destruct (view_of s) as [v|e]; [|reflexivity].
    destruct (s_planes (snd s)) as [|p ps] eqn:E.
    - rewrite bind_lift. destruct (entry_exit_planes v); [|reflexivity].
      destruct (fos_loop v _) as [[u|e] done]; rewrite bind_self_upd, bind_lift; reflexivity.
    - pose proof (fos_loop_drawn v (p :: ps)) as F. rewrite <- E in F |- *.
      destruct (fos_loop v _) as [[u|e] done]; rewrite !bind_self_upd, bind_lift; exact F.
  Qed.
  Hint Resolve drawn_set_materials drawn_remove_material drawn_analyse : keeps.
  Lemma drawn_move o : kd (set_dynamic_offset o).
  Proof. unfold set_dynamic_offset. untouched. Qed.
  Lemma drawn_dynamic c : kd (analyse_dynamic c).
  Proof.
    apply keeps_dynamic; auto using drawn_move, drawn_analyse; [apply same_trans|]. intros d s. reflexivity.
  Qed.
  Hint Resolve drawn_dynamic : keeps.
  Lemma drawn_exec o : adds o = false -> kd (exec o).
  Proof.
    destruct o; intros A; try discriminate A; cbn [exec]; unfold alloc, with_refs, set_water_table,
      remove_water_table, update_water_analysis_options, update_analysis_options; untouched.
  Qed.
End Sketch.

Section Fit.
  Context {EN : Env}.
  Notation stR := (st R).
  (** every circle was drawn on the present ground *)
  Definition fits (s : stR) : Prop := forall p, In p (s_planes (snd s)) ->
    end_points (s_geom (snd s)) (p_cx p) (p_cy p) (p_radius p) (p_l p) (p_r p).
  Definition fit_sketch (g : geom R) (k : (R * R) * (R * R) * R * R * R) : Prop :=
    let '(a, b, x, y, r) := k in end_points g x y r a b.
  Lemma fits_drawn (s : stR) : fits s <-> forall k, In k (drawn s) -> fit_sketch (s_geom (snd s)) k.
  Proof.
    unfold fits, drawn. split.
    - intros F k I. apply in_map_iff in I as (p & <- & I). exact (F p I).
    - intros F p I. exact (F (sketch p) (in_map sketch _ _ I)).
  Qed.
  Lemma fit_exec o (s : stR) : reachable s -> fits s ->
    s_geom (snd (snd (exec o s))) = s_geom (snd s) -> fits (snd (exec o s)).
  Proof.
    intros RS F GE. destruct (adds o) eqn:A.
    2:{ apply fits_drawn. rewrite GE, (drawn_exec o A s). now apply fits_drawn. }
    destruct o as [ | | | | | | | | | | | | | | | | | lx rx n | x y r | | | ]; try discriminate A;
      clear A.
    - assert (P : forall lx rx, 0 <= lx -> lx < rx -> rx <= g_ext_l (s_geom (snd s)) ->
                fits (snd (exec (AddEntryExit lx rx n) s))).
      { intros l r L0 LR RE. destruct (added_pair s l r n RS L0 LR RE) as (s' & ps & E & _ & E2 & Q).
        rewrite E. cbn [snd]. intros p I. rewrite E2 in I |- *.
        cbn [s_planes s_geom set_s_planes set_s_search] in I |- *.
        apply in_app_or in I as [I|I]; [exact (F p I)|].
        destruct Q as (_ & Q & _). apply (proj1 (Forall_forall _ _) Q) in I. apply I. }
      destruct (Rlt_dec lx 0); [rewrite (pair_outside s lx rx n RS) by auto; exact F|].
      destruct (Rlt_dec rx 0); [rewrite (pair_outside s lx rx n RS) by auto; exact F|].
      destruct (Rlt_dec (g_ext_l (s_geom (snd s))) lx);
        [rewrite (pair_outside s lx rx n RS) by auto; exact F|].
      destruct (Rlt_dec (g_ext_l (s_geom (snd s))) rx);
        [rewrite (pair_outside s lx rx n RS) by auto; exact F|].
      destruct (Rtotal_order lx rx) as [L|[<-|L]].
      + apply P; lra.
      + rewrite (pair_vertical s lx n RS) by lra. exact F.
      + rewrite (pair_swap s lx rx n) by lra. apply P; lra.
    - destruct (added_circle s x y r RS) as (s' & E & _ & [(l & _ & _ & ->)|(a & b & Q & E2)]);
        rewrite E; cbn [snd]; [exact F|].
      intros p I. rewrite E2 in I |- *. cbn [s_planes s_geom set_s_planes set_s_search] in I |- *.
      apply in_app_or in I as [I|[<-|[]]]; [exact (F p I)|]. exact Q.
    - intros p I. destruct I.
  Qed.
  Lemma fit_run ops : forall s : stR, reachable s -> fits s -> unmoved s ops -> fits (run s ops).
  Proof.
    induction ops as [|o ops IH]; intros s RS F U; [exact F|]. destruct U as (U1 & U2).
    change (run s (o :: ops)) with (run (snd (exec o s)) ops). apply IH; auto.
    - destruct RS as (h & a & l & pre & s0 & E & ->). exists h, a, l, (pre ++ [o]), s0.
      split; auto. unfold run. now rewrite fold_left_app.
    - now apply fit_exec.
  Qed.
  (** C53 *)
  Lemma ends_present (s s' : stR) ops m a b : reachable s -> s_planes (snd s) = [] ->
    unmoved s ops -> s_planes (snd (run s ops)) <> [] ->
    exec (Analyse m) (run s ops) = (Ok tt, s') -> get_min_FOS_end_points (snd s') = Ok (a, b) ->
    on_ground (s_geom (snd s')) a /\ on_ground (s_geom (snd s')) b /\ fst a + 1 / 100 < fst b.
  Proof.
    intros RS E0 U NE E M.
    assert (F : fits (run s ops)).
    { apply fit_run; auto. intros p I. rewrite E0 in I. destruct I. }
    assert (RT : reachable (run s ops)).
    { destruct RS as (h & an & l & pre & s0 & Q & ->). exists h, an, l, (pre ++ ops), s0.
      split; auto. unfold run. now rewrite fold_left_app. }
    set (t := run s ops) in *. clearbody t. cbn [exec] in E.
    assert (G : s_geom (snd s') = s_geom (snd t)).
    { destruct (analyse_ok m t s' E) as (v & cs & done & _ & _ & _ & ->).
      now destruct (match s_planes (snd t) with [] => true | _ => false end). }
    destruct (search_spec m t s' E) as (v & cs & _ & AN & _ & SP & _).
    unfold get_min_FOS_end_points in M. destruct (s_search (snd s')) as [|p ps] eqn:ES; [discriminate|].
    injection M as <- <-.
    destruct (proj1 (SP p) (or_introl eq_refl)) as (c & f & IC & _ & _ & ->).
    destruct AN as [(Q & _)|(_ & ->)]; [contradiction|].
    specialize (F c IC). rewrite G.
    apply reachable_inv in RT as (C & _).
    apply (end_points_ok _ (core_good t C)) in F. cbn [p_l p_r set_fos]. tauto.
  Qed.
End Fit.
