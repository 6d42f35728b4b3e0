(** * AcceptFacts: which calls are accepted, and how the others fail (C103). *)
From Coq Require Import ZArith Reals Lra Lia List Bool String Permutation Sorted.
From Verif Require Import Num Py Validation Utilities Objects Slope Planes Analysis
     Dynamic Api RealNum RealFacts ListFacts MonadFacts SlopeFacts MaterialFacts Invariant
     History Spec EditFacts AngleFacts CircleFacts PlaneFacts GridFacts.
Import ListNotations.
Local Open Scope R_scope.

(** ** What a call has to be given *)
Definition at_least_0 (v : pyval R) : Prop := exists x, denotes v x /\ 0 <= x.
Definition optional_size (v : pyval R) : Prop := falsy v \/ exists x, denotes v x /\ 0 < x.
Definition text (v : pyval R) : Prop := exists t, is_text v t.
Definition good_numbers (uw phi c d : pyval R) : Prop :=
  (exists x, denotes uw x /\ 1 <= x <= 50) /\ at_least_0 phi /\ plain_number c /\ plain_number d.
(** every object named exists *)
Definition known (h : heap R) (l : list objref) : Prop :=
  forall r, In r l -> match r with
    | RefMaterial n => (n < List.length (h_materials h))%nat
    | RefUdl n => (n < List.length (h_udls h))%nat
    | RefLload n => (n < List.length (h_lls h))%nat
    | RefOther => True
    end.
Definition layer_depths (h : heap R) (l : list nat) : list R :=
  map (fun n => match nth_error (h_materials h) n with Some m => m_depth m | None => 0 end) l.
(** the limits as they will be used: given, or as they are *)
Definition good_limits (s : st R) (a b c d : pyval R) : Prop :=
  let g := s_geom (snd s) in let lim := s_limits (snd s) in
  exists lx lxr rx rxl,
    given_or a (lim_left lim) lx /\ given_or c (lim_left_r lim) lxr /\
    given_or b (lim_right lim) rx /\ given_or d (lim_right_l lim) rxl /\
    (a <> PNone -> 0 <= lx) /\ (d <> PNone -> b <> PNone /\ 0 <= rxl) /\
    Rmax lx 0 < Rmin lxr (fst (g_top g)) /\ Rmax rxl (fst (g_top g)) < Rmin rx (g_ext_l g).
Definition accepts (s : st R) (o : op R) : Prop :=
  match o with
  | NewMaterial uw phi c d name col => good_numbers uw phi c d /\ text name /\ text col
  | NewUdl mag off len _ _ => plain_number mag /\ plain_number off /\ (falsy len \/ plain_number len)
  | NewLload mag off _ _ => plain_number mag /\ plain_number off
  | SetBoundary h a l => good_inputs h a l
  | BoundaryOpts l h => optional_size l /\ optional_size h
  | SetWater d => d = PNone \/ at_least_0 d
  | WaterOpts auto h => auto = true \/ plain_number h
  | SetUdls l | SetLls l => known (fst s) l
  | RemoveUdls l _ => known (fst s) (map RefUdl l)
  | RemoveLls l _ => known (fst s) (map RefLload l)
  | SetMaterials l => known (fst s) l /\
      exists ns, l = map RefMaterial ns /\ ns ++ s_materials (snd s) <> [] /\
        NoDup (layer_depths (fst s) (ns ++ s_materials (snd s)))
  | RemoveMaterial m _ _ => match m with Some r => known (fst s) [r] | None => True end
  | SetLimits a b c d => good_limits s a b c d
  | AddEntryExit l r _ => l <> r /\ 0 <= l <= g_ext_l (s_geom (snd s)) /\ 0 <= r <= g_ext_l (s_geom (snd s))
  | RemoveWater | AnalysisOpts _ _ _ _ _ | RemoveLimits | AddCircle _ _ _ | RemovePlanes => True
  | Analyse _ | AnalyseDynamic _ => False
  end.
(** what is raised otherwise *)
Definition raises (s : st R) (o : op R) (e : exn) : Prop :=
  match o with
  | NewMaterial uw phi c d _ _ =>
      (~ good_numbers uw phi c d /\ e = ValueError) \/ (good_numbers uw phi c d /\ e = AssertionError)
  | SetBoundary h _ _ => e = ValueError \/ (h = PNone /\ e = TypeError)
  | SetUdls _ | SetLls _ | RemoveUdls _ _ | RemoveLls _ _ | RemoveMaterial _ _ _ => e = NameError
  | SetMaterials l =>
      (~ known (fst s) l /\ e = NameError) \/
      (known (fst s) l /\ l = [] /\ s_materials (snd s) = [] /\ e = IndexError) \/
      (known (fst s) l /\ ~ (l = [] /\ s_materials (snd s) = []) /\ e = ValueError)
  | SetLimits _ b _ d => e = ValueError \/ (d = PNone /\ b <> PNone /\ (forall x, ~ denotes b x) /\ e = TypeError)
  | AddEntryExit l r _ =>
      let inside x := 0 <= x <= g_ext_l (s_geom (snd s)) in
      (~ (inside l /\ inside r) /\ e = TypeError) \/ (inside l /\ l = r /\ e = ZeroDivisionError)
  | _ => e = ValueError
  end.
Definition an_edit (o : op R) : Prop :=
  match o with Analyse _ | AnalyseDynamic _ => False | _ => True end.

Lemma number_error (v : pyval R) e : assert_number v = Err e -> e = ValueError.
Proof. unfold assert_number. destruct (type_num v); cbn; congruence. Qed.
Lemma range_err (v : pyval R) a b e : assert_range v a b false false = Err e -> e = ValueError.
Proof.
  unfold assert_range. destruct (isinstance_num v) eqn:I; cbn [negb]; [|congruence].
  destruct (as_num v) as [x|] eqn:A; [|destruct v; discriminate]. cbn [rbind andb].
  repeat match goal with |- context [if ?x then _ else _] => destruct x end; congruence.
Qed.

Section Accepted.
Context {EN : Env}.
Notation stR := (st R).

Lemma known_iff (h : heap R) l : forallb (ref_exists h) l = true <-> known h l.
Proof.
  rewrite forallb_forall. unfold known. split; intros Q r I; specialize (Q r I); destruct r; cbn in *;
    try (now apply Nat.ltb_lt); auto.
Qed.
(** the outcome of a call in terms of a decision *)
Definition outcome (acc : Prop) (kind : exn -> Prop) (r : res unit * stR) : Prop :=
  (acc /\ fst r = Ok tt) \/ (~ acc /\ exists e, fst r = Err e /\ kind e).

Lemma material_outcome s uw phi c d name col :
  outcome (accepts s (NewMaterial uw phi c d name col)) (raises s (NewMaterial uw phi c d name col))
          (exec (NewMaterial uw phi c d name col) s).
Proof.
  cbn [accepts exec]. unfold raises. unfold alloc. msteps.
  assert (K : (exists m, new_material uw phi c d name col = Ok m) <->
              good_numbers uw phi c d /\ text name /\ text col).
  { split.
    - intros (m & E). apply (material_spec EN) in E.
      destruct E as (u & p & cc & dd & nm & cl & Du & Pu & Dp & Pp & [Qc Dc] & [Qd Dd] & Tn & Tc & _).
      unfold good_numbers, at_least_0, text.
      split; [|split; eauto]. split; [exists u; auto|]. split; [exists p; auto|auto].
    - intros ((( u & Du & Pu) & (p & Dp & Pp) & Qc & Qd) & (nm & Tn) & (cl & Tc)).
      destruct (plain_denotes_ex _ Qc) as (cc & Dc). destruct (plain_denotes_ex _ Qd) as (dd & Dd).
      eexists. apply (material_spec EN). exists u, p, cc, dd, nm, cl. unfold plain_denotes. repeat split; auto; lra. }
  destruct (new_material uw phi c d name col) as [m|e] eqn:E.
  - left. split; [apply K; eauto|reflexivity].
  - right. split; [intros Q; apply K in Q; destruct Q; discriminate|]. exists e. split; [reflexivity|].
    unfold new_material in E.
    destruct (assert_range uw _ _ _ _) eqn:E1; cbn [rbind] in E.
    2:{ injection E as <-. left. split; [|now apply range_err in E1]. intros ((x & Dx & Px) & _).
        enough (assert_range uw (nz 1) (nz 50) false false = Ok tt) by congruence. apply assert_range_incl. unR. eauto. }
    destruct (assert_positive_number phi) eqn:E2; cbn [rbind] in E.
    2:{ injection E as <-. left. split; [|now apply positive_error in E2]. intros (_ & (x & Dx & Px) & _).
        enough (assert_positive_number phi = Ok tt) by congruence. apply assert_positive_ok. eauto. }
    destruct (assert_number c) eqn:E3; cbn [rbind] in E.
    2:{ injection E as <-. left. split; [|now apply number_error in E3]. intros (_ & _ & Q & _).
        apply (assert_number_ok c tt) in Q. congruence. }
    destruct (assert_number d) eqn:E4; cbn [rbind] in E.
    2:{ injection E as <-. left. split; [|now apply number_error in E4]. intros (_ & _ & _ & Q).
        apply (assert_number_ok d tt) in Q. congruence. }
    apply assert_range_incl in E1. revert E1. unR. intros E1. apply assert_positive_ok in E2. apply assert_number_ok in E3, E4.
    right. split; [unfold good_numbers; split; [exact E1|]; split; [exact E2|auto]|].
    destruct E1 as (u & Du & Pu), E2 as (p & Dp & Pp).
    destruct (plain_denotes_ex _ E3) as (cc & Dc). destruct (plain_denotes_ex _ E4) as (dd & Dd).
    rewrite (proj1 (denotes_as_num _ _) Du), (proj1 (denotes_as_num _ _) Dp),
      (proj1 (denotes_as_num _ _) Dc), (proj1 (denotes_as_num _ _) Dd) in E. cbn [rbind] in E.
    assert (Te : forall (v : pyval R) e', text_arg v = Err e' -> e' = AssertionError)
      by (intros v e'; destruct v; cbn; congruence).
    destruct (text_arg name) eqn:E5; cbn [rbind] in E; [|injection E as <-; eauto].
    destruct (text_arg col) eqn:E6; cbn [rbind] in E; [discriminate|injection E as <-; eauto].
Qed.

Lemma udl_outcome s mag off len col dyn :
  outcome (accepts s (NewUdl mag off len col dyn)) (raises s (NewUdl mag off len col dyn))
          (exec (NewUdl mag off len col dyn) s).
Proof.
  cbn [accepts exec]. unfold raises. unfold alloc. msteps.
  assert (K : (exists m, new_udl mag off len col dyn = Ok m) <->
              plain_number mag /\ plain_number off /\ (falsy len \/ plain_number len)).
  { split.
    - intros (m & E). apply (udl_spec EN) in E.
      destruct E as (x & o & l & [A _] & [B _] & [(F & _)|(y & [C _] & _)] & _); auto.
    - intros (A & B & C). destruct (plain_denotes_ex _ A) as (x & Dx). destruct (plain_denotes_ex _ B) as (y & Dy).
      destruct (truthy len) eqn:Tl.
      + destruct C as [C|C]; [apply falsy_truthy in C; congruence|]. destruct (plain_denotes_ex _ C) as (z & Dz).
        eexists. apply (udl_spec EN). exists x, y, (Some (Rabs z)). unfold plain_denotes. repeat split; auto. right.
        exists z. repeat split; auto. intros ->. enough (falsy len) as F by (apply falsy_truthy in F; congruence).
        unfold falsy; auto.
      + apply falsy_truthy in Tl. eexists. apply (udl_spec EN). exists x, y, None. unfold plain_denotes.
        repeat split; auto. }
  destruct (new_udl mag off len col dyn) as [m|e] eqn:E.
  - left. split; [apply K; eauto|reflexivity].
  - right. split; [intros Q; apply K in Q; destruct Q; discriminate|]. exists e. split; [reflexivity|].
    unfold new_udl in E.
    destruct (assert_number mag) eqn:E1; cbn [rbind] in E; [|injection E as <-; eapply number_error; eauto].
    destruct (assert_number off) eqn:E2; cbn [rbind] in E; [|injection E as <-; eapply number_error; eauto].
    apply assert_number_ok in E1, E2.
    destruct (plain_denotes_ex _ E1) as (x & Dx). destruct (plain_denotes_ex _ E2) as (y & Dy).
    rewrite (proj1 (denotes_as_num _ _) Dx), (proj1 (denotes_as_num _ _) Dy) in E.
    destruct (truthy len); [|discriminate].
    destruct (assert_number len) eqn:E3; cbn [rbind] in E; [|injection E as <-; eapply number_error; eauto].
    apply assert_number_ok in E3. destruct (plain_denotes_ex _ E3) as (z & Dz).
    rewrite (proj1 (denotes_as_num _ _) Dz) in E. discriminate.
Qed.
Lemma lload_outcome s mag off col dyn :
  outcome (accepts s (NewLload mag off col dyn)) (raises s (NewLload mag off col dyn))
          (exec (NewLload mag off col dyn) s).
Proof.
  cbn [accepts exec]. unfold raises. unfold alloc. msteps. unfold new_lload.
  destruct (assert_number mag) eqn:E1; cbn [rbind].
  2:{ right. split; [|exists e; split; [reflexivity|eapply number_error; eauto]]. intros (A & _).
      apply (assert_number_ok mag tt) in A. congruence. }
  destruct (assert_number off) eqn:E2; cbn [rbind].
  2:{ right. split; [|exists e; split; [reflexivity|eapply number_error; eauto]]. intros (_ & A).
      apply (assert_number_ok off tt) in A. congruence. }
  apply assert_number_ok in E1, E2.
  destruct (plain_denotes_ex _ E1) as (x & Dx). destruct (plain_denotes_ex _ E2) as (y & Dy).
  rewrite (proj1 (denotes_as_num _ _) Dx), (proj1 (denotes_as_num _ _) Dy). left. split; [auto|reflexivity].
Qed.

Lemma inputs_error_none angle length e : boundary_inputs PNone angle length = Err e ->
  e = ValueError \/ e = TypeError.
Proof.
  unfold boundary_inputs. cbn [is_none rbind as_num].
  destruct (is_none angle) eqn:NA; cbn [rbind].
  - destruct (is_none length) eqn:NL; cbn [rbind].
    + destruct angle; try discriminate NA. cbn. intros [= <-]. auto.
    + destruct (assert_positive_number length) as [ul|e1] eqn:PL; cbn [rbind].
      2:{ intros [= <-]. apply positive_error in PL. auto. }
      apply assert_positive_ok in PL as (l & DL & _). apply denotes_as_num in DL. rewrite DL. cbn. intros [= <-]; auto.
  - destruct (assert_range angle (nz 0) (nz 90) true false) as [ua|e1] eqn:AR; cbn [rbind].
    2:{ intros [= <-]. apply range_error in AR. auto. }
    destruct (is_none length) eqn:NL; cbn [rbind].
    + destruct (negb (truthy angle)); cbn; intros [= <-]; auto.
    + destruct (assert_positive_number length) as [ul|e1] eqn:PL; cbn [rbind].
      2:{ intros [= <-]. apply positive_error in PL. auto. }
      apply assert_positive_ok in PL as (l & DL & _). apply denotes_as_num in DL. rewrite DL. cbn. intros [= <-]; auto.
Qed.
Lemma boundary_outcome s h a l :
  outcome (accepts s (SetBoundary h a l)) (raises s (SetBoundary h a l)) (exec (SetBoundary h a l) s).
Proof.
  pose proof (set_boundary_accepted s h a l) as K. cbn [accepts]. unfold raises.
  destruct (exec (SetBoundary h a l) s) as [[[]|e] s'] eqn:E.
  - left. split; [apply K; eauto|reflexivity].
  - right. split; [intros Q; apply K in Q; destruct Q; discriminate|]. exists e. split; [reflexivity|].
    destruct (is_none h) eqn:N.
    + assert (h = PNone) by (destruct h; discriminate || reflexivity). subst h.
      cbn [exec] in E. rewrite set_external_boundary_eff in E.
      destruct (boundary_inputs PNone a l) as [[x y]|e0] eqn:B; [discriminate|]. injection E as <- _.
      apply inputs_error_none in B. destruct B; auto.
    + left. eapply set_boundary_error; [|exact E]. intros ->. discriminate.
Qed.

Lemma dim_ok v : (exists o, opt_dim v = Ok o) <-> optional_size v.
Proof.
  unfold opt_dim, optional_size. destruct (truthy v) eqn:Tv.
  - split.
    + intros (o & E). destruct (assert_strictly_positive_number v) as [u|] eqn:P; [|discriminate].
      apply assert_strict_ok in P. destruct P as (x & D & P). right. exists x. split; [exact D|].
      destruct (Rle_lt_or_eq_dec 0 x P) as [|Q]; [assumption|]. exfalso.
      enough (falsy v) as F by (apply falsy_truthy in F; congruence). subst x. unfold falsy; auto.
    + intros [F|(x & D & P)]; [apply falsy_truthy in F; congruence|].
      rewrite (proj2 (assert_strict_ok v tt)) by (exists x; split; [auto|lra]). cbn [rbind].
      rewrite (proj1 (denotes_as_num _ _) D). cbn. eauto.
  - split; [|eauto]. intros _. left. now apply falsy_truthy.
Qed.
Lemma dim_error v e : opt_dim v = Err e -> e = ValueError.
Proof.
  unfold opt_dim. destruct (truthy v); [|discriminate].
  destruct (assert_strictly_positive_number v) as [u|e'] eqn:P; cbn [rbind].
  - apply assert_strict_ok in P. destruct P as (x & D & _). rewrite (proj1 (denotes_as_num _ _) D). discriminate.
  - intros [= <-]. eapply strict_error; eauto.
Qed.
Lemma options_outcome s l h : reachable s ->
  outcome (accepts s (BoundaryOpts l h)) (raises s (BoundaryOpts l h)) (exec (BoundaryOpts l h) s).
Proof.
  intros RS. destruct (reachable_inv s RS) as (C & _ & _). cbn [accepts exec]. unfold raises.
  rewrite update_boundary_eff by apply C.
  pose proof (dim_ok h) as Kh. pose proof (dim_ok l) as Kl.
  destruct (opt_dim h) as [oh|e] eqn:Eh.
  - destruct (opt_dim l) as [ol|e] eqn:El.
    + left. split; [split; [apply Kl|apply Kh]; eauto|reflexivity].
    + right. split; [|exists e; split; [reflexivity|eapply dim_error; eauto]].
      intros (A & _). apply Kl in A. destruct A; discriminate.
  - right. split; [|exists e; split; [reflexivity|eapply dim_error; eauto]].
    intros (_ & A). apply Kh in A. destruct A; discriminate.
Qed.
Lemma water_outcome s d :
  outcome (accepts s (SetWater d)) (raises s (SetWater d)) (exec (SetWater d) s).
Proof.
  cbn [accepts exec]. unfold raises. unfold set_water_table. destruct (is_none d) eqn:N.
  - assert (d = PNone) by (destruct d; discriminate || reflexivity). subst d. left. split; [auto|reflexivity].
  - msteps. destruct (assert_positive_number d) as [u|e] eqn:P.
    + apply assert_positive_ok in P. pose proof P as (x & D & _). msteps. rewrite (proj1 (denotes_as_num _ _) D).
      left. split; [now right|]. msteps. reflexivity.
    + right. split; [|exists e; split; [reflexivity|eapply positive_error; eauto]].
      intros [->|A]; [discriminate|]. apply (assert_positive_ok d tt) in A. congruence.
Qed.
Lemma water_options_outcome s auto h :
  outcome (accepts s (WaterOpts auto h)) (raises s (WaterOpts auto h)) (exec (WaterOpts auto h) s).
Proof.
  cbn [accepts exec]. unfold raises. rewrite water_options_eff. destruct auto; [left; split; auto|].
  destruct (assert_number h) as [u|e] eqn:P; cbn [rbind].
  - apply assert_number_ok in P. destruct (plain_denotes_ex _ P) as (x & D).
    rewrite (proj1 (denotes_as_num _ _) D). left. split; auto.
  - right. split; [|exists e; split; [reflexivity|eapply number_error; eauto]].
    intros [A|A]; [discriminate|]. apply (assert_number_ok h tt) in A. congruence.
Qed.

Lemma refs_outcome s l (m : M stR unit) : (known (fst s) l -> fst (m s) = Ok tt) ->
  outcome (known (fst s) l) (fun e => e = NameError) (with_refs l m s).
Proof.
  intros Q. unfold with_refs. msteps. destruct (forallb (ref_exists (fst s)) l) eqn:F.
  - apply known_iff in F. left. auto.
  - right. split; [|exists NameError; auto]. intros A. apply known_iff in A. congruence.
Qed.
Lemma known_ok s l : known (fst s) l -> refs_ok s l.
Proof.
  intros K. apply known_iff in K. apply Forall_forall. intros r I. now apply (proj1 (forallb_forall _ _) K).
Qed.

Lemma locs_ok l ns : material_locs l = Ok ns <-> l = map RefMaterial ns.
Proof.
  revert ns. induction l as [|r l IH]; intros ns; cbn.
  - split; [intros [= <-]; reflexivity|]. destruct ns; [reflexivity|discriminate].
  - destruct r as [n| | |]; try (split; [discriminate|]; destruct ns; discriminate).
    destruct (material_locs l) as [ms|e]; cbn [rbind].
    + split.
      * intros [= <-]. cbn. f_equal. now apply IH.
      * destruct ns as [|k ns]; [discriminate|]. cbn. intros [= -> Q]. apply IH in Q. injection Q as ->. reflexivity.
    + split; [discriminate|]. destruct ns as [|k ns]; [discriminate|]. cbn. intros [= -> Q]. apply IH in Q. discriminate.
Qed.
Lemma locs_error l e : material_locs l = Err e -> e = ValueError.
Proof.
  induction l as [|r l IH]; cbn; [discriminate|]. destruct r; try congruence.
  destruct (material_locs l); cbn [rbind]; [discriminate|]. intros [= <-]. auto.
Qed.
Lemma materials_outcome s l : reachable s ->
  outcome (accepts s (SetMaterials l)) (raises s (SetMaterials l)) (exec (SetMaterials l) s).
Proof.
  intros RS. destruct (reachable_inv s RS) as (C & _ & _). cbn [accepts exec]. unfold raises.
  unfold with_refs. msteps. destruct (forallb (ref_exists (fst s)) l) eqn:F.
  2:{ right. assert (N : ~ known (fst s) l) by (intros A; apply known_iff in A; congruence).
      split; [tauto|]. exists NameError. split; [reflexivity|]. auto. }
  apply known_iff in F. rewrite set_materials_eff by exact C.
  destruct (material_locs l) as [ns|e] eqn:L.
  2:{ right. split; [|exists e; split; [reflexivity|]].
      - intros (_ & ns & Q & _). apply locs_ok in Q. congruence.
      - right. right. split; [exact F|]. split; [|eapply locs_error; eauto]. intros (-> & _). discriminate. }
  apply locs_ok in L.
  set (ds := map _ _).
  assert (P : Permutation ds (layer_depths (fst s) (ns ++ s_materials (snd s)))).
  { unfold ds, sorted_locs.
    replace (layer_depths (fst s) (ns ++ s_materials (snd s)))
      with (map (depth_of (h_materials (fst s))) (ns ++ s_materials (snd s)))
      by (apply map_ext; intros x; unfold depth_of; unR; reflexivity).
    apply Permutation_map. apply Permutation_sym, sort_by_perm. }
  destruct (rev ds) as [|d rest] eqn:Er.
  - assert (Z : ns ++ s_materials (snd s) = []).
    { apply (f_equal (@List.length R)) in Er. rewrite rev_length in Er. apply Permutation_length in P.
      unfold layer_depths in P. rewrite map_length in P. rewrite P in Er. now apply length_zero_iff_nil. }
    right. split.
    + intros (_ & ms & Q & N & _). subst l. apply N.
      assert (ns = ms). { apply locs_ok in Q. rewrite (proj2 (locs_ok _ ns) eq_refl) in Q. congruence. }
      subst ms. exact Z.
    + exists IndexError. split; [reflexivity|]. right. left. apply app_eq_nil in Z. destruct Z as (-> & Z).
      subst l. repeat split; auto.
  - assert (N : ns ++ s_materials (snd s) <> []).
    { intros Z. rewrite Z in P. cbn in P. apply Permutation_sym, Permutation_nil in P. rewrite P in Er. discriminate. }
    destruct (has_dup ds) eqn:Dp.
    + right. split.
      * intros (_ & ms & Q & _ & ND). subst l.
        assert (ns = ms). { apply locs_ok in Q. rewrite (proj2 (locs_ok _ ns) eq_refl) in Q. congruence. }
        subst ms. enough (has_dup ds = false) by congruence. apply has_dup_false.
        eapply Permutation_NoDup; [apply Permutation_sym; exact P|exact ND].
      * exists ValueError. split; [reflexivity|]. right. right. split; [exact F|]. split; [|reflexivity].
        intros (El & Es). apply N. subst l. destruct ns; [|discriminate El]. exact Es.
    + left. split; [|reflexivity]. split; [exact F|]. exists ns. split; [exact L|]. split; [exact N|].
      apply has_dup_false in Dp. eapply Permutation_NoDup; eauto.
Qed.

Lemma given_num v old x : given_or v old x ->
  limit_arg v old (Ok tt) = Ok (if is_none v then PFloat old else v) /\
  as_num (if is_none v then PFloat old else v) = Ok x.
Proof.
  intros [(-> & ->)|(N & D)]; [split; reflexivity|]. unfold limit_arg.
  assert (is_none v = false) as -> by (destruct v; congruence || reflexivity).
  split; [reflexivity|now apply denotes_as_num].
Qed.
(** an optional limit that has to be at least 0 when given *)
Lemma limit_checked v old :
  (exists x, limit_arg v old (assert_positive_number v) = Ok (if is_none v then PFloat old else v) /\
     as_num (if is_none v then PFloat old else v) = Ok x /\ given_or v old x /\ (v <> PNone -> 0 <= x)) \/
  (limit_arg v old (assert_positive_number v) = Err ValueError /\ v <> PNone /\ ~ at_least_0 v).
Proof.
  unfold limit_arg. destruct (is_none v) eqn:N.
  - assert (v = PNone) by (destruct v; discriminate || reflexivity). subst v. left. exists old.
    repeat split; auto. left. auto. congruence.
  - assert (NV : v <> PNone) by (intros ->; discriminate).
    destruct (assert_positive_number v) as [u|e] eqn:P.
    + apply assert_positive_ok in P. destruct P as (x & D & P). left. exists x. cbn [rbind].
      split; [reflexivity|]. split; [now apply denotes_as_num|]. split; [right; auto|auto].
    + right. cbn [rbind]. pose proof (positive_error _ _ P). subst e. repeat split; auto.
      intros A. apply (assert_positive_ok v tt) in A. congruence.
Qed.
Lemma given_fun v old x y : given_or v old x -> given_or v old y -> x = y.
Proof.
  intros [(A & ->)|(A & B)] [(A' & ->)|(A' & B')]; try congruence. eapply denotes_fun; eauto.
Qed.
Lemma given_pos v old x : given_or v old x -> v <> PNone -> 0 <= x -> at_least_0 v.
Proof. intros [(A & _)|(_ & D)] N P; [contradiction|]. exists x. auto. Qed.

Lemma limits_outcome s a b c d : reachable s ->
  outcome (accepts s (SetLimits a b c d)) (raises s (SetLimits a b c d)) (exec (SetLimits a b c d) s).
Proof.
  intros RS. destruct (reachable_inv s RS) as (C & _ & _). cbn [accepts exec]. unfold raises.
  rewrite set_limits_eff. set (g := s_geom (snd s)). set (lim := s_limits (snd s)).
  assert (LO : 0 <= lim_right_l lim).
  { pose proof (c_lim _ C) as Q. unfold limits_ok in Q. fold g lim in Q. lra. }
  unfold limits_result. change (@assert_strictly_positive_number R RNum) with (@assert_positive_number R RNum).
  unfold good_limits. fold g lim. cbv zeta.
  destruct (limit_checked a (lim_left lim)) as [(lx & Ea & Na & Ga & Pa)|(Ea & NA & Ba)].
  2:{ right. rewrite Ea. cbn [rbind]. split; [|exists ValueError; auto].
      intros (lx & lxr & rx & rxl & Q & _ & _ & _ & P & _). apply Ba. eapply given_pos; eauto. }
  rewrite Ea. cbn [rbind].
  destruct (limit_checked c (lim_left_r lim)) as [(lxr & Ec & Nc & Gc & Pc)|(Ec & NC & Bc)].
  2:{ right. rewrite Ec. cbn [rbind]. split; [|exists ValueError; auto].
      intros (lx' & lxr & rx & rxl & _ & Q & _ & _ & _ & _ & P & _). apply Bc. eapply given_pos; eauto.
      revert P. rminmax; lra. }
  rewrite Ec. cbn [rbind].
  assert (TAIL : forall rx rxl, given_or b (lim_right lim) rx -> given_or d (lim_right_l lim) rxl ->
    (d <> PNone -> b <> PNone /\ 0 <= rxl) ->
    outcome
      (exists lx lxr rx rxl,
        given_or a (lim_left lim) lx /\ given_or c (lim_left_r lim) lxr /\
        given_or b (lim_right lim) rx /\ given_or d (lim_right_l lim) rxl /\
        (a <> PNone -> 0 <= lx) /\ (d <> PNone -> b <> PNone /\ 0 <= rxl) /\
        Rmax lx 0 < Rmin lxr (fst (g_top g)) /\ Rmax rxl (fst (g_top g)) < Rmin rx (g_ext_l g))
      (fun e => e = ValueError \/ (d = PNone /\ b <> PNone /\ (forall x, ~ denotes b x) /\ e = TypeError))
      match (let! lx' := Ok lx in let! lxr' := Ok lxr in let! rx' := Ok rx in let! rxl' := Ok rxl in
             let x := pymax lx' (nz 0) in let y := pymin lxr' (fst (g_top g)) in
             let w := pymin rx' (g_ext_l g) in let z := pymax rxl' (fst (g_top g)) in
             if nleb y x || nleb w z then Err ValueError else Ok (MkLimits x y z w)) with
      | Ok l => (Ok tt, (fst s, set_s_search [] (set_s_limits l (snd s))))
      | Err e => (Err e, s)
      end).
  { intros rx rxl Gb Gd Q. cbn [rbind]. rewrite !pymax_R, !pymin_R. unR.
    destruct (Rleb (Rmin lxr (fst (g_top g))) (Rmax lx 0)) eqn:L1; cbn [orb].
    - right. split; [|exists ValueError; auto]. intros (x1 & x2 & x3 & x4 & G1 & G2 & _ & _ & _ & _ & W & _).
      rewrite (given_fun _ _ _ _ G1 Ga), (given_fun _ _ _ _ G2 Gc) in W. rbool. lra.
    - destruct (Rleb (Rmin rx (g_ext_l g)) (Rmax rxl (fst (g_top g)))) eqn:L2.
      + right. split; [|exists ValueError; auto]. intros (x1 & x2 & x3 & x4 & _ & _ & G3 & G4 & _ & _ & _ & W).
        rewrite (given_fun _ _ _ _ G3 Gb), (given_fun _ _ _ _ G4 Gd) in W. rbool. lra.
      + left. rbool. split; [|reflexivity]. exists lx, lxr, rx, rxl. repeat split; auto; try (now apply Q); lra. }
  destruct (is_none d) eqn:ND.
  - assert (d = PNone) by (destruct d; discriminate || reflexivity). subst d.
    unfold limit_arg at 1. cbn [is_none rbind].
    destruct (is_none b) eqn:NB.
    + assert (b = PNone) by (destruct b; discriminate || reflexivity). subst b.
      unfold limit_arg. cbn [is_none rbind as_num]. rewrite Na, Nc.
      apply TAIL; [left; auto|left; auto|congruence].
    + unfold limit_arg. rewrite NB.
      rewrite (proj2 (assert_positive_ok (PFloat (lim_right_l lim)) tt))
        by (exists (lim_right_l lim); split; [reflexivity|exact LO]). cbn [rbind]. rewrite Na, Nc. cbn [rbind].
      destruct (as_num b) as [rx|e] eqn:Nb.
      * cbn [as_num]. apply (TAIL rx (lim_right_l lim)); [|left; auto|congruence]. right. split; [intros ->; discriminate|].
        now apply denotes_as_num.
      * cbn [rbind]. assert (BN : b <> PNone) by (intros ->; discriminate).
        assert (NDn : forall x, ~ denotes b x) by (intros x D; apply denotes_as_num in D; congruence).
        right. split.
        -- intros (x1 & x2 & x3 & x4 & _ & _ & [(Q & _)|(_ & Q)] & _); [contradiction|]. eapply NDn; eauto.
        -- exists e. split; [reflexivity|]. right. repeat split; auto.
           destruct b; cbn in Nb; congruence.
  - assert (DN : d <> PNone) by (intros ->; discriminate).
    unfold limit_arg at 1. rewrite ND.
    destruct (assert_positive_number b) as [u|e] eqn:Pb.
    2:{ cbn [rbind]. right. split; [|exists e; split; [reflexivity|left; eapply positive_error; eauto]].
        intros (x1 & x2 & x3 & x4 & _ & _ & G3 & _ & _ & Q & _ & W). destruct (Q DN) as (BN & P4).
        enough (at_least_0 b) as A by (apply (assert_positive_ok b tt) in A; congruence).
        eapply given_pos; eauto. revert W. rminmax; lra. }
    apply assert_positive_ok in Pb. destruct Pb as (rx & Db & Pb). cbn [rbind].
    assert (BN : b <> PNone) by (intros ->; exact Db).
    assert (is_none b = false) as NB by (destruct b; congruence || reflexivity).
    unfold limit_arg. rewrite NB.
    destruct (assert_positive_number d) as [ud|e] eqn:Pd.
    2:{ cbn [rbind]. right. split; [|exists e; split; [reflexivity|left; eapply positive_error; eauto]].
        intros (x1 & x2 & x3 & x4 & _ & _ & _ & G4 & _ & Q & _ & _). destruct (Q DN) as (_ & P4).
        enough (at_least_0 d) as A by (apply (assert_positive_ok d tt) in A; congruence).
        eapply given_pos; eauto. }
    apply assert_positive_ok in Pd. destruct Pd as (rxl & Dd & Pd). cbn [rbind].
    rewrite Na, Nc, (proj1 (denotes_as_num _ _) Db), (proj1 (denotes_as_num _ _) Dd).
    apply (TAIL rx rxl); [right; auto|right; auto|auto].
Qed.
Lemma pair_outcome s l r n : reachable s ->
  outcome (accepts s (AddEntryExit l r n)) (raises s (AddEntryExit l r n)) (exec (AddEntryExit l r n) s).
Proof.
  intros RS. cbn [accepts]. unfold raises. set (w := g_ext_l (s_geom (snd s))).
  destruct (Rlt_dec l 0) as [A|A]; [|destruct (Rlt_dec w l) as [B|B]; [|destruct (Rlt_dec r 0) as [D|D];
    [|destruct (Rlt_dec w r) as [E|E]]]].
  1-4: (right; split; [intros; lra|]; exists TypeError; rewrite pair_outside by (fold w; auto);
        split; [reflexivity|]; left; split; [intros; lra|reflexivity]).
  destruct (Req_dec l r) as [<-|N].
  - right. split; [tauto|]. exists ZeroDivisionError. rewrite pair_vertical by (fold w; auto; lra).
    split; [reflexivity|]. right. split; [lra|auto].
  - left. split; [split; [exact N|lra]|].
    destruct (Rtotal_order l r) as [L|[L|L]]; [|contradiction|].
    + destruct (pair_state s l r n RS) as (s' & ps & -> & _); [lra|lra|fold w; lra|reflexivity].
    + rewrite pair_swap by auto. destruct (pair_state s r l n RS) as (s' & ps & -> & _); [lra|lra|fold w; lra|reflexivity].
Qed.
Lemma circle_outcome s x y r : reachable s -> fst (exec (AddCircle x y r) s) = Ok tt.
Proof.
  intros RS. pose proof (core_good s (proj1 (reachable_inv s RS))) as G.
  cbn [exec]. unfold add_single_circular_plane. rewrite bind_self_get, bind_lift.
  destruct (circle_external_spec _ G x y r) as (il & -> & _).
  destruct (first_two il) as [[a b]|]; [msteps; reflexivity|reflexivity].
Qed.

Theorem edits_decided s o : reachable s -> an_edit o -> outcome (accepts s o) (raises s o) (exec o s).
Proof.
  intros RS ED. pose proof (reachable_inv s RS) as I. pose proof I as (C & U & L).
  destruct o; try contradiction.
  - apply material_outcome.
  - apply udl_outcome.
  - apply lload_outcome.
  - apply boundary_outcome.
  - now apply options_outcome.
  - apply water_outcome.
  - left. split; [exact Logic.I|reflexivity].
  - apply water_options_outcome.
  - apply refs_outcome. intros K. destruct (inv_set_udls l s C L (known_ok _ _ K)) as (s1 & -> & _). reflexivity.
  - apply refs_outcome. intros K.
    destruct (inv_remove_udls l all s I (refs_udls _ _ (known_ok _ _ K))) as (s1 & -> & _). reflexivity.
  - apply refs_outcome. intros K. destruct (inv_set_lls l s C U (known_ok _ _ K)) as (s1 & -> & _). reflexivity.
  - apply refs_outcome. intros K.
    destruct (inv_remove_lls l all s I (refs_lls _ _ (known_ok _ _ K))) as (s1 & -> & _). reflexivity.
  - now apply materials_outcome.
  - cbn [accepts exec]. unfold raises.
    assert (Q : outcome (known (fst s) (match m with Some r => [r] | None => [] end)) (fun e => e = NameError)
      (with_refs (match m with Some r => [r] | None => [] end) (remove_material m depth all) s)).
    { apply refs_outcome. intros K. rewrite remove_material_eff. unfold removal_depth.
      destruct m as [[n| | |]|]; try reflexivity. specialize (K (RefMaterial n) (or_introl eq_refl)). cbn in K.
      unfold deref. destruct (nth_error (h_materials (fst s)) n) eqn:En; [reflexivity|].
      apply nth_error_None in En. lia. }
    destruct m as [r|]; [exact Q|]. destruct Q as [(_ & Q)|(Q & _)]; [left; split; [exact Logic.I|exact Q]|].
    elim Q. intros r [].
  - cbn [accepts exec]. unfold raises. left. split; [exact Logic.I|]. rewrite analysis_options_eff. reflexivity.
  - now apply limits_outcome.
  - cbn [accepts exec]. unfold raises. left. split; [exact Logic.I|]. destruct (inv_remove_limits s I) as (s1 & -> & _). reflexivity.
  - now apply pair_outcome.
  - left. split; [exact Logic.I|]. now apply circle_outcome.
  - left. split; [exact Logic.I|reflexivity].
Qed.
Lemma accepted_iff s o : reachable s -> an_edit o ->
  (exists s', exec o s = (Ok tt, s')) <-> accepts s o.
Proof.
  intros RS ED. destruct (edits_decided s o RS ED) as [(A & E)|(A & e & E & _)]; destruct (exec o s) as [x s'] eqn:X; cbn in E; subst x.
  - split; [auto|eauto].
  - split; [intros (s1 & Q); discriminate|contradiction].
Qed.
Lemma refused_kind s o e s' : reachable s -> an_edit o -> exec o s = (Err e, s') -> raises s o e.
Proof.
  intros RS ED X. destruct (edits_decided s o RS ED) as [(_ & E)|(_ & e' & E & K)]; rewrite X in E; cbn in E; congruence.
Qed.
End Accepted.
