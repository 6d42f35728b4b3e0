(** * ShareFacts: which numbers the analysis depends on, and objects that are
    shared by two slopes (C22, C86). *)
From Coq Require Import ZArith List Bool String Lia.
From Verif Require Import Num Py Validation Utilities Objects Slope Planes Analysis
     Dynamic Api ListFacts MonadFacts SlopeFacts KeepFacts.
Import ListNotations.

(** The numbers of a layer and of a load that can matter. *)
Definition soil_numbers {T} (m : material T) : T * T * T * option T :=
  (m_unit_weight m, m_cohesion m, m_tan_phi m, m_RL m).
Definition udl_numbers {T} (u : udl T) : T * option T * option T :=
  (u_magnitude u, u_left u, u_right u).
Definition ll_numbers {T} (l : lload T) : T * option T := (l_magnitude l, l_coord l).
(** The numbers of a slope that can matter. *)
Definition slope_numbers {T} (sl : slope T) :=
  (s_geom sl, s_water_RL sl, s_water_H sl, s_limits sl, (s_slices sl, s_iterations sl,
   s_min_failure sl, s_tolerance sl, s_max_iterations sl), s_planes sl).
Definition same_numbers {T} (s s' : st T) : Prop :=
  map soil_numbers (mats_of s) = map soil_numbers (mats_of s') /\
  map udl_numbers (udls_of s) = map udl_numbers (udls_of s') /\
  map ll_numbers (lls_of s) = map ll_numbers (lls_of s') /\
  slope_numbers (snd s) = slope_numbers (snd s').

Section Numbers.
  Context {T : Type} {NT : Num T} {EN : Env}.

  Definition bare (m : material T) : material T :=
    MkMaterial (m_unit_weight m) (nz 0) (m_cohesion m) (nz 0) "" "" "" (m_tan_phi m) None.
  Definition bare_layer (x : T * material T) : T * material T := (fst x, bare (snd x)).
  Definition bare_view (v : view T) : view T :=
    MkView (v_geom v) (map bare_layer (v_mats v)) (v_udls v) (v_lls v) (v_water_RL v)
           (v_water_H v) (v_limits v) (v_slices v) (v_iterations v) (v_min_failure v)
           (v_tolerance v) (v_max_iterations v).

  Lemma layers_bare ms : forall top : T, layers top (map bare_layer ms) = layers top ms.
  Proof.
    induction ms as [|[rl m] ms IH]; intros top; [reflexivity|].
    destruct ms as [|[rl' m'] ms]; [reflexivity|].
    change (layers top (map bare_layer ((rl, m) :: (rl', m') :: ms)))
      with ((top, Some rl, m_unit_weight m) :: layers rl (map bare_layer ((rl', m') :: ms))).
    now rewrite IH.
  Qed.
  Lemma base_bare ms (yb : T) :
    base_material (map bare_layer ms) yb = option_map bare (base_material ms yb).
  Proof.
    induction ms as [|[rl m] ms IH]; [reflexivity|].
    destruct ms as [|[rl' m'] ms]; [reflexivity|].
    change (base_material (map bare_layer ((rl, m) :: (rl', m') :: ms)) yb)
      with (if nltb rl yb then Some (bare m)
            else base_material (map bare_layer ((rl', m') :: ms)) yb).
    rewrite IH.
    change (base_material ((rl, m) :: (rl', m') :: ms) yb)
      with (if nltb rl yb then Some m else base_material ((rl', m') :: ms) yb).
    now destruct (nltb rl yb).
  Qed.
  Lemma make_slice_bare v w (cx cy r b x : T) m :
    make_slice (bare_view v) w cx cy r b x (bare m) = make_slice v w cx cy r b x m.
  Proof.
    unfold make_slice, strip_weight. cbn [v_geom v_mats v_udls v_lls v_water_H bare_view].
    now rewrite layers_bare.
  Qed.
  Lemma slices_bare v (cx cy r a b : T) :
    slices_of (bare_view v) cx cy r a b = slices_of v cx cy r a b.
  Proof.
    unfold slices_of. cbn [v_slices bare_view].
    destruct (nleb _ _); [reflexivity|]. destruct (pydiv _ _) as [w|]; [|reflexivity].
    cbn [rbind]. destruct (existsb _ _); [reflexivity|]. destruct (existsb _ _); [reflexivity|].
    change (water_data (bare_view v)) with (water_data v).
    destruct (water_data v) as [wd|]; [|reflexivity]. cbn [rbind v_mats bare_view].
    destruct (v_mats v) as [|[rl m] ms] eqn:E; [reflexivity|].
    change (map bare_layer ((rl, m) :: ms)) with ((rl, bare m) :: map bare_layer ms).
    cbv beta iota. do 3 f_equal. apply map_ext. intros x.
    change ((rl, bare m) :: map bare_layer ms) with (map bare_layer ((rl, m) :: ms)).
    rewrite base_bare. destruct (base_material _ _) as [k|]; cbn [option_map];
      apply make_slice_bare.
  Qed.
  Lemma bishop_bare v (cx cy r : T) : bishop (bare_view v) cx cy r = bishop v cx cy r.
  Proof.
    unfold bishop, ordinary. change (v_geom (bare_view v)) with (v_geom v).
    destruct (circle_external _ _ _ _) as [il|]; [|reflexivity]. cbn [rbind].
    destruct (first_two il) as [[l_c r_c]|]; [|reflexivity]. rewrite slices_bare. reflexivity.
  Qed.
  Lemma fos_loop_bare v l : fos_loop (bare_view v) l = fos_loop v l.
  Proof.
    induction l as [|p l IH]; [reflexivity|]. cbn [fos_loop]. rewrite bishop_bare, IH. reflexivity.
  Qed.

  (** reading attributes *)
  Lemma rmapM_numbers {A B C : Type} (num : A -> B) (f : A -> res C) (g : B -> res C) :
    (forall a, f a = g (num a)) -> forall l, rmapM f l = rmapM g (map num l).
  Proof.
    intros H l. induction l as [|a l IH]; [reflexivity|].
    cbn [rmapM map]. now rewrite H, IH.
  Qed.
  Definition layer_of (x : T * T * T * option T) : res (T * material T) :=
    let '(uw, c, t, rl) := x in
    match rl with
    | Some y => Ok (y, MkMaterial uw (nz 0) c (nz 0) "" "" "" t None)
    | None => Err AttributeError
    end.
  Definition res_map {A B} (f : A -> B) (r : res A) : res B :=
    match r with Ok a => Ok (f a) | Err e => Err e end.
  Lemma rmapM_map {A B C : Type} (f : A -> res B) (h : B -> C) l :
    res_map (map h) (rmapM f l) = rmapM (fun a => res_map h (f a)) l.
  Proof.
    induction l as [|a l IH]; [reflexivity|]. cbn [rmapM]. destruct (f a) as [b|]; [|reflexivity].
    cbn [rbind res_map]. rewrite <- IH. destruct (rmapM f l); reflexivity.
  Qed.
  Lemma view_numbers s s' : same_numbers s s' ->
    res_map bare_view (view_of s) = res_map bare_view (view_of s').
  Proof.
    intros (E1 & E2 & E3 & E4). unfold slope_numbers in E4. injection E4; intros.
    unfold view_of.
    assert (L : res_map (map bare_layer)
                  (rmapM (fun m => let! rl := attr (m_RL m) in Ok (rl, m)) (mats_of s))
              = res_map (map bare_layer)
                  (rmapM (fun m => let! rl := attr (m_RL m) in Ok (rl, m)) (mats_of s'))).
    { rewrite !rmapM_map.
      rewrite !(rmapM_numbers soil_numbers _ layer_of)
        by (intros m; unfold soil_numbers, layer_of, attr; destruct (m_RL m); reflexivity).
      now rewrite E1. }
    assert (U : forall l, rmapM (fun u : udl T => let! a := attr (u_left u) in
                               let! b := attr (u_right u) in Ok (a, b, u_magnitude u)) l
              = rmapM (fun x : T * option T * option T =>
                  let! a := attr (snd (fst x)) in
                  let! b := attr (snd x) in Ok (a, b, fst (fst x))) (map udl_numbers l))
      by (intros l; apply rmapM_numbers; reflexivity).
    assert (L2 : forall l, rmapM (fun u : lload T => let! a := attr (l_coord u) in
                               Ok (a, l_magnitude u)) l
              = rmapM (fun x : T * option T =>
                  let! a := attr (snd x) in Ok (a, fst x)) (map ll_numbers l))
      by (intros l; apply rmapM_numbers; reflexivity).
    rewrite !U, !L2, E2, E3.
    destruct (rmapM _ (mats_of s)) as [ms|e]; destruct (rmapM _ (mats_of s')) as [ms'|e'];
      cbn [res_map] in L; try discriminate; cbn [rbind].
    - injection L as L. destruct (rmapM _ (map udl_numbers _)); [|reflexivity]. cbn [rbind].
      destruct (rmapM _ (map ll_numbers _)); [|reflexivity]. cbn [rbind res_map].
      unfold bare_view. cbn [v_geom v_mats v_udls v_lls v_water_RL v_water_H v_limits v_slices
        v_iterations v_min_failure v_tolerance v_max_iterations].
      rewrite L. congruence.
    - injection L as L. subst. reflexivity.
  Qed.

  (** C86 *)
  Lemma only_numbers m (s s' : st T) : same_numbers s s' ->
    fst (analyse_slope m s) = fst (analyse_slope m s') /\
    (forall u, fst (analyse_slope m s) = Ok u ->
       s_search (snd (snd (analyse_slope m s))) = s_search (snd (snd (analyse_slope m s')))).
  Proof.
    intros N. pose proof (view_numbers s s' N) as V. destruct N as (_ & _ & _ & E4).
    assert (P : s_planes (snd s) = s_planes (snd s')) by (now injection E4).
    unfold analyse_slope. rewrite !bind_self_get. rewrite <- P.
    assert (Q : forall s B (k : view T -> M (st T) B), mbind (fun s => (view_of s, s)) k s =
              match view_of s with Ok v => k v s | Err e => (Err e, s) end).
    { intros t B k. unfold mbind. now destruct (view_of t). }
    rewrite !Q. clear Q.
    destruct (view_of s) as [v|e]; destruct (view_of s') as [v'|e']; cbn [res_map] in V;
      try discriminate.
    2:{ injection V as V. subst. split; [reflexivity|]. discriminate. }
    assert (V' : bare_view v = bare_view v')
      by exact (f_equal (fun r => match r with Ok a => a | Err _ => bare_view v end) V).
    clear V; rename V' into V.
    assert (F : forall l, fos_loop v l = fos_loop v' l)
      by (intros l; rewrite <- fos_loop_bare, V, fos_loop_bare; reflexivity).
    assert (EE : entry_exit_planes v = entry_exit_planes v').
    { change (entry_exit_planes v) with (entry_exit_planes (bare_view v)). now rewrite V. }
    destruct (s_planes (snd s)) as [|p ps].
    - rewrite !bind_lift, EE. destruct (entry_exit_planes v') as [q|e]; [|split; [reflexivity|discriminate]].
      rewrite F. destruct (fos_loop v' q) as [[[]|e] done]; split; try reflexivity; discriminate.
    - rewrite F. destruct (fos_loop v' (p :: ps)) as [[[]|e] done]; split; try reflexivity; discriminate.
  Qed.
End Numbers.

(** ** What no call changes in an object *)
Definition material_identity {T} (m : material T) :=
  (m_unit_weight m, m_friction_angle m, m_cohesion m, m_depth m, m_name m, m_user_color m,
   m_tan_phi m).
(** the offset belongs to it unless the load is dynamic *)
Definition udl_identity {T} (u : udl T) :=
  (u_magnitude u, u_length u, u_color u, u_dynamic u, if u_dynamic u then None else Some (u_offset u)).
Definition ll_identity {T} (l : lload T) :=
  (l_magnitude l, l_color l, l_dynamic l, if l_dynamic l then None else Some (l_offset l)).
Definition still {A B} (f : A -> B) (l l' : list A) : Prop :=
  forall n x, nth_error l n = Some x -> exists x', nth_error l' n = Some x' /\ f x' = f x.
Definition same_identities {T} (h h' : heap T) : Prop :=
  still material_identity (h_materials h) (h_materials h') /\
  still udl_identity (h_udls h) (h_udls h') /\ still ll_identity (h_lls h) (h_lls h').

Section Identity.
  Context {T : Type} {NT : Num T} {EN : Env}.
  Lemma still_refl {A B} (f : A -> B) l : still f l l.
  Proof. intros n x E. eauto. Qed.
  Lemma still_trans {A B} (f : A -> B) a b c : still f a b -> still f b c -> still f a c.
  Proof.
    intros P Q n x E. destruct (P n x E) as (y & E1 & E2). destruct (Q n y E1) as (z & E3 & E4).
    exists z. split; auto. congruence.
  Qed.
  Lemma still_upd {A B} (f : A -> B) g k l : (forall x, f (g x) = f x) -> still f l (upd_nth k g l).
  Proof.
    intros G n x E. rewrite nth_error_upd_nth. destruct (Nat.eqb k n) eqn:K; rewrite E; cbn; eauto.
  Qed.
  Lemma still_app {A B} (f : A -> B) l r : still f l (l ++ r).
  Proof.
    intros n x E. exists x. split; auto. rewrite nth_error_app1; auto.
    apply nth_error_Some. congruence.
  Qed.
  Definition ident (s s' : st T) : Prop := same_identities (fst s) (fst s').
  Lemma ident_refl s : ident s s.
  Proof. repeat split; apply still_refl. Qed.
  Lemma ident_trans a b c : ident a b -> ident b c -> ident a c.
  Proof. intros (A1 & A2 & A3) (B1 & B2 & B3). repeat split; eapply still_trans; eauto. Qed.
  Hint Resolve ident_refl ident_trans : core.
  Lemma ident_self f : keeps ident (self_upd f).
  Proof. intros s. repeat split; apply still_refl. Qed.
  Lemma ident_material n f : (forall m, material_identity (f m) = material_identity m) ->
    keeps ident (upd_material n f).
  Proof.
    intros F s. repeat split; cbn [upd_material mupd snd fst h_materials h_udls h_lls];
      try apply still_refl. now apply still_upd.
  Qed.
  Lemma ident_udl n f : (forall m, udl_identity (f m) = udl_identity m) -> keeps ident (upd_udl n f).
  Proof.
    intros F s. repeat split; cbn [upd_udl mupd snd fst h_materials h_udls h_lls];
      try apply still_refl. now apply still_upd.
  Qed.
  Lemma ident_ll n f : (forall m, ll_identity (f m) = ll_identity m) -> keeps ident (upd_ll n f).
  Proof.
    intros F s. repeat split; cbn [upd_ll mupd snd fst h_materials h_udls h_lls];
      try apply still_refl. now apply still_upd.
  Qed.
  Hint Resolve ident_self : ident.
  Ltac istep := repeat (cbv zeta; first [ solve [auto with ident nocore]
    | solve [apply ident_udl; intros ?; reflexivity] | solve [apply ident_ll; intros ?; reflexivity]
    | solve [apply ident_material; intros ?; reflexivity] | keep1 ]).
  Lemma ident_udl_coordinates : keeps ident update_udl_coordinates.
  Proof. unfold update_udl_coordinates. istep. Qed.
  Lemma ident_ll_coordinates : keeps ident update_ll_coordinates.
  Proof. unfold update_ll_coordinates. istep. Qed.
  Lemma ident_reset : keeps ident reset_results.
  Proof. apply ident_self. Qed.
  Hint Resolve ident_udl_coordinates ident_ll_coordinates ident_reset : ident.
  Lemma ident_limits a b c d : keeps ident (set_analysis_limits a b c d).
  Proof. unfold set_analysis_limits. istep. Qed.
  Hint Resolve ident_limits : ident.
  Lemma ident_no_limits : keeps ident remove_analysis_limits.
  Proof. unfold remove_analysis_limits. istep. Qed.
  Hint Resolve ident_no_limits : ident.
  Lemma ident_boundary h a l : keeps ident (set_external_boundary h a l).
  Proof. unfold set_external_boundary. istep. Qed.
  Hint Resolve ident_boundary : ident.
  Lemma ident_options l h : keeps ident (update_boundary_options l h).
  Proof. unfold update_boundary_options. istep. Qed.
  Hint Resolve ident_options : ident.
  Lemma ident_set_udls l : keeps ident (set_udls l).
  Proof. unfold set_udls, set_udl_one. istep. Qed.
  Lemma ident_set_lls l : keeps ident (set_lls l).
  Proof. unfold set_lls, set_ll_one. istep. Qed.
  Lemma ident_remove_udls l a : keeps ident (remove_udls l a).
  Proof. unfold remove_udls. istep. Qed.
  Lemma ident_remove_lls l a : keeps ident (remove_lls l a).
  Proof. unfold remove_lls. istep. Qed.
  Lemma ident_assign l : forall i, keeps ident (assign_materials i l).
  Proof.
    induction l as [|n l IH]; intros i; cbn [assign_materials]; [now apply keeps_ret|].
    istep.
  Qed.
  Hint Resolve ident_set_udls ident_set_lls ident_remove_udls ident_remove_lls ident_assign : ident.
  Lemma ident_set_materials l : keeps ident (set_materials l).
  Proof. unfold set_materials. istep. Qed.
  Lemma ident_remove_material m d a : keeps ident (remove_material m d a).
  Proof. unfold remove_material. istep. Qed.
  Lemma ident_analyse m : keeps ident (analyse_slope m).
  Proof. unfold analyse_slope. istep. Qed.
  Hint Resolve ident_set_materials ident_remove_material ident_analyse : ident.
  (** only dynamic loads are moved *)
  Lemma ident_move o : keeps ident (set_dynamic_offset o).
  Proof.
    unfold set_dynamic_offset. do 4 (apply keeps_bind; [eauto|istep|intros ?]).
    apply keeps_bind; [eauto| |intros _]; (apply keeps_forM; [eauto|eauto|intros n _]).
    - intros s. unfold get_udl, mbind, deref.
      destruct (nth_error (h_udls (fst s)) n) as [u|] eqn:E; [|apply ident_refl].
      destruct (u_dynamic u) eqn:D; cbn [mwhen mret]; [|apply ident_set_udls].
      cbn [upd_udl mupd]. eapply ident_trans; [|apply ident_set_udls]. split; [apply still_refl|]. split; [|apply still_refl].
      cbn [fst h_udls]. intros k x Q. rewrite nth_error_upd_nth.
      destruct (Nat.eqb_spec n k) as [->|]; [|eauto]. rewrite E in Q. injection Q as <-.
      rewrite E. eexists. split; [reflexivity|]. unfold udl_identity.
      cbn [u_magnitude u_length u_color u_dynamic set_udl_offset]. now rewrite D.
    - intros s. unfold get_ll, mbind, deref.
      destruct (nth_error (h_lls (fst s)) n) as [u|] eqn:E; [|apply ident_refl].
      destruct (l_dynamic u) eqn:D; cbn [mwhen mret]; [|apply ident_set_lls].
      cbn [upd_ll mupd]. eapply ident_trans; [|apply ident_set_lls]. split; [apply still_refl|]. split; [apply still_refl|].
      cbn [fst h_lls]. intros k x Q. rewrite nth_error_upd_nth.
      destruct (Nat.eqb_spec n k) as [->|]; [|eauto]. rewrite E in Q. injection Q as <-.
      rewrite E. eexists. split; [reflexivity|]. unfold ll_identity.
      cbn [l_magnitude l_color l_dynamic set_ll_offset]. now rewrite D.
  Qed.
  Lemma ident_dynamic c : keeps ident (analyse_dynamic c).
  Proof.
    apply keeps_dynamic; auto using ident_move, ident_analyse; [apply ident_trans|].
    intros d s. repeat split; apply still_refl.
  Qed.
  Lemma ident_alloc {A} (r : res A) add :
    (forall a h, exists m u l, add a h =
       MkHeap (h_materials h ++ m) (h_udls h ++ u) (h_lls h ++ l)) ->
    keeps ident (alloc r add).
  Proof.
    intros F s. unfold alloc. rewrite bind_lift. destruct r as [a|e]; [|apply ident_refl].
    cbn. destruct (F a (fst s)) as (m & u & l & E). unfold ident. cbn [fst]. rewrite E.
    repeat split; apply still_app.
  Qed.
  Hint Resolve ident_dynamic : ident.
  Lemma ident_exec o : keeps ident (exec o).
  Proof.
    destruct o; cbn [exec]; unfold with_refs, set_water_table, remove_water_table,
      update_water_analysis_options, update_analysis_options, add_single_entry_exit_plane,
      add_single_circular_plane, remove_individual_planes;
      try (apply ident_alloc; intros m0 h0;
           first [ exists [m0], [], []; now rewrite !app_nil_r
                 | exists [], [m0], []; now rewrite !app_nil_r
                 | exists [], [], [m0]; now rewrite !app_nil_r ]); istep.
  Qed.
  (** C22: whatever is done to a slope, the objects keep what they are *)
  Lemma identities_kept (s : st T) ops : same_identities (fst s) (fst (run s ops)).
  Proof.
    revert s. induction ops as [|o ops IH]; intros s; [apply ident_refl|].
    change (run s (o :: ops)) with (run (snd (exec o s)) ops).
    eapply (ident_trans s); [exact (ident_exec o s)|]. apply IH.
  Qed.
End Identity.

(** ** Sharing objects with a slope of the same section *)
Section Placed.
  Context {T : Type} {NT : Num T} {EN : Env}.
  Local Open Scope num_scope.

  (** The layers hang below the level [top_y] and the loads stand behind a crest
      at [crest]. *)
  Definition placed_material (top_y : T) (m : material T) : Prop :=
    m_RL m = Some (top_y - m_depth m).
  Definition placed_udl (crest : T) (u : udl T) : Prop :=
    u_right u = Some (crest - u_offset u) /\
    u_left u = Some (match u_length u with
                     | Some len => if len =? nz 0 then nz 0
                                   else pymax (nz 0) (crest - u_offset u - len)
                     | None => nz 0
                     end).
  Definition placed_ll (crest : T) (l : lload T) : Prop :=
    l_coord l = Some (pymax (nz 0) (crest - l_offset l)).
  Definition placed (crest top_y : T) (s : st T) : Prop :=
    (forall m, In m (mats_of s) -> placed_material top_y m) /\
    (forall u, In u (udls_of s) -> placed_udl crest u) /\
    (forall l, In l (lls_of s) -> placed_ll crest l).

  Lemma coords_placed x (u : udl T) : placed_udl x u -> udl_coords x u = u.
  Proof.
    intros [E1 E2]. unfold udl_coords, udl_left_right, set_udl_xy. destruct u as [ma o le c d l r].
    cbn in *. rewrite E1, E2. f_equal. destruct le as [len|]; [|reflexivity].
    now destruct (neqb len (nz 0)).
  Qed.
  Lemma ll_coords_placed x (l : lload T) : placed_ll x l -> ll_coords x l = l.
  Proof. intros E. unfold ll_coords, set_ll_coord. destruct l. unfold placed_ll in E. cbn in *. now rewrite E. Qed.

  (** Objects after part of a call, compared with those at its start. *)
  Context (s0 : st T).
  Definition per {A} (P : nat -> A -> A -> Prop) (l l' : list A) : Prop :=
    List.length l' = List.length l /\
    forall n x x', nth_error l n = Some x -> nth_error l' n = Some x' -> P n x x'.
  Definition okU (P : T -> Prop) (s : st T) : Prop :=
    per (fun n u u' => u' = u \/ In n (s_udls (snd s)) /\ exists x, P x /\ u' = udl_coords x u)
        (h_udls (fst s0)) (h_udls (fst s)).
  Definition okL (P : T -> Prop) (s : st T) : Prop :=
    per (fun n u u' => u' = u \/ In n (s_lls (snd s)) /\ exists x, P x /\ u' = ll_coords x u)
        (h_lls (fst s0)) (h_lls (fst s)).
  Definition crest_x (s : st T) : T := fst (g_top (s_geom (snd s))).
  Definition ok (s : st T) : Prop :=
    h_materials (fst s) = h_materials (fst s0) /\
    okU (eq (crest_x s)) s /\ okL (eq (crest_x s)) s.
  Definition weak (s : st T) : Prop :=
    h_materials (fst s) = h_materials (fst s0) /\
    okU (fun _ => True) s /\ okL (fun _ => True) s.

  Lemma ok_weak s : ok s -> weak s.
  Proof.
    intros (E & (LU & U) & (LL & L)). split; auto. split; (split; auto).
    - intros n x x' E1 E2. destruct (U n x x' E1 E2) as [->|(I & y & _ & Q)]; eauto 6.
    - intros n x x' E1 E2. destruct (L n x x' E1 E2) as [->|(I & y & _ & Q)]; eauto 6.
  Qed.

  Definition holds_ok {A} (P Q : st T -> Prop) (m : M (st T) A) : Prop :=
    forall s a s', P s -> m s = (Ok a, s') -> Q s'.
  Lemma ok_bind {A B} P Q W (m : M (st T) A) (k : A -> M (st T) B) :
    holds_ok P Q m -> (forall a, holds_ok Q W (k a)) -> holds_ok P W (mbind m k).
  Proof.
    intros Hm Hk s b s' Ps. unfold mbind. destruct (m s) as [[a|e] s1] eqn:E; [|discriminate].
    apply Hk. eapply Hm; eauto.
  Qed.
  Lemma ok_pure {A} (P : st T -> Prop) (m : M (st T) A) : (forall s, snd (m s) = s) -> holds_ok P P m.
  Proof. intros Hm s a s' Ps E. specialize (Hm s). rewrite E in Hm. cbn in Hm. now subst. Qed.
  Lemma ok_lift {A} P (r : res A) : holds_ok P P (mlift r).
  Proof. apply ok_pure. reflexivity. Qed.
  Lemma ok_when P b m : holds_ok P P m -> holds_ok P P (mwhen b m).
  Proof. intros Hm. destruct b; [exact Hm|]. apply ok_pure. reflexivity. Qed.
  Lemma ok_forM {A} P (f : A -> M (st T) unit) l :
    (forall a, holds_ok P P (f a)) -> holds_ok P P (mforM l f).
  Proof.
    intros Hf. induction l as [|a l IH]; cbn [mforM]; [apply ok_pure; reflexivity|].
    eapply ok_bind; [apply Hf|intros _; exact IH].
  Qed.
  (** writes to the slope that keep the section and may take in more loads *)
  Lemma ok_self f :
    (forall sl, s_geom (f sl) = s_geom sl /\ incl (s_udls sl) (s_udls (f sl)) /\
                incl (s_lls sl) (s_lls (f sl))) ->
    holds_ok ok ok (self_upd f).
  Proof.
    intros Hf s a s' (E & (LU & U) & (LL & L)) Q. injection Q as <- <-.
    destruct (Hf (snd s)) as (G & IU & IL). unfold ok, okU, okL, crest_x. cbn [fst snd].
    rewrite G. split; auto. split; (split; auto).
    - intros n x x' E1 E2. destruct (U n x x' E1 E2) as [->|(I & D)]; auto.
    - intros n x x' E1 E2. destruct (L n x x' E1 E2) as [->|(I & D)]; auto.
  Qed.
  Lemma weak_self f :
    (forall sl, incl (s_udls sl) (s_udls (f sl)) /\ incl (s_lls sl) (s_lls (f sl))) ->
    holds_ok weak weak (self_upd f).
  Proof.
    intros Hf s a s' (E & (LU & U) & (LL & L)) Q. injection Q as <- <-.
    destruct (Hf (snd s)) as (IU & IL). unfold weak, okU, okL. cbn [fst snd].
    split; auto. split; (split; auto).
    - intros n x x' E1 E2. destruct (U n x x' E1 E2) as [->|(I & D)]; auto.
    - intros n x x' E1 E2. destruct (L n x x' E1 E2) as [->|(I & D)]; auto.
  Qed.

  Definition half (s : st T) : Prop :=
    h_materials (fst s) = h_materials (fst s0) /\
    okU (eq (crest_x s)) s /\ okL (fun _ => True) s.
  Lemma upd_U s : okU (fun _ => True) s ->
    per (fun n u u' => u' = u \/ In n (s_udls (snd s)) /\ exists x, crest_x s = x /\ u' = udl_coords x u)
      (h_udls (fst s0)) (upd_all (udl_coords (crest_x s)) (s_udls (snd s)) (h_udls (fst s))).
  Proof.
    intros (LU & U). split; [rewrite upd_all_length; auto|]. intros n x x' E1.
    rewrite nth_error_upd_all by reflexivity.
    destruct (nth_error (h_udls (fst s)) n) as [y|] eqn:E2.
    2:{ destruct (mem_nat _ _); discriminate. }
    specialize (U n x y E1 E2). destruct (mem_nat n (s_udls (snd s))) eqn:M; cbn [option_map].
    - apply mem_nat_In in M. intros Q. injection Q as <-. right. split; auto.
      exists (crest_x s). split; auto. destruct U as [->|(_ & z & _ & ->)]; reflexivity.
    - apply mem_nat_not_In in M. intros Q. injection Q as <-.
      destruct U as [->|(I & _)]; [now left|contradiction].
  Qed.
  Lemma upd_L s : okL (fun _ => True) s ->
    per (fun n u u' => u' = u \/ In n (s_lls (snd s)) /\ exists x, crest_x s = x /\ u' = ll_coords x u)
      (h_lls (fst s0)) (upd_all (ll_coords (crest_x s)) (s_lls (snd s)) (h_lls (fst s))).
  Proof.
    intros (LU & U). split; [rewrite upd_all_length; auto|]. intros n x x' E1.
    rewrite nth_error_upd_all by reflexivity.
    destruct (nth_error (h_lls (fst s)) n) as [y|] eqn:E2.
    2:{ destruct (mem_nat _ _); discriminate. }
    specialize (U n x y E1 E2). destruct (mem_nat n (s_lls (snd s))) eqn:M; cbn [option_map].
    - apply mem_nat_In in M. intros Q. injection Q as <-. right. split; auto.
      exists (crest_x s). split; auto. destruct U as [->|(_ & z & _ & ->)]; reflexivity.
    - apply mem_nat_not_In in M. intros Q. injection Q as <-.
      destruct U as [->|(I & _)]; [now left|contradiction].
  Qed.
  Lemma half_udls : holds_ok weak half update_udl_coordinates.
  Proof.
    intros s a s' (E & U & L). rewrite update_udl_coordinates_eff. intros Q. injection Q as <- <-.
    split; [exact E|]. split; [exact (upd_U s U)|exact L].
  Qed.
  Lemma full_lls : holds_ok half ok update_ll_coordinates.
  Proof.
    intros s a s' (E & U & L). rewrite update_ll_coordinates_eff. intros Q. injection Q as <- <-.
    split; [exact E|]. split; [exact U|exact (upd_L s L)].
  Qed.
  Lemma ok_half : forall s, ok s -> half s.
  Proof. intros s O. pose proof (ok_weak s O) as (_ & _ & L). destruct O as (E & U & _). now split. Qed.
  Lemma ok_udls : holds_ok ok ok update_udl_coordinates.
  Proof.
    intros s a s' O. pose proof (ok_weak s O) as (_ & W & _). destruct O as (E & U & L).
    rewrite update_udl_coordinates_eff. intros Q. injection Q as <- <-.
    split; [exact E|]. split; [exact (upd_U s W)|exact L].
  Qed.
  Lemma ok_lls : holds_ok ok ok update_ll_coordinates.
  Proof. intros s a s' O. apply full_lls. now apply ok_half. Qed.

  Ltac oself := apply ok_self; intros sl; cbn; repeat split; try apply incl_refl; apply incl_appl, incl_refl.
  Ltac okstep := repeat (cbv zeta; first
    [ solve [auto with okdb nocore] | solve [apply ok_pure; intros ?; reflexivity] | solve [oself]
    | apply ok_when | (apply ok_forM; intros ?)
    | (eapply (ok_bind ok ok); [|intros ?])
    | match goal with
      | |- holds_ok _ _ (if ?b then _ else _) => destruct b
      | |- holds_ok _ _ (match ?x with _ => _ end) => destruct x
      end ]).
  Lemma ok_reset : holds_ok ok ok reset_results.
  Proof. oself. Qed.
  Hint Resolve ok_reset ok_udls ok_lls : okdb.
  Lemma ok_limits a b c d : holds_ok ok ok (set_analysis_limits a b c d).
  Proof. unfold set_analysis_limits. okstep. Qed.
  Hint Resolve ok_limits : okdb.
  Lemma ok_no_limits : holds_ok ok ok remove_analysis_limits.
  Proof. unfold remove_analysis_limits. okstep. Qed.
  Hint Resolve ok_no_limits : okdb.
  Lemma ok_boundary h a l : holds_ok ok ok (set_external_boundary h a l).
  Proof.
    unfold set_external_boundary. do 4 (eapply (ok_bind ok ok); [okstep|intros ?]).
    intros s x s' O. apply ok_weak in O. revert s x s' O.
    change (holds_ok weak ok
      (self_upd (set_s_has_boundary true) ;;; self_upd (set_s_geom a3) ;;;
       update_udl_coordinates ;;; update_ll_coordinates ;;; remove_analysis_limits ;;; reset_results)).
    do 2 (eapply (ok_bind weak weak); [apply weak_self; intros sl; cbn; split; apply incl_refl|intros _]).
    eapply ok_bind; [apply half_udls|intros _].
    eapply ok_bind; [apply full_lls|intros _]. okstep.
  Qed.
  Hint Resolve ok_boundary : okdb.
  Lemma ok_options l h : holds_ok ok ok (update_boundary_options l h).
  Proof. unfold update_boundary_options. okstep. Qed.
  Hint Resolve ok_options : okdb.
  Lemma ok_self_at s f :
    s_geom (f (snd s)) = s_geom (snd s) -> incl (s_udls (snd s)) (s_udls (f (snd s))) ->
    incl (s_lls (snd s)) (s_lls (f (snd s))) -> ok s -> ok (fst s, f (snd s)).
  Proof.
    intros G IU IL (E & (LU & U) & (LL & L)). unfold ok, okU, okL, crest_x. cbn [fst snd].
    rewrite G. split; auto. split; (split; auto).
    - intros n x x' E1 E2. destruct (U n x x' E1 E2) as [->|(I & D)]; auto.
    - intros n x x' E1 E2. destruct (L n x x' E1 E2) as [->|(I & D)]; auto.
  Qed.
  Lemma ok_take_udl n (k : unit -> M (st T) unit) : (forall u, holds_ok ok ok (k u)) ->
    holds_ok ok ok (locs <- self_get s_udls ;; mbind (self_upd (set_s_udls (locs ++ [n]))) k).
  Proof.
    intros K s a s' O. rewrite bind_self_get, bind_self_upd. apply K.
    apply ok_self_at; auto; [apply incl_appl, incl_refl|apply incl_refl].
  Qed.
  Lemma ok_take_ll n (k : unit -> M (st T) unit) : (forall u, holds_ok ok ok (k u)) ->
    holds_ok ok ok (locs <- self_get s_lls ;; mbind (self_upd (set_s_lls (locs ++ [n]))) k).
  Proof.
    intros K s a s' O. rewrite bind_self_get, bind_self_upd. apply K.
    apply ok_self_at; auto; [apply incl_refl|apply incl_appl, incl_refl].
  Qed.
  Lemma ok_set_udl_one r : holds_ok ok ok (set_udl_one r).
  Proof.
    destruct r; cbn [set_udl_one]; try (apply ok_pure; reflexivity).
    eapply (ok_bind ok ok); [okstep|intros u]. apply ok_when, ok_take_udl. intros _. okstep.
  Qed.
  Lemma ok_set_ll_one r : holds_ok ok ok (set_ll_one r).
  Proof.
    destruct r; cbn [set_ll_one]; try (apply ok_pure; reflexivity).
    eapply (ok_bind ok ok); [okstep|intros u]. apply ok_when, ok_take_ll. intros _. okstep.
  Qed.
  Hint Resolve ok_set_udl_one ok_set_ll_one : okdb.
  Lemma ok_set_udls l : holds_ok ok ok (set_udls l).
  Proof. unfold set_udls. okstep. Qed.
  Lemma ok_set_lls l : holds_ok ok ok (set_lls l).
  Proof. unfold set_lls. okstep. Qed.

  (** materials, whose levels are set after the section has its final size *)
  Definition okM (s : st T) : Prop :=
    per (fun n m m' => m' = m \/
           exists col, m' = set_RL_color (g_ext_h (s_geom (snd s)) - m_depth m) col m)
        (h_materials (fst s0)) (h_materials (fst s)) /\
    okU (eq (crest_x s)) s /\ okL (eq (crest_x s)) s.
  Lemma ok_okM s : ok s -> okM s.
  Proof.
    intros (E & U & L). split; [|now split]. rewrite E. split; [reflexivity|].
    intros n x x' E1 E2. left. congruence.
  Qed.
  Lemma okM_assign locs : forall i, holds_ok okM okM (assign_materials i locs).
  Proof.
    induction locs as [|k locs IH]; intros i; cbn [assign_materials]; [apply ok_pure; reflexivity|].
    intros s a s' ((LM & Ms) & U & L). rewrite bind_self_get. unfold upd_material. rewrite bind_upd.
    apply IH. split; [|split; [exact U|exact L]]. cbn [fst snd h_materials].
    split; [rewrite upd_nth_length; auto|]. intros n x x' E1. rewrite nth_error_upd_nth.
    destruct (nth_error (h_materials (fst s)) n) as [y|] eqn:E2.
    2:{ destruct (Nat.eqb k n); discriminate. }
    specialize (Ms n x y E1 E2). destruct (Nat.eqb k n); cbn [option_map]; intros Q; injection Q as <-; auto.
    right. destruct Ms as [->|(col & ->)]; eexists; reflexivity.
  Qed.
  Lemma okM_self f :
    (forall sl, s_geom (f sl) = s_geom sl /\ s_udls sl = s_udls (f sl) /\ s_lls sl = s_lls (f sl)) ->
    holds_ok okM okM (self_upd f).
  Proof.
    intros Hf s a s' (Ms & U & L) Q. injection Q as <- <-.
    destruct (Hf (snd s)) as (G & IU & IL). unfold okM, okU, okL, crest_x in *. cbn [fst snd].
    rewrite G, <- IU, <- IL. now split.
  Qed.
  Lemma ok_set_materials l : holds_ok ok okM (set_materials l).
  Proof.
    unfold set_materials. do 3 (eapply (ok_bind ok ok); [okstep|intros ?]). cbv zeta.
    do 3 (eapply (ok_bind ok ok); [okstep|intros ?]).
    destruct (has_dup _); [intros s x s' _ Q; discriminate|].
    intros s x s' O. apply ok_okM in O. revert s x s' O.
    match goal with |- forall s x s', _ -> ?m s = _ -> _ => change (holds_ok okM okM m) end.
    eapply ok_bind; [apply okM_assign|intros _].
    eapply ok_bind; [apply okM_self; now repeat split|intros _].
    apply okM_self; now repeat split.
  Qed.
End Placed.

Section Sharing.
  Context {T : Type} {NT : Num T} {EN : Env}.
  Local Open Scope num_scope.

  Definition assigns (o : op T) : bool :=
    match o with SetMaterials _ | SetUdls _ | SetLls _ => true | _ => false end.

  Lemma ok_start (s : st T) : ok s s.
  Proof.
    split; [reflexivity|]. split; (split; [reflexivity|]); intros n x x' E1 E2; left; congruence.
  Qed.
  Lemma exec_okM (s s' : st T) o u :
    assigns o = true -> exec o s = (Ok u, s') -> okM s s'.
  Proof.
    intros A E. destruct o; try discriminate A; cbn [exec] in E; unfold with_refs in E;
      rewrite bind_get in E; destruct (forallb _ _); try discriminate E.
    - apply ok_okM. eapply ok_set_udls; [apply ok_start|exact E].
    - apply ok_okM. eapply ok_set_lls; [apply ok_start|exact E].
    - eapply ok_set_materials; [apply ok_start|exact E].
  Qed.

  Lemma derefs_per {A B} (P : nat -> A -> A -> Prop) (num : A -> B) (h h' : list A) locs :
    per P h h' -> (forall n x x', In n locs -> nth_error h n = Some x ->
                     nth_error h' n = Some x' -> P n x x' -> num x' = num x) ->
    map num (derefs h' locs) = map num (derefs h locs).
  Proof.
    intros (L & Q) F. unfold derefs. induction locs as [|n locs IH]; [reflexivity|].
    cbn [flat_map]. rewrite !map_app, IH by (intros m x x' I; apply F; now right). f_equal.
    destruct (nth_error h n) as [x|] eqn:E; destruct (nth_error h' n) as [x'|] eqn:E'.
    - cbn. f_equal. apply (F n x x'); auto. now left.
    - apply nth_error_None in E'. assert (n < List.length h)%nat by (apply nth_error_Some; congruence). lia.
    - apply nth_error_None in E. assert (n < List.length h')%nat by (apply nth_error_Some; congruence). lia.
    - reflexivity.
  Qed.

  (** C22: a slope whose layers and loads sit where the other slope puts them
      is not affected. *)
  Lemma sharing_harmless h (s1 s1' s2 : slope T) h' o u :
    assigns o = true -> exec o (h, s1) = (Ok u, (h', s1')) ->
    placed (fst (g_top (s_geom s1'))) (g_ext_h (s_geom s1')) (h, s2) ->
    same_numbers (h', s2) (h, s2).
  Proof.
    intros A E (PM & PU & PL). destruct (exec_okM _ _ _ _ A E) as (Ms & U & L).
    unfold okU, okL, crest_x in *. cbn [fst snd] in *.
    split; [|split; [|split; [|reflexivity]]].
    - apply (derefs_per _ soil_numbers _ _ _ Ms). intros n x x' I E1 E2 [->|(col & ->)]; [reflexivity|].
      unfold soil_numbers, set_RL_color. cbn [m_unit_weight m_cohesion m_tan_phi m_RL].
      rewrite (PM x); [reflexivity|]. apply in_derefs. eauto.
    - apply (derefs_per _ udl_numbers _ _ _ U). intros n x x' I E1 E2 [->|(_ & y & <- & ->)]; [reflexivity|].
      rewrite coords_placed; [reflexivity|]. apply PU. apply in_derefs. eauto.
    - apply (derefs_per _ ll_numbers _ _ _ L). intros n x x' I E1 E2 [->|(_ & y & <- & ->)]; [reflexivity|].
      rewrite ll_coords_placed; [reflexivity|]. apply PL. apply in_derefs. eauto.
  Qed.
End Sharing.
