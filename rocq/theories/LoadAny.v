(** * LoadAny: assigned loads and the water table in every arithmetic; layers,
    removal and the binary64 instance (C89). *)
From Coq Require Import ZArith Reals Lra List Bool String Lia Permutation Sorted Floats.SpecFloat.
From Verif Require Import Num Py Validation Utilities Objects Slope Planes Analysis
     Dynamic Api ListFacts MonadFacts KeepFacts MaterialFacts AnyFacts LayerAny
     RealNum RealFacts FloatNum FloatWitness BinaryFacts.
Import ListNotations.

Section LoadAny.
  Context {T : Type} {NT : Num T} {EN : Env}.
  Notation stT := (st T).

  Record Loaded (s : stT) : Prop := {
    lo_udls : forall n, In n (s_udls (snd s)) ->
      exists u, nth_error (h_udls (fst s)) n = Some u /\ nltb (nz 0) (u_magnitude u) = true;
    lo_lls : forall n, In n (s_lls (snd s)) ->
      exists l, nth_error (h_lls (fst s)) n = Some l /\ nltb (nz 0) (l_magnitude l) = true;
    lo_water : forall rl, s_water_RL (snd s) = Some rl -> exists y, rl = pymax (nz 0) y;
  }.
  Definition holds (s s' : stT) : Prop := Loaded s -> Loaded s'.
  Lemma holds_refl s : holds s s.
  Proof. intros Q. exact Q. Qed.
  Lemma holds_trans a b c : holds a b -> holds b c -> holds a c.
  Proof. unfold holds. auto. Qed.
  Hint Resolve holds_refl holds_trans : core.
  Ltac hold := repeat (cbv zeta; first [ solve [auto with keeps nocore]
    | solve [intros ? [? ? ?]; constructor; assumption] | keep1 ]).

  Lemma udl_xy_holds n a b : keeps holds (upd_udl n (fun u => set_udl_xy (a u) (b u) u)).
  Proof.
    intros s [A B C]. constructor; auto. cbn [upd_udl mupd snd fst h_udls]. intros k Hk.
    destruct (A k Hk) as (u & E & P). rewrite nth_error_upd_nth, E.
    destruct (Nat.eqb n k); cbn; eauto.
  Qed.
  Lemma ll_coord_holds n a : keeps holds (upd_ll n (fun l => set_ll_coord (a l) l)).
  Proof.
    intros s [A B C]. constructor; auto. cbn [upd_ll mupd snd fst h_lls]. intros k Hk.
    destruct (B k Hk) as (u & E & P). rewrite nth_error_upd_nth, E.
    destruct (Nat.eqb n k); cbn; eauto.
  Qed.
  Lemma offset_holds n o : keeps holds (upd_udl n (set_udl_offset o)).
  Proof.
    intros s [A B C]. constructor; auto. cbn [upd_udl mupd snd fst h_udls]. intros k Hk.
    destruct (A k Hk) as (u & E & P). rewrite nth_error_upd_nth, E.
    destruct (Nat.eqb n k); cbn; eauto.
  Qed.
  Lemma ll_offset_holds n o : keeps holds (upd_ll n (set_ll_offset o)).
  Proof.
    intros s [A B C]. constructor; auto. cbn [upd_ll mupd snd fst h_lls]. intros k Hk.
    destruct (B k Hk) as (u & E & P). rewrite nth_error_upd_nth, E.
    destruct (Nat.eqb n k); cbn; eauto.
  Qed.
  Hint Resolve udl_xy_holds ll_coord_holds offset_holds ll_offset_holds : keeps.
  Lemma udl_coordinates_holds : keeps holds update_udl_coordinates.
  Proof. unfold update_udl_coordinates. hold. Qed.
  Lemma ll_coordinates_holds : keeps holds update_ll_coordinates.
  Proof. unfold update_ll_coordinates. hold. Qed.
  Hint Resolve udl_coordinates_holds ll_coordinates_holds : keeps.
  Lemma limits_holds a b c d : keeps holds (set_analysis_limits a b c d).
  Proof. unfold set_analysis_limits. hold. Qed.
  Hint Resolve limits_holds : keeps.
  Lemma remove_limits_holds : keeps holds remove_analysis_limits.
  Proof. unfold remove_analysis_limits. hold. Qed.
  Hint Resolve remove_limits_holds : keeps.
  Lemma boundary_holds h a l : keeps holds (set_external_boundary h a l).
  Proof. unfold set_external_boundary. hold. Qed.
  Hint Resolve boundary_holds : keeps.
  Lemma boundary_options_holds l h : keeps holds (update_boundary_options l h).
  Proof. unfold update_boundary_options. hold. Qed.
  Hint Resolve boundary_options_holds : keeps.
  Lemma set_udl_one_holds r : keeps holds (set_udl_one r).
  Proof.
    destruct r as [n|n|n|]; cbn [set_udl_one]; try solve [hold].
    intros s L. unfold get_udl, deref. unfold mbind at 1.
    destruct (nth_error (h_udls (fst s)) n) as [u|] eqn:E; [|exact L].
    destruct (nltb (nz 0) (u_magnitude u)) eqn:P; cbn [mwhen]; [|exact L].
    rewrite bind_self_get, bind_self_upd.
    match goal with |- Loaded (snd (?m ?s1)) => assert (K : keeps holds m) by hold end.
    apply K. destruct L as [A B C]. constructor; auto. cbn [snd fst set_s_udls s_udls].
    intros k Hk. apply in_app_or in Hk as [Hk|[ <- |[]]]; eauto.
  Qed.
  Lemma set_ll_one_holds r : keeps holds (set_ll_one r).
  Proof.
    destruct r as [n|n|n|]; cbn [set_ll_one]; try solve [hold].
    intros s L. unfold get_ll, deref. unfold mbind at 1.
    destruct (nth_error (h_lls (fst s)) n) as [u|] eqn:E; [|exact L].
    destruct (nltb (nz 0) (l_magnitude u)) eqn:P; cbn [mwhen]; [|exact L].
    rewrite bind_self_get, bind_self_upd.
    match goal with |- Loaded (snd (?m ?s1)) => assert (K : keeps holds m) by hold end.
    apply K. destruct L as [A B C]. constructor; auto. cbn [snd fst set_s_lls s_lls].
    intros k Hk. apply in_app_or in Hk as [Hk|[ <- |[]]]; eauto.
  Qed.
  Hint Resolve set_udl_one_holds set_ll_one_holds : keeps.
  Lemma iterating_in matches eqb fuel : forall i l n,
    In n (remove_while_iterating matches eqb fuel i l) -> In n l.
  Proof.
    induction fuel as [|f IH]; intros i l n; cbn [remove_while_iterating]; auto.
    destruct (nth_error l i) as [x|]; auto. intros Q. apply IH in Q.
    destruct (matches x); auto. now apply remove_first_in in Q.
  Qed.
  Lemma set_udls_holds l : keeps holds (set_udls l).
  Proof. unfold set_udls. hold. Qed.
  Lemma set_lls_holds l : keeps holds (set_lls l).
  Proof. unfold set_lls. hold. Qed.
  Lemma remove_udls_holds l a : keeps holds (remove_udls l a).
  Proof.
    unfold remove_udls. apply keeps_bind; [eauto|apply keeps_forM; [eauto|eauto|intros n _]|intros ?].
    - intros s L. unfold get_udl, deref. unfold mbind at 1.
      destruct (nth_error (h_udls (fst s)) n) as [u|] eqn:E; [|exact L].
      rewrite bind_heap_get, bind_self_get, self_upd_eff. destruct L as [A B C].
      constructor; auto. cbn [snd fst set_s_udls s_udls]. intros k Hk. apply iterating_in in Hk. auto.
    - hold. intros s [A B C]. constructor; auto. intros k [].
  Qed.
  Lemma remove_lls_holds l a : keeps holds (remove_lls l a).
  Proof.
    unfold remove_lls. apply keeps_bind; [eauto|apply keeps_forM; [eauto|eauto|intros n _]|intros ?].
    - intros s L. unfold get_ll, deref. unfold mbind at 1.
      destruct (nth_error (h_lls (fst s)) n) as [u|] eqn:E; [|exact L].
      rewrite bind_heap_get, bind_self_get, self_upd_eff. destruct L as [A B C].
      constructor; auto. cbn [snd fst set_s_lls s_lls]. intros k Hk. apply iterating_in in Hk. auto.
    - hold. intros s [A B C]. constructor; auto. intros k [].
  Qed.
  Hint Resolve set_udls_holds set_lls_holds remove_udls_holds remove_lls_holds : keeps.
  Lemma assign_holds l : forall i, keeps holds (assign_materials i l).
  Proof. induction l as [|n l IH]; intros i; cbn [assign_materials]; hold; apply IH. Qed.
  Hint Resolve assign_holds : keeps.
  Lemma set_materials_holds l : keeps holds (set_materials l).
  Proof. unfold set_materials. hold. Qed.
  Lemma remove_material_holds m d a : keeps holds (remove_material m d a).
  Proof. unfold remove_material. hold. Qed.
  Lemma analyse_holds m : keeps holds (analyse_slope m).
  Proof. unfold analyse_slope. hold. Qed.
  Hint Resolve set_materials_holds remove_material_holds analyse_holds : keeps.
  Lemma move_holds o : keeps holds (set_dynamic_offset o).
  Proof. unfold set_dynamic_offset. hold. Qed.
  Lemma dynamic_holds c : keeps holds (analyse_dynamic c).
  Proof.
    apply keeps_dynamic; eauto with keeps.
    - apply move_holds.
    - intros d s [A B C]. now constructor.
  Qed.
  Lemma water_holds d : keeps holds (set_water_table d).
  Proof.
    unfold set_water_table. apply keeps_bind; [eauto| |intros ?; hold].
    destruct (is_none d).
    - unfold remove_water_table. hold. all: intros s [A B C]; constructor; auto; discriminate.
    - hold. intros s [A B C]. constructor; auto. cbn. intros rl Q. injection Q as <-. eauto.
  Qed.
  Lemma exec_holds o : keeps holds (exec o).
  Proof.
    destruct o; cbn [exec]; unfold alloc, with_refs.
    all: match goal with
         | |- keeps _ (_ <- analyse_dynamic _ ;; _) =>
             apply keeps_bind; [eauto | apply dynamic_holds | intros ?; keep1]
         | |- keeps _ (set_water_table _) => apply water_holds
         | _ => idtac end.
    all: try solve [hold].
    all: try solve [unfold update_water_analysis_options, update_analysis_options,
           add_single_entry_exit_plane, add_single_circular_plane, remove_individual_planes; hold].
    - apply keeps_bind; [eauto|hold|]. intros u s [A B C]. constructor; auto.
      cbn. intros k Hk. destruct (A k Hk) as (v & E & P). exists v. split; auto.
      rewrite nth_error_app1; auto. apply nth_error_Some. congruence.
    - apply keeps_bind; [eauto|hold|]. intros u s [A B C]. constructor; auto.
      cbn. intros k Hk. destruct (B k Hk) as (v & E & P). exists v. split; auto.
      rewrite nth_error_app1; auto. apply nth_error_Some. congruence.
    - unfold remove_water_table. hold. all: intros s [A B C]; constructor; auto; discriminate.
  Qed.
  Lemma reachable_loaded (s : stT) : reachable s -> Loaded s.
  Proof.
    intros (h & a & l & ops & s0 & E & ->).
    assert (L0 : Loaded s0).
    { unfold new_slope in E. destruct (init_slope h a l (empty_heap, blank_slope)) as [[[]|e] s1] eqn:E1;
        [|discriminate]. injection E as ->.
      assert (K : keeps holds (init_slope h a l)).
      { unfold init_slope, update_analysis_options, update_water_analysis_options. hold.
        all: intros s [A B C]; constructor; auto; try (intros ? ?; discriminate); intros k []. }
      apply (keeps_ok _ _ _ _ _ K) in E1. apply E1. constructor; cbn; try (intros ? ?; discriminate); intros ? []. }
    revert L0. generalize s0. induction ops as [|o ops IH]; intros t LT; [exact LT|].
    cbn [run fold_left]. apply IH. unfold step. now apply exec_holds.
  Qed.

  (** ** The layers as a list of materials *)
  Lemma derefs_in {A} (h : list A) locs a : In a (derefs h locs) <->
    exists n, In n locs /\ nth_error h n = Some a.
  Proof.
    unfold derefs. rewrite in_flat_map. split.
    - intros (n & I & Q). exists n. split; auto. destruct (nth_error h n); [|destruct Q].
      destruct Q as [ -> |[]]. reflexivity.
    - intros (n & I & Q). exists n. split; auto. rewrite Q. now left.
  Qed.
  Lemma derefs_sorted (Rel : material T -> material T -> Prop) h locs :
    (forall n, In n locs -> exists m, nth_error h n = Some m) ->
    StronglySorted (fun a b => forall x y, nth_error h a = Some x -> nth_error h b = Some y -> Rel x y) locs ->
    StronglySorted Rel (derefs h locs).
  Proof.
    intros V. induction 1 as [|n l SS IH FA]; [constructor|]. unfold derefs. cbn [flat_map].
    destruct (V n (or_introl eq_refl)) as (m & E). rewrite E. cbn [app].
    constructor; [apply IH; intros; apply V; now right|].
    apply Forall_forall. intros y Hy. apply derefs_in in Hy as (k & Hk & Ek).
    rewrite Forall_forall in FA. exact (FA k Hk m y E Ek).
  Qed.
  Lemma derefs_len {A} (h : list A) locs : (forall n, In n locs -> exists m, nth_error h n = Some m) ->
    List.length (derefs h locs) = List.length locs.
  Proof.
    induction locs as [|n l IH]; intros V; [reflexivity|]. unfold derefs. cbn [flat_map].
    destruct (V n (or_introl eq_refl)) as (m & ->). cbn. f_equal. apply IH. intros; apply V; now right.
  Qed.
  Lemma layers_any (fine : T -> Prop) (OR : ordering fine) (s : stT) : reachable s ->
    List.length (mats_of s) = List.length (s_materials (snd s)) /\
    (exists level, Forall (fun m => m_RL m = Some (nsub level (m_depth m)) /\ m_color m <> EmptyString) (mats_of s)) /\
    (fine_depths fine s ->
     StronglySorted (fun a b => nltb (m_depth a) (m_depth b) = true) (mats_of s) /\
     NoDup (s_materials (snd s))).
  Proof.
    intros RS. destruct (reachable_layered fine OR s RS) as [(lv & LS) LO].
    assert (V : forall n, In n (s_materials (snd s)) -> exists m, nth_error (h_materials (fst s)) n = Some m).
    { intros n I. destruct (LS n I) as (m & E & _). eauto. }
    split; [now apply derefs_len|]. split.
    - exists lv. apply Forall_forall. intros m I. apply derefs_in in I as (n & I & E).
      destruct (LS n I) as (m' & E' & P). assert (m' = m) by congruence. now subst m'.
    - intros FD. specialize (LO FD). split.
      + apply derefs_sorted; auto. eapply StronglySorted_ext; [|exact LO].
        intros a b _ _ Q x y Ex Ey. unfold before, depth_of in Q. now rewrite Ex, Ey in Q.
      + assert (F : forall n, In n (s_materials (snd s)) -> fine (depth_of (h_materials (fst s)) n)).
        { intros n I. apply depth_fine; auto. destruct (V n I). apply nth_error_Some. congruence. }
        clear - LO OR F. induction LO as [|n l SS IH FA]; constructor.
        * intros I. rewrite Forall_forall in FA. specialize (FA n I). unfold before in FA.
          rewrite (or_irr _ OR) in FA; [discriminate|]. apply F. now left.
        * apply IH. intros k Hk. apply F. now right.
  Qed.

  (** ** Removing a layer *)
  Lemma remove_depth_eff d x (s : stT) : truthy d = true -> as_num d = Ok x ->
    remove_material None d false s =
    (Ok tt, (fst s, set_s_search [] (set_s_materials
       (match find (fun n => neqb (depth_of (h_materials (fst s)) n) x) (s_materials (snd s)) with
        | Some n => remove_first (same_obj material_eqb (h_materials (fst s)) n) (s_materials (snd s))
        | None => s_materials (snd s) end) (snd s)))).
  Proof.
    intros TR D. unfold remove_material. rewrite bind_ret, bind_when, TR.
    repeat first [rewrite bind_assoc | rewrite bind_heap_get | rewrite bind_self_get].
    unfold num_eqb_val. rewrite D. destruct (find _ _) as [n|].
    - rewrite bind_self_upd, bind_when, reset_eff. reflexivity.
    - rewrite bind_ret, bind_when, reset_eff. destruct s as [h []]; reflexivity.
  Qed.
  Lemma drop_one {A} (p q : A -> bool) l n : In n l -> p n = true -> q n = true -> NoDup l ->
    (forall k, In k l -> p k = true -> k = n) -> (forall k, In k l -> q k = true -> k = n) ->
    remove_first p l = filter (fun k => negb (q k)) l.
  Proof.
    intros I P Q ND UP UQ. induction l as [|y l IH]; [destruct I|]. cbn [remove_first filter].
    inversion ND as [|? ? N1 N2]; subst. destruct I as [ -> |I].
    - rewrite P, Q. cbn [negb].
      assert (forall k, In k l -> q k = false).
      { intros k Hk. destruct (q k) eqn:E; auto. rewrite (UQ k) in Hk; auto; [contradiction|now right]. }
      clear - H. induction l as [|z l IH]; [reflexivity|]. cbn. rewrite H by now left. cbn. f_equal.
      apply IH. intros; apply H; now right.
    - assert (y <> n) by (intros ->; contradiction).
      destruct (p y) eqn:E1; [elim H; apply UP; auto; now left|].
      destruct (q y) eqn:E2; [elim H; apply UQ; auto; now left|]. cbn [negb]. f_equal.
      apply IH; auto; intros; [apply UP|apply UQ]; auto; now right.
  Qed.
  Lemma derefs_keep {A} (h : list A) (p : A -> bool) (q : nat -> bool) locs :
    (forall n a, In n locs -> nth_error h n = Some a -> q n = p a) ->
    derefs h (filter q locs) = filter p (derefs h locs).
  Proof.
    induction locs as [|n l IH]; intros V; [reflexivity|]. cbn [filter].
    destruct (nth_error h n) as [a|] eqn:E.
    - assert (derefs h (n :: l) = a :: derefs h l) as -> by (unfold derefs; cbn; now rewrite E).
      cbn [filter]. rewrite <- (V n a) by (auto; now left). destruct (q n).
      + unfold derefs at 1. cbn [flat_map]. rewrite E. cbn [app]. f_equal. apply IH.
        intros; apply V; auto; now right.
      + apply IH. intros; apply V; auto; now right.
    - assert (derefs h (n :: l) = derefs h l) as -> by (unfold derefs; cbn; now rewrite E).
      destruct (q n).
      + unfold derefs at 1. cbn [flat_map]. rewrite E. cbn [app]. apply IH. intros; apply V; auto; now right.
      + apply IH. intros; apply V; auto; now right.
  Qed.

  Section OrderedRemoval.
    Context (fine : T -> Prop) (OR : ordering fine).
    Lemma layers_distinct (s : stT) n k : reachable s -> fine_depths fine s ->
      In n (s_materials (snd s)) -> In k (s_materials (snd s)) ->
      neqb (depth_of (h_materials (fst s)) n) (depth_of (h_materials (fst s)) k) = true -> n = k.
    Proof.
      intros RS FD. destruct (reachable_layered fine OR s RS) as [(lv & LS) LO]. specialize (LO FD).
      assert (F : forall n, In n (s_materials (snd s)) -> fine (depth_of (h_materials (fst s)) n)).
      { intros i I. apply depth_fine; auto. now apply (layer_set_valid _ _ lv _ LS). }
      clear - LO OR F. induction LO as [|y l SS IH FA]; intros In1 In2 Q; [destruct In1|].
      assert (NE : forall z, In z l ->
        neqb (depth_of (h_materials (fst s)) y) (depth_of (h_materials (fst s)) z) = false).
      { intros z Hz. rewrite Forall_forall in FA. specialize (FA z Hz). unfold before in FA.
        destruct (neqb (depth_of _ y) (depth_of _ z)) eqn:E; auto. exfalso.
        pose proof (or_asym _ OR _ _ (F y (or_introl eq_refl)) (F z (or_intror Hz)) FA) as B1.
        pose proof (or_eqlt _ OR _ _ (F y (or_introl eq_refl)) (F z (or_intror Hz)) E). congruence. }
      destruct In1 as [ <- |I1], In2 as [ <- |I2]; auto.
      - rewrite NE in Q; auto. discriminate.
      - rewrite (or_sym _ OR) in Q; [|apply F; now right|apply F; now left]. rewrite NE in Q; auto. discriminate.
      - apply IH; auto. intros; apply F; now right.
    Qed.
    Lemma material_eqb_depth_any (a b : material T) : material_eqb a b = true -> neqb (m_depth a) (m_depth b) = true.
    Proof. unfold material_eqb. rewrite !andb_true_iff. tauto. Qed.
    Lemma kept_locs (s : stT) x : reachable s -> fine_depths fine s ->
      match find (fun n => neqb (depth_of (h_materials (fst s)) n) x) (s_materials (snd s)) with
      | Some n => remove_first (same_obj material_eqb (h_materials (fst s)) n) (s_materials (snd s))
      | None => s_materials (snd s) end =
      filter (fun n => negb (neqb (depth_of (h_materials (fst s)) n) x)) (s_materials (snd s)).
    Proof.
      intros RS FD. destruct (layers_any fine OR s RS) as (_ & _ & LA). destruct (LA FD) as (_ & ND).
      destruct (reachable_layered fine OR s RS) as [(lv & LS) _].
      assert (F : forall n, In n (s_materials (snd s)) -> fine (depth_of (h_materials (fst s)) n)).
      { intros i I. apply depth_fine; auto. now apply (layer_set_valid _ _ lv _ LS). }
      destruct (find _ _) as [n|] eqn:E.
      - apply find_some in E as (I & E).
        apply (drop_one _ (fun n => neqb (depth_of (h_materials (fst s)) n) x) _ n); auto.
        + unfold same_obj. now rewrite Nat.eqb_refl.
        + intros k Hk Q. unfold same_obj in Q. apply orb_true_iff in Q as [Q|Q].
          * symmetry. now apply Nat.eqb_eq.
          * symmetry. apply (layers_distinct s); auto. unfold depth_of.
            destruct (nth_error (h_materials (fst s)) n), (nth_error (h_materials (fst s)) k); try discriminate.
            now apply material_eqb_depth_any.
        + intros k Hk Q. symmetry. apply (layers_distinct s); auto. eapply (or_eq _ OR); eauto.
      - pose proof (find_none _ _ E) as N. clear - N.
        induction (s_materials (snd s)) as [|y l IH]; [reflexivity|]. cbn [filter].
        rewrite (N y (or_introl eq_refl)). cbn [negb]. f_equal. apply IH. intros; apply N; now right.
    Qed.
    Lemma removed_any (s : stT) d x : reachable s -> fine_depths fine s -> truthy d = true -> as_num d = Ok x ->
      exists s', exec (RemoveMaterial None d false) s = (Ok tt, s') /\ fst s' = fst s /\
        mats_of s' = filter (fun m => negb (neqb (m_depth m) x)) (mats_of s).
    Proof.
      intros RS FD TR D. cbn [exec]. unfold with_refs. rewrite bind_get. cbn [forallb].
      rewrite (remove_depth_eff d x s TR D). eexists. split; [reflexivity|]. split; [reflexivity|].
      unfold mats_of at 1. cbn [fst snd s_materials set_s_search set_s_materials].
      rewrite kept_locs by auto. apply derefs_keep. intros n a _ E. unfold depth_of. now rewrite E.
    Qed.
    Lemma removed_object_any (s : stT) n m : reachable s -> fine_depths fine s ->
      nth_error (h_materials (fst s)) n = Some m -> neqb (m_depth m) (nz 0) = false ->
      exists s', exec (RemoveMaterial (Some (RefMaterial n)) PNone false) s = (Ok tt, s') /\ fst s' = fst s /\
        s_materials (snd s') = filter (fun k => negb (neqb (depth_of (h_materials (fst s)) k) (m_depth m)))
          (s_materials (snd s)).
    Proof.
      intros RS FD E Z. cbn [exec]. unfold with_refs. rewrite bind_get. cbn [forallb ref_exists].
      assert (L : (n < List.length (h_materials (fst s)))%nat) by (apply nth_error_Some; congruence).
      apply Nat.ltb_lt in L. rewrite L. cbn [andb].
      assert (remove_material (Some (RefMaterial n)) PNone false s =
              remove_material None (PFloat (m_depth m)) false s) as ->.
      { unfold remove_material. unfold mbind at 1. unfold mbind at 1. unfold get_material.
        unfold mbind at 1. cbn [mget mlift]. unfold deref. rewrite E. reflexivity. }
      rewrite (remove_depth_eff _ (m_depth m)); [|cbn [truthy]; now rewrite Z|reflexivity].
      eexists. split; [reflexivity|]. split; [reflexivity|].
      cbn [fst snd s_materials set_s_search set_s_materials]. now rewrite kept_locs.
    Qed.
    Lemma insert_first {A} (key : A -> T) x l : Forall (before key x) l -> fine (key x) ->
      (forall y, In y l -> fine (key y)) -> insert (fun a b => nltb (key a) (key b)) x l = x :: l.
    Proof.
      destruct l as [|y l]; intros FA FX FL; [reflexivity|]. cbn [insert].
      rewrite (or_asym _ OR (key x) (key y)); [reflexivity|auto|apply FL; now left|].
      inversion FA; auto.
    Qed.
    Lemma sort_sorted {A} (key : A -> T) l : StronglySorted (before key) l ->
      (forall y, In y l -> fine (key y)) -> sort_by key l = l.
    Proof.
      unfold sort_by. induction 1 as [|x l SS IH FA]; intros FL; [reflexivity|]. cbn [sort].
      rewrite IH by (intros; apply FL; now right). apply insert_first; auto; intros; apply FL; auto; [now left|now right].
    Qed.
    Lemma filter_inserted {A} (lt : A -> A -> bool) (q : A -> bool) x l : q x = true ->
      (forall y, In y l -> q y = false) -> filter (fun k => negb (q k)) (insert lt x l) = l.
    Proof.
      intros QX. induction l as [|y l IH]; intros QL; cbn [insert].
      - cbn. now rewrite QX.
      - destruct (lt y x); cbn [filter].
        + rewrite QL by now left. cbn. f_equal. apply IH. intros; apply QL; now right.
        + rewrite QX. cbn [negb]. rewrite QL by now left. cbn [negb]. f_equal.
          clear - QL. assert (QL' : forall z, In z l -> q z = false) by (intros; apply QL; now right).
          induction l as [|z l IH]; [reflexivity|]. cbn. rewrite QL' by now left. cbn. f_equal.
          apply IH; intros; [apply QL|apply QL']; cbn in *; intuition.
    Qed.
    Lemma undone_any (s s1 : stT) n : reachable s -> fine_depths fine s ->
      exec (SetMaterials [RefMaterial n]) s = (Ok tt, s1) ->
      neqb (depth_of (h_materials (fst s)) n) (nz 0) = false ->
      exists s2, exec (RemoveMaterial (Some (RefMaterial n)) PNone false) s1 = (Ok tt, s2) /\
                 s_materials (snd s2) = s_materials (snd s).
    Proof.
      intros RS FD E Z.
      assert (RS1 : reachable s1).
      { destruct RS as (h & a & l & ops & s0 & E0 & ->). exists h, a, l, (ops ++ [SetMaterials [RefMaterial n]]), s0.
        split; auto. unfold run. rewrite fold_left_app. cbn [fold_left].
        change (s1 = step (run s0 ops) (SetMaterials [RefMaterial n])). unfold step. now rewrite E. }
      cbn [exec] in E. unfold with_refs in E. rewrite bind_get in E.
      destruct (forallb _ _) eqn:FR; [|discriminate].
      destruct (set_materials_split _ _ _ _ E) as [(_ & e & Q)|(news & lv & EN1 & D & E1 & E2 & _)]; [discriminate|].
      cbn [material_locs rbind] in EN1. injection EN1 as <-. cbn [app] in *.
      assert (L : (n < List.length (h_materials (fst s)))%nat).
      { cbn [forallb ref_exists] in FR. apply andb_true_iff in FR as (FR & _). now apply Nat.ltb_lt. }
      assert (DP : forall k, depth_of (h_materials (fst s1)) k = depth_of (h_materials (fst s)) k).
      { intros k. rewrite E2. apply assign_pure_depth. }
      assert (LEN : List.length (h_materials (fst s1)) = List.length (h_materials (fst s))).
      { rewrite E2. apply assign_pure_length. }
      destruct (nth_error (h_materials (fst s1)) n) as [m|] eqn:EM; [|apply nth_error_None in EM; lia].
      assert (DM : m_depth m = depth_of (h_materials (fst s)) n).
      { rewrite <- DP. unfold depth_of. now rewrite EM. }
      assert (FD1 : fine_depths fine s1).
      { intros k I. apply In_nth_error in I as (i & I).
        assert (Q : depth_of (h_materials (fst s1)) i = m_depth k) by (unfold depth_of; now rewrite I).
        rewrite <- Q, DP. apply depth_fine; auto. rewrite <- LEN. apply nth_error_Some. congruence. }
      destruct (removed_object_any s1 n m RS1 FD1 EM) as (s2 & X2 & _ & M2); [now rewrite DM|].
      exists s2. split; [exact X2|]. rewrite M2.
      destruct (reachable_layered fine OR s RS) as [(lv0 & LS) LO]. specialize (LO FD).
      assert (F : forall k, In k (s_materials (snd s)) -> fine (depth_of (h_materials (fst s)) k)).
      { intros i I. apply depth_fine; auto. now apply (layer_set_valid _ _ lv0 _ LS). }
      assert (E1' : s_materials (snd s1) = insert (fun a b => nltb (depth_of (h_materials (fst s)) a)
                (depth_of (h_materials (fst s)) b)) n (s_materials (snd s))).
      { rewrite E1. change (insert (fun a b => nltb (depth_of (h_materials (fst s)) a)
          (depth_of (h_materials (fst s)) b)) n (sort_by (depth_of (h_materials (fst s))) (s_materials (snd s))) =
          insert (fun a b => nltb (depth_of (h_materials (fst s)) a)
                (depth_of (h_materials (fst s)) b)) n (s_materials (snd s))).
        now rewrite sort_sorted. }
      destruct (layers_any fine OR s1 RS1) as (_ & _ & LA). destruct (LA FD1) as (_ & ND).
      assert (IN1 : forall k, In k (s_materials (snd s1)) <-> k = n \/ In k (s_materials (snd s))).
      { intros k. rewrite E1'. apply insert_in. }
      assert (NI : ~ In n (s_materials (snd s))).
      { intros I. assert (P : Permutation (n :: s_materials (snd s)) (s_materials (snd s1))).
        { rewrite E1. apply sort_by_perm. }
        apply Permutation_sym in P. apply (Permutation_NoDup P) in ND. inversion ND. contradiction. }
      rewrite E1'. apply (filter_inserted _ (fun k => neqb (depth_of (h_materials (fst s1)) k) (m_depth m))).
      - rewrite DP, DM. apply (or_refl _ OR). apply depth_fine; auto.
      - intros y Iy. destruct (neqb (depth_of _ y) (m_depth m)) eqn:Q; auto. elim NI.
        assert (y = n) as <-; auto. apply (layers_distinct s1); auto; try (apply IN1; auto).
        rewrite DM, <- (DP n) in Q. exact Q.
    Qed.
  End OrderedRemoval.

  Lemma no_ordering : ordering (fun _ : T => False).
  Proof. constructor; intros; contradiction. Qed.
  Lemma laid_any args (s s' : stT) : reachable s -> exec (SetMaterials args) s = (Ok tt, s') ->
    exists news, material_locs args = Ok news /\ Permutation (news ++ s_materials (snd s)) (s_materials (snd s')) /\
      Forall (fun m => m_RL m = Some (nsub (g_ext_h (s_geom (snd s'))) (m_depth m))) (mats_of s') /\
      (forall n, option_map mat_data (nth_error (h_materials (fst s')) n) =
                 option_map mat_data (nth_error (h_materials (fst s)) n)).
  Proof.
    intros RS E. cbn [exec] in E. unfold with_refs in E. rewrite bind_get in E.
    destruct (forallb _ _) eqn:FR; [|discriminate].
    destruct (set_materials_split _ _ _ _ E) as [(_ & e & Q)|(news & lv & EN1 & D & E1 & E2 & E3)]; [discriminate|].
    assert (P : Permutation (news ++ s_materials (snd s)) (s_materials (snd s'))).
    { rewrite E1. apply sort_by_perm. }
    exists news. split; auto. split; auto. split.
    - rewrite <- E3. apply Forall_forall. intros m I. apply derefs_in in I as (n & I & Em).
      pose proof (material_locs_valid _ _ _ EN1 FR) as V.
      destruct (reachable_layered _ no_ordering s RS) as [(lv0 & LS) _].
      assert (L : (n < List.length (h_materials (fst s)))%nat).
      { apply (Permutation_in _ (Permutation_sym P)) in I. apply in_app_or in I as [I|I]; auto.
        now apply (layer_set_valid _ _ lv0 _ LS). }
      rewrite E1 in I. rewrite E2 in Em.
      destruct (assign_in lv _ 0 (h_materials (fst s)) n I L) as (m' & Em' & P' & _). congruence.
    - intros n. rewrite E2. apply assign_pure_data.
  Qed.
End LoadAny.

(** ** The two instances *)
Lemma real_ordering : @ordering R RNum (fun _ => True).
Proof.
  constructor; cbn [nltb neqb RNum]; intros.
  - apply Rltb_false. lra.
  - rbool. apply Rltb_false. lra.
  - rbool. apply Rltb_true. lra.
  - rbool. apply Rltb_false. lra.
  - rbool. apply Reqb_true. lra.
  - apply Reqb_true. reflexivity.
  - rbool. apply Rltb_false. lra.
  - destruct (Reqb x y) eqn:E; rbool; symmetry; [apply Reqb_true|apply Reqb_false]; lra.
Qed.
Lemma eqb_rank x y : numeric x -> numeric y -> (SFeqb x y = true <-> rank x = rank y).
Proof.
  unfold numeric, SFeqb. intros NX NY.
  destruct x as [sx|[]| |[] mx ex]; try congruence; destruct y as [sy|[]| |[] my ey]; try congruence;
    cbn [SFcompare rank]; try (split; [discriminate|discriminate]); try tauto.
  - destruct (Z.compare_spec ex ey); try (split; [discriminate|intros Q; injection Q; intros; lia]).
    change (Pcompare mx my Eq) with (mx ?= my)%positive.
    destruct (Pos.compare_spec mx my); cbn [CompOpp];
      (split; [try discriminate; congruence|intros Q; injection Q; intros; try reflexivity; lia]).
  - destruct (Z.compare_spec ex ey); try (split; [discriminate|intros Q; injection Q; intros; lia]).
    change (Pcompare mx my Eq) with (mx ?= my)%positive.
    destruct (Pos.compare_spec mx my);
      (split; [try discriminate; congruence|intros Q; injection Q; intros; try reflexivity; lia]).
Qed.
Lemma eqb_numeric x y : SFeqb x y = true -> numeric x /\ numeric y.
Proof. unfold numeric. destruct x as [| | |[]], y as [| | |[]]; cbn; split; congruence. Qed.
Lemma ltb_false_rank x y : numeric x -> numeric y -> (SFltb x y = false <-> ~ lower (rank x) (rank y)).
Proof. intros A B. rewrite <- ltb_rank by auto. destruct (SFltb x y); intuition congruence. Qed.
Lemma float_ordering : @ordering float FNum numeric.
Proof.
  constructor; cbn [nltb neqb FNum]; intros.
  - apply ltb_false_rank; auto. unfold lower. lia.
  - rewrite ltb_false_rank in * by auto. unfold lower in *. lia.
  - rewrite ltb_false_rank in * by auto. apply ltb_rank; auto.
    assert (N : rank x <> rank y) by (intros Q; apply eqb_rank in Q; auto; congruence).
    destruct (rank x) as [[x1 x2] x3], (rank y) as [[y1 y2] y3]. unfold lower in *. cbn in *.
    assert (~ (x1 = y1 /\ x2 = y2 /\ x3 = y3)%Z) by (intros (-> & -> & ->); auto). lia.
  - rewrite ltb_false_rank by auto. rewrite ltb_rank in * by auto. unfold lower in *. lia.
  - destruct (eqb_numeric _ _ H1). rewrite eqb_rank in * by auto. congruence.
  - apply eqb_rank; auto.
  - rewrite ltb_false_rank by auto. rewrite eqb_rank in * by auto. rewrite H1. unfold lower. lia.
  - destruct (SFeqb x y) eqn:E, (SFeqb y x) eqn:E'; auto;
      [apply eqb_rank in E; auto; symmetry in E; apply eqb_rank in E; auto; congruence
      |apply eqb_rank in E'; auto; symmetry in E'; apply eqb_rank in E'; auto; congruence].
Qed.

Lemma water_level_float {EN : Env} (s : st float) rl : reachable s ->
  s_water_RL (snd s) = Some rl -> SFleb (S754_zero false) rl = true.
Proof.
  intros RS E. destruct (lo_water _ (reachable_loaded s RS) rl E) as (y & ->).
  unfold pymax. destruct (nltb (nz 0) y) eqn:L; [|reflexivity].
  change (SFltb (S754_zero false) y = true) in L.
  change (SFleb (S754_zero false) y = true). destruct y as [b|b| |b m e]; try destruct b; try discriminate; reflexivity.
Qed.

Section FloatLayers.
  Context {EN : Env}.
  Definition float_layers : st float :=
    run (start (fl 3 1) PNone (fl 4 1))
      [NewMaterial (fl 20 1) (fl 35 1) (fl 2 1) (fl 3 1) (PStr "") (PStr "");
       NewMaterial (fl 18 1) (fl 30 1) (fl 0 1) (fl 1 2) (PStr "") (PStr "");
       SetMaterials [RefMaterial 0];
       NewUdl (fl 100 1) (fl 2 1) (fl 1 1) "" false; SetUdls [RefUdl 0];
       NewLload (fl 5 1) (fl 1 1) "" false; SetLls [RefLload 0]; SetWater (fl 4 1)].
  Definition float_nan : st float :=
    run (start (fl 3 1) PNone (fl 4 1))
      [NewMaterial (fl 20 1) (fl 35 1) (fl 2 1) (PFloat S754_nan) (PStr "") (PStr "");
       SetMaterials [RefMaterial 0]].
End FloatLayers.
Definition not_nan (x : float) : bool := match x with S754_nan => false | _ => true end.
Definition is_done {A} (r : res A) : bool := match r with Ok _ => true | Err _ => false end.
Definition layers_checked (s s1 : st float) : bool :=
  forallb (fun m => not_nan (m_depth m)) (h_materials (fst s)) &&
  Nat.eqb (List.length (mats_of s1)) 2 &&
  negb (SFeqb (depth_of (h_materials (fst s)) 1) (S754_zero false)) &&
  Nat.eqb (List.length (s_udls (snd s1))) 1 && Nat.eqb (List.length (s_lls (snd s1))) 1 &&
  (match s_water_RL (snd s1) with Some _ => true | None => false end).
Lemma checked_layers (EN : Env) (s : st float) : reachable s ->
  is_done (fst (exec (SetMaterials [RefMaterial 1]) s)) = true ->
  layers_checked s (snd (exec (SetMaterials [RefMaterial 1]) s)) = true -> exists s1,
  reachable s /\ (forall m, In m (h_materials (fst s)) -> m_depth m <> S754_nan) /\
  exec (SetMaterials [RefMaterial 1]) s = (Ok tt, s1) /\ reachable s1 /\
  List.length (mats_of s1) = 2%nat /\
  SFeqb (depth_of (h_materials (fst s)) 1) (S754_zero false) = false /\
  s_udls (snd s1) <> [] /\ s_lls (snd s1) <> [] /\ s_water_RL (snd s1) <> None.
Proof.
  intros RS D C. pose proof (reachable_more s [SetMaterials [RefMaterial 1]] RS) as RS1.
  cbn [run fold_left] in RS1. unfold step in RS1.
  destruct (exec (SetMaterials [RefMaterial 1]) s) as [[[]|e] s1]; [|discriminate D]. cbn [snd] in *.
  exists s1. unfold layers_checked in C. rewrite !andb_true_iff in C.
  destruct C as (((((C1 & C2) & C3) & C4) & C5) & C6).
  split; [exact RS|]. split.
  { intros m I E. rewrite forallb_forall in C1. specialize (C1 m I). rewrite E in C1. discriminate C1. }
  split; [reflexivity|]. split; [exact RS1|].
  split; [now apply Nat.eqb_eq|]. split; [now apply negb_true_iff|].
  split; [intros E; rewrite E in C4; discriminate C4|].
  split; [intros E; rewrite E in C5; discriminate C5|].
  intros E; rewrite E in C6; discriminate C6.
Qed.
Lemma layered_float_demo : exists (EN : Env) (s s1 : st float),
  reachable s /\ (forall m, In m (h_materials (fst s)) -> m_depth m <> S754_nan) /\
  exec (SetMaterials [RefMaterial 1]) s = (Ok tt, s1) /\ reachable s1 /\
  List.length (mats_of s1) = 2%nat /\
  SFeqb (depth_of (h_materials (fst s)) 1) (S754_zero false) = false /\
  s_udls (snd s1) <> [] /\ s_lls (snd s1) <> [] /\ s_water_RL (snd s1) <> None.
Proof.
  exists plainEnv, (@float_layers plainEnv). apply checked_layers.
  - unfold float_layers. apply (reachable_run (fl 3 1) PNone (fl 4 1)). apply start_ok.
    eexists. vm_compute. reflexivity.
  - vm_compute. reflexivity.
  - vm_compute. reflexivity.
Qed.
Lemma nan_layer : exists (EN : Env) (s : st float) m, reachable s /\
  mats_of s = [m] /\ m_depth m = S754_nan /\ m_RL m = Some S754_nan /\ m_color m <> EmptyString.
Proof.
  exists plainEnv, (@float_nan plainEnv). eexists. split.
  - unfold float_nan. apply (reachable_run (fl 3 1) PNone (fl 4 1)). apply start_ok.
    eexists. vm_compute. reflexivity.
  - split; [vm_compute; reflexivity|]. split; [vm_compute; reflexivity|].
    split; [vm_compute; reflexivity|]. vm_compute. discriminate.
Qed.
