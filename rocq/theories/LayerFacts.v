(** * LayerFacts: the list of layers (C13-C17). *)
From Coq Require Import ZArith Reals Lra Lia List Bool String Permutation Sorted.
From Verif Require Import Num Py Validation Utilities Objects Slope Planes Analysis
     Dynamic Api RealNum RealFacts ListFacts MonadFacts SlopeFacts MaterialFacts Invariant
     History Spec EditFacts.
Import ListNotations.
Local Open Scope R_scope.

Section Layers.
  Context {EN : Env}.
  Notation stR := (st R).

  Definition valid_in {A} (h : list A) (locs : list nat) : Prop :=
    Forall (fun n => (n < List.length h)%nat) locs.

  Lemma derefs_map_depth (h : list (material R)) locs :
    valid_in h locs -> map (depth_of h) locs = map m_depth (derefs h locs).
  Proof.
    induction 1 as [|n locs Hn H IH]; cbn; auto.
    destruct (nth_error_lt_Some _ _ Hn) as [m E]. unfold depth_of at 1. rewrite E.
    cbn. now rewrite IH.
  Qed.
  Lemma core_valid_mats (s : stR) : Core s -> valid_in (h_materials (fst s)) (s_materials (snd s)).
  Proof.
    intros C. apply Forall_forall. intros n Hn.
    destruct (c_mat_set _ C n Hn) as (m & E & _). apply nth_error_Some. congruence.
  Qed.

  (** ** C13 *)
  Lemma sorted_map {A B} (f : A -> B) (R1 : A -> A -> Prop) (R2 : B -> B -> Prop) l :
    (forall a b, R1 a b -> R2 (f a) (f b)) ->
    StronglySorted R1 l -> StronglySorted R2 (map f l).
  Proof.
    intros H. induction 1 as [|x l S IH Hx]; cbn; constructor; auto.
    apply Forall_map. eapply Forall_impl; [|exact Hx]. auto.
  Qed.
  Lemma sorted_unmap {A B} (f : A -> B) (R2 : B -> B -> Prop) l :
    StronglySorted R2 (map f l) -> StronglySorted (fun a b => R2 (f a) (f b)) l.
  Proof.
    induction l as [|x l IH]; cbn; intros H; constructor; inversion H; subst; auto.
    now apply Forall_map.
  Qed.
  Lemma layers_sorted (s : stR) :
    reachable s ->
    StronglySorted (fun a b => m_depth a < m_depth b) (mats_of s) /\
    NoDup (s_materials (snd s)) /\
    List.length (mats_of s) = List.length (s_materials (snd s)) /\
    Forall (fun m => 0 <= m_depth m /\ m_RL m <> None /\ m_color m <> EmptyString) (mats_of s).
  Proof.
    intros Hr. destruct (reachable_inv s Hr) as (C & _ & _).
    pose proof (core_valid_mats s C) as V. pose proof (c_mat_sorted _ C) as S.
    split; [|split; [|split]].
    - apply (sorted_unmap m_depth Rlt). unfold mats_of. rewrite <- derefs_map_depth by auto.
      eapply sorted_map; [|exact S]. auto.
    - eapply NoDup_map_inv. eapply strictly_sorted_nodup. exact S.
    - apply derefs_length. exact V.
    - apply Forall_forall. intros m Hm. apply in_derefs in Hm.
      destruct Hm as (n & Hn & E). destruct (c_mat_set _ C n Hn) as (m' & E' & P).
      assert (m' = m) by congruence. subst m'. split; [|exact P].
      pose proof (c_mats _ C) as F. rewrite Forall_forall in F.
      apply (F m). eapply nth_error_In; eauto.
  Qed.

  (** ** C14 *)
  Lemma material_locs_perm a b : Permutation a b ->
    match material_locs a, material_locs b with
    | Ok x, Ok y => Permutation x y
    | Err e, Err e' => e = ValueError /\ e' = ValueError
    | _, _ => False
    end.
  Proof.
    assert (Er : forall l e, material_locs l = Err e -> e = ValueError).
    { induction l as [|[n|n|n|] l IH]; cbn; try congruence.
      intros e. destruct (material_locs l); cbn; try discriminate.
      intros Q. injection Q as <-. auto. }
    induction 1 as [|r a b P IH|r r' a|a b c P1 IH1 P2 IH2].
    - cbn. constructor.
    - destruct r as [n|n|n|]; cbn; auto.
      destruct (material_locs a) eqn:E1, (material_locs b) eqn:E2; cbn; auto.
    - destruct r as [n|n|n|], r' as [k|k|k|]; cbn; auto;
        destruct (material_locs a) eqn:E; cbn; auto; try (split; eauto);
        try (now apply perm_swap).
    - destruct (material_locs a) eqn:E1, (material_locs b) eqn:E2, (material_locs c) eqn:E3;
        try contradiction; try tauto. eapply Permutation_trans; eauto.
  Qed.
  Lemma sorted_reals_unique (l1 l2 : list R) :
    Permutation l1 l2 -> StronglySorted Rle l1 -> StronglySorted Rle l2 -> l1 = l2.
  Proof.
    intros P S1 S2. apply (sorted_unique (fun x => x)); auto.
  Qed.
  Lemma sorted_locs_depths_perm (s : stR) a b :
    Permutation a b ->
    map (depth_of (h_materials (fst s))) (sorted_locs s a) =
    map (depth_of (h_materials (fst s))) (sorted_locs s b).
  Proof.
    intros P. apply sorted_reals_unique.
    - apply Permutation_map. unfold sorted_locs.
      rewrite <- !sort_by_perm. now apply Permutation_app_tail.
    - eapply sorted_map; [|apply sort_by_sorted]. auto.
    - eapply sorted_map; [|apply sort_by_sorted]. auto.
  Qed.
  Lemma nodup_map_inj {A B} (f : A -> B) l x y :
    NoDup (map f l) -> In x l -> In y l -> f x = f y -> x = y.
  Proof.
    induction l as [|z l IH]; cbn; [contradiction|]. intros N Hx Hy E.
    inversion N as [|? ? N1 N2]; subst.
    destruct Hx as [->|Hx], Hy as [->|Hy]; auto.
    - exfalso. apply N1. rewrite E. now apply in_map.
    - exfalso. apply N1. rewrite <- E. now apply in_map.
  Qed.
  Lemma sorted_locs_unique (s : stR) l1 l2 :
    Permutation l1 l2 -> NoDup (map (depth_of (h_materials (fst s))) l1) ->
    sort_by (depth_of (h_materials (fst s))) l1 = sort_by (depth_of (h_materials (fst s))) l2.
  Proof.
    intros P N. apply (sorted_unique (depth_of (h_materials (fst s)))).
    - now rewrite <- !sort_by_perm.
    - intros x y Hx Hy.
      apply (Permutation_in _ (Permutation_sym (sort_by_perm _ _))) in Hx, Hy.
      now apply nodup_map_inj with (l := l1).
    - apply sort_by_sorted.
    - apply sort_by_sorted.
  Qed.

  Lemma forallb_perm {A} (p : A -> bool) a b : Permutation a b -> forallb p a = forallb p b.
  Proof.
    induction 1; cbn; auto; try congruence.
    destruct (p x), (p y); reflexivity.
  Qed.
  Lemma set_materials_perm (s : stR) a b :
    reachable s -> Permutation a b -> exec (SetMaterials a) s = exec (SetMaterials b) s.
  Proof.
    intros Hr P. destruct (reachable_inv s Hr) as (C & _ & _). cbn [exec].
    unfold with_refs. rewrite !bind_get. rewrite (forallb_perm _ _ _ P).
    destruct (forallb _ b); [|reflexivity].
    rewrite !set_materials_eff by auto.
    pose proof (material_locs_perm a b P) as ML.
    destruct (material_locs a) as [x|], (material_locs b) as [y|]; try contradiction;
      [|destruct ML; congruence].
    rewrite (sorted_locs_depths_perm s x y ML).
    destruct (rev _) as [|d ds]; auto.
    destruct (has_dup _) eqn:D; auto.
    apply has_dup_false in D.
    assert (sorted_locs s x = sorted_locs s y) as ->; [|reflexivity]. unfold sorted_locs.
    apply sorted_locs_unique; [now apply Permutation_app_tail|].
    rewrite <- (sorted_locs_depths_perm s x y ML) in D.
    eapply Permutation_NoDup; [|exact D]. apply Permutation_map.
    apply Permutation_sym, sort_by_perm.
  Qed.

  (** splitting *)
  Lemma material_locs_app a : forall b,
    material_locs (a ++ b) =
    let! x := material_locs a in let! y := material_locs b in Ok (x ++ y).
  Proof.
    induction a as [|[n|n|n|] a IH]; intros b; cbn; auto.
    - destruct (material_locs b); reflexivity.
    - rewrite IH. destruct (material_locs a); cbn; auto.
      destruct (material_locs b); reflexivity.
  Qed.
  Lemma last_max (l : list R) d ds :
    StronglySorted Rle l -> rev l = d :: ds -> In d l /\ forall x, In x l -> x <= d.
  Proof.
    intros S E. assert (L : l = rev ds ++ [d]).
    { rewrite <- (rev_involutive l), E. reflexivity. }
    subst l. split; [apply in_app_iff; right; now left|].
    intros x Hx. apply in_app_iff in Hx. destruct Hx as [Hx|[->|[]]]; [|lra].
    clear E. induction (rev ds) as [|z zs IH]; [contradiction|].
    cbn in S. inversion S as [|? ? S' F]; subst. destruct Hx as [->|Hx]; auto.
    rewrite Forall_forall in F. apply F. apply in_app_iff. right; now left.
  Qed.

  Lemma core_ext_h (s : stR) : Core s ->
    exists mh, 0 < mh /\
      g_ext_h (s_geom (snd s)) =
        Rmax (Rmax (3 * g_height (s_geom (snd s))) mh) (5 * g_length (s_geom (snd s)) / 2) /\
      s_geom (snd s) = geom_of (g_height (s_geom (snd s))) (g_length (s_geom (snd s)))
                               mh (s_min_ext_l (snd s)).
  Proof.
    intros C. destruct (c_geom _ C) as (mh & P & E). exists mh. split; auto. split; auto.
    rewrite E at 1. reflexivity.
  Qed.
  Lemma deepened_ext_h (s : stR) d : Core s ->
    g_ext_h (s_geom (snd (deepened d s))) = Rmax (g_ext_h (s_geom (snd s))) d /\
    g_height (s_geom (snd (deepened d s))) = g_height (s_geom (snd s)) /\
    g_length (s_geom (snd (deepened d s))) = g_length (s_geom (snd s)) /\
    s_min_ext_l (snd (deepened d s)) = s_min_ext_l (snd s).
  Proof.
    intros C. destruct (core_ext_h s C) as (mh & P & E & _). unfold deepened.
    destruct (Rltb (g_ext_h (s_geom (snd s))) d) eqn:L; rbool.
    - cbn. repeat split; auto. rewrite E in *. rminmax; lra.
    - repeat split; auto. rewrite Rmax_left; lra.
  Qed.

  (** deepening in two steps *)
  Lemma deepened_twice (s : stR) d1 d mats :
    Core s -> d1 <= d ->
    deepened d (layered (deepened d1 s) mats) =
    (MkHeap (assign_pure (Rmax (g_ext_h (s_geom (snd s))) d1) 0 mats
                         (h_materials (fst s)))
            (h_udls (fst (deepened d s))) (h_lls (fst (deepened d s))),
     set_s_search [] (set_s_materials mats (snd (deepened d s)))).
  Proof.
    intros C Hd. destruct (deepened_ext_h s d1 C) as (E1 & E2 & E3 & E4).
    unfold deepened at 1.
    change (g_ext_h (s_geom (snd (layered (deepened d1 s) mats)))) with
      (g_ext_h (s_geom (snd (deepened d1 s)))).
    change (g_height (s_geom (snd (layered (deepened d1 s) mats)))) with
      (g_height (s_geom (snd (deepened d1 s)))).
    change (g_length (s_geom (snd (layered (deepened d1 s) mats)))) with
      (g_length (s_geom (snd (deepened d1 s)))).
    change (s_min_ext_l (snd (layered (deepened d1 s) mats))) with
      (s_min_ext_l (snd (deepened d1 s))).
    rewrite E1, E2, E3, E4.
    set (eh := g_ext_h (s_geom (snd s))) in *.
    destruct (Rltb (Rmax eh d1) d) eqn:L; rbool.
    - assert (eh < d) by (revert L; rminmax; lra).
      assert (D : deepened d s =
        rebuilt (geom_of (g_height (s_geom (snd s))) (g_length (s_geom (snd s))) d
                         (s_min_ext_l (snd s))) (fst s, set_s_min_ext_h d (snd s))).
      { unfold deepened. fold eh. now rewrite (proj2 (Rltb_true eh d)). }
      rewrite D. unfold layered. rewrite E1. fold eh.
      unfold rebuilt. cbn -[upd_all assign_pure Rmax geom_of].
      unfold deepened. fold eh. destruct (Rltb eh d1) eqn:L1; [|reflexivity].
      cbn -[upd_all assign_pure Rmax geom_of]. f_equal. f_equal.
      + apply upd_all_idem. intros; apply udl_coords_idem.
      + apply upd_all_idem. intros; apply ll_coords_idem.
    - assert (deepened d s = deepened d1 s) as ->.
      { unfold deepened. fold eh.
        destruct (Rltb eh d) eqn:L1, (Rltb eh d1) eqn:L2; rbool; auto.
        - assert (d1 = d) by (revert L; rminmax; lra). now subst.
        - exfalso. revert L; rminmax; lra.
        - exfalso. revert L; rminmax; lra. }
      unfold layered. rewrite E1. fold eh. destruct (deepened_mats d1 s) as [-> _].
      reflexivity.
  Qed.

  Lemma assign_pure_overwrite eh eh' i mats1 mats (h : list (material R)) :
    NoDup mats -> incl mats1 mats ->
    assign_pure eh 0 mats (assign_pure eh' i mats1 h) = assign_pure eh 0 mats h.
  Proof.
    intros N I. apply nth_error_ext_eq. intros n.
    destruct (in_dec Nat.eq_dec n mats) as [Hn|Hn].
    - destruct (In_nth_error _ _ Hn) as [k Hk].
      rewrite !(assign_pure_in _ _ _ _ k n N Hk).
      assert (G : forall m1 j h0, option_map (assigned eh (0 + k)) (nth_error (assign_pure eh' j m1 h0) n)
                  = option_map (assigned eh (0 + k)) (nth_error h0 n)).
      { clear. induction m1 as [|x m1 IH]; intros j h0; cbn [assign_pure]; auto.
        rewrite IH, nth_error_upd_nth. destruct (Nat.eqb x n); auto.
        destruct (nth_error h0 n); reflexivity. }
      apply G.
    - rewrite !assign_pure_notin; auto.
  Qed.

  Lemma with_refs_ok l (m : M stR unit) s s' :
    with_refs l m s = (Ok tt, s') -> refs_ok s l /\ m s = (Ok tt, s').
  Proof.
    unfold with_refs. rewrite bind_get. destruct (forallb _ l) eqn:E; [|discriminate].
    intros Q. split; auto. apply Forall_forall. intros x Hx.
    exact (proj1 (forallb_forall _ _) E x Hx).
  Qed.
  Lemma with_refs_intro l (m : M stR unit) s :
    refs_ok s l -> with_refs l m s = m s.
  Proof.
    intros H. unfold with_refs. rewrite bind_get.
    rewrite (proj2 (forallb_forall _ l)); auto. intros x Hx.
    unfold refs_ok in H. rewrite Forall_forall in H. auto.
  Qed.

  Lemma sorted_locs_sorted (s : stR) x :
    StronglySorted Rle (map (depth_of (h_materials (fst s))) (sorted_locs s x)).
  Proof. eapply sorted_map; [|apply sort_by_sorted]. auto. Qed.

  Lemma set_materials_split (s s' : stR) a b :
    Inv s -> a <> [] ->
    exec (SetMaterials (a ++ b)) s = (Ok tt, s') ->
    exists s1, exec (SetMaterials a) s = (Ok tt, s1) /\ Inv s1 /\
               exec (SetMaterials b) s1 = (Ok tt, s').
  Proof.
    intros I Ha E. pose proof I as (C & _ & _). cbn [exec] in E.
    apply with_refs_ok in E. destruct E as [HR E].
    assert (HRa : refs_ok s a) by (apply Forall_app in HR; tauto).
    assert (HRb : refs_ok s b) by (apply Forall_app in HR; tauto).
    rewrite set_materials_eff in E by auto. rewrite material_locs_app in E.
    destruct (material_locs a) as [x|] eqn:Ea; cbn [rbind] in E; [|discriminate].
    destruct (material_locs b) as [y|] eqn:Eb; cbn [rbind] in E; [|discriminate].
    set (h := h_materials (fst s)) in *.
    destruct (rev (map (depth_of h) (sorted_locs s (x ++ y)))) as [|d ds] eqn:Er; [discriminate|].
    destruct (has_dup _) eqn:D; [discriminate|].
    apply has_dup_false in D. injection E as <-.
    (* the first call *)
    assert (Px : Permutation (sorted_locs s (x ++ y)) (y ++ sorted_locs s x)).
    { unfold sorted_locs. rewrite <- !sort_by_perm. rewrite <- app_assoc.
      rewrite (Permutation_app_swap_app x y). reflexivity. }
    assert (Nall : NoDup (map (depth_of h) (y ++ sorted_locs s x))).
    { eapply Permutation_NoDup; [|exact D]. now apply Permutation_map. }
    assert (Nx : NoDup (map (depth_of h) (sorted_locs s x))).
    { rewrite map_app in Nall. revert Nall. generalize (map (depth_of h) y).
      induction l as [|z l IHl]; cbn; auto. intros Q. apply IHl. now inversion Q. }
    assert (Nex : sorted_locs s x <> []).
    { intros Q. destruct a as [|r a]; [contradiction|]. cbn in Ea.
      destruct r; try discriminate. destruct (material_locs a); try discriminate.
      injection Ea as <-.
      assert (In l (sorted_locs s (l :: a0))).
      { unfold sorted_locs. eapply Permutation_in; [apply sort_by_perm|]. now left. }
      rewrite Q in H. exact H. }
    destruct (rev (map (depth_of h) (sorted_locs s x))) as [|d1 ds1] eqn:Er1.
    { exfalso. apply Nex. apply (f_equal (@rev R)) in Er1. rewrite rev_involutive in Er1.
      cbn in Er1. now apply map_eq_nil in Er1. }
    destruct (last_max _ _ _ (sorted_locs_sorted s (x ++ y)) Er) as [Hd Md].
    destruct (last_max _ _ _ (sorted_locs_sorted s x) Er1) as [Hd1 Md1].
    assert (d1 <= d).
    { apply Md. eapply Permutation_in; [apply Permutation_map, Permutation_sym, Px|].
      rewrite map_app. apply in_app_iff. now right. }
    set (s1 := layered (deepened d1 s) (sorted_locs s x)).
    assert (E1 : exec (SetMaterials a) s = (Ok tt, s1)).
    { cbn [exec]. rewrite with_refs_intro by auto. rewrite set_materials_eff by auto.
      rewrite Ea. fold h. rewrite Er1. rewrite (proj2 (has_dup_false _) Nx). reflexivity. }
    assert (I1 : Inv s1).
    { pose proof (exec_inv (SetMaterials a) s I) as Q. now rewrite E1 in Q. }
    exists s1. split; auto. split; auto.
    (* the second call *)
    assert (H1 : forall n, depth_of (h_materials (fst s1)) n = depth_of h n).
    { intros n. unfold s1, layered. cbn [fst h_materials].
      destruct (deepened_mats d1 s) as [-> _]. apply assign_pure_depth. }
    assert (HRb1 : refs_ok s1 b).
    { eapply refs_ok_le; [|exact HRb]. unfold s1, layered, heap_le; cbn [fst h_materials h_udls h_lls].
      rewrite assign_pure_length. destruct (deepened_mats d1 s) as [-> _].
      unfold deepened. destruct (Rltb _ _); cbn -[upd_all]; rewrite ?upd_all_length; lia. }
    cbn [exec]. rewrite with_refs_intro by auto. destruct I1 as (C1 & _ & _).
    rewrite set_materials_eff by auto. rewrite Eb.
    assert (Qs : sorted_locs s1 y = sorted_locs s (x ++ y)).
    { unfold sorted_locs at 1. cbn [s1 layered snd s_materials set_s_search set_s_materials].
      transitivity (sort_by (depth_of h) (y ++ sorted_locs s x)).
      { apply (sorted_unique (depth_of h)).
        - now rewrite <- !sort_by_perm.
        - intros n m Hn Hm.
          apply (Permutation_in _ (Permutation_sym (sort_by_perm _ _))) in Hn, Hm.
          exact (nodup_map_inj (depth_of h) _ n m Nall Hn Hm).
        - eapply StronglySorted_ext; [|apply sort_by_sorted].
          unfold key_le. intros n m _ _. rewrite !H1. auto.
        - apply sort_by_sorted. }
      unfold sorted_locs at 2. apply sorted_locs_unique; auto.
      rewrite <- Px. unfold sorted_locs. now rewrite <- sort_by_perm. }
    rewrite Qs.
    assert (Qm : map (depth_of (h_materials (fst s1))) (sorted_locs s (x ++ y)) =
                 map (depth_of h) (sorted_locs s (x ++ y))) by (apply map_ext; auto).
    rewrite Qm, Er, (proj2 (has_dup_false _) D). f_equal.
    unfold s1. unfold layered at 1. rewrite deepened_twice by auto.
    unfold layered. cbn [fst snd h_materials h_udls h_lls s_geom set_s_search set_s_materials].
    rewrite assign_pure_overwrite.
    - destruct (deepened_mats d s) as [-> _]. reflexivity.
    - eapply NoDup_map_inv; eauto.
    - intros n Hn. eapply Permutation_in; [apply Permutation_sym, Px|].
      apply in_app_iff. now right.
  Qed.

  Lemma set_materials_chunks chunks : forall (s s' : stR),
    Inv s -> chunks <> [] -> Forall (fun c => c <> []) chunks ->
    exec (SetMaterials (List.concat chunks)) s = (Ok tt, s') ->
    accepted s (map SetMaterials chunks) s'.
  Proof.
    induction chunks as [|c cs IH]; intros s s' I Hne F E; [contradiction|].
    inversion F as [|? ? Hc F']; subst. destruct cs as [|c' cs].
    - cbn [List.concat] in E. rewrite app_nil_r in E. cbn [map]. econstructor; [exact E|constructor].
    - cbn [List.concat map] in *. destruct (set_materials_split s s' c _ I Hc E) as (s1 & E1 & I1 & E2).
      econstructor; [exact E1|]. apply IH; auto. discriminate.
  Qed.

  (** ** C15 *)
  Lemma elevations_after_set (s s' : stR) args :
    reachable s -> exec (SetMaterials args) s = (Ok tt, s') ->
    Forall (fun m => m_RL m = Some (g_ext_h (s_geom (snd s')) - m_depth m) /\
                     m_depth m <= g_ext_h (s_geom (snd s'))) (mats_of s').
  Proof.
    intros Hr E. pose proof (reachable_inv s Hr) as I. pose proof I as (C & _ & _).
    pose proof (exec_inv (SetMaterials args) s I) as I'. rewrite E in I'. cbn [snd] in I'.
    destruct I' as (C' & _ & _).
    cbn [exec] in E. apply with_refs_ok in E. destruct E as [HR E].
    rewrite set_materials_eff in E by auto.
    destruct (material_locs args) as [news|] eqn:Em; [|discriminate].
    destruct (rev _) as [|d ds] eqn:Er; [discriminate|].
    destruct (has_dup _) eqn:D; [discriminate|]. injection E as <-.
    apply has_dup_false in D.
    destruct (last_max _ _ _ (sorted_locs_sorted s news) Er) as [Hd Md].
    apply Forall_forall. intros m Hm. unfold mats_of in Hm. apply in_derefs in Hm.
    destruct Hm as (n & Hn & Q). cbn [layered fst snd h_materials s_materials set_s_search
      set_s_materials] in *.
    destruct (In_nth_error _ _ Hn) as [k Hk].
    rewrite (assign_pure_in _ _ _ _ k n (NoDup_map_inv _ _ D) Hk) in Q.
    destruct (deepened_mats d s) as [Q1 _]. rewrite Q1 in Q.
    destruct (nth_error (h_materials (fst s)) n) as [m0|] eqn:E0; [|discriminate].
    cbn in Q. injection Q as <-. cbn [m_RL m_depth assigned set_RL_color]. split; [reflexivity|].
    cbn [s_geom layered snd set_s_search set_s_materials].
    destruct (deepened_ext_h s d C) as (-> & _).
    assert (m_depth m0 <= d).
    { apply Md. apply in_map_iff. exists n. split; auto. unfold depth_of. now rewrite E0. }
    rminmax; lra.
  Qed.

  (** ** C16 *)
  Lemma same_depth_eq (s : stR) a b :
    Core s -> In a (s_materials (snd s)) -> In b (s_materials (snd s)) ->
    depth_of (h_materials (fst s)) a = depth_of (h_materials (fst s)) b -> a = b.
  Proof.
    intros C Ha Hb E. pose proof (strictly_sorted_nodup _ _ (c_mat_sorted _ C)) as N.
    eapply nodup_map_inj; eauto.
  Qed.
  Lemma remove_first_filter {A} (p : A -> bool) l :
    (forall a b, In a l -> In b l -> p a = true -> p b = true -> a = b) -> NoDup l ->
    remove_first p l = filter (fun x => negb (p x)) l.
  Proof.
    induction l as [|a l IH]; intros H N; cbn; auto.
    inversion N as [|? ? Na N']; subst.
    destruct (p a) eqn:E; cbn.
    - assert (F : forall x, In x l -> p x = false).
      { intros x Hx. destruct (p x) eqn:Ex; auto. exfalso. apply Na.
        rewrite (H a x); auto; [now left | now right]. }
      clear - F. induction l as [|x l IH]; cbn; auto.
      rewrite F by (now left). cbn. f_equal. apply IH. intros; apply F; now right.
    - f_equal. apply IH; auto. intros; apply H; auto; now right.
  Qed.
  Lemma derefs_filter {A} (h : list A) (p : A -> bool) locs :
    derefs h (filter (fun n => match nth_error h n with Some a => p a | None => true end) locs) =
    filter p (derefs h locs).
  Proof.
    unfold derefs. induction locs as [|n locs IH]; cbn; auto.
    destruct (nth_error h n) as [a|] eqn:E.
    - destruct (p a) eqn:Ep; cbn; rewrite ?E, ?Ep; cbn; now rewrite IH.
    - cbn. rewrite E. exact IH.
  Qed.
  Lemma material_eqb_depth (a b : material R) : material_eqb a b = true -> m_depth a = m_depth b.
  Proof.
    unfold material_eqb. rewrite !andb_true_iff. unR. intros H.
    destruct H as [[[_ H] _] _]. now apply Reqb_true in H.
  Qed.

  Lemma after_removal_filter (s : stR) d x :
    Core s -> denotes d x -> x <> 0 ->
    after_removal (h_materials (fst s)) d false (s_materials (snd s)) =
    filter (fun n => match nth_error (h_materials (fst s)) n with
                     | Some m => negb (Reqb (m_depth m) x) | None => true end)
           (s_materials (snd s)).
  Proof.
    intros C D Nx. unfold after_removal.
    assert (truthy d = true) as ->.
    { destruct (truthy d) eqn:E; auto. apply falsy_truthy in E.
      destruct E as [->|[->|E]]; try contradiction. elim Nx. eapply denotes_fun; eauto. }
    assert (Q : forall n, In n (s_materials (snd s)) ->
      num_eqb_val (depth_of (h_materials (fst s)) n) d =
      negb (match nth_error (h_materials (fst s)) n with
            | Some m => negb (Reqb (m_depth m) x) | None => true end)).
    { intros n Hn. destruct (c_mat_set _ C n Hn) as (m & E & _).
      unfold num_eqb_val, depth_of. rewrite (proj1 (denotes_as_num _ _) D), E. unR.
      now rewrite negb_involutive. }
    destruct (find _ _) as [n|] eqn:F.
    - apply find_some in F. destruct F as [Hn F].
      rewrite remove_first_filter.
      + apply filter_ext_in. intros k Hk.
        destruct (c_mat_set _ C n Hn) as (m & E & _). destruct (c_mat_set _ C k Hk) as (m' & E' & _).
        unfold same_obj. rewrite E, E'.
        rewrite Q in F by auto. rewrite E in F. rewrite negb_involutive in F.
        apply Reqb_true in F.
        destruct (Nat.eqb_spec n k) as [->|Hne].
        * cbn [orb negb]. rewrite E in E'. injection E' as <-.
          rewrite F, Reqb_refl. reflexivity.
        * cbn [orb]. assert (material_eqb m m' = false) as ->.
          { destruct (material_eqb m m') eqn:Em; auto. apply material_eqb_depth in Em.
            elim Hne. apply (same_depth_eq s); auto. unfold depth_of. now rewrite E, E'. }
          cbn [negb]. symmetry. apply negb_true_iff, Reqb_false. intros Ed.
          apply Hne. apply (same_depth_eq s); auto. unfold depth_of. rewrite E, E'. lra.
      + intros a b Ha Hb. unfold same_obj.
        destruct (c_mat_set _ C n Hn) as (m & E & _).
        destruct (c_mat_set _ C a Ha) as (ma & Ea & _).
        destruct (c_mat_set _ C b Hb) as (mb & Eb & _). rewrite E, Ea, Eb.
        assert (G : forall k mk, In k (s_materials (snd s)) ->
          nth_error (h_materials (fst s)) k = Some mk ->
          (n =? k)%nat || material_eqb m mk = true -> k = n).
        { intros k mk Hk Ek. rewrite orb_true_iff. intros [H|H].
          - symmetry. now apply Nat.eqb_eq.
          - apply material_eqb_depth in H. apply (same_depth_eq s); auto.
            unfold depth_of. now rewrite E, Ek. }
        intros H1 H2. rewrite (G a ma Ha Ea H1), (G b mb Hb Eb H2). reflexivity.
      + eapply NoDup_map_inv. eapply strictly_sorted_nodup. apply (c_mat_sorted _ C).
    - symmetry. rewrite (filter_ext_in _ (fun _ => true)).
      + clear. induction (s_materials (snd s)); cbn; congruence.
      + intros n Hn. pose proof (find_none _ _ F n Hn) as H. cbn beta in H.
        rewrite Q in H by auto. now apply negb_false_iff in H.
  Qed.

  Lemma removed_by_depth (s : stR) d x :
    reachable s -> denotes d x -> x <> 0 ->
    exists s', exec (RemoveMaterial None d false) s = (Ok tt, s') /\
      fst s' = fst s /\
      mats_of s' = filter (fun m => if Req_EM_T (m_depth m) x then false else true) (mats_of s).
  Proof.
    intros Hr D Nx. destruct (reachable_inv s Hr) as (C & _ & _).
    eexists. split; [|split].
    - cbn [exec]. rewrite with_refs_intro by constructor. rewrite remove_material_eff. reflexivity.
    - reflexivity.
    - unfold mats_of at 1. cbn [fst snd s_materials set_s_search set_s_materials].
      rewrite (after_removal_filter s d x C D Nx), derefs_filter.
      apply filter_ext. intros m. unfold Reqb. now destruct (Req_EM_T _ _).
  Qed.

  Lemma removed_object (s : stR) n m :
    reachable s -> nth_error (h_materials (fst s)) n = Some m -> m_depth m <> 0 ->
    exists s', exec (RemoveMaterial (Some (RefMaterial n)) PNone false) s = (Ok tt, s') /\
      fst s' = fst s /\
      mats_of s' = filter (fun k => if Req_EM_T (m_depth k) (m_depth m) then false else true)
                          (mats_of s).
  Proof.
    intros Hr E Nx. destruct (reachable_inv s Hr) as (C & _ & _).
    eexists. split; [|split].
    - cbn [exec]. rewrite with_refs_intro.
      + rewrite remove_material_eff. unfold removal_depth, deref. rewrite E. reflexivity.
      + constructor; [|constructor]. cbn [ref_exists]. apply Nat.ltb_lt, nth_error_Some. congruence.
    - reflexivity.
    - unfold mats_of at 1. cbn [fst snd s_materials set_s_search set_s_materials].
      rewrite (after_removal_filter s (PFloat (m_depth m)) (m_depth m) C eq_refl Nx), derefs_filter.
      apply filter_ext. intros k. unfold Reqb. now destruct (Req_EM_T _ _).
  Qed.

  Lemma filter_insert_back (s : stR) n olds :
    NoDup (map (depth_of (h_materials (fst s))) (n :: olds)) ->
    StronglySorted (key_le (depth_of (h_materials (fst s)))) olds ->
    filter (fun k => negb (Reqb (depth_of (h_materials (fst s)) k)
                                (depth_of (h_materials (fst s)) n)))
           (sort_by (depth_of (h_materials (fst s))) (n :: olds)) = olds.
  Proof.
    intros N S. set (key := depth_of (h_materials (fst s))) in *.
    assert (E : sort_by key (n :: olds) = insert (fun a b => Rltb (key a) (key b)) n olds).
    { change (sort_by key (n :: olds)) with
        (insert (fun a b => Rltb (key a) (key b)) n (sort_by key olds)).
      now rewrite sort_by_id. }
    rewrite E. inversion N as [|? ? Nn N']; subst. clear - Nn.
    induction olds as [|y ys IH]; cbn.
    - rewrite Reqb_refl. reflexivity.
    - cbn in Nn. assert (Reqb (key y) (key n) = false) as Ey.
      { apply Reqb_false. intros Q. apply Nn. left. congruence. }
      destruct (Rltb (key y) (key n)); cbn.
      + rewrite Ey. cbn. f_equal. apply IH. intros Q. apply Nn. now right.
      + rewrite Reqb_refl, Ey. cbn. f_equal.
        clear IH. assert (forall z, In z ys -> Reqb (key z) (key n) = false).
        { intros z Hz. apply Reqb_false. intros Q. apply Nn. right.
          rewrite <- Q. now apply in_map. }
        clear - H. induction ys as [|z zs IH]; cbn; auto.
        rewrite H by (now left). cbn. f_equal. apply IH. intros; apply H; now right.
  Qed.

  Lemma remove_undoes_add (s s1 : stR) n :
    reachable s -> exec (SetMaterials [RefMaterial n]) s = (Ok tt, s1) ->
    depth_of (h_materials (fst s)) n <> 0 ->
    exists s2, exec (RemoveMaterial (Some (RefMaterial n)) PNone false) s1 = (Ok tt, s2) /\
               s_materials (snd s2) = s_materials (snd s).
  Proof.
    intros Hr E Nd. pose proof (reachable_inv s Hr) as I. pose proof I as (C & _ & _).
    pose proof (exec_inv (SetMaterials [RefMaterial n]) s I) as I1. rewrite E in I1.
    cbn [snd] in I1. destruct I1 as (C1 & _ & _).
    cbn [exec] in E. apply with_refs_ok in E. destruct E as [HR E].
    rewrite set_materials_eff in E by auto. cbn [material_locs rbind] in E.
    destruct (rev _) as [|d ds] eqn:Er; [discriminate|].
    destruct (has_dup _) eqn:D; [discriminate|]. injection E as E.
    apply has_dup_false in D.
    assert (Hlt : (n < List.length (h_materials (fst s)))%nat).
    { inversion HR as [|? ? H _]; subst. cbn [ref_exists] in H. now apply Nat.ltb_lt. }
    assert (Hdep : forall k, depth_of (h_materials (fst s1)) k = depth_of (h_materials (fst s)) k).
    { intros k. rewrite <- E. cbn [layered fst h_materials]. rewrite assign_pure_depth.
      now destruct (deepened_mats d s) as [-> _]. }
    assert (Hlen : List.length (h_materials (fst s1)) = List.length (h_materials (fst s))).
    { rewrite <- E. cbn [layered fst h_materials]. rewrite assign_pure_length.
      now destruct (deepened_mats d s) as [-> _]. }
    destruct (nth_error_lt_Some (h_materials (fst s1)) n) as [m Em]; [lia|].
    assert (Hm : m_depth m = depth_of (h_materials (fst s)) n).
    { rewrite <- Hdep. unfold depth_of. now rewrite Em. }
    eexists. split.
    - cbn [exec]. rewrite with_refs_intro.
      + rewrite remove_material_eff. unfold removal_depth, deref. rewrite Em. reflexivity.
      + constructor; [|constructor]. cbn [ref_exists]. apply Nat.ltb_lt. lia.
    - cbn [fst snd s_materials set_s_search set_s_materials].
      rewrite (after_removal_filter s1 (PFloat (m_depth m)) (m_depth m) C1 eq_refl)
        by congruence.
      assert (Qm : s_materials (snd s1) = sorted_locs s [n]) by (rewrite <- E; reflexivity).
      rewrite (filter_ext_in _ (fun k => negb (Reqb (depth_of (h_materials (fst s)) k)
                                (depth_of (h_materials (fst s)) n)))).
      + rewrite Qm. unfold sorted_locs. cbn [app]. apply filter_insert_back.
        * eapply Permutation_NoDup; [|exact D]. apply Permutation_map.
          apply Permutation_sym. apply (sort_by_perm _ (n :: s_materials (snd s))).
        * apply strictly_sorted_le. apply (c_mat_sorted _ C).
      + intros k Hk. destruct (c_mat_set _ C1 k Hk) as (mk & Ek & _). rewrite Ek.
        rewrite <- Hm, <- Hdep. unfold depth_of. now rewrite Ek.
  Qed.

  (** a layer whose depth is zero cannot be removed by object or by depth *)
  Lemma zero_depth_stays (s : stR) n m :
    nth_error (h_materials (fst s)) n = Some m -> m_depth m = 0 ->
    exists s', exec (RemoveMaterial (Some (RefMaterial n)) PNone false) s = (Ok tt, s') /\
               mats_of s' = mats_of s.
  Proof.
    intros E Z. eexists. split.
    - cbn [exec]. rewrite with_refs_intro.
      + rewrite remove_material_eff. unfold removal_depth, deref. rewrite E. reflexivity.
      + constructor; [|constructor]. cbn [ref_exists]. apply Nat.ltb_lt, nth_error_Some. congruence.
    - unfold mats_of. cbn [fst snd s_materials set_s_search set_s_materials].
      unfold after_removal. rewrite Z. cbn [truthy]. unR. rewrite Reqb_refl. reflexivity.
  Qed.

  (** ** C17 *)
  Definition own_colour (m : material R) : Prop :=
    is_color (m_user_color m) = true /\ m_user_color m <> EmptyString.
  Lemma colours_after_set (s s' : stR) args :
    reachable s -> exec (SetMaterials args) s = (Ok tt, s') ->
    forall i m, nth_error (mats_of s') i = Some m ->
      (own_colour m -> m_color m = m_user_color m) /\
      (~ own_colour m -> m_color m = nth (Nat.modulo i 10) MATERIAL_COLORS EmptyString).
  Proof.
    intros Hr E. pose proof (reachable_inv s Hr) as I. pose proof I as (C & _ & _).
    pose proof (exec_inv (SetMaterials args) s I) as I'. rewrite E in I'. cbn [snd] in I'.
    destruct I' as (C' & _ & _). pose proof (core_valid_mats s' C') as V.
    cbn [exec] in E. apply with_refs_ok in E. destruct E as [HR E].
    rewrite set_materials_eff in E by auto.
    destruct (material_locs args) as [news|] eqn:Em; [|discriminate].
    destruct (rev _) as [|d ds] eqn:Er; [discriminate|].
    destruct (has_dup _) eqn:D; [discriminate|]. injection E as E.
    apply has_dup_false in D. intros i m Hi. unfold mats_of in Hi.
    assert (G : forall (h : list (material R)) locs, valid_in h locs -> forall k a,
      nth_error (derefs h locs) k = Some a ->
      exists n, nth_error locs k = Some n /\ nth_error h n = Some a).
    { clear. induction 1 as [|n locs Hn H IH]; intros k a Q; [destruct k; discriminate|].
      cbn in Q. destruct (nth_error_lt_Some _ _ Hn) as [b Eb]. rewrite Eb in Q. cbn in Q.
      destruct k; cbn in *; [exists n; split; congruence | auto]. }
    destruct (G _ _ V i m Hi) as (n & Hn & Q). rewrite <- E in Hn, Q.
    cbn [layered fst snd h_materials s_materials set_s_search set_s_materials] in *.
    rewrite (assign_pure_in _ _ _ _ i n (NoDup_map_inv _ _ D) Hn) in Q.
    destruct (nth_error _ n) as [m0|]; [|discriminate]. cbn in Q. injection Q as <-.
    unfold own_colour. cbn [m_color m_user_color assigned set_RL_color].
    unfold material_color.
    split.
    - intros [H1 H2]. apply String.eqb_neq in H2. rewrite H1, H2. reflexivity.
    - intros H. destruct (is_color (m_user_color m0)) eqn:H1; [|reflexivity].
      destruct (String.eqb_spec (m_user_color m0) EmptyString); [reflexivity|].
      exfalso; apply H; auto.
  Qed.
  Lemma palette_distinct i j :
    (Nat.modulo i 10 <> Nat.modulo j 10)%nat ->
    nth (Nat.modulo i 10) MATERIAL_COLORS EmptyString <>
    nth (Nat.modulo j 10) MATERIAL_COLORS EmptyString.
  Proof.
    assert (Hi : (Nat.modulo i 10 < 10)%nat) by (apply Nat.mod_upper_bound; lia).
    assert (Hj : (Nat.modulo j 10 < 10)%nat) by (apply Nat.mod_upper_bound; lia).
    generalize dependent (Nat.modulo i 10). generalize dependent (Nat.modulo j 10).
    intros b Hb a Ha Hne E.
    assert (N : NoDup MATERIAL_COLORS).
    { unfold MATERIAL_COLORS. repeat (constructor; [cbn; intuition discriminate|]). constructor. }
    apply Hne. eapply (proj1 (NoDup_nth MATERIAL_COLORS EmptyString) N); cbn; auto.
  Qed.
  Lemma near_mod i j : (i < j < i + 10)%nat -> (Nat.modulo i 10 <> Nat.modulo j 10)%nat.
  Proof.
    intros H E. pose proof (Nat.div_mod i 10). pose proof (Nat.div_mod j 10). lia.
  Qed.
  Lemma neighbours_differ (s s' : stR) args :
    reachable s -> exec (SetMaterials args) s = (Ok tt, s') ->
    forall i j m m', nth_error (mats_of s') i = Some m -> nth_error (mats_of s') j = Some m' ->
      ~ own_colour m -> ~ own_colour m' -> (i < j < i + 10)%nat -> m_color m <> m_color m'.
  Proof.
    intros Hr E i j m m' Hi Hj Om Om' Hij.
    destruct (colours_after_set s s' args Hr E i m Hi) as [_ ->]; auto.
    destruct (colours_after_set s s' args Hr E j m' Hj) as [_ ->]; auto.
    apply palette_distinct, near_mod, Hij.
  Qed.
End Layers.
