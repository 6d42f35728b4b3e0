(** * TwoSlopes: two slopes living in the same Python process (C21, C22). *)
From Coq Require Import ZArith List Bool String Lia.
From Verif Require Import Num Py Validation Utilities Objects Slope Planes Analysis
     Dynamic Api ListFacts MonadFacts KeepFacts.
Import ListNotations.

(** The objects a call names. *)
Definition mentions {T} (o : op T) : list objref :=
  match o with
  | SetUdls l | SetLls l | SetMaterials l => l
  | RemoveUdls l _ => map RefUdl l
  | RemoveLls l _ => map RefLload l
  | RemoveMaterial (Some r) _ _ => [r]
  | _ => []
  end.

(** [holds sl r]: the object [r] is assigned to the slope [sl]. *)
Definition holds {T} (sl : slope T) (r : objref) : Prop :=
  match r with
  | RefMaterial n => In n (s_materials sl)
  | RefUdl n => In n (s_udls sl)
  | RefLload n => In n (s_lls sl)
  | RefOther => False
  end.

Section Frame.
  Context {T : Type} {NT : Num T} {EN : Env}.
  (** the other slope, which the calls do not see *)
  Context (other : slope T).

  Definition lives (h : heap T) : Prop := forall r, holds other r -> ref_exists h r = true.
  Definition apart (sl : slope T) : Prop := forall r, holds other r -> ~ holds sl r.
  Definition same_objects (h h' : heap T) : Prop :=
    (forall n, In n (s_materials other) -> nth_error (h_materials h') n = nth_error (h_materials h) n) /\
    (forall n, In n (s_udls other) -> nth_error (h_udls h') n = nth_error (h_udls h) n) /\
    (forall n, In n (s_lls other) -> nth_error (h_lls h') n = nth_error (h_lls h) n).
  Definition fr (s s' : st T) : Prop :=
    apart (snd s) -> lives (fst s) ->
    apart (snd s') /\ lives (fst s') /\ same_objects (fst s) (fst s').

  Lemma fr_refl s : fr s s.
  Proof. intros A L. split; auto. split; auto. now repeat split. Qed.
  Lemma fr_trans a b c : fr a b -> fr b c -> fr a c.
  Proof.
    intros H1 H2 A L. destruct (H1 A L) as (A1 & L1 & E1 & F1 & G1).
    destruct (H2 A1 L1) as (A2 & L2 & E2 & F2 & G2).
    split; auto. split; auto. repeat split; intros n Hn.
    - now rewrite E2, E1.
    - now rewrite F2, F1.
    - now rewrite G2, G1.
  Qed.
  Hint Resolve fr_refl fr_trans : core.

  (** writes to the slope that assign no object *)
  Lemma fr_self (f : slope T -> slope T) :
    (forall sl, incl (s_materials (f sl)) (s_materials sl) /\
                incl (s_udls (f sl)) (s_udls sl) /\ incl (s_lls (f sl)) (s_lls sl)) ->
    keeps fr (self_upd f).
  Proof.
    intros H s A L. destruct (H (snd s)) as (H1 & H2 & H3). split.
    - intros r Ho Hs. apply (A r Ho). destruct r; cbn in *; auto.
    - cbn. split; auto. now repeat split.
  Qed.
  Lemma fr_upd_udl n f : ~ In n (s_udls other) -> keeps fr (upd_udl n f).
  Proof.
    intros Hn s A L. cbn. split; auto. split.
    - intros r Hr. specialize (L r Hr). destruct r; cbn in *; auto.
      now rewrite upd_nth_length.
    - repeat split; cbn; auto. intros m Hm. rewrite nth_error_upd_nth.
      destruct (Nat.eqb n m) eqn:E; auto. apply Nat.eqb_eq in E. now subst.
  Qed.
  Lemma fr_upd_ll n f : ~ In n (s_lls other) -> keeps fr (upd_ll n f).
  Proof.
    intros Hn s A L. cbn. split; auto. split.
    - intros r Hr. specialize (L r Hr). destruct r; cbn in *; auto.
      now rewrite upd_nth_length.
    - repeat split; cbn; auto. intros m Hm. rewrite nth_error_upd_nth.
      destruct (Nat.eqb n m) eqn:E; auto. apply Nat.eqb_eq in E. now subst.
  Qed.
  Lemma fr_upd_material n f : ~ In n (s_materials other) -> keeps fr (upd_material n f).
  Proof.
    intros Hn s A L. cbn. split; auto. split.
    - intros r Hr. specialize (L r Hr). destruct r; cbn in *; auto.
      now rewrite upd_nth_length.
    - repeat split; cbn; auto. intros m Hm. rewrite nth_error_upd_nth.
      destruct (Nat.eqb n m) eqn:E; auto. apply Nat.eqb_eq in E. now subst.
  Qed.

  Lemma fr_pre {A} (m : M (st T) A) :
    (forall s, apart (snd s) -> fr s (snd (m s))) -> keeps fr m.
  Proof. intros H s A0 L. exact (H s A0 A0 L). Qed.

  Ltac fself := apply fr_self; intros sl; cbn; repeat split; apply incl_refl.
  Ltac fstep := repeat (cbv zeta; first [ solve [auto with fr nocore] | solve [fself] | keep1 ]).

  Lemma fr_reset : keeps fr reset_results.
  Proof. fself. Qed.
  Lemma fr_udl_coordinates : keeps fr update_udl_coordinates.
  Proof.
    apply fr_pre. intros s A. unfold update_udl_coordinates. rewrite bind_self_get.
    match goal with |- fr s (snd (?m s)) => apply (keeps_forM fr) end; [eauto|eauto|].
    intros n Hn. fstep. apply fr_upd_udl. intros Ho. exact (A (RefUdl n) Ho Hn).
  Qed.
  Lemma fr_ll_coordinates : keeps fr update_ll_coordinates.
  Proof.
    apply fr_pre. intros s A. unfold update_ll_coordinates. rewrite bind_self_get.
    match goal with |- fr s (snd (?m s)) => apply (keeps_forM fr) end; [eauto|eauto|].
    intros n Hn. fstep. apply fr_upd_ll. intros Ho. exact (A (RefLload n) Ho Hn).
  Qed.
  Hint Resolve fr_reset fr_udl_coordinates fr_ll_coordinates : fr.
  Lemma fr_set_limits a b c d : keeps fr (set_analysis_limits a b c d).
  Proof. unfold set_analysis_limits. fstep. Qed.
  Hint Resolve fr_set_limits : fr.
  Lemma fr_remove_limits : keeps fr remove_analysis_limits.
  Proof. unfold remove_analysis_limits. fstep. Qed.
  Hint Resolve fr_remove_limits : fr.
  Lemma fr_set_boundary h a l : keeps fr (set_external_boundary h a l).
  Proof. unfold set_external_boundary. fstep. Qed.
  Hint Resolve fr_set_boundary : fr.
  Lemma fr_boundary_options l h : keeps fr (update_boundary_options l h).
  Proof. unfold update_boundary_options. fstep. Qed.
  Hint Resolve fr_boundary_options : fr.
  Lemma fr_remove_water : keeps fr remove_water_table.
  Proof. unfold remove_water_table. fstep. Qed.
  Hint Resolve fr_remove_water : fr.
  Lemma fr_set_water d : keeps fr (set_water_table d).
  Proof. unfold set_water_table. fstep. Qed.
  Lemma fr_water_options a h : keeps fr (update_water_analysis_options a h).
  Proof. unfold update_water_analysis_options. fstep. Qed.
  Lemma fr_analysis_options a b c d e : keeps fr (update_analysis_options a b c d e).
  Proof. unfold update_analysis_options. fstep. Qed.

  (** assignment of a list of objects of which none belongs to the other slope *)
  Lemma fr_assign_udls (f : st T -> list nat) s :
    apart (snd s) -> (forall n, In n (f s) -> In n (s_udls (snd s)) \/ ~ In n (s_udls other)) ->
    fr s (fst s, set_s_udls (f s) (snd s)).
  Proof.
    intros A H _ L. split; [|split; auto; now repeat split].
    intros r Ho Hs. destruct r as [n|n|n|]; cbn in *; try (now apply (A (RefMaterial n)));
      try (now apply (A (RefLload n))); auto.
    destruct (H n Hs) as [Q|Q]; auto. now apply (A (RefUdl n)).
  Qed.
  Lemma fr_assign_lls (f : st T -> list nat) s :
    apart (snd s) -> (forall n, In n (f s) -> In n (s_lls (snd s)) \/ ~ In n (s_lls other)) ->
    fr s (fst s, set_s_lls (f s) (snd s)).
  Proof.
    intros A H _ L. split; [|split; auto; now repeat split].
    intros r Ho Hs. destruct r as [n|n|n|]; cbn in *; try (now apply (A (RefMaterial n)));
      try (now apply (A (RefUdl n))); auto.
    destruct (H n Hs) as [Q|Q]; auto. now apply (A (RefLload n)).
  Qed.
  Lemma fr_assign_mats (f : st T -> list nat) s :
    apart (snd s) ->
    (forall n, In n (f s) -> In n (s_materials (snd s)) \/ ~ In n (s_materials other)) ->
    fr s (fst s, set_s_materials (f s) (snd s)).
  Proof.
    intros A H _ L. split; [|split; auto; now repeat split].
    intros r Ho Hs. destruct r as [n|n|n|]; cbn in *; try (now apply (A (RefLload n)));
      try (now apply (A (RefUdl n))); auto.
    destruct (H n Hs) as [Q|Q]; auto. now apply (A (RefMaterial n)).
  Qed.

  Lemma fr_set_udl_one r : ~ holds other r -> keeps fr (set_udl_one r).
  Proof.
    intros Hr. destruct r as [n|n|n|]; cbn [set_udl_one]; try (apply keeps_ret; auto; fail).
    apply keeps_bind; [eauto|fstep|intros u]. apply keeps_when; [auto|].
    apply fr_pre. intros s A. rewrite bind_self_get, bind_self_upd.
    eapply fr_trans; [apply (fr_assign_udls (fun s => s_udls (snd s) ++ [n])); auto|].
    { intros m Hm. apply in_app_iff in Hm. destruct Hm as [Hm|[<-|[]]]; auto. }
    match goal with |- fr ?s (snd (?m _)) => assert (K : keeps fr m) by fstep; exact (K s) end.
  Qed.
  Lemma fr_set_ll_one r : ~ holds other r -> keeps fr (set_ll_one r).
  Proof.
    intros Hr. destruct r as [n|n|n|]; cbn [set_ll_one]; try (apply keeps_ret; auto; fail).
    apply keeps_bind; [eauto|fstep|intros u]. apply keeps_when; [auto|].
    apply fr_pre. intros s A. rewrite bind_self_get, bind_self_upd.
    eapply fr_trans; [apply (fr_assign_lls (fun s => s_lls (snd s) ++ [n])); auto|].
    { intros m Hm. apply in_app_iff in Hm. destruct Hm as [Hm|[<-|[]]]; auto. }
    match goal with |- fr ?s (snd (?m _)) => assert (K : keeps fr m) by fstep; exact (K s) end.
  Qed.
  Lemma fr_set_udls l : (forall r, In r l -> ~ holds other r) -> keeps fr (set_udls l).
  Proof.
    intros H. unfold set_udls. apply keeps_bind; [eauto| |intros _].
    - apply keeps_forM; eauto. intros r Hr. apply fr_set_udl_one; auto.
    - fstep.
  Qed.
  Lemma fr_set_lls l : (forall r, In r l -> ~ holds other r) -> keeps fr (set_lls l).
  Proof.
    intros H. unfold set_lls. apply keeps_bind; [eauto| |intros _].
    - apply keeps_forM; eauto. intros r Hr. apply fr_set_ll_one; auto.
    - fstep.
  Qed.
  Lemma remove_first_incl {A} (p : A -> bool) l : incl (remove_first p l) l.
  Proof.
    induction l as [|a l IH]; cbn; [apply incl_refl|]. destruct (p a).
    - apply incl_tl, incl_refl.
    - apply incl_cons; [now left | now apply incl_tl].
  Qed.
  Lemma rwi_incl m e fuel : forall i l, incl (remove_while_iterating m e fuel i l) l.
  Proof.
    induction fuel as [|f IH]; intros i l; cbn; [apply incl_refl|].
    destruct (nth_error l i) as [x|]; [|apply incl_refl].
    eapply incl_tran; [apply IH|]. destruct (m x); [apply remove_first_incl|apply incl_refl].
  Qed.
  Lemma fr_remove_udls l all : keeps fr (remove_udls l all).
  Proof.
    unfold remove_udls. apply keeps_bind; [eauto| |intros _].
    - apply keeps_forM; eauto. intros n Hn. apply keeps_bind; [eauto|fstep|intros u].
      apply fr_pre. intros s A. rewrite bind_heap_get, bind_self_get.
      apply (fr_assign_udls (fun s => remove_while_iterating _ _ _ _ (s_udls (snd s)))); auto.
      intros m Hm. left. eapply rwi_incl; eauto.
    - fstep. apply fr_self. intros sl; cbn. repeat split; try apply incl_refl. apply incl_nil_l.
  Qed.
  Lemma fr_remove_lls l all : keeps fr (remove_lls l all).
  Proof.
    unfold remove_lls. apply keeps_bind; [eauto| |intros _].
    - apply keeps_forM; eauto. intros n Hn. apply keeps_bind; [eauto|fstep|intros u].
      apply fr_pre. intros s A. rewrite bind_heap_get, bind_self_get.
      apply (fr_assign_lls (fun s => remove_while_iterating _ _ _ _ (s_lls (snd s)))); auto.
      intros m Hm. left. eapply rwi_incl; eauto.
    - fstep. apply fr_self. intros sl; cbn. repeat split; try apply incl_refl. apply incl_nil_l.
  Qed.

  Lemma fr_assign_materials locs : forall i,
    (forall n, In n locs -> ~ In n (s_materials other)) -> keeps fr (assign_materials i locs).
  Proof.
    induction locs as [|n locs IH]; intros i H; cbn [assign_materials]; [now apply keeps_ret|].
    apply keeps_bind; [eauto|fstep|intros g]. apply keeps_bind; [eauto| |intros _].
    - apply fr_upd_material. apply H. now left.
    - apply IH. intros; apply H; now right.
  Qed.
  Lemma material_locs_refs l : forall ns n, material_locs l = Ok ns -> In n ns -> In (RefMaterial n) l.
  Proof.
    induction l as [|r l IH]; cbn; intros ns n E H.
    - injection E as <-. destruct H.
    - destruct r as [m|m|m|]; try discriminate. destruct (material_locs l) as [ms|] eqn:El;
        try discriminate. injection E as <-. destruct H as [<-|H]; [now left|right; eauto].
  Qed.
  Lemma fr_set_materials l : (forall r, In r l -> ~ holds other r) -> keeps fr (set_materials l).
  Proof.
    intros H. unfold set_materials. apply fr_pre. intros s A.
    rewrite bind_lift. destruct (material_locs l) as [news|] eqn:E; [|apply fr_refl].
    rewrite bind_self_get, bind_heap_get. cbv zeta.
    set (locs := sort_by _ _).
    assert (Hl : forall n, In n locs -> ~ In n (s_materials other)).
    { intros n Hn Ho. unfold locs in Hn. apply sort_In in Hn. apply in_app_iff in Hn.
      destruct Hn as [Hn|Hn].
      - apply (H (RefMaterial n)); [now apply (material_locs_refs l news)|exact Ho].
      - exact (A (RefMaterial n) Ho Hn). }
    clearbody locs.
    match goal with |- fr ?s (snd (?m _)) => assert (K : keeps fr m); [|exact (K s)] end.
    fstep; [now apply fr_assign_materials|].
    apply fr_pre. intros s' A'. apply (fr_assign_mats (fun _ => locs)); auto.
  Qed.
  Lemma fr_remove_material m d all : keeps fr (remove_material m d all).
  Proof.
    unfold remove_material. apply keeps_bind; [eauto|fstep|intros dd].
    apply keeps_bind; [eauto| |intros _].
    - apply keeps_when; auto. apply fr_pre. intros s A.
      rewrite bind_heap_get, bind_self_get. destruct (find _ _); [|apply fr_refl].
      apply (fr_assign_mats (fun s => remove_first _ (s_materials (snd s)))); auto.
      intros k Hk. left. eapply remove_first_incl; eauto.
    - fstep. apply fr_self. intros sl; cbn. repeat split; try apply incl_refl. apply incl_nil_l.
  Qed.

  Lemma fr_entry_exit a b n : keeps fr (add_single_entry_exit_plane a b n).
  Proof. unfold add_single_entry_exit_plane. fstep. Qed.
  Lemma fr_circle a b n : keeps fr (add_single_circular_plane a b n).
  Proof. unfold add_single_circular_plane. fstep. Qed.
  Lemma fr_remove_planes : keeps fr remove_individual_planes.
  Proof. unfold remove_individual_planes. fstep. Qed.
  Lemma fr_analyse m : keeps fr (analyse_slope m).
  Proof. unfold analyse_slope. fstep. Qed.
  Hint Resolve fr_analyse fr_remove_udls fr_remove_lls : fr.

  Lemma fr_dynamic_offset o : keeps fr (set_dynamic_offset o).
  Proof.
    unfold set_dynamic_offset. apply fr_pre. intros s A.
    rewrite !bind_self_get.
    match goal with |- fr ?s (snd (?m _)) => assert (K : keeps fr m); [|exact (K s)] end.
    do 2 (apply keeps_bind; [eauto|fstep|intros _]).
    apply keeps_bind; [eauto| |intros _].
    - apply keeps_forM; eauto. intros n Hn.
      assert (Q : ~ In n (s_udls other)) by (intros Q; exact (A (RefUdl n) Q Hn)).
      apply keeps_bind; [eauto|fstep|intros u]. apply keeps_bind; [eauto| |intros _].
      + apply keeps_when; auto. now apply fr_upd_udl.
      + apply fr_set_udls. now intros r [<-|[]].
    - apply keeps_forM; eauto. intros n Hn.
      assert (Q : ~ In n (s_lls other)) by (intros Q; exact (A (RefLload n) Q Hn)).
      apply keeps_bind; [eauto|fstep|intros u]. apply keeps_bind; [eauto| |intros _].
      + apply keeps_when; auto. now apply fr_upd_ll.
      + apply fr_set_lls. now intros r [<-|[]].
  Qed.
  Hint Resolve fr_dynamic_offset : fr.
  Lemma fr_try o : keeps fr (try_offset o).
  Proof. unfold try_offset. fstep. Qed.
  Hint Resolve fr_try : fr.
  Lemma fr_dynamic_loop k c : forall l r p, keeps fr (dynamic_loop k c l r p).
  Proof. induction k as [|k IH]; intros; cbn [dynamic_loop]; fstep; apply IH. Qed.
  Hint Resolve fr_dynamic_loop : fr.
  Lemma fr_dynamic c : keeps fr (analyse_dynamic c).
  Proof. unfold analyse_dynamic. fstep. Qed.

  Lemma lives_app h m u l : lives h ->
    lives (MkHeap (h_materials h ++ m) (h_udls h ++ u) (h_lls h ++ l)) /\
    same_objects h (MkHeap (h_materials h ++ m) (h_udls h ++ u) (h_lls h ++ l)).
  Proof.
    intros L. split.
    - intros r Hr. specialize (L r Hr). destruct r; cbn in *; auto; rewrite app_length;
        apply Nat.ltb_lt in L; apply Nat.ltb_lt; lia.
    - repeat split; cbn; intros n Hn; apply nth_error_app1.
      + specialize (L (RefMaterial n) Hn). now apply Nat.ltb_lt in L.
      + specialize (L (RefUdl n) Hn). now apply Nat.ltb_lt in L.
      + specialize (L (RefLload n) Hn). now apply Nat.ltb_lt in L.
  Qed.
  Lemma fr_alloc {A} (r : res A) add :
    (forall a h, exists m u l, add a h =
       MkHeap (h_materials h ++ m) (h_udls h ++ u) (h_lls h ++ l)) ->
    keeps fr (alloc r add).
  Proof.
    intros H s A0 L. unfold alloc. rewrite bind_lift. destruct r as [a|e]; [|now apply fr_refl].
    cbn. destruct (H a (fst s)) as (m & u & l & ->). split; auto. now apply lives_app.
  Qed.

  Hint Resolve fr_set_water fr_water_options fr_analysis_options fr_remove_material
    fr_entry_exit fr_circle fr_remove_planes fr_dynamic : fr.
  Lemma fr_with_refs l m : keeps fr m -> keeps fr (with_refs l m).
  Proof. intros K. unfold with_refs. fstep; exact K. Qed.
  Lemma fr_exec o : (forall r, In r (mentions o) -> ~ holds other r) -> keeps fr (exec o).
  Proof.
    intros H. destruct o; cbn [exec mentions] in *; try apply fr_with_refs;
      auto using fr_set_udls, fr_set_lls, fr_set_materials with fr.
    - apply fr_alloc. intros m h. exists [m], [], []. now rewrite !app_nil_r.
    - apply fr_alloc. intros m h. exists [], [m], []. now rewrite !app_nil_r.
    - apply fr_alloc. intros m h. exists [], [], [m]. now rewrite !app_nil_r.
    - fstep.
  Qed.
  Lemma fr_run ops : forall s,
    Forall (fun o => forall r, In r (mentions o) -> ~ holds other r) ops -> fr s (run s ops).
  Proof.
    induction ops as [|o ops IH]; intros s H; [apply fr_refl|].
    apply Forall_inv in H as H1. apply Forall_inv_tail in H as H2.
    cbn. eapply fr_trans; [exact (fr_exec o H1 s)|]. now apply IH.
  Qed.
End Frame.

Section Independence.
  Context {T : Type} {NT : Num T} {EN : Env}.

  Lemma derefs_same {A} (h h' : list A) locs :
    (forall n, In n locs -> nth_error h' n = nth_error h n) -> derefs h' locs = derefs h locs.
  Proof. intros H. symmetry. apply derefs_ext. intros n Hn. symmetry. auto. Qed.

  (** C21 *)
  Lemma slopes_independent h (s1 s2 : slope T) ops :
    (forall r, holds s2 r -> ref_exists h r = true) ->
    (forall r, holds s2 r -> ~ holds s1 r) ->
    Forall (fun o => forall r, In r (mentions o) -> ~ holds s2 r) ops ->
    let h' := fst (run (h, s1) ops) in
    mats_of (h', s2) = mats_of (h, s2) /\ udls_of (h', s2) = udls_of (h, s2) /\
    lls_of (h', s2) = lls_of (h, s2) /\ view_of (h', s2) = view_of (h, s2) /\
    (forall m, let '(r, (_, s2')) := analyse_slope m (h', s2) in
               let '(r0, (_, s2'')) := analyse_slope m (h, s2) in r = r0 /\ s2' = s2'').
  Proof.
    intros L A F h'.
    destruct (fr_run s2 ops (h, s1) F A L) as (_ & _ & E1 & E2 & E3). cbn [fst] in *.
    assert (H1 : mats_of (h', s2) = mats_of (h, s2)) by (apply derefs_same; auto).
    assert (H2 : udls_of (h', s2) = udls_of (h, s2)) by (apply derefs_same; auto).
    assert (H3 : lls_of (h', s2) = lls_of (h, s2)) by (apply derefs_same; auto).
    assert (H4 : view_of (h', s2) = view_of (h, s2))
      by (unfold view_of; now rewrite H1, H2, H3).
    split; auto. split; auto. split; auto. split; auto. intros m.
    unfold analyse_slope. rewrite !bind_self_get. cbn [snd].
    assert (Q : forall s B (k : view T -> M (st T) B), mbind (fun s => (view_of s, s)) k s =
              match view_of s with Ok v => k v s | Err e => (Err e, s) end).
    { intros s B k. unfold mbind. now destruct (view_of s). }
    rewrite !Q. clear Q. rewrite H4. destruct (view_of (h, s2)) as [v|e]; [|split; reflexivity].
    destruct (s_planes s2) as [|p ps].
    - rewrite !bind_lift. destruct (entry_exit_planes v) as [q|e]; [|split; reflexivity].
      destruct (fos_loop v q) as [[[]|e] done]; split; reflexivity.
    - destruct (fos_loop v (p :: ps)) as [[[]|e] done]; split; reflexivity.
  Qed.
End Independence.
