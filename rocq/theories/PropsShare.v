(** * PropsShare: objects shared by two slopes, the numbers that matter and the
    end points of circles on unmoved ground (C22, C53, C86). *)
From Coq Require Import ZArith Reals Lra List Bool String.
From Verif Require Import Num Py Validation Utilities Objects Slope Planes Analysis
     Dynamic Api RealNum Spec GroundFacts CircleFacts FloatNum FloatWitness Demo FosTotal
     PictureFacts ShareFacts StaleFacts.
Import ListNotations.

(** ** C86 *)
Theorem C86_only_numbers : forall (T : Type) (NT : Num T) m (s s' : st T),
  same_numbers s s' ->
  fst (analyse_slope m s) = fst (analyse_slope m s') /\
  (forall u, fst (analyse_slope m s) = Ok u ->
     s_search (snd (snd (analyse_slope m s))) = s_search (snd (snd (analyse_slope m s')))).
Proof. exact @only_numbers. Qed.
Print Assumptions C86_only_numbers.
(** two layers under two pairs of names and colours *)
Section Names.
  Local Open Scope Z_scope.
  Context {EN : Env}.
  Definition named (n1 n2 c1 c2 : pyval float) : st float :=
    run (start (fl 1 1) PNone (fl 1 1))
      [ NewMaterial (fl 20 1) (fl 35 1) (fl 2 1) (fl 1 2) n1 c1;
        NewMaterial (fl 18 1) (fl 20 1) (fl 0 1) (fl 5 1) n2 c2;
        SetMaterials [RefMaterial 0; RefMaterial 1] ].
End Names.
Example C86_example : exists EN : Env,
  let a := named PNone PNone PNone PNone in
  let b := named (PStr "sand") (PStr "clay") (PStr "red") (PStr "blue") in
  same_numbers a b /\ map m_name (mats_of a) = [""; ""]%string /\
  map m_name (mats_of b) = ["sand"; "clay"]%string /\
  map m_user_color (mats_of a) <> map m_user_color (mats_of b).
Proof.
  exists plainEnv. split; [|split; [|split]]; [ | vm_compute; reflexivity | vm_compute; reflexivity | ].
  - split; [|split; [|split]]; vm_compute; reflexivity.
  - vm_compute. discriminate.
Qed.

(** ** C22: false (see [C22_shared_refuted]).  What no history of one slope can
    change in the objects of another one: *)
Theorem C22_kept_partial : forall (T : Type) (NT : Num T) (EN : Env) (s : st T) ops,
  same_identities (fst s) (fst (run s ops)).
Proof. exact @identities_kept. Qed.
Print Assumptions C22_kept_partial.
(** and assigning shared objects to a slope with the crest and the top level of
    the other one leaves every result of the other one alone *)
Theorem C22_same_section_partial : forall (T : Type) (NT : Num T) (EN : Env) (h h' : heap T)
    (s1 s1' s2 : slope T) o u m, assigns o = true -> exec o (h, s1) = (Ok u, (h', s1')) ->
  placed (fst (g_top (s_geom s1'))) (g_ext_h (s_geom s1')) (h, s2) ->
  fst (analyse_slope m (h', s2)) = fst (analyse_slope m (h, s2)) /\
  (forall w, fst (analyse_slope m (h', s2)) = Ok w ->
     s_search (snd (snd (analyse_slope m (h', s2)))) = s_search (snd (snd (analyse_slope m (h, s2))))).
Proof.
  intros T NT EN h h' s1 s1' s2 o u m A E P. apply only_numbers. exact (sharing_harmless _ _ _ _ _ _ _ A E P).
Qed.
Print Assumptions C22_same_section_partial.
Example C22_same_section_example : exists (EN : Env) (s1 : st float),
  new_slope (fst first) (fl 1 1) PNone (fl 1 1) = Ok s1 /\
  let o := SetMaterials [RefMaterial 1; RefMaterial 0] in
  assigns o = true /\ fst (exec o s1) = Ok tt /\ List.length (mats_of first) = 2%nat /\
  (let g := s_geom (snd (snd (exec o s1))) in placed (fst (g_top g)) (g_ext_h g) first) /\
  (0 < micro_fos first)%Z.
Proof.
  exists plainEnv. eexists. split; [vm_compute; reflexivity|].
  split; [reflexivity|]. split; [vm_compute; reflexivity|]. split; [vm_compute; reflexivity|].
  split; [|vm_compute; reflexivity].
  split; [|split].
  - apply (ext_in_map (f := m_RL)). vm_compute. reflexivity.
  - assert (E : @udls_of float (@first plainEnv) = []) by (vm_compute; reflexivity).
    rewrite E. intros m [].
  - assert (E : @lls_of float (@first plainEnv) = []) by (vm_compute; reflexivity).
    rewrite E. intros m [].
Qed.

(** ** C53: false (see [C53_stale_refuted]); true if the ground does not move
    between the first circle and the analysis *)
Section Ground.
Local Open Scope R_scope.
Theorem C53_unmoved_partial : forall (EN : Env) (s s' : st R) ops m a b, reachable s ->
  s_planes (snd s) = [] -> unmoved s ops -> s_planes (snd (run s ops)) <> [] ->
  exec (Analyse m) (run s ops) = (Ok tt, s') -> get_min_FOS_end_points (snd s') = Ok (a, b) ->
  on_ground (s_geom (snd s')) a /\ on_ground (s_geom (snd s')) b /\ fst a + 1 / 100 < fst b.
Proof. exact @ends_present. Qed.
Print Assumptions C53_unmoved_partial.
Example C53_example : forall EN : Env, exists s' a b,
  let ops := [AddCircle 12 (29 / 2) (15 / 2); RemoveWater] in
  reachable demo4 /\ s_planes (snd demo4) = [] /\ unmoved demo4 ops /\
  s_planes (snd (run demo4 ops)) <> [] /\
  exec (Analyse None) (run demo4 ops) = (Ok tt, s') /\ get_min_FOS_end_points (snd s') = Ok (a, b).
Proof.
  intros EN. destruct (demo_shown (fun _ => 0%nat) None false) as (f & s' & _ & _ & E & S1 & _).
  assert (D : run demo4 [AddCircle 12 (29 / 2) (15 / 2); RemoveWater] = demo5).
  { change (run demo4 [AddCircle 12 (29 / 2) (15 / 2); RemoveWater])
      with (snd (exec RemoveWater (snd (exec (AddCircle 12 (29 / 2) (15 / 2)) demo4)))).
    rewrite demo5_exec. reflexivity. }
  exists s', (p_l demo_plane), (p_r demo_plane). cbv zeta. rewrite D.
  split; [apply demo4_reachable|]. split; [reflexivity|]. split; [|split; [|split; [exact E|]]].
  - cbn [unmoved]. rewrite demo5_exec. cbn [snd]. repeat split.
  - discriminate.
  - unfold get_min_FOS_end_points. rewrite S1. reflexivity.
Qed.
End Ground.
