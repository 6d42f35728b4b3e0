(** * PropsLoads: surcharges and shared objects (C18-C22). *)
From Coq Require Import ZArith Reals Lra Lia List Bool String Permutation Sorted.
From Verif Require Import Num Py Validation Utilities Objects Slope Planes Analysis
     Dynamic Api RealNum RealFacts ListFacts MonadFacts SlopeFacts MaterialFacts
     Invariant History Spec EditFacts LayerFacts LoadFacts FitFacts TwoSlopes FloatNum
     FloatWitness Demo.
Import ListNotations.
Local Open Scope R_scope.

(** ** C18 *)
Theorem C18_loads_on_crest : forall (EN : Env) h a l ops (s0 s : st R),
  new_slope empty_heap h a l = Ok s0 -> calm_run s0 ops -> s = run s0 ops ->
  let crest := fst (g_top (s_geom (snd s))) in
  (forall n u, In n (s_udls (snd s)) -> nth_error (h_udls (fst s)) n = Some u ->
     exists lft rgt, u_left u = Some lft /\ u_right u = Some rgt /\
       rgt = crest - u_offset u /\
       lft = match u_length u with Some len => rgt - len | None => 0 end /\
       0 <= lft /\ lft < rgt /\ rgt <= crest) /\
  (forall n x, In n (s_lls (snd s)) -> nth_error (h_lls (fst s)) n = Some x ->
     l_coord x = Some (crest - l_offset x) /\ 0 <= crest - l_offset x <= crest).
Proof. exact @loads_on_crest. Qed.
Print Assumptions C18_loads_on_crest.
Example C18_example : forall EN : Env,
  new_slope empty_heap (PFloat 3) PNone (PFloat 4) = Ok demo0 /\
  calm_run demo0 demo_ops /\ demo = run demo0 demo_ops /\
  udls_of demo = [demo_udl] /\ lls_of demo = [demo_ll].
Proof.
  intros EN. split; [apply demo0_new|]. split; [cbn [calm_run calm demo_ops]; tauto|].
  split; [apply accepted_run, demo_acc|]. split; reflexivity.
Qed.

(** ** C19: false when equal loads are neighbours in the list *)
Theorem C19_udls_refuted : exists (EN : Env) (s : st float) u,
  reachable s /\ nth_error (h_udls (fst s)) 0 = Some u /\
  fst (exec (RemoveUdls [0%nat] false) s) = Ok tt /\
  udls_of (snd (exec (RemoveUdls [0%nat] false) s)) = [u].
Proof. exact duplicate_udl_left. Qed.
Print Assumptions C19_udls_refuted.
Theorem C19_lls_refuted : exists (EN : Env) (s : st float) l,
  reachable s /\ nth_error (h_lls (fst s)) 0 = Some l /\
  fst (exec (RemoveLls [0%nat] false) s) = Ok tt /\
  lls_of (snd (exec (RemoveLls [0%nat] false) s)) = [l].
Proof. exact duplicate_ll_left. Qed.
Print Assumptions C19_lls_refuted.
(** All other loads are always kept in order; the equal ones are all removed if
    no two of them are neighbours. *)
Theorem C19_udls_partial : forall (EN : Env) (s : st R) n u,
  reachable s -> nth_error (h_udls (fst s)) n = Some u ->
  exists s', exec (RemoveUdls [n] false) s = (Ok tt, s') /\
    (forall K, drops (same_udl u) (udls_of s) K -> drops (same_udl u) (udls_of s') K) /\
    (not_adjacent (same_udl u) (udls_of s) ->
     drops (same_udl u) (udls_of s) (udls_of s')) /\
    lls_of s' = lls_of s /\ mats_of s' = mats_of s /\ s_geom (snd s') = s_geom (snd s).
Proof. exact @udls_removed. Qed.
Print Assumptions C19_udls_partial.
Theorem C19_lls_partial : forall (EN : Env) (s : st R) n u,
  reachable s -> nth_error (h_lls (fst s)) n = Some u ->
  exists s', exec (RemoveLls [n] false) s = (Ok tt, s') /\
    (forall K, drops (same_ll u) (lls_of s) K -> drops (same_ll u) (lls_of s') K) /\
    (not_adjacent (same_ll u) (lls_of s) ->
     drops (same_ll u) (lls_of s) (lls_of s')) /\
    udls_of s' = udls_of s /\ mats_of s' = mats_of s /\ s_geom (snd s') = s_geom (snd s).
Proof. exact @lls_removed. Qed.
Print Assumptions C19_lls_partial.
Example C19_example : forall EN : Env,
  reachable demo /\ nth_error (h_udls (fst demo)) 0 = Some demo_udl /\
  not_adjacent (same_udl demo_udl) (udls_of demo) /\
  drops (same_udl demo_udl) (udls_of demo) [].
Proof.
  intros EN. split; [apply demo_reachable|]. split; [reflexivity|]. split.
  - change (udls_of demo) with [demo_udl]. intros a x y b E. destruct a as [|? [|]]; discriminate.
  - change (udls_of demo) with [demo_udl]. repeat constructor.
Qed.

(** ** C20 *)
Theorem C20_udls_assigned : forall (EN : Env) (s : st R) l,
  reachable s -> Forall (fun r => ref_exists (fst s) r = true) l ->
  exists s' added, exec (SetUdls l) s = (Ok tt, s') /\
    picks_udls (h_udls (fst s)) l added /\
    s_udls (snd s') = s_udls (snd s) ++ added /\
    map udl_core (h_udls (fst s')) = map udl_core (h_udls (fst s)) /\
    s_lls (snd s') = s_lls (snd s) /\ s_materials (snd s') = s_materials (snd s) /\
    (udls_of s' <> [] ->
     exists m, s_udl_max (snd s') = UmNum m /\ In m (map u_magnitude (udls_of s')) /\
               Forall (fun u => u_magnitude u <= m) (udls_of s')).
Proof. exact @udls_assigned. Qed.
Print Assumptions C20_udls_assigned.
Theorem C20_lls_assigned : forall (EN : Env) (s : st R) l,
  reachable s -> Forall (fun r => ref_exists (fst s) r = true) l ->
  exists s' added, exec (SetLls l) s = (Ok tt, s') /\
    picks_lls (h_lls (fst s)) l added /\
    s_lls (snd s') = s_lls (snd s) ++ added /\
    map ll_core (h_lls (fst s')) = map ll_core (h_lls (fst s)) /\
    s_udls (snd s') = s_udls (snd s) /\ s_materials (snd s') = s_materials (snd s).
Proof. exact @lls_assigned. Qed.
Print Assumptions C20_lls_assigned.
Example C20_example : forall EN : Env,
  reachable demo /\
  Forall (fun r => ref_exists (fst demo) r = true) [RefOther; RefUdl 0; RefMaterial 1; RefUdl 0] /\
  picks_udls (h_udls (fst demo)) [RefOther; RefUdl 0; RefMaterial 1; RefUdl 0] [0; 0]%nat.
Proof.
  intros EN. split; [apply demo_reachable|]. split; [repeat constructor|].
  apply pu_other; [discriminate|].
  eapply pu_take; [reflexivity| cbn; lra |]. apply pu_other; [discriminate|].
  eapply pu_take; [reflexivity| cbn; lra |]. constructor.
Qed.

(** ** C21 *)
Theorem C21_independent : forall (T : Type) (NT : Num T) (EN : Env) h (s1 s2 : slope T) ops,
  (forall r, holds s2 r -> ref_exists h r = true) ->
  (forall r, holds s2 r -> ~ holds s1 r) ->
  Forall (fun o => forall r, In r (mentions o) -> ~ holds s2 r) ops ->
  let h' := fst (run (h, s1) ops) in
  mats_of (h', s2) = mats_of (h, s2) /\ udls_of (h', s2) = udls_of (h, s2) /\
  lls_of (h', s2) = lls_of (h, s2) /\ view_of (h', s2) = view_of (h, s2) /\
  (forall m, let '(r, (_, s2')) := analyse_slope m (h', s2) in
             let '(r0, (_, s2'')) := analyse_slope m (h, s2) in r = r0 /\ s2' = s2'').
Proof. exact @slopes_independent. Qed.
Print Assumptions C21_independent.
Example C21_example : forall EN : Env,
  (forall r, holds (snd demo) r -> ref_exists (fst demo) r = true) /\
  (forall r, holds (snd demo) r -> ~ holds (snd demo0) r) /\
  Forall (fun o => forall r, In r (mentions o) -> ~ holds (snd demo) r)
    [NewMaterial (PFloat 18) (PInt 30) (PFloat 5) (PFloat 20) PNone PNone;
     SetMaterials [RefMaterial 2]; Analyse None].
Proof.
  intros EN. split; [|split].
  - intros [n|n|n|]; cbn; intuition; subst; reflexivity.
  - intros [n|n|n|]; cbn; intuition.
  - repeat constructor; cbn; intuition; subst; cbn in *; intuition; discriminate.
Qed.

(** ** C22: false: the elevation is stored in the shared material *)
Theorem C22_shared_refuted : exists (EN : Env) (a b : st float),
  reachable a /\ (exists h x l, new_slope (fst a) h x l = Ok b) /\
  (let b' := exec (SetMaterials [RefMaterial 0; RefMaterial 1]) b in
   fst b' = Ok tt /\
   (0 < micro_fos a)%Z /\ (0 < micro_fos (fst (snd b'), snd a))%Z /\
   micro_fos (fst (snd b'), snd a) <> micro_fos a).
Proof. exact sharing_changes_results. Qed.
Print Assumptions C22_shared_refuted.
