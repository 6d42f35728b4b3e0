(** * PropsLayers: the list of layers (C13-C17). *)
From Coq Require Import ZArith Reals Lra Lia List Bool String Permutation Sorted.
From Verif Require Import Num Py Validation Utilities Objects Slope Planes Analysis
     Dynamic Api RealNum RealFacts ListFacts MonadFacts SlopeFacts MaterialFacts
     Invariant History Spec EditFacts LayerFacts LayerMore Demo.
Import ListNotations.
Local Open Scope R_scope.

(** ** C13 *)
Theorem C13_layers_ordered : forall (EN : Env) (s : st R),
  reachable s ->
  StronglySorted (fun a b => m_depth a < m_depth b) (mats_of s) /\
  NoDup (s_materials (snd s)) /\
  List.length (mats_of s) = List.length (s_materials (snd s)) /\
  Forall (fun m => 0 <= m_depth m /\ m_RL m <> None /\ m_color m <> EmptyString) (mats_of s).
Proof. exact @layers_sorted. Qed.
Print Assumptions C13_layers_ordered.
Example C13_example : forall EN : Env, reachable demo /\ mats_of demo = [sand_in; clay_in].
Proof. intros EN. split; [apply demo_reachable | reflexivity]. Qed.

(** ** C14 *)
Theorem C14_any_order : forall (EN : Env) (s : st R) a b,
  reachable s -> Permutation a b -> exec (SetMaterials a) s = exec (SetMaterials b) s.
Proof. exact @set_materials_perm. Qed.
Print Assumptions C14_any_order.
Theorem C14_any_splitting : forall (EN : Env) chunks (s s' : st R),
  reachable s -> chunks <> [] -> Forall (fun c => c <> []) chunks ->
  exec (SetMaterials (List.concat chunks)) s = (Ok tt, s') ->
  accepted s (map SetMaterials chunks) s'.
Proof. exact (fun EN c s s' Hr => @set_materials_chunks EN c s s' (reachable_inv s Hr)). Qed.
Print Assumptions C14_any_splitting.
Example C14_example : forall EN : Env,
  reachable demo1 /\
  exec (SetMaterials (List.concat [[RefMaterial 1]; [RefMaterial 0]])) demo1 = (Ok tt, demo2) /\
  s_materials (snd demo2) = [0%nat; 1%nat].
Proof. intros EN. split; [apply demo1_reachable | split; [apply demo2_exec | reflexivity]]. Qed.

(** ** C15: false over histories: raising the model height leaves the layers and
    the water table where they were. *)
Theorem C15_elevations_refuted : forall EN : Env,
  exists s : st R, reachable s /\
    exists m d, In m (mats_of s) /\ m_RL m = Some 8 /\ m_depth m = 2 /\
      s_water_depth (snd s) = Some d /\ d = 1 /\ s_water_RL (snd s) = Some 9 /\
      g_ext_h (s_geom (snd s)) = 30.
Proof. exact elevations_stale. Qed.
Print Assumptions C15_elevations_refuted.
(** It holds right after [set_materials]. *)
Theorem C15_elevations_partial : forall (EN : Env) (s s' : st R) args,
  reachable s -> exec (SetMaterials args) s = (Ok tt, s') ->
  Forall (fun m => m_RL m = Some (g_ext_h (s_geom (snd s')) - m_depth m) /\
                   m_depth m <= g_ext_h (s_geom (snd s'))) (mats_of s').
Proof. exact @elevations_after_set. Qed.
Print Assumptions C15_elevations_partial.
Example C15_example : forall EN : Env,
  reachable demo1 /\
  exec (SetMaterials [RefMaterial 1; RefMaterial 0]) demo1 = (Ok tt, demo2).
Proof. intros EN. split; [apply demo1_reachable | apply demo2_exec]. Qed.

(** ** C16 *)
Theorem C16_removed_by_depth : forall (EN : Env) (s : st R) d x,
  reachable s -> denotes d x -> x <> 0 ->
  exists s', exec (RemoveMaterial None d false) s = (Ok tt, s') /\
    fst s' = fst s /\
    mats_of s' = filter (fun m => if Req_EM_T (m_depth m) x then false else true) (mats_of s).
Proof. exact @removed_by_depth. Qed.
Print Assumptions C16_removed_by_depth.
Theorem C16_removed_object : forall (EN : Env) (s : st R) n m,
  reachable s -> nth_error (h_materials (fst s)) n = Some m -> m_depth m <> 0 ->
  exists s', exec (RemoveMaterial (Some (RefMaterial n)) PNone false) s = (Ok tt, s') /\
    fst s' = fst s /\
    mats_of s' = filter (fun k => if Req_EM_T (m_depth k) (m_depth m) then false else true)
                        (mats_of s).
Proof. exact @removed_object. Qed.
Print Assumptions C16_removed_object.
Theorem C16_remove_undoes_add : forall (EN : Env) (s s1 : st R) n,
  reachable s -> exec (SetMaterials [RefMaterial n]) s = (Ok tt, s1) ->
  depth_of (h_materials (fst s)) n <> 0 ->
  exists s2, exec (RemoveMaterial (Some (RefMaterial n)) PNone false) s1 = (Ok tt, s2) /\
             s_materials (snd s2) = s_materials (snd s).
Proof. exact @remove_undoes_add. Qed.
Print Assumptions C16_remove_undoes_add.
Example C16_example : forall EN : Env,
  reachable demo /\ nth_error (h_materials (fst demo)) 1 = Some clay_in /\ m_depth clay_in <> 0.
Proof. intros EN. split; [apply demo_reachable | split; [reflexivity | cbn; lra]]. Qed.
(** A layer of depth zero is not removed. *)
Theorem C16_zero_depth_refuted : forall EN : Env,
  exists (s s' : st R), reachable s /\
    exec (RemoveMaterial (Some (RefMaterial 0)) PNone false) s = (Ok tt, s') /\
    List.length (mats_of s') = 1%nat.
Proof. exact zero_depth_not_removed. Qed.
Print Assumptions C16_zero_depth_refuted.

(** ** C17 *)
Theorem C17_colours : forall (EN : Env) (s s' : st R) args,
  reachable s -> exec (SetMaterials args) s = (Ok tt, s') ->
  forall i m, nth_error (mats_of s') i = Some m ->
    (own_colour m -> m_color m = m_user_color m) /\
    (~ own_colour m -> m_color m = nth (Nat.modulo i 10) MATERIAL_COLORS EmptyString).
Proof. exact @colours_after_set. Qed.
Print Assumptions C17_colours.
Theorem C17_neighbours_differ : forall (EN : Env) (s s' : st R) args,
  reachable s -> exec (SetMaterials args) s = (Ok tt, s') ->
  forall i j m m', nth_error (mats_of s') i = Some m -> nth_error (mats_of s') j = Some m' ->
    ~ own_colour m -> ~ own_colour m' -> (i < j < i + 10)%nat -> m_color m <> m_color m'.
Proof. exact @neighbours_differ. Qed.
Print Assumptions C17_neighbours_differ.
Example C17_example : forall EN : Env,
  reachable demo1 /\
  exec (SetMaterials [RefMaterial 1; RefMaterial 0]) demo1 = (Ok tt, demo2) /\
  nth_error (mats_of demo2) 0 = Some sand_in /\ nth_error (mats_of demo2) 1 = Some clay_in /\
  ~ own_colour sand_in /\ ~ own_colour clay_in.
Proof.
  intros EN. split; [apply demo1_reachable|]. split; [apply demo2_exec|].
  split; [reflexivity|]. split; [reflexivity|].
  split; intros [_ H]; apply H; reflexivity.
Qed.
