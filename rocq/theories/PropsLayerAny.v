(** * PropsLayerAny: layers, loads and the water level when every sum and product
    is rounded (C89).  The first group holds in every arithmetic of the model, the
    second in binary64. *)
From Coq Require Import ZArith Reals List Bool String Sorted Permutation Floats.SpecFloat.
From Verif Require Import Num Py Validation Utilities Objects Slope Planes Analysis
     Dynamic Api MonadFacts MaterialFacts LayerAny LoadAny FloatNum FloatWitness BinaryFacts.
Import ListNotations.

(** ** Every arithmetic *)
(** the layers a slope holds exist, and their elevations are measured from one level *)
Theorem C89_levels : forall (T : Type) (NT : Num T) (EN : Env) (s : st T), reachable s ->
  List.length (mats_of s) = List.length (s_materials (snd s)) /\
  exists level, Forall (fun m => m_RL m = Some (nsub level (m_depth m)) /\ m_color m <> EmptyString) (mats_of s).
Proof.
  intros T NT EN s RS. destruct (layers_any _ no_ordering s RS) as (A & B & _). exact (conj A B).
Qed.
Print Assumptions C89_levels.
(** an accepted call adds exactly the layers it names, puts every layer at the level of
    the ground, and changes no soil *)
Theorem C89_laid : forall (T : Type) (NT : Num T) (EN : Env) args (s s' : st T),
  reachable s -> exec (SetMaterials args) s = (Ok tt, s') ->
  exists news, material_locs args = Ok news /\ Permutation (news ++ s_materials (snd s)) (s_materials (snd s')) /\
    Forall (fun m => m_RL m = Some (nsub (g_ext_h (s_geom (snd s'))) (m_depth m))) (mats_of s') /\
    (forall n, option_map mat_data (nth_error (h_materials (fst s')) n) =
               option_map mat_data (nth_error (h_materials (fst s)) n)).
Proof. exact @laid_any. Qed.
Print Assumptions C89_laid.
(** the loads a slope holds exist and weigh something *)
Theorem C89_loads : forall (T : Type) (NT : Num T) (EN : Env) (s : st T), reachable s ->
  (forall n, In n (s_udls (snd s)) -> exists u, nth_error (h_udls (fst s)) n = Some u /\ nltb (nz 0) (u_magnitude u) = true) /\
  (forall n, In n (s_lls (snd s)) -> exists l, nth_error (h_lls (fst s)) n = Some l /\ nltb (nz 0) (l_magnitude l) = true).
Proof. intros T NT EN s RS. destruct (reachable_loaded s RS) as [A B _]. exact (conj A B). Qed.
Print Assumptions C89_loads.

(** ** Binary64 *)
Theorem C89_order : forall (EN : Env) (s : st float), reachable s ->
  (forall m, In m (h_materials (fst s)) -> m_depth m <> S754_nan) ->
  StronglySorted (fun a b => SFltb (m_depth a) (m_depth b) = true) (mats_of s) /\ NoDup (s_materials (snd s)).
Proof.
  intros EN s RS FD. destruct (layers_any numeric float_ordering s RS) as (_ & _ & LA). exact (LA FD).
Qed.
Print Assumptions C89_order.
Theorem C89_removed : forall (EN : Env) (s : st float) d x, reachable s ->
  (forall m, In m (h_materials (fst s)) -> m_depth m <> S754_nan) ->
  truthy d = true -> as_num d = Ok x ->
  exists s', exec (RemoveMaterial None d false) s = (Ok tt, s') /\ fst s' = fst s /\
    mats_of s' = filter (fun m => negb (SFeqb (m_depth m) x)) (mats_of s).
Proof.
  intros EN s d x RS FD. apply (removed_any numeric float_ordering); auto.
Qed.
Print Assumptions C89_removed.
Theorem C89_undone : forall (EN : Env) (s s1 : st float) n, reachable s ->
  (forall m, In m (h_materials (fst s)) -> m_depth m <> S754_nan) ->
  exec (SetMaterials [RefMaterial n]) s = (Ok tt, s1) ->
  SFeqb (depth_of (h_materials (fst s)) n) (S754_zero false) = false ->
  exists s2, exec (RemoveMaterial (Some (RefMaterial n)) PNone false) s1 = (Ok tt, s2) /\
             s_materials (snd s2) = s_materials (snd s).
Proof.
  intros EN s s1 n RS FD. apply (undone_any numeric float_ordering); auto.
Qed.
Print Assumptions C89_undone.
(** the water level is a number that is not below the base *)
Theorem C89_water : forall (EN : Env) (s : st float) rl, reachable s ->
  s_water_RL (snd s) = Some rl -> SFleb (S754_zero false) rl = true.
Proof. exact @water_level_float. Qed.
Print Assumptions C89_water.
Example C89_example : exists (EN : Env) (s s1 : st float),
  reachable s /\ (forall m, In m (h_materials (fst s)) -> m_depth m <> S754_nan) /\
  exec (SetMaterials [RefMaterial 1]) s = (Ok tt, s1) /\ reachable s1 /\
  List.length (mats_of s1) = 2%nat /\
  SFeqb (depth_of (h_materials (fst s)) 1) (S754_zero false) = false /\
  s_udls (snd s1) <> [] /\ s_lls (snd s1) <> [] /\ s_water_RL (snd s1) <> None.
Proof. exact layered_float_demo. Qed.

(** The restriction on depths is needed: a depth that is not a number is
    accepted and the elevation of that layer is not a number. *)
Theorem C89_nan_accepted : exists (EN : Env) (s : st float) m, reachable s /\
  mats_of s = [m] /\ m_depth m = S754_nan /\ m_RL m = Some S754_nan /\ m_color m <> EmptyString.
Proof. exact nan_layer. Qed.
Print Assumptions C89_nan_accepted.
