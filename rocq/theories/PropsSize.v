(** * PropsSize: the size of a slope (C90). *)
From Coq Require Import ZArith Reals Lra List Bool String.
From Verif Require Import Num Py Validation Utilities Objects Slope Planes Analysis
     Dynamic Api RealNum MonadFacts Spec FosFacts Demo CircleFacts FosTotal SizeFacts Twin Similar.
Import ListNotations.
Local Open Scope R_scope.

(** The full claim, with no condition on the circle, is false: points of the circle on the
    ground that are within a centimetre of each other are taken for one point, at every
    size (C90_small_refuted).  What is missing is exactly that rule: [apart k g cx cy r]
    says that any two points of the circle on the ground are more than a centimetre apart
    in the one slope when they are in the other. *)
Theorem C90_factor_partial : forall (EN : Env) (k : R) (s s' : st R) v v' cx cy r, 0 < k ->
  reachable s -> reachable s' -> similar k s s' -> view_of s = Ok v -> view_of s' = Ok v' ->
  (forall p q : R * R, on_circle cx cy r p -> on_ground (s_geom (snd s)) p ->
     on_circle cx cy r q -> on_ground (s_geom (snd s)) q ->
     (1 / 100 < Rabs (fst p - fst q) <-> 1 / 100 < k * Rabs (fst p - fst q))) ->
  bishop v' (k * cx) (k * cy) (k * r) = bishop v cx cy r.
Proof. intros EN k s s' v v' cx cy r K. exact (similar_factor k K s s' v v' cx cy r). Qed.
Print Assumptions C90_factor_partial.

(** A whole analysis of circles added by hand: the same outcome, the same circles in the
    same order at the other size, the same factors *)
Theorem C90_analysis_partial : forall (EN : Env) (k : R) m (s s' : st R), 0 < k ->
  reachable s -> reachable s' -> similar k s s' ->
  s_planes (snd s) <> [] -> s_planes (snd s') = map (grow_plane k) (s_planes (snd s)) ->
  Forall (fun p => apart k (s_geom (snd s)) (p_cx p) (p_cy p) (p_radius p)) (s_planes (snd s)) ->
  fst (exec (Analyse m) s') = fst (exec (Analyse m) s) /\
  (fst (exec (Analyse m) s) = Ok tt ->
   s_search (snd (snd (exec (Analyse m) s'))) =
   map (grow_plane k) (s_search (snd (snd (exec (Analyse m) s)))) /\
   get_min_FOS (snd (snd (exec (Analyse m) s'))) = get_min_FOS (snd (snd (exec (Analyse m) s)))).
Proof. intros EN k m s s' K. exact (similar_analysis k K m s s'). Qed.
Print Assumptions C90_analysis_partial.

Theorem C90_small_refuted : exists (k : R), 0 < k /\ forall (EN : Env),
  exists (s s' : st R) v v' cx cy r f, reachable s /\ reachable s' /\ similar k s s' /\
    view_of s = Ok v /\ view_of s' = Ok v' /\
    bishop v cx cy r = Ok (Some f) /\ bishop v' (k * cx) (k * cy) (k * r) = Ok None.
Proof.
  exists (1 / 2000). split; [lra|]. intros EN. destruct twin_small as (v & v' & f & E & E' & B & B').
  exists demo4, (twin4 (1 / 2000)), v, v', 12, (29 / 2), (15 / 2), f.
  split; [apply demo4_reachable|]. split; [apply twin4_reachable; lra|]. split; [apply twin4_similar|]. auto.
Qed.
Print Assumptions C90_small_refuted.

(** The demo slope at every scale above 1 to 600, with its circle: built by accepted
    calls, similar, and analysed to the same positive factor *)
Example C90_example : forall (EN : Env) (k : R), 1 / 600 < k ->
  reachable demo5 /\ reachable (twin5 k) /\ similar k demo5 (twin5 k) /\
  s_planes (snd demo5) <> [] /\ s_planes (snd (twin5 k)) = map (grow_plane k) (s_planes (snd demo5)) /\
  Forall (fun p => apart k (s_geom (snd demo5)) (p_cx p) (p_cy p) (p_radius p)) (s_planes (snd demo5)) /\
  exists f, 0 < f /\ fst (exec (Analyse None) (twin5 k)) = Ok tt /\
    get_min_FOS (snd (snd (exec (Analyse None) demo5))) = Ok (Some f) /\
    get_min_FOS (snd (snd (exec (Analyse None) (twin5 k)))) = Ok (Some f).
Proof.
  intros EN k K.
  assert (A : Forall (fun p => apart k (s_geom (snd demo5)) (p_cx p) (p_cy p) (p_radius p)) (s_planes (snd demo5)))
    by (constructor; [now apply demo_apart|constructor]).
  split; [apply demo5_reachable|]. split; [now apply twin5_reachable|]. split; [apply twin5_similar|].
  split; [discriminate|]. split; [reflexivity|]. split; [exact A|].
  destruct (demo5_analysed None) as (f & s' & P & E & G). exists f. split; auto.
  destruct (similar_analysis k ltac:(lra) None demo5 (twin5 k)) as (X & Y); auto.
  - apply demo5_reachable.
  - now apply twin5_reachable.
  - apply twin5_similar.
  - discriminate.
  - cbn [exec]. rewrite E in X, Y |- *. cbn [fst snd] in X, Y |- *. destruct (Y eq_refl) as (_ & Z).
    split; auto. split; [now apply G|]. rewrite Z. now apply G.
Qed.
