(** * PropsAccept: which calls are accepted, and how the others fail (C103). *)
From Coq Require Import ZArith Reals Lra List Bool String.
From Verif Require Import Num Py Validation Utilities Objects Slope Planes Analysis Dynamic
     Api RealNum RealFacts Spec AngleFacts AcceptFacts Demo.
Import ListNotations.
Local Open Scope R_scope.

(** The calls that build or change a model: everything but the two analyses.  [accepts] says
    what the arguments have to be; [raises] what is raised otherwise. *)
Theorem C103_accepted : forall (EN : Env) (s : st R) o, reachable s ->
  match o with Analyse _ | AnalyseDynamic _ => False | _ => True end ->
  (exists s', exec o s = (Ok tt, s')) <-> accepts s o.
Proof. exact @accepted_iff. Qed.
Print Assumptions C103_accepted.
Theorem C103_raises : forall (EN : Env) (s s' : st R) o e, reachable s ->
  match o with Analyse _ | AnalyseDynamic _ => False | _ => True end ->
  exec o s = (Err e, s') -> raises s o e.
Proof. intros EN s s' o e. exact (refused_kind s o e s'). Qed.
Print Assumptions C103_raises.

(** Removing things, the options of the analysis and a circle never fail; setting loads only
    for an object that does not exist. *)
Theorem C103_never : forall (EN : Env) (s : st R) o, reachable s ->
  match o with
  | RemoveWater | AnalysisOpts _ _ _ _ _ | RemoveLimits | AddCircle _ _ _ | RemovePlanes => True
  | RemoveUdls l _ => forall n, In n l -> (n < List.length (h_udls (fst s)))%nat
  | RemoveLls l _ => forall n, In n l -> (n < List.length (h_lls (fst s)))%nat
  | RemoveMaterial m _ _ =>
      match m with Some (RefMaterial n) => (n < List.length (h_materials (fst s)))%nat | None => True | _ => False end
  | SetUdls l => forall r, In r l -> exists n, r = RefUdl n /\ (n < List.length (h_udls (fst s)))%nat
  | SetLls l => forall r, In r l -> exists n, r = RefLload n /\ (n < List.length (h_lls (fst s)))%nat
  | _ => False
  end -> exists s', exec o s = (Ok tt, s').
Proof.
  intros EN s o RS A. apply (proj2 (accepted_iff s o RS ltac:(destruct o; cbn; auto))).
  destruct o; try contradiction; cbn [accepts]; auto.
  - intros r I. destruct (A r I) as (n & -> & L). exact L.
  - intros r I. apply in_map_iff in I. destruct I as (n & <- & I). auto.
  - intros r I. destruct (A r I) as (n & -> & L). exact L.
  - intros r I. apply in_map_iff in I. destruct I as (n & <- & I). auto.
  - destruct m as [[n| | |]|]; try contradiction; auto. intros r [ <- | [] ]. exact A.
Qed.
Print Assumptions C103_never.

Example C103_demo : forall EN : Env, reachable demo /\
  accepts demo (NewMaterial (PInt 20) (PInt 35) (PFloat (-2)) (PInt 5) PNone PNone) /\
  ~ accepts demo (NewMaterial (PInt 51) (PInt 35) (PInt 2) (PInt 5) PNone PNone) /\
  accepts demo (SetLimits (PInt 1) PNone PNone PNone) /\
  ~ accepts demo (SetLimits PNone PNone PNone (PInt 15)) /\
  accepts demo (AddEntryExit 2 15 3) /\ ~ accepts demo (AddEntryExit 2 21 3).
Proof.
  intros EN. split; [apply demo_reachable|]. cbn [accepts]. repeat split; try lra.
  - exists 20. cbn. lra.
  - exists 35. cbn. lra.
  - exists EmptyString. reflexivity.
  - exists EmptyString. reflexivity.
  - intros (((x & D & P) & _) & _). cbn in D. lra.
  - exists 1, 8, 20, 8. unfold given_or. cbn. repeat split; auto; try congruence; try lra.
    + right. split; [discriminate|reflexivity].
    + rminmax; lra.
    + rminmax; lra.
  - intros (lx & lxr & rx & rxl & _ & _ & _ & _ & _ & Q & _). destruct Q as (Q & _); [discriminate|]. now apply Q.
  - cbn. lra.
  - cbn. lra.
  - cbn. lra.
Qed.
