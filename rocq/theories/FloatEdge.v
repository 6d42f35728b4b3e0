(** * FloatEdge: binary64 runs with infinite, overflowing and NaN numbers. *)
From Coq Require Import ZArith List Bool String SpecFloat.
From Verif Require Import Num Py Validation Utilities Objects Slope Planes Analysis
     Dynamic Api ListFacts FloatNum FloatWitness FloatMore SearchFacts BinaryFacts.
Import ListNotations.
Local Open Scope Z_scope.

(** an infinite line load at x = 6.5; the first circle starts at 6, the second at 6.9 *)
Definition infinite_load {EN : Env} : st float :=
  bank [ AnalysisOpts (Some 10) None None None None;
         NewLload (PFloat (S754_infinity false)) (fl 3 2) "red" false; SetLls [RefLload 0];
         arc; AddCircle (f_lit 12 1) (f_lit 12 1) (f_lit 55 10) ].
Lemma nan_reported : exists (EN : Env) (s s' : st float) f,
  reachable s /\ analyse_slope None s = (Ok tt, s') /\
  get_min_FOS (snd s') = Ok (Some S754_nan) /\
  (exists p, In p (s_search (snd s')) /\ p_fos p = Some (Some f)) /\ micro f = 1904326.
Proof.
  exists plainEnv, (@infinite_load plainEnv). do 2 eexists.
  split; [unfold infinite_load, bank; rewrite <- ?app_assoc;
          reach (fl 3 1) (@PNone float) (fl 4 1)|].
  split; [vm_compute; reflexivity|]. split; [reflexivity|].
  split; [eexists; split; [right; left; reflexivity|reflexivity]|]. vm_compute. reflexivity.
Qed.

(** four times 10^308 is infinite *)
Definition huge : float := f_of_Z (10 ^ 308).
Lemma overflow_moves : exists (EN : Env) (s s' : st float),
  reachable s /\ exec (SetBoundary (PFloat huge) PNone (fl 1 1)) s = (Err ValueError, s') /\
  micro (g_height (s_geom (snd s))) = 3000000 /\ g_height (s_geom (snd s')) = huge /\
  s_limits (snd s') = s_limits (snd s) /\ micro (lim_right (s_limits (snd s'))) = 20000000.
Proof.
  exists plainEnv, (@bank plainEnv []). eexists.
  split; [unfold bank; reach (fl 3 1) (@PNone float) (fl 4 1)|].
  split; [vm_compute; reflexivity|]. repeat split; vm_compute; reflexivity.
Qed.

(** NaN passes every comparison made *)
Lemma nan_accepted : exists (EN : Env) (s s' : st float),
  reachable s /\ exec (SetLimits (PFloat S754_nan) (fl 20 1) (fl 8 1) (fl 12 1)) s = (Ok tt, s') /\
  lim_left (s_limits (snd s')) = S754_nan.
Proof.
  exists plainEnv, (@bank plainEnv []). eexists.
  split; [unfold bank; reach (fl 3 1) (@PNone float) (fl 4 1)|].
  split; vm_compute; reflexivity.
Qed.

Lemma plain_limits : exists (EN : Env) (s : st float), reachable s /\
  numeric (lim_left (s_limits (snd s))) /\ numeric (lim_left_r (s_limits (snd s))) /\
  numeric (lim_right_l (s_limits (snd s))) /\ numeric (lim_right (s_limits (snd s))) /\
  micro (g_ext_l (s_geom (snd s))) = 20000000 /\ s_slices (snd s) = 25.
Proof.
  exists plainEnv, (@bank plainEnv []).
  split; [unfold bank; reach (fl 3 1) (@PNone float) (fl 4 1)|].
  unfold numeric. do 4 (split; [vm_compute; discriminate|]). split; vm_compute; reflexivity.
Qed.

Definition two_circles {EN : Env} : st float :=
  bank [ AnalysisOpts (Some 10) None None None None;
         arc; AddCircle (f_lit 12 1) (f_lit 12 1) (f_lit 55 10) ].
Definition no_nan (v : view float) (c : plane float) : bool :=
  match factor v c with Ok (Some S754_nan) => false | _ => true end.
Lemma two_numbers : exists (EN : Env) (s s' : st float) v,
  reachable s /\ analyse_slope None s = (Ok tt, s') /\ view_of s = Ok v /\
  List.length (s_search (snd s')) = 2%nat /\ analysed s v (s_planes (snd s)) /\
  (forall c f, In c (s_planes (snd s)) -> factor v c = Ok (Some f) -> f <> S754_nan).
Proof.
  pose (s := @two_circles plainEnv).
  destruct (view_of s) as [v|e] eqn:Ev; [|vm_compute in Ev; discriminate].
  destruct (analyse_slope None s) as [r s'] eqn:Ea.
  exists plainEnv, s, s', v.
  split; [unfold s, two_circles, bank; rewrite <- ?app_assoc;
          reach (fl 3 1) (@PNone float) (fl 4 1)|].
  assert (A : match view_of s with
              | Ok w => forallb (no_nan w) (s_planes (snd s)) | Err _ => false end = true)
    by (vm_compute; reflexivity).
  assert (L : (match analyse_slope None s with
               | (Ok _, x) => List.length (s_search (snd x)) | _ => O end) = 2%nat)
    by (vm_compute; reflexivity).
  assert (N : s_planes (snd s) <> []) by (vm_compute; discriminate).
  rewrite Ev in A. rewrite Ea in L. destruct r as [[]|e]; [|discriminate L].
  split; [exact Ea|]. split; [exact Ev|]. split; [exact L|]. split; [right; now split|].
  rewrite forallb_forall in A. intros c f I E Q. specialize (A c I). unfold no_nan in A.
  rewrite E, Q in A. discriminate A.
Qed.

Lemma two_rejections : exists (EN : Env) (s : st float),
  reachable s /\ fst (exec (SetBoundary (PFloat huge) PNone (fl 1 1)) s) = Err ValueError /\
  exec (SetBoundary (fl (-1) 1) PNone (fl 1 1)) s = (Err ValueError, s).
Proof.
  exists plainEnv, (@bank plainEnv []).
  split; [unfold bank; reach (fl 3 1) (@PNone float) (fl 4 1)|].
  split; vm_compute; reflexivity.
Qed.
