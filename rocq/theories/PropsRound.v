(** * PropsRound: what rounding cannot do (C36, C39). *)
From Coq Require Import ZArith List Bool String SpecFloat.
From Verif Require Import Num Py Validation Utilities Objects Slope Planes Analysis
     Dynamic Api FloatNum FloatWitness FloatMore BinaryFacts RoundFacts.
Import ListNotations.

(** ** C36: a valid model can crash by rounding ([C36_rounding_refuted]), but in
    any arithmetic only with one of four exceptions, and the model it was asked
    about is what it was before. *)
Theorem C36_kinds_partial : forall (T : Type) (NT : Num T) (EN : Env) (m : option T) (s : st T) v e,
  view_of s = Ok v -> fst (exec (Analyse m) s) = Err e ->
  (e = TypeError \/ e = ValueError \/ e = ZeroDivisionError \/ e = NanProduced) /\
  fst (snd (exec (Analyse m) s)) = fst s /\ view_of (snd (exec (Analyse m) s)) = Ok v.
Proof.
  intros T NT EN m s v e V E. cbn [exec] in *. split; [exact (analyse_kinds m s v e V E)|].
  split; [exact (analyse_heap m s)|]. rewrite <- V. exact (analyse_view m s).
Qed.
Print Assumptions C36_kinds_partial.
Example C36_kinds_example : exists (EN : Env) (s : st float) v,
  reachable s /\ view_of s = Ok v /\ fst (exec (Analyse None) s) = Err TypeError.
Proof.
  exists plainEnv, (@narrow plainEnv). eexists.
  split; [unfold narrow; reach (fl 1 1) (@PNone float) (fl 273 100)|].
  split; vm_compute; reflexivity.
Qed.

(** ** C39: a load can be lost or doubled by rounding ([C39_lost_refuted],
    [C39_doubled_refuted]), but only where neighbouring slices compute different
    borders.  [touching]: they compute the same; [upright]: no slice is turned
    round. *)
Theorem C39_shared_partial : forall (v : view float) cx cy r a c b s0 sl co,
  slices_of v cx cy r a c = Ok (Some (b, s0 :: sl)) ->
  touching (map (strip b) (s0 :: sl)) -> Forall upright (map (strip b) (s0 :: sl)) ->
  numeric co ->
  List.length (filter (fun s => takes co (strip b s)) (s0 :: sl)) =
    if takes co (fst (strip b s0), snd (strip b (last sl s0))) then 1%nat else 0%nat.
Proof. intros v cx cy r a c b s0 sl co E. exact (load_once v cx cy r a c b (s0 :: sl) co s0 sl E eq_refl). Qed.
Print Assumptions C39_shared_partial.
(** Apart from its line loads every slice is what it is without any, and each
    load standing on its strip is added once. *)
Theorem C39_added_partial : forall (T : Type) (NT : Num T) (v : view T) cx cy r a c,
  slices_of v cx cy r a c =
    match slices_of (unloaded v) cx cy r a c with
    | Err e => Err e
    | Ok None => Ok None
    | Ok (Some (b, sl)) => Ok (Some (b, map (fun s =>
        with_W (fold_left (fun w l => if nleb (nsub (sl_x s) (ndiv b (nz 2))) (fst l) &&
                                         nltb (fst l) (nadd (sl_x s) (ndiv b (nz 2)))
                                      then nadd w (snd l) else w) (v_lls v) (sl_W s)) s) sl))
    end.
Proof.
  intros T NT v cx cy r a c. rewrite slices_loaded.
  destruct (slices_of (unloaded v) cx cy r a c) as [[[b sl]|]|e]; reflexivity.
Qed.
Print Assumptions C39_added_partial.
Example C39_example : exists (EN : Env) (s : st float) v p b sl c m,
  reachable s /\ view_of s = Ok v /\ s_planes (snd s) = [p] /\
  slices_of v (p_cx p) (p_cy p) (p_radius p) (fst (p_l p)) (fst (p_r p)) = Ok (Some (b, sl)) /\
  List.length sl = 24%nat /\ touching (map (strip b) sl) /\ Forall upright (map (strip b) sl) /\
  In (c, m) (v_lls v) /\ numeric c.
Proof.
  exists plainEnv.
  exists (@bank plainEnv ([AnalysisOpts (Some 24%Z) None None None None; arc] ++ load_at (fl 128 100))).
  destruct (sharing_ok (@bank plainEnv ([AnalysisOpts (Some 24%Z) None None None None; arc] ++ load_at (fl 128 100))))
    as (v & p & b & sl & c & m & H); [vm_compute; reflexivity|].
  exists v, p, b, sl, c, m. split; [|exact H].
  unfold bank. reach (fl 3 1) (@PNone float) (fl 4 1).
Qed.
