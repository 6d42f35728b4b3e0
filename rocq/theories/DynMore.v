(** * DynMore: the search for the critical offset of dynamic loads (C48-C51). *)
From Coq Require Import ZArith Reals Lra Lia List Bool String Permutation Sorted.
From Verif Require Import Num Py Validation Utilities Objects Slope Planes Analysis
     Dynamic Api RealNum RealFacts ListFacts MonadFacts SlopeFacts MaterialFacts KeepFacts
     Invariant History Spec EditFacts LayerFacts LoadFacts DynFacts FitFacts OptionFacts
     SearchFacts.
Import ListNotations.
Local Open Scope R_scope.

(** ** The intended search: false position between two offsets *)
Inductive stage : Type :=
| Start                       (* nothing tried *)
| One (f0 : R)                (* the factor at offset 0 *)
| Br (l lf r rf : R).         (* two offsets and their recorded factors *)

(** the next offset to be tried *)
Definition next (c far : R) (s : stage) (o : R) : Prop :=
  match s with
  | Start => o = 0
  | One f0 => f0 <= c /\ o = far
  | Br l lf r rf => rf <= c <= lf /\ l <> r /\ lf <> rf /\
                    (o - r) * (lf - rf) = (c - rf) * (l - r)
  end.
(** a factor recorded for [x], after [o] has been tried *)
Definition refresh (o f x fx : R) : R := if Req_EM_T o x then f else fx.
Inductive after (c : R) : stage -> R -> R -> stage -> Prop :=
| af_start o f : after c Start o f (One f)
| af_far f0 o f : after c (One f0) o f (Br o f 0 (refresh o f 0 f0))
| af_low l lf r rf o f : f < c ->
    after c (Br l lf r rf) o f (Br l (refresh o f l lf) o f)
| af_high l lf r rf o f : c <= f ->
    after c (Br l lf r rf) o f (Br o f r (refresh o f r rf)).
Inductive goes (c far : R) : stage -> list (R * R) -> stage -> Prop :=
| g_nil s : goes c far s [] s
| g_step s o f s1 tr s2 :
    next c far s o -> after c s o f s1 -> goes c far s1 tr s2 ->
    goes c far s ((o, f) :: tr) s2.

(** [k] thousandths is [f] rounded to three decimals, ties to even *)
Definition rounds_to (f : R) (k : Z) : Prop :=
  Rabs (1000 * f - IZR k) < 1 / 2 \/ (Rabs (1000 * f - IZR k) = 1 / 2 /\ Z.even k = true).
(** the search stops at a factor [f] that comes after the factor [q] *)
Definition stop (c q f : R) : Prop :=
  q <> f /\ (Rabs (q - f) <= 1 / 100 \/ Rabs (f - c) <= 1 / 100) /\
  exists k, rounds_to f k /\ c <= IZR k / 1000.
(** none of the trials after the factor [q] is a reason to stop *)
Fixpoint never (c q : R) (tr : list (R * R)) : Prop :=
  match tr with [] => True | (_, f) :: tr' => ~ stop c q f /\ never c f tr' end.
Definition last_factor (q : R) (tr : list (R * R)) : R :=
  fold_left (fun _ of => snd of) tr q.
(** the last factor recorded for an offset *)
Fixpoint last_at (o : R) (tr : list (R * R)) : option R :=
  match tr with
  | [] => None
  | (o', f) :: tr' => match last_at o tr' with
                      | Some g => Some g
                      | None => if Req_EM_T o' o then Some f else None
                      end
  end.

Lemma next_between c far l lf r rf o :
  next c far (Br l lf r rf) o -> Rmin l r <= o <= Rmax l r.
Proof.
  intros (B & D & L & E).
  set (q := (c - rf) / (lf - rf)).
  assert (Hq : 0 <= q <= 1).
  { unfold q. split.
    - apply Rmult_le_pos; [lra|]. apply Rlt_le, Rinv_0_lt_compat. lra.
    - apply (Rmult_le_reg_r (lf - rf)); [lra|]. unfold Rdiv.
      rewrite Rmult_assoc, Rinv_l by lra. lra. }
  assert (o = r + q * (l - r)) as ->.
  { unfold q. apply (Rmult_eq_reg_r (lf - rf)); [|lra].
    replace ((r + (c - rf) / (lf - rf) * (l - r)) * (lf - rf))
      with (r * (lf - rf) + (c - rf) * (l - r)) by (field; lra). lra. }
  pose proof (Rmin_l l r). pose proof (Rmin_r l r).
  pose proof (Rmax_l l r). pose proof (Rmax_r l r).
  split; nra.
Qed.

Lemma next_bracketed c far l lf r rf o :
  next c far (Br l lf r rf) o -> rf <= c <= lf /\ Rmin l r <= o <= Rmax l r.
Proof. intros N. split; [apply N|]. eapply next_between; eauto. Qed.

(** every tried offset lies between 0 and the far one *)
Definition inside (far : R) (s : stage) : Prop :=
  match s with Br l _ r _ => Rmin 0 far <= l <= Rmax 0 far /\ Rmin 0 far <= r <= Rmax 0 far
             | _ => True end.
Lemma next_inside c far s o : inside far s -> next c far s o -> Rmin 0 far <= o <= Rmax 0 far.
Proof.
  destruct s as [|f0|l lf r rf]; cbn [inside].
  - intros _ ->. split; [apply Rmin_l|apply Rmax_l].
  - intros _ (_ & ->). split; [apply Rmin_r|apply Rmax_r].
  - intros (H1 & H2) N. apply next_between in N. revert N. unfold Rmin at 1, Rmax at 1.
    destruct (Rle_dec l r); lra.
Qed.
Lemma goes_inside c far s tr s2 : goes c far s tr s2 -> inside far s ->
  Forall (fun of => Rmin 0 far <= fst of <= Rmax 0 far) tr /\ inside far s2.
Proof.
  induction 1 as [s|s o f s1 tr s2 N A G IH]; intros I; [split; auto|].
  pose proof (next_inside _ _ _ _ I N) as Ho.
  assert (I1 : inside far s1).
  { inversion A; subst; cbn [inside] in *; auto; try tauto.
    split; [exact Ho|]. split; [apply Rmin_l|apply Rmax_l]. }
  destruct (IH I1) as (F & I2). split; auto.
Qed.
(** the factors at the two ends enclose the critical one *)
Definition enclosing (c : R) (s : stage) : Prop :=
  match s with Br l lf r rf => l <> r -> rf <= c <= lf | _ => True end.
Lemma goes_enclosing c far s tr s2 : goes c far s tr s2 ->
  match s with Br _ _ _ _ => enclosing c s | _ => False end -> enclosing c s2.
Proof.
  induction 1 as [s|s o f s1 tr s2 N A G IH]; intros I; [destruct s; tauto|].
  apply IH. inversion A; subst; try tauto; cbn [enclosing] in *; intros D.
  - destruct N as (B & N). unfold refresh. destruct (Req_EM_T o l); [congruence|]. lra.
  - destruct N as (B & N). unfold refresh. destruct (Req_EM_T o r); [congruence|]. lra.
Qed.

Lemma near_rounds x k : Rnear x = k <->
  Rabs (x - IZR k) < 1 / 2 \/ (Rabs (x - IZR k) = 1 / 2 /\ Z.even k = true).
Proof.
  unfold Rnear. set (f := Int_part x). cbv zeta.
  assert (F : IZR f <= x < IZR f + 1) by (destruct (base_Int_part x); unfold f; lra).
  split.
  - intros <-. destruct (Rlt_dec _ _) as [L|L]; [left; apply Rabs_def1; lra|].
    destruct (Rlt_dec _ _) as [M|M]; [left; rewrite plus_IZR; apply Rabs_def1; lra|].
    assert (x = IZR f + 1 / 2) by lra. right. destruct (Z.even f) eqn:Ev.
    + split; auto. rewrite Rabs_right; lra.
    + rewrite plus_IZR, Rabs_left by lra. split; [lra|]. now rewrite Z.even_add, Ev.
  - intros C. assert (B : - (1 / 2) <= x - IZR k <= 1 / 2) by (revert C; split_Rabs; lra).
    assert (D : k = f \/ k = (f + 1)%Z).
    { assert (IZR k < IZR (f + 2)) by (rewrite plus_IZR; lra).
      assert (IZR (f - 1) < IZR k) by (rewrite minus_IZR; lra). apply lt_IZR in H, H0. lia. }
    destruct (Rlt_dec _ _) as [L|L]; [|destruct (Rlt_dec _ _) as [M|M]].
    + destruct D as [->| ->]; auto. rewrite plus_IZR in B. lra.
    + destruct D as [->| ->]; auto. lra.
    + assert (x = IZR f + 1 / 2) by lra.
      destruct D as [->| ->].
      * destruct C as [C|(_ & ->)]; auto. rewrite Rabs_right in C; lra.
      * rewrite plus_IZR in C. destruct C as [C|(_ & C)]; [rewrite Rabs_left in C; lra|].
        rewrite Z.even_add in C. now destruct (Z.even f).
Qed.
Lemma converged_stop q f c : converged q f c = true <-> stop c q f.
Proof.
  unfold converged, stop. rewrite ?nlit_R. unR. rewrite !andb_true_iff, orb_true_iff, negb_true_iff.
  rewrite <- !Rleb_true, <- Reqb_true, not_true_iff_false, and_assoc.
  assert (Q : Rleb c (Rround 3 f) = true <-> exists k, rounds_to f k /\ c <= IZR k / 1000).
  { rewrite Rleb_true. unfold Rround, rounds_to. replace (10 ^ 3) with 1000 by lra. rewrite (Rmult_comm f). split.
    - intros L. exists (Rnear (1000 * f)). split; auto. now apply near_rounds.
    - intros (k & K & L). apply near_rounds in K. now rewrite K. }
  rewrite Q. reflexivity.
Qed.

Section Trials.
  Context {EN : Env}.
  Notation stR := (st R).
  (** consecutive successful trials: offset and factor *)
  Inductive trials : stR -> list (R * R) -> stR -> Prop :=
  | tr_nil s : trials s [] s
  | tr_cons o f s s1 tr s2 : try_offset o s = (Ok f, s1) -> trials s1 tr s2 ->
      trials s ((o, f) :: tr) s2.
  Lemma trials_app s a s1 b s2 : trials s a s1 -> trials s1 b s2 -> trials s (a ++ b) s2.
  Proof. induction 1; cbn; auto. intros. econstructor; eauto. Qed.

  (** what the table says about the two ends *)
  Definition table (d : list (R * R)) (l lf r rf : R) : Prop :=
    dict_get l d = Ok lf /\ dict_get r d = Ok rf.
  Lemma Reqb_EM {A} (x y : R) (a b : A) : (if Reqb x y then a else b) = if Req_EM_T x y then a else b.
  Proof. destruct (Reqb x y) eqn:E, (Req_EM_T x y); rbool; auto; contradiction. Qed.
  Lemma table_low d l lf r rf o f :
    table d l lf r rf -> table (dict_set o f d) l (refresh o f l lf) o f.
  Proof.
    intros (H1 & H2). unfold table, refresh. rewrite !dict_get_set, !Reqb_EM, H1.
    destruct (Req_EM_T o l), (Req_EM_T o o); auto; contradiction.
  Qed.
  Lemma table_high d l lf r rf o f :
    table d l lf r rf -> table (dict_set o f d) o f r (refresh o f r rf).
  Proof.
    intros (H1 & H2). unfold table, refresh. rewrite !dict_get_set, !Reqb_EM, H2.
    destruct (Req_EM_T o r), (Req_EM_T o o); auto; contradiction.
  Qed.

  Lemma midpoint_next c far l lf r rf : (l <> r -> rf <= crit_val c <= lf) ->
    match midpoint_of c l r lf rf with
    | Ok o => next (crit_val c) far (Br l lf r rf) o
    | Err e => (e = ZeroDivisionError /\ (l = r \/ lf = rf)) \/
               (e = TypeError /\ l <> r /\ exists t, c = CDecimal t)
    end.
  Proof.
    intros B. unfold midpoint_of, pydiv. unR.
    destruct (Reqb (l - r) 0) eqn:E1; cbn [rbind]; rbool.
    { left. split; auto. left. lra. }
    destruct c as [c|c]; cbn [crit_sub rbind crit_val] in *; [|right; split; auto; split; [lra|eauto]].
    unR. destruct (Reqb ((lf - rf) / (l - r)) 0) eqn:E2; cbn [rbind]; rbool.
    { left. split; auto. right. unfold Rdiv in E2. apply Rmult_integral in E2.
      destruct E2 as [E2|E2]; [lra|]. exfalso. revert E2. apply Rinv_neq_0_compat. lra. }
    assert (L : lf - rf <> 0).
    { intros Z. apply E2. rewrite Z. unfold Rdiv. apply Rmult_0_l. }
    cbn [next]. split; [apply B; lra|]. split; [lra|]. split; [lra|].
    field. split; [lra|exact L].
  Qed.

  (** how the loop can end *)
  Definition loop_end (c : critical R) (far : R) (st2 : stage) (s1 : stR) (more : bool)
             (res : Py.res unit) (s' : stR) : Prop :=
    (res = Ok tt /\ s' = s1) \/
    (exists o e, more = true /\ next (crit_val c) far st2 o /\
                 try_offset o s1 = (Err e, s') /\ res = Err e) \/
    (exists l lf r rf, st2 = Br l lf r rf /\ s' = s1 /\
       ((res = Err ZeroDivisionError /\ (l = r \/ lf = rf)) \/
        (res = Err TypeError /\ l <> r /\ exists t, c = CDecimal t))).

  Lemma loop_spec k : forall c far l lf r rf p (s : stR) res s',
    table (s_dynamic (snd s)) l lf r rf -> (l <> r -> rf <= crit_val c <= lf) ->
    dynamic_loop k c l r p s = (res, s') ->
    exists tr st2 s1, (List.length tr <= k)%nat /\ trials s tr s1 /\
      goes (crit_val c) far (Br l lf r rf) tr st2 /\
      loop_end c far st2 s1 (Nat.ltb (List.length tr) k) res s' /\
      (res <> Ok tt -> never (crit_val c) p tr) /\
      (res = Ok tt -> k <> O ->
       exists tr' o f, tr = tr' ++ [(o, f)] /\ never (crit_val c) p tr' /\
         ((List.length tr < k)%nat -> stop (crit_val c) (last_factor p tr') f)).
  Proof.
    induction k as [|k IH]; intros c far l lf r rf p s res s' T B E; cbn [dynamic_loop] in E.
    - injection E as <- <-. exists [], (Br l lf r rf), s.
      ands_; auto using tr_nil, g_nil; try (left; auto; fail); try congruence.
    - revert E. destruct T as (T1 & T2). msteps. rewrite T1. msteps. rewrite T2. msteps.
      pose proof (midpoint_next c far l lf r rf B) as M.
      destruct (midpoint_of c l r lf rf) as [o|e].
      2:{ intros E. injection E as <- <-. exists [], (Br l lf r rf), s.
          ands_; auto using tr_nil, g_nil; try congruence; try (cbn; lia).
          right. right. exists l, lf, r, rf. split; auto. split; auto.
          destruct M as [(-> & M)|(-> & M)]; auto. }
      msteps. destruct (try_offset o s) as [[f|e] s1] eqn:E1.
      2:{ erewrite bind_err by exact E1. intros E. injection E as <- <-.
          exists [], (Br l lf r rf), s.
          ands_; auto using tr_nil, g_nil; try congruence; try (cbn; lia).
          right. left. exists o, e. auto. }
      erewrite bind_ok by exact E1.
      pose proof (try_offset_ok _ _ _ _ E1) as Ed.
      assert (A : exists st1, after (crit_val c) (Br l lf r rf) o f st1 /\
                  st1 = if Rltb f (crit_val c) then Br l (refresh o f l lf) o f
                        else Br o f r (refresh o f r rf)).
      { destruct (Rltb f (crit_val c)) eqn:Ef; rbool.
        - eexists. split; [now constructor|reflexivity].
        - eexists. split; [constructor; lra|reflexivity]. }
      destruct A as (st1 & A & Est1).
      destruct (converged p f (crit_val c)) eqn:Ec.
      { intros E. injection E as <- <-. exists [(o, f)], st1, s1.
        ands_.
        - cbn. lia.
        - econstructor; [exact E1|constructor].
        - econstructor; [exact M|exact A|constructor].
        - left. auto.
        - congruence.
        - intros _ _. exists [], o, f. split; auto. split; [exact I|]. intros _. now apply converged_stop. }
      assert (Ns : ~ stop (crit_val c) p f) by (rewrite <- converged_stop; congruence).
      assert (Fin : forall l' lf' r' rf' res s',
         st1 = Br l' lf' r' rf' ->
         table (s_dynamic (snd s1)) l' lf' r' rf' ->
         dynamic_loop k c l' r' f s1 = (res, s') ->
         exists tr st2 s1', (List.length tr <= S k)%nat /\ trials s tr s1' /\
           goes (crit_val c) far (Br l lf r rf) tr st2 /\
           loop_end c far st2 s1' (Nat.ltb (List.length tr) (S k)) res s' /\
           (res <> Ok tt -> never (crit_val c) p tr) /\
           (res = Ok tt -> S k <> O ->
            exists tr' o f, tr = tr' ++ [(o, f)] /\ never (crit_val c) p tr' /\
              ((List.length tr < S k)%nat -> stop (crit_val c) (last_factor p tr') f))).
      { intros l' lf' r' rf' res' s'' Q T' E'.
        assert (B' : l' <> r' -> rf' <= crit_val c <= lf').
        { pose proof (goes_enclosing (crit_val c) far (Br l lf r rf) [(o, f)] st1) as GE.
          rewrite Q in GE. cbn [enclosing] in GE. apply GE.
          - rewrite <- Q. econstructor; [exact M|exact A|constructor].
          - exact B. }
        destruct (IH c far l' lf' r' rf' f s1 res' s'' T' B' E')
          as (tr & st2 & s2 & L & TT & G & LE & Ne & Cv).
        exists ((o, f) :: tr), st2, s2. ands_.
        - cbn. lia.
        - econstructor; eauto.
        - econstructor; [exact M|exact A|]. rewrite Q. exact G.
        - exact LE.
        - intros R1. split; auto.
        - intros R1 _. destruct k as [|k0].
          { destruct tr; [|cbn in L; lia]. exists [], o, f. split; auto. split; [exact I|]. cbn. lia. }
          destruct (Cv R1) as (tr' & o' & f' & -> & C1 & C2); [discriminate|].
          exists ((o, f) :: tr'), o', f'. split; auto. split; [split; auto|]. cbn [List.length last_factor fold_left snd].
          intros R2. apply C2. lia. }
      unR. destruct (Rltb f (crit_val c)) eqn:Ef; rbool; intros E.
      + eapply Fin; [exact Est1| |exact E]. rewrite Ed.
        apply (table_low _ l lf r rf). split; auto.
      + eapply Fin; [exact Est1| |exact E]. rewrite Ed.
        apply (table_high _ l lf). split; auto.
  Qed.
  Definition fresh_table (s : stR) : stR := (fst s, set_s_dynamic [] (snd s)).

  (** The first far offset before the centimetre is taken off (pyslope.py:1745-1751): the
      largest of the slope length and the room that each moving load leaves on the crest *)
  Definition farthest (s : stR) (x : R) : Prop :=
    let room L := fst (g_top (s_geom (snd s))) - L in
    let moving u L := In u (udls_of s) /\ u_dynamic u = true /\ u_length u = Some L in
    g_length (s_geom (snd s)) <= x /\ (forall u L, moving u L -> room L <= x) /\
    (x = g_length (s_geom (snd s)) \/ exists u L, moving u L /\ x = room L).
  Definition endless (s : stR) : Prop :=
    exists u, In u (udls_of s) /\ u_dynamic u = true /\ u_length u = None.
  Lemma far_left_list (top : R) us : forall len, match far_left top len us with
    | Ok x => len <= x /\
        (forall u L, In u us -> u_dynamic u = true -> u_length u = Some L -> top - L <= x) /\
        (x = len \/ exists u L, In u us /\ u_dynamic u = true /\ u_length u = Some L /\ x = top - L) /\
        (forall u, In u us -> u_dynamic u = true -> u_length u <> None)
    | Err e => e = TypeError /\ exists u, In u us /\ u_dynamic u = true /\ u_length u = None
    end.
  Proof.
    induction us as [|u us IH]; intros len; cbn [far_left].
    { split; [lra|]. split; [intros u L []|]. split; [now left|intros u []]. }
    destruct (u_dynamic u) eqn:D; [destruct (u_length u) as [L|] eqn:E|].
    - specialize (IH (pymax len (nsub top L))). destruct (far_left _ _ us) as [x|e].
      + destruct IH as (A & B & C & N). assert (M : len <= x /\ top - L <= x).
        { unfold pymax in A. unR. destruct (Rltb len (top - L)) eqn:Q.
          - apply Rltb_true in Q. lra.
          - apply Rltb_false in Q. lra. }
        split; [apply M|]. split; [|split].
        * intros w K [->|I] DW EW; [replace K with L by congruence; apply M|eauto].
        * destruct C as [->|(w & K & I & P)]; [|right; exists w, K; split; [now right|auto]].
          unfold pymax. unR. destruct (Rltb len (top - L)); [|now left].
          right. exists u, L. split; [now left|auto].
        * intros w [->|I] DW; [congruence|eauto].
      + destruct IH as (-> & w & I & P). split; auto. exists w. split; [now right|auto].
    - split; auto. exists u. split; [now left|auto].
    - specialize (IH len). destruct (far_left _ _ us) as [x|e].
      + destruct IH as (A & B & C & N). split; auto. split; [|split].
        * intros w K [->|I] DW EW; [congruence|eauto].
        * destruct C as [->|(w & K & I & P)]; [now left|right; exists w, K; split; [now right|auto]].
        * intros w [->|I] DW; [congruence|eauto].
      + destruct IH as (-> & w & I & P). split; auto. exists w. split; [now right|auto].
  Qed.
  Lemma far_left_ok (s : stR) x :
    far_left (fst (g_top (s_geom (snd s)))) (g_length (s_geom (snd s))) (udls_of s) = Ok x -> farthest s x /\ ~ endless s.
  Proof.
    intros E. pose proof (far_left_list (fst (g_top (s_geom (snd s)))) (udls_of s) (g_length (s_geom (snd s)))) as P.
    rewrite E in P. destruct P as (A & B & C & N). split.
    - split; auto. split; [intros u L (I & D & Q); eauto|].
      destruct C as [->|(u & L & I & D & Q & ->)]; [now left|right; exists u, L; auto].
    - intros (u & I & D & Q). eapply N; eauto.
  Qed.
  Lemma far_left_err (s : stR) e : far_left (fst (g_top (s_geom (snd s)))) (g_length (s_geom (snd s))) (udls_of s) = Err e -> e = TypeError /\ endless s.
  Proof.
    intros E. pose proof (far_left_list (fst (g_top (s_geom (snd s)))) (udls_of s) (g_length (s_geom (snd s)))) as P.
    now rewrite E in P.
  Qed.
  Lemma dynamic_spec c (s : stR) res s' :
    analyse_dynamic c s = (res, s') ->
    (endless s /\ res = Err TypeError /\ s' = fresh_table s) \/
    exists far tr st2 s1,
      farthest s (far + 1 / 100) /\ ~ endless s /\
      (List.length tr <= 12)%nat /\ trials (fresh_table s) tr s1 /\
      goes (crit_val c) far Start tr st2 /\
      ( (* returned 0 *)
        (exists f, res = Ok (Some 0%Z) /\ tr = [(0, f)] /\ crit_val c < f /\ s' = s1) \/
        (* returned 1 *)
        (exists f0 f1, res = Ok (Some 1%Z) /\ tr = [(0, f0); (far, f1)] /\ f1 < crit_val c /\ s' = s1) \/
        (* returned None *)
        (res = Ok None /\ (2 < List.length tr)%nat /\
         s' = (fst s1, set_s_dynamic (sort_by snd (s_dynamic (snd s1))) (snd s1)) /\
         exists f0 f1 tr' o f, tr = (0, f0) :: (far, f1) :: tr' ++ [(o, f)] /\
           never (crit_val c) 0 tr' /\
           ((List.length tr < 12)%nat -> stop (crit_val c) (last_factor 0 tr') f)) \/
        (* a trial raised *)
        (exists o e, (List.length tr < 12)%nat /\ next (crit_val c) far st2 o /\
                     never (crit_val c) 0 (skipn 2 tr) /\ try_offset o s1 = (Err e, s') /\ res = Err e) \/
        (* no next offset *)
        (exists l lf r rf, st2 = Br l lf r rf /\ s' = s1 /\ never (crit_val c) 0 (skipn 2 tr) /\
           (l <> r -> rf <= crit_val c <= lf) /\
           ((res = Err ZeroDivisionError /\ (l = r \/ lf = rf)) \/
            (res = Err TypeError /\ l <> r /\ exists t, c = CDecimal t)))).
  Proof.
    unfold analyse_dynamic. msteps.
    fold (fresh_table s). set (s0 := fresh_table s). change (udls_of s0) with (udls_of s).
    destruct (far_left _ _ _) as [fl|e] eqn:Efl.
    2:{ intros E. injection E as <- <-. left. destruct (far_left_err s e Efl) as (-> & N). auto. }
    destruct (far_left_ok s fl Efl) as (Ef & NEf). clear Efl.
    msteps. rewrite ?nlit_R, ?nz_R. unR. set (far := fl - 1 / 100).
    intros E. right. exists far. revert E.
    replace fl with (far + 1 / 100) in Ef by (unfold far; lra).
    destruct (try_offset 0 s0) as [[f0|e] s1] eqn:E1.
    2:{ erewrite bind_err by exact E1. intros E. injection E as <- <-.
        exists [], Start, s0. ands_; auto using tr_nil, g_nil; [cbn; lia|].
        do 3 right. left. exists 0, e. ands_; auto; cbn; lia || auto. }
    erewrite bind_ok by exact E1.
    destruct (Rltb (crit_val c) f0) eqn:T1; rbool.
    { intros E. injection E as <- <-. exists [(0, f0)], (One f0), s1. ands_; auto.
      - cbn; lia.
      - econstructor; [exact E1|constructor].
      - econstructor; [reflexivity|constructor|constructor].
      - left. exists f0. auto. }
    destruct (try_offset far s1) as [[f1|e] s2] eqn:E2.
    2:{ erewrite bind_err by exact E2. intros E. injection E as <- <-.
        exists [(0, f0)], (One f0), s1. ands_; auto.
        - cbn; lia.
        - econstructor; [exact E1|constructor].
        - econstructor; [reflexivity|constructor|constructor].
        - do 3 right. left. exists far, e. ands_; auto; cbn; try lia. split; auto. }
    erewrite bind_ok by exact E2.
    assert (TT : trials s0 [(0, f0); (far, f1)] s2).
    { econstructor; [exact E1|]. econstructor; [exact E2|constructor]. }
    assert (GG : goes (crit_val c) far Start [(0, f0); (far, f1)] (Br far f1 0 (refresh far f1 0 f0))).
    { econstructor; [reflexivity|constructor|].
      econstructor; [split; [exact T1|reflexivity]|constructor|constructor]. }
    destruct (Rltb f1 (crit_val c)) eqn:T2; rbool.
    { intros E. injection E as <- <-. do 3 eexists.
      split; [exact Ef|]. split; [exact NEf|]. split; [|split; [exact TT|split; [exact GG|]]]; [cbn; lia|].
      right. left. exists f0, f1. auto. }
    assert (Tb : table (s_dynamic (snd s2)) far f1 0 (refresh far f1 0 f0)).
    { rewrite (try_offset_ok _ _ _ _ E2), (try_offset_ok _ _ _ _ E1).
      apply (table_high _ 0 f0 0 f0). split; cbn; unR;
      rewrite (proj2 (Reqb_true 0 0)) by reflexivity; reflexivity. }
    assert (B : far <> 0 -> refresh far f1 0 f0 <= crit_val c <= f1).
    { intros D. unfold refresh. destruct (Req_EM_T far 0); [contradiction|lra]. }
    destruct (dynamic_loop 10 c far 0 0 s2) as [r3 s3] eqn:E3.
    destruct (loop_spec 10 c far far f1 0 _ 0 s2 r3 s3 Tb B E3)
      as (tr & st2 & s1' & L & T3 & G3 & LE & Ne & Cv).
    intros E. exists ((0, f0) :: (far, f1) :: tr), st2, s1'.
    split; [exact Ef|]. split; [exact NEf|]. split; [cbn; lia|].
    split; [exact (trials_app _ _ _ _ _ TT T3)|].
    split.
    { econstructor; [reflexivity|constructor|].
      econstructor; [split; [exact T1|reflexivity]|constructor|]. exact G3. }
    right. right. revert E. unfold mbind at 1. rewrite E3. destruct r3 as [[]|e].
    - intros E. left. revert E. msteps. intros E. injection E as <- <-.
      destruct LE as [(_ & ->)|[(o & e & _ & _ & _ & Q)|(l & lf & r & rf & _ & _ & [(Q & _)|(Q & _)])]];
        try discriminate.
      destruct (Cv eq_refl) as (tr' & o & f & -> & C1 & C2); [discriminate|]. ands_; auto.
      + cbn [List.length]. rewrite app_length. cbn. lia.
      + exists f0, f1, tr', o, f. split; auto. split; auto. cbn [List.length]. intros Q. apply C2. lia.
    - intros E. injection E as <- <-. right.
      destruct LE as [(Q & _)|[(o & e' & Q1 & Q2 & Q3 & Q4)|(l & lf & r & rf & Q1 & Q2 & Q3)]].
      + discriminate.
      + left. exists o, e'. apply Nat.ltb_lt in Q1. ands_; auto; [cbn [List.length]; lia| |congruence].
        apply Ne. discriminate.
      + right. exists l, lf, r, rf.
        pose proof (goes_enclosing _ _ _ _ _ G3 B) as Hc. rewrite Q1 in Hc. cbn [enclosing] in Hc.
        split; [exact Q1|]. split; [exact Q2|]. split; [apply Ne; discriminate|]. split; [exact Hc|].
        destruct Q3 as [(Q3 & Q4)|(Q3 & Q4)]; [left|right]; split; auto; congruence.
  Qed.
End Trials.

(** ** The table of results *)
Section Table.
  Context {EN : Env}.
  Notation stR := (st R).
  Lemma dict_set_In (k v : R) d k' v' : NoDup (map fst d) ->
    In (k', v') (dict_set k v d) <-> (k' = k /\ v' = v) \/ (k' <> k /\ In (k', v') d).
  Proof.
    induction d as [|[a b] d IH]; cbn [dict_set map fst]; intros N.
    - cbn. split; [intros [Q|[]]; injection Q as <- <-; auto|].
      intros [(-> & ->)|(_ & [])]; auto.
    - inversion N as [|? ? N1 N2]; subst. unR. destruct (Reqb a k) eqn:E; rbool.
      + subst a. cbn [In]. split.
        * intros [Q|Q]; [injection Q as <- <-; auto|]. right. split; auto.
          intros ->. apply N1. now apply (in_map fst) in Q.
        * intros [(-> & ->)|(D & [Q|Q])]; auto. injection Q as -> ->. contradiction.
      + cbn [In]. rewrite (IH N2). split.
        * intros [Q|[Q|(D & Q)]]; auto. injection Q as -> ->. right. auto.
        * intros [Q|(D & [Q|Q])]; auto.
  Qed.
  Lemma dict_set_nodup (k v : R) d : NoDup (map fst d) -> NoDup (map fst (dict_set k v d)).
  Proof.
    induction d as [|[a b] d IH]; cbn [dict_set map fst]; intros N.
    - constructor; auto.
    - inversion N as [|? ? N1 N2]; subst. unR. destruct (Reqb a k) eqn:E; rbool; cbn [map fst].
      + subst. constructor; auto.
      + constructor; auto. intros Q. apply dict_keys_set in Q as [->|Q]; auto.
  Qed.
  Lemma trials_table s tr s1 : trials s tr s1 -> NoDup (map fst (s_dynamic (snd s))) ->
    NoDup (map fst (s_dynamic (snd s1))) /\
    forall o f, In (o, f) (s_dynamic (snd s1)) <->
      last_at o tr = Some f \/ (last_at o tr = None /\ In (o, f) (s_dynamic (snd s))).
  Proof.
    induction 1 as [s|o f s s1 tr s2 E T IH]; intros N.
    - split; auto. intros o f. cbn. split; auto. intros [Q|(_ & Q)]; [discriminate|auto].
    - pose proof (try_offset_ok _ _ _ _ E) as Ed.
      destruct IH as (N2 & Q2); [rewrite Ed; now apply dict_set_nodup|].
      split; auto. intros o' f'. rewrite Q2, Ed, (dict_set_In _ _ _ _ _ N). cbn [last_at].
      destruct (last_at o' tr) as [g|].
      + split; [intros [Q|(Q & _)]; [auto|discriminate]|].
        intros [Q|(Q & _)]; [auto|discriminate].
      + destruct (Req_EM_T o o') as [->|D]; split.
        * intros [Q|(_ & [(_ & ->)|(D & _)])]; [discriminate|auto|contradiction].
        * intros [Q|(Q & _)]; [injection Q as ->; auto|discriminate].
        * intros [Q|(_ & [(-> & _)|(_ & Q)])]; [discriminate|contradiction|auto].
        * intros [Q|(_ & Q)]; [discriminate|]. right. split; auto.
  Qed.
End Table.

(** ** What a trial changes *)
Section Moved.
  Context {EN : Env}.
  Notation stR := (st R).
  (** everything the user gave for a load, except the offset of a dynamic one *)
  Definition static_udl (u : udl R) :=
    (u_magnitude u, (if u_dynamic u then None else Some (u_offset u)), u_length u, u_color u, u_dynamic u).
  Definition static_ll (l : lload R) :=
    (l_magnitude l, (if l_dynamic l then None else Some (l_offset l)), l_color l, l_dynamic l).
  Definition statics (s : stR) :=
    (map static_udl (h_udls (fst s)), map static_ll (h_lls (fst s)), h_materials (fst s),
     (s_materials (snd s), s_water_depth (snd s), s_water_RL (snd s), s_water_H (snd s),
      opts s, s_min_ext_h (snd s))).
  Definition lists (s : stR) := (s_udls (snd s), s_lls (snd s)).

  Lemma static_udl_core u v : udl_core u = udl_core v -> static_udl u = static_udl v.
  Proof.
    unfold udl_core, static_udl. intros Q. injection Q as -> -> -> -> ->. reflexivity.
  Qed.
  Lemma map_static {A B C} (c : A -> B) (d : A -> C) l l' :
    (forall a b, c a = c b -> d a = d b) -> map c l' = map c l -> map d l' = map d l.
  Proof.
    intros H. revert l'. induction l as [|a l IH]; intros [|b l']; cbn; intros Q; auto; try discriminate.
    injection Q as Q1 Q2. f_equal; auto.
  Qed.

  Lemma statics_udl_xy n (a b : udl R -> R) :
    keeps (same statics) (upd_udl n (fun u => set_udl_xy (a u) (b u) u)).
  Proof. intros s. unfold same, statics. cbn. rewrite map_upd_nth; auto. Qed.
  Lemma statics_ll_coord n (a : lload R -> R) :
    keeps (same statics) (upd_ll n (fun u => set_ll_coord (a u) u)).
  Proof. intros s. unfold same, statics. cbn. rewrite (map_upd_nth static_ll); auto. Qed.
  Hint Resolve statics_udl_xy statics_ll_coord : keeps.
  Lemma statics_udl_coordinates : keeps (same statics) update_udl_coordinates.
  Proof. unfold update_udl_coordinates. untouched. Qed.
  Lemma statics_ll_coordinates : keeps (same statics) update_ll_coordinates.
  Proof. unfold update_ll_coordinates. untouched. Qed.
  Hint Resolve statics_udl_coordinates statics_ll_coordinates : keeps.
  Lemma statics_set_boundary h a l : keeps (same statics) (set_external_boundary h a l).
  Proof. unfold set_external_boundary. untouched. Qed.
  Hint Resolve statics_set_boundary : keeps.
  Lemma statics_boundary_length l : keeps (same statics) (update_boundary_options l PNone).
  Proof. unfold update_boundary_options. cbn [is_none negb]. untouched. Qed.
  Hint Resolve statics_boundary_length : keeps.
  Lemma statics_set_udls l : keeps (same statics) (set_udls l).
  Proof. unfold set_udls. untouched. Qed.
  Lemma statics_set_lls l : keeps (same statics) (set_lls l).
  Proof. unfold set_lls. untouched. Qed.
  Lemma statics_remove_udls l a : keeps (same statics) (remove_udls l a).
  Proof. unfold remove_udls. untouched. Qed.
  Lemma statics_remove_lls l a : keeps (same statics) (remove_lls l a).
  Proof. unfold remove_lls. untouched. Qed.
  Hint Resolve statics_set_udls statics_set_lls statics_remove_udls statics_remove_lls : keeps.
  Lemma statics_analyse m : keeps (same statics) (analyse_slope m).
  Proof. unfold analyse_slope. untouched. Qed.

  Lemma upd_nth_at {A B} (c : A -> B) n f (l : list A) x :
    nth_error l n = Some x -> c (f x) = c x -> map c (upd_nth n f l) = map c l.
  Proof.
    revert n. induction l as [|a l IH]; intros [|n]; cbn; try discriminate; intros Q E.
    - injection Q as ->. now rewrite E.
    - now rewrite IH.
  Qed.
  Lemma statics_move_udl o n :
    keeps (same statics) (u <- get_udl n ;;
      mwhen (u_dynamic u) (upd_udl n (set_udl_offset o)) ;;; set_udls [RefUdl n]).
  Proof.
    intros s. unfold mbind at 1. unfold get_udl, deref.
    destruct (nth_error (h_udls (fst s)) n) as [u|] eqn:E; [|reflexivity].
    assert (K : same statics s (snd (mwhen (u_dynamic u) (upd_udl n (set_udl_offset o)) s))).
    { destruct (u_dynamic u) eqn:D; [|reflexivity]. unfold same, statics. cbn.
      rewrite (upd_nth_at static_udl _ _ _ _ E); auto. unfold static_udl. cbn. now rewrite D. }
    revert K. destruct (mwhen _ _ s) as [[[]|e] s1] eqn:E1; cbn [snd]; intros K.
    - erewrite bind_ok by exact E1. eapply same_trans; [exact K|]. apply statics_set_udls.
    - erewrite bind_err by exact E1. exact K.
  Qed.
  Lemma statics_move_ll o n :
    keeps (same statics) (u <- get_ll n ;;
      mwhen (l_dynamic u) (upd_ll n (set_ll_offset o)) ;;; set_lls [RefLload n]).
  Proof.
    intros s. unfold mbind at 1. unfold get_ll, deref.
    destruct (nth_error (h_lls (fst s)) n) as [u|] eqn:E; [|reflexivity].
    assert (K : same statics s (snd (mwhen (l_dynamic u) (upd_ll n (set_ll_offset o)) s))).
    { destruct (l_dynamic u) eqn:D; [|reflexivity]. unfold same, statics. cbn.
      rewrite (upd_nth_at static_ll _ _ _ _ E); auto. unfold static_ll. cbn. now rewrite D. }
    revert K. destruct (mwhen _ _ s) as [[[]|e] s1] eqn:E1; cbn [snd]; intros K.
    - erewrite bind_ok by exact E1. eapply same_trans; [exact K|]. apply statics_set_lls.
    - erewrite bind_err by exact E1. exact K.
  Qed.
  Hint Resolve statics_move_udl statics_move_ll statics_analyse : keeps.
  Lemma statics_move o : keeps (same statics) (set_dynamic_offset o).
  Proof.
    unfold set_dynamic_offset.
    repeat first [apply statics_move_udl | apply statics_move_ll | solve [auto with keeps nocore] | keep1].
  Qed.
  Lemma statics_dynamic c : keeps (same statics) (analyse_dynamic c).
  Proof.
    apply keeps_dynamic; auto using statics_move, statics_analyse.
    - apply same_trans.
    - intros d s. reflexivity.
  Qed.

  (** the lists of loads *)
  Lemma move_udls_lists o ns : forall s s' : stR,
    Forall (fun n => exists u, nth_error (h_udls (fst s)) n = Some u /\ 0 < u_magnitude u) ns ->
    mforM ns (fun n => u <- get_udl n ;;
      mwhen (u_dynamic u) (upd_udl n (set_udl_offset o)) ;;; set_udls [RefUdl n]) s = (Ok tt, s') ->
    s_udls (snd s') = s_udls (snd s) ++ ns /\ s_lls (snd s') = s_lls (snd s) /\
    (at_offset o s -> at_offset o s').
  Proof.
    induction ns as [|n ns IH]; intros s s' F; cbn [mforM].
    - intros Q; injection Q as <-. rewrite app_nil_r. auto.
    - inversion F as [|? ? (u & Eu & Pu) Fn]; subst. unfold mbind at 1.
      pose proof (statics_move_udl o n s) as St.
      set (m := (u <- get_udl n ;; _)) in *.
      destruct (m s) as [[[]|e] s2] eqn:Em; [|discriminate]. cbn [snd] in St.
      assert (Step : s_udls (snd s2) = s_udls (snd s) ++ [n] /\ s_lls (snd s2) = s_lls (snd s) /\
                     (at_offset o s -> at_offset o s2)).
      { revert Em. subst m. erewrite bind_ok by (unfold get_udl, deref; rewrite Eu; reflexivity).
        set (s1 := if u_dynamic u then snd (upd_udl n (set_udl_offset o) s) else s).
        assert (E1 : mwhen (u_dynamic u) (upd_udl n (set_udl_offset o)) s = (Ok tt, s1)).
        { subst s1. destruct (u_dynamic u); reflexivity. }
        assert (L1 : lists s1 = lists s) by (subst s1; destruct (u_dynamic u); reflexivity).
        assert (U1 : exists u1, nth_error (h_udls (fst s1)) n = Some u1 /\
                     u_magnitude u1 = u_magnitude u /\
                     (u_dynamic u1 = true -> u_offset u1 = o)).
        { subst s1. destruct (u_dynamic u) eqn:D.
          - unfold upd_udl. cbn. rewrite nth_error_upd_nth, Nat.eqb_refl, Eu.
            eexists. split; [reflexivity|]. auto.
          - exists u. split; auto. split; auto. congruence. }
        destruct U1 as (u1 & Eu1 & Mu1 & Du1). unfold lists in L1. injection L1 as L1 L2.
        erewrite bind_ok by exact E1. intros E2.
        pose proof (set_udls_loads _ _ _ E2) as L. unfold loads, with_udls in L.
        injection L as L3 _ L4 _ _ _. ands_.
        - rewrite L3, L1. f_equal. unfold new_udls. cbn [flat_map]. rewrite Eu1, Mu1. unR.
          rewrite (proj2 (Rltb_true 0 (u_magnitude u))) by exact Pu. reflexivity.
        - congruence.
        - intros A. eapply at_offset_set_udl; [| |exact E2].
          + destruct A as (A1 & A2). split.
            * intros k v Hk. rewrite L1 in Hk. subst s1. destruct (u_dynamic u) eqn:D; [|now apply A1].
              unfold upd_udl. cbn. rewrite nth_error_upd_nth.
              destruct (Nat.eqb_spec n k) as [<-|]; [|now apply A1].
              rewrite Eu. cbn [option_map]. intros Q; injection Q as <-. reflexivity.
            * subst s1. destruct (u_dynamic u); exact A2.
          + intros v Ev. rewrite Eu1 in Ev. injection Ev as <-. exact Du1. }
      destruct Step as (S1 & S2 & S3). intros E3.
      destruct (IH s2 s') as (I1 & I2 & I3); auto.
      + eapply Forall_impl; [|exact Fn]. intros k (v & Ev & Pv).
        unfold same, statics in St. injection St as St _ _ _ _ _ _ _.
        assert (Q : option_map static_udl (nth_error (h_udls (fst s2)) k) = Some (static_udl v)).
        { rewrite <- nth_error_map, St, nth_error_map, Ev. reflexivity. }
        destruct (nth_error (h_udls (fst s2)) k) as [w|]; [|discriminate]. exists w. split; auto.
        cbn in Q. unfold static_udl in Q. injection Q as Q _ _ _ _. now rewrite Q.
      + ands_; auto; [|congruence]. rewrite I1, S1, <- app_assoc. reflexivity.
  Qed.
  Lemma move_lls_lists o ns : forall s s' : stR,
    Forall (fun n => exists u, nth_error (h_lls (fst s)) n = Some u /\ 0 < l_magnitude u) ns ->
    mforM ns (fun n => u <- get_ll n ;;
      mwhen (l_dynamic u) (upd_ll n (set_ll_offset o)) ;;; set_lls [RefLload n]) s = (Ok tt, s') ->
    s_lls (snd s') = s_lls (snd s) ++ ns /\ s_udls (snd s') = s_udls (snd s) /\
    (at_offset o s -> at_offset o s').
  Proof.
    induction ns as [|n ns IH]; intros s s' F; cbn [mforM].
    - intros Q; injection Q as <-. rewrite app_nil_r. auto.
    - inversion F as [|? ? (u & Eu & Pu) Fn]; subst. unfold mbind at 1.
      pose proof (statics_move_ll o n s) as St.
      set (m := (u <- get_ll n ;; _)) in *.
      destruct (m s) as [[[]|e] s2] eqn:Em; [|discriminate]. cbn [snd] in St.
      assert (Step : s_lls (snd s2) = s_lls (snd s) ++ [n] /\ s_udls (snd s2) = s_udls (snd s) /\
                     (at_offset o s -> at_offset o s2)).
      { revert Em. subst m. erewrite bind_ok by (unfold get_ll, deref; rewrite Eu; reflexivity).
        set (s1 := if l_dynamic u then snd (upd_ll n (set_ll_offset o) s) else s).
        assert (E1 : mwhen (l_dynamic u) (upd_ll n (set_ll_offset o)) s = (Ok tt, s1)).
        { subst s1. destruct (l_dynamic u); reflexivity. }
        assert (L1 : lists s1 = lists s) by (subst s1; destruct (l_dynamic u); reflexivity).
        assert (U1 : exists u1, nth_error (h_lls (fst s1)) n = Some u1 /\
                     l_magnitude u1 = l_magnitude u /\
                     (l_dynamic u1 = true -> l_offset u1 = o)).
        { subst s1. destruct (l_dynamic u) eqn:D.
          - unfold upd_ll. cbn. rewrite nth_error_upd_nth, Nat.eqb_refl, Eu.
            eexists. split; [reflexivity|]. auto.
          - exists u. split; auto. split; auto. congruence. }
        destruct U1 as (u1 & Eu1 & Mu1 & Du1). unfold lists in L1. injection L1 as L1 L2.
        erewrite bind_ok by exact E1. intros E2.
        pose proof (set_lls_loads _ _ _ E2) as L. unfold loads, with_lls in L.
        injection L as L3 _ L4 _ _ _. ands_.
        - rewrite L4, L2. f_equal. unfold new_lls. cbn [flat_map]. rewrite Eu1, Mu1. unR.
          rewrite (proj2 (Rltb_true 0 (l_magnitude u))) by exact Pu. reflexivity.
        - congruence.
        - intros A. eapply at_offset_set_ll; [| |exact E2].
          + destruct A as (A1 & A2). split.
            * subst s1. destruct (l_dynamic u); exact A1.
            * intros k v Hk. rewrite L2 in Hk. subst s1. destruct (l_dynamic u) eqn:D; [|now apply A2].
              unfold upd_ll. cbn. rewrite nth_error_upd_nth.
              destruct (Nat.eqb_spec n k) as [<-|]; [|now apply A2].
              rewrite Eu. cbn [option_map]. intros Q; injection Q as <-. reflexivity.
          + intros v Ev. rewrite Eu1 in Ev. injection Ev as <-. exact Du1. }
      destruct Step as (S1 & S2 & S3). intros E3.
      destruct (IH s2 s') as (I1 & I2 & I3); auto.
      + eapply Forall_impl; [|exact Fn]. intros k (v & Ev & Pv).
        unfold same, statics in St. injection St as _ St _ _ _ _ _ _.
        assert (Q : option_map static_ll (nth_error (h_lls (fst s2)) k) = Some (static_ll v)).
        { rewrite <- nth_error_map, St, nth_error_map, Ev. reflexivity. }
        destruct (nth_error (h_lls (fst s2)) k) as [w|]; [|discriminate]. exists w. split; auto.
        cbn in Q. unfold static_ll in Q. injection Q as Q _ _ _. now rewrite Q.
      + ands_; auto; [|congruence]. rewrite I1, S1, <- app_assoc. reflexivity.
  Qed.

  Lemma move_spec o (s : stR) : Inv s ->
    exists s', set_dynamic_offset o s = (Ok tt, s') /\ Inv s' /\
      lists s' = lists s /\ statics s' = statics s /\ at_offset o s'.
  Proof.
    intros I. destruct (inv_set_dynamic_offset o s I) as (s4 & E & I4).
    exists s4. split; auto. split; auto.
    pose proof (statics_move o s) as St. rewrite E in St. cbn [snd] in St.
    pose proof I as (C & _ & _).
    revert E. unfold set_dynamic_offset. rewrite !bind_self_get.
    assert (Z1 : snd (remove_udls [] true s) = (fst s, snd (snd (remove_udls [] true s))) /\
                 s_udls (snd (snd (remove_udls [] true s))) = [] /\
                 s_lls (snd (snd (remove_udls [] true s))) = s_lls (snd s)).
    { unfold remove_udls. cbn [mforM]. msteps. cbn [mwhen]. msteps.
      match goal with |- context [match ?x with _ => _ end] => destruct x end; auto. }
    destruct (inv_remove_udls [] true s I (Forall_nil _)) as (s1 & E1 & I1 & H1 & X1 & Y1).
    rewrite E1 in Z1. cbn [snd] in Z1. destruct Z1 as (_ & Z1 & Z1').
    erewrite bind_ok by exact E1.
    assert (Z2 : s_lls (snd (snd (remove_lls [] true s1))) = []) by reflexivity.
    assert (Z2' : s_udls (snd (snd (remove_lls [] true s1))) = s_udls (snd s1)) by reflexivity.
    destruct (inv_remove_lls [] true s1 I1 (Forall_nil _)) as (s2 & E2 & I2 & H2 & X2 & Y2).
    rewrite E2 in Z2, Z2'. cbn [snd] in Z2, Z2'.
    erewrite bind_ok by exact E2.
    assert (A2 : at_offset o s2).
    { split; intros n u; [rewrite Z2', Z1|rewrite Z2]; intros []. }
    unfold mbind at 1.
    match goal with |- context [mforM (s_udls (snd s)) ?f s2] =>
      destruct (mforM (s_udls (snd s)) f s2) as [[[]|e] s3] eqn:E3; [|discriminate] end.
    intros E4.
    pose proof E3 as E3'. apply move_udls_lists in E3'.
    2:{ apply Forall_forall. intros n Hn. rewrite H2, H1. apply (c_udl_locs s C n Hn). }
    destruct E3' as (L1 & L2 & A3).
    assert (St3 : same statics s2 s3).
    { match type of E3 with ?m s2 = _ => assert (K : keeps (same statics) m) end.
      { apply keeps_forM; auto; [apply same_trans|]. intros n _. apply statics_move_udl. }
      specialize (K s2). now rewrite E3 in K. }
    apply move_lls_lists in E4.
    2:{ apply Forall_forall. intros n Hn. destruct (c_ll_locs s C n Hn) as (v & Ev & Pv).
        unfold same, statics in St3. injection St3 as _ St3 _ _ _ _ _ _.
        assert (Q : option_map static_ll (nth_error (h_lls (fst s3)) n) = Some (static_ll v)).
        { rewrite <- nth_error_map, St3, H2, H1, nth_error_map, Ev. reflexivity. }
        destruct (nth_error (h_lls (fst s3)) n) as [w|]; [|discriminate]. exists w. split; auto.
        cbn in Q. unfold static_ll in Q. injection Q as Q _ _ _. now rewrite Q. }
    destruct E4 as (L3 & L4 & A4). ands_; auto.
    unfold lists. rewrite L3, L4, L1, L2, Z2', Z1, Z2. reflexivity.
  Qed.
End Moved.

(** ** Division by zero *)
Definition known (c far : R) (s : stage) (seen : list R) : Prop :=
  match s with
  | Start => True
  | One f0 => In f0 seen
  | Br l lf r rf => In lf seen /\ In rf seen /\ (l = r -> far = 0 \/ In c seen)
  end.
Lemma known_step c far s o f s1 seen :
  next c far s o -> after c s o f s1 -> known c far s seen -> known c far s1 (f :: seen).
Proof.
  intros N A K. inversion A; subst; cbn [known In] in *; auto.
  - destruct N as (_ & ->). unfold refresh. destruct (Req_EM_T far 0); ands_; auto.
  - destruct N as (B & D & L & E). destruct K as (K1 & K2 & K3). unfold refresh.
    destruct (Req_EM_T o l) as [->|]; ands_; auto; intros Q; subst; try contradiction.
    right. right. assert (c = lf) as ->; [|auto].
    apply (Rmult_eq_reg_r (l - r)); [|lra]. nra.
  - destruct N as (B & D & L & E). destruct K as (K1 & K2 & K3). unfold refresh.
    destruct (Req_EM_T o r) as [->|]; ands_; auto; intros Q; subst; try contradiction.
    right. right. assert (c = rf) as ->; [|auto].
    apply (Rmult_eq_reg_r (l - r)); [|lra]. nra.
Qed.
Lemma goes_known c far s tr s2 : goes c far s tr s2 ->
  forall seen, known c far s seen -> known c far s2 (rev (map snd tr) ++ seen).
Proof.
  induction 1 as [s|s o f s1 tr s2 N A G IH]; intros seen K; cbn [map rev snd app]; auto.
  rewrite <- app_assoc. cbn [app]. apply IH. eapply known_step; eauto.
Qed.
Lemma division_cause c far tr l lf r rf :
  goes c far Start tr (Br l lf r rf) -> (l <> r -> rf <= c <= lf) -> (l = r \/ lf = rf) ->
  far = 0 \/ exists o, In (o, c) tr.
Proof.
  intros G Q D.
  pose proof (goes_known c far _ _ _ G [] I) as (K1 & K2 & K3).
  assert (S : forall f, In f (rev (map snd tr) ++ []) -> exists o, In (o, f) tr).
  { intros f Hf. rewrite app_nil_r in Hf. apply in_rev, in_map_iff in Hf as ([o f'] & <- & Hf).
    eauto. }
  destruct (Req_EM_T l r) as [E|E].
  - destruct (K3 E) as [Z|Z]; auto.
  - destruct D as [D|D]; [contradiction|]. specialize (Q E).
    right. apply S. assert (c = lf) as -> by lra. exact K1.
Qed.

Section Final.
  Context {EN : Env}.
  Notation stR := (st R).

  Lemma trial_spec o (s : stR) f s1 : Inv s -> try_offset o s = (Ok f, s1) ->
    Inv s1 /\ lists s1 = lists s /\ statics s1 = statics s /\ at_offset o s1 /\
    get_min_FOS (snd s1) = Ok (Some f) /\ analyse_slope None s1 = (Ok tt, s1).
  Proof.
    intros I E. pose proof (inv_try_offset o s I) as I1. rewrite E in I1. cbn [snd] in I1.
    destruct (move_spec o s I) as (sa & Ea & Ia & La & Sa & Aa).
    revert E. unfold try_offset. erewrite bind_ok by exact Ea.
    pose proof (statics_analyse None sa) as Sb.
    assert (Lb : keeps (same lists) (analyse_slope (T := R) None)) by (unfold analyse_slope; untouched).
    specialize (Lb sa).
    assert (Hb : keeps (same (@fst (heap R) (slope R))) (analyse_slope (T := R) None))
      by (unfold analyse_slope; untouched).
    specialize (Hb sa).
    destruct (analyse_slope None sa) as [[[]|e] sb] eqn:Eb; [|unfold mbind; rewrite Eb; discriminate].
    erewrite bind_ok by exact Eb. cbn [snd] in Sb, Lb, Hb. unfold same in Sb, Lb, Hb.
    unfold mbind at 1. destruct (get_min_FOS (snd sb)) as [[g|]|e] eqn:Eg; try discriminate.
    msteps. intros Q. injection Q as <- <-. ands_; auto.
    - change (lists sb = lists s). congruence.
    - change (statics sb = statics s). congruence.
    - unfold lists in Lb. injection Lb as L1 L2. unfold at_offset in *. cbn [fst snd s_udls s_lls set_s_dynamic].
      rewrite Hb, L1, L2. exact Aa.
    - apply (analyse_transfer None sb); [|reflexivity..]. eapply analyse_again; eauto.
  Qed.
  Lemma trial_kept o (s : stR) : Inv s ->
    Inv (snd (try_offset o s)) /\ lists (snd (try_offset o s)) = lists s /\
    statics (snd (try_offset o s)) = statics s.
  Proof.
    intros I. split; [now apply inv_try_offset|].
    destruct (try_offset o s) as [[f|e] s1] eqn:E; cbn [snd].
    - destruct (trial_spec o s f s1 I E) as (_ & L & S & _). auto.
    - destruct (move_spec o s I) as (sa & Ea & Ia & La & Sa & Aa).
      revert E. unfold try_offset. erewrite bind_ok by exact Ea. intros E.
      match type of E with ?m sa = _ =>
        assert (Kl : keeps (same lists) m);
        [|assert (Ks : keeps (same statics) m)] end.
      { apply keeps_bind; eauto; [unfold analyse_slope; untouched|]. intros []. untouched. }
      { apply keeps_bind; eauto; [apply statics_analyse|]. intros []. untouched. }
      specialize (Kl sa). specialize (Ks sa). rewrite E in Kl, Ks. cbn [snd] in Kl, Ks.
      unfold same in Kl, Ks. split; congruence.
  Qed.
  Lemma trials_kept (s : stR) tr s1 : trials s tr s1 -> Inv s ->
    Inv s1 /\ lists s1 = lists s /\ statics s1 = statics s /\
    Forall (fun of => exists si, lists si = lists s /\ statics si = statics s /\
       at_offset (fst of) si /\ analyse_slope None si = (Ok tt, si) /\
       get_min_FOS (snd si) = Ok (Some (snd of))) tr.
  Proof.
    induction 1 as [s|o f s s1 tr s2 E T IH]; intros I; [ands_; auto|].
    destruct (trial_spec o s f s1 I E) as (I1 & L1 & S1 & A1 & G1 & An1).
    destruct (IH I1) as (I2 & L2 & S2 & F2). ands_; auto; try congruence.
    constructor.
    - exists s1. ands_; auto.
    - eapply Forall_impl; [|exact F2]. intros [o' f'] (si & Q1 & Q2 & Q3). exists si.
      ands_; auto; try tauto; congruence.
  Qed.

  (** C48 *)
  Lemma dynamic_offsets c far tr st2 :
    goes c far Start tr st2 ->
    Forall (fun of => Rmin 0 far <= fst of <= Rmax 0 far) tr /\
    (forall o, next c far st2 o -> Rmin 0 far <= o <= Rmax 0 far).
  Proof.
    intros G. destruct (goes_inside _ _ _ _ _ G I) as (F & In2). split; auto.
    intros o N. eapply next_inside; eauto.
  Qed.

  (** C49 *)
  Lemma dynamic_results c (s : stR) res s' :
    reachable s -> analyse_dynamic c s = (res, s') ->
    exists tr n, (n <= 12)%nat /\
      (n = List.length tr \/ (n = S (List.length tr) /\ exists e, res = Err e)) /\
      Forall (fun of => exists si, lists si = lists s /\ statics si = statics s /\
         at_offset (fst of) si /\ analyse_slope None si = (Ok tt, si) /\
         get_min_FOS (snd si) = Ok (Some (snd of))) tr /\
      NoDup (map fst (get_dynamic_results (snd s'))) /\
      (forall o f, In (o, f) (get_dynamic_results (snd s')) <-> last_at o tr = Some f) /\
      (res = Ok None -> StronglySorted (fun a b => snd a <= snd b) (get_dynamic_results (snd s'))).
  Proof.
    intros Hr E. apply reachable_inv in Hr as I.
    destruct (dynamic_spec c s res s' E) as [(Ee & -> & ->)|
      (far & tr & st2 & s1 & Ef & _ & L & T & G & O)].
    { exists [], O. ands_; auto; try lia.
      - constructor.
      - intros o f. cbn. split; [intros []|discriminate].
      - discriminate. }
    assert (I0 : Inv (fresh_table s)).
    { apply (same_model_inv s); auto. constructor; reflexivity. }
    destruct (trials_kept _ _ _ T I0) as (I1 & L1 & S1 & F1).
    assert (F : Forall (fun of => exists si, lists si = lists s /\ statics si = statics s /\
         at_offset (fst of) si /\ analyse_slope None si = (Ok tt, si) /\
         get_min_FOS (snd si) = Ok (Some (snd of))) tr) by exact F1. clear F1.
    destruct (trials_table _ _ _ T (NoDup_nil _)) as (N1 & D1).
    assert (D1' : forall o f, In (o, f) (s_dynamic (snd s1)) <-> last_at o tr = Some f).
    { intros o f. rewrite D1. cbn. tauto. }
    destruct O as [(f & -> & Q & _ & ->)|[(f0 & f1 & -> & Q & _ & ->)|[(-> & _ & -> & _)|
      [(o & e & Lt & _ & _ & Et & ->)|(l & lf & r & rf & _ & -> & _ & _ & Q)]]]].
    - exists tr, (List.length tr). ands_; auto. discriminate.
    - exists tr, (List.length tr). ands_; auto. discriminate.
    - exists tr, (List.length tr).
      assert (P : Permutation (s_dynamic (snd s1)) (sort_by snd (s_dynamic (snd s1))))
        by apply sort_by_perm.
      ands_; auto.
      + unfold get_dynamic_results. cbn [snd s_dynamic set_s_dynamic].
        eapply Permutation_NoDup; [|exact N1]. now apply Permutation_map.
      + intros o f. unfold get_dynamic_results. cbn [snd s_dynamic set_s_dynamic]. rewrite <- D1'.
        split; apply Permutation_in; auto. now symmetry.
      + intros _. unfold get_dynamic_results. cbn [snd s_dynamic set_s_dynamic].
        apply sort_by_sorted.
    - exists tr, (S (List.length tr)).
      assert (Dy : s_dynamic (snd s') = s_dynamic (snd s1)).
      { revert Et. unfold try_offset, mbind at 1. pose proof (dyn_set_dynamic_offset o s1) as K1.
        destruct (set_dynamic_offset o s1) as [[[]|e1] sa];
          [|intros Q; injection Q as _ <-; exact K1].
        pose proof (dyn_analyse None sa) as K2. unfold mbind at 1.
        unfold same, dyn in K1, K2. cbn [snd] in K1, K2.
        destruct (analyse_slope None sa) as [[[]|e1] sb]; cbn [snd] in K2;
          [|intros Q; injection Q as _ <-; congruence].
        unfold mbind at 1. destruct (get_min_FOS (snd sb)) as [[g|]|e1];
          try (intros Q; injection Q as _ <-; congruence).
        msteps. discriminate. }
      ands_; auto; try discriminate.
      + right. eauto.
      + unfold get_dynamic_results. now rewrite Dy.
      + unfold get_dynamic_results. now rewrite Dy.
    - exists tr, (List.length tr). ands_; auto. destruct Q as [(-> & _)|(-> & _)]; discriminate.
  Qed.

  (** C50: every way in which the search can raise *)
  Lemma dynamic_raises c (s : stR) e s' :
    analyse_dynamic c s = (Err e, s') ->
    (e = TypeError /\ endless s) \/
    (exists tr s1 o, trials (fresh_table s) tr s1 /\ try_offset o s1 = (Err e, s')) \/
    (e = ZeroDivisionError /\ exists tr s1 far, trials (fresh_table s) tr s1 /\
       farthest s (far + 1 / 100) /\
       (far = 0 \/ exists o, In (o, crit_val c) tr)) \/
    (e = TypeError /\ exists t, c = CDecimal t).
  Proof.
    intros E. destruct (dynamic_spec c s _ s' E) as [(Ee & Q & ->)|
      (far & tr & st2 & s1 & Ef & _ & L & T & G & O)].
    - left. injection Q as ->. auto.
    - destruct O as [(f & Q & _)|[(f0 & f1 & Q & _)|[(Q & _)|
        [(o & e' & Lt & _ & _ & Et & Q)|(l & lf & r & rf & -> & -> & _ & B & Q)]]]]; try discriminate.
      + injection Q as <-. right. left. exists tr, s1, o. auto.
      + destruct Q as [(Q & D)|(Q & _ & D)]; injection Q as ->; [|auto].
        right. right. left. split; auto. exists tr, s1, far. ands_; auto.
        exact (division_cause _ _ _ _ _ _ _ G B D).
  Qed.

  (** C51 *)
  Lemma dynamic_kept c (s : stR) : reachable s ->
    let s' := snd (analyse_dynamic c s) in
    lists s' = lists s /\ statics s' = statics s /\
    Forall2 (fun u u' => u_magnitude u' = u_magnitude u /\ u_length u' = u_length u /\
               u_color u' = u_color u /\ u_dynamic u' = u_dynamic u /\
               (u_dynamic u = false -> u_offset u' = u_offset u))
            (h_udls (fst s)) (h_udls (fst s')) /\
    Forall2 (fun l l' => l_magnitude l' = l_magnitude l /\ l_color l' = l_color l /\
               l_dynamic l' = l_dynamic l /\ (l_dynamic l = false -> l_offset l' = l_offset l))
            (h_lls (fst s)) (h_lls (fst s')).
  Proof.
    intros Hr s'. apply reachable_inv in Hr as I.
    assert (St : statics s' = statics s) by apply statics_dynamic.
    split; [|split; [exact St|]].
    - subst s'. destruct (analyse_dynamic c s) as [res s'] eqn:E. cbn [snd].
      assert (I0 : Inv (fresh_table s)).
      { apply (same_model_inv s); auto. constructor; reflexivity. }
      destruct (dynamic_spec c s res s' E) as [(_ & _ & ->)|
        (far & tr & st2 & s1 & _ & _ & _ & T & _ & O)]; [reflexivity|].
      destruct (trials_kept _ _ _ T I0) as (I1 & L1 & _ & _). change (lists (fresh_table s)) with (lists s) in L1.
      destruct O as [(f & _ & _ & _ & ->)|[(f0 & f1 & _ & _ & _ & ->)|[(_ & _ & -> & _)|
        [(o & e & _ & _ & _ & Et & _)|(l & lf & r & rf & _ & -> & _)]]]]; auto.
      pose proof (trial_kept o s1 I1) as (_ & L2 & _). rewrite Et in L2. cbn [snd] in L2. congruence.
    - unfold statics in St. injection St as St1 St2 _ _ _ _ _ _.
      assert (F : forall A B (g : A -> B) (P : A -> A -> Prop) l l',
        (forall a a', g a' = g a -> P a a') -> map g l' = map g l -> Forall2 P l l').
      { intros A B g P l. induction l as [|a l IH]; intros [|a' l'] HP; cbn; intros Q; try discriminate;
          constructor; injection Q as Q1 Q2; auto. }
      split.
      + apply (F _ _ static_udl); auto. intros u u' Q. unfold static_udl in Q.
        injection Q as -> Q1 -> -> Q2. rewrite Q2 in *. ands_; auto. intros D. rewrite D in Q1. congruence.
      + apply (F _ _ static_ll); auto. intros u u' Q. unfold static_ll in Q.
        injection Q as -> Q1 -> Q2. rewrite Q2 in *. ands_; auto. intros D. rewrite D in Q1. congruence.
  Qed.
End Final.
