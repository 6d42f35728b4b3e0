(** * SlopeFacts: what the editing methods do, in exact arithmetic. *)
From Coq Require Import ZArith Reals Lra Lia List Bool String Permutation Sorted.
From Verif Require Import Num Py Validation Utilities Objects Slope Planes Analysis
     Dynamic Api RealNum RealFacts ListFacts MonadFacts.
Import ListNotations.
Local Open Scope R_scope.

(** ** Generic effects (any arithmetic) *)
Section Generic.
  Context {T : Type} {NT : Num T} {EN : Env}.

  Definition udl_coords (top_x : T) (u : udl T) : udl T :=
    let lr := udl_left_right top_x u in set_udl_xy (fst lr) (snd lr) u.
  Definition ll_coords (top_x : T) (l : lload T) : lload T :=
    set_ll_coord (pymax (nz 0) (nsub top_x (l_offset l))) l.

  Lemma udl_coords_idem x u : udl_coords x (udl_coords x u) = udl_coords x u.
  Proof. reflexivity. Qed.
  Lemma ll_coords_idem x l : ll_coords x (ll_coords x l) = ll_coords x l.
  Proof. reflexivity. Qed.

  Lemma update_udl_coordinates_eff (s : st T) :
    update_udl_coordinates s =
    (Ok tt, (MkHeap (h_materials (fst s))
               (upd_all (udl_coords (fst (g_top (s_geom (snd s))))) (s_udls (snd s))
                        (h_udls (fst s)))
               (h_lls (fst s)), snd s)).
  Proof.
    unfold update_udl_coordinates, mbind at 1, self_get at 1, mget at 1.
    destruct s as [h sl]; cbn [fst snd]. generalize (s_udls sl) as locs. revert h.
    intros [hm hu hl] locs. revert hu.
    induction locs as [|n locs IH]; intros hu; cbn; [reflexivity|].
    unfold mbind; cbn. unfold mbind in IH. rewrite IH. reflexivity.
  Qed.

  Lemma update_ll_coordinates_eff (s : st T) :
    update_ll_coordinates s =
    (Ok tt, (MkHeap (h_materials (fst s)) (h_udls (fst s))
               (upd_all (ll_coords (fst (g_top (s_geom (snd s))))) (s_lls (snd s))
                        (h_lls (fst s))), snd s)).
  Proof.
    unfold update_ll_coordinates, mbind at 1, self_get at 1, mget at 1.
    destruct s as [h sl]; cbn [fst snd]. generalize (s_lls sl) as locs. revert h.
    intros [hm hu hl] locs. revert hl.
    induction locs as [|n locs IH]; intros hl; cbn; [reflexivity|].
    unfold mbind; cbn. unfold mbind in IH. rewrite IH. reflexivity.
  Qed.

  (** the new limits, or the exception *)
  Definition limits_result (g : geom T) (lim : limits T)
             (left_x right_x left_x_right right_x_left : pyval T) : res (limits T) :=
    let! lx := limit_arg left_x (lim_left lim) (assert_positive_number left_x) in
    let! lxr := limit_arg left_x_right (lim_left_r lim)
                  (assert_strictly_positive_number left_x_right) in
    let! rxl := limit_arg right_x_left (lim_right_l lim)
                  (assert_strictly_positive_number right_x) in
    let! rx := limit_arg right_x (lim_right lim) (assert_strictly_positive_number rxl) in
    let! lx' := as_num lx in
    let! lxr' := as_num lxr in
    let! rx' := as_num rx in
    let! rxl' := as_num rxl in
    let a := pymax lx' (nz 0) in
    let b := pymin lxr' (fst (g_top g)) in
    let d := pymin rx' (g_ext_l g) in
    let c := pymax rxl' (fst (g_top g)) in
    if nleb b a || nleb d c then Err ValueError else Ok (MkLimits a b c d).

  Lemma set_limits_eff a b c d (s : st T) :
    set_analysis_limits a b c d s =
    match limits_result (s_geom (snd s)) (s_limits (snd s)) a b c d with
    | Ok lim => (Ok tt, (fst s, set_s_search [] (set_s_limits lim (snd s))))
    | Err e => (Err e, s)
    end.
  Proof.
    unfold set_analysis_limits, limits_result. mstep.
    repeat (mstep; match goal with
      |- match ?x with Ok _ => _ | Err _ => _ end = _ => destruct x; cbn [rbind]; [|reflexivity]
      end).
    mstep.
    match goal with |- context [if ?b then _ else _] => destruct b end; reflexivity.
  Qed.
End Generic.

(** ** Geometry *)
(** the cross-section for a height, a length and the minimum dimensions *)
Definition geom_of (h l mh ml : R) : geom R :=
  let tot_h := Rmax (Rmax (3 * h) mh) (5 * l / 2) in
  let tot_l := Rmax (Rmax (5 * l) ml) (4 * h) in
  let dx := (tot_l - l) / 2 in
  MkGeom h l (h / l) (dx, tot_h) (dx + l, tot_h - h) tot_l tot_h.

Lemma compute_geom_R h l mh ml :
  l <> 0 -> compute_geom h l mh ml = Ok (geom_of h l mh ml).
Proof.
  intros Hl. unfold compute_geom, pydiv. unR.
  destruct (Reqb l 0) eqn:E; rbool; [contradiction|]. reflexivity.
Qed.

Lemma assert_positive_R v t :
  as_num v = Ok t ->
  assert_positive_number v = if Rltb t 0 then Err ValueError else Ok tt.
Proof.
  intros H. unfold assert_positive_number. rewrite H.
  destruct v; cbn in *; try discriminate; unR; reflexivity.
Qed.

Lemma boundary_inputs_bounds h a l hh ll :
  boundary_inputs h a l = Ok (hh, ll) -> 0 <= hh /\ 1 / 1000 <= ll.
Proof.
  unfold boundary_inputs.
  destruct h as [|b|z|t|s]; cbn [is_none rbind]; try discriminate.
  all: match goal with |- context [assert_strictly_positive_number ?v] =>
         unfold assert_strictly_positive_number; cbn [isinstance_num negb rbind as_num] | _ => idtac end.
  all: unR.
  all: destruct (if is_none a then _ else _); cbn [rbind]; try discriminate.
  all: try (destruct (if is_none l then Ok tt else _); cbn [rbind]; discriminate).
  all: try (match goal with |- context [Rltb ?x 0] => destruct (Rltb x 0) eqn:E end;
            cbn [rbind]; [discriminate|]).
  all: try (destruct (if is_none l then Ok tt else _); cbn [rbind]; [|discriminate]).
  all: try (destruct (if is_none l then _ else as_num l) as [len|]; cbn [rbind]; [|discriminate]).
  all: try discriminate.
  all: unR; injection 1 as <- <-; rbool; split; auto.
  all: apply Rmax_r || (eapply Rle_trans; [|apply Rmax_r]; lra).
Qed.

Definition default_limits (g : geom R) : limits R :=
  MkLimits 0 (fst (g_top g)) (fst (g_top g)) (g_ext_l g).

Section Effects.
  Context {EN : Env}.
  Notation stR := (st R).

  Lemma remove_limits_eff (s : stR) :
    0 < fst (g_top (s_geom (snd s))) < g_ext_l (s_geom (snd s)) ->
    remove_analysis_limits s =
    (Ok tt, (fst s, set_s_search [] (set_s_limits (default_limits (s_geom (snd s))) (snd s)))).
  Proof.
    intros H. unfold remove_analysis_limits. mstep.
    assert (Q : limits_result (s_geom (snd s)) (s_limits (snd s)) (PInt 0)
                  (PFloat (g_ext_l (s_geom (snd s))))
                  (PFloat (fst (g_top (s_geom (snd s)))))
                  (PFloat (fst (g_top (s_geom (snd s)))))
                = Ok (default_limits (s_geom (snd s)))).
    { remember (s_geom (snd s)) as g eqn:Eg. clear Eg.
      unfold limits_result, limit_arg, assert_positive_number,
        assert_strictly_positive_number; cbn [isinstance_num negb as_num rbind is_none].
      unfold default_limits. destruct (g_top g) as [tx ty]; cbn [fst snd] in *.
      unR.
      assert (E0 : Rltb 0 0 = false) by (apply Rltb_false; lra).
      assert (E1 : Rltb tx 0 = false) by (apply Rltb_false; lra).
      assert (E2 : Rltb (g_ext_l g) 0 = false) by (apply Rltb_false; lra).
      repeat (first [rewrite E0 | rewrite E1 | rewrite E2];
              cbn [rbind as_num isinstance_num negb]; unR).
      rewrite !Rmax_left, !Rmin_left by lra.
      assert (E3 : Rleb tx 0 = false) by (apply Rleb_false; lra).
      assert (E4 : Rleb (g_ext_l g) tx = false) by (apply Rleb_false; lra).
      rewrite E3, E4; reflexivity. }
    erewrite bind_ok by (rewrite set_limits_eff, Q; reflexivity).
    reflexivity.
  Qed.

  (** the state after the boundary has been (re)built *)
  Definition rebuilt (g : geom R) (s : stR) : stR :=
    let sl := snd s in
    (MkHeap (h_materials (fst s))
            (upd_all (udl_coords (fst (g_top g))) (s_udls sl) (h_udls (fst s)))
            (upd_all (ll_coords (fst (g_top g))) (s_lls sl) (h_lls (fst s))),
     set_s_search [] (set_s_limits (default_limits g)
       (set_s_geom g (set_s_has_boundary true sl)))).

  Lemma geom_of_top h l mh ml :
    0 <= h -> 1 / 1000 <= l ->
    0 < fst (g_top (geom_of h l mh ml)) < g_ext_l (geom_of h l mh ml).
  Proof.
    intros Hh Hl. unfold geom_of; cbn [g_top g_ext_l fst].
    assert (5 * l <= Rmax (Rmax (5 * l) ml) (4 * h)).
    { eapply Rle_trans; [apply Rmax_l|]. apply Rmax_l. }
    lra.
  Qed.

  Lemma set_external_boundary_eff h a l (s : stR) :
    set_external_boundary h a l s =
    match boundary_inputs h a l with
    | Err e => (Err e, s)
    | Ok (hh, ll) =>
        (Ok tt, rebuilt (geom_of hh ll (s_min_ext_h (snd s)) (s_min_ext_l (snd s))) s)
    end.
  Proof.
    unfold set_external_boundary. mstep.
    destruct (boundary_inputs h a l) as [[hh ll]|e] eqn:E; [|reflexivity].
    apply boundary_inputs_bounds in E. destruct E as [Hh Hl].
    cbn [fst snd]. msteps. rewrite compute_geom_R by lra. msteps.
    set (g := geom_of hh ll (s_min_ext_h (snd s)) (s_min_ext_l (snd s))).
    erewrite bind_ok by apply update_udl_coordinates_eff. cbn [fst snd].
    erewrite bind_ok by apply update_ll_coordinates_eff. cbn [fst snd].
    erewrite bind_ok
      by (apply remove_limits_eff; cbn [fst snd s_geom set_s_geom]; now apply geom_of_top).
    reflexivity.
  Qed.

  (** an optional dimension of [update_boundary_options] *)
  Definition opt_dim (v : pyval R) : res (option R) :=
    if truthy v
    then let! _ := assert_strictly_positive_number v in
         let! t := as_num v in Ok (Some t)
    else Ok None.
  Definition upd_dim (set : R -> slope R -> slope R) (o : option R) (sl : slope R) :=
    match o with Some v => set v sl | None => sl end.

  Lemma opt_dim_pos v t : opt_dim v = Ok (Some t) -> 0 < t.
  Proof.
    unfold opt_dim. destruct (truthy v) eqn:Et; [|discriminate].
    unfold assert_strictly_positive_number.
    destruct v as [|b|z|x|x]; cbn [isinstance_num negb as_num rbind]; try discriminate; unR.
    - destruct b; cbn in Et; try discriminate.
      destruct (Rltb 1 0); cbn [rbind]; [discriminate|]. injection 1 as <-. lra.
    - cbn in Et. destruct (Z.eqb_spec z 0) as [|N]; [discriminate|].
      destruct (Rltb (IZR z) 0) eqn:E; cbn [rbind]; [discriminate|].
      injection 1 as <-. rbool. apply le_IZR in E. apply IZR_lt. lia.
    - cbn in Et. unR. destruct (Reqb x 0) eqn:N; [discriminate|].
      destruct (Rltb x 0) eqn:E; cbn [rbind]; [discriminate|].
      injection 1 as <-. rbool. lra.
  Qed.

  Lemma boundary_inputs_current h l :
    0 <= h -> 1 / 1000 <= l ->
    boundary_inputs (PFloat h) (PInt 30) (PFloat l) = Ok (h, l).
  Proof.
    intros Hh Hl.
    unfold boundary_inputs, assert_strictly_positive_number, assert_positive_number,
      assert_range; cbn [is_none isinstance_num negb as_num rbind].
    unR.
    assert (E0 : Rltb h 0 = false) by (apply Rltb_false; lra).
    assert (E1 : Rltb l 0 = false) by (apply Rltb_false; lra).
    assert (E2 : Rltb 30 0 = false) by (apply Rltb_false; lra).
    assert (E3 : Rltb 90 30 = false) by (apply Rltb_false; lra).
    assert (E4 : Reqb 30 0 = false) by (apply Reqb_false; lra).
    rewrite E0, E2, E3, E4; cbn [andb rbind]. rewrite E1; cbn [rbind].
    rewrite Rmax_left by lra. reflexivity.
  Qed.

  Lemma dim_step {B} v (set : R -> slope R -> slope R) (k : unit -> M stR B) (s : stR) :
    mbind (mwhen (truthy v)
             (mlift (assert_strictly_positive_number v) ;;;
              x <- mlift (as_num v) ;; self_upd (set x))) k s =
    match opt_dim v with
    | Err e => (Err e, s)
    | Ok o => k tt (fst s, upd_dim set o (snd s))
    end.
  Proof.
    unfold opt_dim. rewrite bind_when.
    destruct (truthy v); [|destruct s; reflexivity]. msteps.
    destruct (assert_strictly_positive_number v); cbn [rbind]; [|reflexivity].
    msteps. destruct (as_num v); cbn [rbind]; [|reflexivity]. msteps. reflexivity.
  Qed.

  Lemma update_boundary_eff l h (s : stR) :
    s_has_boundary (snd s) = true ->
    0 <= g_height (s_geom (snd s)) -> 1 / 1000 <= g_length (s_geom (snd s)) ->
    update_boundary_options l h s =
    match opt_dim h with
    | Err e => (Err e, s)
    | Ok oh =>
        let sl1 := upd_dim set_s_min_ext_h oh (snd s) in
        match opt_dim l with
        | Err e => (Err e, (fst s, sl1))
        | Ok ol =>
            let sl2 := upd_dim set_s_min_ext_l ol sl1 in
            (Ok tt, rebuilt (geom_of (g_height (s_geom (snd s)))
                                     (g_length (s_geom (snd s)))
                                     (s_min_ext_h sl2) (s_min_ext_l sl2))
                            (fst s, sl2))
        end
    end.
  Proof.
    intros Hb Hh Hl. unfold update_boundary_options.
    rewrite dim_step. destruct (opt_dim h) as [oh|e]; [|reflexivity].
    rewrite dim_step. cbn [fst snd].
    destruct (opt_dim l) as [ol|e]; [|reflexivity].
    cbn zeta.
    set (sl2 := upd_dim set_s_min_ext_l ol (upd_dim set_s_min_ext_h oh (snd s))).
    assert (B : s_has_boundary sl2 = true) by (subst sl2; destruct ol, oh; exact Hb).
    assert (G : s_geom sl2 = s_geom (snd s)) by (subst sl2; destruct ol, oh; reflexivity).
    msteps. rewrite B. msteps. rewrite G.
    erewrite bind_ok.
    2:{ rewrite set_external_boundary_eff, boundary_inputs_current by assumption.
        reflexivity. }
    reflexivity.
  Qed.
End Effects.
