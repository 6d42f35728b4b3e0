(** * PropsSurcharge: more load on the crest (C95). *)
From Coq Require Import ZArith Reals Lra Lia List Bool String.
From Verif Require Import Num Py Validation Utilities Objects Slope Planes Analysis
     Dynamic Api RealNum RealFacts MonadFacts History EditFacts LoadFacts Spec FloatNum FloatWitness FloatMore FloatFos
     Demo DemoCircle CircleFacts SliceFacts ViewFacts SearchFacts FosFacts FosMore StrengthFacts ScaleFacts FosTotal WetFacts
     FosCode CohesiveFacts Surcharge SurchargeCode SurchargeDemo FloatSurcharge.
Import ListNotations.
Local Open Scope R_scope.

(** The full claim: a load put on the crest never raises the factor of a circle.  It is
    false (C95_safer_refuted, C95_binary_refuted): where the base under the load is flatter
    than the mobilised friction ([tan phi * cos alpha > F * sin alpha]) the load holds more
    than it drives.  Where it is steeper the claim holds.
    [surcharged s s' us ls]: same ground, soils, water and number of slices; [s'] carries
    the strips [us] (pressure, offset, length) and the lines [ls] (force, offset) on top of
    the loads of [s].  [touched sl sl' P]: [P] holds of every slice that got heavier. *)

(** What a load setter that leaves the ground alone does *)
Theorem C95_strips : forall (EN : Env) (s s' : st R) l,
  reachable s -> Forall (fun r => ref_exists (fst s) r = true) l ->
  exec (SetUdls l) s = (Ok tt, s') -> s_geom (snd s') = s_geom (snd s) ->
  exists added, picks_udls (h_udls (fst s)) l added /\
    surcharged s s' (map (fun u => (u_magnitude u, u_offset u, u_length u)) (derefs (h_udls (fst s)) added)) [].
Proof. intros EN. exact udls_surcharge. Qed.
Print Assumptions C95_strips.

Theorem C95_lines : forall (EN : Env) (s s' : st R) l,
  reachable s -> Forall (fun r => ref_exists (fst s) r = true) l ->
  exec (SetLls l) s = (Ok tt, s') -> s_geom (snd s') = s_geom (snd s) ->
  exists added, picks_lls (h_lls (fst s)) l added /\
    surcharged s s' [] (map (fun l => (l_magnitude l, l_offset l)) (derefs (h_lls (fst s)) added)).
Proof. intros EN. exact lls_surcharge. Qed.
Print Assumptions C95_lines.

(** The slices keep everything but the weight, which grows by the new loads above them *)
Theorem C95_slices : forall (EN : Env) (s s' : st R) us ls v v' cx cy r a b w sl w' sl',
  reachable s -> reachable s' -> surcharged s s' us ls -> view_of s = Ok v -> view_of s' = Ok v' ->
  0 <= r -> end_points (s_geom (snd s)) cx cy r a b ->
  slices_of v cx cy r (fst a) (fst b) = Ok (Some (w, sl)) ->
  slices_of v' cx cy r (fst a) (fst b) = Ok (Some (w', sl')) ->
  let tx := fst (g_top (s_geom (snd s))) in
  w' = w /\ List.length sl' = List.length sl /\
  forall i t t', nth_error sl i = Some t -> nth_error sl' i = Some t' ->
    sl_cos t' = sl_cos t /\ sl_sin t' = sl_sin t /\ sl_c t' = sl_c t /\ sl_tan t' = sl_tan t /\ sl_u t' = sl_u t /\
    let x1 := fst a + IZR (Z.of_nat i) * w in let x2 := fst a + IZR (Z.of_nat i + 1) * w in
    sl_W t' = sl_W t
      + (rsum (map (fun u : R * R * option R => let '(q, off, len) := u in
           q * Rmax 0 (Rmin x2 (tx - off) -
                       Rmax x1 (match len with Some k => Rmax 0 (tx - off - k) | None => 0 end))) us)
         + rsum (map (fun l : R * R => let x := Rmax 0 (tx - snd l) in
             if Rle_dec x1 x then if Rlt_dec x x2 then fst l else 0 else 0) ls)).
Proof.
  intros EN s s' us ls v v' cx cy r a b w sl w' sl' RS RS' SC E E' D EP S1 S2 tx.
  destruct (surcharged_slices s s' us ls v v' cx cy r a b w sl w' sl' RS RS' SC E E' D EP S1 S2) as (A & B & C).
  split; [exact A|]. split; [exact B|]. intros i t t' I I'. destruct (C i t t' I I') as (C1 & C2 & C3 & C4 & C5 & C6).
  do 5 (split; [assumption|]). cbv zeta. rewrite C6. unfold extra, stand. cbn [fst snd]. rewrite !map_map. f_equal. f_equal.
  f_equal. apply map_ext. intros ((q & off) & len). reflexivity.
Qed.
Print Assumptions C95_slices.

(** The ordinary method *)
Theorem C95_ordinary_partial : forall (EN : Env) (s s' : st R) us ls v v' cx cy r a b w sl w' sl' f,
  reachable s -> reachable s' -> surcharged s s' us ls -> view_of s = Ok v -> view_of s' = Ok v' ->
  wet_ok s -> friction_90 s -> 0 <= cx -> 0 <= cy -> 0 <= r -> end_points (s_geom (snd s)) cx cy r a b ->
  slices_of v cx cy r (fst a) (fst b) = Ok (Some (w, sl)) ->
  slices_of v' cx cy r (fst a) (fst b) = Ok (Some (w', sl')) ->
  ordinary v cx cy r a b = Ok (Some f) ->
  (touched sl sl' (fun t => 0 <= sl_sin t /\ sl_tan t * sl_cos t <= f * sl_sin t) ->
   exists f', ordinary v' cx cy r a b = Ok (Some f') /\ f' <= f) /\
  (touched sl sl' (fun t => 0 <= sl_W t * sl_cos t - sl_u t * (w / sl_cos t) /\ f * sl_sin t < sl_tan t * sl_cos t) ->
   (exists t t', In (t, t') (combine sl sl') /\ sl_W t < sl_W t') ->
   ordinary v' cx cy r a b = Ok None \/ exists f', ordinary v' cx cy r a b = Ok (Some f') /\ f < f').
Proof.
  intros EN s s' us ls v v' cx cy r a b w sl w' sl' f RS RS' SC E E' WK F D1 D2 D3 EP S1 S2 O.
  exact (surcharged_ordinary s s' us ls v v' RS RS' SC E E' WK cx cy r a b D1 D2 D3 EP w sl w' sl' S1 S2 f F O).
Qed.
Print Assumptions C95_ordinary_partial.

(** Bishop's method on circles that lean one way: the code's answers with any number of
    turns, and their limits *)
Theorem C95_bishop_partial : forall (EN : Env) (s s' : st R) us ls v v' cx cy r a b w sl w' sl',
  reachable s -> reachable s' -> surcharged s s' us ls -> view_of s = Ok v -> view_of s' = Ok v' ->
  wet_ok s -> some_strength s -> heavy s \/ dry v -> mats_of s <> [] ->
  0 <= cx -> 0 <= cy -> 0 <= r -> end_points (s_geom (snd s)) cx cy r a b ->
  fst b <= cx -> buried (v_geom v) cx cy r a b ->
  slices_of v cx cy r (fst a) (fst b) = Ok (Some (w, sl)) ->
  slices_of v' cx cy r (fst a) (fst b) = Ok (Some (w', sl')) ->
  exists F F' f f',
    (forall n, bishop (allow n v) cx cy r = Ok (Some (F n)) /\ bishop (allow n v') cx cy r = Ok (Some (F' n))) /\
    Un_cv F f /\ Un_cv F' f' /\ 0 <= f /\ 0 <= f' /\
    (0 < f -> touched sl sl' (fun t => sl_tan t * sl_cos t <= f * sl_sin t) -> f' <= f) /\
    (0 < f -> touched sl sl' (fun t => f * sl_sin t < sl_tan t * sl_cos t) ->
     (exists t t', In (t, t') (combine sl sl') /\ sl_W t < sl_W t') -> f < f').
Proof.
  intros EN s s' us ls v v' cx cy r a b w sl w' sl' RS RS' SC E E' WK SS HD NE D1 D2 D3 EP BC BU S1 S2.
  exact (surcharged_bishop s s' us ls v v' RS RS' SC E E' WK cx cy r a b D1 D2 D3 EP w sl w' sl' S1 S2 SS HD NE BC BU).
Qed.
Print Assumptions C95_bishop_partial.

(** Soils without friction: the factor the code gives for a circle, by both methods *)
Theorem C95_clay_partial : forall (EN : Env) (s s' : st R) us ls v v' cx cy r a b w sl w' sl' f,
  reachable s -> reachable s' -> surcharged s s' us ls -> view_of s = Ok v -> view_of s' = Ok v' ->
  wet_ok s -> cohesive s -> 0 <= cx -> 0 <= cy -> 0 <= r -> end_points (s_geom (snd s)) cx cy r a b ->
  slices_of v cx cy r (fst a) (fst b) = Ok (Some (w, sl)) ->
  slices_of v' cx cy r (fst a) (fst b) = Ok (Some (w', sl')) ->
  bishop v cx cy r = Ok (Some f) -> touched sl sl' (fun t => 0 <= sl_sin t) ->
  exists f', bishop v' cx cy r = Ok (Some f') /\ f' <= f /\
    ordinary v cx cy r a b = Ok (Some f) /\ ordinary v' cx cy r a b = Ok (Some f').
Proof.
  intros EN s s' us ls v v' cx cy r a b w sl w' sl' f RS RS' SC E E' WK C D1 D2 D3 EP S1 S2 B T.
  exact (surcharged_clay s s' us ls v v' RS RS' SC E E' WK cx cy r a b D1 D2 D3 EP w sl w' sl' S1 S2 f C B T).
Qed.
Print Assumptions C95_clay_partial.

(** and the smallest factor of circles given by the user, any limit on the factors kept *)
Theorem C95_minimum_partial : forall (EN : Env) m (s s' s1 s2 : st R) us ls f,
  reachable s -> reachable s' -> surcharged s s' us ls ->
  cohesive s -> wet_ok s -> s_planes (snd s) <> [] -> s_planes (snd s') = s_planes (snd s) ->
  (forall p v v' a b w sl w' sl', In p (s_planes (snd s)) -> view_of s = Ok v -> view_of s' = Ok v' ->
     end_points (s_geom (snd s)) (p_cx p) (p_cy p) (p_radius p) a b ->
     slices_of v (p_cx p) (p_cy p) (p_radius p) (fst a) (fst b) = Ok (Some (w, sl)) ->
     slices_of v' (p_cx p) (p_cy p) (p_radius p) (fst a) (fst b) = Ok (Some (w', sl')) ->
     touched sl sl' (fun t => 0 <= sl_sin t)) ->
  analyse_slope m s = (Ok tt, s1) -> analyse_slope m s' = (Ok tt, s2) ->
  get_min_FOS (snd s1) = Ok (Some f) ->
  exists f', get_min_FOS (snd s2) = Ok (Some f') /\ f' <= f.
Proof. intros EN. exact surcharged_min. Qed.
Print Assumptions C95_minimum_partial.

(** 20 kPa on a bank of clay: all hypotheses of the last theorem, both analyses succeed *)
Example C95_clay_example : forall EN : Env, exists f f' s1 s2,
  reachable clay3 /\ exec (SetUdls [RefUdl 0]) clay3 = (Ok tt, clay4) /\
  surcharged clay3 clay4 [(20, 9 / 5, Some (1 / 5))] [] /\ cohesive clay3 /\ wet_ok clay3 /\
  s_planes (snd clay3) <> [] /\ s_planes (snd clay4) = s_planes (snd clay3) /\
  analyse_slope None clay3 = (Ok tt, s1) /\ analyse_slope None clay4 = (Ok tt, s2) /\
  get_min_FOS (snd s1) = Ok (Some f) /\ get_min_FOS (snd s2) = Ok (Some f') /\ 0 < f' <= f.
Proof.
  intros EN. destruct clay_less as (f & f' & s1 & s2 & A & B & C & D & E & F & G). exists f, f', s1, s2.
  split; [exact A|]. split; [exact B|]. split; [exact clay_surcharged|]. split; [exact clay_cohesive|].
  split; [intros rl Q; discriminate|]. split; [discriminate|]. split; [reflexivity|]. auto.
Qed.

(** A thin layer of sand over mud and a strip of 20 kPa over the sand: exact arithmetic,
    the ordinary method and the limits of Bishop's iteration *)
Theorem C95_safer_refuted : forall EN : Env, exists (s s' : st R) v v' cx cy r a b f f' F F' g g',
  reachable s /\ exec (SetUdls [RefUdl 0]) s = (Ok tt, s') /\ surcharged s s' [(20, 9 / 5, Some (1 / 5))] [] /\
  view_of s = Ok v /\ view_of s' = Ok v' /\ end_points (s_geom (snd s)) cx cy r a b /\
  ordinary v cx cy r a b = Ok (Some f) /\ ordinary v' cx cy r a b = Ok (Some f') /\ 0 < f < f' /\
  (forall n, bishop (allow n v) cx cy r = Ok (Some (F n)) /\ bishop (allow n v') cx cy r = Ok (Some (F' n))) /\
  Un_cv F g /\ Un_cv F' g' /\ 0 < g < g'.
Proof.
  intros EN. destruct veneer_safer as (v & v' & f & f' & F & F' & g & g' & A & B & _ & C).
  exists veneer, loaded, v, v', 12, (29 / 2), (15 / 2), (6, 10), (12, 7), f, f', F, F', g, g'.
  split; [exact A|]. split; [exact B|]. split; [exact veneer_surcharged|]. exact C.
Qed.
Print Assumptions C95_safer_refuted.

(** and a run in binary64 with one soil: the factor reported rises from below 3.7 to above 3.9 *)
Theorem C95_binary_refuted : exists (EN : Env) (s : st float),
  reachable s /\ s_udls (snd s) = [] /\ s_lls (snd s) = [] /\ s_max_iterations (snd s) = 15%Z /\
  fst (exec (SetUdls [RefUdl 0]) s) = Ok tt /\
  s_geom (snd (step s (SetUdls [RefUdl 0]))) = s_geom (snd s) /\
  s_udls (snd (step s (SetUdls [RefUdl 0]))) = [0%nat] /\
  fst (exec (Analyse None) s) = Ok tt /\
  fst (exec (Analyse None) (step s (SetUdls [RefUdl 0]))) = Ok tt /\
  (0 < micro_fos s < 3700000)%Z /\ (3900000 < micro_fos (step s (SetUdls [RefUdl 0])))%Z /\
  (0 < fos_turns 0 s < 3410000)%Z /\ (3690000 < fos_turns 0 (step s (SetUdls [RefUdl 0])))%Z.
Proof. exact load_raises. Qed.
Print Assumptions C95_binary_refuted.
