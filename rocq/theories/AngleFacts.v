(** * AngleFacts: which heights, angles and lengths are accepted (C05). *)
From Coq Require Import ZArith Reals Lra Lia List Bool String.
From Verif Require Import Num Py Validation Utilities Objects Slope Planes Analysis
     Dynamic Api RealNum RealFacts ListFacts MonadFacts SlopeFacts MaterialFacts Invariant
     History Spec EditFacts.
Import ListNotations.
Local Open Scope R_scope.

(** What the documentation asks for: a height, an angle above 0 and up to 90 degrees if there is
    one, a length if there is no angle. *)
Definition good_inputs (height angle length : pyval R) : Prop :=
  (exists h, denotes height h /\ 0 <= h) /\
  (angle = PNone \/ exists a, denotes angle a /\ 0 < a <= 90) /\
  (length = PNone /\ angle <> PNone \/ exists l, denotes length l /\ 0 <= l).

Lemma tan_not_zero a : 0 < a <= 90 -> Rtan_py (a * (PI / 180)) <> 0.
Proof.
  intros [A B]. destruct (Rle_lt_or_eq_dec a 90 B) as [L|E].
  - destruct (Rtan_py_acute a (conj A L)) as [-> P]. lra.
  - rewrite E, Rtan_py_90. lra.
Qed.
Lemma inputs_accepted height angle length : good_inputs height angle length ->
  exists p, boundary_inputs height angle length = Ok p.
Proof.
  intros ((h & Dh & Ph) & A & L). destruct L as [(EL & NA)|(l & Dl & Pl)].
  - subst length. destruct A as [|(a & Da & Pa)]; [contradiction|].
    rewrite (boundary_inputs_angle height angle h a); eauto using tan_not_zero.
  - destruct A as [A|(a & Da & Pa)].
    + rewrite (boundary_inputs_length height angle length h 1 l); eauto.
    + rewrite (boundary_inputs_length height angle length h a l); eauto.
Qed.
Lemma range_value angle u : assert_range angle (nz 0) (nz 90) true false = Ok u ->
  exists a, denotes angle a /\ 0 < a <= 90.
Proof.
  unfold assert_range. destruct (isinstance_num angle) eqn:I; cbn [negb]; [|discriminate].
  destruct (as_num angle) as [a|] eqn:A; cbn [rbind andb]; [|discriminate]. unR.
  destruct (Rltb a 0) eqn:L1; [discriminate|]. destruct (Rltb 90 a) eqn:L2; [discriminate|].
  destruct (Reqb a 0) eqn:L3; [discriminate|]. rbool. intros _. exists a. split; [now apply denotes_as_num|]. lra.
Qed.
Lemma range_error angle e : assert_range (T := R) angle (nz 0) (nz 90) true false = Err e -> e = ValueError.
Proof.
  unfold assert_range. destruct (isinstance_num angle) eqn:I; cbn [negb]; [|congruence].
  destruct (as_num angle) as [a|] eqn:A; [|destruct angle; discriminate]. cbn [rbind andb].
  repeat match goal with |- context [if ?x then _ else _] => destruct x end; congruence.
Qed.
Lemma positive_error v e : assert_positive_number (T := R) v = Err e -> e = ValueError.
Proof.
  unfold assert_positive_number. destruct (isinstance_num v) eqn:I; cbn [negb]; [|congruence].
  destruct (as_num v) as [a|] eqn:A; [|destruct v; discriminate]. cbn [rbind].
  match goal with |- context [if ?x then _ else _] => destruct x end; congruence.
Qed.
Lemma strict_error v e : assert_strictly_positive_number (T := R) v = Err e -> e = ValueError.
Proof. exact (positive_error v e). Qed.
Lemma inputs_good height angle length p : boundary_inputs height angle length = Ok p ->
  good_inputs height angle length.
Proof.
  unfold boundary_inputs. intros E.
  destruct (is_none height) eqn:NH.
  { destruct height; try discriminate. cbn [rbind] in E. exfalso.
    destruct (if is_none angle then _ else _); [|discriminate]. cbn [rbind] in E.
    destruct (if is_none length then Ok tt else _); [|discriminate]. cbn [rbind as_num] in E.
    destruct (is_none length); [destruct (negb (truthy angle))|destruct (as_num length)]; discriminate. }
  destruct (assert_strictly_positive_number height) as [uh|] eqn:AH; [|discriminate]. cbn [rbind] in E.
  apply assert_strict_ok in AH. split; [exact AH|].
  destruct (is_none angle) eqn:NA.
  - assert (angle = PNone) by (destruct angle; discriminate || reflexivity). subst angle. split; [now left|].
    cbn [rbind] in E. destruct (is_none length) eqn:NL; [discriminate|].
    destruct (assert_positive_number length) as [ul|] eqn:PL; [|discriminate]. right. now apply assert_positive_ok in PL.
  - destruct (assert_range angle (nz 0) (nz 90) true false) as [ua|] eqn:AR; [|discriminate]. apply range_value in AR.
    split; [now right|]. cbn [rbind] in E. destruct (is_none length) eqn:NL.
    + left. split; [destruct length; discriminate || reflexivity|]. intros ->. discriminate.
    + destruct (assert_positive_number length) as [ul|] eqn:PL; [|discriminate]. right. now apply assert_positive_ok in PL.
Qed.
(** a rejection is a ValueError unless the height is missing *)
Lemma inputs_error height angle length e : height <> PNone -> boundary_inputs height angle length = Err e -> e = ValueError.
Proof.
  intros NH. unfold boundary_inputs. assert (is_none height = false) as -> by (destruct height; congruence || reflexivity).
  destruct (assert_strictly_positive_number height) as [uh|e0] eqn:AH; [|intros E; injection E as <-; now apply strict_error in AH].
  apply assert_strict_ok in AH as (h & DH & PH). pose proof (proj1 (denotes_as_num _ _) DH) as EH. cbn [rbind]. 
  destruct (is_none angle) eqn:NA.
  - assert (angle = PNone) by (destruct angle; discriminate || reflexivity). subst angle. cbn [rbind truthy].
    destruct (is_none length) eqn:NL; [cbn; congruence|].
    destruct (assert_positive_number length) as [ul|e1] eqn:PL; [|cbn; intros E; injection E as <-; now apply positive_error in PL].
    apply assert_positive_ok in PL as (l & DL & _). apply denotes_as_num in DL. rewrite DL, EH. discriminate.
  - destruct (assert_range angle (nz 0) (nz 90) true false) as [ua|e1] eqn:AR; [|cbn; intros E; injection E as <-; now apply range_error in AR].
    apply range_value in AR as (a & DA & PA). cbn [rbind]. destruct (is_none length) eqn:NL; cbn [rbind].
    + destruct (negb (truthy angle)); [cbn; congruence|]. rewrite EH, (proj1 (denotes_as_num _ _) DA). cbn [rbind].
      unfold pydiv, nradians. unR. rewrite (proj2 (Reqb_false _ _) (tan_not_zero a PA)). discriminate.
    + destruct (assert_positive_number length) as [ul|e1] eqn:PL; [|cbn; intros E; injection E as <-; now apply positive_error in PL].
      apply assert_positive_ok in PL as (l & DL & _). apply denotes_as_num in DL. rewrite DL, EH. discriminate.
Qed.

Section Accept.
  Context {EN : Env}.
  Lemma new_slope_accepted hp height angle length :
    (exists s, new_slope hp height angle length = Ok s) <-> good_inputs height angle length.
  Proof.
    rewrite init_eff. split.
    - intros (s & E). destruct (boundary_inputs height angle length) as [p|] eqn:B; [|discriminate]. eapply inputs_good; eauto.
    - intros G. destruct (inputs_accepted _ _ _ G) as ((h & l) & ->). eauto.
  Qed.
  Lemma new_slope_error hp height angle length e : height <> PNone ->
    new_slope hp height angle length = Err e -> e = ValueError.
  Proof.
    intros N. rewrite init_eff. destruct (boundary_inputs height angle length) as [[h l]|e0] eqn:B; [discriminate|].
    intros E. injection E as <-. eapply inputs_error; eauto.
  Qed.
  Lemma set_boundary_accepted (s : st R) height angle length :
    (exists s', exec (SetBoundary height angle length) s = (Ok tt, s')) <-> good_inputs height angle length.
  Proof.
    cbn [exec]. rewrite set_external_boundary_eff. split.
    - intros (s' & E). destruct (boundary_inputs height angle length) as [p|] eqn:B; [|discriminate]. eapply inputs_good; eauto.
    - intros G. destruct (inputs_accepted _ _ _ G) as ((h & l) & ->). eauto.
  Qed.
  Lemma set_boundary_error (s : st R) height angle length e s' : height <> PNone ->
    exec (SetBoundary height angle length) s = (Err e, s') -> e = ValueError.
  Proof.
    intros N. cbn [exec]. rewrite set_external_boundary_eff. destruct (boundary_inputs height angle length) as [[h l]|e0] eqn:B; [discriminate|].
    intros E. injection E as <- _. eapply inputs_error; eauto.
  Qed.
End Accept.
