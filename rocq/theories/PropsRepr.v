(** * PropsRepr: what the texts of materials, loads and slopes tell (C122).

    [shown] is Python's text of a number; [number_text s] says that [s] has no parenthesis, comma, blank, V or H. *)
From Coq Require Import ZArith List Bool String Ascii.
From Verif Require Import Num FloatNum Py Validation Objects Slope Repr.
Import ListNotations.
Local Open Scope string_scope.

(** Equal texts of materials: the same name, whatever characters it has, and the same numbers. *)
Theorem C122_material : forall {T} {NT : Num T} (shown : T -> string), (forall x, number_text (shown x)) -> forall m m' : material T,
  material_text shown m = material_text shown m' <->
  m_name m = m_name m' /\ shown (m_unit_weight m) = shown (m_unit_weight m') /\ shown (m_friction_angle m) = shown (m_friction_angle m') /\
  shown (m_cohesion m) = shown (m_cohesion m') /\ shown (m_depth m) = shown (m_depth m').
Proof.
  intros T NT shown P m m'. split; [apply material_same; exact P|]. intros (E1 & E2 & E3 & E4 & E5). unfold material_text. now rewrite E1, E2, E3, E4, E5.
Qed.
Print Assumptions C122_material.
(** Equal texts of strip loads: the same numbers, and both or none without an end. *)
Theorem C122_udl : forall {T} {NT : Num T} (shown : T -> string), (forall x, number_text (shown x)) -> forall u u' : udl T,
  udl_text shown u = udl_text shown u' <->
  shown (u_magnitude u) = shown (u_magnitude u') /\ shown (u_offset u) = shown (u_offset u') /\
  option_map shown (u_length u) = option_map shown (u_length u').
Proof.
  intros T NT shown P u u'. split; [apply udl_same; exact P|]. intros (E1 & E2 & E3). unfold udl_text.
  destruct (u_length u), (u_length u'); cbn [option_map] in E3; try discriminate; [injection E3 as E3; now rewrite E1, E2, E3|now rewrite E1, E2].
Qed.
Print Assumptions C122_udl.
(** Equal texts of line loads: the same numbers. *)
Theorem C122_lload : forall {T} {NT : Num T} (shown : T -> string), (forall x, number_text (shown x)) -> forall l l' : lload T,
  lload_text shown l = lload_text shown l' <->
  shown (l_magnitude l) = shown (l_magnitude l') /\ shown (l_offset l) = shown (l_offset l').
Proof.
  intros T NT shown P l l'. split; [apply lload_same; exact P|]. intros (E1 & E2). unfold lload_text. now rewrite E1, E2.
Qed.
Print Assumptions C122_lload.
(** Equal texts of slopes: the same height and length to three decimals, and nothing more. *)
Theorem C122_slope : forall {T} {NT : Num T} (shown : T -> string), (forall x, number_text (shown x)) -> forall g g' : geom T,
  slope_text shown g = slope_text shown g' <->
  shown (nround 3 (g_height g)) = shown (nround 3 (g_height g')) /\ shown (nround 3 (g_length g)) = shown (nround 3 (g_length g')).
Proof. intros T NT shown P g g'. apply slope_same, P. Qed.
Print Assumptions C122_slope.
(** No text begins like the text of an object of another kind. *)
Theorem C122_kinds : forall {T} {NT : Num T} (shown : T -> string) (m : material T) (u : udl T) (l : lload T) (g : geom T),
  NoDup [material_text shown m; udl_text shown u; lload_text shown l; slope_text shown g].
Proof.
  intros T NT shown m u l g. assert (U : exists s, udl_text shown u = "UDL: " ++ s) by (unfold udl_text; destruct (u_length u); eauto).
  destruct U as (s & ->). unfold material_text, lload_text, slope_text.
  repeat (constructor; [cbn [In]; intros F; repeat destruct F as [F|F]; try contradiction F; discriminate F|]). constructor.
Qed.
Print Assumptions C122_kinds.
(** Each number follows its own label and ends where the next part begins. *)
Definition labelled (label v s : string) : Prop :=
  exists a b c, s = a ++ label ++ v ++ String c b /\ In c [","; ")"; " "; "V"; "H"]%char /\ lacks c v.
Theorem C122_labels : forall {T} {NT : Num T} (shown : T -> string), (forall x, number_text (shown x)) ->
  forall (m : material T) (u : udl T) (l : lload T) (g : geom T),
  labelled "(uw=" (shown (m_unit_weight m)) (material_text shown m) /\ labelled ",phi=" (shown (m_friction_angle m)) (material_text shown m) /\
  labelled ",c=" (shown (m_cohesion m)) (material_text shown m) /\ labelled ",d_bot=" (shown (m_depth m)) (material_text shown m) /\
  labelled "UDL: " (shown (u_magnitude u)) (udl_text shown u) /\ labelled ", offset = " (shown (u_offset u)) (udl_text shown u) /\
  (forall len, u_length u = Some len -> labelled "load length = " (shown len) (udl_text shown u)) /\
  labelled "LineLoad: " (shown (l_magnitude l)) (lload_text shown l) /\ labelled ", offset = " (shown (l_offset l)) (lload_text shown l) /\
  labelled "Slope: " (shown (nround 3 (g_height g))) (slope_text shown g) /\ labelled "V : " (shown (nround 3 (g_length g))) (slope_text shown g).
Proof.
  intros T NT shown P m u l g.
  assert (K : forall label x a b c s, In c [","; ")"; " "; "V"; "H"]%char -> s = a ++ label ++ shown x ++ String c b -> labelled label (shown x) s).
  { intros label x a b c s I E. exists a, b, c. split; [exact E|]. split; [exact I|]. destruct (P x) as (_ & L2 & L3 & L4 & L5 & L6).
    cbn [In] in I. repeat destruct I as [<-|I]; try assumption. contradiction. }
  unfold material_text, lload_text, slope_text.
  split; [eapply (K _ _ ("Material:" ++ m_name m) _ ","%char); [cbn; auto|rewrite joined; reflexivity]|].
  split; [eapply (K _ _ ("Material:" ++ m_name m ++ "(uw=" ++ shown (m_unit_weight m)) _ ","%char); [cbn; auto|rewrite !joined; reflexivity]|].
  split; [eapply (K _ _ ("Material:" ++ m_name m ++ "(uw=" ++ shown (m_unit_weight m) ++ ",phi=" ++ shown (m_friction_angle m)) _ ","%char); [cbn; auto|rewrite !joined; reflexivity]|].
  split; [eapply (K _ _ ("Material:" ++ m_name m ++ "(uw=" ++ shown (m_unit_weight m) ++ ",phi=" ++ shown (m_friction_angle m) ++ ",c=" ++ shown (m_cohesion m)) "" ")"%char); [cbn; auto|rewrite !joined; reflexivity]|].
  split; [unfold udl_text; destruct (u_length u); eapply (K _ _ "" _ " "%char); try (cbn; auto; fail); reflexivity|].
  split; [unfold udl_text; destruct (u_length u); eapply (K _ _ ("UDL: " ++ shown (u_magnitude u) ++ " kPa") _ " "%char); try (cbn; auto; fail); rewrite !joined; reflexivity|].
  split; [intros len E; unfold udl_text; rewrite E; eapply (K _ _ ("UDL: " ++ shown (u_magnitude u) ++ " kPa, offset = " ++ shown (u_offset u) ++ " m, ") _ " "%char); [cbn; auto|rewrite !joined; reflexivity]|].
  split; [eapply (K _ _ "" _ " "%char); [cbn; auto|reflexivity]|].
  split; [eapply (K _ _ ("LineLoad: " ++ shown (l_magnitude l) ++ " kN/m") _ " "%char); [cbn; auto|rewrite !joined; reflexivity]|].
  split; [eapply (K _ _ "" _ "V"%char); [cbn; auto|reflexivity]|].
  eapply (K _ _ ("Slope: " ++ shown (nround 3 (g_height g))) "" "H"%char); [cbn; auto 7|rewrite !joined; reflexivity].
Qed.
Print Assumptions C122_labels.

(** ** Cases: the texts of the doctests (pyslope.py:58, 117-118, 208-211, 256-263) *)
Definition some_text (x : float) : string :=
  if neqb x (nz 0) then "0" else if neqb x (nz 1) then "1" else if neqb x (nz 2) then "2" else if neqb x (nz 5) then "5"
  else if neqb x (nz 10) then "10" else if neqb x (nz 20) then "20" else if neqb x (nz 35) then "35" else "1.732".
Example C122_plain : forall x, number_text (some_text x).
Proof.
  intros x. unfold some_text. repeat match goal with |- number_text (if ?b then _ else _) => destruct b end; unfold number_text; cbn [lacks]; repeat split; discriminate.
Qed.
Example C122_texts :
  material_text some_text (MkMaterial (nz 20) (nz 35) (nz 2) (nz 5) "" "" "" (nz 1) None) = "Material:(uw=20,phi=35,c=2,d_bot=5)" /\
  udl_text some_text (MkUdl (nz 0) (nz 0) None "red" false None None) = "UDL: 0 kPa, offset = 0 m, load length continuous" /\
  udl_text some_text (MkUdl (nz 10) (nz 1) (Some (nz 2)) "red" false None None) = "UDL: 10 kPa, offset = 1 m, load length = 2 m" /\
  lload_text some_text (MkLload (nz 10) (nz 1) "pink" false None) = "LineLoad: 10 kN/m, offset = 1 m" /\
  slope_text some_text (MkGeom (nz 1) (nlit 17320508 10000000) (nz 1) (nz 0, nz 0) (nz 0, nz 0) (nz 1) (nz 1)) = "Slope: 1V : 1.732H".
Proof. vm_compute. auto. Qed.
(** A name that imitates the rest of the text does not deceive. *)
Example C122_name : material_text some_text (MkMaterial (nz 20) (nz 35) (nz 2) (nz 5) "(uw=1,phi=1,c=1,d_bot=1)" "" "" (nz 1) None) <>
  material_text some_text (MkMaterial (nz 1) (nz 1) (nz 1) (nz 1) "" "" "" (nz 1) None).
Proof. vm_compute. discriminate. Qed.
(** Two slopes with one text. *)
Example C122_one_text : exists g g' : geom float, g_height g <> g_height g' /\ slope_text some_text g = slope_text some_text g'.
Proof.
  exists (MkGeom (nz 1) (nz 2) (nz 1) (nz 0, nz 0) (nz 0, nz 0) (nz 1) (nz 1)), (MkGeom (nlit 10001 10000) (nz 2) (nz 1) (nz 0, nz 0) (nz 0, nz 0) (nz 1) (nz 1)).
  split; vm_compute; [discriminate|reflexivity].
Qed.
