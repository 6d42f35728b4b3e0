(** * Repr: the texts of the objects (pyslope.py:103-110, 173-183, 237-238, 265-266).

    [shown x] stands for Python's text of a number.  The model does not tell 5 from 5.0, whose texts
    differ; the theorems hold for every such function whose texts have none of the separating characters. *)
From Coq Require Import ZArith List Bool String Ascii Lia.
From Verif Require Import Num Py Validation Objects Slope.
Import ListNotations.
Local Open Scope string_scope.

Section Repr.
  Context {T : Type} {NT : Num T} (shown : T -> string).

  (** pyslope.py:103-110 [Material.__repr__] *)
  Definition material_text (m : material T) : string :=
    "Material:" ++ m_name m ++ "(uw=" ++ shown (m_unit_weight m) ++ ",phi=" ++ shown (m_friction_angle m)
    ++ ",c=" ++ shown (m_cohesion m) ++ ",d_bot=" ++ shown (m_depth m) ++ ")".

  (** pyslope.py:173-183 [Udl.__repr__] *)
  Definition udl_text (u : udl T) : string :=
    match u_length u with
    | None => "UDL: " ++ shown (u_magnitude u) ++ " kPa, offset = " ++ shown (u_offset u) ++ " m, "
              ++ "load length continuous"
    | Some len => "UDL: " ++ shown (u_magnitude u) ++ " kPa, offset = " ++ shown (u_offset u) ++ " m, "
                  ++ "load length = " ++ shown len ++ " m"
    end.

  (** pyslope.py:237-238 [LineLoad.__repr__] *)
  Definition lload_text (l : lload T) : string :=
    "LineLoad: " ++ shown (l_magnitude l) ++ " kN/m, offset = " ++ shown (l_offset l) ++ " m".

  (** pyslope.py:265-266 [Slope.__repr__] *)
  Definition slope_text (g : geom T) : string :=
    "Slope: " ++ shown (nround 3 (g_height g)) ++ "V : " ++ shown (nround 3 (g_length g)) ++ "H".
End Repr.

(** ** Texts with separators *)
Fixpoint lacks (c : ascii) (s : string) : Prop :=
  match s with EmptyString => True | String d s' => c <> d /\ lacks c s' end.
Lemma lacks_app c a b : lacks c (a ++ b) <-> lacks c a /\ lacks c b.
Proof. induction a as [|d a IH]; cbn [append lacks]; [tauto|]. rewrite IH. tauto. Qed.
Lemma cut_first c a b a' b' : lacks c a -> lacks c a' -> a ++ String c b = a' ++ String c b' -> a = a' /\ b = b'.
Proof.
  revert a'. induction a as [|d a IH]; intros [|d' a'] L L' E; cbn [append] in E; injection E; cbn [lacks] in *.
  - auto.
  - intros _ <-. tauto.
  - intros _ ->. tauto.
  - intros E' ->. destruct (IH a') as (-> & ->); auto; tauto.
Qed.
Lemma cut_last c a b a' b' : lacks c b -> lacks c b' -> a ++ String c b = a' ++ String c b' -> a = a' /\ b = b'.
Proof.
  revert a'. induction a as [|d a IH]; intros [|d' a'] L L' E; cbn [append] in E; injection E.
  - auto.
  - intros -> <-. exfalso. apply lacks_app in L. cbn [lacks] in L. tauto.
  - intros <- ->. exfalso. apply lacks_app in L'. cbn [lacks] in L'. tauto.
  - intros E' ->. destruct (IH a') as (-> & ->); auto.
Qed.
Lemma strip p a b : p ++ a = p ++ b -> a = b.
Proof. induction p as [|c p IH]; cbn [append]; [auto|]. intros E. injection E as E. auto. Qed.
Lemma joined a b c : (a ++ b) ++ c = a ++ b ++ c.
Proof. induction a as [|d a IH]; cbn [append]; [reflexivity|]. now rewrite IH. Qed.

(** The text of a number has none of these characters. *)
Definition number_text (s : string) : Prop :=
  lacks "(" s /\ lacks ")" s /\ lacks "," s /\ lacks " " s /\ lacks "V" s /\ lacks "H" s.

Section Facts.
  Context {T : Type} {NT : Num T} (shown : T -> string) (plain : forall x, number_text (shown x)).

  Lemma material_same m m' : material_text shown m = material_text shown m' ->
    m_name m = m_name m' /\ shown (m_unit_weight m) = shown (m_unit_weight m') /\ shown (m_friction_angle m) = shown (m_friction_angle m') /\
    shown (m_cohesion m) = shown (m_cohesion m') /\ shown (m_depth m) = shown (m_depth m').
  Proof.
    intros E. unfold material_text in E. apply strip in E. apply (cut_last "(") in E.
    - destruct E as (EN & E). split; [exact EN|]. change (fun a : string => String "u" (String "w" (String "=" a))) with (fun a => "uw=" ++ a) in E.
      apply (strip "uw=") in E. apply (cut_first ",") in E; try apply plain. destruct E as (E1 & E). split; [exact E1|].
      apply (strip "phi=") in E. apply (cut_first ",") in E; try apply plain. destruct E as (E2 & E). split; [exact E2|].
      apply (strip "c=") in E. apply (cut_first ",") in E; try apply plain. destruct E as (E3 & E). split; [exact E3|].
      apply (strip "d_bot=") in E. apply (cut_first ")") in E; try apply plain. apply E.
    - cbn [append lacks]. repeat (split; [discriminate|]). rewrite ?lacks_app. cbn [append lacks]. rewrite ?lacks_app. cbn [append lacks]. rewrite ?lacks_app. cbn [append lacks].
      rewrite ?lacks_app. cbn [append lacks]. repeat split; try discriminate; apply plain.
    - cbn [append lacks]. repeat (split; [discriminate|]). rewrite ?lacks_app. cbn [append lacks]. rewrite ?lacks_app. cbn [append lacks]. rewrite ?lacks_app. cbn [append lacks].
      rewrite ?lacks_app. cbn [append lacks]. repeat split; try discriminate; apply plain.
  Qed.
  Lemma udl_same u u' : udl_text shown u = udl_text shown u' ->
    shown (u_magnitude u) = shown (u_magnitude u') /\ shown (u_offset u) = shown (u_offset u') /\
    option_map shown (u_length u) = option_map shown (u_length u').
  Proof.
    unfold udl_text. destruct (u_length u) as [a|], (u_length u') as [b|]; intros E; apply strip in E; apply (cut_first " ") in E; try apply plain;
      destruct E as (E1 & E); apply (strip "kPa, offset = ") in E; apply (cut_first " ") in E; try apply plain; destruct E as (E2 & E); apply (strip "m, ") in E;
      (split; [exact E1|split; [exact E2|]]); try discriminate E; try reflexivity.
    apply (strip "load length = ") in E. apply (cut_first " ") in E; try apply plain. cbn [option_map]. f_equal. apply E.
  Qed.
  Lemma lload_same l l' : lload_text shown l = lload_text shown l' ->
    shown (l_magnitude l) = shown (l_magnitude l') /\ shown (l_offset l) = shown (l_offset l').
  Proof.
    unfold lload_text. intros E. apply strip in E. apply (cut_first " ") in E; try apply plain. destruct E as (E1 & E). split; [exact E1|].
    apply (strip "kN/m, offset = ") in E. apply (cut_first " ") in E; try apply plain. apply E.
  Qed.
  Lemma slope_same g g' : slope_text shown g = slope_text shown g' <->
    shown (nround 3 (g_height g)) = shown (nround 3 (g_height g')) /\ shown (nround 3 (g_length g)) = shown (nround 3 (g_length g')).
  Proof.
    unfold slope_text. split; [|intros (-> & ->); reflexivity]. intros E. apply strip in E. apply (cut_first "V") in E; try apply plain. destruct E as (E1 & E). split; [exact E1|].
    apply (strip " : ") in E. apply (cut_first "H") in E; try apply plain. apply E.
  Qed.
  (** no text tells the colour of a load or whether it may move *)
  Lemma udl_blind u c d : udl_text shown (MkUdl (u_magnitude u) (u_offset u) (u_length u) c d (u_left u) (u_right u)) = udl_text shown u.
  Proof. reflexivity. Qed.
End Facts.
