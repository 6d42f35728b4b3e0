(** * Tests: the binary64 model run on the cases of
    /repo/pyslope/tests/test_validation_examples.py and test_slope.py.  Tests, not proofs
    of properties.  The results of analyses ([..._result]) are evaluated when this file is
    built and kept as literals, so the kernel compares them without running the model again;
    a change of the model that breaks a test still stops the build. *)
From Coq Require Import ZArith List Bool String SpecFloat.
From Verif Require Import Num Py Validation Utilities Objects Slope Planes Analysis
     Dynamic Api FloatNum.
Import ListNotations.
Local Open Scope Z_scope.

Definition testEnv : Env := {| is_color := fun c => existsb (String.eqb c) ["green"; "purple"]%string |}.
Local Existing Instance testEnv.

Definition F (n : Z) (d : positive) : pyval float := PFloat (f_lit n d).

(** numeric constants against the values of CPython *)
Example pi_ok : f_pi = S754_finite false 7074237752028440 (-51).
Proof. vm_compute. reflexivity. Qed.
Example tan90_ok : f_trunc (f_tan (nradians (f_of_Z 90))) = 16331239353195370.
Proof. vm_compute. reflexivity. Qed.

(** a call after another; every call has to be accepted *)
Fixpoint calls (s : st float) (ops : list (op float)) : option (st float) :=
  match ops with
  | [] => Some s
  | o :: l => match exec o s with (Ok _, s') => calls s' l | (Err _, _) => None end
  end.
Definition slope_of (h a l : pyval float) : option (st float) :=
  match new_slope empty_heap h a l with Ok s => Some s | Err _ => None end.
Definition after (s : option (st float)) (ops : list (op float)) : option (st float) :=
  match s with Some s => calls s ops | None => None end.
(** circles of the given radii, centred 2.5 m above the toe *)
Definition circles (radii : list Z) (s : option (st float)) : option (st float) :=
  match s with
  | Some t => let b := g_bot (s_geom (snd t)) in
              calls t (map (fun r => AddCircle (fst b) (nadd (snd b) (f_lit 5 2)) (f_of_Z r)) radii)
  | None => None
  end.
Definition three_layers (c2 : Z) : list (op float) :=
  [ NewMaterial (F 20 1) (F 35 1) (F 0 1) (F 1 2) PNone PNone;
    NewMaterial (F 20 1) (F 35 1) (F c2 1) (F 1 1) PNone PNone;
    NewMaterial (F 18 1) (F 30 1) (F 0 1) (F 5 1) PNone PNone;
    SetMaterials [RefMaterial 0; RefMaterial 1; RefMaterial 2] ].
Definition opts (slices iterations : Z) : op float := AnalysisOpts (Some slices) (Some iterations) None None None.
(** radius and factor of every result, in thousandths *)
Definition found (s : option (st float)) : list (Z * Z) :=
  match s with
  | Some s => map (fun p => (micro (p_radius p) / 1000, match p_fos p with Some (Some f) => micro f / 1000 | _ => -1 end))
                  (s_search (snd s))
  | None => []
  end.
Definition fos (s : option (st float)) : Z :=
  match s with
  | Some s => match get_min_FOS (snd s) with Ok (Some f) => micro f | _ => -1 end
  | None => -2
  end.
(** difference / average < 0.01, and every radius has a result *)
Definition agree (expected : list (Z * Z)) (got : list (Z * Z)) : bool :=
  Nat.eqb (List.length expected) (List.length got) &&
  forallb (fun rf => existsb (fun ef => (1000 * fst ef =? fst rf) &&
     (200 * Z.abs (snd ef - snd rf) <? snd ef + snd rf)) expected) got.

(** ** test_validation_examples.py *)
Definition example (c2 : Z) (radii : list Z) (more : list (op float)) : option (st float) :=
  after (circles radii (after (slope_of (F 1 1) PNone (F 1 1)) (three_layers c2)))
        (AnalysisOpts (Some 50) None None None None :: more ++ [Analyse None]).
(** test_validation_examples.py:37-69 *)
Definition a_result := Eval vm_compute in found (example 0 [2; 3; 4; 5] []).
Example test_a : agree [(2, 1272); (3, 2180); (4, 3907); (5, 5736)] a_result = true.
Proof. vm_compute. reflexivity. Qed.
(** test_validation_examples.py:72-101 *)
Definition b_result := Eval vm_compute in found (example 2 [2; 3; 4; 5] []).
Example test_b : agree [(2, 1272); (3, 2266); (4, 3941); (5, 5759)] b_result = true.
Proof. vm_compute. reflexivity. Qed.
(** test_validation_examples.py:104-135 *)
Definition c_result := Eval vm_compute in found (example 2 [3; 4; 5] [SetWater (F 7 10)]).
Example test_c : agree [(3, 1602); (4, 2330); (5, 3174)] c_result = true.
Proof. vm_compute. reflexivity. Qed.
(** test_validation_examples.py:138-175 *)
Definition d_result := Eval vm_compute in found (example 2 [3; 4; 5] [NewUdl (F 20 1) (F 1 2) (F 2 1) "" false; SetUdls [RefUdl 0]]).
Example test_d : agree [(3, 1597); (4, 2585); (5, 4266)] d_result = true.
Proof. vm_compute. reflexivity. Qed.
(** test_validation_examples.py:178-215 *)
Definition e_result := Eval vm_compute in found (example 2 [3; 4; 5] [NewLload (F 5 1) (F 1 1) "" false; SetLls [RefLload 0]]).
Example test_e : agree [(3, 2036); (4, 3718); (5, 5559)] e_result = true.
Proof. vm_compute. reflexivity. Qed.
(** test_validation_examples.py:218-242, with 10 and 25 slices *)
Definition f_result := Eval vm_compute in map (fun n => fos (after (circles [2; 3; 4; 5]
    (after (slope_of (F 1 1) PNone (F 1 1)) (three_layers 0))) [AnalysisOpts (Some n) None None None None; Analyse None])) [10; 25].
Example test_f : forallb (fun f => 0 <? f) f_result = true.
Proof. vm_compute. reflexivity. Qed.

(** ** test_slope.py *)
(** test_slope.py:80-119, a layer added and removed by depth, removed and added by instance *)
Definition removal : option (st float) :=
  after (circles [2; 3; 4; 5] (after (slope_of (F 1 1) (F 45 1) PNone)
    [ NewMaterial (F 40 1) (F 30 1) (F 2 1) (F 2 1) PNone PNone;
      NewMaterial (F 20 1) (F 35 1) (F 2 1) (F 6 1) PNone PNone;
      SetMaterials [RefMaterial 0; RefMaterial 1] ])) [opts 10 100; Analyse None].
Definition removal1 : option (st float) :=
  after removal [ NewMaterial (F 25 1) (F 35 1) (F 1000 1) (F 5 1) PNone PNone; SetMaterials [RefMaterial 2];
                  RemoveMaterial None (PInt 5) false; Analyse None ].
Definition removal2 : option (st float) :=
  after removal1 [ RemoveMaterial (Some (RefMaterial 0)) PNone false; SetMaterials [RefMaterial 0]; Analyse None ].
Definition removal_result := Eval vm_compute in
  (fos removal, fos removal1, fos removal2,
   option_map (fun s => s_materials (snd s)) (after removal2 [RemoveMaterial None PNone true])).
Example test_material_remove : match removal_result with (f, f1, f2, ms) =>
  0 < f /\ f1 = f /\ f2 = f /\ ms = Some [] end.
Proof. vm_compute. repeat split. Qed.
(** test_slope.py:122-151 *)
Definition wet : option (st float) :=
  after (circles [3; 4; 5] (after (slope_of (F 1 1) (F 45 1) (F 1 1)) (three_layers 2)))
        [AnalysisOpts (Some 10) None None None None; SetWater (F 7 10); Analyse None].
Definition wet_result := Eval vm_compute in (fos wet, fos (after wet [RemoveWater; Analyse None])).
Example test_remove_water_table : 0 < fst wet_result /\ fst wet_result <= snd wet_result.
Proof. vm_compute. split; [reflexivity|discriminate]. Qed.
(** test_slope.py:154-173 *)
Example test_remove_limits : match after (slope_of (F 1 1) PNone (F 1 1))
    (three_layers 2 ++ [SetLimits (PInt 0) (PInt 8) PNone PNone; RemoveLimits]) with Some _ => true | None => false end = true.
Proof. vm_compute. reflexivity. Qed.
(** test_slope.py:176-210 *)
Definition strip : option (st float) :=
  after (circles [3; 4; 5] (after (slope_of (F 1 1) PNone (F 1 1))
    ([NewUdl (F 20 1) (PInt 0) PNone "" false; SetUdls [RefUdl 0]] ++ three_layers 2)))
    [AnalysisOpts (Some 10) None None None None; Analyse None].
Definition strip_result := Eval vm_compute in
  (fos strip, fos (after strip [RemoveUdls [0%nat] false; SetUdls [RefUdl 0]; Analyse None]),
   fos (after strip [RemoveUdls [] true; SetUdls [RefUdl 0]; Analyse None])).
Example test_remove_udl : match strip_result with (f, f1, f2) => 0 < f /\ f1 = f /\ f2 = f end.
Proof. vm_compute. repeat split. Qed.
(** test_slope.py:213-247 *)
Definition line : option (st float) :=
  after (circles [3; 4; 5] (after (slope_of (F 1 1) PNone (F 1 1))
    ([NewLload (F 20 1) (PInt 0) "" false; SetLls [RefLload 0]] ++ three_layers 2)))
    [AnalysisOpts (Some 10) None None None None; Analyse None].
Definition line_result := Eval vm_compute in
  (fos line, fos (after line [RemoveLls [0%nat] false; SetLls [RefLload 0]; Analyse None]),
   fos (after line [RemoveLls [] true; SetLls [RefLload 0]; Analyse None])).
Example test_remove_ll : match line_result with (f, f1, f2) => 0 < f /\ f1 = f /\ f2 = f end.
Proof. vm_compute. repeat split. Qed.
(** test_slope.py:250-278, counting the circles before they are analysed *)
Definition grid (s : option (st float)) : Z :=
  match s with
  | Some s => match view_of s with
              | Ok v => match entry_exit_planes v with Ok l => Z.of_nat (List.length l) | Err _ => -1 end
              | Err _ => -2
              end
  | None => -3
  end.
Definition planes_result := Eval vm_compute in
  (List.length (found line), grid (after line [RemovePlanes; opts 10 1000])).
Example test_remove_individual_planes : planes_result = (3%nat, 1006).
Proof. reflexivity. Qed.
(** test_slope.py:281-297, with three circles instead of the search *)
Definition dynamic_result := Eval vm_compute in match after (circles [3; 4; 5] (after (slope_of (F 1 1) PNone (F 1 1))
    ([NewLload (F 20 1) (PInt 0) "" true; SetLls [RefLload 0]] ++ three_layers 2)))
    [opts 10 500; AnalyseDynamic (CFloat (f_lit 13 10))] with
  | Some s => match s_dynamic (snd s) with [] => false | _ => true end | None => false end.
Example test_dynamic_analysis : dynamic_result = true.
Proof. vm_compute. reflexivity. Qed.
(** test_slope.py:300-320, without the figure: the layers as they are coloured *)
Example test_custom_color : match after (slope_of (F 1 1) PNone (F 1 1))
    [ NewLload (F 20 1) (PInt 0) "purple" true; SetLls [RefLload 0];
      NewMaterial (F 20 1) (F 35 1) (F 0 1) (F 1 2) PNone (PStr "ienagind");
      NewMaterial (F 20 1) (F 35 1) (F 2 1) (F 1 1) PNone (PStr "green");
      NewMaterial (F 18 1) (F 30 1) (F 0 1) (F 5 1) PNone PNone;
      SetMaterials [RefMaterial 0; RefMaterial 1; RefMaterial 2] ] with
  | Some s => map m_color (mats_of s) = [hd "" MATERIAL_COLORS; "green"; nth 2 MATERIAL_COLORS ""]%string /\
              map l_color (lls_of s) = ["purple"]%string
  | None => False end.
Proof. vm_compute. split; reflexivity. Qed.
