(** * PropsBinary: what holds in binary64 and in every other arithmetic (C77-C79). *)
From Coq Require Import ZArith List Bool String Sorted SpecFloat.
From Verif Require Import Num Py Validation Utilities Objects Slope Planes Analysis
     Dynamic Api ListFacts FloatNum FloatWitness FloatMore SearchFacts AnyFacts BinaryFacts FloatEdge.
Import ListNotations.
Local Open Scope Z_scope.

(** ** C77 *)
Theorem C77_limits : forall (T : Type) (NT : Num T) (EN : Env) (s : st T), reachable s ->
  let l := s_limits (snd s) in
  nleb (lim_left_r l) (lim_left l) = false /\ nleb (lim_right l) (lim_right_l l) = false.
Proof. intros T NT EN s Q. exact (proj1 (reachable_lawful s Q)). Qed.
Print Assumptions C77_limits.
Theorem C77_limits_binary64 : forall (EN : Env) (s : st float), reachable s ->
  let l := s_limits (snd s) in
  numeric (lim_left l) -> numeric (lim_left_r l) -> numeric (lim_right_l l) -> numeric (lim_right l) ->
  SFltb (lim_left l) (lim_left_r l) = true /\ SFltb (lim_right_l l) (lim_right l) = true.
Proof. exact @limits_binary. Qed.
Print Assumptions C77_limits_binary64.
Theorem C77_options : forall (T : Type) (NT : Num T) (EN : Env) (s : st T), reachable s ->
  10 <= s_slices (snd s) <= 500 /\ 500 <= s_iterations (snd s) <= 100000.
Proof. intros T NT EN s Q. exact (proj1 (proj2 (reachable_lawful s Q))). Qed.
Print Assumptions C77_options.
Theorem C77_geometry : forall (T : Type) (NT : Num T) (EN : Env) (s : st T), reachable s ->
  let g := s_geom (snd s) in
  (exists mh, g_ext_h g = pymax (pymax (nmul (nz 3) (g_height g)) mh)
                                (ndiv (nmul (nz 5) (g_length g)) (nz 2))) /\
  (exists ml, g_ext_l g = pymax (pymax (nmul (nz 5) (g_length g)) ml)
                                (nmul (nz 4) (g_height g))) /\
  g_top g = (ndiv (nsub (g_ext_l g) (g_length g)) (nz 2), g_ext_h g) /\
  g_bot g = (nadd (fst (g_top g)) (g_length g), nsub (g_ext_h g) (g_height g)) /\
  g_gradient g = ndiv (g_height g) (g_length g).
Proof. intros T NT EN s Q. exact (proj2 (proj2 (reachable_lawful s Q))). Qed.
Print Assumptions C77_geometry.
Example C77_example : exists (EN : Env) (s : st float), reachable s /\
  numeric (lim_left (s_limits (snd s))) /\ numeric (lim_left_r (s_limits (snd s))) /\
  numeric (lim_right_l (s_limits (snd s))) /\ numeric (lim_right (s_limits (snd s))) /\
  micro (g_ext_l (s_geom (snd s))) = 20000000 /\ s_slices (snd s) = 25.
Proof. exact plain_limits. Qed.
(** A limit can be NaN. *)
Example C77_nan : exists (EN : Env) (s s' : st float),
  reachable s /\ exec (SetLimits (PFloat S754_nan) (fl 20 1) (fl 8 1) (fl 12 1)) s = (Ok tt, s') /\
  lim_left (s_limits (snd s')) = S754_nan.
Proof. exact nan_accepted. Qed.

(** ** C78 *)
Theorem C78_kept : forall (T : Type) (NT : Num T) m (s s' : st T),
  analyse_slope m s = (Ok tt, s') ->
  exists v cs, view_of s = Ok v /\ analysed s v cs /\
    (forall c, In c cs -> exists f, factor v c = Ok f) /\
    (forall p, In p (s_search (snd s')) <->
       exists c f, In c cs /\ factor v c = Ok (Some f) /\
         match m with None => True | Some x => neqb x (nz 0) = true \/ nleb f x = true end /\
         p = set_fos (Some f) c) /\
    List.length (s_search (snd s')) =
      List.length (filter (fun c => match factor v c with
        | Ok (Some f) => match m with None => true | Some x => neqb x (nz 0) || nleb f x end
        | _ => false end) cs).
Proof. exact @kept_any. Qed.
Print Assumptions C78_kept.
Theorem C78_minimum : forall m (s s' : st float),
  analyse_slope m s = (Ok tt, s') ->
  exists v cs, view_of s = Ok v /\ analysed s v cs /\
    ((forall c f, In c cs -> factor v c = Ok (Some f) -> f <> S754_nan) ->
     StronglySorted (fun p q => forall f g, p_fos p = Some (Some f) -> p_fos q = Some (Some g) ->
                       SFleb f g = true) (s_search (snd s')) /\
     ((get_min_FOS (snd s') = Err IndexError /\
       forall c f, In c cs -> factor v c = Ok (Some f) -> passesb m f = false) \/
      (exists c f, get_min_FOS (snd s') = Ok (Some f) /\ In c cs /\ factor v c = Ok (Some f) /\
         get_min_FOS_circle (snd s') = Ok (circle_of c) /\
         get_min_FOS_end_points (snd s') = Ok (p_l c, p_r c) /\
         forall c' f', In c' cs -> factor v c' = Ok (Some f') -> SFleb f f' = true))).
Proof. exact min_binary. Qed.
Print Assumptions C78_minimum.
Example C78_example : exists (EN : Env) (s s' : st float) v,
  reachable s /\ analyse_slope None s = (Ok tt, s') /\ view_of s = Ok v /\
  List.length (s_search (snd s')) = 2%nat /\ analysed s v (s_planes (snd s)) /\
  (forall c f, In c (s_planes (snd s)) -> factor v c = Ok (Some f) -> f <> S754_nan).
Proof. exact two_numbers. Qed.

(** ** C79 *)
Theorem C79_nan_refuted : exists (EN : Env) (s s' : st float) f,
  reachable s /\ analyse_slope None s = (Ok tt, s') /\
  get_min_FOS (snd s') = Ok (Some S754_nan) /\
  (exists p, In p (s_search (snd s')) /\ p_fos p = Some (Some f)) /\ micro f = 1904326.
Proof. exact nan_reported. Qed.
Print Assumptions C79_nan_refuted.
Theorem C79_overflow_refuted : exists (EN : Env) (s s' : st float),
  reachable s /\ exec (SetBoundary (PFloat huge) PNone (fl 1 1)) s = (Err ValueError, s') /\
  micro (g_height (s_geom (snd s))) = 3000000 /\ g_height (s_geom (snd s')) = huge /\
  s_limits (snd s') = s_limits (snd s) /\ micro (lim_right (s_limits (snd s'))) = 20000000.
Proof. exact overflow_moves. Qed.
Print Assumptions C79_overflow_refuted.
(** In every arithmetic a rejected call left the slope alone or had moved the
    cross-section only; the full claim is that it left the slope alone. *)
Theorem C79_rejected_partial : forall (T : Type) (NT : Num T) (EN : Env) h a l (s s' : st T) e,
  exec (SetBoundary h a l) s = (Err e, s') ->
  s' = s \/
  (h_materials (fst s') = h_materials (fst s) /\ s_materials (snd s') = s_materials (snd s) /\
   s_limits (snd s') = s_limits (snd s) /\ s_water_RL (snd s') = s_water_RL (snd s) /\
   s_search (snd s') = s_search (snd s) /\ s_planes (snd s') = s_planes (snd s) /\
   s_udls (snd s') = s_udls (snd s) /\ s_lls (snd s') = s_lls (snd s) /\ computed s').
Proof. exact @boundary_rejected_all. Qed.
Print Assumptions C79_rejected_partial.
Example C79_example : exists (EN : Env) (s : st float),
  reachable s /\ fst (exec (SetBoundary (PFloat huge) PNone (fl 1 1)) s) = Err ValueError /\
  exec (SetBoundary (fl (-1) 1) PNone (fl 1 1)) s = (Err ValueError, s).
Proof. exact two_rejections. Qed.
