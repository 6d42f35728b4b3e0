(** * OutlineFacts: the outline of the section is drawn once, corner by corner (C59). *)
From Coq Require Import ZArith List Bool String.
From Verif Require Import Num Py Validation Utilities Objects Slope Planes Analysis Dynamic Api Plot.
Import ListNotations.

Section Outline.
  Context {T : Type} {NT : Num T}.
  Definition outline_of (t : trace T) : list (list (point T)) :=
    match t with TrBoundary pts => [pts] | _ => [] end.
  Definition outlines_in (f : figure T) : list (list (point T)) := flat_map outline_of (f_traces f).

  Lemma outlines_trace t f : outline_of t = [] -> outlines_in (add_trace t f) = outlines_in f.
  Proof. intros E. unfold outlines_in. cbn. rewrite flat_map_app. cbn [flat_map]. now rewrite E, !app_nil_r. Qed.
  Lemma outlines_layers l : forall f, outlines_in (fold_left (fun f (o : material T * list (point T)) =>
    add_trace (TrLayer (fst o) (snd o)) f) l f) = outlines_in f.
  Proof. induction l as [|o l IH]; intros f; [reflexivity|]. cbn [fold_left]. now rewrite IH, outlines_trace. Qed.
  Lemma outlines_arrow a b c d e g v f : outlines_in (draw_arrow a b c d e g v f) = outlines_in f.
  Proof. unfold draw_arrow. destruct (nltb _ _); [|destruct (nltb _ _)]; destruct v as [[]|]; reflexivity. Qed.
  Lemma outlines_shapes l f : outlines_in (add_shapes l f) = outlines_in f.
  Proof. reflexivity. Qed.
  Lemma outlines_notes l f : outlines_in (add_notes l f) = outlines_in f.
  Proof. reflexivity. Qed.
  Lemma outlines_udl g um prec u f f' : plot_udl g um prec u f = Ok f' -> outlines_in f' = outlines_in f.
  Proof.
    unfold plot_udl. destruct (attr (u_left u)); cbn [rbind]; [|discriminate].
    destruct (attr (u_right u)); cbn [rbind]; [|discriminate]. destruct (over_max _ _); cbn [rbind]; [|discriminate].
    intros [= <-]. rewrite outlines_shapes. now rewrite !outlines_arrow.
  Qed.
  Lemma outlines_ll g prec l f f' : plot_ll g prec l f = Ok f' -> outlines_in f' = outlines_in f.
  Proof.
    unfold plot_ll. destruct (attr (l_coord l)); cbn [rbind]; [|discriminate].
    intros [= <-]. now rewrite !outlines_arrow.
  Qed.
  Lemma outlines_water g y f f' : plot_water g y f = Ok f' -> outlines_in f' = outlines_in f.
  Proof.
    unfold plot_water. destruct (external_x g y) as [[x|]|]; cbn [rbind]; try discriminate.
    intros [= <-]. rewrite outlines_notes. now rewrite outlines_trace.
  Qed.
  Lemma outlines_fold {A} (p : A -> figure T -> res (figure T)) l :
    (forall a f f', p a f = Ok f' -> outlines_in f' = outlines_in f) ->
    forall f f', fold_res p l f = Ok f' -> outlines_in f' = outlines_in f.
  Proof.
    intros P. induction l as [|a l IH]; intros f f'; cbn [fold_res]; [now intros [= <-]|].
    destruct (p a f) as [g|] eqn:E; cbn [rbind]; [|discriminate]. intros Q. rewrite (IH _ _ Q). exact (P _ _ _ E).
  Qed.
  Lemma outline_drawn prec table (s : st T) fig : plot_boundary prec table s = Ok fig ->
    let g := s_geom (snd s) in
    outlines_in fig = [[(nz 0, nz 0); (nz 0, snd (g_top g)); g_top g; g_bot g;
                        (g_ext_l g, snd (g_bot g)); (g_ext_l g, nz 0); (nz 0, nz 0)]].
  Proof.
    intros E. cbv zeta. unfold plot_boundary in E. destruct (s_materials (snd s)).
    { injection E as <-. reflexivity. }
    destruct (rmapM _ _) as [ms|]; cbn [rbind] in E; [|discriminate E].
    destruct (layer_outlines _ _) as [outs|]; cbn [rbind] in E; [|discriminate E].
    destruct (fold_res (plot_udl _ _ _) _ _) as [f1|] eqn:E1; cbn [rbind] in E; [|discriminate E].
    destruct (fold_res (plot_ll _ _) _ _) as [f2|] eqn:E2; cbn [rbind] in E; [|discriminate E].
    apply outlines_fold in E1; [|intros; eapply outlines_udl; eauto].
    apply outlines_fold in E2; [|intros; eapply outlines_ll; eauto].
    assert (E3 : exists f3, match s_water_RL (snd s) with
        | Some y => if negb (neqb y (nz 0)) then plot_water (s_geom (snd s)) y f2 else Ok f2
        | None => Ok f2 end = Ok f3 /\ fig = plot_limits (s_geom (snd s)) (s_limits (snd s)) f3).
    { destruct (match s_water_RL (snd s) with Some _ => _ | None => _ end) as [f3|]; cbn [rbind] in E; [|discriminate E].
      injection E as <-. eauto. }
    destruct E3 as (f3 & E3 & ->). unfold plot_limits. rewrite outlines_notes.
    assert (Q : outlines_in f3 = outlines_in f2).
    { destruct (s_water_RL (snd s)) as [y|]; [|now injection E3 as <-].
      destruct (negb _); [exact (outlines_water _ _ _ _ E3)|now injection E3 as <-]. }
    rewrite Q, E2, E1. destruct table; unfold plot_material_table; rewrite ?outlines_notes, ?outlines_shapes, outlines_layers; reflexivity.
  Qed.
End Outline.
