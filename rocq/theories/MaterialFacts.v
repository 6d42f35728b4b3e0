(** * MaterialFacts: assigning and removing layers. *)
From Coq Require Import ZArith Reals Lra Lia List Bool String Permutation Sorted.
From Verif Require Import Num Py Validation Utilities Objects Slope Planes Analysis
     Dynamic Api RealNum RealFacts ListFacts MonadFacts SlopeFacts.
Import ListNotations.
Local Open Scope R_scope.

(** ** The loop that assigns elevations and colours (any arithmetic) *)
Section Generic.
  Context {T : Type} {NT : Num T} {EN : Env}.

  Definition assigned (eh : T) (i : nat) (m : material T) : material T :=
    set_RL_color (nsub eh (m_depth m)) (material_color i m) m.
  Fixpoint assign_pure (eh : T) (i : nat) (locs : list nat) (h : list (material T))
    : list (material T) :=
    match locs with
    | [] => h
    | n :: locs' => assign_pure eh (S i) locs' (upd_nth n (assigned eh i) h)
    end.

  Lemma assign_materials_eff locs : forall i (s : st T),
    assign_materials i locs s =
    (Ok tt, (MkHeap (assign_pure (g_ext_h (s_geom (snd s))) i locs (h_materials (fst s)))
                    (h_udls (fst s)) (h_lls (fst s)), snd s)).
  Proof.
    induction locs as [|n locs IH]; intros i s; cbn [assign_materials assign_pure].
    - destruct s as [[a b c] sl]. reflexivity.
    - rewrite bind_self_get. unfold upd_material. rewrite bind_upd, IH. reflexivity.
  Qed.

  Lemma assign_pure_length eh locs : forall i h,
    List.length (assign_pure eh i locs h) = List.length h.
  Proof.
    induction locs as [|n locs IH]; intros i h; cbn; auto. now rewrite IH, upd_nth_length.
  Qed.
  Lemma assign_pure_notin eh locs : forall i h n,
    ~ In n locs -> nth_error (assign_pure eh i locs h) n = nth_error h n.
  Proof.
    induction locs as [|m locs IH]; intros i h n Hn; cbn; auto.
    rewrite IH by (intros Q; apply Hn; now right).
    rewrite nth_error_upd_nth.
    destruct (Nat.eqb_spec m n); auto. subst. exfalso. apply Hn. now left.
  Qed.
  Lemma assign_pure_in eh locs : forall i h k n,
    NoDup locs -> nth_error locs k = Some n ->
    nth_error (assign_pure eh i locs h) n = option_map (assigned eh (i + k)) (nth_error h n).
  Proof.
    induction locs as [|m locs IH]; intros i h k n Hd Hk; [destruct k; discriminate|].
    inversion Hd as [|? ? Hm Hd']; subst. cbn [assign_pure].
    destruct k as [|k].
    - cbn in Hk. injection Hk as ->.
      rewrite assign_pure_notin by assumption.
      rewrite nth_error_upd_nth, Nat.eqb_refl, Nat.add_0_r. reflexivity.
    - cbn in Hk. rewrite (IH (S i) _ k n Hd' Hk). rewrite nth_error_upd_nth.
      assert (m <> n) by (intros ->; apply Hm; eapply nth_error_In; eauto).
      destruct (Nat.eqb_spec m n); [contradiction|]. now rewrite Nat.add_succ_r.
  Qed.

  (** everything but elevation and colour *)
  Definition mat_data (m : material T) : T * T * T * T * string * string * T :=
    (m_unit_weight m, m_friction_angle m, m_cohesion m, m_depth m, m_name m,
     m_user_color m, m_tan_phi m).
  Lemma assign_pure_data eh locs : forall i h n,
    option_map mat_data (nth_error (assign_pure eh i locs h) n) =
    option_map mat_data (nth_error h n).
  Proof.
    induction locs as [|m locs IH]; intros i h n; cbn; auto.
    rewrite IH, nth_error_upd_nth. destruct (Nat.eqb m n); auto.
    destruct (nth_error h n); reflexivity.
  Qed.
  Lemma assign_pure_depth eh locs i h n :
    depth_of (assign_pure eh i locs h) n = depth_of h n.
  Proof.
    pose proof (assign_pure_data eh locs i h n) as H. unfold depth_of.
    destruct (nth_error (assign_pure eh i locs h) n), (nth_error h n);
      cbn in H; try discriminate; auto. unfold mat_data in H; congruence.
  Qed.
  Lemma Forall_assign_pure (P : material T -> Prop) eh locs :
    (forall i m, P m -> P (assigned eh i m)) ->
    forall i h, Forall P h -> Forall P (assign_pure eh i locs h).
  Proof.
    intros HP. induction locs as [|n locs IH]; intros i h H; cbn; auto.
    apply IH. apply Forall_upd_nth; auto.
  Qed.

  Lemma material_color_nonempty i (m : material T) : material_color i m <> EmptyString.
  Proof.
    unfold material_color.
    destruct (is_color (m_user_color m) && negb (String.eqb (m_user_color m) "")) eqn:E.
    - apply andb_true_iff in E. destruct E as [_ E]. apply negb_true_iff in E.
      now apply String.eqb_neq in E.
    - assert (H : (Nat.modulo i 10 < 10)%nat) by (apply Nat.mod_upper_bound; lia).
      generalize dependent (Nat.modulo i 10). intros k Hk.
      do 10 (destruct k as [|k]; [cbn; discriminate|]). lia.
  Qed.
End Generic.

(** ** Duplicate depths (reals) *)
Lemma has_dup_false (l : list R) : has_dup l = false <-> NoDup l.
Proof.
  induction l as [|x l IH]; cbn [has_dup]; [split; [constructor|reflexivity]|].
  rewrite orb_false_iff, IH. split.
  - intros [H1 H2]. constructor; auto. intros Hx.
    assert (existsb (neqb x) l = true); [|congruence].
    apply existsb_exists. exists x. split; auto. apply Reqb_refl.
  - inversion 1 as [|? ? Hx Hd]; subst. split; auto.
    destruct (existsb (neqb x) l) eqn:E; auto. exfalso.
    apply existsb_exists in E. destruct E as (y & Hy & E). cbn in E.
    apply Reqb_true in E. subst. auto.
Qed.
Lemma NoDup_map_inv' {A B} (f : A -> B) l : NoDup (map f l) -> NoDup l.
Proof. apply NoDup_map_inv. Qed.

Lemma strictly_sorted_of {A} (key : A -> R) l :
  StronglySorted (key_le key) l -> NoDup (map key l) ->
  StronglySorted (fun a b => key a < key b) l.
Proof.
  induction 1 as [|x l H IH Hx]; cbn; intros Hd; constructor.
  - apply IH. now inversion Hd.
  - inversion Hd as [|? ? Hn _]; subst. rewrite Forall_forall in *.
    intros y Hy. specialize (Hx y Hy). unfold key_le in Hx.
    destruct (Req_dec (key x) (key y)) as [E|N]; [|lra].
    exfalso. apply Hn. rewrite E. now apply in_map.
Qed.
Lemma strictly_sorted_le {A} (key : A -> R) l :
  StronglySorted (fun a b => key a < key b) l -> StronglySorted (key_le key) l.
Proof.
  induction 1 as [|x l H IH Hx]; constructor; auto.
  eapply Forall_impl; [|exact Hx]. unfold key_le. intros; cbn in *; lra.
Qed.
Lemma strictly_sorted_nodup {A} (key : A -> R) l :
  StronglySorted (fun a b => key a < key b) l -> NoDup (map key l).
Proof.
  induction 1 as [|x l H IH Hx]; cbn; constructor; auto.
  intros Q. apply in_map_iff in Q. destruct Q as (y & E & Hy).
  rewrite Forall_forall in Hx. specialize (Hx y Hy). cbn in Hx. lra.
Qed.

Lemma StronglySorted_incl_sub {A} (Rel : A -> A -> Prop) (p : A -> bool) l :
  StronglySorted Rel l -> StronglySorted Rel (remove_first p l).
Proof.
  induction 1 as [|x l H IH Hx]; cbn; [constructor|].
  destruct (p x); auto. constructor; auto.
  rewrite Forall_forall in *. intros y Hy. apply Hx.
  clear - Hy. induction l as [|z l IH]; cbn in *; [contradiction|].
  destruct (p z); [now right|]. destruct Hy as [<-|Hy]; [now left | right; auto].
Qed.
Lemma StronglySorted_ext {A} (R1 R2 : A -> A -> Prop) l :
  (forall x y, In x l -> In y l -> R1 x y -> R2 x y) ->
  StronglySorted R1 l -> StronglySorted R2 l.
Proof.
  induction l as [|x l IH]; intros H S; [constructor|].
  inversion S as [|? ? S' F]; subst. constructor.
  - apply IH; auto. intros; apply H; auto; now right.
  - rewrite Forall_forall in *. intros y Hy. apply H; [now left | now right | auto].
Qed.
