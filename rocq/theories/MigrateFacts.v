(** * MigrateFacts: what a migration can do to stored rows (C100). *)
From Coq Require Import ZArith List Bool String Lia.
From Verif Require Import Num Py Migrate.
Import ListNotations.
Local Open Scope string_scope.

(** ** Specification *)
Definition fields := list (string * field).
Definition schema := list (string * fields).
Section Spec.
  Context {T : Type} {NT : Num T}.
  Definition fits (k : kind) (v : value T) : Prop :=
    match k, v with
    | _, VNull | KKey, VKey _ | KFloat, VFloat _ | KChar _, VText _ | KBool, VBool _ => True
    | _, _ => False
    end.
  Definition good_row (fs : fields) (r : row T) : Prop :=
    Forall2 (fun f v => fits (f_kind (snd f)) v /\ (f_null (snd f) = false -> v <> VNull)) fs r.
  (** the tables are those of the schema and the rows are ones it allows *)
  Definition conforms (s : schema) (d : db T) : Prop :=
    Forall2 (fun nf t => t_name t = fst nf /\ t_fields t = snd nf /\ Forall (good_row (snd nf)) (t_rows t)) s d.
  Fixpoint cell (fs : fields) (r : row T) (n : string) : option (value T) :=
    match fs, r with
    | (m, _) :: fs', v :: r' => if String.eqb m n then Some v else cell fs' r' n
    | _, _ => None
    end.
  (** What becomes of a row of the table [m]: every value stays, except that a missing name of
      a material may become "Fill" and, if [b], the colour of a material may be dropped. *)
  Definition kept (b : bool) (m : string) (fs : fields) (r : row T) (fs' : fields) (r' : row T) : Prop :=
    forall n v, cell fs r n = Some v ->
      cell fs' r' n = Some v \/ (b = true /\ m = "materialmodel" /\ n = "color") \/
      (m = "materialmodel" /\ n = "name" /\ v = VNull /\ cell fs' r' n = Some (VText "Fill")).
  Definition renamed (m m' : string) : Prop := m' = m \/ (m = "pointloadmodel" /\ m' = "lineloadmodel").
  Definition kept_table (b : bool) (t t' : table T) : Prop :=
    renamed (t_name t) (t_name t') /\ Forall2 (fun r r' => kept b (t_name t) (t_fields t) r (t_fields t') r') (t_rows t) (t_rows t').
  (** every table is still there, with the same rows in the same order; new ones are empty *)
  Definition kept_all (b : bool) (d d' : db T) : Prop := exists d1 d2, d' = (d1 ++ d2)%list /\ Forall2 (kept_table b) d d1 /\
    Forall (fun t => t_rows t = []) d2.
  Definition colours (d : db T) : list (option (value T)) :=
    flat_map (fun t => if String.eqb (t_name t) "materialmodel"
                       then map (fun r => cell (t_fields t) r "color") (t_rows t) else []) d.
  Definition rows_of (m : string) (d : db T) : list (row T) :=
    flat_map (fun t => if String.eqb (t_name t) m then t_rows t else []) d.
End Spec.

(** ** The schema alone *)
Definition sop1 (o : mop) (nf : string * fields) : string * fields :=
  match o with
  | CreateModel _ _ => nf
  | AlterField m n f => if String.eqb (fst nf) m then (fst nf, alter_fields n f (snd nf)) else nf
  | AddField m n f => if String.eqb (fst nf) m then (fst nf, (snd nf ++ [(n, f)])%list) else nf
  | RemoveField m n => if String.eqb (fst nf) m then (fst nf, remove_field n (snd nf)) else nf
  | RenameModel old new => if String.eqb (fst nf) old then (new, snd nf) else nf
  end.
Definition sop (o : mop) (s : schema) : schema :=
  match o with CreateModel n fs => (s ++ [(n, fs)])%list | _ => map (sop1 o) s end.
Definition sops (os : list mop) (s : schema) : schema := fold_left (fun s o => sop o s) os s.
(** the schema after the first [k] migrations *)
Definition schema_at (k : nat) : schema := sops (List.concat (firstn k migrations)) [].

(** ** What each operation may do, read off the schema *)
Definition kind_eqb (a b : kind) : bool :=
  match a, b with KKey, KKey | KFloat, KFloat | KBool, KBool => true | KChar n, KChar m => Nat.eqb n m | _, _ => false end.
Definition default_fits (f : field) : bool :=
  match f_default f, f_kind f with
  | NoDefault, _ | DNone, _ | DInt _, KFloat | DText _, KChar _ | DBool _, KBool => true
  | _, _ => false
  end.
Definition default_null (f : field) : bool :=
  match f_default f with
  | DNone => true
  | NoDefault => negb (negb (f_null f) && f_blank f && match f_kind f with KChar _ => true | _ => false end)
  | _ => false
  end.
Definition is_fill (f : field) : bool := match f_default f with DText s => String.eqb s "Fill" | _ => false end.
Fixpoint find_field (n : string) (fs : fields) : option field :=
  match fs with [] => None | (m, f) :: fs' => if String.eqb m n then Some f else find_field n fs' end.
(** the operation cannot fail *)
Definition safe1 (o : mop) (nf : string * fields) : bool :=
  match o with
  | AlterField m n f => negb (String.eqb (fst nf) m) ||
      match find_field n (snd nf) with Some old => negb (f_null old && negb (f_null f) && default_null f) | None => true end
  | AddField m n f => negb (String.eqb (fst nf) m) || f_null f || negb (default_null f)
  | _ => true
  end.
(** it keeps the rows *)
Definition mild1 (b : bool) (o : mop) (nf : string * fields) : bool :=
  match o with
  | CreateModel _ _ => true
  | AlterField m n f => negb (String.eqb (fst nf) m) ||
      (default_fits f &&
       match find_field n (snd nf) with
       | Some old => kind_eqb (f_kind old) (f_kind f) &&
           (negb (f_null old && negb (f_null f)) ||
            (String.eqb m "materialmodel" && ((String.eqb n "color" && default_null f) || (String.eqb n "name" && is_fill f))))
       | None => true
       end)
  | AddField m n f => negb (String.eqb (fst nf) m) ||
      (default_fits f && match find_field n (snd nf) with None => true | Some _ => false end)
  | RemoveField m n => negb (String.eqb (fst nf) m) || (b && String.eqb m "materialmodel" && String.eqb n "color")
  | RenameModel old new => String.eqb old "pointloadmodel" && String.eqb new "lineloadmodel"
  end.
Fixpoint check (p : mop -> string * fields -> bool) (os : list mop) (s : schema) : bool :=
  match os with [] => true | o :: os' => forallb (p o) s && check p os' (sop o s) end.

(** no operation can fail *)
Fixpoint check_safe (os : list mop) (s : schema) : bool :=
  match os with [] => true | o :: os' => possible o s && forallb (safe1 o) s && check_safe os' (sop o s) end.

Section Facts.
  Context {T : Type} {NT : Num T}.
  Notation row := (row T).
  Notation table := (table T).
  Notation db := (db T).

  Lemma default_null_spec f : is_null (T := T) (effective f) = default_null f.
  Proof. unfold effective, default_null. destruct f as [k n b d]. cbn. destruct d, n, b, k; reflexivity. Qed.
  Lemma default_fits_spec f : default_fits f = true -> fits (T := T) (f_kind f) (effective f).
  Proof. unfold effective, default_fits. destruct f as [k n b d]. cbn. destruct d, n, b, k; cbn; auto; discriminate. Qed.
  Lemma kind_eqb_fits a b (v : value T) : kind_eqb a b = true -> fits a v -> fits b v.
  Proof. destruct a, b; cbn; auto; discriminate. Qed.
  Lemma is_null_spec (v : value T) : is_null v = true <-> v = VNull.
  Proof. destruct v; cbn; split; congruence. Qed.

  Lemma Forall2_nil_l {A B} (P : A -> B -> Prop) l : Forall2 P [] l -> l = [].
  Proof. intros F. now inversion F. Qed.

  (** one row *)
  Lemma alter_good n f fs : forall r r', good_row fs r -> default_fits f = true ->
    match find_field n fs with Some old => kind_eqb (f_kind old) (f_kind f) = true | None => True end ->
    alter_row n f fs r = Some r' -> good_row (alter_fields n f fs) r'.
  Proof.
    induction fs as [|[m old] fs IH]; intros r r' G DF K E; inversion G as [|? v ? l (F & N) G']; subst; cbn in *.
    - injection E as <-. constructor.
    - destruct (String.eqb m n).
      + set (v' := if f_null old && negb (f_null f) && is_null v then effective f else v) in *.
        destruct (negb (f_null f) && is_null v') eqn:Q; [discriminate|]. injection E as <-.
        constructor; auto. cbn. split.
        * unfold v'. destruct (_ && _ && _); [now apply default_fits_spec|]. eapply kind_eqb_fits; eauto.
        * intros Z. rewrite Z in Q. cbn in Q. intros V. rewrite V in Q. discriminate.
      + destruct (alter_row n f fs l) as [l'|] eqn:A; [|discriminate]. injection E as <-. constructor; auto.
        eapply IH; eauto.
  Qed.
  Lemma alter_total n f fs : forall r, good_row fs r ->
    match find_field n fs with Some old => f_null old && negb (f_null f) && default_null f = false | None => True end ->
    exists r', alter_row n f fs r = Some r'.
  Proof.
    induction fs as [|[m old] fs IH]; intros r G K; inversion G as [|? v ? l (F & N) G']; subst; cbn in *; [eauto|].
    destruct (String.eqb m n).
    - set (v' := if f_null old && negb (f_null f) && is_null v then effective f else v) in *.
      destruct (negb (f_null f) && is_null v') eqn:Q; [|eauto]. exfalso. apply andb_true_iff in Q as (Q1 & Q2).
      unfold v' in Q2. rewrite Q1 in *. destruct (f_null old) eqn:FO; cbn in *.
      + destruct (is_null v) eqn:NV; [|congruence]. rewrite default_null_spec in Q2. congruence.
      + apply is_null_spec in Q2. now apply N.
    - destruct (IH l G' K) as (l' & ->). cbn. eauto.
  Qed.
  (** the operation is refused exactly if there is a NULL it has no replacement for *)
  Lemma alter_refused n f fs old : find_field n fs = Some old -> f_null old = true -> f_null f = false -> default_null f = true ->
    forall r, good_row fs r -> (alter_row n f fs r = None <-> cell fs r n = Some VNull).
  Proof.
    intros FF FO FN DN. induction fs as [|[m o] fs IH]; intros r G; [discriminate|].
    inversion G as [|? v ? l (F & N) G']; subst; cbn in *. destruct (String.eqb m n).
    - injection FF as ->. rewrite FO, FN. cbn. destruct v; cbn; try (split; congruence).
      rewrite default_null_spec, DN. split; auto.
    - destruct (IH FF l G') as (I1 & I2). destruct (alter_row n f fs l); cbn.
      + split; [discriminate|]. intros C. specialize (I2 C). discriminate.
      + split; auto.
  Qed.
  Lemma alter_cell n f fs m : forall r r', alter_row n f fs r = Some r' -> m <> n ->
    cell (alter_fields n f fs) r' m = cell fs r m.
  Proof.
    induction fs as [|[k o] fs IH]; intros r r' E NE; cbn in *; auto.
    destruct r as [|v l].
    - injection E as <-. destruct (String.eqb k n); reflexivity.
    - destruct (String.eqb k n) eqn:KN.
      + destruct (negb _ && _); [discriminate|]. injection E as <-. apply String.eqb_eq in KN as ->.
        cbn. destruct (String.eqb n m) eqn:Q; [apply String.eqb_eq in Q; congruence|reflexivity].
      + destruct (alter_row n f fs l) as [l'|] eqn:A; [|discriminate]. injection E as <-. cbn.
        destruct (String.eqb k m); auto.
  Qed.
  Lemma alter_cell_same n f fs : forall r r' v, good_row fs r -> alter_row n f fs r = Some r' -> cell fs r n = Some v ->
    cell (alter_fields n f fs) r' n = Some v \/
    (v = VNull /\ cell (alter_fields n f fs) r' n = Some (effective f) /\
     exists old, find_field n fs = Some old /\ f_null old && negb (f_null f) = true).
  Proof.
    induction fs as [|[k o] fs IH]; intros r r' v G E C; inversion G as [|? w ? l (F & N) G']; subst; cbn in *; [discriminate|].
    destruct (String.eqb k n) eqn:KN.
    - injection C as ->. destruct (negb (f_null f) && _) eqn:Q; [discriminate|]. injection E as <-. cbn. rewrite KN.
      destruct (f_null o && negb (f_null f) && is_null v) eqn:B; [|now left]. right.
      apply andb_true_iff in B as (B1 & B2). apply is_null_spec in B2. split; auto. split; auto. eauto.
    - destruct (alter_row n f fs l) as [l'|] eqn:A; [|discriminate]. injection E as <-. cbn. rewrite KN. eauto.
  Qed.
  Lemma cell_app fs (r : row) n f (v : value T) : List.length fs = List.length r -> find_field n fs = None ->
    forall m, (cell (fs ++ [(n, f)]) (r ++ [v]) m = if String.eqb n m then Some v else cell fs r m)%list.
  Proof.
    revert r. induction fs as [|[k o] fs IH]; intros r L FF m; destruct r as [|w r]; cbn in *; try discriminate.
    - reflexivity.
    - destruct (String.eqb k n) eqn:KN; [discriminate|]. rewrite IH by (auto; lia).
      destruct (String.eqb k m) eqn:KM; auto. apply String.eqb_eq in KM as ->. rewrite String.eqb_sym in KN. now rewrite KN.
  Qed.
  Lemma find_cell fs (r : row) n : List.length fs = List.length r -> find_field n fs = None -> cell fs r n = None.
  Proof.
    revert r. induction fs as [|[k o] fs IH]; intros r L FF; destruct r as [|w r]; cbn in *; try discriminate; auto.
    destruct (String.eqb k n); [discriminate|]. apply IH; auto; lia.
  Qed.
  Lemma remove_cell_other n fs m : m <> n -> forall r : row, cell (remove_field n fs) (remove_cell n fs r) m = cell fs r m.
  Proof.
    intros NE. induction fs as [|[k o] fs IH]; intros r; cbn; auto. destruct r as [|v r].
    - destruct (String.eqb k n) eqn:KN; cbn; auto. destruct fs as [|[]]; reflexivity.
    - destruct (String.eqb k n) eqn:KN; cbn; [|now rewrite IH].
      apply String.eqb_eq in KN as ->. destruct (String.eqb n m) eqn:Q; [apply String.eqb_eq in Q; congruence|reflexivity].
  Qed.
  Lemma remove_good n fs : forall r : row, good_row fs r -> good_row (remove_field n fs) (remove_cell n fs r).
  Proof.
    induction fs as [|[k o] fs IH]; intros r G; inversion G; subst; cbn; [constructor|].
    destruct (String.eqb k n); auto. constructor; auto. now apply IH.
  Qed.
  Lemma good_length fs (r : row) : good_row fs r -> List.length fs = List.length r.
  Proof. intros G. induction G; cbn; auto. Qed.

  Lemma kept_refl b m fs r : kept (T := T) b m fs r fs r.
  Proof. intros n v C. now left. Qed.

  (** all rows of a table *)
  Lemma all_rows_rel (g : row -> option row) (P : row -> Prop) (Q : row -> row -> Prop) :
    (forall r r', P r -> g r = Some r' -> Q r r') ->
    forall rs rs', Forall P rs -> all_rows g rs = Some rs' -> Forall2 Q rs rs'.
  Proof.
    intros S. induction rs as [|r rs IH]; intros rs' F E; cbn in E; [injection E as <-; constructor|].
    inversion F; subst. destruct (g r) eqn:G; [|discriminate]. destruct (all_rows g rs) eqn:A; [|discriminate].
    injection E as <-. constructor; auto.
  Qed.
  Lemma all_rows_total (g : row -> option row) (P : row -> Prop) : (forall r, P r -> exists r', g r = Some r') ->
    forall rs, Forall P rs -> exists rs', all_rows g rs = Some rs'.
  Proof.
    intros S. induction rs as [|r rs IH]; intros F; cbn; [eauto|]. inversion F; subst.
    destruct (S r) as (r' & ->); auto. destruct IH as (rs' & ->); eauto.
  Qed.
  Lemma all_rows_none (g : row -> option row) rs : all_rows g rs = None <-> exists r, In r rs /\ g r = None.
  Proof.
    induction rs as [|r rs IH]; cbn; [split; [discriminate|intros (r & [] & _)]|].
    destruct (g r) eqn:G.
    - destruct (all_rows g rs); split; try congruence.
      + intros (q & [ <- | I ] & Q); [congruence|]. assert (Some l = None) by (apply IH; eauto). discriminate.
      + intros _. destruct (proj1 IH eq_refl) as (q & I & Q). eauto.
    - split; eauto.
  Qed.
  Lemma Forall2_good {A B} (Q : A -> B -> Prop) (G : B -> Prop) l l' : Forall2 Q l l' -> (forall a b, Q a b -> G b) -> Forall G l'.
  Proof. intros F S. induction F; constructor; eauto. Qed.
  Lemma Forall2_same {A} (Q : A -> A -> Prop) l : (forall a, In a l -> Q a a) -> Forall2 Q l l.
  Proof. induction l; intros S; constructor; [apply S; now left|apply IHl; intros; apply S; now right]. Qed.

  Definition table_ok (nf : string * fields) (t : table) : Prop :=
    t_name t = fst nf /\ t_fields t = snd nf /\ Forall (good_row (snd nf)) (t_rows t).

  (** one operation on one table *)
  Lemma change_ok b o nf t t' : table_ok nf t -> mild1 b o nf = true -> change o t = Some t' ->
    table_ok (sop1 o nf) t' /\ kept_table b t t'.
  Proof.
    destruct nf as [nm fs], t as [tn tf rs]. intros (EN & EF & G) M E. cbn in EN, EF, G. subst tn tf. destruct o; cbn in *.
    - injection E as <-. split; [repeat split; auto|]. split; [now left|]. apply Forall2_same. intros; apply kept_refl.
    - destruct (String.eqb nm model) eqn:NM; cbn in *.
      2:{ injection E as <-. split; [repeat split; auto|]. split; [now left|]. apply Forall2_same. intros; apply kept_refl. }
      destruct (all_rows _ rs) as [rs'|] eqn:A; [|discriminate]. injection E as <-. apply String.eqb_eq in NM as <-.
      apply andb_true_iff in M as (DF & M).
      assert (Q : Forall2 (fun r r' => good_row (alter_fields name f fs) r' /\ kept b nm fs r (alter_fields name f fs) r') rs rs').
      { refine (all_rows_rel _ (good_row fs) _ _ rs rs' G A). intros r r' GR ER. split.
        - eapply alter_good; eauto. destruct (find_field name fs); auto. now apply andb_true_iff in M as (? & _).
        - intros n v C. destruct (String.eqb n name) eqn:NE.
          + apply String.eqb_eq in NE as ->. destruct (alter_cell_same name f fs r r' v GR ER C) as [L|(-> & L & old & FF & BB)]; auto.
            rewrite FF in M. apply andb_true_iff in M as (_ & M). rewrite BB in M. cbn in M.
            apply andb_true_iff in M as (M1 & M2). apply String.eqb_eq in M1.
            apply orb_true_iff in M2 as [M2|M2]; apply andb_true_iff in M2 as (M2 & M3).
            { left. rewrite L. f_equal. apply is_null_spec. now rewrite default_null_spec. }
            apply String.eqb_eq in M2. right. right. do 3 (split; auto).
            rewrite L. f_equal. unfold is_fill, effective in *. destruct (f_default f); try discriminate.
            apply String.eqb_eq in M3. now subst.
          + left. rewrite <- C. apply alter_cell; auto. intros ->. rewrite String.eqb_refl in NE. discriminate. }
      split.
      + split; [reflexivity|]. split; [reflexivity|]. cbn. eapply Forall2_good; [exact Q|]. now intros ? ? (? & _).
      + split; [now left|]. cbn. clear - Q. induction Q as [|? ? ? ? (? & ?)]; constructor; auto.
    - destruct (String.eqb nm model) eqn:NM; cbn in *.
      2:{ injection E as <-. split; [repeat split; auto|]. split; [now left|]. apply Forall2_same. intros; apply kept_refl. }
      destruct (all_rows _ rs) as [rs'|] eqn:A; [|discriminate]. injection E as <-.
      apply andb_true_iff in M as (DF & M). destruct (find_field name fs) eqn:FF; [discriminate|].
      assert (Q : Forall2 (fun r r' => good_row (fs ++ [(name, f)])%list r' /\ kept b nm fs r (fs ++ [(name, f)])%list r') rs rs').
      { refine (all_rows_rel _ (good_row fs) _ _ rs rs' G A). intros r r' GR ER. unfold add_cell in ER.
        destruct (negb (f_null f) && is_null (effective f)) eqn:B; [discriminate|]. injection ER as <-. split.
        - apply Forall2_app; auto. constructor; [|constructor]. split; [now apply default_fits_spec|].
          cbn. intros Z. rewrite Z in B. cbn in B. intros V. rewrite V in B. discriminate.
        - intros n v C. left. rewrite cell_app; auto using good_length.
          destruct (String.eqb name n) eqn:NE; auto. apply String.eqb_eq in NE as <-.
          rewrite find_cell in C; auto using good_length. discriminate. }
      split.
      + split; [reflexivity|]. split; [reflexivity|]. cbn. eapply Forall2_good; [exact Q|]. now intros ? ? (? & _).
      + split; [now left|]. cbn. clear - Q. induction Q as [|? ? ? ? (? & ?)]; constructor; auto.
    - destruct (String.eqb nm model) eqn:NM; cbn in *.
      2:{ injection E as <-. split; [repeat split; auto|]. split; [now left|]. apply Forall2_same. intros; apply kept_refl. }
      injection E as <-. apply String.eqb_eq in NM as <-. apply andb_true_iff in M as (M0 & M2). apply andb_true_iff in M0 as (M0 & M1).
      apply String.eqb_eq in M1. apply String.eqb_eq in M2. split.
      + split; [reflexivity|]. split; [reflexivity|]. cbn. apply Forall_forall. intros r I. apply in_map_iff in I as (q & <- & I).
        apply remove_good. rewrite Forall_forall in G. auto.
      + split; [now left|]. cbn. clear G. induction rs as [|r rs IH]; constructor; auto. intros n v C.
        destruct (String.eqb n name) eqn:NE.
        * apply String.eqb_eq in NE. right. left. repeat split; congruence.
        * left. rewrite remove_cell_other; auto. intros ->. rewrite String.eqb_refl in NE. discriminate.
    - apply andb_true_iff in M as (M1 & M2). apply String.eqb_eq in M1. apply String.eqb_eq in M2. subst.
      destruct (String.eqb nm "pointloadmodel") eqn:NM; injection E as <-.
      + apply String.eqb_eq in NM as ->. split; [repeat split; auto|]. split; [right; auto|]. apply Forall2_same. intros; apply kept_refl.
      + split; [repeat split; auto|]. split; [now left|]. apply Forall2_same. intros; apply kept_refl.
  Qed.
  Lemma change_total o nf t : table_ok nf t -> safe1 o nf = true -> exists t', change o t = Some t'.
  Proof.
    destruct nf as [nm fs], t as [tn tf rs]. intros (EN & EF & G) M. cbn in EN, EF, G. subst tn tf. destruct o; cbn in *; eauto.
    - destruct (String.eqb nm model); cbn in *; eauto.
      destruct (all_rows_total (alter_row name f fs) (good_row fs)) with (rs := rs) as (rs' & ->); cbn; eauto.
      intros r GR. apply alter_total; auto. destruct (find_field name fs); auto. now apply negb_true_iff.
    - destruct (String.eqb nm model); cbn in *; eauto.
      destruct (all_rows_total (add_cell f) (good_row fs)) with (rs := rs) as (rs' & ->); cbn; eauto.
      intros r GR. unfold add_cell. rewrite default_null_spec. destruct (f_null f), (default_null f); cbn in *; eauto; discriminate.
    - destruct (String.eqb nm model); eauto.
    - destruct (String.eqb nm old); eauto.
  Qed.

  (** ** All tables *)
  Lemma kept_trans b m m' fs r fs' r' fs'' r'' : renamed m m' -> kept (T := T) b m fs r fs' r' -> kept b m' fs' r' fs'' r'' -> kept b m fs r fs'' r''.
  Proof.
    intros RN A B n v C. assert (MM : m' = "materialmodel" -> m = "materialmodel") by (destruct RN as [->|(-> & ->)]; [auto|discriminate]).
    destruct (A n v C) as [Q|[(E0 & E & Q)|(E & Q & V & W)]].
    - destruct (B n v Q) as [|[(E0 & E & X)|(E & X)]]; auto 6.
    - auto.
    - destruct (B n _ W) as [X|[(E0 & E' & X)|(E' & _ & X & _)]]; [|auto 6|discriminate].
      right. right. auto.
  Qed.
  Lemma kept_table_trans b t t' t'' : kept_table (T := T) b t t' -> kept_table b t' t'' -> kept_table b t t''.
  Proof.
    intros (R1 & F1) (R2 & F2). split.
    - destruct R1 as [E|(E & E')]; [rewrite E in R2; exact R2|]. rewrite E' in R2. right. split; auto.
      destruct R2 as [|(Q & _)]; [auto|discriminate].
    - clear R2. revert F2. generalize (t_rows t''). induction F1; intros ll F2; inversion F2; subst; constructor; auto.
      eapply kept_trans; eauto.
  Qed.
  Lemma kept_empty b t t' : kept_table (T := T) b t t' -> t_rows t = [] -> t_rows t' = [].
  Proof. intros (_ & F) E. rewrite E in F. now inversion F. Qed.
  Lemma kept_all_refl b (d : db) : kept_all b d d.
  Proof.
    exists d, []. split; [now rewrite app_nil_r|]. split; [|constructor]. apply Forall2_same. intros t _. split; [now left|].
    apply Forall2_same. intros; apply kept_refl.
  Qed.
  Lemma kept_all_trans b (d d' d'' : db) : kept_all b d d' -> kept_all b d' d'' -> kept_all b d d''.
  Proof.
    intros (a & e & -> & F & Z) (a' & e' & -> & F' & Z').
    apply Forall2_app_inv_l in F' as (c1 & c2 & G1 & G2 & ->).
    exists c1, (c2 ++ e')%list. split; [now rewrite app_assoc|]. split.
    - clear - F G1. revert c1 G1. induction F; intros c1 G; inversion G; subst; constructor; eauto using kept_table_trans.
    - apply Forall_app. split; auto. clear - Z G2. induction G2; constructor; inversion Z; subst; eauto using kept_empty.
  Qed.
  Lemma kept_weaken b (d d' : db) : kept_all b d d' -> kept_all true d d'.
  Proof.
    intros (a & c & -> & F & Z). exists a, c. split; auto. split; auto. clear - F.
    induction F as [|t t' l l' (RN & K) F IH]; constructor; auto. split; auto. clear - K. induction K as [|r r' l l' K]; constructor; auto.
    intros n v C. destruct (K n v C) as [|[(_ & Q)|]]; auto 6.
  Qed.
  Lemma kept_next k (d d' : db) : kept_all (Nat.ltb (S k) 7) d d' -> kept_all (Nat.ltb k 7) d d'.
  Proof. destruct (Nat.ltb_spec k 7); [apply kept_weaken|]. destruct (Nat.ltb_spec (S k) 7); [lia|auto]. Qed.
  Lemma change_all_ok b o s (d d' : db) : conforms s d -> forallb (mild1 b o) s = true -> change_all o d = Some d' ->
    Forall2 table_ok (map (sop1 o) s) d' /\ Forall2 (kept_table b) d d'.
  Proof.
    intros C. revert d'. induction C as [|nf t s d K C IH]; intros d' M E; cbn in *.
    - injection E as <-. split; constructor.
    - apply andb_true_iff in M as (M1 & M2). destruct (change o t) as [t'|] eqn:A; [|discriminate].
      destruct (change_all o d) as [d1|]; [|discriminate]. injection E as <-.
      destruct (change_ok b o nf t t' K M1 A). destruct (IH d1 M2 eq_refl). split; constructor; auto.
  Qed.
  Lemma change_all_total o s (d : db) : conforms s d -> forallb (safe1 o) s = true -> exists d', change_all o d = Some d'.
  Proof.
    intros C. induction C as [|nf t s d K C IH]; intros M; cbn in *; eauto. apply andb_true_iff in M as (M1 & M2).
    destruct (change_total o nf t K M1) as (t' & ->). destruct (IH M2) as (d1 & ->). eauto.
  Qed.
  Lemma apply_ok b o s (d d' : db) : conforms s d -> forallb (mild1 b o) s = true -> apply_op o d = Some d' ->
    conforms (sop o s) d' /\ kept_all b d d'.
  Proof.
    intros C M E. unfold apply_op in E. destruct (possible _ _); [|discriminate]. destruct o.
    1:{ cbn in E |- *. injection E as <-. split.
        - apply Forall2_app; auto. constructor; [|constructor]. repeat split; constructor.
        - exists d, [MkTable name fields0 []]. split; auto. split; [|constructor; auto].
          apply Forall2_same. intros t _. split; [now left|]. apply Forall2_same. intros; apply kept_refl. }
    all: cbn [sop] in *; destruct (change_all_ok b _ s d d' C M E) as (A & B); split; [exact A|];
      exists d', []; split; [now rewrite app_nil_r|]; split; [exact B|constructor].
  Qed.
  Lemma tables_of s (d : db) : conforms s d -> tables d = s.
  Proof. intros C. unfold tables. induction C as [|[n fs] t s d (E & F & _) C IH]; cbn in *; [reflexivity|]. now rewrite E, F, IH. Qed.
  Lemma apply_total o s (d : db) : conforms s d -> possible o s = true -> forallb (safe1 o) s = true -> exists d', apply_op o d = Some d'.
  Proof. intros C P M. unfold apply_op. rewrite (tables_of s d C), P. destruct o; eauto using change_all_total. Qed.
  Lemma apply_ops_ok b os : forall s (d d' : db), conforms s d -> check (mild1 b) os s = true -> apply_ops os d = Some d' ->
    conforms (sops os s) d' /\ kept_all b d d'.
  Proof.
    induction os as [|o os IH]; intros s d d' C M E; cbn in *.
    - injection E as <-. split; auto using kept_all_refl.
    - apply andb_true_iff in M as (M1 & M2). destruct (apply_op o d) as [d1|] eqn:A; [|discriminate].
      destruct (apply_ok b o s d d1 C M1 A) as (C1 & K1). destruct (IH _ d1 d' C1 M2 E) as (C2 & K2).
      split; [exact C2|]. eapply kept_all_trans; eauto.
  Qed.
  Lemma apply_ops_total b os : forall s (d : db), conforms s d -> check (mild1 b) os s = true -> check_safe os s = true ->
    exists d', apply_ops os d = Some d'.
  Proof.
    induction os as [|o os IH]; intros s d C M S; cbn in *; eauto.
    apply andb_true_iff in M as (M1 & M2). apply andb_true_iff in S as (S1 & S2). apply andb_true_iff in S1 as (S0 & S1).
    destruct (apply_total o s d C S0 S1) as (d1 & A). rewrite A. destruct (apply_ok b o s d d1 C M1 A) as (C1 & _). eauto.
  Qed.

  (** ** The migrations of the project *)
  Definition nth_m (k : nat) : list mop := nth k migrations [].
  Lemma schema_next k : (k < 13)%nat -> schema_at (S k) = sops (nth_m k) (schema_at k).
  Proof. intros L. do 13 (destruct k as [|k]; [reflexivity|]). lia. Qed.
  Lemma mild_all k : (k < 13)%nat -> check (mild1 (Nat.ltb k 7)) (nth_m k) (schema_at k) = true.
  Proof. intros L. do 13 (destruct k as [|k]; [reflexivity|]). lia. Qed.
  Lemma safe_all k : (k < 13)%nat -> k <> 8%nat -> check_safe (nth_m k) (schema_at k) = true.
  Proof. intros L N. do 13 (destruct k as [|k]; [reflexivity || congruence|]). lia. Qed.
  Lemma skip_next k : (k < 13)%nat -> skipn k migrations = nth_m k :: skipn (S k) migrations.
  Proof. intros L. do 13 (destruct k as [|k]; [reflexivity|]). lia. Qed.

  Lemma one_migration k (d : db) : (k < 13)%nat -> k <> 8%nat -> conforms (schema_at k) d ->
    exists d', apply_ops (nth_m k) d = Some d' /\ conforms (schema_at (S k)) d' /\ kept_all (Nat.ltb k 7) d d'.
  Proof.
    intros L N C. destruct (apply_ops_total _ _ _ d C (mild_all k L) (safe_all k L N)) as (d' & E). exists d'. split; auto.
    rewrite schema_next by auto. eapply apply_ops_ok; eauto using mild_all.
  Qed.
  Lemma migrate_ok j : forall k (d : db), (k + j = 13)%nat -> conforms (schema_at k) d ->
    let '(n, d', ok) := migrate (skipn k migrations) d in
    (k + n <= 13)%nat /\ conforms (schema_at (k + n)) d' /\ kept_all (Nat.ltb k 7) d d' /\ (ok = true -> (k + n = 13)%nat) /\
    (ok = false -> (k + n = 8)%nat /\ apply_ops m09 d' = None).
  Proof.
    induction j as [|j IH]; intros k d L C.
    - assert (k = 13%nat) by lia. subst k. change (skipn 13 migrations) with (@nil (list mop)). cbn [migrate]. split; [lia|]. split; [exact C|]. split; [apply kept_all_refl|]. split; [auto|discriminate].
    - rewrite skip_next by lia. cbn [migrate]. destruct (apply_ops (nth_m k) d) as [d1|] eqn:A.
      + destruct (apply_ops_ok _ _ _ d d1 C (mild_all k ltac:(lia)) A) as (C1 & K1). rewrite <- schema_next in C1 by lia.
        specialize (IH (S k) d1 ltac:(lia) C1). destruct (migrate (skipn (S k) migrations) d1) as [[n d'] ok].
        destruct IH as (I1 & I2 & I3 & I4 & I5). replace (k + S n)%nat with (S k + n)%nat by lia.
        split; auto. split; auto. split; [eapply kept_all_trans; eauto using kept_next|]. split; auto.
      + rewrite Nat.add_0_r. split; [lia|]. split; auto. split; [apply kept_all_refl|]. split; [discriminate|]. intros _.
        destruct (Nat.eq_dec k 8) as [->|N]; [split; auto|].
        destruct (one_migration k d ltac:(lia) N C) as (d' & Q & _). congruence.
  Qed.

  (** The ninth migration is refused if a material has no colour. *)
  Lemma change_all_none o (d : db) : change_all o d = None <-> exists t, In t d /\ change o t = None.
  Proof.
    induction d as [|t d IH]; cbn; [split; [discriminate|intros (t & [] & _)]|].
    destruct (change o t) eqn:G.
    - destruct (change_all o d); split; try congruence.
      + intros (q & [ <- | I ] & Q); [congruence|]. assert (Some d0 = None) by (apply IH; eauto). discriminate.
      + intros _. destruct (proj1 IH eq_refl) as (q & I & Q). eauto.
    - split; eauto.
  Qed.
  Lemma conforms_In s (d : db) t : conforms s d -> In t d -> exists nf, In nf s /\ table_ok nf t.
  Proof. intros C. induction C as [|nf u s d K C IH]; intros []; [subst; exists nf; split; [now left|auto]|]. destruct (IH H) as (q & I & Q). exists q. split; [now right|auto]. Qed.
  Definition no_colour (d : db) : Prop := exists t r, In t d /\ t_name t = "materialmodel" /\ In r (t_rows t) /\ cell (t_fields t) r "color" = Some VNull.
  Lemma no_colour_In d : no_colour d <-> In (Some VNull) (colours d).
  Proof.
    unfold no_colour, colours. rewrite in_flat_map. split.
    - intros (t & r & I & N & J & C). exists t. split; auto. rewrite N. cbn. apply in_map_iff. eauto.
    - intros (t & I & J). destruct (String.eqb (t_name t) "materialmodel") eqn:N; [|contradiction].
      apply String.eqb_eq in N. apply in_map_iff in J as (r & E & J). exists t, r. auto.
  Qed.
  Lemma colour_at8 nf : In nf (schema_at 8) -> fst nf = "materialmodel" ->
    exists old, find_field "color" (snd nf) = Some old /\ f_null old = true.
  Proof.
    assert (E : forallb (fun nf => negb (String.eqb (fst nf) "materialmodel") ||
      match find_field "color" (snd nf) with Some old => f_null old | None => false end) (schema_at 8) = true) by (vm_compute; reflexivity).
    intros I N. rewrite forallb_forall in E. specialize (E nf I). rewrite N in E.
    destruct (find_field "color" (snd nf)) as [old|]; [eauto|discriminate].
  Qed.
  Lemma colour_at7 nf : In nf (schema_at 7) -> fst nf = "materialmodel" -> find_field "color" (snd nf) = None.
  Proof.
    assert (E : forallb (fun nf => negb (String.eqb (fst nf) "materialmodel") ||
      match find_field "color" (snd nf) with Some _ => false | None => true end) (schema_at 7) = true) by (vm_compute; reflexivity).
    intros I N. rewrite forallb_forall in E. specialize (E nf I). rewrite N in E.
    destruct (find_field "color" (snd nf)); [discriminate|reflexivity].
  Qed.
  Lemma ninth_refused (d : db) : conforms (schema_at 8) d -> (apply_ops m09 d = None <-> no_colour d).
  Proof.
    intros C. set (o := AlterField "materialmodel" "color" (char_ 20 false true DNone)).
    assert (E : apply_ops m09 d = None <-> change_all o d = None).
    { assert (A : apply_op o d = change_all o d) by (unfold apply_op; rewrite (tables_of _ d C); reflexivity).
      change (apply_ops m09 d) with (match apply_op o d with Some d' => apply_ops (tl m09) d' | None => None end).
      rewrite A. clear A.
      destruct (change_all o d) as [d1|] eqn:A; [|split; auto]. split; [|discriminate]. intros Q. exfalso.
      destruct (apply_ok false o (schema_at 8) d d1 C eq_refl ltac:(unfold apply_op; rewrite (tables_of _ d C); exact A)) as (C1 & _).
      destruct (apply_ops_total false (tl m09) (sop o (schema_at 8)) d1 C1 eq_refl eq_refl) as (d2 & B). congruence. }
    rewrite E, change_all_none. unfold no_colour. split.
    - intros (t & I & Q). destruct (conforms_In _ _ _ C I) as (nf & J & (N & F & G)).
      cbn in Q. destruct (String.eqb (t_name t) "materialmodel") eqn:NM; [|discriminate]. apply String.eqb_eq in NM.
      destruct (all_rows _ (t_rows t)) as [|] eqn:A; [discriminate|]. apply all_rows_none in A as (r & IR & A).
      exists t, r. split; auto. split; auto. split; auto. rewrite Forall_forall in G.
      rewrite F in A |- *. rewrite NM in N. destruct (colour_at8 nf J (eq_sym N)) as (old & FF & FN).
      exact (proj1 (alter_refused "color" (char_ 20 false true DNone) _ old FF FN eq_refl eq_refl r (G r IR)) A).
    - intros (t & r & I & N & J & Q). exists t. split; auto. cbn. rewrite N. cbn.
      destruct (conforms_In _ _ _ C I) as (nf & K & (N' & F & G)). rewrite N in N'.
      assert (all_rows (alter_row "color" (char_ 20 false true DNone) (t_fields t)) (t_rows t) = None) as ->; [|reflexivity].
      apply all_rows_none. exists r. split; auto. rewrite Forall_forall in G. rewrite F in Q |- *.
      destruct (colour_at8 nf K (eq_sym N')) as (old & FF & FN).
      exact (proj2 (alter_refused "color" (char_ 20 false true DNone) _ old FF FN eq_refl eq_refl r (G r J)) Q).
  Qed.
  (** After the eighth no material has a colour. *)
  Lemma eighth_clears (d d' : db) : conforms (schema_at 7) d -> apply_ops m08 d = Some d' ->
    forall c, In c (colours d') -> c = Some VNull.
  Proof.
    intros C. cbn [apply_ops m08]. unfold apply_op. rewrite (tables_of _ d C). change (possible _ (schema_at 7)) with true. cbn iota.
    destruct (change_all _ d) as [d1|] eqn:A; [|discriminate]. intros E. injection E as <-. remember (schema_at 7) as s eqn:ES.
    assert (NF : forall nf, In nf s -> fst nf = "materialmodel" -> find_field "color" (snd nf) = None).
    { rewrite ES. exact colour_at7. }
    clear ES. revert d1 A. induction C as [|nf t s d K C IH]; intros d1 A c I; cbn [change_all] in A.
    - injection A as <-. contradiction.
    - destruct (change _ t) as [t'|] eqn:B; [|discriminate]. destruct (change_all _ d) as [d2|]; [|discriminate].
      injection A as <-. unfold colours in I. cbn [flat_map] in I. apply in_app_or in I as [I|I].
      2:{ apply (IH (fun nf J => NF nf (or_intror J)) d2 eq_refl c I). }
      destruct (String.eqb (t_name t') "materialmodel") eqn:NM; [|contradiction]. cbn in B. destruct K as (N & F & G).
      destruct (String.eqb (t_name t) "materialmodel") eqn:NT'.
      2:{ injection B as <-. congruence. }
      destruct (all_rows _ (t_rows t)) as [rs|] eqn:AR; [|discriminate]. injection B as <-. cbn in I.
      apply String.eqb_eq in NT'. rewrite N in NT'. pose proof (NF nf (or_introl eq_refl) NT') as FF.
      apply in_map_iff in I as (r' & <- & IR).
      assert (Q : Forall2 (fun r r' => cell (t_fields t ++ [("color", char_ 20 true true DNone)])%list r' "color" = Some VNull) (t_rows t) rs).
      { refine (all_rows_rel _ (good_row (snd nf)) _ _ _ _ G AR). intros r q GR E. unfold add_cell in E. cbn in E.
        injection E as <-. rewrite F. rewrite cell_app; auto using good_length. }
      clear - Q IR. induction Q; [contradiction|]. destruct IR as [ <- | IR ]; auto.
  Qed.
  Lemma kept_rows b (d d' : db) : kept_all b d d' -> (rows_of "materialmodel" d' = [] <-> rows_of "materialmodel" d = []).
  Proof.
    intros (d1 & d2 & -> & F & Z). unfold rows_of. rewrite flat_map_app.
    assert (E2 : flat_map (fun t => if String.eqb (t_name t) "materialmodel" then t_rows t else []) d2 = []).
    { clear - Z. induction Z; cbn; auto. rewrite H, IHZ. now destruct (String.eqb _ _). }
    rewrite E2, app_nil_r. clear - F. induction F as [|t t' d d1 (RN & K) F IH]; cbn; [tauto|].
    assert (E : String.eqb (t_name t') "materialmodel" = String.eqb (t_name t) "materialmodel").
    { destruct RN as [->|(-> & ->)]; reflexivity. }
    rewrite E. destruct (String.eqb (t_name t) "materialmodel"); [|exact IH].
    split; intros Q; apply app_eq_nil in Q as (Q1 & Q2).
    - rewrite Q1 in K. inversion K; subst. cbn. now apply IH.
    - rewrite Q1 in K. inversion K; subst. cbn. now apply IH.
  Qed.
  Lemma rows_colours (d : db) : rows_of "materialmodel" d = [] <-> colours d = [].
  Proof.
    unfold rows_of, colours. induction d as [|t d IH]; cbn; [tauto|]. destruct (String.eqb _ _); [|exact IH].
    split; intros Q; apply app_eq_nil in Q as (Q1 & Q2); [rewrite Q1; now apply IH|].
    apply map_eq_nil in Q1. rewrite Q1. now apply IH.
  Qed.
  Lemma to_eighth j : forall k (d : db), (k + j = 8)%nat -> conforms (schema_at k) d ->
    exists d8, conforms (schema_at 8) d8 /\ kept_all (Nat.ltb k 7) d d8 /\
      migrate (skipn k migrations) d = (let '(n, d', ok) := migrate (skipn 8 migrations) d8 in (j + n, d', ok)%nat) /\
      (j = O -> d8 = d) /\ (j <> O -> forall c, In c (colours d8) -> c = Some VNull).
  Proof.
    induction j as [|j IH]; intros k d L C.
    - assert (k = 8%nat) by lia. subst k. exists d. split; auto. split; [apply kept_all_refl|]. split; [|split; [auto|congruence]].
      destruct (migrate (skipn 8 migrations) d) as [[n d'] ok]. reflexivity.
    - destruct (one_migration k d ltac:(lia) ltac:(lia) C) as (d1 & A & C1 & K1).
      destruct (IH (S k) d1 ltac:(lia) C1) as (d8 & C8 & K8 & M & E0 & N0). exists d8. split; auto.
      split; [eapply kept_all_trans; eauto using kept_next|]. split.
      { rewrite skip_next by lia. cbn [migrate]. rewrite A, M. destruct (migrate (skipn 8 migrations) d8) as [[n d'] ok]. reflexivity. }
      split; [discriminate|]. intros _. destruct j as [|j]; [|apply N0; discriminate].
      rewrite (E0 eq_refl). assert (k = 7%nat) by lia. subst k. exact (eighth_clears d d1 C A).
  Qed.
  Lemma from_eighth (d : db) : conforms (schema_at 8) d ->
    (snd (migrate (skipn 8 migrations) d) = false <-> no_colour d) /\
    (no_colour d -> migrate (skipn 8 migrations) d = (O, d, false)).
  Proof.
    intros C. pose proof (ninth_refused d C) as Q.
    assert (F : no_colour d -> migrate (skipn 8 migrations) d = (O, d, false)).
    { intros N. apply Q in N. rewrite skip_next by lia. cbn [migrate]. change (nth_m 8) with m09. now rewrite N. }
    split; [|exact F]. split; [|intros N; now rewrite F].
    pose proof (migrate_ok 5 8 d eq_refl C) as M. rewrite skip_next in M |- * by lia. cbn [migrate] in M |- *.
    change (nth_m 8) with m09 in *. destruct (apply_ops m09 d) as [d1|] eqn:A.
    - destruct (migrate (skipn 9 migrations) d1) as [[n d'] ok]. cbn. intros ->. destruct M as (_ & _ & _ & _ & M).
      destruct (M eq_refl) as (B & _). lia.
    - intros _. now apply Q.
  Qed.
  Lemma outcome k (d : db) : (k <= 13)%nat -> conforms (schema_at k) d ->
    (snd (migrate (skipn k migrations) d) = false <->
     (k < 8)%nat /\ rows_of "materialmodel" d <> [] \/ k = 8%nat /\ In (Some VNull) (colours d)).
  Proof.
    intros L C. destruct (le_lt_dec k 8) as [L8|L8].
    - destruct (to_eighth (8 - k) k d ltac:(lia) C) as (d8 & C8 & K8 & M & E0 & N0). rewrite M.
      destruct (from_eighth d8 C8) as (Q & _). destruct (migrate (skipn 8 migrations) d8) as [[n d'] ok]. cbn [snd] in *.
      rewrite Q, no_colour_In. destruct (Nat.eq_dec k 8) as [->|N].
      + rewrite (E0 eq_refl). split; [auto|intros [(B & _)|(_ & B)]; [lia|auto]].
      + specialize (N0 ltac:(lia)). rewrite <- (kept_rows _ d d8 K8), rows_colours. split.
        * intros I. left. split; [lia|]. intros Z. rewrite Z in I. contradiction.
        * intros [(_ & B)|(B & _)]; [|lia]. destruct (colours d8) as [|c l]; [congruence|]. left. apply N0. now left.
    - pose proof (migrate_ok (13 - k) k d ltac:(lia) C) as M. destruct (migrate (skipn k migrations) d) as [[n d'] ok].
      cbn [snd]. split; [|lia]. intros ->. destruct M as (_ & _ & _ & _ & M). destruct (M eq_refl) as (B & _). lia.
  Qed.
  (** a run that gets stuck has taken the colours away *)
  Lemma stuck k (d : db) n d' : (k < 8)%nat -> conforms (schema_at k) d ->
    migrate (skipn k migrations) d = (n, d', false) ->
    (k + n = 8)%nat /\ forall c, In c (colours d') -> c = Some VNull.
  Proof.
    intros L C E. assert (J : exists j, (k + j = 8)%nat /\ j <> O) by (exists (8 - k)%nat; lia). destruct J as (j & J & Z).
    destruct (to_eighth j k d J C) as (d8 & C8 & K8 & M & E0 & N0).
    destruct (from_eighth d8 C8) as (Q & F). rewrite E in M.
    destruct (migrate (skipn 8 migrations) d8) as [[n8 e8] ok]. injection M as E1 E2 E3. subst ok. cbn in Q.
    specialize (F (proj1 Q eq_refl)). injection F as E4 E5. subst. split; [lia|]. exact (N0 Z).
  Qed.
  Lemma stuck_again k (d : db) n d' : (k < 8)%nat -> conforms (schema_at k) d ->
    migrate (skipn k migrations) d = (n, d', false) ->
    (forall c, In c (colours d') -> c = Some VNull) /\ colours d' <> [] /\
    migrate (skipn (k + n) migrations) d' = (O, d', false).
  Proof.
    intros L C E. destruct (stuck k d n d' L C E) as (K & N). assert (J : (k + (13 - k) = 13)%nat) by lia.
    pose proof (migrate_ok (13 - k) k d J C) as M. rewrite E in M. destruct M as (_ & C' & KE & _ & _).
    assert (L13 : (k <= 13)%nat) by lia.
    pose proof (outcome k d L13 C) as O. rewrite E in O. destruct (proj1 O eq_refl) as [(_ & NE)|(B & _)]; [|lia].
    assert (NE' : colours d' <> []) by (rewrite <- rows_colours, (kept_rows _ d d' KE); exact NE).
    split; [exact N|]. split; [exact NE'|]. rewrite K in C' |- *. apply from_eighth; auto. apply no_colour_In.
    destruct (colours d') as [|c l] eqn:EC; [congruence|]. rewrite <- (N c (or_introl eq_refl)). now left.
  Qed.
End Facts.
