(** * Dynamic: search for the offset of dynamic loads
    (/repo/pyslope/pyslope.py:1733-1841, 2016-2017). *)
From Coq Require Import ZArith List Bool.
From Verif Require Import Num Py Validation Utilities Objects Slope Planes Analysis.
Import ListNotations.

Section Dynamic.
  Context {T : Type} {NT : Num T} {EN : Env}.
  Local Open Scope num_scope.

  (** The [critical_fos] argument: a float, or a [decimal.Decimal] when it comes
      from the web form (slope/models.py, a DecimalField).  Comparing a Decimal
      with a float works; subtracting them raises TypeError. *)
  Inductive critical := CFloat (t : T) | CDecimal (t : T).
  Definition crit_val (c : critical) : T :=
    match c with CFloat t => t | CDecimal t => t end.
  Definition crit_sub (c : critical) (x : T) : res T :=
    match c with CFloat t => Ok (t - x) | CDecimal _ => Err TypeError end.

  (** [d[k] = v] and [d[k]] on a dict kept in insertion order *)
  Fixpoint dict_set (k v : T) (d : list (T * T)) : list (T * T) :=
    match d with
    | [] => [(k, v)]
    | (k', v') :: d' => if k' =? k then (k', v) :: d' else (k', v') :: dict_set k v d'
    end.
  Fixpoint dict_get (k : T) (d : list (T * T)) : res T :=
    match d with
    | [] => Err KeyError
    | (k', v') :: d' => if k' =? k then Ok v' else dict_get k d'
    end.

  (** pyslope.py:1823-1841 [_set_dynamic_offset] *)
  Definition set_dynamic_offset (offset : T) : M (st T) unit :=
    udls <- self_get s_udls ;;
    lls <- self_get s_lls ;;
    remove_udls [] true ;;;
    remove_lls [] true ;;;
    mforM udls (fun n =>
      u <- get_udl n ;;
      mwhen (u_dynamic u) (upd_udl n (set_udl_offset offset)) ;;;
      set_udls [RefUdl n]) ;;;
    mforM lls (fun n =>
      l <- get_ll n ;;
      mwhen (l_dynamic l) (upd_ll n (set_ll_offset offset)) ;;;
      set_lls [RefLload n]).

  (** pyslope.py:1745-1753: the largest offset to be tried *)
  Fixpoint far_left (top_x left : T) (us : list (udl T)) : res T :=
    match us with
    | [] => Ok left
    | u :: us' =>
        if u_dynamic u then
          match u_length u with
          | Some len => far_left top_x (pymax left (top_x - len)) us'
          | None => Err TypeError
          end
        else far_left top_x left us'
    end.

  (** The sequence: move the loads, analyse, read and record the factor. *)
  Definition try_offset (offset : T) : M (st T) T :=
    set_dynamic_offset offset ;;;
    analyse_slope None ;;;
    f <- (fun s => (get_min_FOS (snd s), s)) ;;
    f <- mlift (match f with Some f => Ok f | None => Err TypeError end) ;;
    d <- self_get s_dynamic ;;
    self_upd (set_s_dynamic (dict_set offset f d)) ;;;
    mret f.

  (** pyslope.py:1804-1809: the stopping test *)
  Definition converged (previous fos crit : T) : bool :=
    negb (previous =? fos)
    && ((nabs (previous - fos) <=? nlit 1 100) || (nabs (fos - crit) <=? nlit 1 100))
    && (crit <=? nround 3 fos).

  (** pyslope.py:1793-1794: the offset to be tried next *)
  Definition midpoint_of (crit : critical) (left right left_fos right_fos : T) : res T :=
    let! m := pydiv (left_fos - right_fos) (left - right) in
    let! d := crit_sub crit right_fos in
    let! q := pydiv d m in
    Ok (right + q).

  (** pyslope.py:1785-1817: the loop, [k] turns left *)
  Fixpoint dynamic_loop (k : nat) (crit : critical) (left right previous : T)
    : M (st T) unit :=
    match k with
    | O => mret tt
    | S k' =>
        d <- self_get s_dynamic ;;
        left_fos <- mlift (dict_get left d) ;;
        right_fos <- mlift (dict_get right d) ;;
        mid <- mlift (midpoint_of crit left right left_fos right_fos) ;;
        fos <- try_offset mid ;;
        if converged previous fos (crit_val crit) then mret tt
        else if fos <? crit_val crit
             then dynamic_loop k' crit left mid fos
             else dynamic_loop k' crit mid right fos
    end.

  (** The value returned: [Some 0], [Some 1] or None. *)
  Definition analyse_dynamic (crit : critical) : M (st T) (option Z) :=
    self_upd (set_s_dynamic []) ;;;
    len <- self_get (fun s => g_length (s_geom s)) ;;
    top <- self_get (fun s => g_top (s_geom s)) ;;
    us <- mget udls_of ;;
    left <- mlift (far_left (fst top) len us) ;;
    let left := left - nlit 1 100 in
    let right := nz 0 in
    fos <- try_offset right ;;
    if crit_val crit <? fos then mret (Some 0%Z)
    else
      fos <- try_offset left ;;
      if fos <? crit_val crit then mret (Some 1%Z)
      else
        dynamic_loop 10 crit left right (nz 0) ;;;
        d <- self_get s_dynamic ;;
        self_upd (set_s_dynamic (sort_by snd d)) ;;;
        mret None.

  (** pyslope.py:2016-2017 [get_dynamic_results] *)
  Definition get_dynamic_results (s : slope T) : list (T * T) := s_dynamic s.
End Dynamic.
Arguments critical T : clear implicits.
