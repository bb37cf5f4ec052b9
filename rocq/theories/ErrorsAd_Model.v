(** Model of error_if and branched_error_if under forward-mode differentiation: equinox/_errors.py lines 81, 160-170 (the
    derivative rule of [_error]) and 283-344, with [filter_custom_jvp] of equinox/_ad.py (Custom_Model).

    - A differentiated pytree has at each leaf a value and its tangent, [None] being a symbolic zero.
    - The predicate and the index may be differentiated as well ([zp], [zi]); [unvmap_any] and [unvmap_max] give values
      without tangents, and the rule ignores them.
    - The keyword arguments of [_error] (strings) are left out. Reverse mode is the transposition of the map on tangents. *)
From Verif Require Export Errors_Model Custom_Model.
Local Open Scope nat_scope.
Local Open Scope list_scope.

Section ErrorsAd.
  Variables (V D Ob : Type).
  Variable kind_of : D -> kind.
  Variable fill : D -> V.
  Variable np_type : Ob -> option D.
  Local Notation leaf := (leaf V D Ob).
  Local Notation T := (tree leaf).
  Definition arr (l : leaf) : bool := match l with Arr _ _ _ _ _ => true | Obj _ _ _ _ => false end.
  Definition inexact_arr (l : leaf) : bool := match l with Arr _ _ _ d _ => match kind_of d with Inexact => true | _ => false end | Obj _ _ _ _ => false end.
  Definition dual := (leaf * option leaf)%type.
  Definition primals (z : tree dual) : T := tmap no_leaf (fun s => match s with Leaf p => Leaf (fst p) | _ => TNone end) z.
  (** What JAX supplies: a tangent for each array. *)
  Definition array_tangents (z : tree dual) : tree (option leaf) :=
    tmap no_leaf (fun s => match s with Leaf p => if arr (fst p) then Leaf (snd p) else TNone | _ => TNone end) z.

  Inductive jresult := JReturn (z : tree dual) | JStop (r : result V D Ob).
  (** Lines 166-170, [y] being what [_error] returns. *)
  Definition error_rule (y : T) (args t_args kwargs : T) : res (T * T) :=
    match args, t_args with Node _ [_; _; _], Node _ [tx; _; _] => Ok (y, tx) | _, _ => Err ValueError end.
  Definition pair_up (y : T) (t : tree (option leaf)) : res (tree dual) :=
    match y, t with Leaf a, Leaf v => Ok (Leaf (a, v)) | _, _ => Err TypeError end.
  (** Lines 329-344. *)
  Definition jvp_runtime (mode : string) (z zp zi : tree dual) (pred : bool) (i : Z) (msgs : list string) : list event * jresult :=
    match eqx_partition no_leaf TNone z (Leaf (SCall (on_leaf (fun p => arr (fst p))))) with
    | Err e => ([], JStop (Raises _ _ _ e))
    | Ok (dynamic, static) =>
        if length (leaves no_leaf dynamic) =? 0 then ([], JStop (Raises _ _ _ ValueError))
        else
          match error V D Ob kind_of fill np_type mode (primals dynamic) pred i msgs (Return _ _ _) with
          | (ev, Return _ _ _ y) =>
              (ev, match ('(y, t) <- custom_jvp_jvp arr inexact_arr arr (error_rule y) (Node 0 [primals dynamic; primals zp; primals zi]) (Node 0 [])
                                       (Node 0 [Node 0 [array_tangents dynamic; array_tangents zp; array_tangents zi]; Node 0 []]) ;;
                          d <- tmap2 no_leaf pair_up y t ;;
                          eqx_combine no_leaf [d; static])
                   with Ok w => JReturn w | Err e => JStop (Raises _ _ _ e) end)
          | (ev, r) => (ev, JStop r)
          end
    end.
  (** Lines 283-344; [jtu.tree_map(_nan_like, x)] of line 323 gives constants. *)
  Definition jvp_impl (env mode : string) (z zp zi : tree dual) (p : predicate) (i : index) (msgs : list string) : list event * jresult :=
    let mode' := if String.eqb mode "default" then env else mode in
    if negb (String.eqb mode "default") && negb (valid_mode mode) then ([], JStop (Raises _ _ _ RuntimeError)) else
    let '(pc, pred) := pred_value p in
    match index_value i with
    | Err e => ([], JStop (Raises _ _ _ e))
    | Ok (ic, idx) =>
        if pc && negb pred then ([], JReturn z)
        else if pc && ic then
          if String.eqb mode' "raise" then ([], JStop (match py_index msgs idx with Ok m => TraceError _ _ _ m | Err e => Raises _ _ _ e end))
          else if String.eqb mode' "breakpoint" then
            match py_index msgs idx with
            | Err e => ([], JStop (Raises _ _ _ e))
            | Ok m => let '(ev, r) := jvp_runtime mode' z zp zi pred idx msgs in (TraceBreak m :: ev, r)
            end
          else if String.eqb mode' "nan" then
            ([], match nan_tree V D Ob kind_of fill np_type (primals z) with
                 | Ok y => JReturn (tmap no_leaf (fun s => match s with Leaf a => Leaf (a, None) | _ => TNone end) y)
                 | Err e => JStop (Raises _ _ _ e)
                 end)
          else ([], JStop (Raises _ _ _ AssertionError))
        else jvp_runtime mode' z zp zi pred idx msgs
    end.
  Definition jvp_branched_error_if := jvp_impl.
  Definition jvp_error_if (env mode : string) (z zp : tree dual) (p : predicate) (msg : string) : list event * jresult :=
    jvp_branched_error_if env mode z zp (Node 0 []) p (PyInt 0) [msg].
End ErrorsAd.
