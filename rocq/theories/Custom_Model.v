(** Model of custom derivative rules: equinox/_ad.py lines 724-828 ([filter_custom_jvp]), 831-853
    ([nondifferentiable]) and 856-1118 ([filter_custom_vjp]).

    - Leaves have type [L]; [is_arr], [inexact] are [is_array], [is_inexact_array]; [jax_type] tells which objects
      have an abstract value ([jax.core.get_aval]).
    - Positional and keyword arguments are a tuple [Node 0 [args; kwargs]].
    - What JAX supplies: to a JVP rule, a tangent for every array, [None] being a [SymbolicZero]; to the
      forward rule of a VJP, for every array whether it is perturbed; to the backward rule, a cotangent for
      every inexact array output. JAX refuses tangents and cotangents whose structure is not that of the
      primals; its checks of shapes and dtypes are left out.
    - Deprecation warnings are left out. The booleans [perturbed] come back unchanged from the residuals. *)
From Verif Require Export Prim_Model.

(** [a, b = t] *)
Definition split2 {X} (t : tree X) : res (tree X * tree X) :=
  match t with Node _ [a; b] => Ok (a, b) | _ => Err ValueError end.

Section Custom.
  Context {L : Type}.
  Variables is_arr inexact jax_type : L -> bool.
  Notation T := (tree L).
  Notation part g x := (eqx_partition no_leaf TNone x (Leaf (SCall (on_leaf g)))).

  (** ** [filter_custom_jvp] *)
  (** Lines 783-785. *)
  Definition jvp_fn_wrapper (fn : T -> T -> res T) (static dynamic : T) : res T :=
    ak <- eqx_combine no_leaf [dynamic; static] ;;
    '(args, kwargs) <- split2 ak ;;
    fn args kwargs.
  (** Lines 826-828, not differentiated. *)
  Definition custom_jvp_call (fn : T -> T -> res T) (args kwargs : T) : res T :=
    '(dynamic, static) <- part is_arr (Node 0 [args; kwargs]) ;;
    jvp_fn_wrapper fn static dynamic.

  (** Lines 731-738. *)
  Definition drop_nondiff (t : tree (option L)) (p : T) : res T :=
    match t, p with
    | Leaf None, _ => Ok TNone
    | Leaf (Some v), Leaf a => if inexact a then Ok (Leaf v) else Ok TNone
    | _, _ => Err TypeError
    end.
  (** Lines 879-895. *)
  Definition none_to_zero (ct x : T) : res (tree (option L)) :=
    match ct with
    | TNone => match x with
               | TNone => Ok TNone
               | Leaf a => if jax_type a then Ok (Leaf None) else Err TypeError
               | Node _ _ => Err TypeError
               end
    | Leaf v => Ok (Leaf (Some v))
    | Node _ _ => Err TypeError
    end.
  (** Lines 808-819, and JAX's check of the structure of the tangents. *)
  Definition jvp_rule_wrapper (rule : T -> T -> T -> res (T * T)) (static dynamic : T) (tangents : tree (option L))
      : res (T * tree (option L)) :=
    t <- tmap2 no_leaf drop_nondiff tangents dynamic ;;
    '(t_args, t_kwargs) <- split2 t ;;
    if negb (Nat.eqb (length (leaves no_leaf t_kwargs)) 0) then Err ValueError else
    ak <- eqx_combine no_leaf [dynamic; static] ;;
    '(args, kwargs) <- split2 ak ;;
    '(out, t_out) <- rule args t_args kwargs ;;
    t_out <- tmap2 is_none none_to_zero t_out out ;;
    if tdef_eqb (treedef no_leaf out) (treedef no_leaf t_out) then Ok (out, t_out) else Err TypeError.
  (** Lines 826-828, differentiated: [tangents] has one tangent for each array. *)
  Definition custom_jvp_jvp (rule : T -> T -> T -> res (T * T)) (args kwargs : T) (tangents : tree (option L))
      : res (T * tree (option L)) :=
    '(dynamic, static) <- part is_arr (Node 0 [args; kwargs]) ;;
    jvp_rule_wrapper rule static dynamic tangents.

  (** Lines 724-728. *)
  Variable zeros_like : L -> L.
  Definition materialise (x g : T) : res T :=
    match g, x with
    | TNone, Leaf a => if inexact a then Ok (Leaf (zeros_like a)) else Ok TNone
    | _, _ => Ok g
    end.
  (** The rule made by the deprecated [defjvp], lines 801-803. *)
  Definition legacy_rule (rule : T -> T -> T -> res (T * T)) (args t_args kwargs : T) : res (T * T) :=
    t <- tmap2 no_leaf materialise args t_args ;;
    rule args t kwargs.

  (** ** [filter_custom_vjp] *)
  Definition forward := tree bool -> T -> T -> T -> res (T * T).        (* perturbed, vjp_arg, args, kwargs *)
  Definition backward := T -> T -> tree bool -> T -> T -> T -> res T.   (* residuals, grad, perturbed, vjp_arg, args, kwargs *)
  Record vjp_obj := { o_fwd : option forward; o_bwd : option backward; o_wrapped : bool }.
  (** Lines 952-956. *)
  Definition vjp_new : vjp_obj := {| o_fwd := None; o_bwd := None; o_wrapped := false |}.
  (** Lines 958-966. The functions made by [_defvjp] read [self.fn_fwd] and [self.fn_bwd] when they run. *)
  Definition def_fwd (o : vjp_obj) (f : forward) : vjp_obj :=
    {| o_fwd := Some f; o_bwd := o_bwd o; o_wrapped := match o_bwd o with Some _ => true | None => o_wrapped o end |}.
  Definition def_bwd (o : vjp_obj) (b : backward) : vjp_obj :=
    {| o_fwd := o_fwd o; o_bwd := Some b; o_wrapped := match o_fwd o with Some _ => true | None => o_wrapped o end |}.

  (** Lines 1015-1018, 1048-1051: a value is split into inexact arrays, other arrays, and the rest. *)
  Definition split_out (out : T) : res (T * T * T) :=
    '(arr, nonarr) <- part is_arr out ;;
    '(diff, nondiff) <- part inexact arr ;;
    Ok (diff, nondiff, nonarr).
  Definition join_out (o : T * T * T) : res T :=
    let '(diff, nondiff, nonarr) := o in eqx_combine no_leaf [diff; nondiff; nonarr].

  (** Lines 1004-1018. *)
  Definition vjp_fn_wrapped (fn : T -> T -> T -> res T) (nonarr nonarr_ak diff nondiff arr_ak : T) : res (T * T * T) :=
    v <- eqx_combine no_leaf [nonarr; diff; nondiff] ;;
    ak <- eqx_combine no_leaf [nonarr_ak; arr_ak] ;;
    '(args, kwargs) <- split2 ak ;;
    out <- fn v args kwargs ;;
    split_out out.
  (** Lines 1097-1118, not differentiated. *)
  Definition custom_vjp_call (o : vjp_obj) (fn : T -> T -> T -> res T) (v args kwargs : T) : res T :=
    if negb (o_wrapped o) then Err RuntimeError else
    '(arr, nonarr) <- part is_arr v ;;
    '(diff, nondiff) <- part inexact arr ;;
    '(arr_ak, nonarr_ak) <- part is_arr (Node 0 [args; kwargs]) ;;
    out <- vjp_fn_wrapped fn nonarr nonarr_ak diff nondiff arr_ak ;;
    join_out out.

  (** Differentiated: every leaf comes with the information whether it is perturbed. *)
  Definition P := (L * bool)%type.
  Definition values (t : tree P) : T :=
    tmap no_leaf (fun s => match s with Leaf p => Leaf (fst p) | _ => TNone end) t.
  (** Lines 856-858. *)
  Definition get_perturbed (t : tree P) : tree bool :=
    tmap no_leaf (fun s => match s with Leaf p => Leaf (snd p) | _ => TNone end) t.
  Definition all_false (t : tree P) : tree bool := tmap no_leaf (fun _ => Leaf false) t.
  (** Lines 866-869. *)
  Definition get_unperturbed (t : tree P) : res T :=
    if existsb (fun s => match s with Leaf p => snd p | _ => false end) (leaves no_leaf t) then Err AssertionError
    else Ok (values t).

  (** What the forward pass keeps for the backward pass: lines 1052-1059. *)
  Record saved := {
    s_array_res : T; s_nonarray_res : T; s_diff : T; s_nondiff : T; s_array_ak : T; s_perturbed : tree bool }.

  (** Lines 1020-1059. *)
  Definition fwd_wrapped (fwd : forward) (nonarr nonarr_ak diff nondiff arr_ak : tree P) : res (T * T * T * saved) :=
    perturbed <- eqx_combine no_leaf [all_false nonarr; all_false nondiff; get_perturbed diff] ;;
    let diff := values diff in
    nondiff <- get_unperturbed nondiff ;;
    arr_ak <- get_unperturbed arr_ak ;;
    v <- eqx_combine no_leaf [values nonarr; diff; nondiff] ;;
    ak <- eqx_combine no_leaf [values nonarr_ak; arr_ak] ;;
    '(args, kwargs) <- split2 ak ;;
    '(out, residuals) <- fwd perturbed v args kwargs ;;
    '(array_res, nonarray_res) <- part is_arr residuals ;;
    out <- split_out out ;;
    Ok (out, {| s_array_res := array_res; s_nonarray_res := nonarray_res; s_diff := diff; s_nondiff := nondiff;
                s_array_ak := arr_ak; s_perturbed := perturbed |}).
  (** Lines 872-876. *)
  Definition zero_to_none (t : tree (option L)) : T :=
    tmap no_leaf (fun s => match s with Leaf (Some v) => Leaf v | _ => TNone end) t.
  (** Lines 1061-1091, and JAX's check of the structure. The result is the cotangent of the inexact arrays. *)
  Definition bwd_wrapped (bwd : backward) (nonarr nonarr_ak : T) (s : saved) (grad : tree (option L)) : res (tree (option L)) :=
    residuals <- eqx_combine no_leaf [s_array_res s; s_nonarray_res s] ;;
    v <- eqx_combine no_leaf [nonarr; s_diff s; s_nondiff s] ;;
    ak <- eqx_combine no_leaf [nonarr_ak; s_array_ak s] ;;
    '(args, kwargs) <- split2 ak ;;
    out <- bwd residuals (zero_to_none grad) (s_perturbed s) v args kwargs ;;
    if negb (tdef_eqb (treedef is_none out) (treedef is_none (s_diff s))) then Err RuntimeError else
    out <- tmap2 is_none none_to_zero out (s_diff s) ;;
    if tdef_eqb (treedef no_leaf out) (treedef no_leaf (s_diff s)) then Ok out else Err TypeError.

  (** Lines 1097-1118, differentiated: the output, and the pullback from cotangents of the inexact arrays of the
      output to cotangents of the inexact arrays of [vjp_arg]. [nondifferentiable] (lines 831-853) raises if an
      array among the other arguments is perturbed. *)
  Definition custom_vjp_vjp (o : vjp_obj) (v args kwargs : tree P)
      : res (T * (tree (option L) -> res (tree (option L)))) :=
    if negb (o_wrapped o) then Err RuntimeError else
    '(arr, nonarr) <- part (fun p : P => is_arr (fst p)) v ;;
    '(diff, nondiff) <- part (fun p : P => inexact (fst p)) arr ;;
    '(arr_ak, nonarr_ak) <- part (fun p : P => is_arr (fst p)) (Node 0 [args; kwargs]) ;;
    if existsb (fun s => match s with Leaf p => snd p | _ => false end) (leaves no_leaf arr_ak) then Err RuntimeError else
    match o_fwd o, o_bwd o with
    | Some fwd, Some bwd =>
        '(out, s) <- fwd_wrapped fwd nonarr nonarr_ak diff nondiff arr_ak ;;
        out <- join_out out ;;
        Ok (out, bwd_wrapped bwd (values nonarr) (values nonarr_ak) s)
    | _, _ => Err AssertionError
    end.

  (** The deprecated [defvjp], lines 985-1001. *)
  Definition legacy_fwd (fwd : T -> T -> T -> res (T * T)) : forward :=
    fun _ v args kwargs => '(out, residuals) <- fwd v args kwargs ;; Ok (out, Node 0 [out; residuals]).
  Definition legacy_bwd (bwd : T -> T -> T -> T -> T -> res T) : backward :=
    fun residuals grad _ v args kwargs =>
      '(out, residuals) <- split2 residuals ;;
      grad <- tmap2 no_leaf materialise out grad ;;
      bwd residuals grad v args kwargs.
End Custom.
