(** Model of filtered differentiation: equinox/_ad.py lines 51-108, 150-190, 228-279, 282-359, 374-447, 506-528.

    Differentiation itself is JAX's. JAX's transformations flatten their argument, work on lists of
    leaves, and unflatten; the part between is an arbitrary "engine":
    - [VG has_aux F ws]: [jax.value_and_grad] of the function [F] on lists of leaves, at [ws];
      returns the value of [F] and one gradient per element of [ws];
    - [VJP F ws]: [jax.vjp(.., has_aux=True)]; returns outputs, pullback and auxiliary output;
    - [JAC rev F ws]: [jax.jacrev]/[jax.jacfwd] with [has_aux=True]; returns for each output leaf a list
      with one array per element of [ws].
    What theorems assume about engines is stated there. [jax.jvp] is modelled with dual numbers: the leaves
    the user's function works on are either constants or tracers carrying a primal and a tangent.
    Leaves have type [L]; [is_arr], [inexact] are [is_array], [is_inexact_array]. Arguments besides the first are
    passed through as one tree. *)
From Verif Require Export Prim_Spec.

Section Ad.
  Context {L : Type}.
  Variables is_arr inexact : L -> bool.
  Notation T := (tree L).
  Notation part g x := (eqx_partition no_leaf TNone x (Leaf (SCall (on_leaf g)))).

  (** ** Gradients *)
  Variable VG : bool -> (list T -> res T) -> list T -> res (T * list T).
  Definition jax_value_and_grad (has_aux : bool) (f : T -> res T) (x : T) : res (T * T) :=
    '(v, gs) <- VG has_aux (fun ws => y <- unflatten (treedef no_leaf x) ws ;; f y) (leaves no_leaf x) ;;
    g <- unflatten (treedef no_leaf x) gs ;;
    Ok (v, g).

  (** Lines 60-81. *)
  Definition filter_value_and_grad (has_aux : bool) (fn : T -> T -> res T) (args : list T) (rest : T)
      : res (T * T) :=
    match args with
    | [] => Err TypeError
    | x :: args' =>
        '(diff_x, nondiff_x) <- part inexact x ;;
        jax_value_and_grad has_aux
          (fun d => x' <- eqx_combine no_leaf [d; nondiff_x] ;; fn x' (Node 0 [Node 0 args'; rest])) diff_x
    end.

  (** Lines 97-103. *)
  Definition filter_grad (has_aux : bool) (fn : T -> T -> res T) (args : list T) (rest : T) : res T :=
    '(value, grad) <- filter_value_and_grad has_aux fn args rest ;;
    if has_aux then
      match value with
      | Node _ [_; aux] => Ok (Node 0 [grad; aux])
      | _ => Err ValueError
      end
    else Ok grad.

  (** ** Forward mode, lines 293-359. *)
  Inductive dual := Con (a : L) | Tr (p t : L).
  Definition is_tr (t : tree dual) : bool := match t with Leaf (Tr _ _) => true | _ => false end.
  Definition is_arr_d (t : tree dual) : bool :=
    match t with Leaf (Tr _ _) => true | Leaf (Con a) => is_arr a | _ => false end.
  Definition con (t : T) : tree dual :=
    tmap no_leaf (fun s => match s with Leaf a => Leaf (Con a) | _ => TNone end) t.
  Definition prim (t : tree dual) : T :=
    tmap no_leaf (fun s => match s with Leaf (Con a) | Leaf (Tr a _) => Leaf a | _ => TNone end) t.
  Definition tang (t : tree dual) : T :=
    tmap no_leaf (fun s => match s with Leaf (Tr _ b) => Leaf b | _ => TNone end) t.

  (** [jax.jvp] on lists of leaves: as many tangents as primals, of matching dtypes and shapes. *)
  Variable compat : T -> T -> bool.
  Definition mk_tr (p : T * T) : tree dual :=
    match p with (Leaf a, Leaf b) => Leaf (Tr a b) | _ => TNone end.
  Definition jax_jvp {X} (F : list (tree dual) -> res X) (ps ts : list T) : res X :=
    if negb (Nat.eqb (length ps) (length ts)) then Err TypeError else
    if negb (forallb (fun p => compat (fst p) (snd p)) (List.combine ps ts)) then Err TypeError else
    F (map mk_tr (List.combine ps ts)).

  (** Lines 343-352. *)
  Definition jvp_fn (fn : tree dual -> res (tree dual)) (td : tree unit) (static : T)
      (flat : list (tree dual)) : res (tree dual * tree dual * tree dual) :=
    dyn <- unflatten td flat ;;
    i <- eqx_combine no_leaf [dyn; con static] ;;
    out <- fn i ;;
    '(dyn_out, static_out) <- eqx_partition no_leaf TNone out (Leaf (SCall is_tr)) ;;
    '(arr_out, non_arr_out) <- eqx_partition no_leaf TNone static_out (Leaf (SCall is_arr_d)) ;;
    Ok (dyn_out, arr_out, non_arr_out).

  Definition filter_jvp (fn : tree dual -> res (tree dual)) (primals tangents : T) : res (T * T) :=
    if negb (tdef_eqb (treedef is_none primals) (treedef is_none tangents)) then Err ValueError else
    let filter_spec := tmap is_none (fun t => Leaf (SBool (is_none t))) tangents in
    '(static_primals, dynamic_primals) <- eqx_partition no_leaf TNone primals filter_spec ;;
    '(dyn_out, arr_out, non_arr_out) <-
       jax_jvp (jvp_fn fn (treedef no_leaf dynamic_primals) static_primals)
         (leaves no_leaf dynamic_primals) (leaves no_leaf tangents) ;;
    primal_out <- eqx_combine no_leaf [prim dyn_out; prim arr_out; prim non_arr_out] ;;
    Ok (primal_out, tang dyn_out).

  (** ** Reverse mode, lines 374-419. *)
  Definition split_aux (has_aux : bool) (out : T) : res (T * T) :=
    if has_aux then match out with Node _ [o; a] => Ok (o, a) | _ => Err ValueError end else Ok (out, TNone).
  Variable VJP : (list T -> res (list T * (tree unit * T * T))) -> list T ->
    res (list T * (list T -> res (list T)) * (tree unit * T * T)).
  (** Lines 404-412. *)
  Definition vjp_diff_fun (fn : T -> res T) (has_aux : bool) (td : tree unit) (nondiff : T) (ws : list T)
      : res (list T * (tree unit * T * T)) :=
    d <- unflatten td ws ;;
    p <- eqx_combine no_leaf [d; nondiff] ;;
    out <- fn p ;;
    '(o, aux) <- split_aux has_aux out ;;
    '(diff_out, nondiff_out) <- part inexact o ;;
    Ok (leaves no_leaf diff_out, (treedef no_leaf diff_out, nondiff_out, aux)).
  Definition filter_vjp (fn : T -> res T) (primals : T) (has_aux : bool)
      : res (T * (T -> res T) * T) :=
    '(diff, nondiff) <- part inexact primals ;;
    let td := treedef no_leaf diff in
    '(os, pull, (td_out, nondiff_out, aux)) <- VJP (vjp_diff_fun fn has_aux td nondiff) (leaves no_leaf diff) ;;
    diff_out <- unflatten td_out os ;;
    out <- eqx_combine no_leaf [diff_out; nondiff_out] ;;
    Ok (out,
        fun ct => if tdef_eqb (treedef no_leaf ct) td_out
                  then cs <- pull (leaves no_leaf ct) ;; unflatten td cs
                  else Err ValueError,
        aux).

  (** ** Jacobians, lines 422-447. *)
  Variable JAC : bool -> (list T -> res (list T * (tree unit * T))) -> list T ->
    res (list (list T) * (tree unit * T)).
  Definition jac_fun (fn : T -> res T) (has_aux : bool) (td : tree unit) (nondiff : T) (ws : list T)
      : res (list T * (tree unit * T)) :=
    d <- unflatten td ws ;;
    p <- eqx_combine no_leaf [d; nondiff] ;;
    out <- fn p ;;
    '(o, aux) <- split_aux has_aux out ;;
    if forallb (on_leaf is_arr) (leaves no_leaf o) then Ok (leaves no_leaf o, (treedef no_leaf o, aux))
    else Err TypeError.
  Definition filter_jac (rev : bool) (fn : T -> res T) (has_aux : bool) (x : T) : res (T * T) :=
    '(diff, nondiff) <- part inexact x ;;
    let td := treedef no_leaf diff in
    '(rows, (td_out, aux)) <- JAC rev (jac_fun fn has_aux td nondiff) (leaves no_leaf diff) ;;
    ts <- mapM (unflatten td) rows ;;
    j <- unflatten td_out ts ;;
    Ok (j, aux).
  (** Lines 506-528 with 442-447: the inner Jacobian returns a pair if [has_aux]. *)
  Definition filter_hessian (fn : T -> res T) (has_aux : bool) (x : T) : res (T * T) :=
    filter_jac false (fun y => '(j, aux) <- filter_jac true fn has_aux y ;; Ok (if has_aux then Node 0 [j; aux] else j))
      has_aux x.
End Ad.
Arguments dual L : clear implicits.
