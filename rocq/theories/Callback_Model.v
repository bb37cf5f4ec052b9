(** Model of calling Python from a compiled function: equinox/_callback.py lines 1-62 ([filter_pure_callback]).

    - Leaves have type [L]; [is_arr] is [is_array]. [is_struct] is [_is_struct] (lines 7-8): whether a leaf has a shape and a dtype, which arrays
      have too. [struct] is the shape and dtype of such a leaf, compared with [seqb].
    - [leq] is the comparison of two leaves that are not arrays by [tree_equal].
    - [callback] is the user's function of positional and keyword arguments; the tuple of both is [Node 0 [args; kwargs]].
    - [pure_callback] is JAX's (outside /repo): the leaves of what the function returns are checked against the declared shapes and dtypes, one by
      one, and given the declared structure. The structure of what the function returns is not looked at.
    - Shardings and the treatment of [vmap] are JAX's and left out. *)
From Verif Require Export Closure_Model.

Section Callback.
  Context {L S : Type}.
  Variables is_arr is_struct : L -> bool.
  Variable struct : L -> S.
  Variable seqb : S -> S -> bool.
  Variable leq : L -> L -> bool.
  Notation T := (tree L).
  Notation part g x := (eqx_partition no_leaf TNone x (Leaf (SCall (on_leaf g)))).

  (** [jax.pure_callback] *)
  Fixpoint conform (xs ss : list L) : bool :=
    match xs, ss with
    | [], [] => true
    | x :: xs, s :: ss => seqb (struct x) (struct s) && conform xs ss
    | _, _ => false
    end.
  Definition pure_callback (f : T -> res T) (structs dynamic : T) : res T :=
    out <- f dynamic ;;
    if conform (flat out) (flat structs) then unflatten (treedef no_leaf structs) (map Leaf (flat out)) else Err RuntimeError.

  Variable callback : T -> T -> res T.
  (** Lines 46-52. *)
  Definition wrapped (static static_struct : T) : T -> res T := fun dynamic =>
    ak <- eqx_combine no_leaf [dynamic; static] ;;
    '(args, kwargs) <- split2 ak ;;
    out <- callback args kwargs ;;
    '(dynamic_out, static_out) <- part is_arr out ;;
    if negb (tree_equal leq static_out static_struct) then Err ValueError else Ok dynamic_out.
  (** Lines 43-44 and 61-62. *)
  Definition filter_pure_callback (args kwargs result_shape_dtypes : T) : res T :=
    '(dynamic, static) <- part is_arr (Node 0 [args; kwargs]) ;;
    '(dynamic_struct, static_struct) <- part is_struct result_shape_dtypes ;;
    dynamic_out <- pure_callback (wrapped static static_struct) dynamic_struct dynamic ;;
    eqx_combine no_leaf [dynamic_out; static_struct].
End Callback.
