(** Model of tracing to a jaxpr, shape evaluation and closure conversion: equinox/_make_jaxpr.py lines 21-46,
    equinox/_eval_shape.py lines 18-62, equinox/_ad.py lines 531-721 ([filter_closure_convert]) and 1205-1221
    ([filter_checkpoint]).

    - Leaves have type [L]; [is_arr] is [is_array], [is_sds] recognises [jax.ShapeDtypeStruct]s. [struct] is the
      abstract value of an array or struct: shape, dtype and weak type; [sds] is the struct with that abstract value
      and [strip] forgets the weak type. Shardings are left out, and NumPy arrays are not told from JAX arrays.
    - [leq] is Python's [==] on leaves.
    - Positional and keyword arguments are a tuple [Node 0 [args; kwargs]].
    - [trace] is JAX's tracing machinery (outside /repo) for functions of a flat list of arrays. The function returns
      arrays together with Python data: the structure of the outputs and the contents of [Static].
      The result of tracing is the jaxpr, the abstract outputs and that Python data. *)
From Verif Require Export Prim_Model Custom_Model.

Section Closure.
  Context {L S : Type}.
  Variables is_arr is_sds : L -> bool.
  Variable struct : L -> S.
  Variable sds : S -> L.
  Variable strip : S -> S.
  Variable leq : L -> L -> bool.
  Notation T := (tree L).
  Notation part g x := (eqx_partition no_leaf TNone x (Leaf (SCall (on_leaf g)))).

  Definition pydata := (tree unit * T)%type.
  Definition flat_fn := list L -> res (list L * pydata).
  Definition jaxpr := list L -> res (list L).
  Variable trace : flat_fn -> list S -> res (jaxpr * list S * pydata).

  (** [jtu.tree_leaves] *)
  Definition flat (t : T) : list L := flat_map (fun s => match s with Leaf a => [a] | _ => [] end) (leaves no_leaf t).

  (** ** [filter_make_jaxpr] *)
  (** _make_jaxpr.py lines 21-22; _ad.py lines 531-532; _eval_shape.py lines 18-19. *)
  Definition is_struct (a : L) : bool := is_arr a || is_sds a.
  (** Lines 36-41. *)
  Definition traced (fn : T -> T -> res T) (dynamic_def : tree unit) (static : T) : flat_fn := fun ws =>
    dynamic <- unflatten dynamic_def (map Leaf ws) ;;
    ak <- eqx_combine no_leaf [dynamic; static] ;;
    '(args, kwargs) <- split2 ak ;;
    out <- fn args kwargs ;;
    '(dynamic_out, static_out) <- part is_arr out ;;
    Ok (flat dynamic_out, (treedef no_leaf dynamic_out, static_out)).
  (** Lines 32-46. *)
  Definition make_jaxpr (fn : T -> T -> res T) (args kwargs : T) : res (jaxpr * T * T) :=
    '(dynamic, static) <- part is_struct (Node 0 [args; kwargs]) ;;
    '(jx, ss, (def, static_out)) <- trace (traced fn (treedef no_leaf dynamic) static) (map struct (flat dynamic)) ;;
    dynamic_out <- unflatten def (map (fun s => Leaf (sds s)) ss) ;;
    Ok (jx, dynamic_out, static_out).

  (** ** [filter_eval_shape] *)
  (** _eval_shape.py lines 31-35. An output that is not an array is refused by JAX. *)
  Definition evaluated (call : T -> T -> T -> res T) (dynamic_def : tree unit) (static : T) : flat_fn := fun ws =>
    dynamic <- unflatten dynamic_def (map Leaf ws) ;;
    fak <- eqx_combine no_leaf [static; dynamic] ;;
    match fak with
    | Node _ [fn; args; kwargs] =>
        out <- call fn args kwargs ;;
        '(dynamic_out, static_out) <- part is_struct out ;;
        if forallb is_arr (flat dynamic_out) then Ok (flat dynamic_out, (treedef no_leaf dynamic_out, static_out))
        else Err TypeError
    | _ => Err ValueError
    end.
  (** Lines 22-39; [call] is Python's call of an object. *)
  Definition eval_shape (call : T -> T -> T -> res T) (fn args kwargs : T) : res T :=
    '(dynamic, static) <- part is_struct (Node 0 [fn; args; kwargs]) ;;
    '(_, ss, (def, static_out)) <- trace (evaluated call (treedef no_leaf dynamic) static) (map struct (flat dynamic)) ;;
    dynamic_out <- unflatten def (map (fun s => Leaf (sds s)) ss) ;;
    eqx_combine no_leaf [dynamic_out; static_out].

  (** Lines 42-46. *)
  Definition to_struct (s : T) : T :=
    match s with Leaf a => if is_arr a then Leaf (sds (strip (struct a))) else Leaf a | _ => s end.
  (** Comparison of a key of the cache: leaf by leaf with [==]; also lines 316-349 of _tree.py, for trees without
      arrays. *)
  Fixpoint all2 (l m : list L) : bool :=
    match l, m with
    | [], [] => true
    | a :: l, b :: m => leq a b && all2 l m
    | _, _ => false
    end.
  Definition tree_equal (t u : T) : bool := tdef_eqb (treedef no_leaf t) (treedef no_leaf u) && all2 (flat t) (flat u).
  (** Lines 49-62. The cache is a list of keys with results; exceptions are not cached. [hashable] leaves. *)
  Variable hashable : L -> bool.
  Definition cache := list (T * T).
  Definition cached_eval_shape (call : T -> T -> T -> res T) (c : cache) (fn args kwargs : T) : res T * cache :=
    let key := tmap no_leaf to_struct (Node 0 [fn; args; kwargs]) in
    if negb (forallb hashable (flat key)) then (Err TypeError, c) else
    match find (fun e => tree_equal key (fst e)) c with
    | Some e => (Ok (snd e), c)
    | None =>
        match key with
        | Node _ [fn; args; kwargs] =>
            match eval_shape call fn args kwargs with
            | Ok r => (Ok r, (key, r) :: c)
            | Err e => (Err e, c)
            end
        | _ => (Err ValueError, c)
        end
    end.

  (** ** [filter_closure_convert] *)
  Definition flat_tree := (list L * tree unit)%type.
  Definition flatten (t : T) : flat_tree := (flat t, treedef no_leaf t).
  (** Lines 535-537. *)
  Definition unflatten' (f : flat_tree) : res T := unflatten (snd f) (map Leaf (fst f)).
  (** Lines 544-549, after [jax.eval_shape(lambda: in_dynamic)]. *)
  Definition strip_weak (t : T) : T :=
    tmap no_leaf (fun s => match s with Leaf a => Leaf (sds (strip (struct a))) | _ => s end) t.
  Inductive converted :=
  | Trivial (fn : T -> T -> res T) (in_dynamic in_static : flat_tree)
  | Converted (jx : jaxpr) (in_dynamic out_dynamic in_static out_static : flat_tree).
  (** Lines 677-721; [closed]: the function has a closure, or is not a plain function. *)
  Definition closure_convert (closed : bool) (fn : T -> T -> res T) (args kwargs : T) : res converted :=
    '(in_dynamic, in_static) <- part is_struct (Node 0 [args; kwargs]) ;;
    let in_dynamic := flatten (strip_weak in_dynamic) in
    let in_static := flatten in_static in
    if negb closed then Ok (Trivial fn in_dynamic in_static) else
    '(jx, out_dynamic, out_static) <- make_jaxpr fn args kwargs ;;
    Ok (Converted jx in_dynamic (flatten out_dynamic) in_static (flatten out_static)).

  (** Lines 552-573. *)
  Definition check_input (in_dynamic_struct in_static : flat_tree) (args kwargs : T) : res T :=
    self_dynamic <- unflatten' in_dynamic_struct ;;
    self_static <- unflatten' in_static ;;
    '(dynamic, static) <- part is_arr (Node 0 [args; kwargs]) ;;
    if negb (tree_equal (strip_weak dynamic) self_dynamic) then Err ValueError else
    if negb (tree_equal static self_static) then Err ValueError else
    Ok dynamic.
  (** Lines 632-635. *)
  Fixpoint same_structs (l m : list L) : bool :=
    match l, m with
    | [], [] => true
    | a :: l, b :: m => leq (sds (strip (struct a))) (sds (strip (struct b))) && same_structs l m
    | _, _ => false
    end.
  (** Lines 592-595, 621-638. *)
  Definition call_converted (c : converted) (args kwargs : T) : res T :=
    match c with
    | Trivial fn in_dynamic in_static =>
        _ <- check_input in_dynamic in_static args kwargs ;;
        fn args kwargs
    | Converted jx in_dynamic out_dynamic in_static out_static =>
        dynamic <- check_input in_dynamic in_static args kwargs ;;
        outs <- jx (flat dynamic) ;;
        out_struct <- unflatten' out_dynamic ;;
        static_out <- unflatten' out_static ;;
        if negb (same_structs outs (flat out_struct)) then Err AssertionError else
        out <- unflatten (treedef no_leaf out_struct) (map Leaf outs) ;;
        eqx_combine no_leaf [out; static_out]
    end.
  (** Lines 581-590, 609-619; [shape] is [cached_filter_eval_shape]. *)
  Definition in_struct (c : converted) : res T :=
    match c with
    | Trivial _ in_dynamic in_static | Converted _ in_dynamic _ in_static _ =>
        dynamic <- unflatten' in_dynamic ;; static <- unflatten' in_static ;; eqx_combine no_leaf [dynamic; static]
    end.
  Definition out_struct (shape : (T -> T -> res T) -> T -> T -> res T) (c : converted) : res T :=
    match c with
    | Trivial fn _ _ => ak <- in_struct c ;; '(args, kwargs) <- split2 ak ;; shape fn args kwargs
    | Converted _ _ out_dynamic _ out_static =>
        dynamic <- unflatten' out_dynamic ;; static <- unflatten' out_static ;; eqx_combine no_leaf [dynamic; static]
    end.

  (** ** [filter_checkpoint], lines 1205-1221: traced, and the jaxpr evaluated *)
  Definition remat (fn : T -> T -> res T) (dynamic_def : tree unit) (static : T) : flat_fn := fun ws =>
    dynamic <- unflatten dynamic_def (map Leaf ws) ;;
    ak <- eqx_combine no_leaf [static; dynamic] ;;
    '(args, kwargs) <- split2 ak ;;
    out <- fn args kwargs ;;
    '(dynamic_out, static_out) <- part is_arr out ;;
    Ok (flat dynamic_out, (treedef no_leaf dynamic_out, static_out)).
  Definition checkpoint (fn : T -> T -> res T) (args kwargs : T) : res T :=
    '(dynamic, static) <- part is_arr (Node 0 [args; kwargs]) ;;
    '(jx, _, (def, static_out)) <- trace (remat fn (treedef no_leaf dynamic) static) (map struct (flat dynamic)) ;;
    outs <- jx (flat dynamic) ;;
    dynamic_out <- unflatten def (map Leaf outs) ;;
    eqx_combine no_leaf [dynamic_out; static_out].
End Closure.
