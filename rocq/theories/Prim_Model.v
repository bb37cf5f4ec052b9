(** Model of the filtered primitives of equinox/internal/_primitive.py lines 27-275.

    Simplifications: objects that are leaves of pytrees are of one abstract type [L]; they
    include arrays, tracers, abstract values, tangents, batch axes and wrapped undefined
    primals. [is_array] and [_is_array_like_internal] are arbitrary predicates on them, and
    [tree_equal] is an arbitrary reflexive comparison. The sentinel objects of lines 27-29
    do not occur among the user's objects. [prim.bind] is modelled for direct evaluation
    (the implementation rule runs) and for tracing (the abstract evaluation rule runs and
    JAX supplies one tracer per output). *)
From Verif Require Export Filters_Model.

Section Prim.
  Context {L : Type}.
  Variable is_arr : L -> bool.          (* is_array *)
  Variable arr_like : L -> bool.        (* _is_array_like_internal, lines 55-58 *)
  Variable teq : tree L -> tree L -> bool.

  Definition on_leaf (g : L -> bool) (t : tree L) : bool :=
    match t with Leaf a => g a | _ => false end.

  (** Lines 73-77. An entry [None] of [static] is [_missing_dynamic]. Running out of dynamic
      values is a [StopIteration]; a value left over fails the assertion unless it is [None]. *)
  Fixpoint combine_loop (dynamic : list (tree L)) (static : list (option (tree L)))
      : res (list (tree L) * list (tree L)) :=
    match static with
    | [] => Ok ([], dynamic)
    | Some x :: static' =>
        '(out, rest) <- combine_loop dynamic static' ;; Ok (x :: out, rest)
    | None :: static' =>
        match dynamic with
        | [] => Err (OtherError 1)
        | x :: dynamic' => '(out, rest) <- combine_loop dynamic' static' ;; Ok (x :: out, rest)
        end
    end.
  Definition combine_flat (dynamic : list (tree L)) (static : list (option (tree L)))
      : res (list (tree L)) :=
    '(out, rest) <- combine_loop dynamic static ;;
    match rest with
    | [] => Ok out
    | TNone :: _ => Ok out
    | _ :: _ => Err AssertionError
    end.

  (** The attributes of a [Flatten] object, lines 100-107. *)
  Definition fstate := option (tree unit * tree L).

  (** Lines 113-121, 130-138: set on the first call, compared on later ones. *)
  Fixpoint tdef_eqb (d e : tree unit) : bool :=
    match d, e with
    | Leaf _, Leaf _ => true
    | TNone, TNone => true
    | Node k ds, Node l es =>
        Nat.eqb k l &&
        (fix go ds es := match ds, es with
                         | [], [] => true
                         | d :: ds', e :: es' => tdef_eqb d e && go ds' es'
                         | _, _ => false
                         end) ds es
    | _, _ => false
    end.
  Definition fl_store (st : fstate) (td : tree unit) (so : tree L) : res fstate :=
    match st with
    | None => Ok (Some (td, so))
    | Some (td', so') =>
        if tdef_eqb td' td then (if teq so' so then Ok st else Err AssertionError)
        else Err AssertionError
    end.

  (** Lines 109-122: [Flatten.__call__(out)]. *)
  Definition flatten_call (st : fstate) (out : tree L) : res (list (tree L) * fstate) :=
    '(dynamic_out, static_out) <-
       eqx_partition no_leaf TNone out (Leaf (SCall (on_leaf arr_like))) ;;
    st' <- fl_store st (treedef no_leaf dynamic_out) static_out ;;
    Ok (leaves no_leaf dynamic_out, st').

  (** Lines 92-97. The result is a leaf of a [filter_spec]. *)
  Definition make_spec (x y : tree L) : res (tree (spec_leaf L)) :=
    match y with
    | TNone => Ok (Leaf (SBool (on_leaf arr_like x)))
    | _ => if is_none x then Err AssertionError else Ok (Leaf (SBool true))
    end.

  (** Lines 123-145: [Flatten.__call__(out, like)]. The private object [_dummy_none] is [None]
      in [tree (option L)]. *)
  Definition replace_none (x : tree L) : tree (option L) :=
    match x with Leaf a => Leaf (Some a) | TNone => Leaf None | Node _ _ => TNone end.
  Definition get_second (x : tree L) (y : tree (option L)) : res (tree (option L)) :=
    if is_none x then Ok TNone else Ok y.
  Definition undummy (t : tree (option L)) : tree L :=
    match t with Leaf (Some a) => Leaf a | _ => TNone end.
  Definition flatten_like (st : fstate) (out like : tree L)
      : res (list (tree L) * list (tree L) * fstate) :=
    if negb (tdef_eqb (treedef is_none out) (treedef is_none like)) then Err AssertionError else
    spec <- tmap2 is_none make_spec out like ;;
    '(dynamic_out, static_out) <- eqx_partition is_none TNone out spec ;;
    st' <- fl_store st (treedef no_leaf dynamic_out) static_out ;;
    like2 <- tmap2 is_none get_second dynamic_out (tmap is_none replace_none like) ;;
    let flat_out := leaves no_leaf dynamic_out in
    let flat_like := map undummy (leaves no_leaf like2) in
    if negb (tdef_eqb (treedef no_leaf like2) (treedef no_leaf dynamic_out)) then Err AssertionError
    else if negb (Nat.eqb (length flat_out) (length flat_like)) then Err AssertionError
    else Ok (flat_out, flat_like, st').

  (** Lines 269-271: what [filter_primitive_bind] passes to the primitive. *)
  Definition pack_dynamic (args : tree L) : list (tree L) :=
    List.filter (on_leaf is_arr) (leaves no_leaf args).
  Definition pack_static (args : tree L) : list (option (tree L)) :=
    map (fun x => if on_leaf is_arr x then None else Some x) (leaves no_leaf args).

  (** Lines 148-159. *)
  Definition prim_def (rule : tree L -> res (tree L)) (dynamic : list (tree L)) (td : tree unit)
      (static : list (option (tree L))) (st : fstate) : res (list (tree L) * fstate) :=
    flat <- combine_flat dynamic static ;;
    args <- unflatten td flat ;;
    out <- rule args ;;
    flatten_call st out.

  (** Lines 259-275, evaluated directly with implementation rule [rule]. *)
  Definition unpack (st : fstate) (flat_out : list (tree L)) : res (tree L) :=
    match st with
    | None => Err AttributeError                      (* flatten.get() before it was called *)
    | Some (td, so) => dyn <- unflatten td flat_out ;; eqx_combine no_leaf [dyn; so]
    end.
  Definition prim_bind (rule : tree L -> res (tree L)) (args : tree L) : res (tree L) :=
    '(flat_out, st) <-
       prim_def rule (pack_dynamic args) (treedef no_leaf args) (pack_static args) None ;;
    unpack st flat_out.

  (** The same under tracing: the abstract evaluation rule [absrule] fixes the structure, JAX
      returns one tracer for each abstract output. *)
  Definition prim_bind_traced (absrule : tree L -> res (tree L)) (tracer : tree L -> L)
      (args : tree L) : res (tree L) :=
    '(flat_out, st) <-
       prim_def absrule (pack_dynamic args) (treedef no_leaf args) (pack_static args) None ;;
    unpack st (map (fun t => Leaf (tracer t)) flat_out).

  (** A tangent, cotangent or batch axis: a symbolic zero ([ad.Zero], [not_mapped]) or an object. *)
  Definition to_none (t : option L) : tree L := match t with None => TNone | Some a => Leaf a end.
  Definition from_none (t : tree L) : option L := match t with Leaf a => Some a | _ => None end.
  Definition none_static (static : list (option (tree L))) : list (option (tree L)) :=
    map (fun x => match x with None => None | Some _ => Some TNone end) static.

  (** Lines 162-185 and 233-256: the wrappers of JVP rules and of batching rules do the same
      to primals and tangents as to inputs and batch axes. *)
  Definition prim_jvp (rule : tree L -> tree L -> res (tree L * tree L))
      (primals : list (tree L)) (tangents : list (option L)) (td : tree unit)
      (static : list (option (tree L))) (st : fstate)
      : res (list (tree L) * list (option L) * fstate) :=
    p <- combine_flat primals static ;;
    ps <- unflatten td p ;;
    t <- combine_flat (map to_none tangents) (none_static static) ;;
    ts <- unflatten td t ;;
    '(po, to) <- rule ps ts ;;
    '(fp, ft, st') <- flatten_like st po to ;;
    Ok (fp, map from_none ft, st').

  (** Lines 191-230, for inputs some of which are undefined primals (already wrapped, line
      216), [td_out] being the structure of the outputs recorded by the forward pass. *)
  Definition prim_transpose (rule : tree L -> tree L -> res (tree L))
      (td_out : tree unit) (cts_out : list (option L))
      (dynamic : list (tree L)) (td : tree unit) (static : list (option (tree L)))
      : res (list (option L)) :=
    co <- unflatten td_out (map to_none cts_out) ;;
    flat <- combine_flat dynamic static ;;
    inputs <- unflatten td flat ;;
    cts <- rule inputs co ;;
    '(flat_inputs, flat_cts, _) <- flatten_like None inputs cts ;;
    if Nat.eqb (length dynamic) (length flat_cts) then Ok (map from_none flat_cts)
    else Err AssertionError.
End Prim.
