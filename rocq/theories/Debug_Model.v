(** Model of backward_nan, announce_transform: equinox/debug/_backward_nan.py lines 19-71 and
    equinox/debug/_announce_transform.py lines 14-134.

    - [backward_nan] is built on [filter_custom_vjp] (Custom_Model). The arguments [name] and [terminate] are a tuple; [truthy] is the truth
      value of a Python object, [array_like] is [is_array_like], [has_nan a] is [jnp.isnan(a).any()]. Printing is left out. [error_if] raises
      RuntimeError if its predicate holds (property C33); [jnp.stack([])] raises ValueError.
    - [announce_transform]: JAX's handling of a primitive under [vmap] and [jvp] (outside /repo). A value under transforms, innermost first, is
      a value with an optional batch axis for each [vmap] and an optional tangent for each [jvp]; [None] is [ad.Zero]. JAX does not use
      the rules if no operand is batched, or none has a tangent. [jit] is only modelled
      outermost, where it replaces [impl] by [abstract] (tracing) and [mlir] (lowering). What is announced is a list of stacks, in order.
    - Reverse mode: JAX transposes the primitive that carries the tangents, calling the rule with the cotangents as a list and then one
      positional argument for each operand. [ad.Zero] cannot be given to a primitive. *)
From Verif Require Export Custom_Model.
From Coq Require Export String.
Local Open Scope nat_scope.
Local Open Scope list_scope.

Section BackwardNan.
  Context {L : Type}.
  Variables is_arr inexact jax_type array_like truthy has_nan : L -> bool.
  Notation T := (tree L).

  (** Lines 41-43. *)
  Definition bn_fn (x args kwargs : T) : res T := Ok x.
  (** Lines 59-71. *)
  Definition bn_bwd : @backward L := fun residuals grad_x perturbed x args kwargs =>
    match args with
    | Node _ [name; terminate] =>
        if match terminate with Leaf t => truthy t | TNone => false | Node _ cs => negb (Nat.eqb (List.length cs) 0) end then
          g <- eqx_filter no_leaf TNone false grad_x (Leaf (SCall (on_leaf array_like))) ;;
          let nans := map (fun s => match s with Leaf a => has_nan a | _ => false end) (leaves no_leaf g) in
          match nans with
          | [] => Err ValueError
          | _ => if existsb (fun b => b) nans then Err RuntimeError else Ok grad_x
          end
        else Ok grad_x
    | _ => Err TypeError
    end.
  (** Lines 46-49. The forward rule calls [backward_nan] again. *)
  Definition bn_fwd : @forward L := fun perturbed x args kwargs =>
    out <- custom_vjp_call is_arr inexact {| o_fwd := None; o_bwd := None; o_wrapped := true |} bn_fn x args kwargs ;;
    Ok (out, TNone).
  Definition bn_object : @vjp_obj L := def_bwd (def_fwd vjp_new bn_fwd) bn_bwd.
  (** Lines 19-38, not differentiated and differentiated. *)
  Definition backward_nan (x name terminate : T) : res T :=
    custom_vjp_call is_arr inexact bn_object bn_fn x (Node 0 [name; terminate]) (Node 0 []).
  Definition backward_nan_vjp (x name terminate : tree (L * bool)) : res (T * (tree (option L) -> res (tree (option L)))) :=
    custom_vjp_vjp is_arr inexact jax_type bn_object x (Node 0 [name; terminate]) (Node 0 []).
End BackwardNan.

Section Announce.
  Variable V : Type.
  Inductive kind := KVmap | KJvp.
  Inductive mark := Impl | Abstract | Mlir | Jvp | JvpP | JvpT | Vmap | Transpose.
  (** A value under transforms. *)
  Fixpoint traced (ks : list kind) : Type :=
    match ks with
    | [] => V
    | KVmap :: ks => (option nat * traced ks)%type
    | KJvp :: ks => (traced ks * option (traced ks))%type
    end.
  Definition announcements := list (list mark).
  (** [t_out], lines 95-97. *)
  Fixpoint refill {X Y} (ts : list (option X)) (outs : list Y) : res (list (option Y)) :=
    match ts, outs with
    | [], [] => Ok []
    | [], _ :: _ => Err AssertionError
    | None :: ts, _ => r <- refill ts outs ;; Ok (None :: r)
    | Some _ :: ts, o :: outs => r <- refill ts outs ;; Ok (Some o :: r)
    | Some _ :: _, [] => Err (OtherError 0)
    end.
  Fixpoint nonzero {X} (ts : list (option X)) : list X :=
    match ts with [] => [] | None :: ts => nonzero ts | Some t :: ts => t :: nonzero ts end.
  Variables jitted intermediates : bool.
  (** [announce_jaxpr_p.bind]: lines 61-72 and 120-124 ([_impl], [_abstract], [_mlir]), 75-98 ([_jvp]), 110-117 ([_batching]). *)
  Fixpoint bind_p (ks : list kind) : list mark -> list (traced ks) -> announcements * res (list (traced ks)) :=
    match ks return list mark -> list (traced ks) -> announcements * res (list (traced ks)) with
    | [] => fun stack xs =>
        ((if jitted then [stack ++ [Abstract]; stack ++ [Mlir]] else [stack ++ [Impl]]), Ok xs)
    | KVmap :: ks => fun stack xs =>
        if forallb (fun x => match fst x with None => true | _ => false end) xs then
          let '(a, out) := bind_p ks stack (map snd xs) in (a, rmap (map (fun x => (None, x))) out)
        else
        let stack := stack ++ [Vmap] in
        let '(a, out) := bind_p ks stack (map snd xs) in
        ((if intermediates then [stack] else []) ++ a, rmap (fun out => List.combine (map fst xs) out) out)
    | KJvp :: ks => fun stack xs =>
        if forallb (fun x => match snd x with None => true | _ => false end) xs then
          let '(a, out) := bind_p ks stack (map fst xs) in (a, rmap (map (fun x => (x, None))) out)
        else
        let '(a, p_out) := bind_p ks (stack ++ [JvpP]) (map fst xs) in
        let ts := map snd xs in
        let '(b, t_out) := match nonzero ts with [] => ([], Ok []) | _ => bind_p ks (stack ++ [JvpT]) (nonzero ts) end in
        ((if intermediates then [stack ++ [Jvp]] else []) ++ a ++ b,
         p_out <- p_out ;; t_out <- t_out ;; t_out <- refill ts t_out ;; Ok (List.combine p_out t_out))
    end.

  (** Lines 14-58: the arrays of a PyTree pass through the primitive. *)
  Inductive leaf ks := Array (x : traced ks) | Other (o : nat).
  Definition is_array {ks} (l : leaf ks) : bool := match l with Array _ _ => true | _ => false end.
  Definition announce_transform (ks : list kind) (x : tree (leaf ks)) : announcements * res (tree (leaf ks)) :=
    match eqx_partition no_leaf TNone x (Leaf (SCall (on_leaf is_array))) with
    | Err e => ([], Err e)
    | Ok (array, nonarray) =>
        let '(a, flat) := bind_p ks [] (flat_map (fun l => match l with Leaf (Array _ x) => [x] | _ => [] end) (leaves no_leaf array)) in
        (a, flat <- flat ;;
            array <- unflatten (treedef no_leaf array) (map (fun x => Leaf (Array ks x)) flat) ;;
            eqx_combine no_leaf [array; nonarray])
    end.

  (** Lines 101-107 ([_transpose]): [n] operands, [cts] the cotangents. *)
  Definition transpose_p (n : nat) (stack : list mark) (cts : list (option V)) : announcements * res (list (option V)) :=
    if negb (Nat.eqb n 1) then ([], Err TypeError) else
    let stack := stack ++ [Transpose] in
    let a := if intermediates then [stack] else [] in
    if existsb (fun c => match c with None => true | _ => false end) cts then (a, Err TypeError) else
    let '(b, out) := bind_p [] stack (nonzero cts) in
    (a ++ b, rmap (map Some) out).
  (** Reverse-mode differentiation with respect to the arrays marked [true]: primal outputs; and from cotangents of these, the
      cotangents of the marked arrays, if there are any. *)
  Definition grad_p (xs : list (V * bool)) (cts : list (option V)) : res (list (option V)) :=
    let marked := List.filter snd xs in
    match marked with
    | [] => Ok []
    | _ => snd (transpose_p (List.length marked) [JvpT] (map snd (List.filter (fun p => snd (fst p)) (List.combine xs cts))))
    end.
End Announce.
