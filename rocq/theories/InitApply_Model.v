(** Model of the compatibility with init/apply libraries: examples/init_apply.ipynb ([make_mlp], of any model), and a training loop such a library
    may run: it knows the parameters and [apply_fn] only, differentiates with respect to all parameters and adds updates to all of them.
    Composed of the models of [partition], [combine] and of training. *)
From Verif Require Export Train_Model.

Section InitApply.
  Context {L St : Type}.
  Variable inexact : L -> bool.
  Notation T := (tree L).
  Variable VG : bool -> (list T -> res T) -> list T -> res (T * list T).
  Variable opt : list T -> St -> option (list T) -> res (list T * St).
  Variable add : T -> T -> res T.
  Variable kwargs : T.

  (** [params, static = eqx.partition(mlp, eqx.is_inexact_array)] and the two functions. *)
  Definition make_model (call : T -> T -> res T) (model : T) : res (res T * (T -> T -> res T)) :=
    '(params, static) <- eqx_partition no_leaf TNone model (Leaf (SCall (on_leaf inexact))) ;;
    Ok (Ok params, fun p x => m <- eqx_combine no_leaf [p; static] ;; call m x).
  (** [jax.tree_util.tree_map(f, params)] *)
  Definition tree_map (f : L -> L) (params : T) : T := tmap no_leaf (fun s => match s with Leaf a => Leaf (f a) | _ => s end) params.

  (** [jax.value_and_grad] of the loss of [apply_fn], an update of the optimiser and [tree_map(lambda p, u: p + u, params, updates)]. *)
  Definition apply_step (apply_fn : T -> T -> res T) (given : bool) (params : T) (s : St) (batch : list T) : res (T * St * T) :=
    '(v, grads) <- jax_value_and_grad VG false (fun p => apply_fn p (Node 0 [Node 0 batch; kwargs])) params ;;
    '(updates, s') <- opt_update opt grads s (if given then Some params else None) ;;
    params' <- tmap2 no_leaf add params updates ;;
    Ok (params', s', v).
  Fixpoint apply_train (apply_fn : T -> T -> res T) (given : bool) (params : T) (s : St) (data : list (list T)) : res (T * St * list T) :=
    match data with
    | [] => Ok (params, s, [])
    | b :: data' =>
        '(p1, s1, v) <- apply_step apply_fn given params s b ;;
        '(p2, s2, vs) <- apply_train apply_fn given p1 s1 data' ;;
        Ok (p2, s2, v :: vs)
    end.
End InitApply.
