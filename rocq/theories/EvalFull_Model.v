(** Model of [eval_empty], [eval_zero] and [eval_full] (equinox/internal/_misc.py lines 61-73).

    - [fill s] is [jnp.full(x.shape, fill_value, x.dtype)], [jnp.zeros] or [jnp.empty] for a struct [x] of
      abstract value [s]; it does not look at the weak type.
    - Leaves that are neither arrays nor structs have no attribute [shape]. *)
From Verif Require Export Closure_Model.

Section EvalFull.
  Context {L S : Type}.
  Variables is_arr is_sds : L -> bool.
  Variable struct : L -> S.
  Variable sds : S -> L.
  Variable strip : S -> S.
  Variable trace : @flat_fn L -> list S -> res (@jaxpr L * list S * @pydata L).
  Variable fill : S -> L.
  Notation T := (tree L).

  (** [jtu.tree_map] of a function that may raise. *)
  Fixpoint tree_mapM (f : L -> res L) (t : T) : res T :=
    match t with
    | Leaf a => rmap Leaf (f a)
    | TNone => Ok TNone
    | Node k cs => rmap (Node k) (mapM (tree_mapM f) cs)
    end.
  (** Lines 62-63, 67-68 and 72-73. *)
  Definition eval_full (call : T -> T -> T -> res T) (fn args kwargs : T) : res T :=
    out <- eval_shape is_arr is_sds struct sds trace call fn args kwargs ;;
    tree_mapM (fun a => if is_struct is_arr is_sds a then Ok (fill (strip (struct a))) else Err AttributeError) out.
End EvalFull.
