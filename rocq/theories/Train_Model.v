(** Model of the training loops of the documentation: examples/mnist.ipynb lines 580-600, examples/stateful.ipynb
    lines 97-114, examples/frozen_layer.ipynb lines 99-129, docs/faq.md lines 5-18; composed of the models of
    [filter_value_and_grad], [filter_grad], [filter], [partition], [combine] and [apply_updates].

    The optimiser is Optax's, not part of the repository: it maps over the leaves of the gradients (and, if it is
    given the parameters, over those, which must have the same structure), so it is an arbitrary function [opt] on
    lists of leaves with a state of an arbitrary type. Initialising it is choosing that state. The loops of the
    documentation are wrapped in [filter_jit], which is left out here: C62 is that it does not change results. *)
From Verif Require Export Ad_Model.

Section Train.
  Context {L St : Type}.
  Variable inexact : L -> bool.
  Notation T := (tree L).
  Variable VG : bool -> (list T -> res T) -> list T -> res (T * list T).
  Variable opt : list T -> St -> option (list T) -> res (list T * St).
  Variable add : T -> T -> res T.
  Variable kwargs : T.

  (** [optim.update(grads, opt_state, params)] *)
  Definition opt_update (grads : T) (s : St) (params : option T) : res (T * St) :=
    if match params with None => true | Some p => tdef_eqb (treedef no_leaf grads) (treedef no_leaf p) end then
      '(us, s') <- opt (leaves no_leaf grads) s (option_map (leaves no_leaf) params) ;;
      u <- unflatten (treedef no_leaf grads) us ;;
      Ok (u, s')
    else Err ValueError.

  (** The parameters passed to the optimiser: none (stateful.ipynb line 111), or [eqx.filter(model, g)]
      (mnist.ipynb line 598). *)
  Definition params_of (g : option (L -> bool)) (model : T) : res (option T) :=
    match g with
    | None => Ok None
    | Some g => rmap Some (eqx_filter no_leaf TNone false model (Leaf (SCall (on_leaf g))))
    end.

  (** mnist.ipynb lines 590-601. *)
  Definition make_step (loss : T -> T -> res T) (g : option (L -> bool)) (model : T) (s : St) (batch : list T)
      : res (T * St * T) :=
    '(v, grads) <- filter_value_and_grad inexact VG false loss (model :: batch) kwargs ;;
    params <- params_of g model ;;
    '(updates, s') <- opt_update grads s params ;;
    model' <- apply_updates add model updates ;;
    Ok (model', s', v).
  Fixpoint train (loss : T -> T -> res T) (g : option (L -> bool)) (model : T) (s : St) (data : list (list T))
      : res (T * St * list T) :=
    match data with
    | [] => Ok (model, s, [])
    | b :: data' =>
        '(m1, s1, v) <- make_step loss g model s b ;;
        '(m2, s2, vs) <- train loss g m1 s1 data' ;;
        Ok (m2, s2, v :: vs)
    end.

  (** stateful.ipynb lines 108-113: the loss also returns the new state of the layers. *)
  Definition stateful_step (loss : T -> T -> res T) (model state : T) (s : St) (batch : list T)
      : res (T * T * St) :=
    r <- filter_grad inexact VG true loss (model :: state :: batch) kwargs ;;
    match r with
    | Node _ [grads; state'] =>
        '(updates, s') <- opt_update grads s None ;;
        model' <- apply_updates add model updates ;;
        Ok (model', state', s')
    | _ => Err ValueError
    end.
  Fixpoint stateful_train (loss : T -> T -> res T) (model state : T) (s : St) (data : list (list T))
      : res (T * T * St) :=
    match data with
    | [] => Ok (model, state, s)
    | b :: data' =>
        '(m1, st1, s1) <- stateful_step loss model state s b ;;
        stateful_train loss m1 st1 s1 data'
    end.

  (** frozen_layer.ipynb lines 108-119: the loss combines its first two arguments; only the first is
      differentiated. *)
  Definition frozen_loss (loss : T -> T -> res T) (diff_model : T) (rest : T) : res T :=
    match rest with
    | Node j [Node k (static_model :: batch); kw] =>
        model <- eqx_combine no_leaf [diff_model; static_model] ;;
        loss model (Node j [Node k batch; kw])
    | _ => Err TypeError
    end.
  Definition frozen_step (loss : T -> T -> res T) (spec : tree (spec_leaf L)) (model : T) (s : St) (batch : list T)
      : res (T * St) :=
    '(diff_model, static_model) <- eqx_partition no_leaf TNone model spec ;;
    grads <- filter_grad inexact VG false (frozen_loss loss) (diff_model :: static_model :: batch) kwargs ;;
    '(updates, s') <- opt_update grads s None ;;
    model' <- apply_updates add model updates ;;
    Ok (model', s').
  Fixpoint frozen_train (loss : T -> T -> res T) (spec : tree (spec_leaf L)) (model : T) (s : St)
      (data : list (list T)) : res (T * St) :=
    match data with
    | [] => Ok (model, s)
    | b :: data' => '(m1, s1) <- frozen_step loss spec model s b ;; frozen_train loss spec m1 s1 data'
    end.
End Train.
