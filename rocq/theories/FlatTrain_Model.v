(** Model of low-overhead training loops, docs/tricks.md lines 137-178: the loop carries the leaves of the model and of
    the optimiser's state; they are put back together inside the step, with the structures from before the loop.

    The step is an arbitrary function of the model, the optimiser's state and a batch. [filter_jit] is left out: C62 is
    that it does not change results. *)
From Verif Require Export Tree_Model.

Section FlatTrain.
  Context {L B : Type}.
  Notation T := (tree L).
  Variable step : T -> T -> B -> res (T * T).

  (** Lines 141-150: the usual loop. *)
  Fixpoint plain_loop (model opt_state : T) (data : list B) : res (T * T) :=
    match data with
    | [] => Ok (model, opt_state)
    | b :: data' => '(model', opt_state') <- step model opt_state b ;; plain_loop model' opt_state' data'
    end.

  (** Lines 159-166. *)
  Definition flat_step (treedef_model treedef_opt_state : tree unit) (flat_model flat_opt_state : list T) (b : B)
      : res (list T * list T) :=
    model <- unflatten treedef_model flat_model ;;
    opt_state <- unflatten treedef_opt_state flat_opt_state ;;
    '(update_model, update_opt_state) <- step model opt_state b ;;
    Ok (leaves no_leaf update_model, leaves no_leaf update_opt_state).
  (** Lines 173-174. *)
  Fixpoint flat_steps (treedef_model treedef_opt_state : tree unit) (flat_model flat_opt_state : list T) (data : list B)
      : res (list T * list T) :=
    match data with
    | [] => Ok (flat_model, flat_opt_state)
    | b :: data' =>
        '(flat_model', flat_opt_state') <- flat_step treedef_model treedef_opt_state flat_model flat_opt_state b ;;
        flat_steps treedef_model treedef_opt_state flat_model' flat_opt_state' data'
    end.
  (** Lines 168-175. *)
  Definition flat_loop (model opt_state : T) (data : list B) : res T :=
    '(flat_model, _) <- flat_steps (treedef no_leaf model) (treedef no_leaf opt_state)
                          (leaves no_leaf model) (leaves no_leaf opt_state) data ;;
    unflatten (treedef no_leaf model) flat_model.
End FlatTrain.
