(** Model of the model surgery of docs/tricks.md lines 20-100: new weights for every linear layer of a model, and weights
    that are wrapped in a [Symmetric] and resolved before the model is called. Composed of the model of [tree_at]
    (equinox/_tree.py).

    - [is_lin] tells the kinds of nodes that are instances of [Linear] (one for each combination of static fields); its
      weight is the child number [w]. [sym] is the kind of [Symmetric], whose one child is [matrix].
    - [init_fn], [jax.random.split] and [Symmetric.get] are arbitrary functions. *)
From Verif Require Export TreeAt_Model.

Section Surgery.
  Context {A K : Type}.
  Variable aeq : A -> A -> bool.
  Variable is_lin : nat -> bool.
  Variable w : nat.

  (** [isinstance(x, eqx.nn.Linear)] *)
  Definition is_linear (x : pyobj A) : bool := match x with PNode _ k _ => is_lin k | _ => false end.
  (** [x.weight] *)
  Definition weight (x : pyobj A) : res (pyobj A) :=
    match x with
    | PNode _ _ cs => match nth_error cs w with Some c => Ok c | None => Err AttributeError end
    | _ => Err AttributeError
    end.
  (** Lines 41-43 and 89-91. *)
  Definition get_weights (m : pyobj A) : res (pyobj A) :=
    rmap (PNode (3, []) klist) (mapM weight (List.filter is_linear (pleaves is_linear m))).
  (** Line 44: on the model itself. *)
  Definition weights (model : tree A) : res (list (tree A)) :=
    ws <- get_weights (embed model) ;; rmap (map erase) (seq_items ws).

  Variable split : K -> nat -> list K.
  (** Lines 39-48. *)
  Definition init_linear_weight (init_fn : tree A -> K -> res (tree A)) (model : tree A) (key : K) : res (tree A) :=
    ws <- weights model ;;
    new_weights <- mapM (fun wk => init_fn (fst wk) (snd wk)) (List.combine ws (split key (length ws))) ;;
    tree_at aeq (fun _ => false) get_weights model (Some (Node klist new_weights)) None.

  Variable sym : nat.
  (** Line 92: [replace_fn=Symmetric]. The wrapped value matters, not its identity. *)
  Definition symmetric_model (model : tree A) : res (tree A) :=
    tree_at aeq (fun _ => false) get_weights model None (Some (fun x => Ok (PNode (4, []) sym [embed (erase x)]))).
  (** Lines 73-83. *)
  Definition is_symmetric (x : tree A) : bool := match x with Node k _ => Nat.eqb k sym | _ => false end.
  Definition maybe_symmetric (get : tree A -> tree A) (x : tree A) : tree A :=
    match x with Node k [m] => if Nat.eqb k sym then get m else x | _ => x end.
  Definition resolve_symmetric (get : tree A -> tree A) (model : tree A) : tree A :=
    tmap is_symmetric (maybe_symmetric get) model.
End Surgery.
