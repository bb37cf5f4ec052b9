(** Model of gradients through wrapped parameters: docs/tricks.md lines 57-101, [filter_grad] around a loss that starts by resolving the wrappers of
    its model. Composed of the models of this surgery and of gradients of trees.

    - As for tied nodes: arrays are numbers with a tangent, an array of several numbers is a node, and the derivative of the loss is given as
      [jax.jvp] computes it.
    - A matrix is a node of rows, each a node of numbers. *)
From Verif Require Export SharedGrad_Model Surgery_Model.

Section WrapGrad.
  Context {R : Type}.
  Variables (zero : R) (add mul : R -> R -> R).

  (** Lines 94-99: [model = resolve_symmetric(model)], then the loss. *)
  Definition resolved_loss (sym : nat) (get : tree (dleaf R) -> tree (dleaf R)) (loss : tree (dleaf R) -> res R) (model : tree (dleaf R)) : res R :=
    loss (resolve_symmetric sym get model).

  (** "A particular parameter not to receive gradient updates" (line 59): [jax.lax.stop_gradient(self.matrix)]. *)
  Definition get_stopped (m : tree (dleaf R)) : tree (dleaf R) := lmap (primal zero) m.

  Variable half : R.
  (** Line 69: [0.5 * (self.matrix + self.matrix.T)]. *)
  Definition mean (a b : dleaf R) : dleaf R :=
    match a, b with Dual x dx, Dual y dy => Dual (mul half (add x y)) (mul half (add dx dy)) | _, _ => a end.
  (** [m.T[i, j]] *)
  Definition transposed (m : tree (dleaf R)) (i j : nat) : option (tree (dleaf R)) :=
    match m with Node _ rows => match nth_error rows j with Some (Node _ xs) => nth_error xs i | _ => None end | _ => None end.
  Definition get_symmetric (m : tree (dleaf R)) : tree (dleaf R) :=
    match m with
    | Node k rows =>
        Node k (mapi (fun i row =>
          match row with
          | Node kr xs => Node kr (mapi (fun j x => match x, transposed m i j with Leaf a, Some (Leaf b) => Leaf (mean a b) | _, _ => x end) 0 xs)
          | _ => row
          end) 0 rows)
    | _ => m
    end.
End WrapGrad.
