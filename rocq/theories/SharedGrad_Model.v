(** Model of training a model with tied nodes: docs/faq.md lines 46-66, equinox/nn/_shared.py lines 60-158, with [filter_grad] around a loss that
    starts by calling the [Shared] layer. Composed of the model of [nn.Shared].

    - Arrays are numbers of a ring, with a tangent as under [jax.jvp]; an array of several numbers is a node. Other leaves have no tangent.
    - The derivative of the loss is given as [jax.jvp] computes it: a function of primals and tangents returning a tangent.
    - The optimiser is gradient descent. *)
From Verif Require Export Shared_Model.

Section SharedGrad.
  Context {R : Type}.
  Variables (zero : R) (add mul sub_ : R -> R -> R).

  Inductive dleaf := Dual (x dx : R) | Other (n : nat).
  (** The leaf without its tangent. *)
  Definition primal (a : dleaf) : dleaf := match a with Dual x _ => Dual x zero | Other n => Other n end.

  (** The loss of docs/faq.md and of the example in _shared.py lines 63-70: [embedding, linear = self.shared()] and so on. *)
  Definition tied_loss (aeq : dleaf -> dleaf -> bool) (ps : list path) (get : tree dleaf -> res (tree dleaf)) (loss : tree dleaf -> res R) (s : tree dleaf) : res R :=
    out <- shared_call aeq ps get s ;; loss out.

  (** A step of gradient descent, [apply_updates(model, -lr * grads)]: numbers are updated and nothing else (_update.py lines 9-34). *)
  Fixpoint descend (lr : R) (g : path -> R) (t : tree dleaf) : tree dleaf :=
    match t with
    | Leaf (Dual x dx) => Leaf (Dual (sub_ x (mul lr (g []))) dx)
    | Leaf (Other n) => Leaf (Other n)
    | TNone => TNone
    | Node k cs => Node k ((fix go (i : nat) (l : list (tree dleaf)) := match l with [] => [] | c :: l => descend lr (fun r => g (i :: r)) c :: go (S i) l end) 0 cs)
    end.
End SharedGrad.
Arguments dleaf R : clear implicits.
