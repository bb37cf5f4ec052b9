(** Model of [nn.Shared] (equinox/nn/_shared.py lines 17-158) and [nn.inference_mode]
    (equinox/nn/_inference.py lines 7-74). *)
From Verif Require Export TreeAt_Spec.

(** [jtu.tree_map] of a function on leaf values. *)
Fixpoint lmap {A B} (f : A -> B) (t : tree A) : tree B :=
  match t with Leaf a => Leaf (f a) | TNone => TNone | Node k cs => Node k (map (lmap f) cs) end.

Section Shared.
  Context {A S : Type}.
  Variable aeq : A -> A -> bool.
  (** [SharedNode()], lines 10-14: an opaque object, hence a leaf. *)
  Variable shared_node : A.
  (** What [filter_eval_shape] keeps of a leaf (shape and dtype of arrays, everything of other
      objects), and its [==]. *)
  Variable struct : A -> S.
  Variable seqb : S -> S -> bool.

  (** [where] picks a tuple of positions; on an ordinary tree it returns what is there. *)
  Definition values_at (ps : list path) (t : tree A) : res (tree A) :=
    rmap (Node ktuple) (mapM (fun p => match sub t p with Some s => Ok s | None => Err AttributeError end) ps).

  (** [Shared.__init__], lines 87-146; returns [self.pytree]. Simplification: running [get] on
      abstract values gives the structure of what it returns on the actual ones. *)
  Definition shared_init (ps : list path) (get : tree A -> res (tree A)) (t : tree A) : res (tree A) :=
    source <- get t ;;
    dest <- values_at ps t ;;
    if negb (tree_eqb seqb (lmap struct source) (lmap struct dest)) then Err ValueError
    else tree_at aeq (by_value no_leaf) (where_many ps) t None (Some (fun _ => Ok (PLeaf shared_node))).

  (** [Shared.__call__], lines 148-158. *)
  Definition shared_call (ps : list path) (get : tree A -> res (tree A)) (s : tree A) : res (tree A) :=
    r <- get s ;; tree_at aeq (by_value no_leaf) (where_many ps) s (Some r) None.
End Shared.

Section Inference.
  Context {A : Type}.
  Variable aeq : A -> A -> bool.
  (** Which classes have an attribute [inference], and the index of the subnode that holds it. *)
  Variable attr : nat -> option nat.

  (** [hasattr(x, "inference")] and [x.inference]. *)
  Definition inference (x : pyobj A) : option (pyobj A) :=
    match x with
    | PNode _ k cs => match attr k with Some i => nth_error cs i | None => None end
    | _ => None
    end.
  Definition has_inference (x : pyobj A) : bool := match inference x with Some _ => true | None => false end.

  (** Line 12: the leaves satisfying [is_leaf] of a tree below which flattening stops there. *)
  Fixpoint top_level (x : pyobj A) : list (pyobj A) :=
    if has_inference x then [x] else
    match x with PNode _ _ cs => concat (map top_level cs) | _ => [] end.

  (** [_inferences], lines 7-17. At the root [is_leaf] is false ([x is not pytree]). [fuel]
      bounds the recursion depth; the depth of the tree is enough. *)
  Fixpoint inferences (fuel : nat) (x : pyobj A) : list (pyobj A) :=
    match fuel with
    | O => []
    | S fuel' =>
        match inference x with Some v => [v] | None => [] end ++
        concat (map (inferences fuel') (match x with PNode _ _ cs => concat (map top_level cs) | _ => [] end))
    end.
  Fixpoint depth (x : pyobj A) : nat :=
    match x with PNode _ _ cs => S (fold_right Nat.max 0 (map depth cs)) | _ => 1 end.

  (** [inference_mode], lines 20-74. *)
  Definition inference_mode (value : A) (t : tree A) : res (tree A) :=
    tree_at aeq (by_value no_leaf)
      (fun x => Ok (PNode (3, []) klist (inferences (depth x) x))) t None
      (Some (fun _ => Ok (PLeaf value))).
End Inference.
