(** What it means to replace the array leaves of a pytree, and to pair up two pytrees. *)
From Verif Require Export Prim_Model.

Section Spec.
  Context {L : Type}.

  (** [fills g h x vs y]: [y] is [x] with the leaves satisfying [g] replaced by the elements
      of [vs] in order and every other leaf [a] replaced by [h a]. *)
  Inductive fills (g : L -> bool) (h : L -> tree L) : tree L -> list (tree L) -> tree L -> Prop :=
  | fi_dyn : forall a v, g a = true -> fills g h (Leaf a) [v] v
  | fi_sta : forall a, g a = false -> fills g h (Leaf a) [] (h a)
  | fi_none : fills g h TNone [] TNone
  | fi_node : forall k cs vs ds, fills_list g h cs vs ds -> fills g h (Node k cs) vs (Node k ds)
  with fills_list (g : L -> bool) (h : L -> tree L)
      : list (tree L) -> list (tree L) -> list (tree L) -> Prop :=
  | fl_nil : fills_list g h [] [] []
  | fl_cons : forall c cs v vs d ds, fills g h c v d -> fills_list g h cs vs ds ->
      fills_list g h (c :: cs) (v ++ vs) (d :: ds).

  (** [pairs x y l]: [x] and [y] agree in structure, counting [None] as a leaf, and [l] lists
      what stands at corresponding positions. *)
  Inductive pairs : tree L -> tree L -> list (option L * option L) -> Prop :=
  | pr_leaf : forall x y a b, x = match a with Some u => Leaf u | None => TNone end ->
      y = match b with Some u => Leaf u | None => TNone end -> pairs x y [(a, b)]
  | pr_node : forall k cs ds l, pairs_list cs ds l -> pairs (Node k cs) (Node k ds) l
  with pairs_list : list (tree L) -> list (tree L) -> list (option L * option L) -> Prop :=
  | pl_nil : pairs_list [] [] []
  | pl_cons : forall c cs d ds l1 l2, pairs c d l1 -> pairs_list cs ds l2 ->
      pairs_list (c :: cs) (d :: ds) (l1 ++ l2).

  (** The pairs that are dynamic outputs: an array, or a value that has a tangent. *)
  Definition kept (g : L -> bool) (p : option L * option L) : bool :=
    match p with
    | (Some a, None) => g a
    | (Some _, Some _) => true
    | (None, _) => false
    end.
  Definition opt_tree (a : option L) : tree L := match a with Some u => Leaf u | None => TNone end.
End Spec.
Scheme fills_min := Minimality for fills Sort Prop
  with fills_list_min := Minimality for fills_list Sort Prop.
Combined Scheme fills_mut from fills_min, fills_list_min.
Scheme pairs_min := Minimality for pairs Sort Prop
  with pairs_list_min := Minimality for pairs_list Sort Prop.
Combined Scheme pairs_mut from pairs_min, pairs_list_min.
