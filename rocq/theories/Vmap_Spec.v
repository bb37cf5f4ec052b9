(** What filter_vmap promises. *)
From Verif Require Export Vmap_Model.
Local Open Scope nat_scope.

(** One axis or [None] per leaf: the structure of [t] with every leaf replaced. *)
Inductive leafwise {X} (g : gleaf X -> option Z) : tree (gleaf X) -> tree Z -> Prop :=
| LW_leaf l : leafwise g (Leaf l) (of_opt (g l))
| LW_none : leafwise g TNone TNone
| LW_node k cs xs : Forall2 (leafwise g) cs xs -> leafwise g (Node k cs) (Node k xs).
Inductive resolves {X} : tree (axis_spec X) -> tree (gleaf X) -> tree Z -> Prop :=
| RS_none t ax : leafwise (fun _ => None) t ax -> resolves TNone t ax
| RS_int z t ax : leafwise (fun _ => Some z) t ax -> resolves (Leaf (AInt z)) t ax
| RS_call g t ax : leafwise g t ax -> resolves (Leaf (ACall g)) t ax
| RS_node k ss cs xs : resolves_all ss cs xs -> resolves (Node k ss) (Node k cs) (Node k xs)
with resolves_all {X} : list (tree (axis_spec X)) -> list (tree (gleaf X)) -> list (tree Z) -> Prop :=
| RA_nil : resolves_all [] [] []
| RA_cons s c x ss cs xs : resolves s c x -> resolves_all ss cs xs -> resolves_all (s :: ss) (c :: cs) (x :: xs).

Section Spec.
  Variable V : Type.
  Variable asize : V -> Z -> res nat.
  Variable atake : V -> Z -> nat -> V.
  Variable astack : list V -> V.
  Variable amove : V -> Z -> res V.
  Variable of_num : Z -> V.
  (** Arrays of one shape. *)
  Variable uniform : list V -> Prop.
  Definition array_laws : Prop :=
    (forall l i a, uniform l -> nth_error l i = Some a -> atake (astack l) 0%Z i = a) /\
    (forall a n, uniform (repeat a n)) /\
    (forall a z n, asize a z = Ok n -> uniform (map (atake a z) (seq 0 n))) /\
    (forall l z b i, uniform l -> i < length l -> amove (astack l) z = Ok b -> atake b z i = atake (astack l) 0%Z i).

  (** A stack has as many elements, along its new axis, as were stacked. *)
  Definition size_law : Prop := forall l z b, uniform l -> amove (astack l) z = Ok b -> asize b z = Ok (length l).

  (** Element [i] of a batch. *)
  Definition elem (i : nat) (x : bat V) (a : V) : Prop := match x with Unb b => a = b | Bat l => nth_error l i = Some a end.
  Definition elem_leaf (i : nat) (x : gleaf (bat V)) (y : gleaf V) : Prop :=
    match x, y with Arr b, Arr a => elem i b a | Num z, Num z' => z = z' | Obj n, Obj n' => n = n' | _, _ => False end.
  Inductive elem_tree (i : nat) : tree (gleaf (bat V)) -> tree (gleaf V) -> Prop :=
  | ET_leaf x y : elem_leaf i x y -> elem_tree i (Leaf x) (Leaf y)
  | ET_none : elem_tree i TNone TNone
  | ET_node k xs ys : Forall2 (elem_tree i) xs ys -> elem_tree i (Node k xs) (Node k ys).
  (** All batches have [n] elements of one shape. *)
  Inductive batched (n : nat) : tree (gleaf (bat V)) -> Prop :=
  | BT_leaf x : (forall l, x = Arr (Bat l) -> length l = n /\ uniform l) -> batched n (Leaf x)
  | BT_none : batched n TNone
  | BT_node k xs : Forall (batched n) xs -> batched n (Node k xs).
  (** [fn] is what JAX makes of [fc] on tracers: element by element it computes [fc]. *)
  Definition traces (fn : tree (gleaf (bat V)) -> res (tree (gleaf (bat V)))) (fc : tree (gleaf V) -> res (tree (gleaf V))) : Prop :=
    forall n t o, batched n t -> fn t = Ok o -> batched n o /\
      forall i t', i < n -> elem_tree i t t' -> exists o', fc t' = Ok o' /\ elem_tree i o o'.

  (** Slice [i] of every mapped leaf. For outputs ([o = true]) a Python scalar returned with an axis becomes an array. *)
  Inductive slice (o : bool) (i : nat) : tree Z -> tree (gleaf V) -> tree (gleaf V) -> Prop :=
  | SC_map z a : slice o i (Leaf z) (Leaf (Arr a)) (Leaf (Arr (atake a z i)))
  | SC_keep l : slice o i TNone (Leaf l) (Leaf l)
  | SC_num z a k : o = true -> atake a z i = of_num k -> slice o i (Leaf z) (Leaf (Arr a)) (Leaf (Num k))
  | SC_none : slice o i TNone TNone TNone
  | SC_node k xs cs ds : slices o i xs cs ds -> slice o i (Node k xs) (Node k cs) (Node k ds)
  with slices (o : bool) (i : nat) : list (tree Z) -> list (tree (gleaf V)) -> list (tree (gleaf V)) -> Prop :=
  | SC_nil : slices o i [] [] []
  | SC_cons x c d xs cs ds : slice o i x c d -> slices o i xs cs ds -> slices o i (x :: xs) (c :: cs) (d :: ds).
  (** Every mapped leaf is an array of size [n] along its axis. *)
  Inductive sizes_are (n : nat) : tree Z -> tree (gleaf V) -> Prop :=
  | SZ_map z a : asize a z = Ok n -> sizes_are n (Leaf z) (Leaf (Arr a))
  | SZ_keep l : sizes_are n TNone (Leaf l)
  | SZ_none : sizes_are n TNone TNone
  | SZ_node k xs cs : Forall2 (sizes_are n) xs cs -> sizes_are n (Node k xs) (Node k cs).
End Spec.
