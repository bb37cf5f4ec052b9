(** What it means for two pytrees to be equal. *)
From Verif Require Export TreeEq_Model.

(** Two numbers are equal; NaN is not equal to anything. *)
Definition num_eq (x y : elem) : Prop :=
  match x, y with
  | EFin p, EFin q => (p == q)%Q
  | EInf a, EInf b => a = b
  | _, _ => False
  end.
(** [x] lies within the given tolerance of [y]. *)
Definition num_close (rtol atol : Q) (x y : elem) : Prop :=
  match x, y with
  | EFin p, EFin q => (Qabs (p - q) <= atol + rtol * Qabs q)%Q
  | EInf a, EInf b => a = b
  | _, _ => False
  end.

Section Spec.
  Variables (typematch : bool) (rtol atol : Q).

  (** Elementwise comparison: exact unless the array is floating and a tolerance is given. *)
  Definition values_agree (d : dtype) (x y : list elem) : Prop :=
    Forall2 (match d with DFloat _ => num_close rtol atol | _ => num_eq end) x y.

  Definition array_agree (a b : array) : Prop :=
    (typematch = true -> a_class a = a_class b) /\
    a_shape a = a_shape b /\ a_dtype a = a_dtype b /\
    values_agree (a_dtype a) (a_data a) (a_data b).

  Definition py_agree (t : nat) (v : pyval) (u : nat) (w : pyval) : Prop :=
    (typematch = true -> t = u) /\
    match v, w with
    | PNum x, PNum y => num_eq x y
    | PObj m, PObj n => m = n
    | _, _ => False
    end.

  Inductive same_tree : tree obj -> tree obj -> Prop :=
  | st_none : same_tree TNone TNone
  | st_arr : forall a b, array_agree a b -> same_tree (Leaf (OArr a)) (Leaf (OArr b))
  | st_py : forall t v u w, py_agree t v u w -> same_tree (Leaf (OPy t v)) (Leaf (OPy u w))
  | st_node : forall k cs ds, Forall2 same_tree cs ds -> same_tree (Node k cs) (Node k ds).
End Spec.

(** No NaN anywhere in the tree. *)
Definition leaf_nan_free (o : obj) : Prop :=
  match o with
  | OArr a => Forall (fun e => e <> ENaN) (a_data a)
  | OPy _ (PNum e) => e <> ENaN
  | OPy _ (PObj _) => True
  end.
Inductive nan_free : tree obj -> Prop :=
| nf_none : nan_free TNone
| nf_leaf : forall o, leaf_nan_free o -> nan_free (Leaf o)
| nf_node : forall k cs, Forall nan_free cs -> nan_free (Node k cs).

(** The tree holds an array that is a JAX array. *)
Inductive has_leaf (P : obj -> Prop) : tree obj -> Prop :=
| hl_leaf : forall o, P o -> has_leaf P (Leaf o)
| hl_node : forall k cs c, In c cs -> has_leaf P c -> has_leaf P (Node k cs).
Definition is_jax (o : obj) : Prop := match o with OArr a => a_class a = JaxArray | _ => False end.
