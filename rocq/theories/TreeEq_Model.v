(** Model of [tree_equal]: equinox/_tree.py lines 264-349.

    Leaves are Python objects: NumPy arrays, NumPy scalars, JAX arrays (concrete, i.e. not
    tracers) or other Python values. Array elements are NaN, an infinity or a rational;
    complex arrays are not modelled. *)
From Coq Require Export QArith Qabs.
From Verif Require Export Tree_Model.
Open Scope nat_scope.

(** Equality of pytrees with a given equality on leaves; on [tree unit] this is the
    [==] of two treedefs. *)
Fixpoint tree_eqb {A} (eqb : A -> A -> bool) (t u : tree A) : bool :=
  match t, u with
  | Leaf a, Leaf b => eqb a b
  | TNone, TNone => true
  | Node k cs, Node k' ds =>
      Nat.eqb k k' &&
      (fix go (l r : list (tree A)) : bool :=
         match l, r with
         | [], [] => true
         | x :: l', y :: r' => tree_eqb eqb x y && go l' r'
         | _, _ => false
         end) cs ds
  | _, _ => false
  end.
Definition treedef_eqb : tree unit -> tree unit -> bool := tree_eqb (fun _ _ => true).

(** Floating point numbers: NaN, signed infinity, or a finite number. *)
Inductive elem := ENaN | EInf (neg : bool) | EFin (q : Q).
(** IEEE [==]. *)
Definition elem_eqb (x y : elem) : bool :=
  match x, y with
  | EInf a, EInf b => Bool.eqb a b
  | EFin p, EFin q => Qeq_bool p q
  | _, _ => false
  end.
(** [isclose]: [|x - y| <= atol + rtol * |y|] for finite arguments, equality for
    infinities, false on NaN. *)
Definition elem_close (rtol atol : Q) (x y : elem) : bool :=
  match x, y with
  | EFin p, EFin q => Qle_bool (Qabs (p - q)) (atol + rtol * Qabs q)
  | EInf a, EInf b => Bool.eqb a b
  | _, _ => false
  end.

Inductive dtype := DBool | DInt (bits : nat) | DUInt (bits : nat) | DFloat (bits : nat).
Definition dtype_eqb (x y : dtype) : bool :=
  match x, y with
  | DBool, DBool => true
  | DInt m, DInt n | DUInt m, DUInt n | DFloat m, DFloat n => Nat.eqb m n
  | _, _ => false
  end.
(** [npi.issubdtype(x.dtype, npi.inexact)]. *)
Definition inexact (d : dtype) : bool := match d with DFloat _ => true | _ => false end.

(** The class of an array: [np.ndarray], [np.generic], or [jax.Array]. *)
Inductive array_class := NpArray | NpScalar | JaxArray.
Record array := { a_class : array_class; a_shape : list nat; a_dtype : dtype; a_data : list elem }.

(** A leaf: an array, or any other Python object of type [ty]. Python's [==] on the latter
    ignores the type ([1 == True == 1.0]) and is IEEE equality on numbers. *)
Inductive pyval := PNum (e : elem) | PObj (n : nat).
Inductive obj := OArr (a : array) | OPy (ty : nat) (v : pyval).
Definition pyval_eqb (x y : pyval) : bool :=
  match x, y with
  | PNum a, PNum b => elem_eqb a b
  | PObj m, PObj n => Nat.eqb m n
  | _, _ => false
  end.

Definition is_numpy (x : obj) : bool :=
  match x with OArr a => match a_class a with JaxArray => false | _ => true end | _ => false end.
(** equinox/_filters.py lines 18-20. *)
Definition is_array (x : obj) : bool := match x with OArr _ => true | _ => false end.
Definition class_eqb (x y : array_class) : bool :=
  match x, y with
  | NpArray, NpArray | NpScalar, NpScalar | JaxArray, JaxArray => true | _, _ => false
  end.
(** [type(elem) == type(elem_)] *)
Definition same_type (x y : obj) : bool :=
  match x, y with
  | OArr a, OArr b => class_eqb (a_class a) (a_class b)
  | OPy t _, OPy u _ => Nat.eqb t u
  | _, _ => false
  end.

Fixpoint list_eqb {A} (eqb : A -> A -> bool) (l r : list A) : bool :=
  match l, r with
  | [], [] => true
  | x :: l', y :: r' => eqb x y && list_eqb eqb l' r'
  | _, _ => false
  end.
Definition shape_eqb : list nat -> list nat -> bool := list_eqb Nat.eqb.

(** A tolerance: a Python number, or something else (e.g. a zero-dimensional array). *)
Inductive tol := TolPy (q : Q) | TolArr (q : Q).
Definition tol_val (t : tol) : Q := match t with TolPy q | TolArr q => q end.
Definition py_zero (t : tol) : bool := match t with TolPy q => Qeq_bool q 0 | TolArr _ => false end.

(** [_array_equal]: lines 264-274. The dtypes agree whenever it is called. *)
Definition array_equal (rtol atol : tol) (x y : array) : bool :=
  if (py_zero rtol && py_zero atol) || negb (inexact (a_dtype x))
  then list_eqb elem_eqb (a_data x) (a_data y)
  else list_eqb (elem_close (tol_val rtol) (tol_val atol)) (a_data x) (a_data y).

(** What is returned: the Python object [True]/[False], or a zero-dimensional JAX array. *)
Inductive outcome := RPy (b : bool) | RArr (b : bool).
Definition truth (r : outcome) : bool := match r with RPy b | RArr b => b end.
(** [traced_out & <JAX bool>] *)
Definition and_arr (r : outcome) (b : bool) : outcome := RArr (truth r && b).

(** The inner loop of [tree_equal]: lines 325-348. [None] is the early [return False]. *)
Section Equal.
  Variables (typematch : bool) (rtol atol : tol).

  Fixpoint equal_leaves (acc : outcome) (l r : list obj) : option outcome :=
    match l, r with
    | x :: l', y :: r' =>
        if typematch && negb (same_type x y) then None else
        match x, y with
        | OArr a, OArr b =>
            if is_numpy x && is_numpy y then
              if negb (shape_eqb (a_shape a) (a_shape b)) || negb (dtype_eqb (a_dtype a) (a_dtype b))
                 || negb (array_equal rtol atol a b)
              then None else equal_leaves acc l' r'
            else
              if negb (shape_eqb (a_shape a) (a_shape b)) || negb (dtype_eqb (a_dtype a) (a_dtype b))
              then None else equal_leaves (and_arr acc (array_equal rtol atol a b)) l' r'
        | OArr _, OPy _ _ => None
        | OPy _ _, OArr _ => None
        | OPy _ v, OPy _ w => if pyval_eqb v w then equal_leaves acc l' r' else None
        end
    | _, _ => Some acc   (* [zip] stops; the lengths agree by the assertion on line 324 *)
    end.

  Definition objs (t : tree obj) : list obj :=
    flat_map (fun u => match u with Leaf a => [a] | _ => [] end) (leaves no_leaf t).

  (** The outer loop: lines 319-349. *)
  Fixpoint equal_rest (acc : outcome) (t : tree obj) (ts : list (tree obj)) : outcome :=
    match ts with
    | [] => acc
    | u :: ts' =>
        if negb (treedef_eqb (treedef no_leaf u) (treedef no_leaf t)) then RPy false else
        match equal_leaves acc (objs t) (objs u) with
        | None => RPy false
        | Some acc' => equal_rest acc' t ts'
        end
    end.

  (** [tree_equal( *pytrees )]: line 317 raises [IndexError] without arguments. *)
  Definition tree_equal (ts : list (tree obj)) : res outcome :=
    match ts with
    | [] => Err IndexError
    | t :: ts' => Ok (equal_rest (RPy true) t ts')
    end.
End Equal.
