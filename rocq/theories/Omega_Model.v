(** Model of equinox/internal/_omega.py.

    Simplifications: an object is a pytree ([Tree_Model]), so that an operator applied to a
    non-leaf (because of [is_leaf]) is an operator on trees; [operator.add] and so on are
    arbitrary partial functions of two objects. *)
From Verif Require Export Tree_Model.

(** The operators of lines 136-167 (without the reversed forms). *)
Inductive bop :=
| OAdd | OSub | OMul | OMatmul | OTruediv | OFloordiv | OMod | OPow
| OLshift | ORshift | OAnd | OXor | OOr
| OLt | OLe | OEq | ONe | OGt | OGe.
(** Lines 173-176. *)
Inductive uop := UNeg | UPos | UAbs | UInvert.
(** Methods: [__op__] and [__rop__]. *)
Inductive meth := M (o : bop) | MR (o : bop).
Definition bop_code (o : bop) : nat :=
  match o with
  | OAdd => 0 | OSub => 1 | OMul => 2 | OMatmul => 3 | OTruediv => 4 | OFloordiv => 5 | OMod => 6
  | OPow => 7 | OLshift => 8 | ORshift => 9 | OAnd => 10 | OXor => 11 | OOr => 12 | OLt => 13
  | OLe => 14 | OEq => 15 | ONe => 16 | OGt => 17 | OGe => 18
  end.
Definition meth_eqb (a b : meth) : bool :=
  match a, b with
  | M o, M p => Nat.eqb (bop_code o) (bop_code p)
  | MR o, MR p => Nat.eqb (bop_code o) (bop_code p)
  | _, _ => false
  end.

Section Omega.
  Context {A : Type}.
  Variable operator : bop -> tree A -> tree A -> res (tree A).
  Variable operator1 : uop -> tree A -> res (tree A).
  (** [x[item]] and [x.at[item].set(z)] and so on, the updates being numbered as in lines
      229-235. *)
  Variable getitem : nat -> tree A -> res (tree A).
  Variable at_op : nat -> nat -> tree A -> tree A -> res (tree A).   (* which, item, x, z *)

  (** The [is_leaf] argument: [None], a Python function (bytecode and behaviour), or another
      callable object, which has no [__code__]. *)
  Inductive isleaf :=
  | ILNone
  | ILFun (code : nat) (f : tree A -> bool)
  | ILObj (f : tree A -> bool).
  Definition isl_fn (i : isleaf) : tree A -> bool :=
    match i with ILNone => no_leaf | ILFun _ f => f | ILObj f => f end.

  (** Lines 77-89. Without [__code__] both getattr calls give a sentinel; it is the same
      object for the two functions. *)
  Definition equal_code (f g : isleaf) : bool :=
    match f, g with
    | ILFun c _, ILFun d _ => Nat.eqb c d
    | ILFun _ _, _ | _, ILFun _ _ => false
    | _, _ => true
    end.

  (** Operands: a wrapped pytree; a bool, complex, float, int or jax.Array; anything else. *)
  Inductive operand :=
  | Om (value : tree A) (il : isleaf)
  | Scalar (x : tree A)
  | Other (x : tree A).

  (** [jtu.tree_map(f, t, is_leaf=...)] for an [f] that may raise. *)
  Definition tree_map1 (il : isleaf) (f : tree A -> res (tree A)) (t : tree A) : res (tree A) :=
    tmapn (B := A) (isl_fn il) (fun x _ => f x) t [].

  Fixpoint def_eqb (d e : tree unit) : bool :=
    match d, e with
    | Leaf _, Leaf _ => true
    | TNone, TNone => true
    | Node k ds, Node l es =>
        Nat.eqb k l &&
        (fix go ds es := match ds, es with
                         | [], [] => true
                         | d :: ds', e :: es' => def_eqb d e && go ds' es'
                         | _, _ => false
                         end) ds es
    | _, _ => false
    end.

  (** Lines 92-109 ([_set_binary]). *)
  Definition binary (op : tree A -> tree A -> res (tree A)) (self : tree A) (il : isleaf)
      (other : operand) : res operand :=
    match other with
    | Om v il' =>
        if negb (def_eqb (treedef no_leaf self) (treedef no_leaf v)) then Err ValueError
        else if negb (equal_code il il') then Err ValueError
        else rmap (fun r => Om r il) (tmap2 (isl_fn il) op self v)
    | Scalar x => rmap (fun r => Om r il) (tree_map1 il (fun y => op y x) self)
    | Other _ => Err RuntimeError
    end.

  (** Lines 128-132. *)
  Definition rev_op (op : tree A -> tree A -> res (tree A)) (x y : tree A) : res (tree A) := op y x.

  (** Lines 135-169. *)
  Definition methods : list (meth * (tree A -> tree A -> res (tree A))) :=
    [ (M OAdd, operator OAdd); (M OSub, operator OSub); (M OMul, operator OMul);
      (M OMatmul, operator OMatmul); (M OTruediv, operator OTruediv);
      (M OFloordiv, operator OFloordiv); (M OMod, operator OMod); (M OPow, operator OPow);
      (M OLshift, operator OLshift); (M ORshift, operator ORshift); (M OAnd, operator OAnd);
      (M OXor, operator OXor); (M OOr, operator OOr);
      (MR OAdd, rev_op (operator OAdd)); (MR OSub, rev_op (operator OSub));
      (MR OMul, rev_op (operator OMul)); (MR OMatmul, rev_op (operator OMatmul));
      (MR OTruediv, rev_op (operator OTruediv)); (MR OFloordiv, rev_op (operator OFloordiv));
      (MR OMod, rev_op (operator OMod)); (MR OPow, rev_op (operator OPow));
      (MR OLshift, rev_op (operator OLshift)); (MR ORshift, rev_op (operator ORshift));
      (MR OAnd, rev_op (operator OAnd)); (MR OXor, rev_op (operator OXor));
      (MR OOr, rev_op (operator OOr));
      (M OLt, operator OLt); (M OLe, operator OLe); (M OEq, operator OEq);
      (M ONe, operator ONe); (M OGt, operator OGt); (M OGe, operator OGe) ].

  Fixpoint find_method (m : meth) (l : list (meth * (tree A -> tree A -> res (tree A))))
      : option (tree A -> tree A -> res (tree A)) :=
    match l with
    | [] => None
    | (m', f) :: l' => if meth_eqb m m' then Some f else find_method m l'
    end.

  Definition call_method (m : meth) (self : tree A) (il : isleaf) (other : operand) : res operand :=
    match find_method m methods with
    | Some f => binary f self il other
    | None => Err TypeError
    end.

  (** Python's protocol: [x OP y] is [x.__op__(y)]; a scalar on the left does not know omega
      and leaves it to the reflected method of the right operand, which is [__rop__] for
      arithmetic and the mirror image for comparisons. Two operands neither of which is
      wrapped are not our concern ([TypeError] here). *)
  Definition reflected (o : bop) : meth :=
    match o with
    | OLt => M OGt | OLe => M OGe | OEq => M OEq | ONe => M ONe | OGt => M OLt | OGe => M OLe
    | _ => MR o
    end.
  Definition py_binary (o : bop) (x y : operand) : res operand :=
    match x, y with
    | Om v il, _ => call_method (M o) v il y
    | _, Om v il => call_method (reflected o) v il x
    | _, _ => Err TypeError
    end.

  (** Lines 116-121 and 172-178. *)
  Definition py_unary (o : uop) (v : tree A) (il : isleaf) : res operand :=
    rmap (fun r => Om r il) (tree_map1 il (operator1 o) v).

  (** Lines 54-64. *)
  Definition omega_getitem (item : nat) (v : tree A) (il : isleaf) : res operand :=
    rmap (fun r => Om r il) (tree_map1 il (getitem item) v).
  Definition omega_call (fn : tree A -> res (tree A)) (v : tree A) (il : isleaf) : res operand :=
    rmap (fun r => Om r il) (tree_map1 il fn v).

  (** Lines 181-237: [x.at[item].set(other)] and so on. *)
  Definition omega_at (which item : nat) (v : tree A) (il : isleaf) (other : operand) : res operand :=
    match other with
    | Om w il' =>
        if negb (def_eqb (treedef no_leaf v) (treedef no_leaf w)) then Err ValueError
        else if negb (equal_code il il') then Err ValueError
        else rmap (fun r => Om r il) (tmap2 (isl_fn il) (fun x y => at_op which item x y) v w)
    | Scalar x => rmap (fun r => Om r il) (tree_map1 il (fun y => at_op which item y x) v)
    | Other _ => Err RuntimeError
    end.
End Omega.
Arguments isleaf : clear implicits.
Arguments operand : clear implicits.
