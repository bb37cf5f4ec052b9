(** Model of [Partial] (equinox/_module.py lines 1146-1185), [Static] (lines 1188-1207) and
    [Module.__hash__]/[Module.__eq__] (lines 1019-1025). *)
From Verif Require Export TreeEq_Model.

(** ** Calls *)
Section Calls.
  Context {V : Type}.
  (** Keyword arguments, in order. A Python dictionary has distinct keys. *)
  Definition kwargs := list (nat * V).
  (** A callable: positional and keyword arguments to a result (or exception). *)
  Definition callable := list V -> kwargs -> res V.

  Fixpoint nodupb (l : list nat) : bool :=
    match l with [] => true | x :: l' => negb (existsb (Nat.eqb x) l') && nodupb l' end.

  (** [f( *a, **k1, **k2 )]: repeated keywords raise [TypeError] in the caller. *)
  Definition call2 (f : callable) (a : list V) (k1 k2 : kwargs) : res V :=
    if nodupb (map fst (k1 ++ k2)) then f a (k1 ++ k2) else Err TypeError.

  (** The parameter name [self]. *)
  Variable self_name : nat.

  Record partial := { p_func : callable; p_args : list V; p_kw : kwargs }.
  (** Lines 1161-1170: [func] (and [self]) are positional-only here. *)
  Definition partial_init (f : callable) (a : list V) (k : kwargs) : partial :=
    {| p_func := f; p_args := a; p_kw := k |}.
  (** Lines 1172-1185: [def __call__(self, *args, **kwargs)]; a keyword called [self] clashes
      with the first parameter. *)
  Definition partial_call (p : partial) : callable := fun a k =>
    if existsb (Nat.eqb self_name) (map fst k) then Err TypeError
    else call2 (p_func p) (p_args p ++ a) k (p_kw p).
End Calls.
Arguments kwargs : clear implicits.
Arguments callable : clear implicits.
Arguments partial : clear implicits.

(** ** [Static] *)
Record static A := { st_leaves : list (tree A); st_treedef : tree unit }.
Arguments st_leaves {A}. Arguments st_treedef {A}.
Definition static_init {A} (v : tree A) : static A :=
  {| st_leaves := leaves no_leaf v; st_treedef := treedef no_leaf v |}.
Definition static_value {A} (s : static A) : res (tree A) := unflatten (st_treedef s) (st_leaves s).

(** ** Equality and hash of Modules, on the level of pytrees of leaves.
    [hash] of a leaf: [None] if it raises [TypeError] (NumPy and JAX arrays). [hp] is the hash of
    other Python values and [hn] that of NumPy scalars; [ht] combines the hashes of a tuple. *)
Section Hash.
  Variable hp : nat -> pyval -> option Z.
  Variable hn : dtype -> list elem -> Z.
  Variable ht : list Z -> Z.
  Definition hash_leaf (x : obj) : option Z :=
    match x with
    | OArr a => match a_class a with NpScalar => Some (hn (a_dtype a) (a_data a)) | _ => None end
    | OPy ty v => hp ty v
    end.
  Fixpoint hash_leaves (l : list obj) : res (list Z) :=
    match l with
    | [] => Ok []
    | x :: l' => match hash_leaf x with
                 | None => Err TypeError
                 | Some h => rmap (cons h) (hash_leaves l')
                 end
    end.
  (** [hash(tuple(jtu.tree_leaves(self)))] *)
  Definition module_hash (m : tree obj) : res Z := rmap ht (hash_leaves (objs m)).
  (** [tree_equal(self, other)], with the default [typematch=False, rtol=0.0, atol=0.0]. *)
  Definition module_eq (m m' : tree obj) : res outcome := tree_equal false (TolPy 0) (TolPy 0) [m; m'].
End Hash.
