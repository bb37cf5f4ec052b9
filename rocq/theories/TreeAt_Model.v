(** Model of [tree_at]: equinox/_tree.py lines 19-261.

    The algorithm works with object identity ([is], [id(..)]), so pytrees are modelled as
    trees of Python objects carrying identities. An identity is the phase in which the
    object was created (1: the copy made on lines 159-163, 2: the copy made on line 165,
    3: objects created by the user's [where]) and a position. [None] is a singleton.
    - Leaf objects of the input are identified by the elements of [A] ([aeq] is [is]).
    - Custom nodes whose unflatten returns a singleton are not modelled (the comment on
      lines 152-154 excludes them as well).
    - [nodes] and [replace] are only iterated over when they are lists or tuples; other
      containers (e.g. dictionaries, whose iteration yields keys) raise here. *)
From Verif Require Export TreeEq_Model.

Definition path := list nat.
Definition ident := (nat * path)%type.
Definition ident_eqb (x y : ident) : bool := Nat.eqb (fst x) (fst y) && list_eqb Nat.eqb (snd x) (snd y).

Section MapIdx.
  Context {X Y : Type}.
  Variable f : nat -> X -> Y.
  Fixpoint mapi (i : nat) (l : list X) : list Y :=
    match l with [] => [] | x :: l' => f i x :: mapi (S i) l' end.
End MapIdx.

(** Kinds of nodes: [0] is the built-in tuple, [1] the built-in list. *)
Definition ktuple : nat := 0.
Definition klist : nat := 1.
Definition is_seq (k : nat) : bool := Nat.eqb k ktuple || Nat.eqb k klist.

Section TreeAt.
  Context {A : Type}.
  Variable aeq : A -> A -> bool.

  (** Python objects: leaves, [None], nodes, and instances of the private classes
      [_LeafWrapper] (lines 19-21) and [_DistinctTuple] (lines 54-55), both of which are
      leaves for [jtu]. *)
  Inductive pyobj :=
  | PLeaf (a : A)
  | PNone
  | PNode (i : ident) (k : nat) (cs : list pyobj)
  | PWrap (i : ident) (x : pyobj)
  | PDist (i : ident).

  (** [x is y] *)
  Definition same (x y : pyobj) : bool :=
    match x, y with
    | PLeaf a, PLeaf b => aeq a b
    | PNone, PNone => true
    | PNode i _ _, PNode j _ _ => ident_eqb i j
    | PWrap i _, PWrap j _ => ident_eqb i j
    | PDist i, PDist j => ident_eqb i j
    | _, _ => false
    end.

  (** Lines 156-163: copy, turning each [()] into a [_DistinctTuple]. [rp] is the position,
      innermost index first. *)
  Fixpoint copy1 (rp : path) (t : tree A) : pyobj :=
    match t with
    | Leaf a => PLeaf a
    | TNone => PNone
    | Node k cs =>
        if Nat.eqb k ktuple && Nat.eqb (length cs) 0 then PDist (1, rp)
        else PNode (1, rp) k (mapi (fun i c => copy1 (i :: rp) c) 0 cs)
    end.

  Variable isl : pyobj -> bool.

  (** Line 165: [jtu.tree_map(_LeafWrapper, pytree, is_leaf=is_leaf)]. *)
  Fixpoint copy2 (rp : path) (x : pyobj) : pyobj :=
    if isl x then PWrap (2, rp) x else
    match x with
    | PNone => PNone
    | PNode _ k cs => PNode (2, rp) k (mapi (fun i c => copy2 (i :: rp) c) 0 cs)
    | _ => PWrap (2, rp) x
    end.

  (** [jtu.tree_flatten] on objects. *)
  Fixpoint pleaves (isl : pyobj -> bool) (x : pyobj) : list pyobj :=
    if isl x then [x] else
    match x with
    | PNone => []
    | PNode _ _ cs => concat (map (pleaves isl) cs)
    | _ => [x]
    end.
  Fixpoint pdef (isl : pyobj -> bool) (x : pyobj) : tree unit :=
    if isl x then Leaf tt else
    match x with
    | PNone => TNone
    | PNode _ k cs => Node k (map (pdef isl) cs)
    | _ => Leaf tt
    end.

  (** [_remove_leaf_wrapper]: lines 24-27. *)
  Definition remove_leaf_wrapper (x : pyobj) : res pyobj :=
    match x with PWrap _ v => Ok v | _ => Err TypeError end.

  (** Lines 167-179: the two calls of [where] must agree. *)
  Definition check_where (n1 n2 : pyobj) : res unit :=
    l2 <- mapM remove_leaf_wrapper (pleaves (fun _ => false) n2) ;;
    let l1 := pleaves isl n1 in
    if negb (treedef_eqb (pdef isl n1) (pdef (fun _ => false) n2))
       || negb (Nat.eqb (length l1) (length l2))
       || existsb (fun '(x, y) => negb (same x y)) (List.combine l1 l2)
    then Err ValueError else Ok tt.

  (** Lines 182-191: is [n] met when walking over [x]? *)
  Fixpoint in_pytree (n x : pyobj) : bool :=
    if same x n then true else
    match x with PNode _ _ cs => existsb (in_pytree n) cs | _ => false end.

  (** Iterating over (and taking [len] of) a list or tuple. *)
  Definition seq_items (x : pyobj) : res (list pyobj) :=
    match x with
    | PNode _ k cs => if is_seq k then Ok cs else Err TypeError
    | PDist _ => Ok []
    | _ => Err TypeError
    end.
  Definition seq_vals (x : tree A) : res (list (tree A)) :=
    match x with
    | Node k cs => if is_seq k then Ok cs else Err TypeError
    | _ => Err TypeError
    end.

  (** Values that came from outside, as objects. Their identities play no role. *)
  Fixpoint embed (t : tree A) : pyobj :=
    match t with
    | Leaf a => PLeaf a
    | TNone => PNone
    | Node k cs => PNode (4, []) k (map embed cs)
    end.

  (** [jtu.tree_map(_remove_leaf_wrapper, x)]: line 211. *)
  Fixpoint unwrap (x : pyobj) : res pyobj :=
    match x with
    | PNone => Ok PNone
    | PNode i k cs => rmap (PNode i k) (mapM unwrap cs)
    | _ => remove_leaf_wrapper x
    end.

  (** [_CountedIdDict]: lines 30-51; a dictionary comprehension keeps the last of several
      equal keys. *)
  Fixpoint lookup {V} (d : list (pyobj * V)) (x : pyobj) : option V :=
    match d with
    | [] => None
    | (n, v) :: d' => match lookup d' x with
                      | Some v' => Some v'
                      | None => if same n x then Some v else None
                      end
    end.
  Definition contains {V} (d : list (pyobj * V)) (x : pyobj) : bool :=
    existsb (fun nv => same (fst nv) x) d.

  (** Lines 231-236: [tree_map(_make_replacement, pytree, is_leaf = x in node_replace_fns)]. *)
  Section Replace.
    Variable d : list (pyobj * (pyobj -> res pyobj)).
    Definition make_replacement (x : pyobj) : res pyobj :=
      match lookup d x with Some f => f x | None => remove_leaf_wrapper x end.
    Fixpoint replace_all (x : pyobj) : res pyobj :=
      if contains d x then make_replacement x else
      match x with
      | PNone => Ok PNone
      | PNode i k cs => rmap (PNode i k) (mapM replace_all cs)
      | _ => make_replacement x
      end.
    (** The keys looked up on the way (for [_CountedIdDict.count]). *)
    Fixpoint visited (x : pyobj) : list pyobj :=
      if contains d x then [x] else
      match x with
      | PNode _ _ cs => concat (map visited cs)
      | _ => []
      end.
    Definition count (root n : pyobj) : nat :=
      length (List.filter (fun x => same n x) (visited root)).
  End Replace.

  (** Lines 256-260: [_DistinctTuple] back to [()], read back as a value. *)
  Fixpoint erase (x : pyobj) : tree A :=
    match x with
    | PLeaf a => Leaf a
    | PNone => TNone
    | PNode _ k cs => Node k (map erase cs)
    | PWrap _ v => erase v
    | PDist _ => Node ktuple []
    end.
  (** Would a private [_LeafWrapper] escape to the caller? *)
  Fixpoint leaks (x : pyobj) : bool :=
    match x with
    | PNode _ _ cs => existsb leaks cs
    | PWrap _ _ => true
    | _ => false
    end.
  (** Stands for handing such an object to the user. *)
  Definition leak_error : exn := OtherError 1.

  (** The body of [tree_at], lines 156-261. [replace]/[replace_fn] is [None] when the
      argument is left at its sentinel default. *)
  Definition tree_at (where_ : pyobj -> res pyobj) (t : tree A)
      (replace : option (tree A)) (replace_fn : option (pyobj -> res pyobj)) : res (tree A) :=
    let p1 := copy1 [] t in
    n1 <- where_ p1 ;;
    let p2 := copy2 [] p1 in
    n2 <- where_ p2 ;;
    _ <- check_where n1 n2 ;;
    let single := in_pytree n2 p2 in
    fns <-
      match replace, replace_fn with
      | None, None => Err ValueError
      | None, Some f =>
          ns <- (if single then Ok [n2] else seq_items n2) ;;
          Ok (map (fun n => (n, fun x => y <- unwrap x ;; f y)) ns)
      | Some r, None =>
          ns <- (if single then Ok [n2] else seq_items n2) ;;
          rs <- (if single then Ok [r] else seq_vals r) ;;
          if negb (Nat.eqb (length ns) (length rs)) then Err ValueError
          else Ok (List.combine ns (map (fun r _ => Ok (embed r)) rs))
      | Some _, Some _ => Err ValueError
      end ;;
    out <- replace_all fns p2 ;;
    if forallb (fun n => Nat.eqb (count fns p2 n) 1) (map fst fns)
    then if leaks out then Err leak_error else Ok (erase out)
    else Err ValueError.
End TreeAt.
Arguments pyobj : clear implicits.
