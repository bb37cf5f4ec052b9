(** Model of [jax.tree_util] as used by the library: pytrees, [tree_map] with
    prefix matching, [tree_flatten]/[tree_unflatten].

    JAX itself is outside /repo; these definitions record the behaviour the modelled
    code relies on:
    - [None] is a node without children (it contributes no leaf);
    - a node carries a "kind" (its registered type together with its auxiliary data,
      e.g. dictionary keys or the static fields of a Module), coded as a number;
      two nodes have the same structure iff kind and arity agree;
    - [tree_map f t0 t1 .. tn] flattens [t0] (stopping at nodes where [is_leaf] is true)
      and matches the other trees as far as [t0] goes ("t0 is a prefix"), raising
      [ValueError] on mismatch. *)
From Verif Require Export Base.

Inductive tree (A : Type) :=
| Leaf (a : A)
| TNone
| Node (k : nat) (cs : list (tree A)).
Arguments Leaf {A} a.
Arguments TNone {A}.
Arguments Node {A} k cs.

Section Ind.
  Variable A : Type.
  Variable P : tree A -> Prop.
  Hypothesis HL : forall a, P (Leaf a).
  Hypothesis HN : P TNone.
  Hypothesis HB : forall k cs, Forall P cs -> P (Node k cs).
  Fixpoint tree_ind' (t : tree A) : P t :=
    match t with
    | Leaf a => HL a
    | TNone => HN
    | Node k cs => HB k cs
        ((fix go (l : list (tree A)) : Forall P l :=
            match l with
            | [] => Forall_nil P
            | c :: l' => Forall_cons c (tree_ind' c) (go l')
            end) cs)
    end.
End Ind.

(** [is_leaf=None]. *)
Definition no_leaf {A} (_ : tree A) : bool := false.

(** [x is None]: equinox/_filters.py lines 162-163. *)
Definition is_none {A} (t : tree A) : bool := match t with TNone => true | _ => false end.

(** [jtu.tree_map(f, t, is_leaf=isl)], one tree. [f] may return any object, hence a tree. *)
Fixpoint tmap {A B} (isl : tree A -> bool) (f : tree A -> tree B) (t : tree A) : tree B :=
  if isl t then f t else
  match t with
  | Leaf _ => f t
  | TNone => TNone
  | Node k cs => Node k (map (tmap isl f) cs)
  end.

(** Apply a two-argument computation pairwise; arities must agree. *)
Section Zip.
  Context {A B C : Type}.
  Variable f : A -> B -> res C.
  Fixpoint zipM (l : list A) (r : list B) : res (list C) :=
    match l, r with
    | [], [] => Ok []
    | x :: l', y :: r' => c <- f x y ;; cs <- zipM l' r' ;; Ok (c :: cs)
    | _, _ => Err ValueError
    end.
End Zip.

(** [jtu.tree_map(f, t0, t1, is_leaf=isl)], two trees. *)
Fixpoint tmap2 {A B C} (isl : tree A -> bool) (f : tree A -> tree B -> res (tree C))
    (t0 : tree A) (t1 : tree B) : res (tree C) :=
  if isl t0 then f t0 t1 else
  match t0 with
  | Leaf _ => f t0 t1
  | TNone => match t1 with TNone => Ok TNone | _ => Err ValueError end
  | Node k cs =>
      match t1 with
      | Node k' ds =>
          if Nat.eqb k k' then rmap (Node k) (zipM (tmap2 isl f) cs ds)
          else Err ValueError
      | _ => Err ValueError
      end
  end.

(** The children of each tree of [ts], when all are nodes of kind [k] and arity [n]. *)
Fixpoint kids {A} (k n : nat) (ts : list (tree A)) : res (list (list (tree A))) :=
  match ts with
  | [] => Ok []
  | Node k' cs :: ts' =>
      if Nat.eqb k k' && Nat.eqb n (length cs)
      then r <- kids k n ts' ;; Ok (cs :: r) else Err ValueError
  | _ :: _ => Err ValueError
  end.

Fixpoint nones {A} (ts : list (tree A)) : bool :=
  match ts with [] => true | TNone :: ts' => nones ts' | _ :: _ => false end.

(** The [i]-th column of a list of rows. *)
Fixpoint column {A} (i : nat) (rows : list (list A)) : list A :=
  match rows with
  | [] => []
  | r :: rows' => match nth_error r i with Some x => x :: column i rows' | None => column i rows' end
  end.

Section MapI.
  Context {A B : Type}.
  Variable f : nat -> A -> res B.
  Fixpoint mapMi (i : nat) (l : list A) : res (list B) :=
    match l with
    | [] => Ok []
    | x :: l' => y <- f i x ;; ys <- mapMi (S i) l' ;; Ok (y :: ys)
    end.
End MapI.

(** [jtu.tree_map(f, t0, *rest, is_leaf=isl)], any number of trees. *)
Fixpoint tmapn {A B C} (isl : tree A -> bool) (f : tree A -> list (tree B) -> res (tree C))
    (t0 : tree A) (rest : list (tree B)) : res (tree C) :=
  if isl t0 then f t0 rest else
  match t0 with
  | Leaf _ => f t0 rest
  | TNone => if nones rest then Ok TNone else Err ValueError
  | Node k cs =>
      rows <- kids k (length cs) rest ;;
      rmap (Node k) (mapMi (fun i c => tmapn isl f c (column i rows)) 0 cs)
  end.

(** [jtu.tree_leaves(t, is_leaf=isl)]. *)
Fixpoint leaves {A} (isl : tree A -> bool) (t : tree A) : list (tree A) :=
  if isl t then [t] else
  match t with
  | Leaf _ => [t]
  | TNone => []
  | Node _ cs => concat (map (leaves isl) cs)
  end.

(** The treedef of [jtu.tree_flatten(t, is_leaf=isl)]: the tree with its leaves erased. *)
Fixpoint treedef {A} (isl : tree A -> bool) (t : tree A) : tree unit :=
  if isl t then Leaf tt else
  match t with
  | Leaf _ => Leaf tt
  | TNone => TNone
  | Node k cs => Node k (map (treedef isl) cs)
  end.

(** [jtu.tree_unflatten(treedef, leaves)]: consumes leaves left to right; the wrong number
    of leaves raises [ValueError]. [unflat] returns the unconsumed leaves. *)
Section UnflatList.
  Context {A : Type}.
  Variable unflat : tree unit -> list (tree A) -> res (tree A * list (tree A)).
  Fixpoint unflats (ds : list (tree unit)) (ls : list (tree A))
      : res (list (tree A) * list (tree A)) :=
    match ds with
    | [] => Ok ([], ls)
    | d :: ds' =>
        '(t, ls1) <- unflat d ls ;;
        '(ts, ls2) <- unflats ds' ls1 ;;
        Ok (t :: ts, ls2)
    end.
End UnflatList.

Fixpoint unflat {A} (d : tree unit) (ls : list (tree A)) : res (tree A * list (tree A)) :=
  match d with
  | Leaf _ => match ls with x :: ls' => Ok (x, ls') | [] => Err ValueError end
  | TNone => Ok (TNone, ls)
  | Node k ds => '(ts, ls') <- unflats unflat ds ls ;; Ok (Node k ts, ls')
  end.

Definition unflatten {A} (d : tree unit) (ls : list (tree A)) : res (tree A) :=
  '(t, rest) <- unflat d ls ;;
  match rest with [] => Ok t | _ => Err ValueError end.
