(** What editing a pytree at positions means. *)
From Verif Require Export TreeAt_Model Tree_Facts.

(** What is visible at the root of a tree. *)
Inductive label (A : Type) := LLeaf (a : A) | LNone | LNode (k n : nat).
Arguments LLeaf {A} a. Arguments LNone {A}. Arguments LNode {A} k n.
Definition label_of {A} (t : tree A) : label A :=
  match t with Leaf a => LLeaf a | TNone => LNone | Node k cs => LNode k (length cs) end.
Definition label_at {A} (t : tree A) (p : path) : option (label A) := option_map label_of (sub t p).

Definition prefix (p q : path) : Prop := exists r, q = p ++ r.
Definition strict_prefix (p q : path) : Prop := exists i r, q = p ++ i :: r.

(** [out] is [t] with the subtree at [p] replaced by [r] for each [(p, r)] of [edits], and
    unchanged at every position that is not at or below an edited one. *)
Definition edited {A} (t : tree A) (edits : list (path * tree A)) (out : tree A) : Prop :=
  (forall p r, In (p, r) edits -> sub out p = Some r) /\
  (forall q, (forall p r, In (p, r) edits -> ~ prefix p q) -> label_at out q = label_at t q).

(** No edited position lies at or below another one. *)
Definition disjoint_edits {A} (edits : list (path * tree A)) : Prop :=
  forall i j p r q s, nth_error edits i = Some (p, r) -> nth_error edits j = Some (q, s) ->
    prefix p q -> i = j.

(** Position [p] can be reached without entering an object that [is_leaf] calls a leaf. *)
Inductive visible {A} (isl : tree A -> bool) : tree A -> path -> Prop :=
| vis_here : forall t, visible isl t []
| vis_down : forall k cs i c p, isl (Node k cs) = false -> nth_error cs i = Some c ->
    visible isl c p -> visible isl (Node k cs) (i :: p).

(** A [None] that is not declared to be a leaf. *)
Definition bare_none {A} (isl : tree A -> bool) (t : tree A) (p : path) : Prop :=
  visible isl t p /\ sub t p = Some TNone /\ isl TNone = false.

(** [where] functions that pick out positions: a single one ([lambda t: t.a[0]]) or a tuple
    of them ([lambda t: (t.a[0], t.b)]). Attribute access on an object without that
    attribute raises. *)
Fixpoint pick {A} (x : pyobj A) (p : path) : res (pyobj A) :=
  match p with
  | [] => Ok x
  | i :: p' =>
      match x with
      | PNode _ _ cs => match nth_error cs i with Some c => pick c p' | None => Err AttributeError end
      | _ => Err AttributeError
      end
  end.
Definition where_one {A} (p : path) (x : pyobj A) : res (pyobj A) := pick x p.
Definition where_many {A} (ps : list path) (x : pyobj A) : res (pyobj A) :=
  rmap (PNode (3, []) ktuple) (mapM (pick x) ps).

(** An [is_leaf] that looks at values, not at identities. *)
Definition by_value {A} (isl : tree A -> bool) (x : pyobj A) : bool := isl (erase x).

(** A function given as [replace_fn] that does not tell a [_DistinctTuple] from [()]. *)
Definition fn_by_value {A} (f : tree A -> res (tree A)) (x : pyobj A) : res (pyobj A) :=
  rmap embed (f (erase x)).

(** The value in the last entry for key [p]. *)
Fixpoint last_for {V} (p : path) (l : list (path * V)) : option V :=
  match l with
  | [] => None
  | (q, v) :: l' => match last_for p l' with
                    | Some w => Some w
                    | None => if list_eq_dec Nat.eq_dec p q then Some v else None
                    end
  end.
