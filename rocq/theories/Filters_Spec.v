(** What filtering, partitioning and combining mean, position by position.
    Independent of the recursion schemes used in the model. *)
From Verif Require Export Filters_Model Tree_Facts.

(** What stands at a position: a leaf, [None], or a node of some kind and arity. *)
Inductive shape := ShLeaf | ShNone | ShNode (k n : nat).
Definition shape_of {A} (t : tree A) : shape :=
  match t with Leaf _ => ShLeaf | TNone => ShNone | Node k cs => ShNode k (length cs) end.
Definition shape_at {A} (t : tree A) (p : list nat) : option shape :=
  option_map shape_of (sub t p).

Section Spec.
  Context {A : Type} (isl : tree A -> bool).

  (** [obj_leaf t p s]: iterating over [t] with [is_leaf], the object [s] at position [p]
      is one of the leaves. *)
  Inductive obj_leaf : tree A -> list nat -> tree A -> Prop :=
  | ol_isl : forall t, isl t = true -> obj_leaf t [] t
  | ol_leaf : forall a, obj_leaf (Leaf a) [] (Leaf a)
  | ol_down : forall k cs i c p s,
      isl (Node k cs) = false -> nth_error cs i = Some c -> obj_leaf c p s ->
      obj_leaf (Node k cs) (i :: p) s.

  (** [interior t p sh]: position [p] of [t] is above all leaves and has shape [sh]. *)
  Inductive interior : tree A -> list nat -> shape -> Prop :=
  | in_none : isl TNone = false -> interior TNone [] ShNone
  | in_node : forall k cs, isl (Node k cs) = false ->
      interior (Node k cs) [] (ShNode k (length cs))
  | in_down : forall k cs i c p sh,
      isl (Node k cs) = false -> nth_error cs i = Some c -> interior c p sh ->
      interior (Node k cs) (i :: p) sh.

  (** [selects spec t p s b]: the specification [spec] (a prefix of [t]) gives the object
      [s] at position [p] of [t] the verdict [b]. *)
  Inductive selects : tree (spec_leaf A) -> tree A -> list nat -> tree A -> bool -> Prop :=
  | sel_bool : forall b t p s, obj_leaf t p s -> selects (Leaf (SBool b)) t p s b
  | sel_call : forall g t p s, obj_leaf t p s -> selects (Leaf (SCall g)) t p s (g s)
  | sel_down : forall k ms cs i m c p s b,
      nth_error ms i = Some m -> nth_error cs i = Some c ->
      selects m c p s b -> selects (Node k ms) (Node k cs) (i :: p) s b.

  (** [frame spec t p sh]: position [p] is structure that no verdict applies to. *)
  Inductive frame : tree (spec_leaf A) -> tree A -> list nat -> shape -> Prop :=
  | fr_leaf : forall l t p sh, interior t p sh -> frame (Leaf l) t p sh
  | fr_none : frame TNone TNone [] ShNone
  | fr_node : forall k ms cs, frame (Node k ms) (Node k cs) [] (ShNode k (length cs))
  | fr_down : forall k ms cs i m c p sh,
      nth_error ms i = Some m -> nth_error cs i = Some c ->
      frame m c p sh -> frame (Node k ms) (Node k cs) (i :: p) sh.

  (** [spec] is a prefix of [t] made of booleans and callables. *)
  Inductive spec_ok : tree (spec_leaf A) -> tree A -> Prop :=
  | so_bool : forall b t, spec_ok (Leaf (SBool b)) t
  | so_call : forall g t, spec_ok (Leaf (SCall g)) t
  | so_none : spec_ok TNone TNone
  | so_node : forall k ms cs, Forall2 spec_ok ms cs -> spec_ok (Node k ms) (Node k cs).

  (** [spec] does not reach inside an object that [is_leaf] declares a leaf. *)
  Inductive spec_above : tree (spec_leaf A) -> tree A -> Prop :=
  | sa_leaf : forall l t, spec_above (Leaf l) t
  | sa_none : forall t, spec_above TNone t
  | sa_node : forall k ms cs, isl (Node k cs) = false ->
      Forall2 spec_above ms cs -> spec_above (Node k ms) (Node k cs).
End Spec.

(** [is_leaf] looks only at the root of an object (like [isinstance] tests). *)
Definition same_root {A} (t t' : tree A) : Prop :=
  match t, t' with
  | Leaf a, Leaf b => a = b
  | TNone, TNone => True
  | Node k _, Node k' _ => k = k'
  | _, _ => False
  end.
Definition root_only {A} (isl : tree A -> bool) : Prop :=
  forall t t', same_root t t' -> isl t = isl t'.

(** The first entry that is not [None]. *)
Fixpoint first_value {A} (l : list (option (tree A))) : option (tree A) :=
  match l with
  | [] => Some TNone
  | Some TNone :: l' => first_value l'
  | Some t :: _ => Some t
  | None :: _ => None
  end.

(** [same_shape d t]: [t] has the structure [d], with a value or [None] at each slot. *)
Inductive fits {A} : tree unit -> tree A -> Prop :=
| fit_leaf : forall u a, fits (Leaf u) (Leaf a)
| fit_hole : forall u, fits (Leaf u) TNone
| fit_none : fits TNone TNone
| fit_node : forall k ds cs, Forall2 fits ds cs -> fits (Node k ds) (Node k cs).

(** A slot of a structure: a position at which it has a leaf. *)
Definition slot (d : tree unit) (p : list nat) : Prop := sub d p = Some (Leaf tt).

(** Sum of two optional updates ([None] = no update). *)
Definition upd_sum {A} (plus : A -> A -> A) (u v : option (tree A)) : option (tree A) :=
  match u, v with
  | Some (Leaf a), Some (Leaf b) => Some (Leaf (plus a b))
  | Some TNone, _ => v
  | _, Some TNone => u
  | _, _ => None
  end.

(** Leafwise addition of numbers; anything else is a [TypeError] of Python's [+]. *)
Definition leaf_add {A} (plus : A -> A -> A) (p u : tree A) : res (tree A) :=
  match p, u with Leaf a, Leaf b => Ok (Leaf (plus a b)) | _, _ => Err TypeError end.
