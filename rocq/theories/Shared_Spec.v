(** Vocabulary for [Shared] and [inference_mode]. *)
From Verif Require Export Shared_Model.

(** [get] does not look at or below the positions [ps]. *)
Definition ignores {A} (ps : list path) (get : tree A -> res (tree A)) : Prop :=
  forall u u', (forall q, (forall p, In p ps -> ~ prefix p q) -> label_at u q = label_at u' q) -> get u = get u'.

(** Position [p] holds the [inference] attribute of some node. *)
Definition is_flag {A} (attr : nat -> option nat) (t : tree A) (p : path) : Prop :=
  exists q k cs i, p = q ++ [i] /\ sub t q = Some (Node k cs) /\ attr k = Some i.
(** Every [inference] attribute is a leaf (a flag). *)
Definition flags_are_leaves {A} (attr : nat -> option nat) (t : tree A) : Prop :=
  forall q k cs i, sub t q = Some (Node k cs) -> attr k = Some i -> exists a, nth_error cs i = Some (Leaf a).
