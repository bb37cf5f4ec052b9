(** Model of equinox/_compile_utils.py lines 15-31: packing pytrees for the jit cache. *)
From Verif Require Export Tree_Model.

Section Hashable.
  Context {A : Type}.
  (** Entries of the tuples are objects; Python's [None] is [TNone]. *)

  (** Lines 15-18. *)
  Definition hashable_filter (t : tree A) (f : tree A -> bool) : list (tree A) :=
    map (fun x => if f x then x else TNone) (leaves no_leaf t).

  (** Lines 21-25. *)
  Definition hashable_partition (t : tree A) (f : tree A -> bool)
      : list (tree A) * (list (tree A) * tree unit) :=
    let ls := leaves no_leaf t in
    (map (fun x => if f x then x else TNone) ls,
     (map (fun x => if f x then TNone else x) ls, treedef no_leaf t)).

  (** Lines 28-31. [zip] stops at the shorter sequence, as does [List.combine]. *)
  Definition hashable_combine (dynamic_leaves : list (tree A))
      (static : list (tree A) * tree unit) : res (tree A) :=
    let '(static_leaves, d) := static in
    unflatten d (map (fun ds : tree A * tree A => if is_none (snd ds) then fst ds else snd ds)
                     (List.combine dynamic_leaves static_leaves)).
End Hashable.
