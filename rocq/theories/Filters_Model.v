(** Model of equinox/_filters.py (filter, partition, combine) and equinox/_update.py. *)
From Verif Require Export Tree_Model.

Section Filters.
  Context {A : Type}.

  (** A leaf of [filter_spec]: a bool, a callable on objects, or anything else.
      Simplification: the callable returns a bool (the code also accepts truthy values). *)
  Inductive spec_leaf :=
  | SBool (b : bool)
  | SCall (g : tree A -> bool)
  | SBad.

  (** equinox/_filters.py lines 66-77, [_make_filter_tree(is_leaf)]. *)
  Definition make_filter_tree (isl : tree A -> bool) (mask : tree spec_leaf) (arg : tree A)
      : res (tree bool) :=
    match mask with
    | Leaf (SBool b) => Ok (tmap isl (fun _ => Leaf b) arg)
    | Leaf (SCall g) => Ok (tmap isl (fun x => Leaf (g x)) arg)
    | _ => Err ValueError
    end.

  (** Lines 129 and 149: [jtu.tree_map(_make_filter_tree(is_leaf), filter_spec, pytree)]. *)
  Definition filter_tree (isl : tree A -> bool) (spec : tree spec_leaf) (x : tree A)
      : res (tree bool) :=
    tmap2 no_leaf (make_filter_tree isl) spec x.

  (** The two-argument lambdas of lines 131, 150, 151: [mask] is always a bool leaf there;
      anything else would fail in [bool(mask)]. *)
  Definition on_mask (sel : bool -> tree A -> tree A) (mask : tree bool) (x : tree A)
      : res (tree A) :=
    match mask with Leaf m => Ok (sel m x) | _ => Err TypeError end.

  (** equinox/_filters.py lines 80-132. *)
  Definition eqx_filter (isl : tree A -> bool) (replace : tree A) (inverse : bool)
      (x : tree A) (spec : tree spec_leaf) : res (tree A) :=
    ft <- filter_tree isl spec x ;;
    tmap2 no_leaf (on_mask (fun mask x => if negb (Bool.eqb mask inverse) then x else replace)) ft x.

  (** equinox/_filters.py lines 135-152. *)
  Definition eqx_partition (isl : tree A -> bool) (replace : tree A)
      (x : tree A) (spec : tree spec_leaf) : res (tree A * tree A) :=
    ft <- filter_tree isl spec x ;;
    left <- tmap2 no_leaf (on_mask (fun mask x => if mask then x else replace)) ft x ;;
    right <- tmap2 no_leaf (on_mask (fun mask x => if mask then replace else x)) ft x ;;
    Ok (left, right).

  (** equinox/_filters.py lines 155-159. *)
  Fixpoint combine_args (args : list (tree A)) : tree A :=
    match args with
    | [] => TNone
    | a :: args' => if is_none a then combine_args args' else a
    end.

  (** equinox/_filters.py lines 175-209. Calling it without arguments is a [TypeError] of
      [tree_map]. *)
  Definition eqx_combine (isl : tree A -> bool) (ts : list (tree A)) : res (tree A) :=
    match ts with
    | [] => Err TypeError
    | t0 :: rest =>
        tmapn (fun x => is_none x || isl x)
              (fun x xs => Ok (combine_args (x :: xs))) t0 rest
    end.

  (** equinox/_update.py lines 5-9. [add] is Python's [p + u] on the two objects; it is
      arbitrary here (and may raise). *)
  Variable add : tree A -> tree A -> res (tree A).
  Definition apply_update (u p : tree A) : res (tree A) :=
    match u with TNone => Ok p | _ => add p u end.

  (** equinox/_update.py lines 16-40. *)
  Definition apply_updates (model updates : tree A) : res (tree A) :=
    tmap2 is_none apply_update updates model.
End Filters.
Arguments spec_leaf : clear implicits.
