(** Model of [nn.State], [nn.StateIndex], [nn.make_with_state]: equinox/nn/_stateful.py
    lines 22-391.

    [State] objects are mutable ([self._state = _sentinel]), so they live in a heap: object
    number [s] has contents [Some d] (a dictionary) or [None] (the sentinel).
    - Dictionaries are association lists with distinct keys, in insertion order.
    - Subclasses of [StateIndex] do not exist (it is a final strict module).
    - [jnp.asarray] may refuse a leaf; [struct] is what [jax.eval_shape] keeps of an array
      (shape, dtype, weak type) and [seqb] its equality as used by [tree_equal]. *)
From Verif Require Export TreeEq_Model Tree_Facts.

(** Markers: [object()] as created on line 77, or the [int] of line 382. *)
Inductive marker := MObj (n : nat) | MInt (n : nat).
Definition marker_eqb (x y : marker) : bool :=
  match x, y with
  | MObj a, MObj b | MInt a, MInt b => Nat.eqb a b
  | _, _ => false
  end.

Section Dict.
  Context {V : Type}.
  Definition dict := list (marker * V).
  Fixpoint dget (d : dict) (k : marker) : option V :=
    match d with
    | [] => None
    | (k', v) :: d' => if marker_eqb k' k then Some v else dget d' k
    end.
  (** [d[k] = v]: an existing key keeps its place. *)
  Fixpoint dset (d : dict) (k : marker) (v : V) : dict :=
    match d with
    | [] => [(k, v)]
    | (k', v') :: d' => if marker_eqb k' k then (k', v) :: d' else (k', v') :: dset d' k v
    end.
  Definition keys (d : dict) : list marker := map fst d.
End Dict.
Arguments dict : clear implicits.

Section State.
  Context {L S : Type}.
  Variable asarray : L -> res L.
  Variable struct : L -> S.
  Variable seqb : S -> S -> bool.
  Notation val := (tree L).

  Definition heap := list (option (dict val)).

  (** [jtu.tree_map(jnp.asarray, value)] *)
  Fixpoint as_arrays (v : val) : res val :=
    match v with
    | Leaf a => rmap Leaf (asarray a)
    | TNone => Ok TNone
    | Node k cs => rmap (Node k) (mapM as_arrays cs)
    end.
  Fixpoint structs (v : val) : tree S :=
    match v with Leaf a => Leaf (struct a) | TNone => TNone | Node k cs => Node k (map structs cs) end.

  (** [self._state], [None] for the sentinel. *)
  Definition deref (h : heap) (s : nat) : option (dict val) :=
    match nth_error h s with Some (Some d) => Some d | _ => None end.
  (** [self._state = _sentinel] *)
  Fixpoint invalidate (h : heap) (s : nat) : heap :=
    match h, s with
    | [], _ => []
    | _ :: h', O => None :: h'
    | x :: h', Datatypes.S s' => x :: invalidate h' s'
    end.
  (** A new object: the heap and its number. *)
  Definition alloc (h : heap) (d : dict val) : heap * nat := (h ++ [Some d], length h).

  (** Leaves of a model, stopping at [StateIndex] (line 124): a [StateIndex] with its marker and
      [init] ([None] for the sentinel), or something else. *)
  Inductive mleaf := Idx (m : marker) (init : option val) | Other (l : L).

  (** Argument [item] of [get] and [set]: a [StateIndex] or something else. *)
  Definition item := option marker.

  (** [State.get], lines 135-150. *)
  Definition state_get (h : heap) (s : nat) (i : item) : res val :=
    match deref h s with
    | None => Err ValueError
    | Some d =>
        match i with
        | None => Err ValueError
        | Some m => match dget d m with Some v => Ok v | None => Err KeyError end
        end
    end.

  (** [State.set], lines 152-188. *)
  Definition state_set (h : heap) (s : nat) (i : item) (value : val) : heap * res nat :=
    match deref h s with
    | None => (h, Err ValueError)
    | Some d =>
        match i with
        | None => (h, Err ValueError)
        | Some m =>
            match dget d m with
            | None => (h, Err KeyError)
            | Some old =>
                match as_arrays value with
                | Err e => (h, Err e)
                | Ok v =>
                    if tree_eqb seqb (structs old) (structs v) then
                      let '(h1, s1) := alloc h (dset d m v) in
                      (invalidate h1 s, Ok s1)
                    else (h, Err ValueError)
                end
            end
        end
    end.

  (** Lines 206-207: the markers of the indices in a model. *)
  Definition markers (model : tree mleaf) : list marker :=
    concat (map (fun l => match l with Leaf (Idx m _) => [m] | _ => [] end) (leaves no_leaf model)).

  (** Line 208: [{k: self._state[k] for k in markers}] *)
  Fixpoint restrict (d : dict val) (ms : list marker) (acc : dict val) : res (dict val) :=
    match ms with
    | [] => Ok acc
    | m :: ms' => match dget d m with
                  | None => Err KeyError
                  | Some v => restrict d ms' (dset acc m v)
                  end
    end.

  (** [State.substate], lines 190-211. *)
  Definition state_substate (h : heap) (s : nat) (model : tree mleaf) : heap * res nat :=
    match deref h s with
    | None => (h, Err ValueError)
    | Some d => match restrict d (markers model) [] with
                | Err e => (h, Err e)
                | Ok d' => let '(h1, s1) := alloc h d' in (h1, Ok s1)
                end
    end.

  (** Lines 233-239. *)
  Fixpoint merge (d : dict val) (items : dict val) : res (dict val) :=
    match items with
    | [] => Ok d
    | (k, v) :: items' => match dget d k with
                          | None => Err ValueError
                          | Some _ => merge (dset d k v) items'
                          end
    end.

  (** [State.update], lines 213-243. [sub] is [None] if the argument is not a [State]; the
      sentinel has no attribute [items]. *)
  Definition state_update (h : heap) (s : nat) (sub : option nat) : heap * res nat :=
    match deref h s with
    | None => (h, Err ValueError)
    | Some d =>
        match sub with
        | None => (h, Err ValueError)
        | Some s2 =>
            match deref h s2 with
            | None => (h, Err AttributeError)
            | Some items =>
                match merge d items with
                | Err e => (h, Err e)
                | Ok d' => let '(h1, s1) := alloc h d' in (invalidate h1 s, Ok s1)
                end
            end
        end
    end.

  (** [State.tree_flatten] and [State.tree_unflatten], lines 267-282. *)
  Definition state_flatten (h : heap) (s : nat) : res (list val * list marker) :=
    match deref h s with
    | None => Err ValueError
    | Some d => Ok (map snd d, keys d)
    end.
  Fixpoint from_pairs (acc : dict val) (kvs : list (marker * val)) : dict val :=
    match kvs with [] => acc | (k, v) :: kvs' => from_pairs (dset acc k v) kvs' end.
  Definition state_unflatten (h : heap) (ks : list marker) (vs : list val) : heap * res nat :=
    if Nat.eqb (length ks) (length vs) then
      let '(h1, s1) := alloc h (from_pairs [] (List.combine ks vs)) in (h1, Ok s1)
    else (h, Err AssertionError).

  (** [State.__init__], lines 115-133. *)
  Fixpoint init_dict (ls : list (tree mleaf)) (acc : dict val) : res (dict val) :=
    match ls with
    | [] => Ok acc
    | Leaf (Idx m init) :: ls' =>
        match init with
        | None => Err ValueError
        | Some v => v' <- as_arrays v ;; init_dict ls' (dset acc m v')
        end
    | _ :: ls' => init_dict ls' acc
    end.
  Definition state_init (h : heap) (model : tree mleaf) : heap * res nat :=
    match init_dict (leaves no_leaf model) [] with
    | Err e => (h, Err e)
    | Ok d => let '(h1, s1) := alloc h d in (h1, Ok s1)
    end.

  (** [delete_init_state], lines 285-324. Simplification: the [tree_at] of line 287 is written
      as an update of the field (State_Props connects it with the model of [tree_at]). *)
  Definition delete_init_state (model : tree mleaf) : tree mleaf :=
    tmap no_leaf (fun l => match l with Leaf (Idx m _) => Leaf (Idx m None) | _ => l end) model.

  (** Lines 376-384: number the indices in flatten order. *)
  Fixpoint renumber (ls : list (tree mleaf)) (counter : nat) : list (tree mleaf) :=
    match ls with
    | [] => []
    | Leaf (Idx _ init) :: ls' => Leaf (Idx (MInt counter) init) :: renumber ls' (Datatypes.S counter)
    | l :: ls' => l :: renumber ls' counter
    end.

  (** [make_with_state], lines 327-391, after [make_model] has returned [model]. *)
  Definition make_with_state (h : heap) (model : tree mleaf) : heap * res (tree mleaf * nat) :=
    match unflatten (treedef no_leaf model) (renumber (leaves no_leaf model) 0) with
    | Err e => (h, Err e)
    | Ok model1 =>
        match state_init h model1 with
        | (h1, Ok s) => (h1, Ok (delete_init_state model1, s))
        | (h1, Err e) => (h1, Err e)
        end
    end.
End State.
