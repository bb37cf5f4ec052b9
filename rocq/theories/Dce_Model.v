(** Model of equinox/debug/_dce.py: [store_dce] and [inspect_dce].

    Simplifications: the module-level dictionary is restricted to one [name] (other names
    are other dictionaries); the host callbacks that [jax.pure_callback] may or may not
    execute are the arbitrary set of indices recorded in [alive]; the two tests whether we are
    inside of JIT (lines 63-64, 96-97) are taken to have passed. *)
From Verif Require Export Filters_Model.

(** What a leaf of the stored or printed pytree is: an array, the label put in its place by
    [inspect_dce] (lines 104-110: the summary of shape and dtype, or the text [<DCE'd>]), or
    anything else. *)
Inductive label := Alive (summary : nat) | Dced.
Inductive dleaf := DArr (code : nat) | DOther (code : nat) | DLabel (l : label).

Definition d_is_array (t : tree dleaf) : bool :=
  match t with Leaf (DArr _) => true | _ => false end.

(** One value of [tag_store]: line 72, [({}, treedef, static)], with the dictionary filled in
    by the callbacks of lines 19-22. *)
Record dce_entry := mk_entry {
  alive : list (nat * nat);
  edef : tree unit;
  estatic : tree dleaf
}.

(** Lines 65-72: what [store_dce(x)] appends to the store, [fired] being the callbacks that
    ran before the inspection (index, summary of the array seen). *)
Definition store_entry (x : tree dleaf) (fired : list (nat * nat)) : res dce_entry :=
  '(dynamic, static) <- eqx_partition no_leaf TNone x (Leaf (SCall d_is_array)) ;;
  Ok (mk_entry fired (treedef no_leaf dynamic) static).

(** Lines 73-80: the value [store_dce(x)] returns; the callbacks return their argument. *)
Definition store_result (x : tree dleaf) : res (tree dleaf) :=
  '(dynamic, static) <- eqx_partition no_leaf TNone x (Leaf (SCall d_is_array)) ;;
  out <- unflatten (treedef no_leaf dynamic) (leaves no_leaf dynamic) ;;
  eqx_combine no_leaf [out; static].

Fixpoint lookup_alive (l : list (nat * nat)) (j : nat) : option nat :=
  match l with
  | [] => None
  | (i, s) :: l' => if Nat.eqb i j then Some s else lookup_alive l' j
  end.

(** [treedef.num_leaves]. *)
Fixpoint num_leaves (d : tree unit) : nat :=
  match d with Leaf _ => 1 | TNone => 0 | Node _ ds => list_sum (map num_leaves ds) end.

(** Lines 103-110: the labels appended for one entry. *)
Definition entry_labels (e : dce_entry) : list (tree dleaf) :=
  map (fun j => Leaf (DLabel (match lookup_alive (alive e) j with
                              | Some s => Alive s | None => Dced end)))
      (seq 0 (num_leaves (edef e))).

(** Lines 102-113: the trees printed, in order, and the exception that ends the printing, if
    any. [acc] is the variable [new_leaves], created once in line 99 outside of the loop. *)
Fixpoint inspect_loop (acc : list (tree dleaf)) (es : list dce_entry)
    : list (tree dleaf) * option exn :=
  match es with
  | [] => ([], None)
  | e :: es' =>
      let acc' := acc ++ entry_labels e in
      match (out <- unflatten (edef e) acc' ;; eqx_combine no_leaf [out; estatic e]) with
      | Ok t => let '(ts, ex) := inspect_loop acc' es' in (t :: ts, ex)
      | Err x => ([], Some x)
      end
  end.

Definition inspect_dce (es : list dce_entry) : list (tree dleaf) * option exn :=
  inspect_loop [] es.
