(** Model of saving and loading a model together with its state: [tree_serialise_leaves(path, (model, state))] and
    [tree_deserialise_leaves(path, (model, state))], equinox/_serialisation.py lines 193-334 with [State.tree_flatten] and
    [State.tree_unflatten] (equinox/nn/_stateful.py lines 267-282; the remark in lines 121-122). Composed of State_Model and
    SerialFile_Model.

    - In trees of leaves a [State] is a node with its keys as static data, a [StateIndex] a node with its marker as static
      data and [init] as child. [state_kind], [index_kind] encode such nodes as kinds, [keys_of] reads the keys back.
    - A [State] that has been used up cannot be flattened: this happens after the file has been opened, and the error is
      reported at the empty path (lines 32-45).
    - The intermediate [State] objects made by the maps in [tree_deserialise_leaves] are not recorded in the heap. *)
From Verif Require Import State_Model.
From Verif Require Export SerialFile_Model.
Local Open Scope nat_scope.
Local Open Scope list_scope.

Section StateFile.
  Variable x64 : bool.
  Variable cast : dty -> dty -> Z -> Z.
  Variable ctor : target -> dty -> Z -> res Z.
  Variables (pair_kind sentinel_kind : nat).
  Variable index_kind : marker -> nat.
  Variable state_kind : list marker -> nat.
  Variable keys_of : nat -> option (list marker).
  Notation mleaf := (@State_Model.mleaf leaf).
  Notation heap := (@State_Model.heap leaf).

  (** A model as a pytree; the [init] of an index may have been replaced by [_sentinel], a module without fields. *)
  Definition model_tree (m : tree mleaf) : obj :=
    tmap no_leaf (fun l => match l with
      | Leaf (State_Model.Idx k init) => Node (index_kind k) [match init with Some v => v | None => Node sentinel_kind [] end]
      | Leaf (State_Model.Other a) => Leaf a
      | _ => TNone
      end) m.
  Definition state_tree (h : heap) (s : nat) : res obj :=
    '(vs, ks) <- state_flatten h s ;; Ok (Node (state_kind ks) vs).

  Definition save_all (d : disk) (p : path) (h : heap) (model : tree mleaf) (s : nat) : disk * pres unit :=
    match state_tree h s with
    | Ok st => save no_leaf d p (Leaf default_ser) (Node pair_kind [model_tree model; st])
    | Err _ =>
        match with_suffix p with
        | Err e => (d, PRaise e)
        | Ok q => match open_w d q with Err e => (d, PRaise e) | Ok d' => (d', PPath []) end
        end
    end.
  (** [like] is a pair of a model, here any pytree, and a state. *)
  Definition load_all (d : disk) (p : path) (h : heap) (like : obj) (s : nat) : heap * pres (obj * nat) :=
    match state_tree h s with
    | Ok st =>
        match load no_leaf d p (Leaf (default_des x64 cast ctor)) (Node pair_kind [like; st]) with
        | POk (Node _ [m; Node k vs]) =>
            match keys_of k with
            | Some ks => match state_unflatten h ks vs with (h', Ok s') => (h', POk (m, s')) | (h', Err e) => (h', PRaise e) end
            | None => (h, PRaise TypeError)
            end
        | POk _ => (h, PRaise TypeError)
        | PPath q => (h, PPath q)
        | PRaise e => (h, PRaise e)
        end
    | Err _ =>
        match with_suffix p with
        | Err e => (h, PRaise e)
        | Ok q => match open_r d q with Err e => (h, PRaise e) | Ok _ => (h, PPath []) end
        end
    end.
End StateFile.
