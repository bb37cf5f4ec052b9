(** Model of stateful layers under [filter_vmap]: docs/api/nn/stateful.md lines 71-113 ("Vmap'd stateful layers"), with [State.substate],
    [State.update] and the flattening of a [State] (equinox/nn/_stateful.py lines 190-282). Composed of the models of [nn.State] and [filter_vmap].

    - In trees of leaves a [State] is a node with its keys as static data, a [StateIndex] a node with its marker as static data and [init] as
      child. [state_kind], [index_kind] encode such nodes as kinds, [keys_of] and [marker_of] read them back.
    - [call] is what calling a layer does under [jax.vmap], on tracers: it takes the layer, the input and the state, and returns the output and
      the new state. The [State] objects made while tracing are not recorded in the heap.
    - [filter_vmap(layer)] closes over the layer: its arrays are not mapped (equinox/_vmap_pmap.py lines 115-159). *)
From Verif Require Import State_Model.
From Verif Require Export Vmap_Model.
Local Open Scope nat_scope.
Local Open Scope list_scope.

Section VmapState.
  Variable V : Type.
  Variable asize : V -> Z -> res nat.
  Variable atake : V -> Z -> nat -> V.
  Variable astack : list V -> V.
  Variable amove : V -> Z -> res V.
  Variable of_num : Z -> V.
  Variable sentinel_kind : nat.
  Variable index_kind : marker -> nat.
  Variable marker_of : nat -> option marker.
  Variable state_kind : list marker -> nat.
  Variable keys_of : nat -> option (list marker).
  Local Notation T := (tree (gleaf V)).
  Local Notation B := (tree (gleaf (bat V))).
  Notation mleaf := (@State_Model.mleaf (gleaf V)).
  Notation heap := (@State_Model.heap (gleaf V)).

  (** A model as a pytree; the [init] of an index may have been replaced by [_sentinel], a module without fields. *)
  Definition model_tree (m : tree mleaf) : T :=
    tmap no_leaf (fun l => match l with
      | Leaf (Idx k init) => Node (index_kind k) [match init with Some v => v | None => Node sentinel_kind [] end]
      | Leaf (Other a) => Leaf a
      | _ => TNone
      end) m.
  (** ... and back, for a model that has just been made (lines 124-131 of _stateful.py see it like this). *)
  Fixpoint of_tree (t : T) : tree mleaf :=
    match t with
    | Leaf a => Leaf (Other a)
    | TNone => TNone
    | Node k cs => match marker_of k, cs with Some m, [v] => Leaf (Idx m (Some v)) | _, _ => Node k (map of_tree cs) end
    end.

  (** [x, substate = f(x, substate)] between [substate] and [update]: lines 107-112 of the documentation. *)
  Definition with_substate (f : T -> res T) (h : heap) (s : nat) (layer : tree mleaf) : heap * res (T * nat) :=
    match state_substate h s layer with
    | (h1, Err e) => (h1, Err e)
    | (h1, Ok s1) =>
        match ('(vs, ks) <- state_flatten h1 s1 ;; f (Node (state_kind ks) vs)) with
        | Err e => (h1, Err e)
        | Ok (Node _ [y; Node k vs]) =>
            match keys_of k with
            | None => (h1, Err ValueError)
            | Some ks =>
                match state_unflatten h1 ks vs with
                | (h2, Err e) => (h2, Err e)
                | (h2, Ok s2) => match state_update h2 s (Some s2) with (h3, Ok s3) => (h3, Ok (y, s3)) | (h3, Err e) => (h3, Err e) end
                end
            end
        | Ok _ => (h1, Err ValueError)
        end
    end.

  Variable call : B -> res B.
  (** [eqx.filter_vmap(layer)(x, substate)]. *)
  Definition closed (layer : T) (args : B) : res B :=
    match args with Node _ [x; st] => call (Node tuple_kind [up (emb V) layer; x; st]) | _ => Err TypeError end.
  Definition vmap_closed (layer x st : T) : res T :=
    filter_vmap V asize atake astack amove of_num (closed layer) (Leaf (if_array 0)) [] (InTree (Leaf (if_array 0))) None [x; st] 0.
  (** [eqx.filter_vmap(lambda layer, x, state: layer(x, state))(layer, x, substate)]. *)
  Definition vmap_mapped (layer x st : T) : res T :=
    filter_vmap V asize atake astack amove of_num call (Leaf (if_array 0)) [] (InTree (Leaf (if_array 0))) None [layer; x; st] 0.
  Definition vmapped (mapped : bool) (layer x st : T) : res T := if mapped then vmap_mapped layer x st else vmap_closed layer x st.

  Definition vmapped_call (mapped : bool) (h : heap) (s : nat) (layer : tree mleaf) (x : T) : heap * res (T * nat) :=
    with_substate (vmapped mapped (model_tree layer) x) h s layer.
  (** Calls one after another. *)
  Fixpoint vmapped_run (mapped : bool) (h : heap) (s : nat) (layer : tree mleaf) (xs : list T) : heap * res (list T * nat) :=
    match xs with
    | [] => (h, Ok ([], s))
    | x :: xs =>
        match vmapped_call mapped h s layer x with
        | (h1, Err e) => (h1, Err e)
        | (h1, Ok (y, s1)) => match vmapped_run mapped h1 s1 layer xs with (h2, Ok (ys, s2)) => (h2, Ok (y :: ys, s2)) | (h2, Err e) => (h2, Err e) end
        end
    end.

  (** [eqx.filter_vmap(Layer, axis_size=n)()], line 92 of the documentation. *)
  Definition make_vmapped (make : B -> res B) (n : nat) : res T :=
    filter_vmap V asize atake astack amove of_num make (Leaf (if_array 0)) [] (InTree (Leaf (if_array 0))) (Some n) [] 0.
  (** [jnp.asarray] (outside /repo) on the leaves of initial values. *)
  Definition as_array (l : gleaf V) : res (gleaf V) := match l with Arr a => Ok (Arr a) | Num z => Ok (Arr (of_num z)) | Obj _ => Err TypeError end.
End VmapState.
