(** Model of the ensembles of docs/tricks.md lines 103-135: a model is created under [filter_vmap] over random keys, giving
    one PyTree of stacked arrays; that is passed back into a [filter_vmap] to be called. The functions are arbitrary: creation
    takes a key and returns a PyTree; calling takes a model and an input. [make] and [call] are what they do under
    [jax.vmap], on tracers. Composed of the model of [filter_vmap] (equinox/_vmap_pmap.py). *)
From Verif Require Export Vmap_Model.

Section Ensemble.
  Variable V : Type.
  Variable asize : V -> Z -> res nat.
  Variable atake : V -> Z -> nat -> V.
  Variable astack : list V -> V.
  Variable amove : V -> Z -> res V.
  Variable of_num : Z -> V.
  Local Notation T := (tree (gleaf V)).
  Local Notation F := (tree (gleaf (bat V)) -> res (tree (gleaf (bat V)))).

  (** Lines 111-116: [@eqx.filter_vmap def make_ensemble(key)], called with keys. *)
  Definition make_ensemble (make : F) (keys : T) : res T :=
    filter_vmap V asize atake astack amove of_num make (Leaf (if_array 0)) [] (InTree (Leaf (if_array 0))) None [keys] 0.
  (** Lines 118-123: [@eqx.filter_vmap(in_axes=(eqx.if_array(0), None))]: the same data for every member. *)
  Definition evaluate_ensemble (call : F) (ensemble x : T) : res T :=
    filter_vmap V asize atake astack amove of_num call (Leaf (if_array 0)) []
      (InTree (Node tuple_kind [Leaf (if_array 0); TNone])) None [ensemble; x] 0.
  (** Lines 125-130: [@eqx.filter_vmap]: different data for the members. *)
  Definition evaluate_per_ensemble (call : F) (ensemble x : T) : res T :=
    filter_vmap V asize atake astack amove of_num call (Leaf (if_array 0)) [] (InTree (Leaf (if_array 0))) None [ensemble; x] 0.
End Ensemble.
