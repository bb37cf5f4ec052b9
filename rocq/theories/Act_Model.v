(** Model of the learnt activations of an MLP: equinox/nn/_mlp.py lines 112-126 and 141-152.

    - [filter_vmap] is that of Vmap_Model (default [in_axes], [out_axes]: [if_array(0)]). An activation is a PyTree; [call] is
      [lambda a, b: a(b)] as traced by [jax.vmap].
    - The inner [filter_vmap] of line 115 runs under the outer one, but nothing it sees is batched: its result is not batched either.
    - The linear layers are arbitrary functions of arrays (Mlp_Model has them). *)
From Verif Require Export Vmap_Model.
Local Open Scope nat_scope.
Local Open Scope list_scope.

Section Act.
  Variable V : Type.
  Variable asize : V -> Z -> res nat.
  Variable atake : V -> Z -> nat -> V.
  Variable astack : list V -> V.
  Variable amove : V -> Z -> res V.
  Variable of_num : Z -> V.
  Variable call : tree (gleaf (bat V)) -> res (tree (gleaf (bat V))).

  Definition vmap_default (fn : tree (gleaf (bat V)) -> res (tree (gleaf (bat V)))) (axis_size : option nat) (args : list (tree (gleaf V))) : res (tree (gleaf V)) :=
    filter_vmap V asize atake astack amove of_num fn (Leaf (if_array 0)) [] (InTree (Leaf (if_array 0))) axis_size args 0.
  (** Lines 114-116. *)
  Definition copies (act : tree (gleaf V)) (width depth : nat) : res (tree (gleaf V)) :=
    vmap_default (fun _ => rmap (up (emb V)) (vmap_default (fun _ => Ok (up (emb V) act)) (Some width) [])) (Some depth) [].
  (** Lines 117-122; [None]: ["scalar"]. *)
  Definition final_copies (act : tree (gleaf V)) (out_size : option nat) : res (tree (gleaf V)) :=
    match out_size with
    | None => Ok act
    | Some n => vmap_default (fun _ => Ok (up (emb V) act)) (Some n) []
    end.
  (** Lines 143-145. *)
  Definition layer_activation (i : nat) (acts : tree (gleaf V)) : tree (gleaf V) :=
    tmap no_leaf (fun x => match x with Leaf (Arr a) => Leaf (Arr (atake a 0 i)) | _ => x end) acts.
  (** Lines 146 and 151. *)
  Definition activate (act : tree (gleaf V)) (x : tree (gleaf V)) : res (tree (gleaf V)) := vmap_default call None [act; x].
  (** Lines 141-152. *)
  Fixpoint run (i : nat) (layers : list (tree (gleaf V) -> res (tree (gleaf V)))) (acts final : tree (gleaf V)) (out_size : option nat)
      (call1 : tree (gleaf V) -> res (tree (gleaf V))) (x : tree (gleaf V)) : res (tree (gleaf V)) :=
    match layers with
    | [] => Err IndexError
    | [layer] =>
        x <- layer x ;;
        match out_size with None => call1 (Node tuple_kind [final; x]) | Some _ => activate final x end
    | layer :: layers' =>
        x <- layer x ;;
        x <- activate (layer_activation i acts) x ;;
        run (i + 1) layers' acts final out_size call1 x
    end.
End Act.
