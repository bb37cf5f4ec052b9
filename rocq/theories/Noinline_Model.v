(** Model of [noinline]: equinox/internal/_noinline.py lines 103-140, 188-196, 253-283, 344-366
    and 453-468.

    Simplifications: functions are pytrees over an abstract type of leaves [L]; [apply fn args
    kwargs] stands for running [fn] with the given arguments. The dictionary [_fn_to_index] is an association
    list searched with the comparison [heq] (Python's [==] on the static part of a function:
    static leaves and structure), which is arbitrary except where a theorem says otherwise. The
    primitive is evaluated directly ([_noinline_impl]); by C45 its rule gets the arguments
    passed to [filter_primitive_bind]. The compiled path ([_get_callback], lines 103-124) looks
    the function up and applies the transformations in the same way. *)
From Verif Require Export Hashable_Model.

Section Noinline.
  Context {L : Type}.
  Variable is_arr : tree L -> bool.
  Definition static_fn : Type := list (tree L) * tree unit.
  Variable heq : static_fn -> static_fn -> bool.
  Variable hashable : static_fn -> bool.
  Variable apply : tree L -> tree L -> tree L -> res (tree L).

  (** Lines 344-345. *)
  Record registry : Type := mk_registry {
    fn_to_index : list (static_fn * nat);
    index_to_fn : list static_fn }.
  Definition empty_registry : registry := mk_registry [] [].

  Definition dict_get (d : list (static_fn * nat)) (k : static_fn) : option nat :=
    match find (fun e => heq (fst e) k) d with Some e => Some (snd e) | None => None end.

  (** Lines 348-351. [dynamic_index] is an array: of one entry, or batched. *)
  Record wrapper : Type := mk_wrapper {
    dynamic_index : nat;
    dynamic_fn : list (tree L) }.

  (** Lines 453-468. *)
  Definition noinline (reg : registry) (fn : tree L) : res wrapper * registry :=
    let '(dyn, sta) := hashable_partition fn is_arr in
    if negb (hashable sta) then (Err TypeError, reg) else
    match dict_get (fn_to_index reg) sta with
    | Some i => (Ok (mk_wrapper i dyn), reg)
    | None =>
        let i := length (index_to_fn reg) in
        (Ok (mk_wrapper i dyn),
         mk_registry (fn_to_index reg ++ [(sta, i)]) (index_to_fn reg ++ [sta]))
    end.

  Definition step (reg : registry) (fn : tree L) : registry := snd (noinline reg fn).
  Definition after (h : list (tree L)) : registry := fold_left step h empty_registry.

  (** Lines 130-137. The argument is the tuple (dynamic_fn, args, kwargs). *)
  Definition impl_transform (sta : static_fn) (a : list (tree L) * tree L * tree L) : res (tree L) :=
    let '(dyn, args, kwargs) := a in
    fn <- hashable_combine dyn sta ;; apply fn args kwargs.

  (** Lines 188-196; [transforms] are those after [_impl_transform] (lines 221-227, 246-252,
      276-282 append at the end). *)
  Definition fun_t (X : Type) : Type := X -> res (tree L).
  Definition noinline_impl {X : Type} (reg : registry) (i : nat)
      (transform : fun_t (list (tree L) * tree L * tree L) -> fun_t X) (args : X) : res (tree L) :=
    match nth_error (index_to_fn reg) i with
    | None => Err IndexError
    | Some sta => transform (impl_transform sta) args
    end.

  (** Lines 359-366. *)
  Definition call (reg : registry) (w : wrapper) (args kwargs : tree L) : res (tree L) :=
    noinline_impl reg (dynamic_index w) (fun f => f) (dynamic_fn w, args, kwargs).

  (** Lines 257-268: the index of a batched call. *)
  Definition batch_index (index : list nat) : res nat :=
    match index with i :: _ => Ok i | [] => Err IndexError end.
End Noinline.
Arguments static_fn L : clear implicits.
Arguments registry L : clear implicits.
Arguments wrapper L : clear implicits.
