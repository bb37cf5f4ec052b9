(** Model of the replacement of [jax.jit] for EQX_ON_ERROR=breakpoint: equinox/_errors.py lines 171-191 (with [currently_jitting], equinox/_misc.py
    lines 12-13); of its effect on [filter_jit(...).lower], equinox/_jit.py lines 63, 217-218 and 246-252; and of the warning about transformed functions
    as attributes, equinox/_module.py lines 506-508, 671-752 and 815.

    Simplifications. A program is a tree of calls: the function of a node calls its children in order and computes a result from theirs, or raises. [jax.jit]
    does not change results. An object is its type, whether it is a pytree with an array-like leaf, and its [__wrapped__]. *)
From Verif Require Export Base.
Local Open Scope nat_scope.
Local Open Scope list_scope.

Section Run.
  Variable V : Type.
  (** [jitted]: the function was decorated with [jax.jit] (after equinox was imported). *)
  Inductive prog := Node (id : nat) (jitted : bool) (op : list V -> res V) (calls : list prog).
  (** [Traced id n]: the body of the function runs below [n] compiled functions; [Ignored id]: the warning of lines 181-184. *)
  Inductive event := Traced (id n : nat) | Ignored (id : nat).
  (** Calls in order, up to the first that raises. *)
  Definition run_list (f : prog -> res V * list event) : list prog -> res (list V) * list event :=
    fix go (l : list prog) : res (list V) * list event :=
      match l with
      | [] => (Ok [], [])
      | q :: l =>
          let '(v, e) := f q in
          match v with
          | Err x => (Err x, e)
          | Ok v => let '(vs, e') := go l in (rmap (cons v) vs, e ++ e')
          end
      end.
  (** [patched]: EQX_ON_ERROR=breakpoint; [depth]: the number of compiled functions around. *)
  Fixpoint run (patched : bool) (depth : nat) (p : prog) : res V * list event :=
    match p with
    | Node id jitted op calls =>
        let ignored := patched && jitted && (0 <? depth) in
        let depth' := if jitted && negb ignored then S depth else depth in
        let '(vs, ev) := run_list (run patched depth') calls in
        (match vs with Ok vs => op vs | Err x => Err x end, (if ignored then [Ignored id] else []) ++ Traced id depth' :: ev)
    end.
End Run.
Arguments Node {V}. Arguments run_list {V}. Arguments run {V}.

(** Types of callables. *)
Inductive ty := TFunction | TPjit | TPmap | TCustom_jvp | TCustom_vjp | TOther.
Inductive obj := Obj (t : ty) (arrays : bool) (wrapped : option obj).
Inductive transform := Jit | Grad | Vmap | Value_and_grad | Jacfwd | Jacrev | Hessian | Custom_jvp | Custom_vjp | Checkpoint | Pmap.
(** The result of a transformation of jax; all of them set [__wrapped__]. The replaced [jax.jit] gives a plain function without it (line 177). *)
Definition transformed (patched : bool) (t : transform) (f : obj) : obj :=
  match t with
  | Jit => if patched then Obj TFunction false None else Obj TPjit false (Some f)
  | Custom_jvp => Obj TCustom_jvp false (Some f)
  | Custom_vjp => Obj TCustom_vjp false (Some f)
  | Pmap => Obj TPmap false (Some f)
  | _ => Obj TFunction false (Some f)
  end.
(** [_transform_types]; [_module.py] is imported before [jax.jit] is replaced. *)
Definition transform_type (t : ty) : bool := match t with TOther => false | _ => true end.
(** Lines 701-710 of _module.py: whether something below has an array. *)
Fixpoint below (x : obj) : bool := match x with Obj _ _ None => false | Obj _ _ (Some y) => (match y with Obj _ a _ => a end) || below y end.
(** [_warn_jax_transformed_function] *)
Definition warns (x : obj) : bool := match x with Obj t _ _ => transform_type t && below x end.
(** Attribute values: containers of objects. *)
Inductive value := Leaf (x : obj) | Container (l : list value).
Fixpoint leaves (v : value) : list obj := match v with Leaf x => [x] | Container l => (fix go l := match l with [] => [] | v :: l => leaves v ++ go l end) l end.
(** The warnings of [Module(...)]: with the generated [__init__] for all leaves of the arguments, otherwise for every assigned value itself. *)
Definition warnings_dataclass (args : list value) : nat := List.length (List.filter warns (List.concat (map leaves args))).
Definition warnings_setattr (v : value) : nat := match v with Leaf x => if warns x then 1 else 0 | Container _ => 0 end.
Definition warnings_init (assigned : list value) : nat := list_sum (map warnings_setattr assigned).

(** Attributes of what [jax.jit] returns. *)
Inductive attr := Call | Lower | Wrapped.
Definition has_attr (patched : bool) (a : attr) : bool := match a with Call => true | _ => negb patched end.
(** [filter_jit(f).lower(...)]: line 248 of _jit.py. *)
Definition filter_jit_lower (patched : bool) : res unit := if has_attr patched Lower then Ok tt else Err AttributeError.
