(** Model of the rules of the primitive behind [noinline]: equinox/internal/_noinline.py lines 89-126 and 132-341. (The registry of
    functions is in Noinline_Model.)

    - A leaf is an array, an undefined primal (during transposition), or any other object. An array is its shape and its entries by
      multi-index; [jnp.swapaxes(a, 0, k)] and slicing permute, respectively insert, indices.
    - A function takes and returns PyTrees. Transformations of functions are functions on functions; the library's [filter_jvp] (property C55)
      and [jax.linear_transpose] are arbitrary. [filter_vmap] with axes 0 and None (property C31) calls the function on the slices and stacks
      the results along axis 0 with an arbitrary function [stack]; [n] is the size of the mapped axes.
    - By property C45 the rules get the arguments passed to [filter_primitive_bind]. [batching.not_mapped] is [None].
    - The lowering (lines 292-331) is modelled as its packing of arguments into a callback and their recovery there. *)
From Verif Require Export Filters_Model Prim_Model.
Local Open Scope nat_scope.
Local Open Scope list_scope.

(** Exchange of the first entry of a list with entry [k]. *)
Definition swap0 {X} (k : nat) (l : list X) : list X :=
  match k, l with
  | S j, x :: r => match nth_error r j with Some y => y :: firstn j r ++ x :: skipn (S j) r | None => l end
  | _, _ => l
  end.

Section Rules.
  Variable V : Type.
  Record array := { shape : list nat; entry : list nat -> V }.
  Inductive val := Arr (a : array) | Undef (aval : nat) | Obj (o : nat).
  Notation T := (tree val).
  Definition F := T -> res T.

  (** [jnp.swapaxes(a, 0, k)] *)
  Definition swapaxes0 (k : nat) (a : array) : array :=
    {| shape := swap0 k (shape a); entry := fun idx => entry a (swap0 k idx) |}.
  (** [jnp.take(a, b, axis=k)] *)
  Definition take (k b : nat) (a : array) : array :=
    {| shape := firstn k (shape a) ++ skipn (S k) (shape a);
       entry := fun idx => entry a (firstn k idx ++ b :: skipn k idx) |}.

  (** ** Binding the primitive: lines 191-197 *)
  Definition denote (ts : list (F -> F)) (static_fn : F) : F := fold_left (fun f t => t f) ts static_fn.
  Definition bind_noinline (fn : nat -> option F) (index : nat) (ts : list (F -> F)) (args : T) : res T :=
    match fn index with None => Err IndexError | Some f => denote ts f args end.

  (** ** Batching: lines 89-100, 184-188, 257-283 *)
  Variable n : nat.
  Variable stack : list T -> res T.
  Definition move_to_front (v : T) (axis : tree nat) : res T :=
    match axis, v with
    | TNone, _ => Ok v
    | Leaf k, Leaf (Arr a) => Ok (Leaf (Arr (swapaxes0 k a)))
    | _, _ => Err TypeError
    end.
  Definition int_to_zero (axis : tree nat) : tree nat := match axis with TNone => TNone | _ => Leaf 0 end.
  (** What [filter_vmap] passes to the function in lane [b]. *)
  Definition lane (b : nat) (v : T) (axis : tree nat) : res T :=
    match axis, v with
    | TNone, _ => Ok v
    | Leaf k, Leaf (Arr a) => Ok (Leaf (Arr (take k b a)))
    | _, _ => Err ValueError
    end.
  Definition vmapped (axes : tree nat) (f : F) : F := fun args =>
    outs <- mapM (fun b => x <- tmap2 is_none (lane b) args axes ;; f x) (seq 0 n) ;;
    stack outs.
  Definition batch_rule (fn : nat -> option F) (index : nat) (ts : list (F -> F)) (args : T) (axes : tree nat) : res T :=
    args <- tmap2 is_none move_to_front args axes ;;
    let axes := tmap is_none int_to_zero axes in
    bind_noinline fn index (ts ++ [vmapped axes]) args.

  (** ** Forward-mode derivatives: lines 149-162, 213-231 *)
  Variable filter_jvp : F -> T -> T -> res (T * T).
  Definition pair (a b : T) : T := Node 0 [a; b].
  Definition unpair (t : T) : res (T * T) := match t with Node _ [a; b] => Ok (a, b) | _ => Err ValueError end.
  Definition jvp_transform (f : F) : F := fun args =>
    '(args, t_args) <- unpair args ;;
    let tang_is_none := tmap is_none (fun t => Leaf (SBool (is_none t))) t_args in
    '(no_tang, has_tang) <- eqx_partition is_none TNone args tang_is_none ;;
    '(_, t_out) <- filter_jvp (fun has_tang => x <- eqx_combine no_leaf [has_tang; no_tang] ;; f x) has_tang t_args ;;
    Ok t_out.
  Definition jvp_rule (fn : nat -> option F) (index : nat) (ts : list (F -> F)) (args t_args : T) : res (T * T) :=
    primal_outs <- bind_noinline fn index ts args ;;
    tangent_outs <- bind_noinline fn index (ts ++ [jvp_transform]) (pair args t_args) ;;
    Ok (primal_outs, tangent_outs).

  (** ** Transposition: lines 165-181, 234-254 *)
  Variable linear_transpose : F -> T -> T -> res T.
  Definition is_undef (v : val) : bool := match v with Undef _ => true | _ => false end.
  Definition transpose_transform (undefined : T) (f : F) : F := fun args =>
    '(defined, cts_out) <- unpair args ;;
    linear_transpose (fun u => x <- eqx_combine no_leaf [defined; u] ;; f x) undefined cts_out.
  Definition transpose_rule (fn : nat -> option F) (index : nat) (ts : list (F -> F)) (args cts_out : T) : res T :=
    '(undefined, defined) <- eqx_partition no_leaf TNone args (Leaf (SCall (on_leaf is_undef))) ;;
    bind_noinline fn index (ts ++ [transpose_transform undefined]) (pair defined cts_out).

  (** ** Abstract evaluation: lines 57-71, 132-146, 456-458. [fn_of] turns the arrays of the function into the function. *)
  Variable fn_of : T -> res (T -> T -> res T).
  Definition impl_transform : F := fun args =>
    match args with
    | Node _ [dynamic_fn; a; kw] => f <- fn_of dynamic_fn ;; f a kw
    | _ => Err ValueError
    end.
  Definition default_abstract_fn (dynamic_fn a kw : T) : res T := f <- fn_of dynamic_fn ;; f a kw.
  Definition abstract_transform (abstract_fn : T -> T -> T -> res T) : F := fun args =>
    match args with Node _ [dynamic_fn; a; kw] => abstract_fn dynamic_fn a kw | _ => Err ValueError end.
End Rules.

(** ** The compiled path: lines 103-126 and 303-318 *)
Section Lowering.
  Variables X : Type.      (* objects *)
  Inductive dyn := Val (x : X) | Float0 (shape : list nat).
  (** A leaf of [(transforms, args)]: an array, or another object. *)
  Inductive leaf := Dyn (d : dyn) | Sta (x : X).
  (** Lines 312-315. *)
  Definition dynamic_of (flat : list leaf) : list dyn := flat_map (fun l => match l with Dyn d => [d] | Sta _ => [] end) flat.
  Definition static_of (flat : list leaf) : list (option X) := map (fun l => match l with Dyn _ => None | Sta x => Some x end) flat.
  Definition is_float0_of (flat : list leaf) : list bool := map (fun d => match d with Float0 _ => true | Val _ => false end) (dynamic_of flat).
  (** What the callback gets: values of type float0 are cast to booleans. *)
  Inductive got := GVal (x : X) | GBool (shape : list nat).
  Definition passed (d : dyn) : got := match d with Val x => GVal x | Float0 s => GBool s end.
  Variable shape_of : X -> list nat.
  (** Lines 108-112. *)
  Definition restore (g : got) (float0 : bool) : dyn :=
    if float0 then Float0 (match g with GBool s => s | GVal x => shape_of x end) else
    match g with GVal x => Val x | GBool s => Float0 s end.
  (** Lines 113-115. *)
  Fixpoint merge (static : list (option X)) (dynamic : list dyn) : res (list leaf) :=
    match static, dynamic with
    | [], [] => Ok []
    | [], _ :: _ => Err AssertionError
    | None :: s, d :: ds => r <- merge s ds ;; Ok (Dyn d :: r)
    | None :: _, [] => Err (OtherError 0)
    | Some x :: s, ds => r <- merge s ds ;; Ok (Sta x :: r)
    end.
  Definition callback_args (static : list (option X)) (is_float0 : list bool) (dynamic : list got) : res (list leaf) :=
    if negb (Nat.eqb (length dynamic) (length is_float0)) then Err AssertionError else
    merge static (map (fun p => restore (fst p) (snd p)) (List.combine dynamic is_float0)).
End Lowering.
