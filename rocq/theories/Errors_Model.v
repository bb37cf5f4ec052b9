(** Model of error_if, branched_error_if, assert_dce: equinox/_errors.py lines 30-39, 81-157, 199-365,
    and equinox/_unvmap.py.

    - An array is its dtype and the list of all its values, batch axes included. Under [vmap] the
      predicate, index and [x] are the whole batches: [unvmap_any] and [unvmap_max] have batching
      rules that pass the batched array on and return an unbatched scalar (lines 61-63, 92-94), so
      that [lax.cond] sees an unbatched predicate.
    - [is_array] values become tracers in [branched_error_if_impl_jit]; Python bools and ints stay
      concrete. Extended dtypes (PRNG keys) and TPUs are not modelled.
    - The traceback text is not modelled; a run-time error means that the compiled program is
      executed and its result used (no dead code elimination). *)
From Coq Require Export String.
From Verif Require Export Filters_Model.
Export ListNotations.
Local Open Scope nat_scope.
Local Open Scope list_scope.

Inductive kind := Inexact | Integer | Boolean | OtherKind.
Section Errors.
  Variables (V D Ob : Type).
  (** kind of a dtype, and its NaN, its largest integer, or True. *)
  Variable kind_of : D -> kind.
  Variable fill : D -> V.
  (** What [np.result_type] makes of an object that is no array: nothing (TypeError), or the dtype
      it is or names (a Python number; a string like "float32"). *)
  Variable np_type : Ob -> option D.
  Inductive leaf := Arr (d : D) (vs : list V) | Obj (o : Ob).
  Local Notation T := (tree leaf).
  Definition leaf_is_array (t : T) : bool := match t with Leaf (Arr _ _) => true | _ => false end.

  Inductive predicate := PyBool (b : bool) | BoolArr (bs : list bool).
  Inductive index := PyInt (z : Z) | IntArr (zs : list Z).

  (** [_nan_like]: lines 30-39. Objects that are no arrays have no [.shape]. *)
  Definition nan_like (l : leaf) : res leaf :=
    match l with
    | Arr d vs => match kind_of d with OtherKind => Ok l | _ => Ok (Arr d (map (fun _ => fill d) vs)) end
    | Obj o =>
        match np_type o with
        | None => Err TypeError
        | Some d => match kind_of d with OtherKind => Ok l | _ => Err AttributeError end
        end
    end.
  Fixpoint nan_tree (t : T) : res T :=
    match t with
    | Leaf l => l' <- nan_like l ;; Ok (Leaf l')
    | TNone => Ok TNone
    | Node k cs => cs' <- mapM nan_tree cs ;; Ok (Node k cs')
    end.

  (** Lines 125-127: in breakpoint mode [_nan_like] is mapped over [jax.ShapeDtypeStruct]s; one that
      it returns unchanged (dtype not numpy's inexact, integer or bool, e.g. bfloat16) is no array and
      [pure_callback] fails. *)
  Definition odd_leaf (t : T) : bool :=
    match t with Leaf (Arr d _) => match kind_of d with OtherKind => true | _ => false end | _ => false end.

  (** Python's indexing of a sequence. *)
  Definition py_index {X} (l : list X) (i : Z) : res X :=
    let n := Z.of_nat (length l) in
    let j := if (i <? 0)%Z then (i + n)%Z else i in
    if ((0 <=? j) && (j <? n))%Z then match nth_error l (Z.to_nat j) with Some x => Ok x | None => Err IndexError end else Err IndexError.
  (** [unvmap_any], [unvmap_max]: lines 53-63, 84-94 of _unvmap.py. [jnp.max] refuses empty arrays. *)
  Definition unvmap_any (bs : list bool) : bool := existsb (fun b => b) bs.
  Definition unvmap_max (zs : list Z) : res Z := match zs with [] => Err ValueError | z :: r => Ok (fold_left Z.max r z) end.

  (** Returned; raised while tracing (EquinoxTracetimeError); raised at run time (EquinoxRuntimeError);
      another Python error; an error within the run-time callback. *)
  Inductive result := Return (x : T) | TraceError (msg : string) | RunError (msg : string) | Raises (e : exn) | CallbackFails.
  (** Breakpoints opened, with the message printed: while tracing, at run time. *)
  Inductive event := TraceBreak (msg : string) | RunBreak (msg : string).
  Definition outcome := (list event * result)%type.

  (** [_error]: lines 81-157, on the dynamic part, with the values at run time. *)
  Definition error (mode : string) (x : T) (pred : bool) (i : Z) (msgs : list string) (k : T -> result) : outcome :=
    if negb pred then ([], k x)
    else if String.eqb mode "raise" then ([], match py_index msgs i with Ok m => RunError m | Err _ => CallbackFails end)
    else if String.eqb mode "breakpoint" then
      match py_index msgs i with
      | Ok m => ([RunBreak m], if existsb odd_leaf (leaves no_leaf x) then CallbackFails else
                               match nan_tree x with Ok y => k y | Err e => Raises e end)
      | Err _ => ([], CallbackFails)
      end
    else if String.eqb mode "nan" then ([], match nan_tree x with Ok y => k y | Err e => Raises e end)
    else ([], Raises AssertionError).

  (** [branched_error_if_impl]: lines 283-344. [env]: EQX_ON_ERROR. The first argument of the pair
      says whether the value is concrete while tracing. *)
  Definition valid_mode (m : string) : bool := String.eqb m "raise" || String.eqb m "breakpoint" || String.eqb m "nan".
  Definition pred_value (p : predicate) : bool * bool := match p with PyBool b => (true, b) | BoolArr bs => (false, unvmap_any bs) end.
  Definition index_value (i : index) : res (bool * Z) := match i with PyInt z => Ok (true, z) | IntArr zs => z <- unvmap_max zs ;; Ok (false, z) end.
  Definition runtime (mode : string) (x : T) (pred : bool) (i : Z) (msgs : list string) : outcome :=
    match eqx_partition no_leaf TNone x (Leaf (SCall leaf_is_array)) with
    | Err e => ([], Raises e)
    | Ok (dynamic, static) =>
        if length (leaves no_leaf dynamic) =? 0 then ([], Raises ValueError)
        else error mode dynamic pred i msgs (fun d => match eqx_combine no_leaf [d; static] with Ok y => Return y | Err e => Raises e end)
    end.
  Definition impl (env mode : string) (x : T) (p : predicate) (i : index) (msgs : list string) : outcome :=
    let mode' := if String.eqb mode "default" then env else mode in
    if negb (String.eqb mode "default") && negb (valid_mode mode) then ([], Raises RuntimeError) else
    let '(pc, pred) := pred_value p in
    match index_value i with
    | Err e => ([], Raises e)
    | Ok (ic, idx) =>
        if pc && negb pred then ([], Return x)
        else if pc && ic then
          if String.eqb mode' "raise" then ([], match py_index msgs idx with Ok m => TraceError m | Err e => Raises e end)
          else if String.eqb mode' "breakpoint" then
            match py_index msgs idx with
            | Err e => ([], Raises e)
            | Ok m => let '(ev, r) := runtime mode' x pred idx msgs in (TraceBreak m :: ev, r)
            end
          else if String.eqb mode' "nan" then ([], match nan_tree x with Ok y => Return y | Err e => Raises e end)
          else ([], Raises AssertionError)
        else runtime mode' x pred idx msgs
    end.
  (** [branched_error_if]: lines 261-280. Both branches run [impl]; without arrays nothing is traced and
      both values are Python's. *)
  Definition branched_error_if := impl.
  Definition error_if (env mode : string) (x : T) (p : predicate) (msg : string) : outcome := branched_error_if env mode x p (PyInt 0) [msg].
  (** Lines 352-365. *)
  Definition assert_dce (env mode : string) (jitting : bool) (x : T) (msg : string) : outcome :=
    if jitting then error_if env mode x (BoolArr [true]) msg else ([], Return x).
End Errors.
