(** Model of primitives whose batching rule is derived: equinox/internal/_primitive.py lines 291-470 ([create_vprim], [_vprim_p]).

    - Arrays are of an arbitrary type [A]; [take k b a] is slice [b] along axis [k], [stack k l] stacks slices along axis [k]. [shape_ok] of the
      library, avals and parameters are left out; so is [axis_name].
    - [None] among axes is [not_mapped]; among tangents and cotangents, and among outputs of a transpose rule, it is the symbolic zero or [None].
    - [vmap] maps a function over slices, stacking outputs along axis 0 or the axes given. An output for which no axis is given but which is
      batched raises ValueError, as in [jax.vmap]; cotangents are batched, so everything a transpose rule returns for them is. *)
From Verif Require Export Base.
Local Open Scope nat_scope.
Local Open Scope list_scope.

Section Vprim.
  Variables (A : Type) (take : nat -> nat -> A -> A) (stack : nat -> list A -> A).
  (** A slice of an argument. *)
  Definition slice (b : nat) (axis : option nat) (x : A) : A := match axis with Some k => take k b x | None => x end.
  Definition slices (b : nat) (axes : list (option nat)) (xs : list A) : list A := map (fun p => slice b (fst p) (snd p)) (List.combine axes xs).

  (** A registered primitive: its [impl], [jvp] and [transpose] rules. The number of outputs does not depend on values. *)
  Record rules := {
    n_out : nat;
    r_impl : list A -> list A;
    r_jvp : list A -> list (option A) -> list A * list (option A);
    (** Cotangents, and for every input its value or [None] if it is an [UndefinedPrimal]. *)
    r_transpose : list (option A) -> list (option A) -> list (option A) }.
  (** [jax.vmap] of functions of lists, outputs along axis 0. *)
  Definition vmap (n m : nat) (f : nat -> list A) (d : A) : list A :=
    map (fun j => stack 0 (map (fun b => nth j (f b) d) (seq 0 n))) (seq 0 m).
  (** Outputs that may be symbolic zeros are so for all slices or none: it is decided by the trace, here of slice 0. *)
  Definition vmap_opt (n m : nat) (axes : nat -> option nat) (f : nat -> list (option A)) (d : A) : res (list (option A)) :=
    mapM (fun j => match nth j (f 0) None with
                   | None => Ok None
                   | Some _ => match axes j with
                               | Some k => Ok (Some (stack k (map (fun b => match nth j (f b) None with Some x => x | None => d end) (seq 0 n))))
                               | None => Err ValueError
                               end
                   end) (seq 0 m).

  (** A primitive, or [_vprim_p] with its parameters [prim], [__axis_size], [__batch_axes]. *)
  Inductive prim := Base (r : rules) | Vprim (p : prim) (axis_size : nat) (axes : list (option nat)).
  Fixpoint outs (p : prim) : nat := match p with Base r => n_out r | Vprim p _ _ => outs p end.
  Variable d : A.
  (** Lines 340-345. *)
  Fixpoint impl (p : prim) (xs : list A) : list A :=
    match p with
    | Base r => r_impl r xs
    | Vprim p n axes => vmap n (outs p) (fun b => impl p (slices b axes xs)) d
    end.
  (** Lines 371-409: tangents that are zero are not batched. *)
  Definition slice_t (b : nat) (axis : option nat) (t : option A) : option A := match t with Some t => Some (slice b axis t) | None => None end.
  Definition slices_t (b : nat) (axes : list (option nat)) (ts : list (option A)) : list (option A) :=
    map (fun p => slice_t b (fst p) (snd p)) (List.combine axes ts).
  Fixpoint jvp (p : prim) (xs : list A) (ts : list (option A)) : list A * list (option A) :=
    match p with
    | Base r => r_jvp r xs ts
    | Vprim p n axes =>
        let f b := jvp p (slices b axes xs) (slices_t b axes ts) in
        (vmap n (outs p) (fun b => fst (f b)) d,
         map (fun j => match nth j (snd (f 0)) None with
                       | None => None
                       | Some _ => Some (stack 0 (map (fun b => match nth j (snd (f b)) None with Some t => t | None => d end) (seq 0 n)))
                       end) (seq 0 (outs p)))
    end.
  (** Lines 412-465; [xs]: [None] is an [UndefinedPrimal]. *)
  Fixpoint transpose (p : prim) (cts : list (option A)) (xs : list (option A)) : res (list (option A)) :=
    match p with
    | Base r => Ok (r_transpose r cts xs)
    | Vprim p n axes =>
        fs <- mapM (fun b => transpose p (map (slice_t b (Some 0)) cts) (slices_t b axes xs)) (seq 0 n) ;;
        vmap_opt n (length xs) (fun i => nth i axes None) (fun b => nth b fs []) d
    end.
  (** Lines 308-327: the batching rule, of any such primitive. *)
  Definition batch_rule (p : prim) (axis_size : nat) (xs : list A) (axes : list (option nat)) : list A * list (option nat) :=
    if forallb (fun b => match b with None => true | Some _ => false end) axes then
      let out := impl p xs in (out, map (fun _ => None) out)
    else
      let out := impl (Vprim p axis_size axes) xs in (out, map (fun _ => Some 0) out).
End Vprim.
