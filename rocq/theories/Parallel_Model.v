(** Model of the memory of examples/parallelism.ipynb lines 105-189: [filter_shard] (C96), [filter_jit(donate=...)] (C62) and the loops around them.

    Simplifications. A PyTree is the list of its leaves, an array is a number standing for its buffer, which may have been deleted. Values are left out.
    Outside of a compiled
    function, [with_sharding_constraint] keeps an array that is where it should be, and copies one that is not; NumPy arrays are always copied. The results of a compiled
    function are new buffers. Whether XLA makes use of a donated buffer is arbitrary ([taken]); if so, the buffer is deleted. A compiled function refuses deleted
    buffers, and donated buffers given twice. Shardings: on the first device, on all devices, split over the devices by rows. *)
From Verif Require Import Base.
Local Open Scope nat_scope.
Local Open Scope list_scope.

Inductive place := Home | Replicated | Split.
Definition place_eqb (p q : place) : bool := match p, q with Home, Home | Replicated, Replicated | Split, Split => true | _, _ => false end.
Inductive leaf := Buf (b : nat) | Static (n : nat).
Definition bufs (t : list leaf) : list nat := flat_map (fun l => match l with Buf b => [b] | Static _ => [] end) t.
Record memory := mk_memory { next : nat; dead : list nat; where_ : nat -> place }.
Definition is_dead (m : memory) (b : nat) : bool := existsb (Nat.eqb b) (dead m).
Definition alloc (p : place) (m : memory) : nat * memory :=
  (next m, mk_memory (S (next m)) (dead m) (fun b => if Nat.eqb b (next m) then p else where_ m b)).

Section Parallel.
  Variable devices : nat.
  Variable taken : nat -> bool.

  (** [eqx.filter_shard(t, ...)] outside of a compiled function: the arrays are placed, other leaves are kept (equinox/_sharding.py lines 36-41). *)
  Fixpoint shard (p : place) (t : list leaf) (m : memory) : res (list leaf * memory) :=
    match t with
    | [] => Ok ([], m)
    | Static n :: t => '(t, m) <- shard p t m ;; Ok (Static n :: t, m)
    | Buf b :: t =>
        if is_dead m b then Err RuntimeError else
        let '(b, m) := if place_eqb (where_ m b) p then (b, m) else alloc p m in
        '(t, m) <- shard p t m ;; Ok (Buf b :: t, m)
    end.
  (** [eqx.filter_shard((x, y), sharding)] of NumPy arrays with so many rows. *)
  Definition shard_batch (rows : nat) (m : memory) : res (list leaf * memory) :=
    if Nat.eqb (rows mod devices) 0 then let '(x, m) := alloc Split m in let '(y, m) := alloc Split m in Ok ([Buf x; Buf y], m) else Err ValueError.

  Definition occurs (l : list nat) (b : nat) : bool := existsb (Nat.eqb b) l.
  Fixpoint repeats (l : list nat) : bool := match l with [] => false | b :: l => occurs l b || repeats l end.
  (** The arguments of a compiled function, donated or kept. *)
  Definition call (donated kept : list leaf) (m : memory) : res memory :=
    if existsb (is_dead m) (bufs donated ++ bufs kept) then Err RuntimeError else
    if repeats (bufs donated) || existsb (occurs (bufs kept)) (bufs donated) then Err RuntimeError else
    Ok (mk_memory (next m) (List.filter taken (bufs donated) ++ dead m) (where_ m)).
  (** Its results: non-arrays are as before. *)
  Fixpoint results (p : place) (t : list leaf) (m : memory) : list leaf * memory :=
    match t with
    | [] => ([], m)
    | Static n :: t => let '(t, m) := results p t m in (Static n :: t, m)
    | Buf _ :: t => let '(b, m) := alloc p m in let '(t, m) := results p t m in (Buf b :: t, m)
    end.

  (** Lines 105-117, [donate="all"]. *)
  Definition train_step (model opt xy : list leaf) (m : memory) : res (list leaf * list leaf * memory) :=
    m <- call (model ++ opt ++ xy) [] m ;;
    let '(model, m) := results Replicated model m in
    let '(opt, m) := results Replicated opt m in
    Ok (model, opt, m).
  (** Lines 143-147: one batch (given by its rows) after another. *)
  Fixpoint train (batches : list nat) (model opt : list leaf) (m : memory) : res (list leaf * list leaf * memory) :=
    match batches with
    | [] => Ok (model, opt, m)
    | rows :: batches =>
        '(xy, m) <- shard_batch rows m ;;
        '(model, opt, m) <- train_step model opt xy m ;;
        train batches model opt m
    end.
  (** Lines 142-147. *)
  Definition training (batches : list nat) (model opt : list leaf) (m : memory) : res (list leaf * list leaf * memory) :=
    '(model, m) <- shard Replicated model m ;; train batches model opt m.
  (** Lines 176-189, [donate="all-except-first"] or, if [all], ["all"]. *)
  Fixpoint evaluation (all : bool) (batches : list nat) (model : list leaf) (m : memory) : res memory :=
    match batches with
    | [] => Ok m
    | rows :: batches =>
        '(xy, m) <- shard_batch rows m ;;
        m <- (if all then call (model ++ xy) [] m else call xy model m) ;;
        let '(_, m) := alloc Replicated m in
        evaluation all batches model m
    end.
End Parallel.
