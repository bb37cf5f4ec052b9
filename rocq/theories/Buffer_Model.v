(** Model of the primitives behind loop buffers: equinox/internal/_loop/common.py lines 23-137 ([select_if_vmap]), 140-258 ([maybe_set]),
    283-364 ([_Buffer], [buffer_at_set]).

    - Entries are of an arbitrary type [V] with zero, sum and product where derivatives need these. [None] stands for the symbolic zero [ad.Zero].
    - [real] is true if a select happens: [makes_false_steps], or a batched predicate (lines 123-137 and 102-104).
    - Buffers are one-dimensional, indices are natural numbers. dtypes, the checks of lines 237-248 and the shape assertions are left out.
    - In the batching rule arrays are functions of multi-indices. *)
From Verif Require Export Base.
Local Open Scope nat_scope.
Local Open Scope list_scope.

(** Lines 23-32 and 123-137. *)
Definition select_if_vmap {A} (real pred : bool) (x y : A) : A := if real then (if pred then x else y) else x.

(** ** The batching rule of [select_if_vmap], lines 80-105 *)
Section Batch.
  Variable V : Type.
  Definition arr T := list nat -> T.
  (** [jnp.moveaxis(a, k, 0)] and [jnp.broadcast_to(a, (axis_size,) + a.shape)] *)
  Definition insert (k b : nat) (i : list nat) : list nat := firstn k i ++ b :: skipn k i.
  Definition move_front {T} (k : nat) (a : arr T) : arr T := fun i => match i with b :: i' => a (insert k b i') | [] => a [] end.
  Definition stretch {T} (a : arr T) : arr T := fun i => match i with _ :: i' => a i' | [] => a [] end.
  Definition front {T} (k : option nat) (a : arr T) : arr T := match k with Some k => move_front k a | None => stretch a end.
  (** What gets computed: the primitive again, with the predicate an array without axes ([Again]), or [jax.vmap(lax.select)] ([Select]),
      over arrays whose batch axis is the first one. *)
  Inductive batched := Again (pred : bool) (x y : arr V) | Select (pred : arr bool) (x y : arr V).
  (** [predicate]: an array with only batch axes. *)
  Definition select_batch (pred : arr bool) (x y : arr V) (bp bx by_ : option nat) : batched * option nat :=
    match bp with
    | None =>
        match bx, by_ with
        | None, None => (Again (pred []) x y, None)
        | _, _ => (Again (pred []) (front bx x) (front by_ y), Some 0)
        end
    | Some _ => (Select (front bp pred) (front bx x) (front by_ y), Some 0)
    end.
  Definition run_batched (o : batched) : arr V :=
    match o with
    | Again p x y => fun i => select_if_vmap false p (x i) (y i)
    | Select p x y => fun i => match i with b :: _ => if p [b] then x i else y i | [] => x i end
    end.
End Batch.

(** ** Derivative rules *)
Section Ad.
  Variables (V : Type) (zero : V).
  Definition materialise (t : option V) : V := match t with Some t => t | None => zero end.
  (** Lines 39-55. *)
  Definition select_jvp (real pred : bool) (x y : V) (tx ty : option V) : V * option V :=
    (select_if_vmap real pred x y,
     match tx, ty with
     | None, None => None
     | _, _ => Some (select_if_vmap real pred (materialise tx) (materialise ty))
     end).
  (** Lines 58-77; [ux], [uy]: is the argument one to be transposed with respect to ([UndefinedPrimal])? *)
  Definition select_transpose (real pred : bool) (ct : option V) (ux uy : bool) : option V * option V :=
    match ct with
    | None => (None, None)
    | Some ct => (if ux then Some (select_if_vmap real pred ct zero) else None,
                  if uy then Some (select_if_vmap real pred zero ct) else None)
    end.

  Fixpoint upd {A} (l : list A) (i : nat) (x : A) : list A :=
    match l, i with [], _ => [] | _ :: l, O => x :: l | y :: l, S i => y :: upd l i x end.
  (** Lines 140-145, of an index in range. *)
  Definition maybe_set (real pred : bool) (xs : list V) (i : nat) (x : V) : list V :=
    upd xs i (select_if_vmap real pred x (nth i xs zero)).
  Definition zeros_like (xs : list V) : list V := map (fun _ => zero) xs.
  (** Lines 154-172. *)
  Definition maybe_set_jvp (real pred : bool) (xs : list V) (i : nat) (x : V) (t_xs : option (list V)) (t_x : option V)
    : list V * option (list V) :=
    (maybe_set real pred xs i x,
     match t_xs, t_x with
     | None, None => None
     | _, _ => Some (maybe_set real pred (match t_xs with Some t => t | None => zeros_like xs end) i (materialise t_x))
     end).
  (** Lines 175-214. The cotangent of the buffer is passed on as it is. *)
  Definition maybe_set_transpose (real pred : bool) (ct : option (list V)) (i : nat) (uxs ux : bool) : option (list V) * option V :=
    (if uxs then ct else None,
     if ux then match ct with None => None | Some c => Some (select_if_vmap real pred (nth i c zero) zero) end else None).

  (** ** Straight-line linear programs over a buffer, and JAX's backward pass over them
      A program reads buffer entries to, and writes buffer entries from, a list of numbers, and computes linear combinations of these; each
      instruction but [Write] adds a number to the front of the list. *)
  Variables (add mul : V -> V -> V).
  Inductive instr :=
  | Read (j : nat)
  | Lin (c : list V)
  | Write (real pred : bool) (i k : nat).
  Fixpoint dot (u v : list V) : V := match u, v with x :: u', y :: v' => add (mul x y) (dot u' v') | _, _ => zero end.
  Definition forward1 (o : instr) (s : list V * list V) : list V * list V :=
    let '(env, b) := s in
    match o with
    | Read j => (nth j b zero :: env, b)
    | Lin c => (dot c env :: env, b)
    | Write real pred i k => (env, maybe_set real pred b i (nth k env zero))
    end.
  Definition forward (p : list instr) (s : list V * list V) : list V * list V := fold_left (fun s o => forward1 o s) p s.
  (** Adding to one cotangent, and to all; missing ones are zero. *)
  Definition add_at (l : list V) (i : nat) (x : V) : list V := upd l i (add (nth i l zero) x).
  Definition add_scaled (l c : list V) (x : V) : list V := map (fun n => add (nth n l zero) (mul (nth n c zero) x)) (seq 0 (length l)).
  (** Cotangents before an instruction from those after. *)
  Definition backward1 (o : instr) (s : list V * list V) : list V * list V :=
    let '(ce, cb) := s in
    match o with
    | Read j => match ce with c :: ce' => (ce', add_at cb j c) | [] => ([], cb) end
    | Lin cs => match ce with c :: ce' => (add_scaled ce' cs c, cb) | [] => ([], cb) end
    | Write real pred i k =>
        let '(c_xs, c_x) := maybe_set_transpose real pred (Some cb) i true true in
        (add_at ce k (materialise c_x), match c_xs with Some c => c | None => zeros_like cb end)
    end.
  Definition backward (p : list instr) (s : list V * list V) : list V * list V := fold_right backward1 s p.
End Ad.

(** ** Writes: modes of indices out of range, lines 283-364 *)
Section Write.
  Variables (V : Type) (fill : V).
  (** [mode] among the keyword arguments: none given, or ["clip"]. Without, reads out of range give a filler and writes out of range are dropped. *)
  Inductive mode := Default | Clip.
  Definition place (m : mode) (n i : nat) : option nat :=
    if Nat.ltb i n then Some i else match m with Default => None | Clip => match n with O => None | S n' => Some n' end end.
  Definition at_get (m : mode) (xs : list V) (i : nat) : V :=
    match place m (length xs) i with Some i => nth i xs fill | None => fill end.
  Definition at_set (m : mode) (xs : list V) (i : nat) (x : V) : list V :=
    match place m (length xs) i with Some i => upd xs i x | None => xs end.
  (** Lines 140-145. *)
  Definition maybe_set_mode (real pred : bool) (m : mode) (xs : list V) (i : nat) (x : V) : list V :=
    at_set m xs i (select_if_vmap real pred x (at_get m xs i)).

  (** Lines 283-306: a buffer is an array, or a buffer of an enclosing loop, and a predicate. *)
  Inductive buffer := Arr (xs : list V) | Buf (inner : buffer) (pred : bool) (tag : nat) (makes_false_steps : bool).
  (** [vmapped]: predicates are batched. *)
  Variable vmapped : bool.
  Fixpoint op (b : buffer) (pred : bool) (m : mode) (i : nat) (x : V) (makes_false_steps : bool) : buffer :=
    match b with
    | Arr xs => Arr (maybe_set_mode (makes_false_steps || vmapped) pred m xs i x)
    | Buf inner p tag mfs => Buf (op inner (pred && p) m i x makes_false_steps) p tag mfs
    end.
  (** Lines 334-346 on a buffer, and lines 349-364 ([buffer_at_set]); [None] is the default [pred=True]. *)
  Definition buffer_at_set (b : buffer) (i : nat) (x : V) (pred : option bool) (m : mode) : buffer :=
    match b with
    | Buf _ _ _ mfs => op b (match pred with Some p => p | None => true end) m i x (match pred with None => mfs | Some _ => true end)
    | Arr xs => let x := match pred with None => x | Some p => if p then x else at_get m xs i end in
                Arr (at_set Default xs i x)
    end.
  (** Lines 287-288 and 371-374. *)
  Fixpoint contents (b : buffer) : list V := match b with Arr xs => xs | Buf inner _ _ _ => contents inner end.
  Fixpoint preds (b : buffer) : list bool := match b with Arr _ => [] | Buf inner p _ _ => p :: preds inner end.
End Write.
