(** Model of operations that look across, or refuse, batching: equinox/_unvmap.py lines 12-103 ([unvmap_all], [unvmap_any], [unvmap_max]) and
    equinox/internal/_nontraceable.py lines 21-182 ([nontraceable], [nondifferentiable_backward], [nonbatchable]) and
    equinox/debug/_breakpoint_if.py lines 13-30 ([breakpoint_if]).

    - A value inside of nested [jax.vmap]s has a list of levels, innermost first: [Some n] if it is batched there with [n] lanes, [None] if not. It
      holds an array for every choice of a lane at each level; at levels where it is not batched the choice does not matter.
    - An array is the list of its entries. Stacking lanes appends their entries: where in the shape the batch axis is does not matter here.
    - Binding a primitive with one operand at a level where the operand is not batched binds it at the next level (as [BatchTrace.process_primitive]
      does); otherwise the batching rule runs at the next level, with the operand stacked along the batch axis.
    - Floating point numbers are integers or NaN. [error_if] raises if its predicate holds in any lane (property C33). Conversion to
      [jax.Array], the messages, and the mapping over PyTrees (partition by [is_array] and [combine], properties C01-C04) are left out. *)
From Verif Require Export Base.
From Coq Require Export ZArith.
Local Open Scope nat_scope.
Local Open Scope list_scope.

Record val (A : Type) := { levels : list (option nat); den : list nat -> list A }.
Arguments levels {A} v. Arguments den {A} v lanes.
(** The operand of a batching rule: the lanes of the innermost level are stacked. *)
Definition stacked {A} (n : nat) (d : list nat -> list A) : list nat -> list A := fun l => flat_map (fun b => d (b :: l)) (seq 0 n).

Section Unvmap.
  Context {A B : Type}.
  (** [jnp.all], [jnp.any], [jnp.max] of all entries. *)
  Variable impl : list A -> res B.
  (** Lines 30-32, 60-62, 90-92: the same primitive on the stacked operand; the result is not mapped. *)
  Fixpoint bind_unvmap (ls : list (option nat)) (d : list nat -> list A) : res B :=
    match ls with
    | [] => impl (d [])
    | None :: ls' => bind_unvmap ls' (fun l => d (0 :: l))
    | Some n :: ls' => bind_unvmap ls' (stacked n d)
    end.
  Definition unvmap (x : val A) : res (val B) :=
    r <- bind_unvmap (levels x) (den x) ;;
    Ok {| levels := map (fun _ => None) (levels x); den := fun _ => [r] |}.
End Unvmap.
Definition unvmap_all := unvmap (fun l : list bool => Ok (forallb id l)).
Definition unvmap_any := unvmap (fun l : list bool => Ok (existsb id l)).
(** [jnp.max] of no entries raises. *)
Definition jnp_max (l : list Z) : res Z := match l with [] => Err ValueError | x :: l' => Ok (fold_left Z.max l' x) end.
Definition unvmap_max := unvmap jnp_max.

(** ** [breakpoint_if], lines 13-30 of _breakpoint_if.py. [lax.cond] (outside /repo) wants a scalar, runs one branch, and refuses branches with
    effects if the predicate is batched. The result is how often the program stops. The token passed through is left out. *)
Definition cond_effect (p : val bool) (true_times false_times : nat) : res nat :=
  if existsb (fun o => match o with Some _ => true | None => false end) (levels p) then Err NotImplementedError else
  match den p (repeat 0 (length (levels p))) with
  | [b] => Ok (if b then true_times else false_times)
  | _ => Err TypeError
  end.
Definition breakpoint_if (pred : val bool) : res nat := p <- unvmap_any pred ;; cond_effect p 1 0.

(** ** [nonbatchable] *)
Inductive num := Fin (z : Z) | NaN.
Definition num_min (a b : num) : num := match a, b with Fin x, Fin y => Fin (Z.min x y) | _, _ => NaN end.
Definition num_max (a b : num) : num := match a, b with Fin x, Fin y => Fin (Z.max x y) | _, _ => NaN end.
(** [a != b] *)
Definition num_neq (a b : num) : bool := match a, b with Fin x, Fin y => negb (Z.eqb x y) | _, _ => true end.
(** [jnp.min(x, axis=b)] and [jnp.max(x, axis=b)], given the lanes; a reduction over no lanes raises. *)
Fixpoint reduce_lanes (f : num -> num -> num) (lanes : list (list num)) : list num :=
  match lanes with
  | [] => []
  | [x] => x
  | x :: lanes' => map (fun p => f (fst p) (snd p)) (List.combine x (reduce_lanes f lanes'))
  end.
Definition nonconstant (lanes : list (list num)) : bool :=
  existsb (fun p => num_neq (fst p) (snd p)) (List.combine (reduce_lanes num_min lanes) (reduce_lanes num_max lanes)).
(** All choices of a lane at each level. *)
Fixpoint all_lanes (ls : list (option nat)) : list (list nat) :=
  match ls with
  | [] => [[]]
  | None :: ls' => map (cons 0) (all_lanes ls')
  | Some n :: ls' => flat_map (fun l => map (fun b => b :: l) (seq 0 n)) (all_lanes ls')
  end.
(** Lines 130-140 ([_cannot_batch]), 143-144 ([nonbatchable_p]). [error_if] inspects all lanes of the levels further out. *)
Fixpoint bind_nonbatchable (allow : bool) (ls : list (option nat)) (d : list nat -> list num) : res (val num) :=
  match ls with
  | [] => Ok {| levels := []; den := d |}
  | None :: ls' =>
      r <- bind_nonbatchable allow ls' (fun l => d (0 :: l)) ;;
      Ok {| levels := None :: levels r; den := fun l => den r (tl l) |}
  | Some n :: ls' =>
      if allow then
        if Nat.eqb n 0 then Err ValueError else
        if existsb (fun l => nonconstant (map (fun b => d (b :: l)) (seq 0 n))) (all_lanes ls') then Err RuntimeError else
        Ok {| levels := None :: ls'; den := fun l => d (0 :: tl l) |}
      else Err ValueError
  end.
Definition nonbatchable (allow_constant_across_batch : bool) (x : val num) : res (val num) :=
  bind_nonbatchable allow_constant_across_batch (levels x) (den x).

(** ** [nontraceable], lines 24-42: batching raises. *)
Definition nontraceable (x : val num) : res (val num) :=
  if existsb (fun o => match o with Some _ => true | None => false end) (levels x) then Err RuntimeError else Ok x.

(** ** [nondifferentiable_backward], lines 60-107. [None]: a symbolic zero. *)
Definition nondiff_impl (x : val num) : val num := x.
(** Lines 66-71. [partition] takes a symbolic zero, which is not an array, for static. *)
Definition nondiff_jvp (x : val num) (t : option (val num)) : val num * option (val num) :=
  (nondiff_impl x, match t with Some t => Some (nondiff_impl t) | None => None end).
Definition nonzero (a : num) : bool := num_neq a (Fin 0).
(** Lines 74-92. *)
Definition nondiff_transpose (symbolic : bool) (ct : option (val num)) : res (option (val num)) :=
  match ct with
  | None => Ok None
  | Some ct =>
      if symbolic then Err RuntimeError else
      if existsb (fun l => existsb nonzero (den ct l)) (all_lanes (levels ct)) then Err RuntimeError else Ok (Some ct)
  end.
