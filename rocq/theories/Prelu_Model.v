(** Model of PReLU: equinox/nn/_activations.py lines 11-45.

    - Numbers are real numbers; dtypes, and the promotion of lines 44, are not modelled, apart from any number of axes broadcasting
      ([numpy_rank_promotion("allow")]).
    - An array is its shape and its entries by multi-index. [broadcast] is NumPy's rule: shapes are aligned at the last axis, axes of size one
      are stretched.
    - [jnp.asarray(None)], which raises, is not modelled. *)
From Coq Require Export Reals.
From Verif Require Export Base.
Local Open Scope nat_scope.
Local Open Scope list_scope.

Record arr := { ashape : list nat; aentry : list nat -> R }.
(** Sizes from the last axis. *)
Fixpoint broadcast_rev (s t : list nat) : res (list nat) :=
  match s, t with
  | [], t => Ok t
  | s, [] => Ok s
  | a :: s', b :: t' =>
      r <- broadcast_rev s' t' ;;
      if Nat.eqb a b then Ok (a :: r) else if Nat.eqb a 1 then Ok (b :: r) else if Nat.eqb b 1 then Ok (a :: r) else Err ValueError
  end.
Definition broadcast (s t : list nat) : res (list nat) := r <- broadcast_rev (rev s) (rev t) ;; Ok (rev r).
(** The index of an array of shape [s] read at index [i] of a larger array. *)
Definition source_index (s : list nat) (i : list nat) : list nat :=
  map (fun p => if Nat.eqb (fst p) 1 then 0 else snd p) (List.combine s (skipn (length i - length s) i)).
Definition lift2 (f : R -> R -> R) (a b : arr) : res arr :=
  s <- broadcast (ashape a) (ashape b) ;;
  Ok {| ashape := s; aentry := fun i => f (aentry a (source_index (ashape a) i)) (aentry b (source_index (ashape b) i)) |}.
(** [jnp.where(c, x, y)] where [c] and [x] have the same shape. *)
Definition where_ (c : arr -> list nat -> bool) (x y : arr) : res arr :=
  s <- broadcast (ashape x) (ashape y) ;;
  Ok {| ashape := s; aentry := fun i => let j := source_index (ashape x) i in
                                       if c x j then aentry x j else aentry y (source_index (ashape y) i) |}.
Definition non_negative (x : arr) (i : list nat) : bool := if Rle_dec 0 (aentry x i) then true else false.

Record prelu := { negative_slope : arr }.
Inductive alpha := Number (r : R) | Array (a : arr).
(** Line 32. *)
Definition make_prelu (init_alpha : alpha) : prelu :=
  {| negative_slope := match init_alpha with Number r => {| ashape := []; aentry := fun _ => r |} | Array a => a end |}.
(** Lines 44-45. *)
Definition call_prelu (p : prelu) (x : arr) : res arr :=
  y <- lift2 Rmult (negative_slope p) x ;;
  where_ non_negative x y.
