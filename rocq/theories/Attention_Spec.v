(** What multi-head attention should compute, entry by entry, with finite sums over indices
    (the formula in the docstring of [MultiheadAttention]). *)
From Verif Require Import Base.
Local Open Scope nat_scope.

Section Spec.
  Variables (V : Type) (zero : V) (add mul sub div vmax : V -> V -> V) (exp : V -> V) (sqrt : nat -> V) (fmin : V).

  (** [f 0 + (f 1 + ... + 0)] *)
  Definition bigsum (n : nat) (f : nat -> V) : V := fold_right add zero (map f (seq 0 n)).
  (** [max (f 0) (f 1) ...], for n > 0 *)
  Definition bigmax (n : nat) (f : nat -> V) : V := fold_left vmax (map f (seq 1 (n - 1))) (f 0).

  (** A linear layer on a sequence: [W], [b] and the number of inputs. *)
  Definition affine (n : nat) (W : nat -> nat -> V) (b : option (nat -> V)) (x : nat -> nat -> V) (s c : nat) : V :=
    let y := bigsum n (fun k => mul (W c k) (x s k)) in
    match b with Some b => add y (b c) | None => y end.

  (** Attention of one head: queries, keys, values of sizes [dqk], [dqk], [dv] at [nkv] positions. *)
  Definition logit (dqk : nat) (q k : nat -> nat -> V) (s S : nat) : V :=
    bigsum dqk (fun j => mul (div (q s j) (sqrt dqk)) (k S j)).
  Definition masked (mask : option (nat -> nat -> bool)) (l : nat -> nat -> V) (s S : nat) : V :=
    match mask with Some m => if m s S then l s S else fmin | None => l s S end.
  Definition soft (nkv : nat) (l : nat -> nat -> V) (s S : nat) : V :=
    let e := fun S => exp (sub (l s S) (bigmax nkv (l s))) in div (e S) (bigsum nkv e).
  Definition attend (nkv : nat) (w v : nat -> nat -> V) (s j : nat) : V := bigsum nkv (fun S => mul (w s S) (v S j)).

  (** The sum over the heads. *)
  Definition heads_sum (h dv : nat) (Wo : nat -> nat -> V) (bo : option (nat -> V)) (a : nat -> nat -> nat -> V) (s o : nat) : V :=
    let y := bigsum h (fun i => bigsum dv (fun j => mul (Wo o (i * dv + j)) (a i s j))) in
    match bo with Some b => add y (b o) | None => y end.

  (** Tables of values. *)
  Definition tab (n m : nat) (f : nat -> nat -> V) : list (list V) := map (fun s => map (f s) (seq 0 m)) (seq 0 n).
  Definition tab3 (n h m : nat) (f : nat -> nat -> nat -> V) : list (list (list V)) :=
    map (fun s => map (fun i => map (f s i) (seq 0 m)) (seq 0 h)) (seq 0 n).
End Spec.
