(** How often the backward pass of a checkpointed while loop evaluates a step, for any number of steps. *)
From Verif Require Import Base.
Local Open Scope Z_scope.

(** [reversal k l a]: reversing the [l] steps from a stored value on, with [k] free slots, takes [a] evaluations.
    - A single step takes none: the value is there.
    - Without a free slot, or with two steps, one goes from the stored value to the last step, and starts again for the
      steps before.
    - Otherwise a value is stored on the way: the next one if what is left then fits into the free slots, and the one half-way
      if not; first the steps behind it are reversed, with one slot less, and then those before it. *)
Inductive reversal : Z -> Z -> Z -> Prop :=
| r_one k : reversal k 1 0
| r_again k l a : 2 <= l -> k = 0 \/ l = 2 -> reversal k (l - 1) a -> reversal k l (l - 1 + a)
| r_split k l d a b : 3 <= l -> 1 <= k -> (l - 2 <= k -> d = 1) -> (k < l - 2 -> 2 * d <= l < 2 * d + 2) ->
    reversal (k - 1) (l - d) a -> reversal k d b -> reversal k l (d + a + b).

(** [segments C stored n a]: the stored steps, latest first, divide the [n] steps; with [C] slots in all, those not in use by
    earlier steps are free for a segment. *)
Inductive segments (C : Z) : list Z -> Z -> Z -> Prop :=
| s_nil : segments C [] 0 0
| s_cons s l e a b : s < e -> reversal (C - Z.of_nat (length (s :: l))) (e - s) a -> segments C l s b ->
    segments C (s :: l) e (a + b).
