(** What it costs to run a chain of [n] steps backwards with at most [C] stored values, for
    any way of doing so. *)
From Verif Require Import Base.

(** A machine that reverses a chain: it holds one current value (that of step [m_cur]), at
    most [C] stored values, and has still to make the U-turns of all steps below [m_sg]. *)
Record machine := { m_cur : nat; m_stored : list nat; m_sg : nat }.

Inductive op := Advance | Store | Drop (k : nat) | Load (k : nat) | Turn.

Inductive does (C : nat) : machine -> op -> machine -> Prop :=
| do_advance c l g : does C {| m_cur := c; m_stored := l; m_sg := g |} Advance
                            {| m_cur := S c; m_stored := l; m_sg := g |}
| do_store c l g : length l < C ->
    does C {| m_cur := c; m_stored := l; m_sg := g |} Store {| m_cur := c; m_stored := c :: l; m_sg := g |}
| do_drop c l1 k l2 g :
    does C {| m_cur := c; m_stored := l1 ++ k :: l2; m_sg := g |} (Drop k)
           {| m_cur := c; m_stored := l1 ++ l2; m_sg := g |}
| do_load c k l g : In k l ->
    does C {| m_cur := c; m_stored := l; m_sg := g |} (Load k) {| m_cur := k; m_stored := l; m_sg := g |}
| do_turn c l :
    does C {| m_cur := c; m_stored := l; m_sg := S c |} Turn {| m_cur := c; m_stored := l; m_sg := c |}.

(** [reverses C m a]: some sequence of operations from [m] makes all U-turns, and [a] of
    the operations are evaluations of a step. *)
Inductive reverses (C : nat) : machine -> nat -> Prop :=
| rev_done m : m_sg m = 0 -> reverses C m 0
| rev_advance m m' a : does C m Advance m' -> reverses C m' a -> reverses C m (S a)
| rev_other m o m' a : does C m o m' -> o <> Advance -> reverses C m' a -> reverses C m a.

(** The loop has just been run forwards for [n] steps, and the values at the steps in
    [stored] were saved on the way. *)
Definition after_forward (n : nat) (stored : list nat) : machine :=
  {| m_cur := n; m_stored := stored; m_sg := n |}.
