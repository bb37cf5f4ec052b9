(** Counting evaluations of a bounded loop. *)
From Verif Require Import Base BoundedCost_Model.
Local Open Scope nat_scope.

Fixpoint times {S} (n : nat) (f : S -> S) (s : S) : S := match n with O => s | Datatypes.S n' => times n' f (f s) end.
(** The loop from [s] makes [n] steps. *)
Definition steps {S} (c : S -> bool) (f : S -> S) (s : S) (n : nat) : Prop :=
  (forall k, k < n -> c (times k f s) = true) /\ c (times n f s) = false.

Definition tests {S} (l : list (event S)) : nat := length (filter (fun e => match e with Test => true | _ => false end) l).
Definition bodies {S} (l : list (event S)) : nat := length (filter (fun e => match e with Body => true | _ => false end) l).
Fixpoint vjps {S} (l : list (event S)) : list S :=
  match l with [] => [] | Vjp s :: l' => s :: vjps l' | _ :: l' => vjps l' end.

(** Division rounding up. *)
Definition cdiv (a b : nat) : nat := (a + (b - 1)) / b.
(** [cdiv m base + cdiv m base^2 + ... + cdiv m base^d]. *)
Fixpoint levels (base d m : nat) : nat := match d with O => 0 | S d' => levels base d' m + cdiv m (base ^ d) end.

(** With [n] values stored before, there are never more than [cap], and none is dropped that is not there; [n'] are left. *)
Inductive memory {S} (cap : nat) : nat -> list (event S) -> nat -> Prop :=
| m_nil n : memory cap n [] n
| m_save n l n' : n < cap -> memory cap (Datatypes.S n) l n' -> memory cap n (Save :: l) n'
| m_drop n l n' : memory cap n l n' -> memory cap (Datatypes.S n) (Drop :: l) n'
| m_other n e l n' : e <> Save -> e <> Drop -> memory cap n l n' -> memory cap n (e :: l) n'.
