(** Paths in an object graph. *)
From Verif Require Export TreeCheck_Model.

(** From object [n], following child indices [p] leads to object [m]. *)
Inductive leads (g : graph) : nat -> list nat -> nat -> Prop :=
| leads_here : forall n, leads g n [] n
| leads_down : forall n cs i c p m, subnodes g n = Some cs -> nth_error cs i = Some c ->
    leads g c p m -> leads g n (i :: p) m.

(** A container that is not empty. *)
Definition proper (g : graph) (n : nat) : Prop := exists c cs, subnodes g n = Some (c :: cs).
