(** What a (batch of) while loop(s) should compute. *)
From Verif Require Import Base Loop_Model.

(** Effect of one iteration on one lane, as plain Python would have it: the value is
    replaced, and every write whose own predicate holds is performed. *)
Definition plain_write {X} (xs : list X) (w : write X) : list X :=
  match w_pred w with Some false => xs | _ => upd xs (w_idx w) (w_val w) end.

Section Spec.
  Context {N X : Type}.
  Variable body : N -> list X -> N * list (write X).
  Variable cond : N -> list X -> bool.

  Definition plain_step (vb : N * list X) : N * list X :=
    (fst (body (fst vb) (snd vb)), fold_left plain_write (snd (body (fst vb) (snd vb))) (snd vb)).
  Fixpoint plain_run (k : nat) (vb : N * list X) : N * list X :=
    match k with O => vb | S k' => plain_step (plain_run k' vb) end.
  Definition plain_cond (vb : N * list X) : bool := cond (fst vb) (snd vb).

  (** [lane_stops m vb s]: started from [vb], the loop [while cond: body], limited to [m]
      iterations, makes exactly [s] iterations. *)
  Definition lane_stops (m : option Z) (vb : N * list X) (s : nat) : Prop :=
    (forall k, (k < s)%nat -> plain_cond (plain_run k vb) = true) /\
    (match m with Some m => (Z.of_nat s <= m)%Z | None => True end) /\
    (plain_cond (plain_run s vb) = false \/ m = Some (Z.of_nat s)).
End Spec.

Open Scope Z_scope.
(** Arguments accepted by [while_loop]; [checkpoints] may be left out when [max_steps >= 1]. *)
Definition fits_kind (kind : loop_kind) (max_steps checkpoints : option Z) (base : nat) : Prop :=
  match kind with
  | KLax => match max_steps with Some m => 0 <= m | None => True end
  | KCheckpointed =>
      match max_steps, checkpoints with
      | Some m, None => 1 <= m
      | Some m, Some c => 0 <= m /\ 1 <= c
      | None, Some c => 1 <= c
      | None, None => False
      end
  | KBounded => (2 <= base)%nat /\ match max_steps with Some m => 0 <= m | None => False end
  | KOther => False
  end.
Close Scope Z_scope.

(** [lax.scan]. *)
Fixpoint scan_spec {Cr Xs Y} (f : Cr -> Xs -> Cr * Y) (xs : list Xs) (c : Cr) : Cr * list Y :=
  match xs with
  | [] => (c, [])
  | x :: xs' => let '(c2, y) := f c x in let '(c3, ys) := scan_spec f xs' c2 in (c3, y :: ys)
  end.
