(** What a differentiable while loop should compute, independently of any checkpointing. *)
From Verif Require Import Base.

(** The number of steps respects [max_steps], and so does the number of checkpoints. *)
Definition within (C : Z) (max_steps : option Z) (n : nat) : Prop :=
  match max_steps with Some m => (C <= m)%Z /\ (Z.of_nat n <= m)%Z | None => True end.

Section Spec.
  Context {N Bf G P : Type}.
  Variable fN : N -> Bf -> N.
  Variable fB : N -> Bf -> Bf.
  Variable cond : N -> Bf -> bool.
  Variable vjp : N -> Bf -> G -> P * G.
  Variable addP : P -> P -> P.
  Variables (v0 : N) (b0 : Bf).

  (** Loop value after [k] iterations: buffer-free part and buffers. *)
  Fixpoint traj (k : nat) : N * Bf :=
    match k with
    | O => (v0, b0)
    | S k' => (fN (fst (traj k')) (snd (traj k')), fB (fst (traj k')) (snd (traj k')))
    end.

  (** The loop makes exactly [n] iterations. *)
  Definition stops_at (n : nat) : Prop :=
    (forall k, (k < n)%nat -> cond (fst (traj k)) (snd (traj k)) = true) /\
    cond (fst (traj n)) (snd (traj n)) = false.

  (** Backpropagation through iterations [k-1, ..., 0], storing everything: the VJP of
      each iteration at the value it was evaluated at. *)
  Fixpoint backprop (k : nat) (g : G) (p : P) : G * P :=
    match k with
    | O => (g, p)
    | S k' => backprop k' (snd (vjp (fst (traj k')) (snd (traj k')) g))
                        (addP p (fst (vjp (fst (traj k')) (snd (traj k')) g)))
    end.

  (** Contract of buffers: iteration [k] does not observe anything that a later iteration
      writes, so that it may be replayed with the final buffers. *)
  Definition buffers_write_once (n : nat) : Prop :=
    forall k, (k < n)%nat ->
      fN (fst (traj k)) (snd (traj n)) = fN (fst (traj k)) (snd (traj k)) /\
      (forall g, vjp (fst (traj k)) (snd (traj n)) g = vjp (fst (traj k)) (snd (traj k)) g).

  (** A set of checkpoints is good for a run of [n] steps when every checkpoint holds the
      loop value of its own step, steps are strictly increasing, the first is step 0 and
      all are below [n]. *)
  Definition good_checkpoints (n : nat) (l : list (Z * N)) : Prop :=
    (forall k s v, nth_error l k = Some (s, v) ->
        (0 <= s < Z.of_nat n)%Z /\ v = fst (traj (Z.to_nat s))) /\
    (forall j k s v s' v', nth_error l j = Some (s, v) -> nth_error l k = Some (s', v') ->
        (j < k)%nat -> (s < s')%Z) /\
    (forall s v, nth_error l 0 = Some (s, v) -> s = 0%Z).
End Spec.

(** Forward-mode derivative of [k] iterations in direction [(dx, dp)], and what it means
    for [vjp] to be the transpose of the derivative of one iteration. *)
Section Adjoint.
  Context {N Bf G P T Q K : Type}.
  Variable fN : N -> Bf -> N.
  Variable fB : N -> Bf -> Bf.
  Variables (v0 : N) (b0 : Bf).
  Variable jvp : N -> Bf -> T -> Q -> T.
  Fixpoint tangent (k : nat) (dx : T) (dp : Q) : T :=
    match k with
    | O => dx
    | S k' => jvp (fst (traj fN fB v0 b0 k')) (snd (traj fN fB v0 b0 k')) (tangent k' dx dp) dp
    end.
  (** Pairings of cotangents with tangents, with values in a commutative monoid [K]. *)
  Variable plus : K -> K -> K.
  Variable pairG : G -> T -> K.
  Variable pairP : P -> Q -> K.
  Definition is_transpose (vjp : N -> Bf -> G -> P * G) : Prop :=
    forall v b g dx dp,
      pairG g (jvp v b dx dp) = plus (pairG (snd (vjp v b g)) dx) (pairP (fst (vjp v b g)) dp).
End Adjoint.
