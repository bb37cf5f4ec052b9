(** Model of the two examples of classification: examples/mnist.ipynb lines 174-197 (network, shapes), 313-331 (loss), 484-517 (accuracy, evaluation), and
    examples/train_rnn.ipynb lines 65-77 (data), 97-118 (network), 152-155 (loss).

    Simplifications. Numbers are real numbers. Of the CNN only shapes are modelled. [jnp.take_along_axis] counts negative indices from the end and gives NaN ([None])
    outside of the range. A torch [DataLoader] without [drop_last] gives consecutive parts of the shuffled data, as [eval_dataloader] (C122). *)
From Coq Require Import Reals.
From Verif Require Import Base Conv_Model Pool_Model Rnn_Model DataLoader_Model.
Local Open Scope list_scope.
Local Notation length := List.length.

(** *** examples/mnist.ipynb *)
Section Shapes.
  Local Open Scope Z_scope.
  Definition conv_2d (i o k : Z) (x : list Z) : res (list Z) :=
    match x with [c; h; w] => if c =? i then Ok [o; out_size h 0 0 k 1 1 1; out_size w 0 0 k 1 1 1] else Err TypeError | _ => Err ValueError end.
  Definition max_pool_2d (k : Z) (x : list Z) : res (list Z) := p <- pool_init 2 (AnInt k) (AnInt 1) (PadInt 0) false ;; pool_shape p x.
  Definition ravel (x : list Z) : list Z := [fold_right Z.mul 1 x].
  Definition linear (i o : Z) (x : list Z) : res (list Z) := match x with [n] => if n =? i then Ok [o] else Err TypeError | _ => Err TypeError end.
  Definition cnn (x : list Z) : res (list Z) :=
    x <- conv_2d 1 3 4 x ;; x <- max_pool_2d 2 x ;; x <- linear 1728 512 (ravel x) ;; x <- linear 512 64 x ;; linear 64 10 x.
End Shapes.

Section Mnist.
  Local Open Scope R_scope.
  Definition rsum (l : list R) : R := fold_right Rplus 0 l.
  (** [jax.nn.log_softmax] *)
  Definition log_softmax (x : list R) : res (list R) :=
    match x with
    | [] => Err ValueError
    | a :: x' => let m := fold_left Rmax x' a in let shifted := map (fun v => v - m) x in let l := ln (rsum (map exp shifted)) in Ok (map (fun v => v - l) shifted)
    end.
  (** [jnp.take_along_axis(pred_y, y[:, None], axis=1)], one row. *)
  Definition take (row : list R) (y : Z) : option R :=
    let n := Z.of_nat (length row) in
    let i := if (y <? 0)%Z then (y + n)%Z else y in
    if (0 <=? i)%Z && (i <? n)%Z then nth_error row (Z.to_nat i) else None.
  Fixpoint takes (rows : list (list R)) (ys : list Z) : option (list R) :=
    match rows, ys with
    | [], [] => Some []
    | r :: rows, y :: ys => match take r y, takes rows ys with Some v, Some vs => Some (v :: vs) | _, _ => None end
    | _, _ => None
    end.
  Definition rmean (l : list R) : R := rsum l / INR (length l).
  (** Lines 325-331. *)
  Definition cross_entropy (ys : list Z) (pred : list (list R)) : option R := option_map (fun v => - rmean v) (takes pred ys).
  (** [jnp.argmax]: the first of the greatest. *)
  Fixpoint argmax_from (i best : nat) (bv : R) (l : list R) : nat :=
    match l with [] => best | x :: l => if Rlt_dec bv x then argmax_from (S i) i x l else argmax_from (S i) best bv l end.
  Definition argmax (l : list R) : nat := match l with [] => 0%nat | x :: l => argmax_from 1 0 x l end.
  Definition right (y : Z) (row : list R) : bool := (y =? Z.of_nat (argmax row))%Z.
  (** Lines 484-492. *)
  Definition accuracy (ys : list Z) (pred : list (list R)) : R := rmean (map (fun p => if right (fst p) (snd p) then 1 else 0) (List.combine ys pred)).
  (** Lines 504-517, for [f] the loss of one example or whether it is classified rightly. *)
  Definition evaluate_examples {A} (f : A -> R) (batches : list (list (list A))) : R :=
    let '(s, n) := evaluate 0 Rplus (fun batch => rmean (map f (hd [] batch))) batches in s / INR n.
End Mnist.

(** *** examples/train_rnn.ipynb *)
Section Rnn.
  Local Open Scope R_scope.
  (** Lines 65-77: example [i] of [n] at the [k]-th of 16 times. *)
  Definition time_at (k : nat) : R := 2 * PI * INR k / 15.
  Definition point (n i k : nat) (offset : R) : R * R :=
    let t := time_at k in
    let x1 := sin (t + offset) / (1 + t) in let x2 := cos (t + offset) / (1 + t) in
    ((if Nat.ltb i (n / 2) then x1 * -1 else x1), x2).
  Definition label (n i : nat) : R := if Nat.ltb i (n / 2) then 0 else 1.
  (** Lines 97-118. *)
  Record rnn := mk_rnn { hidden_units : nat; cell : gru; out_weight : list (list R); out_bias : list R }.
  Fixpoint scan_cell (c : gru) (hidden : list R) (inputs : list (list R)) : res (list R) :=
    match inputs with [] => Ok hidden | x :: inputs => hidden <- call_gru c x hidden ;; scan_cell c hidden inputs end.
  Definition logits (m : rnn) (inputs : list (list R)) : res (list R) :=
    out <- scan_cell (cell m) (repeat 0 (hidden_units m)) inputs ;;
    l <- matvec (out_weight m) out ;; ew Rplus l (out_bias m).
  Definition call_rnn (m : rnn) (inputs : list (list R)) : res (list R) := l <- logits m inputs ;; Ok (map sigmoid l).
  (** Line 155, one prediction. *)
  Definition bce (y p : R) : R := - (y * ln p + (1 - y) * ln (1 - p)).
End Rnn.
