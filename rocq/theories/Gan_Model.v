(** Model of examples/deep_convolutional_gan.ipynb: lines 164-241 (generator), 259-333 (discriminator), 351-400 (losses), 403-465 (steps), 468-555
    (the training loop); positional arguments and results are passed in the order of the source.

    Simplifications. Of the layers only shapes are modelled (sizes as in [Conv_Model.out_size]). Training is modelled symbolically: parameters are
    numbered by the updates they have had, an optimiser's state by its updates, a batch norm state is the list of what it has seen, and a prediction names
    the parameters, the batch and the state that produced it. Keys are paths of split indices. The loss of one prediction is an arbitrary function.
    [filter_jit] is left out (C62). *)
From Coq Require Import QArith.
From Verif Require Import Base Conv_Model.
Local Open Scope list_scope.
Local Notation length := List.length.

(** *** Shapes *)
Inductive net_layer :=
| NConv (i o k s p : Z)
| NConvT (i o k s p : Z)
| NNorm (size : Z)
| NPointwise.
(** The layers of lines 177-232: [relu] and [tanh] are pointwise. *)
Definition generator (latent width channels : Z) : list net_layer :=
  [ NConvT latent (width * 8) 4 1 0; NNorm (width * 8); NPointwise;
    NConvT (width * 8) (width * 4) 4 2 1; NNorm (width * 4); NPointwise;
    NConvT (width * 4) (width * 2) 4 2 1; NNorm (width * 2); NPointwise;
    NConvT (width * 2) width 4 2 1; NNorm width; NPointwise;
    NConvT width channels 4 2 1; NPointwise ].
(** Lines 271-324: [PReLU] is pointwise. *)
Definition discriminator (width channels : Z) : list net_layer :=
  [ NConv channels width 4 2 1; NPointwise;
    NConv width (width * 2) 4 2 1; NNorm (width * 2); NPointwise;
    NConv (width * 2) (width * 4) 4 2 1; NNorm (width * 4); NPointwise;
    NConv (width * 4) (width * 8) 4 2 1; NNorm (width * 8); NPointwise;
    NConv (width * 8) 1 4 1 0 ].
Definition shape3 := (Z * Z * Z)%type.
(** _conv.py lines 234-251 and 540-575; channels are checked by JAX, and by broadcasting in batch norm. *)
Definition layer_shape (l : net_layer) (x : shape3) : res shape3 :=
  let '(c, h, w) := x in
  match l with
  | NConv i o k s p => if (c =? i)%Z then Ok (o, out_size h p p k s 1 1, out_size w p p k s 1 1) else Err TypeError
  | NConvT i o k s p => if (c =? i)%Z then Ok (o, out_size h (k - 1 - p) (k - 1 - p) k 1 s 1, out_size w (k - 1 - p) (k - 1 - p) k 1 s 1) else Err TypeError
  | NNorm n => if (c =? n)%Z then Ok x else Err TypeError
  | NPointwise => Ok x
  end.
Fixpoint net_shape (ls : list net_layer) (x : shape3) : res shape3 :=
  match ls with [] => Ok x | l :: ls' => y <- layer_shape l x ;; net_shape ls' y end.

(** *** Losses *)
(** Predictions of a batch: shape (b, c, h, w); labels: shape (n,). [sigmoid_binary_cross_entropy] broadcasts the labels along the last axis. *)
Definition mean (l : list Q) : option Q := match l with [] => None | _ => Some (fold_right Qplus 0 l / inject_Z (Z.of_nat (length l)))%Q end.
Definition loss_entries (f : Q -> Q -> Q) (b c h w : nat) (pred : nat -> nat -> nat -> nat -> Q) (labels : list Q) : res (list Q) :=
  let n := length labels in
  if negb (Nat.eqb w n || Nat.eqb w 1 || Nat.eqb n 1) then Err ValueError else
  let m := if Nat.eqb w 1 then n else w in
  Ok (flat_map (fun i => flat_map (fun j => flat_map (fun k => map (fun l =>
        f (pred i j k (if Nat.eqb w 1 then O else l)) (nth (if Nat.eqb n 1 then O else l) labels 0%Q)) (seq 0 m)) (seq 0 h)) (seq 0 c)) (seq 0 b)).
(** [None]: the mean of nothing, NaN. *)
Definition loss (f : Q -> Q -> Q) (b c h w : nat) (pred : nat -> nat -> nat -> nat -> Q) (labels : list Q) : res (option Q) :=
  rmap mean (loss_entries f b c h w pred labels).

(** *** Training *)
Definition path := list nat.
Definition split2 (key : path) : path * path := (key ++ [0%nat], key ++ [1%nat]).
Inductive batch :=
| Noise (key : path)
| Fake (generator : nat) (noise : path) (seen : nat)     (* made with these parameters after [seen] updates of the state *)
| Real (number : nat).
Definition state := list (nat * batch).
(** A module with batch norm called under [vmap]: the state is updated, then used (C117). *)
Definition call_generator (g : nat) (noise : path) (s : state) : batch * state := (Fake g noise (S (length s)), s ++ [(g, Noise noise)]).
Definition prediction := (nat * batch * nat)%type.
Definition call_discriminator (d : nat) (x : batch) (s : state) : prediction * state := ((d, x, S (length s)), s ++ [(d, x)]).
(** A loss: predictions and whether they should be called real; with respect to which network it is differentiated is the caller. *)
Definition lossv := list (prediction * bool).
(** Lines 351-381. *)
Definition compute_grads_discriminator (d g : nat) (real : batch) (dstate gstate : state) (key : path) : lossv * (state * state * path) :=
  let '(key, subkey) := split2 key in
  let '(fake, gstate) := call_generator g subkey gstate in
  let '(pred1, dstate) := call_discriminator d fake dstate in
  let '(pred2, dstate) := call_discriminator d real dstate in
  ([(pred1, false); (pred2, true)], (dstate, gstate, key)).
(** Lines 384-400. *)
Definition compute_grads_generator (g d : nat) (dstate gstate : state) (key : path) : lossv * (state * state * path) :=
  let '(key, subkey) := split2 key in
  let '(fake, gstate) := call_generator g subkey gstate in
  let '(pred, dstate) := call_discriminator d fake dstate in
  ([(pred, true)], (dstate, gstate, key)).
(** Lines 403-437. *)
Definition step_discriminator (d g : nat) (real : batch) (opt : nat) (gstate dstate : state) (key : path) : lossv * nat * nat * state * state * path :=
  let '(l, (dstate, gstate, key)) := compute_grads_discriminator d g real dstate gstate key in
  (l, S d, S opt, gstate, dstate, key).
(** Lines 440-465. *)
Definition step_generator (g d opt : nat) (dstate gstate : state) (key : path) : lossv * nat * nat * state * state * path :=
  let '(l, (dstate, gstate, key)) := compute_grads_generator g d dstate gstate key in
  (l, S g, S opt, dstate, gstate, key).
Record run := mk_run { gen : nat; dis : nat; gopt : nat; dopt : nat; gstate : state; dstate : state; key_ : path; glosses : list lossv; dlosses : list lossv }.
(** Lines 491-530: one step, with real batch number [t]. *)
Definition train_step (t : nat) (r : run) : run :=
  let '(dl, d, dop, gs, ds, key) := step_discriminator (dis r) (gen r) (Real t) (dopt r) (gstate r) (dstate r) (key_ r) in
  let '(gl, g, gop, ds, gs, key) := step_generator (gen r) d (gopt r) ds gs key in
  mk_run g d gop dop gs ds key (glosses r ++ [gl]) (dlosses r ++ [dl]).
Definition train (steps : nat) (key : path) : run :=
  fold_left (fun r t => train_step t r) (seq 0 steps) (mk_run 0 0 0 0 [] [] key [] []).
