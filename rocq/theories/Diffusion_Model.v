(** Model of examples/score_based_diffusion.ipynb: the mixer (shapes), losses and sampling over the reals, keys and printed losses of training. Its data loader is
    in DataLoader_Model (C122).

    Simplifications. Of the mixer only shapes are modelled. Numbers are real numbers, [int_beta] is any function and [jax.jvp] gives its derivative, passed as
    [beta]. Keys are paths of splits, each (number of keys asked for, index). *)
From Coq Require Import QArith Reals.
From Verif Require Import Base Conv_Model.
Local Open Scope list_scope.
Local Notation length := List.length.

(** *** The mixer: lines 93-172 *)
Section Mixer.
  Local Open Scope Z_scope.
  (** [num_patches] and [patch_size], with the sizes of images: what the layers were made for. *)
  Record mixer := mk_mixer { input_size : Z; hidden_size : Z; patch_size : Z; num_patches : Z; num_blocks : nat }.
  Definition make_mixer (img_size : Z * Z * Z) (patch hidden : Z) (blocks : nat) : res mixer :=
    let '(c, height, width) := img_size in
    if patch =? 0 then Err ZeroDivisionError else
    if negb (height mod patch =? 0) then Err AssertionError else
    if negb (width mod patch =? 0) then Err AssertionError else
    Ok (mk_mixer c hidden patch ((height / patch) * (width / patch)) blocks).
  (** [LayerNorm] checks the shape, an MLP under [vmap] the last size. *)
  Definition layer_norm (shape x : Z * Z) : res (Z * Z) := if (fst x =? fst shape) && (snd x =? snd shape) then Ok x else Err ValueError.
  Definition mlp_rows (size : Z) (x : Z * Z) : res (Z * Z) := if snd x =? size then Ok x else Err TypeError.
  Definition add_shape (x y : Z * Z) : res (Z * Z) := if (fst x =? fst y) && (snd x =? snd y) then Ok x else Err TypeError.
  Definition swap (x : Z * Z) : Z * Z := (snd x, fst x).
  (** Lines 112-117. *)
  Definition mixer_block (m : mixer) (y : Z * Z) : res (Z * Z) :=
    n <- layer_norm (hidden_size m, num_patches m) y ;; r <- mlp_rows (num_patches m) n ;; y <- add_shape y r ;;
    let y := swap y in
    n <- layer_norm (num_patches m, hidden_size m) y ;; r <- mlp_rows (hidden_size m) n ;; y <- add_shape y r ;;
    Ok (swap y).
  Fixpoint blocks (n : nat) (m : mixer) (y : Z * Z) : res (Z * Z) := match n with O => Ok y | S n => y <- mixer_block m y ;; blocks n m y end.
  (** Lines 160-172. *)
  Definition call_mixer (m : mixer) (y : Z * Z * Z) : res (Z * Z * Z) :=
    let '(c, h, w) := y in
    let c := c + 1 in
    if negb (c =? input_size m + 1) then Err TypeError else
    let ph := out_size h 0 0 (patch_size m) (patch_size m) 1 1 in
    let pw := out_size w 0 0 (patch_size m) (patch_size m) 1 1 in
    y <- blocks (num_blocks m) m (hidden_size m, ph * pw) ;;
    y <- layer_norm (hidden_size m, num_patches m) y ;;
    if negb (snd y =? ph * pw) then Err ValueError else
    let up n := out_size n (patch_size m - 1) (patch_size m - 1) (patch_size m) 1 (patch_size m) 1 in
    Ok (input_size m, up ph, up pw).
End Mixer.

(** *** Losses and sampling: lines 192-226 *)
Section Losses.
  Local Open Scope R_scope.
  Variable int_beta : R -> R.
  Definition mean_of (t x : R) : R := x * exp (- (1 / 2) * int_beta t).
  Definition var_of (t : R) : R := Rmax (1 - exp (- int_beta t)) (1 / 100000).
  Definition std_of (t : R) : R := sqrt (var_of t).
  Definition noised (t x noise : R) : R := mean_of t x + std_of t * noise.
  Definition rmean (l : list R) : R := fold_right Rplus 0 l / INR (length l).
  Fixpoint zipR (f : R -> R -> R) (a b : list R) : list R := match a, b with x :: a, y :: b => f x y :: zipR f a b | _, _ => [] end.
  (** [data] and [noise] have one shape and are flattened. *)
  Definition single_loss (model : R -> list R -> list R) (weight : R -> R) (data noise : list R) (t : R) : R :=
    let pred := model t (zipR (noised t) data noise) in
    weight t * rmean (zipR (fun p z => (p + z / std_of t) * (p + z / std_of t)) pred noise).
  (** Lines 206-208, with the draw [u i] from [0, t1 / batch_size). *)
  Definition times (t1 : R) (batch_size : nat) (u : nat -> R) : list R := map (fun i => u i + (t1 / INR batch_size) * INR i) (seq 0 batch_size).
  (** Lines 216-218, one pixel: [score] is the model at this pixel. *)
  Definition drift (beta : R -> R) (score : R -> R -> R) (t y : R) : R := - (1 / 2) * beta t * (y + score t y).
End Losses.

(** *** Keys: lines 202-211, 293-299 *)
Definition key_path := list (nat * nat).
Definition split (key : key_path) (n : nat) : list key_path := map (fun i => key ++ [(n, i)]) (seq 0 n).
Record step_keys := mk_step_keys { time_key : key_path; loss_keys : list key_path }.
Definition batch_keys (key : key_path) (batch_size : nat) : option step_keys :=
  match split key 2 with [tkey; losskey] => Some (mk_step_keys tkey (split losskey batch_size)) | _ => None end.
(** The keys of so many steps. *)
Fixpoint train_keys (steps batch_size : nat) (key : key_path) : option (list step_keys) :=
  match steps with
  | O => Some []
  | S steps =>
      match batch_keys key batch_size, split key 1 with
      | Some k, key :: _ => option_map (cons k) (train_keys steps batch_size key)
      | _, _ => None
      end
  end.

(** *** Printed losses: lines 350-363 *)
Record progress := mk_progress { total_value : Q; total_size : nat; printed : list (nat * Q) }.
Definition one_step (print_every num_steps step : nat) (value : Q) (p : progress) : res progress :=
  if Nat.eqb print_every 0 then Err ZeroDivisionError else
  let tv := (total_value p + value)%Q in let ts := S (total_size p) in
  if Nat.eqb (step mod print_every) 0 || Nat.eqb step (num_steps - 1)
  then Ok (mk_progress 0 0 (printed p ++ [(step, (tv / inject_Z (Z.of_nat ts))%Q)]))
  else Ok (mk_progress tv ts (printed p)).
Fixpoint steps_from (print_every num_steps step : nat) (values : list Q) (p : progress) : res progress :=
  match values with [] => Ok p | v :: vs => p <- one_step print_every num_steps step v p ;; steps_from print_every num_steps (S step) vs p end.
Definition train_prints (print_every : nat) (values : list Q) : res (list (nat * Q)) :=
  rmap printed (steps_from print_every (length values) 0 values (mk_progress 0 0 [])).
