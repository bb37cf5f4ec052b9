(** Model of WeightNorm and SpectralNorm: equinox/nn/_weight_norm.py lines 17-114 and equinox/nn/_spectral_norm.py lines 15-157.

    - Entries are real numbers: no rounding. The result of dividing by zero is [None] (the library gets a NaN or an infinity).
    - An array is its shape and its entries in row-major order, given as a function of the position; only positions below the
      size count. A vector or matrix is such a function of one or two indices.
    - The wrapped layer is of an arbitrary type [Ly]; [get] is [getattr(layer, weight_name)], [put] is
      [tree_at(lambda l: getattr(l, weight_name), layer, new)] (properties C06-C08), [run] is calling the layer. Layers whose
      normalised weight has an entry [None] are not run: the call returns [None] instead of the layer's output.
    - The state is of an arbitrary type with [sget], [sset] for the layer's [uv_index] (properties C16-C17). [lax.stop_gradient] is the identity on values.
    - Random initial vectors are arguments. [named_scope] and the ignored [key] are left out. *)
From Coq Require Export Reals.
From Verif Require Export Base.
Local Open Scope nat_scope.
Local Open Scope list_scope.

Definition size (shape : list nat) : nat := fold_right Nat.mul 1 shape.
Record tensor := { tshape : list nat; tval : nat -> R }.
(** The sum of [f i] for [i < n]. *)
Fixpoint sum (n : nat) (f : nat -> R) : R := match n with O => 0%R | S n' => (sum n' f + f n')%R end.
(** [x / y] *)
Definition div (x y : R) : option R := if Req_EM_T y 0 then None else Some (x / y)%R.
(** All of finitely many results, if they are numbers. *)
Fixpoint all_numbers (n : nat) (f : nat -> option R) : bool :=
  match n with O => true | S n' => all_numbers n' f && match f n' with Some _ => true | None => false end end.
Definition number (o : option R) : R := match o with Some r => r | None => 0%R end.

Section Layers.
  Variables (Ly X Y : Type) (get : Ly -> tensor) (put : Ly -> tensor -> Ly) (run : Ly -> X -> res Y).
  (** Replacing the weight and calling the layer. *)
  Definition run_with (l : Ly) (shape : list nat) (w : nat -> option R) (x : X) : res (option Y) :=
    if all_numbers (size shape) w then
      y <- run (put l {| tshape := shape; tval := fun k => number (w k) |}) x ;; Ok (Some y)
    else Ok None.

  (** ** WeightNorm *)
  (** [jax.vmap(norm, in_axes=axis)]: negative axes count from the end; scalars and axes out of range are refused. *)
  Definition canonical_axis (ndim : nat) (a : Z) : res nat :=
    let a := if Z.ltb a 0 then (a + Z.of_nat ndim)%Z else a in
    if (Z.leb 0 a && Z.ltb a (Z.of_nat ndim))%bool then Ok (Z.to_nat a) else Err ValueError.
  (** The number of slices and the slice of each position. *)
  Definition slices (shape : list nat) (axis : option Z) : res (nat * (nat -> nat)) :=
    match axis with
    | None => Ok (1, fun _ => 0)
    | Some a =>
        a <- canonical_axis (length shape) a ;;
        Ok (nth a shape 0, fun k => (k / size (skipn (S a) shape)) mod nth a shape 0)
    end.
  (** Lines 17-21 with [norm = jnp.linalg.norm(.., keepdims=True)] (lines 91-95): the 2-norm of all entries of a slice; the result
      broadcasts against [v]. *)
  Definition norm_except_axis (v : tensor) (axis : option Z) : res (nat -> R) :=
    '(_, slice) <- slices (tshape v) axis ;;
    Ok (fun j => sqrt (sum (size (tshape v)) (fun k => if Nat.eqb (slice k) j then tval v k * tval v k else 0)%R)).
  Record weight_norm := { wlayer : Ly; wg : nat -> R; waxis : option Z }.
  (** Lines 87-96. *)
  Definition make_weight_norm (l : Ly) (axis : option Z) : res weight_norm :=
    g <- norm_except_axis (get l) axis ;;
    Ok {| wlayer := l; wg := g; waxis := axis |}.
  (** Lines 111-114. *)
  Definition call_weight_norm (m : weight_norm) (x : X) : res (option Y) :=
    let v := get (wlayer m) in
    '(_, slice) <- slices (tshape v) (waxis m) ;;
    n <- norm_except_axis v (waxis m) ;;
    run_with (wlayer m) (tshape v) (fun k => div (tval v k * wg m (slice k)) (n (slice k))) x.

  (** ** SpectralNorm *)
  Variables (St : Type) (sget : St -> res ((nat -> R) * (nat -> R))) (sset : St -> (nat -> R) * (nat -> R) -> res St).
  (** [jnp.reshape(weight, (weight.shape[0], -1))]: rows and columns. *)
  Definition rows (shape : list nat) : nat := hd 0 shape.
  Definition cols (shape : list nat) : nat := size (tl shape).
  Definition matrix (w : tensor) (i j : nat) : R := tval w (i * cols (tshape w) + j).
  (** Lines 15-24. The argument [u] is not used. *)
  Definition power_iteration (m n : nat) (W : nat -> nat -> R) (uv : (nat -> R) * (nat -> R)) (eps : R) : (nat -> R) * (nat -> R) :=
    let v := snd uv in
    let u := fun i => sum n (fun j => W i j * v j)%R in
    let u_norm := sqrt (sum m (fun i => u i * u i)%R) in
    let u := fun i => (u i / Rmax eps u_norm)%R in
    let v := fun j => sum m (fun i => W i j * u i)%R in
    let v_norm := sqrt (sum n (fun j => v j * v j)%R) in
    let v := fun j => (v j / Rmax eps v_norm)%R in
    (u, v).
  Fixpoint iterations (k : nat) (m n : nat) (W : nat -> nat -> R) (uv : (nat -> R) * (nat -> R)) (eps : R) : (nat -> R) * (nat -> R) :=
    match k with O => uv | S k' => iterations k' m n W (power_iteration m n W uv eps) eps end.
  Record spectral_norm := { slayer : Ly; num_power_iterations : nat; seps : R; sinference : bool }.
  (** Lines 92-111; the second result is the initial value of [uv_index]. [jnp.reshape] cannot infer [-1] if there are no rows. *)
  Definition make_spectral_norm (l : Ly) (num : nat) (eps : R) (inf : bool) (u0 v0 : nat -> R) : res (spectral_norm * ((nat -> R) * (nat -> R))) :=
    let w := get l in
    if Nat.ltb (length (tshape w)) 2 then Err ValueError else
    if Nat.eqb (rows (tshape w)) 0 then Err ZeroDivisionError else
    Ok ({| slayer := l; num_power_iterations := num; seps := eps; sinference := inf |},
        iterations 15 (rows (tshape w)) (cols (tshape w)) (matrix w) (u0, v0) eps).
  (** Lines 142-157. *)
  Definition sigma (m n : nat) (W : nat -> nat -> R) (uv : (nat -> R) * (nat -> R)) : R :=
    sum m (fun i => sum n (fun j => fst uv i * W i j * snd uv j)%R).
  Definition call_spectral_norm (s : spectral_norm) (x : X) (state : St) (inference : option bool) : res (option Y * St) :=
    uv <- sget state ;;
    let w := get (slayer s) in
    let m := rows (tshape w) in
    let n := cols (tshape w) in
    let inf := match inference with Some b => b | None => sinference s end in
    '(uv, state) <- (if inf then Ok (uv, state) else
                       let uv := iterations (num_power_iterations s) m n (matrix w) uv (seps s) in
                       state <- sset state uv ;;
                       Ok (uv, state)) ;;
    y <- run_with (slayer s) (tshape w) (fun k => div (tval w k) (sigma m n (matrix w) uv)) x ;;
    Ok (y, state).
End Layers.
