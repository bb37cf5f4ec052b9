(** Model of LayerNorm, GroupNorm and RMSNorm: equinox/nn/_normalisation.py lines 17-161 (LayerNorm), 164-283
    (GroupNorm), 286-408 (RMSNorm), and equinox/_misc.py lines 7-9 ([left_broadcast_to]).

    - Numbers are real numbers: no rounding, infinities or NaNs ([lax.rsqrt] of zero and means of no numbers are
      unspecified). dtypes are an arbitrary type; [promote d] is [jnp.result_type(d, float32)] under standard promotion,
      [cast d] is the effect of [astype] to [d] on a number. Complex dtypes are not modelled.
    - An array is its dtype, shape, and entries in row-major order. Products with parameters of another shape, which
      broadcast in the library, are modelled as errors in LayerNorm and RMSNorm (constructors never build these).
    - [state] is [None] if the argument is not given (lines 158-161). [named_scope] and the ignored [key] are left out. *)
From Coq Require Export Reals.
From Verif Require Export Base.
Local Open Scope nat_scope.
Local Open Scope list_scope.

Definition size (shape : list nat) : nat := fold_right Nat.mul 1 shape.
Fixpoint rsum (l : list R) : R := match l with [] => 0%R | x :: l' => (x + rsum l')%R end.
(** [jnp.mean] and [jnp.var] of all entries. *)
Definition rmean (l : list R) : R := (rsum l / INR (length l))%R.
Definition rvar (l : list R) : R := let m := rmean l in rmean (map (fun x => (x - m) * (x - m))%R l).
(** [jax.lax.rsqrt] *)
Definition rsqrt (x : R) : R := (/ sqrt x)%R.
Definition shape_eqb (s t : list nat) : bool := if list_eq_dec Nat.eq_dec s t then true else false.

Section Norm.
  Variables (D S : Type) (default_dtype : D) (promote : D -> D) (cast : D -> R -> R).
  Record array := { dt : D; shape : list nat; data : list R }.

  Inductive shape_arg := ShInt (n : nat) | ShSeq (l : list nat).
  Definition to_shape (s : shape_arg) : list nat := match s with ShInt n => [n] | ShSeq l => l end.
  Definition full (s : list nat) (d : option D) (v : R) : array :=
    {| dt := match d with Some d => d | None => default_dtype end; shape := s; data := repeat v (size s) |}.

  (** LayerNorm (lines 54-59) and RMSNorm (lines 315-320) have the same fields. *)
  Record norm := {
    nshape : list nat; neps : R; use_weight : bool; use_bias : bool; nweight : option array; nbias : option array }.
  (** Lines 341-351. *)
  Definition make_rms_norm (s : shape_arg) (eps : R) (uw ub : bool) (d : option D) : norm :=
    let s := to_shape s in
    {| nshape := s; neps := eps; use_weight := uw; use_bias := ub;
       nweight := if uw then Some (full s d 1%R) else None; nbias := if ub then Some (full s d 0%R) else None |}.
  (** Lines 83-99; the warning is left out. *)
  Definition make_layer_norm (s : shape_arg) (eps : R) (uw ub : bool) (d : option D) (elementwise_affine : option bool) : norm :=
    let uw := match elementwise_affine with Some b => b | None => uw end in
    let ub := match elementwise_affine with Some b => b | None => ub end in
    let s := to_shape s in
    {| nshape := s; neps := eps; use_weight := uw; use_bias := ub;
       nweight := if uw then Some (full s d 1%R) else None; nbias := if ub then Some (full s d 0%R) else None |}.

  Definition zip_with (f : R -> R -> R) (u v : list R) : list R := map (fun p => f (fst p) (snd p)) (List.combine u v).
  (** Lines 154-157: an elementwise operation with a parameter. *)
  Definition with_param (use : bool) (p : option array) (s : list nat) (d : D) (f : R -> R -> R) (out : list R) : res (list R) :=
    if use then
      match p with
      | None => Err AttributeError
      | Some a => if shape_eqb (shape a) s then Ok (zip_with f (map (cast d) (data a)) out) else Err TypeError
      end
    else Ok out.
  (** Lines 154-161 and 401-408: the part both layers share. *)
  Definition finish (m : norm) (x : array) (d : D) (out : list R) (state : option S) : res (array * option S) :=
    out <- with_param (use_weight m) (nweight m) (shape x) d (fun w o => (w * o)%R) out ;;
    out <- with_param (use_bias m) (nbias m) (shape x) d (fun b o => (o + b)%R) out ;;
    Ok ({| dt := dt x; shape := shape x; data := map (cast (dt x)) out |}, state).
  (** Lines 133-161. *)
  Definition layer_norm (m : norm) (x : array) (state : option S) : res (array * option S) :=
    if negb (shape_eqb (shape x) (nshape m)) then Err ValueError else
    let d := promote (dt x) in
    let xs := map (cast d) (data x) in
    let mean := rmean xs in
    let variance := Rmax 0 (rvar xs) in
    let inv := rsqrt (variance + neps m) in
    finish m x d (map (fun v => (v - mean) * inv)%R xs) state.
  (** Lines 385-408. *)
  Definition rms_norm (m : norm) (x : array) (state : option S) : res (array * option S) :=
    if negb (shape_eqb (shape x) (nshape m)) then Err ValueError else
    let d := promote (dt x) in
    let xs := map (cast d) (data x) in
    let inv_rms := rsqrt (rmean (map (fun v => v * v)%R xs) + neps m) in
    finish m x d (map (fun v => inv_rms * v)%R xs) state.

  (** ** GroupNorm *)
  Record group_norm := {
    groups : nat; channels : option nat; geps : R; affine : bool; gweight : option array; gbias : option array }.
  (** Lines 220-232. [jnp.ones(channels)] has one axis. *)
  Definition make_group_norm (g : nat) (c : option nat) (eps : R) (aff : bool) (d : option D) : res group_norm :=
    _ <- match c with
         | Some c => if Nat.eqb g 0 then Err ZeroDivisionError else if Nat.eqb (c mod g) 0 then Ok tt else Err ValueError
         | None => Ok tt
         end ;;
    match c, aff with
    | None, true => Err ValueError
    | Some n, true =>
        Ok {| groups := g; channels := c; geps := eps; affine := aff;
              gweight := Some (full [n] d 1%R); gbias := Some (full [n] d 0%R) |}
    | _, false => Ok {| groups := g; channels := c; geps := eps; affine := aff; gweight := None; gbias := None |}
    end.

  (** The leading axis of an array split off: [n] consecutive pieces of [k] entries. *)
  Fixpoint pieces (n k : nat) (l : list R) : list (list R) :=
    match n with O => [] | Datatypes.S n' => firstn k l :: pieces n' k (skipn k l) end.
  (** Lines 270-274 for one group. *)
  Definition normalise (eps : R) (y : list R) : list R :=
    let mean := rmean y in
    let variance := Rmax 0 (rvar y) in
    let inv := rsqrt (variance + eps) in
    map (fun v => (v - mean) * inv)%R y.
  (** _misc.py lines 7-9, for an array with one axis broadcast to a shape [c :: rest]. *)
  Definition left_broadcast (a : array) (c : nat) (rest : list nat) : res (list R) :=
    match shape a with
    | [n] => if Nat.eqb n c then Ok (flat_map (fun v => repeat v (size rest)) (data a))
             else if Nat.eqb n 1 then Ok (flat_map (fun v => repeat v (c * size rest)) (data a))
             else Err ValueError
    | _ => Err ValueError
    end.
  (** Lines 263-283. *)
  Definition call_group_norm (m : group_norm) (x : array) (state : option S) : res (array * option S) :=
    let d := promote (dt x) in
    let xs := map (cast d) (data x) in
    match shape x with
    | [] => Err IndexError
    | c :: rest =>
        if Nat.eqb (groups m) 0 then Err ZeroDivisionError else
        let k := c / groups m * size rest in
        if negb (Nat.eqb (groups m * k) (size (shape x))) then Err TypeError else
        let out := concat (map (normalise (geps m)) (pieces (groups m) k xs)) in
        out <- (if affine m then
                  match gweight m, gbias m with
                  | Some w, Some b =>
                      w <- left_broadcast w c rest ;;
                      b <- left_broadcast b c rest ;;
                      Ok (zip_with Rplus (zip_with Rmult (map (cast d) w) out) (map (cast d) b))
                  | _, _ => Err AttributeError
                  end
                else Ok out) ;;
        Ok ({| dt := dt x; shape := shape x; data := map (cast (dt x)) out |}, state)
    end.
End Norm.
