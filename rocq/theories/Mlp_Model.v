(** Model of Linear and MLP: equinox/nn/_linear.py lines 22-103, equinox/nn/_mlp.py lines 44-152.

    - Numbers: any type with addition and multiplication. Inputs are scalars or vectors. Random
      initialisation is an arbitrary function of key and sizes ([default_init] and its limit).
    - The activations of an MLP are, for layer i and neuron j, an arbitrary function ([filter_vmap] copies
      learnt ones per layer and neuron: property C92). Sizes are naturals or "scalar".
    - dtypes are not modelled. *)
From Verif Require Export Base.
Local Open Scope nat_scope.
Local Open Scope list_scope.

Inductive size := Scalar | Size (n : nat).
Definition dim (s : size) : nat := match s with Scalar => 1 | Size n => n end.

Section Mlp.
  Variables (V Key : Type) (zero : V) (add mul : V -> V -> V).
  Variable split : Key -> nat -> list Key.
  Variable init_w : Key -> nat -> nat -> list (list V).
  Variable init_b : Key -> nat -> nat -> list V.
  Inductive arr := Sc (v : V) | Vec (vs : list V).
  Record linear := { weight : list (list V); bias : option (list V); in_features : size; out_features : size; use_bias : bool }.
  (** _linear.py lines 50-65. *)
  Definition make_linear (i o : size) (b : bool) (key : Key) : res linear :=
    match split key 2 with
    | [wkey; bkey] =>
        Ok {| weight := init_w wkey (dim o) (dim i); bias := if b then Some (init_b bkey (dim o) (dim i)) else None;
              in_features := i; out_features := o; use_bias := b |}
    | _ => Err ValueError
    end.
  Fixpoint dot (a b : list V) : V := match a, b with x :: a', y :: b' => add (mul x y) (dot a' b') | _, _ => zero end.
  Fixpoint zip {X Y Z} (f : X -> Y -> Z) (a : list X) (b : list Y) : list Z := match a, b with x :: a', y :: b' => f x y :: zip f a' b' | _, _ => [] end.
  (** [weight @ x]: all rows have [n] entries, the number of columns. *)
  Definition matvec (n : nat) (w : list (list V)) (x : arr) : res (list V) :=
    match x with Sc _ => Err ValueError | Vec vs => if Nat.eqb n (length vs) then Ok (map (fun row => dot row vs) w) else Err TypeError end.
  (** _linear.py lines 93-103. *)
  Definition call_linear (l : linear) (x : arr) : res arr :=
    x <- match in_features l with Scalar => match x with Sc v => Ok (Vec [v]) | Vec _ => Err ValueError end | Size _ => Ok x end ;;
    y <- matvec (dim (in_features l)) (weight l) x ;;
    let y := match bias l with Some b => zip add y b | None => y end in
    match out_features l with Scalar => match y with [v] => Ok (Sc v) | _ => Err AssertionError end | Size _ => Ok (Vec y) end.

  Record mlp := { layers : list linear; act : nat -> nat -> V -> V; final : nat -> V -> V; in_size : size; out_size : size; width : nat; depth : nat; m_bias : bool; m_final_bias : bool }.
  Definition get {X} (l : list X) (i : nat) : res X := match nth_error l i with Some x => Ok x | None => Err IndexError end.
  (** _mlp.py lines 89-126; the loop of line 100 over [range(depth - 1)]. *)
  Definition make_mlp (i o : size) (w d : nat) (a : nat -> nat -> V -> V) (f : nat -> V -> V) (ub uf : bool) (key : Key) : res mlp :=
    let keys := split key (d + 1) in
    ls <- (if Nat.eqb d 0 then k <- get keys 0 ;; l <- make_linear i o uf k ;; Ok [l]
           else k0 <- get keys 0 ;; l0 <- make_linear i (Size w) ub k0 ;;
                mid <- mapM (fun j => k <- get keys (j + 1) ;; make_linear (Size w) (Size w) ub k) (seq 0 (d - 1)) ;;
                k1 <- get keys (length keys - 1) ;; l1 <- make_linear (Size w) o uf k1 ;;
                Ok ((l0 :: mid) ++ [l1])) ;;
    Ok {| layers := ls; act := a; final := f; in_size := i; out_size := o; width := w; depth := d; m_bias := ub; m_final_bias := uf |}.
  Definition neurons (f : nat -> V -> V) (x : arr) : res arr :=
    match x with Sc _ => Err ValueError | Vec vs => Ok (Vec (zip (fun j v => f j v) (seq 0 (length vs)) vs)) end.
  (** _mlp.py lines 141-152: the layers but the last with their activations, then the last. *)
  Fixpoint loop (m : mlp) (i : nat) (ls : list linear) (x : arr) : res arr :=
    match ls with
    | [] => Err IndexError
    | [l] =>
        y <- call_linear l x ;;
        match out_size m with Scalar => match y with Sc v => Ok (Sc (final m 0 v)) | Vec _ => Err ValueError end | Size _ => neurons (final m) y end
    | l :: ls' => y <- call_linear l x ;; z <- neurons (act m i) y ;; loop m (i + 1) ls' z
    end.
  Definition call_mlp (m : mlp) (x : arr) : res arr := loop m 0 (layers m) x.
End Mlp.
