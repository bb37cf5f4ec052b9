(** Model of pooling: equinox/nn/_pool.py lines 26-155 (Pool) and 444-532 (AdaptivePool).

    - Sizes are unbounded integers.
    - [lax.reduce_window] pads with [init] and folds the operation over each window, from the left
      and starting with [init]; it refuses windows, strides of the wrong number or not positive.
      Along one axis it gives [max(0, (n + l + r - k) // s + 1)] windows, at distance [s].
    - Values: one axis of one channel, non-negative paddings. *)
From Verif Require Export Base.

(** What a caller may pass for [kernel_size], [stride] and [padding]. *)
Inductive int_or_seq := AnInt (z : Z) | ASeq (l : list Z) | AnythingElse.
Inductive pad_elem :=
| PInt (z : Z) | PPair (a b : Z)
| POther                                       (* a sequence of another length *)
| PNested.                                     (* a pair of sequences *)
Inductive pad_arg := PadInt (z : Z) | PadSeq (l : list pad_elem) | PadOther.

Record pool := {
  nsd : nat; kernel : list Z; stride : list Z; padding : list pad_elem; use_ceil : bool }.

(** Lines 62-80. *)
Definition parse_ints (n : nat) (x : int_or_seq) : res (list Z) :=
  match x with AnInt z => Ok (repeat z n) | ASeq l => Ok l | AnythingElse => Err ValueError end.
Definition is_seq_elem (e : pad_elem) : bool := match e with PInt _ => false | _ => true end.
(** Lines 82-93: [(p, p)] of a sequence [p] is not a pair of numbers. *)
Definition parse_padding (n : nat) (x : pad_arg) : res (list pad_elem) :=
  match x with
  | PadInt z => Ok (repeat (PPair z z) n)
  | PadSeq l =>
      if Nat.eqb (length l) n then
        if forallb is_seq_elem l then Ok l
        else Ok (map (fun e => match e with PInt z => PPair z z | _ => PNested end) l)
      else Err ValueError
  | PadOther => Err ValueError
  end.
(** Lines 26-93. *)
Definition pool_init (n : nat) (k s : int_or_seq) (p : pad_arg) (ceil : bool) : res pool :=
  k <- parse_ints n k ;;
  s <- parse_ints n s ;;
  p <- parse_padding n p ;;
  Ok {| nsd := n; kernel := k; stride := s; padding := p; use_ceil := ceil |}.

(** [left, right = p], and the arithmetic that follows: an integer cannot be unpacked, nor sequences compared with integers. *)
Definition unpack (e : pad_elem) : res (Z * Z) :=
  match e with PPair a b => Ok (a, b) | POther => Err ValueError | PNested | PInt _ => Err TypeError end.

(** Lines 95-104 for one axis. Python's [%] by zero raises. *)
Definition ceil_padding (n : Z) (p : Z * Z) (k s : Z) : res (Z * Z) :=
  if Z.eqb s 0 then Err ZeroDivisionError else
  if Z.eqb ((n + fst p + snd p - k) mod s) 0 then Ok p else Ok (fst p, snd p + s)%Z.
(** [zip] stops at the shortest. *)
Fixpoint ceil_paddings (ns : list Z) (ps : list pad_elem) (ks ss : list Z) : res (list pad_elem) :=
  match ns, ps, ks, ss with
  | n :: ns', p :: ps', k :: ks', s :: ss' =>
      p <- unpack p ;; q <- ceil_padding n p k s ;; qs <- ceil_paddings ns' ps' ks' ss' ;; Ok (PPair (fst q) (snd q) :: qs)
  | _, _, _, _ => Ok []
  end.
(** Lines 106-115. *)
Fixpoint check_padding (ps : list pad_elem) (ks : list Z) : res unit :=
  match ps, ks with
  | p :: ps', k :: ks' =>
      p <- unpack p ;; if (k <? Z.max (fst p) (snd p))%Z then Err RuntimeError else check_padding ps' ks'
  | _, _ => Ok tt
  end.

(** Shapes in [lax.reduce_window]. *)
Definition window_count (n : Z) (p : Z * Z) (k s : Z) : Z := Z.max 0 ((n + fst p + snd p - k) / s + 1).
Fixpoint reduce_shape (ns : list Z) (ps : list pad_elem) (ks ss : list Z) : res (list Z) :=
  match ns, ps, ks, ss with
  | [], [], [], [] => Ok []
  | n :: ns', p :: ps', k :: ks', s :: ss' =>
      if (k <=? 0)%Z || (s <=? 0)%Z then Err TypeError else
      p <- unpack p ;; r <- reduce_shape ns' ps' ks' ss' ;; Ok (window_count n p k s :: r)
  | _, _, _, _ => Err TypeError
  end.
(** [Pool.__call__] on an input of shape [channels :: ns]: lines 118-155. *)
Definition pool_shape (m : pool) (shape : list Z) : res (list Z) :=
  match shape with
  | [] => Err AssertionError
  | c :: ns =>
      if negb (Nat.eqb (length ns) (nsd m)) then Err AssertionError else
      ps <- (if use_ceil m then ceil_paddings ns (padding m) (kernel m) (stride m) else Ok (padding m)) ;;
      _ <- check_padding ps (kernel m) ;;
      out <- reduce_shape ns ps (kernel m) (stride m) ;;
      Ok (c :: out)
  end.

(** Values along one axis. *)
Section Values.
  Context {A : Type}.
  Variables (op : A -> A -> A) (init : A).
  Definition padded (l r : nat) (x : list A) : list A := repeat init l ++ x ++ repeat init r.
  Definition window (y : list A) (start k : nat) : list A := firstn k (skipn start y).
  Definition reduce_window (x : list A) (l r k s : nat) : list A :=
    let y := padded l r x in
    let m := if Nat.ltb (length y) k then 0 else (length y - k) / s + 1 in
    map (fun j => fold_left op (window y (j * s) k) init) (seq 0 m).
  (** One-dimensional [Pool.__call__] on one channel. *)
  Definition pool1d (ceil : bool) (l r k s : nat) (x : list A) : res (list A) :=
    p <- (if ceil then ceil_padding (Z.of_nat (length x)) (Z.of_nat l, Z.of_nat r) (Z.of_nat k) (Z.of_nat s)
          else Ok (Z.of_nat l, Z.of_nat r)) ;;
    if (Z.of_nat k <? Z.max (fst p) (snd p))%Z then Err RuntimeError else
    if (Nat.eqb k 0 || Nat.eqb s 0)%bool then Err TypeError else
    Ok (reduce_window x (Z.to_nat (fst p)) (Z.to_nat (snd p)) k s).
End Values.

(** ** AdaptivePool *)
Section Adaptive.
  Context {A : Type}.
  (** The user's operation on one-dimensional arrays, and what the same operation does to a scalar. *)
  Variables (opv : list A -> A) (ops : A -> A).

  (** [x.reshape(-1, q)] and [x.reshape(h, -1)]: rows of [q]. *)
  Fixpoint rows (m q : nat) (x : list A) : list (list A) :=
    match m with O => [] | S m' => firstn q x :: rows m' q (skipn q x) end.
  (** [reshape] with one unknown dimension: refused if the other one is zero or does not divide. *)
  Definition reshape_q (q : nat) (x : list A) : res (list (list A)) :=
    if Nat.eqb q 0 then Err TypeError else
    if negb (Nat.eqb (length x mod q) 0) then Err TypeError else Ok (rows (length x / q) q x).
  Definition reshape_m (m : nat) (x : list A) : res (list (list A)) :=
    if Nat.eqb m 0 then Err TypeError else
    if negb (Nat.eqb (length x mod m) 0) then Err TypeError else Ok (rows m (length x / m) x).

  (** [_adaptive_pool1d], lines 444-472. *)
  Definition adaptive1d (t : nat) (x : list A) : res (list A) :=
    if Nat.eqb t 0 then Err ZeroDivisionError else
    let n := length x in
    let heads := n mod t in
    if negb (Nat.eqb heads 0) then
      let e := heads * (n / t + 1) in
      hs <- reshape_m heads (firstn e x) ;;
      ts <- reshape_q (n / t) (skipn e x) ;;
      Ok (map opv hs ++ map opv ts)
    else
      ws <- reshape_q (n / t) x ;;
      Ok (map ops (map opv ws)).
End Adaptive.

(** Arrays of any rank, and functions on them whose output shape depends on the input shape only. *)
Definition arr (A : Type) := (list nat * (list nat -> A))%type.
Definition ins {X} (j : nat) (k : X) (l : list X) : list X := firstn j l ++ k :: skipn j l.
Definition del {X} (j : nat) (l : list X) : list X := firstn j l ++ skipn (S j) l.
Record jfun (A : Type) := { fsh : list nat -> res (list nat); fval : list nat -> (list nat -> A) -> list nat -> A }.
Arguments fsh {A} _. Arguments fval {A} _.
Arguments Build_jfun {A} _ _.
(** [jax.vmap(f, in_axes=(j, ...), out_axes=j)] *)
Definition vmap {A} (j : nat) (f : jfun A) : jfun A :=
  {| fsh := fun sh => match nth_error sh j with
                      | None => Err ValueError
                      | Some n => rmap (ins j n) (fsh f (del j sh))
                      end;
     fval := fun sh x idx => fval f (del j sh) (fun i => x (ins j (nth j idx 0) i)) (del j idx) |}.

Section AdaptiveND.
  Context {A : Type}.
  Variables (opv : list A -> A) (ops : A -> A).
  Definition line (n : nat) (x : list nat -> A) : list A := map (fun k => x [k]) (seq 0 n).
  Definition adaptive_fun (t : nat) : jfun A :=
    {| fsh := fun sh => match sh with
                        | [n] => rmap (fun out => [length out]) (adaptive1d (fun _ => tt) (fun _ => tt) t (repeat tt n))
                        | _ => Err TypeError
                        end;
       fval := fun sh x idx => match sh, idx with
                               | [n], [i] => match adaptive1d opv ops t (line n x) with
                                             | Ok out => nth i out (x [])
                                             | Err _ => x []
                                             end
                               | _, _ => x []
                               end |}.
  Definition apply_fun (f : jfun A) (x : arr A) : res (arr A) :=
    sh <- fsh f (fst x) ;; Ok (sh, fval f (fst x) (snd x)).
  (** The nested [vmap]s for axis [i]: lines 523-531. *)
  Definition axis_fun (nd i t : nat) : jfun A :=
    fold_left (fun op j => if Nat.eqb i j then op else vmap j op) (seq 1 (nd - 1)) (vmap 0 (adaptive_fun t)).
  Fixpoint adaptive_axes (nd i : nat) (ts : list nat) (x : arr A) : res (arr A) :=
    match ts with
    | [] => Ok x
    | t :: ts' => y <- apply_fun (axis_fun nd i t) x ;; adaptive_axes nd (S i) ts' y
    end.
  (** [AdaptivePool.__call__], lines 505-532. [x.ndim - 1] is an integer. *)
  Definition adaptive_pool (ts : list nat) (x : arr A) : res (arr A) :=
    if negb (Nat.eqb (length (fst x)) (S (length ts))) then Err ValueError else
    adaptive_axes (length (fst x)) 1 ts x.
End AdaptiveND.
(** [AdaptivePool.__init__], lines 482-503. *)
Definition adaptive_init (n : nat) (t : int_or_seq) : res (list Z) :=
  match t with
  | AnInt z => Ok (repeat z n)
  | ASeq l => if Nat.eqb (length l) n then Ok l else Err ValueError
  | AnythingElse => Err ValueError
  end.
