(** Model of BatchNorm: equinox/nn/_batch_norm.py lines 59-176, on top of the model of [State].

    - Numbers are exact rationals (dividing by zero gives zero); [jnp.sqrt] is an arbitrary function.
      Complex inputs (the [conj] of line 152) are not modelled.
    - The call is seen from outside the [vmap]: the input is a batch, a list of examples, each a list
      of channels, each the list of the entries of that channel. [lax.pmean] is the mean over the
      batch if an axis with the name [axis_name] is in scope. (Under [vmap] JAX hands the module a
      copy of the state and returns the resulting state; here the module works on the state itself.)
    - A floating dtype is a number; promotion is the maximum. Arrays of the state are the flag
      [first_time] and vectors with a dtype. [jnp.empty] gives arbitrary entries. *)
From Coq Require Export QArith.
From Verif Require Export State_Model.
Local Open Scope nat_scope.
Local Open Scope list_scope.

Inductive arr := ABool (b : bool) | AVec (dtype : nat) (v : list Q).
(** Shape and dtype. *)
Definition arr_struct (a : arr) : nat * nat :=
  match a with ABool _ => (0, 0) | AVec d v => (S d, length v) end.
Definition arr_seqb (x y : nat * nat) : bool := Nat.eqb (fst x) (fst y) && Nat.eqb (snd x) (snd y).
Definition bget := @state_get arr.
Definition bset := state_set (fun a : arr => Ok a) arr_struct arr_seqb.
Definition bheap := @heap arr.
Definition NameError : exn := OtherError 2.

Fixpoint qsum (l : list Q) : Q := match l with [] => 0%Q | x :: l' => (x + qsum l')%Q end.
Definition qmean (l : list Q) : Q := (qsum l / inject_Z (Z.of_nat (length l)))%Q.
Definition example := list (list Q).

Section BatchNorm.
  Variable sqrt : Q -> Q.

  Record bn := {
    weight : option (list Q); bias : option (list Q);
    first_time_index : marker; state_index : marker;
    input_size : nat; eps : Q; momentum : Q; inference : bool }.

  (** Lines 90-108; the entries of [jnp.empty] are [e1] and [e2]. The result is the module and the initial
      values of its two state indices. *)
  Definition stats_val (dt : nat) (m v : list Q) : tree arr := Node 0 [Leaf (AVec dt m); Leaf (AVec dt v)].
  Definition bn_init (mf ms : marker) (n : nat) (ep : Q) (affine : bool) (mom : Q) (inf : bool)
      (dt : nat) (e1 e2 : nat -> Q) : bn * (tree arr * tree arr) :=
    ({| weight := if affine then Some (repeat 1%Q n) else None;
        bias := if affine then Some (repeat 0%Q n) else None;
        first_time_index := mf; state_index := ms;
        input_size := n; eps := ep; momentum := mom; inference := inf |},
     (Leaf (ABool true), stats_val dt (map e1 (seq 0 n)) (map e2 (seq 0 n)))).

  (** Lines 149-155 for channel [c] of the batch [xs]. *)
  Definition chan (xs : list example) (c : nat) : list (list Q) := map (fun x => nth c x []) xs.
  Definition stat_mean (xs : list example) (c : nat) : Q := qmean (map qmean (chan xs c)).
  Definition stat_var (xs : list example) (c : nat) : Q :=
    let m := stat_mean xs c in
    let v := qmean (map (fun ys => qmean (map (fun y => (y - m) * (y - m))%Q ys)) (chan xs c)) in
    if Qle_bool 0 v then v else 0%Q.

  (** Elementwise operations on vectors, with broadcasting of vectors of length 1. *)
  Definition bcast (f : Q -> Q -> Q) (u v : list Q) : res (list Q) :=
    if Nat.eqb (length u) (length v) then Ok (map (fun p => f (fst p) (snd p)) (List.combine u v))
    else match u, v with
         | [a], _ => Ok (map (f a) v)
         | _, [b] => Ok (map (fun a => f a b) u)
         | _, _ => Err TypeError
         end.
  (** [lax.select] does not broadcast or promote. *)
  Definition lax_select (c : bool) (x y : nat * list Q) : res (nat * list Q) :=
    if Nat.eqb (fst x) (fst y) && Nat.eqb (length (snd x)) (length (snd y)) then Ok (if c then x else y)
    else Err TypeError.

  (** Lines 163-166 for one of the two statistics: batch [b] of dtype [dx], running [r] of dtype [dr]. *)
  Definition update_stat (first : bool) (mom : Q) (dx : nat) (b : list Q) (dr : nat) (r : list Q)
      : res (nat * list Q) :=
    mixed <- bcast (fun x y => (1 - mom) * x + mom * y)%Q b r ;;
    lax_select first (dx, b) (Nat.max dx dr, mixed).

  (** Lines 169-175. [vmap] requires the mapped axes to have the same size. *)
  Definition norm1 (m : bn) (c : nat) (rm rv : list Q) (y : Q) : Q :=
    let out := ((y - nth c rm 0) / sqrt (nth c rv 0 + eps m))%Q in
    match weight m, bias m with
    | Some w, Some b => (out * nth c w 0 + nth c b 0)%Q
    | _, _ => out
    end.
  Definition sizes_ok (m : bn) (n : nat) (rm rv : list Q) : bool :=
    Nat.eqb n (length rm) && Nat.eqb n (length rv) &&
    match weight m with Some w => Nat.eqb n (length w) | None => true end &&
    match bias m with Some b => Nat.eqb n (length b) | None => true end.
  Definition normalise (m : bn) (n : nat) (xs : list example) (rm rv : list Q) : res (list example) :=
    if sizes_ok m n rm rv then
      Ok (map (fun x => map (fun c => map (norm1 m c rm rv) (nth c x [])) (seq 0 n)) xs)
    else Err ValueError.

  (** Lines 111-176. [n] and [dx] are the number of channels and the dtype of the input; [axis] says
      whether the batch axis is in scope. *)
  Definition bn_call (h : bheap) (s : nat) (m : bn) (axis : bool) (n dx : nat) (xs : list example)
      (inf : option bool) : bheap * res (list example * nat) :=
    let inf := match inf with Some b => b | None => inference m end in
    if inf then
      (h, r <- bget h s (Some (state_index m)) ;;
          match r with
          | Node _ [Leaf (AVec _ rm); Leaf (AVec _ rv)] =>
              out <- normalise m n xs rm rv ;; Ok (out, s)
          | _ => Err TypeError
          end)
    else
      match bget h s (Some (first_time_index m)) with
      | Err e => (h, Err e)
      | Ok ft =>
        match bset h s (Some (first_time_index m)) (Leaf (ABool false)) with
        | (h1, Err e) => (h1, Err e)
        | (h1, Ok s1) =>
          if negb axis then (h1, Err NameError) else
          let bm := map (stat_mean xs) (seq 0 n) in
          let bv := map (stat_var xs) (seq 0 n) in
          match ft, bget h1 s1 (Some (state_index m)) with
          | _, Err e => (h1, Err e)
          | Leaf (ABool first), Ok (Node k [Leaf (AVec d1 rm); Leaf (AVec d2 rv)]) =>
            match update_stat first (momentum m) dx bm d1 rm, update_stat first (momentum m) dx bv d2 rv with
            | Ok (e1, rm'), Ok (e2, rv') =>
              match bset h1 s1 (Some (state_index m)) (Node k [Leaf (AVec e1 rm'); Leaf (AVec e2 rv')]) with
              | (h2, Err e) => (h2, Err e)
              | (h2, Ok s2) => (h2, out <- normalise m n xs rm' rv' ;; Ok (out, s2))
              end
            | Err e, _ => (h1, Err e)
            | _, Err e => (h1, Err e)
            end
          | _, _ => (h1, Err TypeError)
          end
        end
      end.
End BatchNorm.
