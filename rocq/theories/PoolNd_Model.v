(** Model of the values of pooling layers of any rank: equinox/nn/_pool.py lines 117-155 ([Pool.__call__]), 158-441 (the average and maximum
    layers), 535-621 (the adaptive ones). Sizes and refusals are those of Pool_Model.

    - An array is its shape and its entries by multi-index. [moveaxis], [expand_dims], [squeeze] permute, insert and remove indices.
    - [lax.reduce_window] (outside /repo) pads with [init] and folds the operation over each window, from the left and starting with [init], the last
      axis running fastest.
    - Numbers are real, or minus infinity in [MaxPool]. Rounding, NaN, and integer arrays (which have no minus infinity) are left out. *)
From Verif Require Export Pool_Model.
From Coq Require Export Reals.
Local Open Scope nat_scope.
Local Open Scope list_scope.

Section Call.
  Context {A : Type}.
  Variables (op : A -> A -> A) (init : A).

  (** [jnp.moveaxis(x, 0, -1)], [jnp.expand_dims(x, axis=0)], [jnp.squeeze(x, axis=0)], [jnp.moveaxis(x, -1, 0)] *)
  Definition first_to_last (x : arr A) : arr A :=
    (tl (fst x) ++ [hd 0 (fst x)], fun idx => snd x (last idx 0 :: removelast idx)).
  Definition expand0 (x : arr A) : arr A := (1 :: fst x, fun idx => snd x (tl idx)).
  Definition squeeze0 (x : arr A) : res (arr A) :=
    match fst x with 1 :: sh => Ok (sh, fun idx => snd x (0 :: idx)) | _ => Err ValueError end.
  Definition last_to_first (x : arr A) : arr A :=
    (last (fst x) 0 :: removelast (fst x), fun idx => snd x (tl idx ++ [hd 0 idx])).

  (** The offsets inside of a window, the last axis running fastest. *)
  Definition zseq (k : Z) : list Z := map Z.of_nat (seq 0 (Z.to_nat k)).
  Fixpoint offsets (ks : list Z) : list (list Z) :=
    match ks with [] => [[]] | k :: ks => flat_map (fun o => map (cons o) (offsets ks)) (zseq k) end.
  (** The place in the array, before padding. *)
  Fixpoint place (idx : list nat) (ss : list Z) (ps : list (Z * Z)) (off : list Z) : list Z :=
    match idx, ss, ps, off with
    | j :: idx, s :: ss, p :: ps, o :: off => (Z.of_nat j * s + o - fst p)%Z :: place idx ss ps off
    | _, _, _, _ => []
    end.
  Fixpoint inside (sh : list nat) (q : list Z) : bool :=
    match sh, q with
    | [], [] => true
    | n :: sh, q0 :: q => (0 <=? q0)%Z && (q0 <? Z.of_nat n)%Z && inside sh q
    | _, _ => false
    end.
  Definition read (x : arr A) (q : list Z) : A := if inside (fst x) q then snd x (map Z.to_nat q) else init.
  Definition reduce_window_nd (ks ss : list Z) (ps : list pad_elem) (x : arr A) : res (arr A) :=
    sh <- reduce_shape (map Z.of_nat (fst x)) ps ks ss ;;
    pads <- mapM unpack ps ;;
    Ok (map Z.to_nat sh, fun idx => fold_left op (map (fun off => read x (place idx ss pads off)) (offsets ks)) init).

  (** Lines 117-155. *)
  Definition pool_call (m : pool) (x : arr A) : res (arr A) :=
    if negb (Nat.eqb (length (fst x)) (nsd m + 1)) then Err AssertionError else
    ps <- (if use_ceil m then ceil_paddings (map Z.of_nat (tl (fst x))) (padding m) (kernel m) (stride m) else Ok (padding m)) ;;
    _ <- check_padding ps (kernel m) ;;
    let x := first_to_last x in
    let x := expand0 x in
    x <- reduce_window_nd ([1%Z] ++ kernel m ++ [1%Z]) ([1%Z] ++ stride m ++ [1%Z]) ([PPair 0 0] ++ ps ++ [PPair 0 0]) x ;;
    x <- squeeze0 x ;;
    Ok (last_to_first x).
End Call.

(** ** The average layers: lines 158-203 and their copies of higher rank *)
Definition prod_Z (l : list Z) : Z := fold_right Z.mul 1%Z l.
Definition avg_pool (m : pool) (x : arr R) : res (arr R) :=
  y <- pool_call Rplus 0%R m x ;;
  Ok (fst y, fun idx => (snd y idx / IZR (prod_Z (kernel m)))%R).

(** ** The maximum layers: lines 206-250 and their copies of higher rank *)
Inductive ext := NegInf | Fin (r : R).
Definition ext_max (a b : ext) : ext :=
  match a, b with NegInf, b => b | a, NegInf => a | Fin a, Fin b => Fin (Rmax a b) end.
Definition max_pool (m : pool) (x : arr ext) : res (arr ext) := pool_call ext_max NegInf m x.

(** ** The adaptive layers: lines 535-621. [jnp.mean] and [jnp.max] leave scalars as they are; the maximum of nothing raises, which does not happen
    here (property C37). *)
Definition mean (l : list R) : R := (fold_left Rplus l 0 / INR (length l))%R.
Definition maximum (l : list R) : R := match l with [] => 0%R | a :: l => fold_left Rmax l a end.
Definition adaptive_avg_pool (ts : list nat) (x : arr R) : res (arr R) := adaptive_pool mean (fun a => a) ts x.
Definition adaptive_max_pool (ts : list nat) (x : arr R) : res (arr R) := adaptive_pool maximum (fun a => a) ts x.
