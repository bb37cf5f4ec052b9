(** Model of attention: equinox/nn/_attention.py lines 19-58 and 143-345, with the projections of [Mlp_Model].

    - Numbers: any type with the operations used; [sqrt] of a size, the smallest finite float [fmin] and the exponential
      are arbitrary. dtypes and the conversions of lines 37-39 are not modelled.
    - An array of shape (seq, n) is a list of rows, one of shape (seq, heads, n) a list of lists of rows. Sequences
      have at least one element (the code reshapes to an unknown size, which fails otherwise).
    - [dropout] is the call of [nn.Dropout] on an array of weights with the key of the head (property C41).
    - [named_scope] and the deprecated argument [deterministic] are left out. *)
From Verif Require Export Mlp_Model.
Local Open Scope nat_scope.
Local Open Scope list_scope.

(** A mask: shape and entries. *)
Inductive mask_t :=
| NoMask
| Mask2 (q kv : nat) (m : nat -> nat -> bool)
| Mask3 (h q kv : nat) (m : nat -> nat -> nat -> bool)
| MaskOther.                                                      (* any other number of dimensions *)

Section Attention.
  Variables (V Key : Type) (zero : V) (add mul sub div vmax : V -> V -> V) (exp : V -> V) (sqrt : nat -> V) (fmin : V).
  Variable split : Key -> nat -> list Key.
  Variable init_w : Key -> nat -> nat -> list (list V).
  Variable init_b : Key -> nat -> nat -> list V.
  Variable dropout : option Key -> list (list V) -> res (list (list V)).
  Notation mat := (list (list V)).
  Notation dot := (dot V zero add mul).

  Fixpoint sum (l : list V) : V := match l with [] => zero | x :: l' => add x (sum l') end.
  (** [jax.nn.softmax] of one row. *)
  Definition softmax (l : list V) : list V :=
    match l with
    | [] => []
    | x :: r =>
        let m := fold_left vmax r x in
        let es := map (fun y => exp (sub y m)) l in
        map (fun e => div e (sum es)) es
    end.
  (** Lines 24-25. *)
  Definition logits (query key : mat) : mat :=
    map (fun qr => let qr := map (fun x => div x (sqrt (length qr))) qr in map (fun kr => dot qr kr) key) query.
  (** Lines 26-34. *)
  Definition apply_mask (nq nkv : nat) (mask : option (nat * nat * (nat -> nat -> bool))) (l : mat) : res mat :=
    match mask with
    | None => Ok l
    | Some (r, c, m) =>
        if Nat.eqb r nq && Nat.eqb c nkv then
          Ok (map (fun s => map (fun S => if m s S then nth S (nth s l []) zero else fmin) (seq 0 nkv)) (seq 0 nq))
        else Err ValueError
    end.
  Definition attention_weights (query key : mat) (mask : option (nat * nat * (nat -> nat -> bool))) : res mat :=
    l <- apply_mask (length query) (length key) mask (logits query key) ;;
    Ok (map softmax l).
  (** Lines 54-58; [dv] is the number of columns of [value]. *)
  Definition dot_product_attention (dv : nat) (query key_ value : mat) (mask : option (nat * nat * (nat -> nat -> bool)))
      (key : option Key) : res mat :=
    w <- attention_weights query key_ mask ;;
    w <- dropout key w ;;
    Ok (map (fun wr => map (fun d => dot wr (map (fun r => nth d r zero) value)) (seq 0 dv)) w).

  Record mha := {
    query_proj : linear V; key_proj : linear V; value_proj : linear V; output_proj : linear V;
    num_heads : nat; query_size : nat; key_size : nat; value_size : nat; output_size : nat; qk_size : nat; vo_size : nat }.
  Definition default (o : option nat) (d : nat) : nat := match o with Some n => n | None => d end.
  (** Lines 186-243. [query_size // num_heads] raises if there are no heads. *)
  Definition make_mha (h q : nat) (k v o qk vo : option nat) (bq bk bv bo : bool) (key : Key) : res mha :=
    match split key 4 with
    | [qkey; kkey; vkey; okey] =>
        if Nat.eqb h 0 && (match qk with None => true | _ => false end || match vo with None => true | _ => false end)
        then Err ZeroDivisionError else
        let k := default k q in
        let v := default v q in
        let qk := default qk (q / h) in
        let vo := default vo (q / h) in
        let o := default o q in
        pq <- make_linear V Key split init_w init_b (Size q) (Size (h * qk)) bq qkey ;;
        pk <- make_linear V Key split init_w init_b (Size k) (Size (h * qk)) bk kkey ;;
        pv <- make_linear V Key split init_w init_b (Size v) (Size (h * vo)) bv vkey ;;
        po <- make_linear V Key split init_w init_b (Size (h * vo)) (Size o) bo okey ;;
        Ok {| query_proj := pq; key_proj := pk; value_proj := pv; output_proj := po;
              num_heads := h; query_size := q; key_size := k; value_size := v; output_size := o; qk_size := qk; vo_size := vo |}
    | _ => Err ValueError
    end.

  (** Rows of a matrix through a layer: [jax.vmap(proj)(x)]. *)
  Definition through (l : linear V) (x : mat) : res mat :=
    mapM (fun row => y <- call_linear V zero add mul l (Vec V row) ;; match y with Vec _ vs => Ok vs | Sc _ _ => Err ValueError end) x.
  (** [projection.reshape(seq_length, num_heads, -1)] *)
  Fixpoint chunks (h d : nat) (row : list V) : list (list V) :=
    match h with O => [] | S h' => firstn d row :: chunks h' d (skipn d row) end.
  (** Lines 342-345. *)
  Definition project (h : nat) (l : linear V) (x : mat) : res (list mat) :=
    y <- through l x ;;
    mapM (fun row => if Nat.eqb h 0 then Err ZeroDivisionError
                     else if Nat.eqb (length row mod h) 0 then Ok (chunks h (length row / h) row) else Err TypeError) y.
  Definition has_shape (n h d : nat) (a : list mat) : bool :=
    Nat.eqb (length a) n && forallb (fun m => Nat.eqb (length m) h && forallb (fun r => Nat.eqb (length r) d) m) a.
  (** Head [i] of an array of shape (seq, heads, n). *)
  Definition head (i : nat) (a : list mat) : mat := map (fun m => nth i m []) a.
  (** The mask seen by head [i]. *)
  Definition mask_of (mask : mask_t) (i : nat) : option (nat * nat * (nat -> nat -> bool)) :=
    match mask with
    | NoMask => None
    | Mask2 r c m => Some (r, c, m)
    | Mask3 _ r c m => Some (r, c, m i)
    | MaskOther => Some (0, 0, fun _ _ => false)
    end.

  (** Lines 246-340. *)
  Definition call_mha (m : mha) (query key_ value : mat) (mask : mask_t) (key : option Key)
      (process_heads : option (list mat -> list mat -> list mat -> res (list mat * list mat * list mat))) : res mat :=
    if negb (Nat.eqb (length key_) (length value)) then Err ValueError else
    let h := num_heads m in
    q <- project h (query_proj m) query ;;
    k <- project h (key_proj m) key_ ;;
    v <- project h (value_proj m) value ;;
    '(q, k, v) <- match process_heads with
                  | None => Ok (q, k, v)
                  | Some f =>
                      '(q', k', v') <- f q k v ;;
                      if has_shape (length query) h (qk_size m) q' && has_shape (length key_) h (qk_size m) k'
                         && has_shape (length value) h (vo_size m) v'
                      then Ok (q', k', v') else Err ValueError
                  end ;;
    _ <- match mask with
         | Mask3 h' _ _ _ => if Nat.eqb h' h then Ok tt else Err ValueError        (* [vmap]: sizes of the mapped axes *)
         | MaskOther => Err ValueError
         | _ => Ok tt
         end ;;
    let keys := match key with None => repeat None h | Some ky => map Some (split ky h) end in
    attns <- mapM (fun i => dot_product_attention (vo_size m) (head i q) (head i k) (head i v) (mask_of mask i) (nth i keys None))
               (seq 0 h) ;;
    through (output_proj m) (map (fun s => concat (map (fun a => nth s a []) attns)) (seq 0 (length query))).
End Attention.
