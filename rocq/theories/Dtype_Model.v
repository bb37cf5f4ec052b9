(** Model of the dtypes in the layers of equinox/nn: how the dtypes of parameters and inputs determine the dtype of the output, or an error.
    _linear.py lines 93-103, _mlp.py 89-152, _rnn.py 100-111 and 195-206, _conv.py 237-250, _normalisation.py 144-161, 263-283 and 392-408,
    _batch_norm.py 90-176, _dropout.py 86-97, _activations.py 32-45, _embedding.py 53-84 and 220-255, _attention.py 20-57 and 290-350, _spectral_norm.py
    15-24 and 98-157, and [default_floating_dtype] (equinox/_misc.py lines 16-20).

    - JAX promotes dtypes along a graph (documented in its "Type promotion semantics"); the result is the least upper bound. [WI], [WF], [WC] are
      the nodes of weakly typed values, that is of Python numbers and of arrays made from them with [jnp.asarray]; such an array has the default
      dtype. In the mode "strict" of [jax.numpy_dtype_promotion] weak types are promoted only. A [TypePromotionError] is a [ValueError]. Dtypes of
      8 bits or less other than [int8] and [uint8] are left out.
    - [/] and [jnp.mean] turn integers into the default floating dtype. [jnp.var] of complex numbers is real. [lax.select] and
      [lax.conv_general_dilated] want equal dtypes and raise a [TypeError].
    - Shapes are right. Parameters made by a layer are of an inexact dtype; activation functions keep dtypes. Without [jax_enable_x64] there are no
      64-bit values. *)
From Verif Require Export Base.
Local Open Scope nat_scope.
Local Open Scope list_scope.

Inductive ty := B | U8 | U16 | U32 | U64 | I8 | I16 | I32 | I64 | BF16 | F16 | F32 | F64 | C64 | C128 | WI | WF | WC.
Inductive mode := Standard | Strict.
Definition all_ty : list ty := [B; U8; U16; U32; U64; I8; I16; I32; I64; BF16; F16; F32; F64; C64; C128; WI; WF; WC].
Definition ty_eq_dec (a b : ty) : {a = b} + {a <> b}. Proof. decide equality. Defined.
Definition ty_eqb (a b : ty) : bool := if ty_eq_dec a b then true else false.

(** The graph. *)
Definition up (m : mode) (t : ty) : list ty :=
  match m with
  | Standard =>
      match t with
      | B => [WI] | WI => [U8; I8]
      | U8 => [I16; U16] | U16 => [I32; U32] | U32 => [I64; U64] | U64 => [WF]
      | I8 => [I16] | I16 => [I32] | I32 => [I64] | I64 => [WF]
      | WF => [BF16; F16; WC] | BF16 => [F32] | F16 => [F32] | F32 => [F64; C64] | F64 => [C128]
      | WC => [C64] | C64 => [C128] | C128 => []
      end
  | Strict =>
      match t with
      | WI => [WF; U8; U16; U32; U64; I8; I16; I32; I64] | WF => [WC; BF16; F16; F32; F64] | WC => [C64; C128]
      | _ => []
      end
  end.
Fixpoint reach (fuel : nat) (m : mode) (a b : ty) : bool :=
  ty_eqb a b || match fuel with O => false | S fuel => existsb (fun c => reach fuel m c b) (up m a) end.
Definition leb (m : mode) (a b : ty) : bool := reach 12 m a b.
(** [_least_upper_bound]. *)
Definition promote (m : mode) (a b : ty) : res ty :=
  let common := List.filter (fun c => leb m a c && leb m b c) all_ty in
  match find (fun c => forallb (leb m c) common) common with Some c => Ok c | None => Err ValueError end.

Section Layers.
  Variable m : mode.
  Variable x64 : bool.
  Notation "a ** b" := (promote m a b) (at level 40).

  (** [default_floating_dtype]: _misc.py lines 16-20. *)
  Definition default_float : ty := if x64 then F64 else F32.
  Definition dtype_or_default (d : option ty) : ty := match d with Some t => t | None => default_float end.
  (** [x.dtype]. *)
  Definition dtype (t : ty) : ty :=
    match t with WI => if x64 then I64 else I32 | WF => default_float | WC => if x64 then C128 else C64 | _ => t end.
  Definition inexactb (t : ty) : bool := match t with BF16 | F16 | F32 | F64 | C64 | C128 | WF | WC => true | _ => false end.
  Definition to_inexact (t : ty) : ty := if inexactb t then t else match t with WI => WF | _ => default_float end.
  Definition real_of (t : ty) : ty := match t with C64 => F32 | C128 => F64 | _ => t end.

  (** _linear.py lines 97-99. *)
  Definition linear (w : ty) (bias : bool) (x : ty) : res ty :=
    y <- w ** x ;; if bias then y ** w else Ok y.
  (** _mlp.py lines 141-152. *)
  Fixpoint mlp (w : ty) (biases : list bool) (x : ty) : res ty :=
    match biases with [] => Ok x | b :: bs => y <- linear w b x ;; mlp w bs y end.

  (** _rnn.py lines 100-111. *)
  Definition gru (w : ty) (use_bias : bool) (x h : ty) : res ty :=
    let bias := if use_bias then w else WI in
    ig <- (y <- w ** x ;; y ** bias) ;;
    hg <- w ** h ;;
    reset <- ig ** hg ;;
    inp <- ig ** hg ;;
    new <- (a <- hg ** bias ;; b <- reset ** a ;; ig ** b) ;;
    d <- h ** new ;;
    p <- inp ** d ;;
    new ** p.
  (** _rnn.py lines 195-206. *)
  Definition lstm (w : ty) (use_bias : bool) (x : ty) (hidden : ty * ty) : res (ty * ty) :=
    let '(h, c) := hidden in
    a <- w ** x ;;
    b <- w ** h ;;
    lin <- a ** b ;;
    lin <- (if use_bias then lin ** w else Ok lin) ;;
    fc <- lin ** c ;;
    ig <- lin ** lin ;;
    c <- fc ** ig ;;
    h <- lin ** c ;;
    Ok (h, c).

  (** _conv.py lines 237-250; so too ConvTranspose. *)
  Definition conv (w : ty) (use_bias : bool) (x : ty) : res ty :=
    if ty_eqb (dtype x) (dtype w) then if use_bias then x ** w else Ok x else Err TypeError.

  (** _normalisation.py: the dtype in which LayerNorm, GroupNorm and RMSNorm compute (lines 145-146, 264-265, 394-395). *)
  Definition norm_dtype (x : ty) : res ty := d <- promote Standard (dtype x) F32 ;; Ok (dtype d).
  (** Lines 148-159 and 267-281. *)
  Definition layer_norm (w b : option ty) (x : ty) : res ty :=
    d <- norm_dtype x ;;
    variance <- WF ** real_of d ;;
    inv <- variance ** WF ;;
    out <- (a <- d ** d ;; a ** inv) ;;
    out <- match w with Some _ => d ** out | None => Ok out end ;;
    out <- match b with Some _ => out ** d | None => Ok out end ;;
    Ok (dtype x).
  (** Lines 397-406. *)
  Definition rms_norm (w b : option ty) (x : ty) : res ty :=
    d <- norm_dtype x ;;
    inv <- d ** WF ;;
    out <- inv ** d ;;
    out <- match w with Some _ => d ** out | None => Ok out end ;;
    out <- match b with Some _ => out ** d | None => Ok out end ;;
    Ok (dtype x).

  (** _batch_norm.py lines 149-155. *)
  Definition stats (y : ty) : res (ty * ty) :=
    let mean := to_inexact y in
    d <- y ** mean ;;
    sq <- d ** d ;;
    var <- WF ** to_inexact sq ;;
    Ok (mean, var).
  (** Lines 163 and 164: a running statistic. *)
  Definition running (batch stat : ty) : res ty := a <- WF ** batch ;; b <- WF ** stat ;; a ** b.
  Definition select (a b : ty) : res ty := if ty_eqb (dtype a) (dtype b) then Ok a else Err TypeError.
  (** Lines 169-173. *)
  Definition bn_norm (s : ty) (affine : bool) (y mn v : ty) : res ty :=
    num <- y ** mn ;;
    den <- v ** WF ;;
    out <- num ** den ;;
    let out := to_inexact out in
    if affine then out <- out ** s ;; out ** s else Ok out.
  (** Lines 142-176: the dtypes of the output and of the new statistics; [s] is that of parameters and statistics (lines 90-101). The new statistics
      must be of the dtype of the old ones (State.set, property C17). *)
  Definition batch_norm (s : ty) (affine inference : bool) (x : ty) : res (ty * ty) :=
    '(mn, v) <-
      (if inference then Ok (s, s) else
       '(bm, bv) <- stats x ;;
       rm <- running bm s ;;
       rv <- running bv s ;;
       rm <- select bm rm ;;
       rv <- select bv rv ;;
       if ty_eqb (dtype rm) (dtype s) && ty_eqb (dtype rv) (dtype s) then Ok (rm, rv) else Err ValueError) ;;
    out <- bn_norm s affine x mn v ;;
    Ok (out, s).

  (** _dropout.py lines 86-97: [p] is the type of the probability; it may be an array. *)
  Definition dropout (p : ty) (inference : bool) (x : ty) : res ty :=
    if inference then Ok x else
    q <- WI ** p ;;
    r <- x ** q ;;
    to_inexact r ** WI.

  (** _activations.py lines 32 and 44-45. *)
  Definition prelu_init (alpha : ty) : ty := alpha.
  Definition prelu (slope x : ty) : res ty := y <- promote Standard slope x ;; promote Standard x y.

  (** _embedding.py lines 53-84, 244-255. *)
  Definition embedding (w : ty) : res ty := Ok w.
  Definition rope (d x : ty) : res ty :=
    a <- x ** d ;; b <- x ** d ;; c <- a ** b ;; Ok (dtype x).

  (** _attention.py lines 25-40. *)
  Definition attention_weights (q k : ty) (masked : bool) : res ty :=
    q <- q ** WF ;;
    logits <- to_inexact q ** k ;;
    logits <- (if masked then logits ** real_of (dtype logits) else Ok logits) ;;
    _ <- promote Standard (dtype logits) F32 ;;
    Ok (dtype logits).
  (** Lines 43-57 and 305-350; [p] is the dropout's probability. *)
  Definition attention (w : ty) (qb kb vb ob : bool) (p : ty) (inference masked : bool) (q k v : ty) : res ty :=
    qh <- linear w qb q ;;
    kh <- linear w kb k ;;
    vh <- linear w vb v ;;
    weights <- attention_weights qh kh masked ;;
    weights <- dropout p inference weights ;;
    attn <- weights ** vh ;;
    linear w ob attn.

  (** _spectral_norm.py lines 15-24. *)
  Definition power_iteration (w u v : ty) : res (ty * ty) :=
    u <- w ** v ;;
    un <- WF ** u ;;
    u <- u ** un ;;
    v <- w ** u ;;
    vn <- WF ** v ;;
    v <- v ** vn ;;
    Ok (u, v).
  Fixpoint power_iterations (n : nat) (w : ty) (uv : ty * ty) : res (ty * ty) :=
    match n with O => Ok uv | S n => uv <- power_iteration w (fst uv) (snd uv) ;; power_iterations n w uv end.
  (** Lines 100-111, and 142-157 for a linear layer: the dtypes of the output and of the new state. *)
  Definition spectral_init (w : ty) : res (ty * ty) := power_iterations 15 w (w, w).
  Definition spectral_norm (w : ty) (bias : ty) (n : nat) (inference : bool) (uv : ty * ty) (x : ty) : res (ty * (ty * ty)) :=
    uv2 <- (if inference then Ok uv else power_iterations n w uv) ;;
    if ty_eqb (dtype (fst uv2)) (dtype (fst uv)) && ty_eqb (dtype (snd uv2)) (dtype (snd uv)) then
      sigma <- (a <- fst uv2 ** w ;; a ** snd uv2) ;;
      sw <- w ** sigma ;;
      y <- sw ** x ;;
      out <- y ** bias ;;
      Ok (out, uv2)
    else Err ValueError.
End Layers.
